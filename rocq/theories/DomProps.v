(** A whole assembly of a domain (C88): theorems.

    [assembly X junk fuel F] is the result for the domain and options X started from the flags F. *)
From Coq Require Import List ZArith QArith Bool.
From Verif Require Import TupleModel RangeModel RangeProof CartModel CartProof NeighSpec FieldModel FieldSpec ArrayModel HashModel AsmModel AsmSpec AsmProof CellModel.
From Verif Require Import OccModel OccSpec HoleModel HoleSpec DomModel DomSpec DomMain DomEx.
Import ListNotations.
Local Open Scope Z_scope.
Notation flag := AsmSpec.flag.

(** An assembly gives a result, however long the loops may run, exactly if each loop looking for holes ends and grids that are asked to occlude each other overlap
    each other both ways, or not at all. *)
Theorem C88_ends : forall X, ddata_ok X -> forall junk F,
  (exists f0, forall fuel, (f0 <= fuel)%nat -> exists R, assembly X junk fuel F = Some R) <->
  finite (cells_only X (dd_detect X (active_before X F))) /\ all_pairs X (dd_detect X (active_before X F)).
Proof. exact dom_ends. Qed.
Print Assumptions C88_ends.

(** The flags and distances of each grid are the ones of C61 for what the other grids contribute. *)
Theorem C88_flags : forall X, ddata_ok X -> forall junk fuel F R, assembly X junk fuel F = Some R -> forall g, In g (dd_grids X) ->
  outcome (dd_cart X g) (dd_infer X g) (dd_fringe X g) (flags_of X F g) (contributed X R g) (flags_of X (as_flags R) g) (max_distance X (as_found R) g) (flags_of X (as_distances R) g).
Proof. exact dom_outcome. Qed.
Print Assumptions C88_flags.

(** However the grid is distributed, every execution of the assembly of its flags ends with those flags and distances. *)
Theorem C88_execution : forall X, ddata_ok X -> forall junk fuel F R, assembly X junk fuel F = Some R -> forall g n L E N H ko overlaps o S, In g (dd_grids X) ->
  partitioned (dd_cart X g) n L E N H -> loaded (dd_cart X g) n L E N H ko overlaps o S (flags_of X F g) (contributed X R g) ->
  assembles (dd_cart X g) n L E N (dd_infer X g) overlaps (dd_fringe X g) (max_distance X (as_found R) g) o S (flags_of X (as_flags R) g) (flags_of X (as_distances R) g).
Proof. exact dom_execution. Qed.
Print Assumptions C88_execution.

(** The points flagged as boundary holes are the holes of C87 for the cells found, the active points and the boundaries, inferred ones included. *)
Theorem C88_holes : forall X, ddata_ok X -> forall junk fuel F R, assembly X junk fuel F = Some R ->
  exists H, hole_input X F R H /\ forall g p, In g (dd_grids X) -> pt_in (c_range (dd_cart X g)) p -> (flag BOUNDARY_HOLE (flags_of X (as_flags R) g) p = true <-> hole H g p).
Proof. exact dom_holes. Qed.
Print Assumptions C88_holes.

(** The points flagged as occluded are the ones of C86 for the points left by hole cutting and their outer fringes; those to be removed to minimize overlap are
    the occluded ones that are marked for a grid with which overlap is to be minimized. *)
Theorem C88_occluded : forall X, ddata_ok X -> forall junk fuel F R, assembly X junk fuel F = Some R ->
  exists D, odata_ok D /\ occlusion_input X F R D /\ forall g p, In g (dd_grids X) -> pt_in (c_range (dd_cart X g)) p ->
  (flag OCCLUDED (flags_of X (as_flags R) g) p = true <-> occluded D g p) /\
  (v_minimize (contributed X R g) p = true <->
     flag OCCLUDED (flags_of X (as_flags R) g) p = true /\ exists m, In (m, g) (fo_pairs (as_found R)) /\ dd_occludes X (m, g) <> O_NONE /\ dd_minimize X (m, g) = true /\ marked D (m, g) p).
Proof. exact dom_occluded. Qed.
Print Assumptions C88_occluded.

(** A receiver that is not an orphan gets its values from a grid that can give them, and there is none whose cell is farther from receivers up to the padding, nor one as far that is better; an orphan has
    no grid that can give values; points that do not receive have no donor. *)
Theorem C88_donors : forall X, ddata_ok X -> forall junk fuel F R, assembly X junk fuel F = Some R -> forall g p, In g (dd_grids X) -> pt_in (c_range (dd_cart X g)) p ->
  (flag RECEIVER (flags_of X (as_flags R) g) p = true /\ flag ORPHAN (flags_of X (as_flags R) g) p = false /\
     exists d, can_donate X R (donor_at X R g p) g p d /\ farthest X R (donor_at X R g p) g p d /\ not_beaten X R (donor_at X R g p) g p d) \/
  (donor_at X R g p < 0 /\ flag ORPHAN (flags_of X (as_flags R) g) p = flag RECEIVER (flags_of X (as_flags R) g) p /\
     (flag RECEIVER (flags_of X (as_flags R) g) p = true -> forall m d, ~ can_donate X R m g p d)).
Proof. exact dom_donors. Qed.
Print Assumptions C88_donors.

(** What was active is active, a hole or minimized at the end, and nothing else; and so for boundaries. *)
Theorem C88_points : forall X, ddata_ok X -> forall junk fuel F R, assembly X junk fuel F = Some R -> forall g p, In g (dd_grids X) -> pt_in (c_range (dd_cart X g)) p ->
  was_active (flags_of X (as_flags R) g) p = was_active (flags_of X F g) p /\ was_boundary (flags_of X (as_flags R) g) p = was_boundary (flags_of X F g) p.
Proof. exact dom_points. Qed.
Print Assumptions C88_points.

(** Assembling again gives the same flags, distances and donors. *)
Theorem C88_again : forall X, ddata_ok X -> forall junk fuel F R, assembly X junk fuel F = Some R -> assembly X junk fuel (as_flags R) = Some R.
Proof. exact dom_again. Qed.
Print Assumptions C88_again.

(** Up to the fringe size about an active point that does not receive there is no point that was removed to minimize overlap, and every place that is not active is at a boundary. *)
Theorem C88_interior : forall X, ddata_ok X -> forall junk fuel F R, assembly X junk fuel F = Some R -> forall g u, In g (dd_grids X) -> pt_in (c_range (dd_cart X g)) u ->
  flag ACTIVE (flags_of X (as_flags R) g) u = true -> flag RECEIVER (flags_of X (as_flags R) g) u = false ->
  (forall x, pt_in (c_range (dd_cart X g)) x -> within (dd_cart X g) (dd_fringe X g) u x -> flag OVERLAP_MINIMIZED (flags_of X (as_flags R) g) x = false) /\
  (forall q w, apart (c_nd (dd_cart X g)) (dd_fringe X g) u q -> continued (dd_cart X g) BC_FALSE (flag ACTIVE (flags_of X (as_flags R) g)) q = false ->
     apart (c_nd (dd_cart X g)) 1 q w ->
     continued (dd_cart X g) BC_FALSE (fun x => flag ACTIVE (flags_of X (as_flags R) g) x && negb (boundary (flags_of X (as_flags R) g) x)) w = false).
Proof. exact dom_interior. Qed.
Print Assumptions C88_interior.

(** An occluded point lies, if occlusion is not smoothed, in a cell of another grid whose vertices were left by hole cutting and are not on the outer fringe; each is active at the end and not occluded,
    or it is overlapped by a third grid that may occlude it. *)
Theorem C88_covered : forall X, ddata_ok X -> forall junk fuel F R, assembly X junk fuel F = Some R -> forall g p, In g (dd_grids X) -> pt_in (c_range (dd_cart X g)) p ->
  dd_smoothing X g = 0 -> flag OCCLUDED (flags_of X (as_flags R) g) p = true ->
  exists m vs, In (m, g) (fo_pairs (as_found R)) /\ dd_occludes X (m, g) <> O_NONE /\ fo_vertices (as_found R) (m, g) p = Some vs /\
    forall v, In v vs -> left_active X F R m v = true /\ flag OUTER_FRINGE (flags_of X (as_flags R) m) v = false /\
      (flag ACTIVE (flags_of X (as_flags R) m) v = true /\ flag OCCLUDED (flags_of X (as_flags R) m) v = false \/
       exists m2, m2 <> g /\ m2 <> m /\ In (m2, m) (fo_pairs (as_found R)) /\ dd_occludes X (m2, m) <> O_NONE /\ celled (as_found R) (m2, m) v = true).
Proof. exact dom_covered. Qed.
Print Assumptions C88_covered.

(** With two grids: an occluded point, removed or not, lies in a cell of the other grid whose vertices are active, not occluded and not on the outer fringe at the end. *)
Theorem C88_two : forall X, ddata_ok X -> forall junk fuel F R, assembly X junk fuel F = Some R -> forall a b g p, dd_grids X = [a; b] -> In g (dd_grids X) -> pt_in (c_range (dd_cart X g)) p ->
  dd_smoothing X g = 0 -> flag OCCLUDED (flags_of X (as_flags R) g) p = true ->
  exists m vs, m <> g /\ fo_vertices (as_found R) (m, g) p = Some vs /\ vs <> [] /\
    forall v, In v vs -> flag ACTIVE (flags_of X (as_flags R) m) v = true /\ flag OCCLUDED (flags_of X (as_flags R) m) v = false /\ flag OUTER_FRINGE (flags_of X (as_flags R) m) v = false.
Proof. exact dom_pair. Qed.
Print Assumptions C88_two.

(** With three grids that occlude each other in turn all points of all grids may be removed. *)
Theorem C88_covered_refuted : exists X F R, ddata_ok X /\ (exists fuel, assembly X (fun _ => false) fuel F = Some R) /\ (exists g p, In g (dd_grids X) /\ pt_in (c_range (dd_cart X g)) p) /\
  (forall g, dd_smoothing X g = 0 /\ dd_fringe X g = 0) /\
  forall g p, In g (dd_grids X) -> pt_in (c_range (dd_cart X g)) p -> was_active (flags_of X F g) p = true /\ flag ACTIVE (flags_of X (as_flags R) g) p = false.
Proof. exact ring_refuted. Qed.
Print Assumptions C88_covered_refuted.

(** A point removed as a boundary hole may be flagged as occluded and as minimized as well. *)
Theorem C88_hole_occluded_refuted : exists X F R g p, ddata_ok X /\ (exists fuel, assembly X (fun _ => false) fuel F = Some R) /\ In g (dd_grids X) /\ pt_in (c_range (dd_cart X g)) p /\
  flag BOUNDARY_HOLE (flags_of X (as_flags R) g) p = true /\ flag OCCLUDED (flags_of X (as_flags R) g) p = true /\ flag OVERLAP_MINIMIZED (flags_of X (as_flags R) g) p = true.
Proof. exact twice_refuted. Qed.
Print Assumptions C88_hole_occluded_refuted.

(** Two lines of points that overlap: points of the second one are occluded and removed, and the ends of the overlap receive values. *)
Example C88_example : ddata_ok ln /\ exists R, ln_result = Some R /\
  map (fun k => map (fun g => where_ ln (as_flags R) g k) [1; 2]) [ACTIVE; OVERLAPPED; OCCLUDED; OVERLAP_MINIMIZED; INNER_FRINGE; OUTER_FRINGE; RECEIVER; ORPHAN] =
    [[[0; 1; 2; 3; 4; 5; 6; 7; 8; 9; 10; 11]; [3; 4; 5; 6; 7; 8; 9; 10; 11]]; [[7; 8; 9; 10; 11]; [0; 1; 2; 3; 4]]; [[]; [0; 1; 2; 3]]; [[]; [0; 1; 2]];
     [[]; [3]]; [[0; 11]; [11]]; [[0; 11]; [3; 11]]; [[0]; [11]]] /\
  as_distances R = [(1, [0; 1; 1; 1; 1; 1; 1; 1; 1; 1; 1; 0]); (2, [1; 1; 1; 0; 1; 1; 1; 1; 1; 1; 1; 0])] /\
  map (fun g => map (fun i => donor_at ln R g (T3 i 0 0)) [0; 3; 11]) [1; 2] = [[-1; -1; 2]; [-1; 1; -1]].
Proof. exact (conj ln_ok ln_some). Qed.

(** The second grid on two processes: the hypotheses of C88_execution. *)
Example C88_example_execution : exists L E N H ko overlaps o S R, ln_result = Some R /\
  partitioned (dd_cart ln 2) 2 L E N H /\ loaded (dd_cart ln 2) 2 L E N H ko overlaps o S (flags_of ln (all_active ln (fun _ _ => false)) 2) (contributed ln R 2).
Proof. exact ln_loaded. Qed.
