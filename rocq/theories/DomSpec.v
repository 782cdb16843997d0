(** A whole assembly: what its result should be. *)
From Coq Require Import List ZArith QArith Bool Sorting.Sorted.
From Verif Require Import TupleModel RangeModel RangeProof CartModel CartProof NeighSpec FieldModel FieldSpec AsmModel AsmSpec CellModel.
From Verif Require Import OccModel OccSpec HoleModel HoleSpec DomModel.
Import ListNotations.
Local Open Scope Z_scope.

(** A grid that stores each of its points once. *)
Definition grid_ok (c : cart) : Prop :=
  (1 <= c_nd c <= 3)%nat /\ cart_ok c /\ stored_once c /\
  (forall d, (d < 3)%nat -> tget (rb (c_range c)) d < tget (re (c_range c)) d) /\
  (forall d, (c_nd c <= d < 3)%nat -> tget (c_per c) d = false /\ tget (rb (c_range c)) d = 0 /\ tget (re (c_range c)) d = 1).

Section Spec.
Variable X : ddata.
Notation cart_of := (dd_cart X).
Notation rng g := (c_range (dd_cart X g)).

(** What detection is known to find: pairs of different grids, in order; cells for active points only, with active vertices. *)
Record found_ok (A : fields bool) (V : found) : Prop := FoundOk {
  fk_pairs : StronglySorted (fun a b => fst a < fst b \/ fst a = fst b /\ snd a < snd b) (fo_pairs V);
  fk_grids : forall k, In k (fo_pairs V) -> In (fst k) (dd_grids X) /\ In (snd k) (dd_grids X) /\ fst k <> snd k;
  fk_cells : forall k p vs, fo_vertices V k p = Some vs -> In k (fo_pairs V) /\ vs <> [] /\ pt_in (rng (snd k)) p /\ mask_of X A (snd k) p = true /\
    forall v, In v vs -> pt_in (rng (fst k)) v /\ mask_of X A (fst k) v = true }.

Record ddata_ok : Prop := DdataOk {
  dk_grids : NoDup (dd_grids X) /\ forall g, In g (dd_grids X) -> 0 <= g;
  dk_carts : forall g, grid_ok (cart_of g);
  dk_detect : forall A, found_ok A (dd_detect X A);
  dk_fringe : forall g, 0 <= dd_fringe X g;
  dk_padding : forall k, 0 <= dd_padding X k < 999999;
  dk_smoothing : forall g, 0 <= dd_smoothing X g }.

(** The flags and distances of a grid as functions on its points. *)
Definition flags_of (F : fields Z) (g : Z) : tup Z -> Z := value 0 (cart_of g) (values F g).
Definition donor_at (R : assembled) (g : Z) (p : tup Z) : Z := s_id (value (DS (-1) 0%Q 0%Q) (cart_of g) (values (as_donors R) g) p).

(** The points of g with a cell of another grid. *)
Definition celled (V : found) (k : Z * Z) : pmask := fun p => match fo_vertices V k p with Some _ => true | None => false end.
Definition to_grid (V : found) (g : Z) : list (Z * Z) := filter (fun k => snd k =? g) (fo_pairs V).

(** What the other grids contribute to the flags of g (C61). *)
Definition contributed (R : assembled) (g : Z) : given :=
  Given (fun p => existsb (fun k => celled (as_found R) k p) (to_grid (as_found R) g)) (map (celled (as_found R)) (to_grid (as_found R) g))
    (mask_of X (as_holes R) g) (mask_of X (as_occluded R) g) (mask_of X (as_cand R) g) (fun p => donor_at R g p <? 0).

(** The data of HoleSpec: the points that were active, the cells, and the domain boundaries, given or inferred. *)
Definition hole_input (F : fields Z) (R : assembled) (H : hdata) : Prop :=
  hd_grids H = dd_grids X /\ hd_cart H = cart_of /\ hd_pairs H = fo_pairs (as_found R) /\ hd_vertices H = fo_vertices (as_found R) /\ hd_cut H = dd_cut X /\
  forall g p, In g (dd_grids X) -> pt_in (rng g) p ->
    hd_active H g p = was_active (flags_of F g) p /\
    hd_boundary H g p = was_active (flags_of F g) p && flag DOMAIN_BOUNDARY (flags_of (as_flags R) g) p /\
    (forall k, snd k = g -> In k (fo_pairs (as_found R)) -> hd_overlap H k p = celled (as_found R) k p).

(** The points of g left when holes are cut. *)
Definition left_active (F : fields Z) (R : assembled) (g : Z) : pmask := fun p => was_active (flags_of F g) p && negb (flag BOUNDARY_HOLE (flags_of (as_flags R) g) p).

(** The data of OccSpec: the active points are those left; points are overlapped by cells with active vertices; the fringe is the outer fringe. *)
Definition occlusion_input (F : fields Z) (R : assembled) (D : odata) : Prop :=
  od_grids D = dd_grids X /\ od_cart D = cart_of /\ od_pairs D = fo_pairs (as_found R) /\ od_vertices D = fo_vertices (as_found R) /\
  od_interp D = fo_interp (as_found R) /\ od_volume D = dd_volume X /\ od_occludes D = dd_occludes X /\ od_padding D = dd_padding X /\ od_smoothing D = dd_smoothing X /\
  forall g p, In g (dd_grids X) -> pt_in (rng g) p ->
    od_active D g p = left_active F R g p /\
    (od_fringe D g p = true <-> outer (cart_of g) (dd_fringe X g) (flags_of F g) (contributed R g) (flags_of (as_flags R) g) p) /\
    (forall k, snd k = g -> In k (fo_pairs (as_found R)) -> (od_overlap D k p = true <->
       exists vs, fo_vertices (as_found R) k p = Some vs /\ forall v, In v vs -> left_active F R (fst k) v = true)).

(** Grid m can give values to point p of g: it is asked to, and there is a cell whose vertices are active at the end; d is the
    least of their distances to the edge of the receivers. *)
Definition can_donate (R : assembled) (m g : Z) (p : tup Z) (d : Z) : Prop :=
  In (m, g) (fo_pairs (as_found R)) /\ dd_connects X (m, g) = true /\ (dd_disjoint X (m, g) = true -> 0 < d) /\
  exists vs, fo_vertices (as_found R) (m, g) p = Some vs /\
    (forall v, In v vs -> flag ACTIVE (flags_of (as_flags R) m) v = true /\ d <= flags_of (as_distances R) m v) /\
    (exists v, In v vs /\ d = flags_of (as_distances R) m v).

(** No other grid is relatively farther from the edge. *)
Definition farthest (R : assembled) (m g : Z) (p : tup Z) (d : Z) : Prop :=
  forall m' d', can_donate R m' g p d' ->
    Z.min d' (1 + dd_padding X (m', g)) * (1 + dd_padding X (m, g)) <= Z.min d (1 + dd_padding X (m, g)) * (1 + dd_padding X (m', g)).

(** Among those as far away there is no better one: none of the grids with larger numbers, and none at all if all grids are asked to occlude each other in the same way. *)
Definition not_beaten (R : assembled) (m g : Z) (p : tup Z) (d : Z) : Prop :=
  forall m' d', can_donate R m' g p d' ->
    Z.min d' (1 + dd_padding X (m', g)) * (1 + dd_padding X (m, g)) = Z.min d (1 + dd_padding X (m, g)) * (1 + dd_padding X (m', g)) ->
    (m < m' -> dd_occludes X (m, m') = O_ALL \/ dd_occludes X (m, m') = O_COARSE /\ (fo_interp (as_found R) (m, g) p <= fo_interp (as_found R) (m', g) p)%Q) /\
    ((forall a b, In (a, g) (fo_pairs (as_found R)) -> In (b, g) (fo_pairs (as_found R)) -> a < b -> dd_occludes X (a, b) = O_COARSE) ->
       (fo_interp (as_found R) (m, g) p < fo_interp (as_found R) (m', g) p)%Q \/ (fo_interp (as_found R) (m, g) p == fo_interp (as_found R) (m', g) p)%Q /\ m <= m') /\
    ((forall a b, In (a, g) (fo_pairs (as_found R)) -> In (b, g) (fo_pairs (as_found R)) -> a < b -> dd_occludes X (a, b) = O_ALL) -> m <= m') /\
    ((forall a b, In (a, g) (fo_pairs (as_found R)) -> In (b, g) (fo_pairs (as_found R)) -> a < b -> dd_occludes X (a, b) = O_NONE) -> m' <= m).

(** What detection is given: the points that were active. *)
Definition active_before (F : fields Z) : fields bool := masks_for X (fun g => was_active (flags_of F g)).
(** The data of HoleSpec that say whether each loop looking for holes ends: the cells only. *)
Definition cells_only (V : found) : hdata := HD (dd_grids X) cart_of (fo_pairs V) (fo_vertices V) (celled V) (fun _ _ => false) (fun _ _ => false) (dd_cut X).
(** Pairs that are asked to occlude each other exist both ways. *)
Definition all_pairs (V : found) : Prop := forall k, In k (fo_pairs V) -> dd_occludes X k <> O_NONE -> dd_occludes X (swap k) <> O_NONE -> In (swap k) (fo_pairs V).
End Spec.
