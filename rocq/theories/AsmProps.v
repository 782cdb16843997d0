(** Properties of assemblies, as far as the flags of one grid are concerned: C61 to C67. *)
From Coq Require Import List ZArith Bool Lia.
From Verif Require Import TupleModel RangeModel Base RangeProof CartModel CartProof DecompModel DecompProof IndexerModel ArrayModel.
From Verif Require Import ContModel HashModel ProtoModel ProtoSpec NetModel NetSpec DDecompProof NeighSpec NeighProof.
From Verif Require Import HaloModel HaloEx PartModel PartProof FieldModel FieldSpec FieldProof FieldProps CompProps AsmModel AsmSpec AsmMain AsmEx.
Import ListNotations.
Local Open Scope Z_scope.

(** C61. What a grid's flags and distances are after an assembly depends on its flags before and on what
    the other grids contribute, not on how the grid is decomposed, on how far its fields are extended, nor on the
    order in which messages arrive. *)
Theorem C61_decomposition_partial : forall c n1 L1 E1 N1 H1 ko1 overlaps1 o1 S1 n2 L2 E2 N2 H2 ko2 overlaps2 o2 S2 infer fringe max fl v,
  partitioned c n1 L1 E1 N1 H1 -> partitioned c n2 L2 E2 N2 H2 ->
  loaded c n1 L1 E1 N1 H1 ko1 overlaps1 o1 S1 fl v -> loaded c n2 L2 E2 N2 H2 ko2 overlaps2 o2 S2 fl v -> 0 <= fringe -> 1 <= max ->
  exists fl' dist, assembles c n1 L1 E1 N1 infer overlaps1 fringe max o1 S1 fl' dist /\
                   assembles c n2 L2 E2 N2 infer overlaps2 fringe max o2 S2 fl' dist.
Proof. exact assembly_decomposition. Qed.
Print Assumptions C61_decomposition_partial.

(** Such states exist for all flags and contributions. *)
Theorem C61_loaded : forall c n L E N H fl v, partitioned c n L E N H ->
  exists ko overlaps o S, loaded c n L E N H ko overlaps o S fl v.
Proof. exact loaded_exists. Qed.
Print Assumptions C61_loaded.

(** C62. Assembling again with the same contributions leaves all flags and distances as they are. *)
Theorem C62_again_partial : forall c n L E N H ko overlaps o S infer fringe max fl v,
  partitioned c n L E N H -> loaded c n L E N H ko overlaps o S fl v -> 0 <= fringe -> 1 <= max ->
  (forall u, pt_in (c_range c) u -> v_hole v u = true \/ v_minimize v u = true -> was_active fl u = true) ->
  exists fl' dist, assembles c n L E N infer overlaps fringe max o S fl' dist /\
    forall S2, loaded c n L E N H ko overlaps o S2 fl' v -> assembles c n L E N infer overlaps fringe max o S2 fl' dist.
Proof. exact assembly_again. Qed.
Print Assumptions C62_again_partial.

(** C63. Boundaries are inferred exactly where the active region ends, no boundary is given and no grid
    overlaps; the flags the user gave are kept. *)
Theorem C63_boundaries_partial : forall c n L E N H ko infer overlaps fringe max o S fl v,
  partitioned c n L E N H -> loaded c n L E N H ko overlaps o S fl v -> 0 <= fringe -> 1 <= max ->
  exists fl' dist, assembles c n L E N infer overlaps fringe max o S fl' dist /\
    others_kept c fl fl' /\ given_flags c v fl' /\ boundaries_inferred c infer fl v fl'.
Proof. exact assembly_flags. Qed.
Print Assumptions C63_boundaries_partial.

(** A grid to which no other grid contributes anything gets no receivers, no orphans and no fringe, and loses no point. *)
Theorem C63_alone_partial : forall c n L E N H ko infer overlaps fringe max o S fl v,
  partitioned c n L E N H -> loaded c n L E N H ko overlaps o S fl v -> 0 <= fringe -> 1 <= max -> infer = true ->
  (forall u, pt_in (c_range c) u -> Forall (fun m => m u = false) (v_overlaps v) /\ v_hole v u = false /\ v_occluded v u = false /\ v_minimize v u = false) ->
  exists fl' dist, assembles c n L E N infer overlaps fringe max o S fl' dist /\
  forall u, pt_in (c_range c) u ->
    flag RECEIVER fl' u = false /\ flag ORPHAN fl' u = false /\ flag FRINGE fl' u = false /\ flag ACTIVE fl' u = was_active fl u.
Proof. exact assembly_alone. Qed.
Print Assumptions C63_alone_partial.

(** C64. The outer fringe: the active points at most FringeSize from a place that is not active and
    next to an active point that is not on a boundary. *)
Theorem C64_outer_partial : forall c n L E N H ko infer overlaps fringe max o S fl v,
  partitioned c n L E N H -> loaded c n L E N H ko overlaps o S fl v -> 0 <= fringe -> 1 <= max ->
  exists fl' dist, assembles c n L E N infer overlaps fringe max o S fl' dist /\ outer_fringe c fringe fl v fl'.
Proof. exact assembly_outer. Qed.
Print Assumptions C64_outer_partial.

(** What the fringes are for: about an active point that is not a receiver, up to FringeSize away, no point was removed
    by minimizing overlap, and the places that are not active are next to boundaries only. *)
Theorem C64_interior_partial : forall c n L E N H ko infer overlaps fringe max o S fl v,
  partitioned c n L E N H -> loaded c n L E N H ko overlaps o S fl v -> 0 <= fringe -> 1 <= max ->
  exists fl' dist, assembles c n L E N infer overlaps fringe max o S fl' dist /\
  forall u, pt_in (c_range c) u -> flag ACTIVE fl' u = true -> flag RECEIVER fl' u = false ->
  (forall x, pt_in (c_range c) x -> within c fringe u x -> flag OVERLAP_MINIMIZED fl' x = false) /\
  (forall q w, apart (c_nd c) fringe u q -> continued c BC_FALSE (flag ACTIVE fl') q = false -> apart (c_nd c) 1 q w ->
     continued c BC_FALSE (fun x => flag ACTIVE fl' x && negb (boundary fl' x)) w = false).
Proof. exact assembly_interior. Qed.
Print Assumptions C64_interior_partial.

(** C65. Minimizing overlap removes the points to be minimized about which, up to FringeSize, all active points are occluded;
    the points left that close to removed ones are the inner fringe, and are occluded. *)
Theorem C65_minimized_partial : forall c n L E N H ko infer overlaps fringe max o S fl v,
  partitioned c n L E N H -> loaded c n L E N H ko overlaps o S fl v -> 0 <= fringe -> 1 <= max ->
  exists fl' dist, assembles c n L E N infer overlaps fringe max o S fl' dist /\ overlap_minimized c fringe fl v fl' /\
  forall u, pt_in (c_range c) u -> flag INNER_FRINGE fl' u = true -> flag FRINGE fl' u = true /\ flag OCCLUDED fl' u = true.
Proof. exact assembly_minimized. Qed.
Print Assumptions C65_minimized_partial.

(** The flag FRINGE does not mean that a point belongs to one of the fringes: removing a point takes away its flag
    OUTER_FRINGE but not FRINGE. *)
Theorem C65_fringe_refuted : exists c n L E N H ko overlaps o S infer fringe max fl v,
  partitioned c n L E N H /\ loaded c n L E N H ko overlaps o S fl v /\ 0 <= fringe /\ 1 <= max /\
  exists fl' dist u, assembles c n L E N infer overlaps fringe max o S fl' dist /\ pt_in (c_range c) u /\
    flag FRINGE fl' u = true /\ flag ACTIVE fl' u = false /\ flag OUTER_FRINGE fl' u = false /\ flag INNER_FRINGE fl' u = false.
Proof. exact minimized_fringe. Qed.
Print Assumptions C65_fringe_refuted.

(** C66. The receivers are the active points of the fringes and the active occluded points, the orphans the receivers
    for which there is no donor; and the flags fit each other. *)
Theorem C66_receivers_partial : forall c n L E N H ko infer overlaps fringe max o S fl v,
  partitioned c n L E N H -> loaded c n L E N H ko overlaps o S fl v -> 0 <= fringe -> 1 <= max ->
  (forall u, pt_in (c_range c) u -> v_minimize v u = true -> v_occluded v u = true) ->
  exists fl' dist, assembles c n L E N infer overlaps fringe max o S fl' dist /\ receivers c v fl' /\
  forall u, pt_in (c_range c) u ->
    (flag ORPHAN fl' u = true -> flag RECEIVER fl' u = true) /\ (flag RECEIVER fl' u = true -> flag ACTIVE fl' u = true) /\
    (flag OUTER_FRINGE fl' u = true \/ flag INNER_FRINGE fl' u = true -> flag RECEIVER fl' u = true /\ flag FRINGE fl' u = true) /\
    (flag BOUNDARY_HOLE fl' u = true -> flag ACTIVE fl' u = false) /\
    (flag OVERLAP_MINIMIZED fl' u = true -> flag ACTIVE fl' u = false /\ flag OCCLUDED fl' u = true).
Proof. exact assembly_receivers. Qed.
Print Assumptions C66_receivers_partial.

(** C67. The distances by which donors are compared: from each point to the edge of the receivers, negative at
    receivers, as far as the greatest edge padding requires. *)
Theorem C67_distances_partial : forall c n L E N H ko infer overlaps fringe max o S fl v,
  partitioned c n L E N H -> loaded c n L E N H ko overlaps o S fl v -> 0 <= fringe -> 1 <= max ->
  exists fl' dist, assembles c n L E N infer overlaps fringe max o S fl' dist /\ distances c fl' max dist.
Proof. exact assembly_distances. Qed.
Print Assumptions C67_distances_partial.

(** Not all receivers have a distance of 0 or less: those farther inside get the greatest distance there is,
    which makes them the best donors. *)
Theorem C67_sign_refuted : exists c n L E N H ko overlaps o S infer fringe max fl v,
  partitioned c n L E N H /\ loaded c n L E N H ko overlaps o S fl v /\ 0 <= fringe /\ 1 <= max /\
  exists fl' dist u, assembles c n L E N infer overlaps fringe max o S fl' dist /\ pt_in (c_range c) u /\
    flag RECEIVER fl' u = true /\ dist u = max.
Proof. exact receiver_far. Qed.
Print Assumptions C67_sign_refuted.

(** Example: the assembly of AsmEx.v on 2 x 2 ranks, with a fringe of 1 and distances up to 3.  In the rows of flags, 3 is an
    active boundary point, 9 an active overlapped one, 2441 an outer fringe point, 40 the hole, 1224 a removed point, 2761 an inner
    fringe point, 3017 a point of both fringes, 7113 an orphan. *)
Definition ax_N (r : nat) : list nat := filter (fun q => negb (q =? r)%nat) (seq 0 4).
Definition ax_S : nat -> ast := ast_from ex_c ex_L fx_E ax_N fx_H ax_fl ax_v.
Definition ax_rank (x y : Z) : nat := ((if (x <? 3)%Z then 0 else 1) + (if (y <? 2)%Z then 0 else 2))%nat.
Definition ax_rows (k : nat) (s : net ast amsg) : list (list (option Z)) :=
  map (fun y => map (fun x => let r := ax_rank x y in zx_get (nth k (a_z (n_st s r)) []) r (T3 x y 0)) [0; 1; 2; 3; 4; 5]) [0; 1; 2; 3].

Example C61_example :
  (exists N H, partitioned ex_c 4 ex_L fx_E N H /\ exists ko overlaps o S, loaded ex_c 4 ex_L fx_E N H ko overlaps o S ax_fl ax_v) /\
  match final 4 (assemble ex_c 4 ex_L fx_E true [1%nat] 1 3 0) 12 4900 ax_S with
  | Some s =>
      forallb (fun r => (n_pc s r =? length (assemble ex_c 4 ex_L fx_E true [1%nat] 1 3 0))%nat) (seq 0 4) = true /\
      ax_rows Z_FLAGS s =
        [[Some 3; Some 3; Some 3; Some 3; Some 3; Some 3];
         [Some 2441; Some 9; Some 9; Some 9; Some 2441; Some 2441];
         [Some 3017; Some 2761; Some 2761; Some 2761; Some 3017; Some 40];
         [Some 7113; Some 1224; Some 1224; Some 1224; Some 3017; Some 2441]] /\
      ax_rows Z_DIST s =
        [[Some 1; Some 1; Some 2; Some 1; Some 1; Some 1];
         [Some 0; Some 1; Some 1; Some 1; Some 0; Some 0];
         [Some 0; Some 0; Some 0; Some 0; Some 0; Some 1];
         [Some 0; Some 1; Some 1; Some 1; Some 0; Some 0]]
  | None => False
  end.
Proof.
  split.
  - destruct ex_part as (N & H & P). exists N, H. split; [exact P|]. exact (C61_loaded _ _ _ _ _ _ ax_fl ax_v P).
  - vm_compute. repeat split; reflexivity.
Qed.

(** The contributions of the example remove active points only, and minimize occluded points only; with no
    contribution, the bottom and the top row get an inferred boundary. *)
Example C62_example : forall u, pt_in (c_range ex_c) u ->
  (v_hole ax_v u = true \/ v_minimize ax_v u = true -> was_active ax_fl u = true) /\ (v_minimize ax_v u = true -> v_occluded ax_v u = true).
Proof. intros u _. split; [intros _; unfold was_active, flag, ax_fl; destruct (c1 u =? 0); reflexivity|auto]. Qed.

Definition ax_alone : given := Given (fun _ => false) [fun _ => false] (fun _ => false) (fun _ => false) (fun _ => false) (fun _ => true).
Example C63_example :
  (forall u, pt_in (c_range ex_c) u -> Forall (fun m => m u = false) (v_overlaps ax_alone) /\ v_hole ax_alone u = false /\ v_occluded ax_alone u = false /\ v_minimize ax_alone u = false) /\
  match final 4 (assemble ex_c 4 ex_L fx_E true [1%nat] 1 3 0) 12 4900 (ast_from ex_c ex_L fx_E ax_N fx_H ax_fl ax_alone) with
  | Some s => ax_rows Z_FLAGS s = [repeat (Some 3) 6; repeat (Some 1) 6; repeat (Some 1) 6; repeat (Some 19) 6]
  | None => False
  end.
Proof. split; [intros u _; repeat split; repeat constructor|vm_compute; reflexivity]. Qed.

(** Without inferring boundaries the top row is a fringe that nothing covers. *)
Example C66_example :
  match final 4 (assemble ex_c 4 ex_L fx_E false [1%nat] 1 3 0) 12 4900 (ast_from ex_c ex_L fx_E ax_N fx_H ax_fl ax_alone) with
  | Some s => ax_rows Z_FLAGS s = [repeat (Some 3) 6; repeat (Some 1) 6; repeat (Some 1) 6; repeat (Some (1 + 128 + 256 + 2048 + 4096)) 6]
  | None => False
  end.
Proof. vm_compute. reflexivity. Qed.
