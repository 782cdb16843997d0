(** Property theorems C10, C11, C12, C57. *)
From Coq Require Import List ZArith Bool Lia.
From Verif Require Import TupleModel RangeModel CartModel DecompModel Base RangeProof CartProof DecompProof.
Import ListNotations.
Open Scope Z_scope.

(** C10. Subregions are pieces of the range in order along the last dimension,
    every point is in exactly one, and their lengths differ by at most one. *)
Theorem C10_subregions : forall nd r n, (1 <= nd <= 3)%nat -> 0 < n ->
  exists L, create_subregions nd r n = Some L /\ Z.of_nat (length L) = n /\
    splits r L /\
    (forall i s, nth_error L i = Some s -> forall d, (d < 3)%nat -> d <> (nd - 1)%nat ->
       tget (rb s) d = tget (rb r) d /\ tget (re s) d = tget (re r) d) /\
    (forall i j s t, nth_error L i = Some s -> nth_error L j = Some t ->
       rsize1 s (nd - 1) - rsize1 t (nd - 1) <= 1) /\
    (forall i j s t, nth_error L i = Some s -> nth_error L j = Some t -> (i < j)%nat ->
       tget (re s) (nd - 1) <= tget (rb t) (nd - 1)).
Proof. exact subregions_correct. Qed.
Print Assumptions C10_subregions.

Example C10_example :
  create_subregions 2 (mkR (T3 3 (-2) 0) (T3 5 9 1)) 4 =
  Some [mkR (T3 3 (-2) 0) (T3 5 1 1); mkR (T3 3 1 0) (T3 5 4 1);
        mkR (T3 3 4 0) (T3 5 7 1); mkR (T3 3 7 0) (T3 5 9 1)].
Proof. vm_compute; reflexivity. Qed.

(** C11. The cell domain has, per used dimension, as many cells as there are
    distinct positions in a periodic dimension and one fewer in the others. *)
Theorem C11_cell_count : forall c d, (d < c_nd c)%nat -> (d < 3)%nat ->
  let cc := cart_point_to_cell c in
  c_nd cc = c_nd c /\ c_per cc = c_per c /\ c_stor cc = UNIQUE /\
  tget (rb (c_range cc)) d = tget (rb (c_range c)) d /\
  tget (re (c_range cc)) d - tget (rb (c_range cc)) d =
    per_len c d - (if tget (c_per c) d then 0 else 1).
Proof. exact cell_count. Qed.
Print Assumptions C11_cell_count.

(** C11. Converting every rank's local range splits the cell domain. *)
Theorem C11_cell_decomposition : forall c L, dims_ok (c_nd c) (c_range c) ->
  (forall i r, nth_error L i = Some r -> dims_ok (c_nd c) r) ->
  splits (c_range c) L ->
  splits (c_range (cart_point_to_cell c)) (map (range_point_to_cell c) L).
Proof. exact cell_decomp. Qed.
Print Assumptions C11_cell_decomposition.

(** C11. The points of a set of cells are the corners of its cells. *)
Theorem C11_cell_corners : forall c cr p, rempty cr = false -> dims_ok (c_nd c) cr ->
  (pt_in (range_cell_to_point_all c cr) p <-> exists q, pt_in cr q /\ corner (c_nd c) q p).
Proof. exact cell_points. Qed.
Print Assumptions C11_cell_corners.

Definition ex_dec_cart : cart :=
  mkC 2 (mkR (T3 0 0 0) (T3 7 5 1)) (T3 false true false) UNIQUE.

Example C11_example : dims_ok 2 (c_range ex_dec_cart) /\
  c_range (cart_point_to_cell ex_dec_cart) = mkR (T3 0 0 0) (T3 6 5 1) /\
  range_point_to_cell ex_dec_cart (mkR (T3 0 0 0) (T3 3 5 1)) = mkR (T3 0 0 0) (T3 3 5 1) /\
  range_point_to_cell ex_dec_cart (mkR (T3 3 0 0) (T3 7 5 1)) = mkR (T3 3 0 0) (T3 6 5 1) /\
  range_cell_to_point_all ex_dec_cart (mkR (T3 3 0 0) (T3 6 5 1)) = mkR (T3 3 0 0) (T3 7 6 1).
Proof.
  split; [|vm_compute; auto]. intros d Hd; destruct d as [|[|[|d]]]; cbn; lia.
Qed.

(** C12. The extended range contains the local range and grows by exactly the
    amount on the sides where the grid continues, and on no other side. *)
Theorem C12_extend_grows : forall c r a, range_within r (c_range c) -> 0 <= a ->
  let e := extend_local_range c r a in
  range_within r e /\
  (forall d, (c_nd c <= d < 3)%nat -> tget (rb e) d = tget (rb r) d /\ tget (re e) d = tget (re r) d) /\
  (forall d, (d < 3)%nat -> (d < c_nd c)%nat ->
     (continues_below c r d -> tget (rb e) d = tget (rb r) d - a) /\
     (~ continues_below c r d -> tget (rb e) d = tget (rb r) d) /\
     (continues_above c r d -> tget (re e) d = tget (re r) d + a) /\
     (~ continues_above c r d -> tget (re e) d = tget (re r) d)).
Proof. exact extend_grows. Qed.
Print Assumptions C12_extend_grows.

(** C12, full statement: the extended range never crosses a non-periodic boundary.
    It is false: a local range one point away from the boundary is extended by the
    whole amount (Decomp.cpp 109-111), here in a valid decomposition over three ranks. *)
Theorem C12_extend_refuted : exists c r d,
  range_within r (c_range c) /\ rempty r = false /\ (d < c_nd c)%nat /\
  tget (c_per c) d = false /\
  tget (rb (extend_local_range c r 2)) d < tget (rb (c_range c)) d /\
  (let rank_ranges := [mkR (T3 0 0 0) (T3 1 1 1); r; mkR (T3 2 0 0) (T3 6 1 1)] in
   splits (c_range c) rank_ranges).
Proof. exact extend_crosses. Qed.
Print Assumptions C12_extend_refuted.

(** C12, restricted to local ranges whose interior sides are at least the amount
    away from non-periodic boundaries.  Missing: thinner neighbours at the boundary. *)
Theorem C12_extend_inside_partial : forall c r a, range_within r (c_range c) -> 0 <= a ->
  (forall d, (d < c_nd c)%nat -> (d < 3)%nat -> tget (c_per c) d = false ->
     (tget (rb r) d = tget (rb (c_range c)) d \/ tget (rb (c_range c)) d + a <= tget (rb r) d) /\
     (tget (re r) d = tget (re (c_range c)) d \/ tget (re r) d + a <= tget (re (c_range c)) d)) ->
  forall d, (d < 3)%nat -> tget (c_per c) d = false ->
    tget (rb (c_range c)) d <= tget (rb (extend_local_range c r a)) d /\
    tget (re (extend_local_range c r a)) d <= tget (re (c_range c)) d.
Proof. exact extend_inside. Qed.
Print Assumptions C12_extend_inside_partial.

Example C12_example :
  let r := mkR (T3 0 2 0) (T3 4 5 1) in
  range_within r (c_range ex_dec_cart) /\
  extend_local_range ex_dec_cart r 2 = mkR (T3 0 0 0) (T3 6 7 1).
Proof.
  split; [|vm_compute; auto]. intros d Hd; destruct d as [|[|[|d]]]; cbn; lia.
Qed.

(** C57. Adding the layer of exterior points: a point belongs to an extended local
    range exactly when pulling it back onto the domain gives a point of the local
    range, so a decomposition of the domain becomes one of the extended domain. *)
Theorem C57_exterior_points : forall c r p,
  rempty r = false -> dims_ok (c_nd c) r -> pt_subset r (c_range c) ->
  (pt_in (range_include_exterior c r) p <-> exists q, pt_in r q /\ pulled_back c p q).
Proof. exact exterior_in. Qed.
Print Assumptions C57_exterior_points.

Theorem C57_exterior_decomposition : forall c L,
  dims_ok (c_nd c) (c_range c) -> rempty (c_range c) = false ->
  (forall i r, nth_error L i = Some r -> dims_ok (c_nd c) r /\ rempty r = false) ->
  splits (c_range c) L ->
  splits (c_range (cart_include_exterior c)) (map (range_include_exterior c) L).
Proof. exact exterior_decomp. Qed.
Print Assumptions C57_exterior_decomposition.

Example C57_example :
  c_range (cart_include_exterior ex_dec_cart) = mkR (T3 (-1) 0 0) (T3 8 5 1) /\
  range_include_exterior ex_dec_cart (mkR (T3 3 0 0) (T3 7 5 1)) = mkR (T3 3 0 0) (T3 8 5 1) /\
  pulled_back ex_dec_cart (T3 7 4 0) (T3 6 4 0).
Proof.
  split; [reflexivity|split; [reflexivity|]].
  intros d Hd; destruct d as [|[|[|d]]]; cbn; lia.
Qed.
