(** Property theorems C01, C02, C03, C06. *)
From Coq Require Import List ZArith Bool Lia.
From Verif Require Import TupleModel RangeModel Base RangeProof.
Import ListNotations.
Open Scope Z_scope.

(** C01. Point-set semantics of every range operation. *)
Theorem C01_range_algebra :
  (forall r p, rcontains r p = true <-> pt_in r p) /\
  (forall r, rempty r = true <-> forall p, ~ pt_in r p) /\
  (forall r o, rincludes r o = true <-> pt_subset o r) /\
  (forall l r, ranges_overlap l r = true <-> exists p, pt_in l p /\ pt_in r p) /\
  (forall l r p, pt_in (intersect_ranges l r) p <-> pt_in l p /\ pt_in r p) /\
  (forall l r, pt_subset l (union_ranges l r) /\ pt_subset r (union_ranges l r) /\
     forall s, pt_subset l s -> pt_subset r s -> pt_subset (union_ranges l r) s) /\
  (forall r q, pt_subset r (extend_range r q) /\ pt_in (extend_range r q) q /\
     forall s, pt_subset r s -> pt_in s q -> pt_subset (extend_range r q) s) /\
  (forall nd, (1 <= nd)%nat -> rempty (make_empty_range nd) = true).
Proof.
  exact (conj rcontains_spec (conj rempty_spec (conj includes_spec (conj overlap_spec
    (conj intersect_spec (conj
      (fun l r => conj (union_upper_l l r) (conj (union_upper_r l r) (union_least l r)))
      (conj (fun r q => conj (extend_upper r q) (conj (extend_contains r q) (extend_least r q)))
            make_empty_range_empty))))))).
Qed.
Print Assumptions C01_range_algebra.

Example C01_example :
  let a := mkR (T3 0 0 0) (T3 4 4 1) in let b := mkR (T3 3 (-2) 0) (T3 6 1 1) in
  pt_in a (T3 3 0 0) /\ pt_in b (T3 3 0 0) /\ ranges_overlap a b = true /\
  union_ranges a b = mkR (T3 0 (-2) 0) (T3 6 4 1) /\
  ranges_overlap a (mkR (T3 4 0 0) (T3 6 4 1)) = false.
Proof. vm_compute; repeat split; congruence. Qed.

(** C02. Iteration visits each point exactly once in both layouts, and Count
    is the number of visited points. *)
Theorem C02_range_count : forall r,
  (NoDup (foreach_row r) /\ (forall p, In p (foreach_row r) <-> pt_in r p) /\
   Z.of_nat (length (foreach_row r)) = rcount r) /\
  (NoDup (foreach_col r) /\ (forall p, In p (foreach_col r) <-> pt_in r p) /\
   Z.of_nat (length (foreach_col r)) = rcount r) /\
  (rcount r = 0 <-> rempty r = true).
Proof.
  exact (fun r => conj
    (conj (foreach_row_NoDup r) (conj (foreach_row_In r) (foreach_row_length r))) (conj
    (conj (foreach_col_NoDup r) (conj (foreach_col_In r) (foreach_col_length r)))
    (rcount_empty r))).
Qed.
Print Assumptions C02_range_count.

Example C02_example :
  let r := mkR (T3 (-1) 2 0) (T3 1 4 1) in
  foreach_col r = [T3 (-1) 2 0; T3 0 2 0; T3 (-1) 3 0; T3 0 3 0] /\ rcount r = 4 /\
  rcount (mkR (T3 3 3 3) (T3 1 1 1)) = 0.
Proof. vm_compute; repeat split. Qed.

(** C03. Clamping is the coordinate-wise nearest-point projection. *)
Theorem C03_clamp : forall r p, (exists q, pt_in r q) ->
  pt_in r (clamp_to_range r p) /\
  (pt_in r p -> clamp_to_range r p = p) /\
  (forall q d, pt_in r q -> (d < 3)%nat ->
     Z.abs (tget (clamp_to_range r p) d - tget p d) <= Z.abs (tget q d - tget p d)).
Proof.
  exact (fun r p H => let E := proj2 (rempty_false_ex r) H in
    conj (clamp_in r p E) (conj (clamp_fixed r p)
      (fun q d Hq Hd => clamp_nearest r p q d E Hq Hd))).
Qed.
Print Assumptions C03_clamp.

Example C03_example :
  let r := mkR (T3 0 0 0) (T3 4 4 1) in
  (exists q, pt_in r q) /\ clamp_to_range r (T3 7 (-3) 0) = T3 3 0 0.
Proof. split; [exists (T3 0 0 0); unfold pt_in; cbn; lia|reflexivity]. Qed.

(** C06. The uniform cell of a coordinate is the one containing it; dimensions
    beyond NumDims give 0. *)
Theorem C06_uniform_cell : forall nd o s p, (nd <= 3)%nat ->
  (forall d, (d < nd)%nat -> 0 < tget s d) ->
  exists c, map_to_uniform_grid_cell nd o s p = Some c /\
    (forall d, (d < nd)%nat ->
       tget o d + tget c d * tget s d <= tget p d < tget o d + (tget c d + 1) * tget s d) /\
    (forall d, (nd <= d < 3)%nat -> tget c d = 0).
Proof. exact uniform_cell_spec. Qed.
Print Assumptions C06_uniform_cell.

Theorem C06_uniform_cell_unique : forall nd o s p c c', (nd <= 3)%nat ->
  (forall d, (d < nd)%nat -> 0 < tget s d) ->
  map_to_uniform_grid_cell nd o s p = Some c ->
  (forall d, (d < nd)%nat ->
     tget o d + tget c' d * tget s d <= tget p d < tget o d + (tget c' d + 1) * tget s d) ->
  forall d, (d < nd)%nat -> tget c' d = tget c d.
Proof. exact uniform_cell_unique. Qed.
Print Assumptions C06_uniform_cell_unique.

Example C06_example :
  map_to_uniform_grid_cell 2 (T3 2 0 0) (T3 3 4 1) (T3 (-5) 7 9) = Some (T3 (-3) 1 0).
Proof. reflexivity. Qed.
