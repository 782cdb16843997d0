(** Property theorems C05, C44, C45, C56. *)
From Coq Require Import List ZArith Bool Lia.
From Verif Require Import TupleModel RangeModel IndexerModel ArrayModel Base IndexerProof ArrayProof.
Import ListNotations.
Open Scope Z_scope.

(** C05. For any rank and layout, indexing is a bijection between the tuples of the
    extents and 0..Count-1, with the index-to-tuple map as inverse; iteration visits
    the tuples of the extents in index order; and the index order is the layout's
    storage order. *)
Theorem C05_indexer_bijection : forall lay ext,
  (forall t, in_ext ext t -> 0 <= to_index (indexer lay ext) t < ecount ext /\
     to_tuple lay (indexer lay ext) (to_index (indexer lay ext) t) = Some t) /\
  (forall i, 0 <= i < ecount ext -> exists t,
     to_tuple lay (indexer lay ext) i = Some t /\ in_ext ext t /\
     to_index (indexer lay ext) t = i) /\
  (forall t, In t (foreach lay ext) <-> in_ext ext t) /\
  map (to_index (indexer lay ext)) (foreach lay ext) = zseq 0 (Z.to_nat (ecount ext)) /\
  (forall t u, in_ext ext t -> in_ext ext u ->
    (storage_before lay t u <-> to_index (indexer lay ext) t < to_index (indexer lay ext) u)).
Proof. exact indexer_bijection. Qed.
Print Assumptions C05_indexer_bijection.

Example C05_example :
  let ext := [(-1, 2); (4, 6); (0, 3); (7, 9)] in
  in_ext ext [1; 5; 0; 8] /\
  to_index (indexer RowMajor ext) [1; 5; 0; 8] = 31 /\
  to_tuple RowMajor (indexer RowMajor ext) 31 = Some [1; 5; 0; 8] /\
  to_index (indexer ColMajor ext) [1; 5; 0; 8] = 23 /\
  to_tuple ColMajor (indexer ColMajor ext) 23 = Some [1; 5; 0; 8].
Proof.
  split; [|vm_compute; auto]. repeat constructor; cbn; lia.
Qed.

(** C44. Resizing is defined for every well-formed array, keeps the values of
    common tuples and fills all others. *)
Theorem C44_array_resize : forall V lay (a : array V) ext v,
  array_wf a -> length ext = length (a_ext a) ->
  exists a', aresize lay a ext v = Some a' /\ a_ext a' = ext /\ array_wf a' /\
    (forall t, in_ext ext t -> in_ext (a_ext a) t -> aget lay a' t = aget lay a t) /\
    (forall t, in_ext ext t -> ~ in_ext (a_ext a) t -> aget lay a' t = Some v).
Proof. exact @aresize_correct. Qed.
Print Assumptions C44_array_resize.

Example C44_example :
  let a := mkA [(0, 2); (0, 2)] [1; 2; 3; 4] in
  array_wf a /\
  aresize RowMajor a [(0, 3); (0, 2)] 9 = Some (mkA [(0, 3); (0, 2)] [1; 2; 3; 4; 9; 9]) /\
  aresize RowMajor a [(1, 3); (-1, 2)] 9 = Some (mkA [(1, 3); (-1, 2)] [9; 3; 4; 9; 9; 9]) /\
  aresize ColMajor a [(0, 3); (0, 2)] 9 = Some (mkA [(0, 3); (0, 2)] [1; 2; 9; 3; 4; 9]).
Proof. vm_compute; auto. Qed.

(** C45, full statement: assigning a sequence of the right length to any array
    gives an array holding that sequence.  It is false when the array shrinks:
    the overwriting loop runs over the old values (Array.hpp 145) and reads past
    the end of the source; with a longer underlying sequence the storage keeps too
    many values and the next Append is not readable at its own index.  The bool
    specialisation of the vector's Assign has the same loop (Vector.hpp 71). *)
Theorem C45_array_assign_refuted :
  (exists (a : array Z) ext src, array_wf a /\ Z.of_nat (length src) = ecount ext /\
     aassign_iter a ext src = None) /\
  (exists (a a' : array Z) ext src v, array_wf a /\ aassign_iter a ext src = Some a' /\
     ~ array_wf a' /\ aget RowMajor (aappend a' v) [ecount ext] <> Some v) /\
  (exists (old src : list bool), vassign_bool old src = None).
Proof. exact aassign_refuted. Qed.
Print Assumptions C45_array_assign_refuted.

(** C45, restricted to assignments that do not shrink the array.  Missing: the
    shrinking case, which is undefined behaviour in the code (third conjunct). *)
Theorem C45_array_assign_partial : forall V (a : array V) ext src,
  array_wf a -> Z.of_nat (length src) = ecount ext ->
  (ecount (a_ext a) <= ecount ext -> aassign_iter a ext src = Some (mkA ext src)) /\
  (ecount ext < ecount (a_ext a) -> aassign_iter a ext src = None).
Proof. exact @aassign_iter_cases. Qed.
Print Assumptions C45_array_assign_partial.

(** C45. The other assignments: from an array of the same type (copy and move) and
    from a fill value hold what was assigned, for all old and new sizes. *)
Theorem C45_array_assign_other : forall V (a other : array V) ext (v : V), array_wf other ->
  (aassign_copy a other = other /\ fst (aassign_move a other) = other /\
   (a_ext other <> [] -> array_wf (snd (aassign_move a other)))) /\
  (array_wf (aassign_fill ext v) /\ a_ext (aassign_fill ext v) = ext /\
   forall lay t, in_ext ext t -> aget lay (aassign_fill ext v) t = Some v).
Proof. exact @aassign_other. Qed.
Print Assumptions C45_array_assign_other.

Example C45_example :
  let a := mkA [(2, 4)] [1; 2] in
  array_wf a /\ aassign_iter a [(0, 3)] [7; 8; 9] = Some (mkA [(0, 3)] [7; 8; 9]).
Proof. vm_compute; auto. Qed.

(** C56. Appending, inserting and erasing in a rank-1 array shift exactly the
    elements behind the position. *)
Theorem C56_array_append : forall V lay (a : array V) b e v,
  array_wf a -> a_ext a = [(b, e)] -> b <= e ->
  let a' := aappend a v in
  a_ext a' = [(b, e + 1)] /\ array_wf a' /\
  (forall i, b <= i < e -> aget lay a' [i] = aget lay a [i]) /\ aget lay a' [e] = Some v.
Proof. exact @aappend_correct. Qed.
Print Assumptions C56_array_append.

Theorem C56_array_insert : forall V lay (a : array V) b e k v,
  array_wf a -> a_ext a = [(b, e)] -> 0 <= k <= e - b ->
  exists a', ainsert a k v = Some a' /\ a_ext a' = [(b, e + 1)] /\ array_wf a' /\
  (forall i, b <= i < b + k -> aget lay a' [i] = aget lay a [i]) /\
  aget lay a' [b + k] = Some v /\
  (forall i, b + k <= i < e -> aget lay a' [i + 1] = aget lay a [i]).
Proof. exact @ainsert_correct. Qed.
Print Assumptions C56_array_insert.

Theorem C56_array_erase : forall V lay (a : array V) b e k,
  array_wf a -> a_ext a = [(b, e)] -> 0 <= k < e - b ->
  exists a', aerase a k = Some a' /\ a_ext a' = [(b, e - 1)] /\ array_wf a' /\
  (forall i, b <= i < b + k -> aget lay a' [i] = aget lay a [i]) /\
  (forall i, b + k <= i < e - 1 -> aget lay a' [i] = aget lay a [i + 1]).
Proof. exact @aerase_correct. Qed.
Print Assumptions C56_array_erase.

Example C56_example :
  let a := mkA [(5, 8)] [1; 2; 3] in
  array_wf a /\ ainsert a 1 9 = Some (mkA [(5, 9)] [1; 9; 2; 3]) /\
  aerase a 1 = Some (mkA [(5, 7)] [1; 3]).
Proof. vm_compute; auto. Qed.
