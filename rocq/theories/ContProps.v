(** Properties C16-C21: sorted containers, identifiers, union-find, partition pool. *)
From Coq Require Import List ZArith Bool Arith Lia.
From Verif Require Import TupleModel RangeModel CartModel ContModel ContSpec ContProof MapProof
  DecompModel UFModel UFSpec UFProof PoolModel PoolSpec PoolProof.
Import ListNotations.
Local Open Scope nat_scope.

(** C16. After any history the sorted array answers every query as the mathematical
    set does, is strictly increasing, and its bounds split it at the right place. *)
Theorem C16_set : forall (V : Type) (lt : V -> V -> bool), swo lt -> forall ops,
  let s := set_run lt ops in
  let m := fset_run lt ops in
  (forall v, set_contains lt s v = match m v with Some _ => true | None => false end) /\
  (forall v, match m v with
             | Some x => nth_error s (set_find lt s v) = Some x
             | None => set_find lt s v = length s
             end) /\
  (forall i j x y, i < j -> nth_error s i = Some x -> nth_error s j = Some y -> lt x y = true) /\
  (forall x, In x s <-> m x = Some x) /\
  (forall v x, m v = Some x -> In x s) /\
  (forall v, set_lower lt s v <= length s /\
     forall i x, nth_error s i = Some x -> (lt x v = true <-> i < set_lower lt s v)) /\
  (forall v, set_upper lt s v <= length s /\
     forall i x, nth_error s i = Some x -> (lt v x = true <-> set_upper lt s v <= i)).
Proof. exact @set_run_correct. Qed.
Print Assumptions C16_set.

Example C16_set_example :
  set_run Z.ltb [SInsert 5; SInsert 2; SInsertHint 9; SInsert 5; SErase 2; SInsert (-1);
                 SEraseFound 9; SEraseFound 4; SInsert 7; SEraseIf (fun x => Z.eqb x 5)]%Z = [-1; 7]%Z.
Proof. reflexivity. Qed.

(** The orders used for sets of index tuples are strict total orders, in which the
    first (last, for column-major) differing component decides. *)
Theorem C16_tuple_orders : forall n,
  (strict_total_on (fun t => length t = n) elem_less_r /\
   swo (fun a b : tuples n => elem_less_r (proj1_sig a) (proj1_sig b))) /\
  (strict_total_on (fun t => length t = n) elem_less_c /\
   swo (fun a b : tuples n => elem_less_c (proj1_sig a) (proj1_sig b))).
Proof. exact tuple_orders. Qed.
Print Assumptions C16_tuple_orders.

Theorem C16_tuple_orders_decide : forall p x y a b, length a = length b -> (x < y)%Z ->
  elem_less_r (p ++ x :: a) (p ++ y :: b) = true /\
  elem_less_c (a ++ x :: p) (b ++ y :: p) = true.
Proof. exact elem_less_decides. Qed.
Print Assumptions C16_tuple_orders_decide.

Example C16_tuple_example :
  elem_less_r [1; 2; 9]%Z [1; 3; 0]%Z = true /\ elem_less_c [9; 2; 1]%Z [0; 3; 1]%Z = true /\
  elem_less_r [2; 0; 0]%Z [1; 9; 9]%Z = false.
Proof. repeat split. Qed.

(** C17. After any history the map answers every query as the finite map does, and
    keys and entries stay aligned and sorted. *)
Theorem C17_map : forall (K V : Type) (lt : K -> K -> bool), swo lt ->
  forall ops : list (map_op K V), Forall (map_op_ok lt) ops ->
  let m := map_run lt ops in
  let f := fmap_run lt ops in
  (forall k, match f k with
             | Some e => map_contains lt m k = true /\
                         nth_error (m_entries m) (map_find lt m k) = Some e /\
                         map_at lt m k = Some (snd e)
             | None => map_contains lt m k = false /\ map_find lt m k = length (m_entries m)
             end) /\
  (forall e, In e (m_entries m) <-> f (fst e) = Some e) /\
  length (m_keys m) = length (m_entries m) /\
  (forall i k e, nth_error (m_keys m) i = Some k -> nth_error (m_entries m) i = Some e ->
     eqv lt k (fst e) = true) /\
  (forall i j k k', i < j -> nth_error (m_keys m) i = Some k ->
     nth_error (m_keys m) j = Some k' -> lt k k' = true).
Proof. exact @map_run_correct. Qed.
Print Assumptions C17_map.

(** Insert and Fetch return the entry for the key. *)
Theorem C17_map_returns : forall (K V : Type) (lt : K -> K -> bool), swo lt ->
  forall (ops : list (map_op K V)) k v, Forall (map_op_ok lt) ops ->
  let m := map_run lt ops in
  let '(mi, ni) := map_insert lt m k v in
  let '(mf, nf) := map_fetch lt m k v in
  nth_error (m_entries mi) ni = Some (k, v) /\
  nth_error (m_entries mf) nf =
    match fmap_run lt ops k with Some e => Some e | None => Some (k, v) end.
Proof. exact @map_returns. Qed.
Print Assumptions C17_map_returns.

Example C17_example :
  let ops := [MInsert 5 1; MFetch 2 7; MFetchSet 2 0 8; MInsertHint 4 3; MErase 5;
              MEraseIf (fun e => Z.eqb (snd e) 3); MFetch 2 99; MInsert 1 6]%Z in
  swo Z.ltb /\ Forall (map_op_ok Z.ltb) ops /\
  map_run Z.ltb ops = mkM [1; 2]%Z [(1, 6); (2, 8)]%Z.
Proof.
  split; [exact zltb_swo|]. split; [|reflexivity]. repeat constructor.
Qed.

(** C18. After any history of a set of IDs, the next available ID is the smallest
    non-negative number that is not in the set. *)
Theorem C18_next_id : forall ops, Forall ids_nonneg ops ->
  let ids := set_run Z.ltb ops in
  let id := next_available_id ids in
  (0 <= id)%Z /\ set_contains Z.ltb ids id = false /\
  forall x, (0 <= x < id)%Z -> set_contains Z.ltb ids x = true.
Proof. exact next_id_history. Qed.
Print Assumptions C18_next_id.

Example C18_example :
  let ops := [SInsert 4; SInsert 0; SInsert 1; SInsert 2; SErase 1]%Z in
  Forall ids_nonneg ops /\ next_available_id (set_run Z.ltb ops) = 1%Z.
Proof. split; [repeat constructor; cbn; lia|reflexivity]. Qed.

(** C19. After any history of insertions, unions, queries and relabellings every
    operation succeeds, and two inserted elements have the same representative exactly
    when the performed unions connect them. *)
Theorem C19_union_find : forall ops, exists u, uf_run ops = Some u /\
  (forall x, In x (uf_el u) <-> inserted ops x) /\
  (forall x, ~ inserted ops x -> uf_find u x = Some (u, (-1)%Z)) /\
  (forall x, inserted ops x -> exists u' z, uf_find u x = Some (u', z) /\
     inserted ops z /\ connected ops x z) /\
  (forall x y u1 z1 u2 z2, inserted ops x -> inserted ops y ->
     uf_find u x = Some (u1, z1) -> uf_find u y = Some (u2, z2) ->
     (z1 = z2 <-> connected ops x y)).
Proof. exact union_find_correct. Qed.
Print Assumptions C19_union_find.

Theorem C19_union_returns : forall ops x y, inserted ops x -> inserted ops y ->
  exists u u' r, uf_run ops = Some u /\ uf_union u x y = Some (u', r) /\
    uf_run (ops ++ [UUnion x y]) = Some u' /\
    (exists u1, uf_find u' x = Some (u1, r)) /\ (exists u2, uf_find u' y = Some (u2, r)).
Proof. exact union_returns. Qed.
Print Assumptions C19_union_returns.

Definition ex_uf : list uf_op :=
  [UInsert 10; UInsert 30; UUnion 30 10; UInsert 20; UUnion 20 10; UInsert 5; UFind 20; UUnion 7 5]%Z.

Example C19_example :
  exists u, uf_run ex_uf = Some u /\
    option_map snd (uf_find u 10%Z) = Some 30%Z /\ option_map snd (uf_find u 20%Z) = Some 30%Z /\
    option_map snd (uf_find u 5%Z) = Some 5%Z /\ option_map snd (uf_find u 7%Z) = Some (-1)%Z /\
    connected ex_uf 10 20 /\ inserted ex_uf 10%Z.
Proof.
  eexists. split; [vm_compute; reflexivity|]. repeat (split; [vm_compute; reflexivity|]).
  split; [|cbn; auto]. apply Relation_Operators.rst_sym, Relation_Operators.rst_step.
  exists (firstn 4 ex_uf), (skipn 5 ex_uf). split; [reflexivity|]. split; cbn; auto.
Qed.

(** C20, full statement: relabelling keeps the partition and makes each set's
    representative its smallest element.  The partition is kept (C19_union_find
    covers histories with relabellings), but the representative need not be the
    smallest: Relabel stores the last element below the old representative
    (UnionFind.hpp 103-105 compares with the old representative instead of the
    current candidate). *)
Theorem C20_relabel_refuted : exists ops x y u u1 m, uf_run (ops ++ [URelabel]) = Some u /\
  inserted ops x /\ uf_find u x = Some (u1, m) /\ connected ops x y /\ (y < m)%Z.
Proof. exact relabel_not_smallest. Qed.
Print Assumptions C20_relabel_refuted.

(** C20, what does hold.  Missing: minimality when two or more elements lie below the
    old representative. *)
Theorem C20_relabel_partial : forall ops u x u1 r u' u2 m,
  uf_run ops = Some u -> inserted ops x ->
  uf_find u x = Some (u1, r) -> uf_relabel u = Some u' -> uf_find u' x = Some (u2, m) ->
  connected ops x m /\
  ((forall y, connected ops x y -> (r <= y)%Z) -> m = r) /\
  (forall y, connected ops x y -> (y < r)%Z -> (m < r)%Z /\ (y <= m)%Z).
Proof. exact relabel_rep. Qed.
Print Assumptions C20_relabel_partial.

Example C20_example :
  exists u u', uf_run ex_uf = Some u /\ uf_relabel u = Some u' /\
    option_map snd (uf_find u 10%Z) = Some 30%Z /\ option_map snd (uf_find u' 10%Z) = Some 20%Z /\
    option_map snd (uf_find u' 30%Z) = Some 20%Z /\ option_map snd (uf_find u' 5%Z) = Some 5%Z.
Proof.
  eexists. eexists. split; [vm_compute; reflexivity|]. split; [vm_compute; reflexivity|].
  repeat split; vm_compute; reflexivity.
Qed.

(** C21. Whatever the history, fetching succeeds and gives a partition with the
    requested description. *)
Theorem C21_fetch_sound : forall first ops d, exists pl pl' p,
  pool_run first ops = Some pl /\ pool_fetch pl d = Some (pl', p) /\ p_desc p = d.
Proof. exact pool_sound. Qed.
Print Assumptions C21_fetch_sound.

(** C21, full statement: it is the partition inserted for that description.  This is
    false: CartLess_ (Partition.cpp 159-188) is not an order.  Inserting a grid's
    partition and fetching one with a layer of exterior points makes the first
    unreachable. *)
Theorem C21_fetch_refuted : exists first p d pl pl' q,
  p_id p < first /\ p_desc p <> d /\ d_cart d = DecompModel.cart_include_exterior (d_cart (p_desc p)) /\
  pool_run first [PInsert p; PFetch d] = Some pl /\
  pool_fetch pl (p_desc p) = Some (pl', q) /\ p_id q <> p_id p.
Proof. exact pool_forgets. Qed.
Print Assumptions C21_fetch_refuted.

(** C21 where all Cartesian descriptions in use are comparable componentwise in the
    same direction: the pool is the finite map from descriptions to partitions.
    Missing: other families of descriptions. *)
Theorem C21_fetch_partial : forall (D : cart -> Prop) first ops d,
  (forall a b, D a -> D b -> cart_le a b \/ cart_le b a) ->
  Forall (pool_op_in D) ops -> D (d_cart d) ->
  exists pl pl' p, pool_run first ops = Some pl /\ pool_fetch pl d = Some (pl', p) /\
    p_desc p = d /\
    p_id p = match fst (fpool_run first ops) d with
             | Some i => i
             | None => snd (fpool_run first ops)
             end.
Proof. exact pool_chain_le. Qed.
Print Assumptions C21_fetch_partial.

(** A grid's point and cell descriptions (periodic or not) are comparable. *)
Example C21_example :
  let pts := mkC 2 (mkR (T3 0 0 0) (T3 7 5 1))%Z (T3 false true false) UNIQUE in
  let cells := DecompModel.cart_point_to_cell pts in
  let D c := c = pts \/ c = cells in
  let p := mkP 0 (mkD pts [c_range pts] [c_range pts] [1%Z]) in
  let q := mkD cells [c_range cells] [c_range cells] [1%Z] in
  (forall a b, D a -> D b -> cart_le a b \/ cart_le b a) /\ pts <> cells /\
  fst (fpool_run 5 [PInsert p; PFetch q]) (p_desc p) = Some 0 /\
  fst (fpool_run 5 [PInsert p; PFetch q]) q = Some 5.
Proof.
  cbv zeta. split; [|split; [discriminate|split; reflexivity]].
  assert (H : forall a, cart_le a a).
  { intros a. split; [auto|]. split; [auto|]. split; [auto|]. intros; lia. }
  intros a b [->| ->] [->| ->]; auto; [right|left];
    (split; [auto|]; split; [auto|]; split; [auto|]; intros [|[|[|d]]] Hd; cbn; lia).
Qed.
