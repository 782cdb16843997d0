(** What sending and receiving is for, stated without the maps and the buffers. *)
From Coq Require Import List ZArith Permutation.
From Verif Require Import TupleModel RangeModel ArrayModel SendModel.
Import ListNotations.
Local Open Scope Z_scope.

(** [order] lists the positions of [ranks], each once. *)
Definition is_order (ranks order : list Z) : Prop := Permutation order (zseq 0 (length ranks)).

(** Position i is the k-th of those with rank q, in the order. *)
Definition numbered (ranks order : list Z) (q i : Z) (k : nat) : Prop :=
  vread ranks i = Some q /\
  exists l1 l2, order = l1 ++ i :: l2 /\
    k = length (filter (fun j => match vread ranks j with Some x => x =? q | None => false end) l1).

(** [cnt] rows of [len] values. *)
Definition shaped {V} (cnt : Z) (len : nat) (vals : list (list V)) : Prop :=
  Z.of_nat (length vals) = cnt /\ forall row, In row vals -> length row = len.

(** The ranks of the two sides fit together: if s has values for r, then r expects as many from s. *)
Definition paired (n : nat) (dst src : nat -> list Z) : Prop :=
  (forall r q, (r < n)%nat -> In q (dst r) -> q < Z.of_nat n) /\
  (forall r q, (r < n)%nat -> In q (src r) -> q < Z.of_nat n) /\
  (forall s r, (s < n)%nat -> (r < n)%nat ->
     count_occ Z.eq_dec (dst s) (Z.of_nat r) = count_occ Z.eq_dec (src r) (Z.of_nat s)).

(** The contract of std::sort for ArrayOrder: the positions of the keys in ascending order of the keys. *)
Definition sorts (sort : list Z -> list Z) : Prop :=
  forall keys, Permutation (sort keys) (zseq 0 (length keys)) /\
  forall l1 i l2 j l3 x y, sort keys = l1 ++ i :: l2 ++ j :: l3 ->
    vread keys i = Some x -> vread keys j = Some y -> x <= y.

(** Among the positions with the same rank, each point occurs once. *)
Definition distinct (ranks : list Z) (pts : list (tup Z)) : Prop :=
  forall i j q p, 0 <= q -> vread ranks i = Some q -> vread ranks j = Some q ->
    vread pts i = Some p -> vread pts j = Some p -> i = j.

(** Rank s has a value for point p of rank r exactly if r expects one for p from s. *)
Definition agreed (n : nat) (dst src : nat -> list Z) (spts rpts : nat -> list (tup Z)) : Prop :=
  forall s r p, (s < n)%nat -> (r < n)%nat ->
    ((exists i, vread (dst s) i = Some (Z.of_nat r) /\ vread (spts s) i = Some p) <->
     (exists j, vread (src r) j = Some (Z.of_nat s) /\ vread (rpts r) j = Some p)).
