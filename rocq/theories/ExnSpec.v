(** What agreeing on an error is for. *)
From Coq Require Import List ZArith Bool.
From Verif Require Import ExnModel.
Import ListNotations.
Local Open Scope Z_scope.

(** Errors of the library: only those about files have paths. *)
Definition errs_ok (n : nat) (E : nat -> option err) : Prop := forall r c p, (r < n)%nat -> E r = Some (c, p) -> 1 <= c <= 4 /\ (c = 1 -> p = []).
(** Errors about files, or none of them. *)
Definition one_kind (n : nat) (E : nat -> option err) : Prop :=
  forall r q c c' p p', (r < n)%nat -> (q < n)%nat -> E r = Some (c, p) -> E q = Some (c', p') -> (c = 1 <-> c' = 1).
(** Rank [k] is the first one with the lowest code. *)
Definition first_lowest (n : nat) (E : nat -> option err) (k : nat) (c : Z) (p : list Z) : Prop :=
  (k < n)%nat /\ E k = Some (c, p) /\ forall q c' p', (q < n)%nat -> E q = Some (c', p') -> c <= c' /\ (c' = c -> (k <= q)%nat).
