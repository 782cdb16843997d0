(** What threads that share out the cells must do. *)
From Coq Require Import List ZArith Bool.
From Verif Require Import TupleModel RangeModel CartModel IndexerModel ArrayModel HashModel SendModel CollectModel ThrModel.
Import ListNotations.
Local Open Scope Z_scope.

(** Each of the items is done by one thread, once, whichever and in whatever order. *)
Definition shared_out {A} (n : nat) (items : list A) (work : nat -> list A) : Prop :=
  (forall a, In a items -> exists t, (t < n)%nat /\ In a (work t)) /\
  (forall t a, (t < n)%nat -> In a (work t) -> In a items) /\
  (forall t, (t < n)%nat -> NoDup (work t)) /\
  (forall t u a, (t < n)%nat -> (u < n)%nat -> In a (work t) -> In a (work u) -> t = u).

(** The result of a cell on its own, without threads: the same whatever is in the buffer before. *)
Definition cell_result {V} lay c cnt red lr fr (field : list (list V)) cm bufs x (row : list V) : Prop :=
  forall vv o, Z.of_nat (length vv) = cnt * cm_max cm ->
    exists vv', collect_cell lay c cnt red lr fr field cm bufs (vv, o) x = Some (vv', o ++ [row]) /\ length vv' = length vv.

(** Arrays have elements of their types, with whatever values. *)
Definition typed {V D} (m : mem V D) : Prop :=
  forall l, match l with
            | LCi _ _ | LFi _ _ | LNum => exists z, m l = WZ z
            | LVal _ _ _ | LOut _ _ => exists v, m l = WV v
            | LCo _ _ => exists d, m l = WD d
            end.

(** Two threads are about to access the same element, and one of them to change it. *)
Definition race {V D} (n : nat) (s : thst V D) : Prop :=
  exists t u l a b, (t < n)%nat /\ (u < n)%nat /\ t <> u /\ access s t = Some (l, a) /\ access s u = Some (l, b) /\ (a = true \/ b = true).
(** All threads have finished. *)
Definition finished {V D} (n : nat) (s : thst V D) : Prop := forall t, (t < n)%nat -> t_prog s t = [].

(** The coefficients of the vertices of all cells are there. *)
Definition has_coefs {D} (mul : D -> D -> D) (coefs : nat -> Z -> Z -> option D) (items : list (Z * (range * list (Z * (Z * Z))))) : Prop :=
  forall x p, In x items -> In p (RangeModel.foreach_col (fst (snd x))) -> vertex_coef mul coefs (fst x) (fst (snd x)) p <> None.

(** The messages are what the ranks that send pack. *)
Definition received {V} lay cnt (FR : nat -> range) (fields : nat -> list (list V)) (M : nat -> cmap) (r : nat) (bufs : list (list V)) : Prop :=
  forall ir v, vread (cm_recvs (M r)) ir = Some v -> exists ps b,
    In (r, ps) (cm_sends (M (v_rank v))) /\ send_buffer lay cnt (FR (v_rank v)) (fields (v_rank v)) ps = Some b /\ vread bufs ir = Some b.
