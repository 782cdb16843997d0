(** What the processes should know about each other's fragments before they transfer them. *)
From Coq Require Import List ZArith Bool Arith Sorting.Sorted.
From Verif Require Import TupleModel RangeModel FtxModel FtxSpec FcnModel.
Import ListNotations.
Local Open Scope nat_scope.

(** A fragment a process needs is one that the process it is from has. *)
Definition exist_needs (n : nat) (local : nat -> list Z) (frange : nat -> Z -> Z -> option range) (need : nat -> list (Z * ent)) : Prop :=
  forall q N e, q < n -> In (N, e) (need q) ->
    e_rank e < n /\ In (e_grid e) (local (e_rank e)) /\ frange (e_rank e) (e_grid e) (e_frag e) <> None.

(** Process [q] needs the fragment for one of its grids. *)
Definition needs (need : nat -> list (Z * ent)) (q : nat) (e : ent) : Prop := exists N, In (N, e) (need q).

(** Every process knows which fragments to expect, to send and to use of its own, in
    order, and the ranges of those it expects. *)
Definition connected (n : nat) (frange : nat -> Z -> Z -> option range) (need : nat -> list (Z * ent)) (r : nat) (s : cst) : Prop :=
  (StronglySorted ent_lt (c_recvs s) /\ forall e, In e (c_recvs s) <-> e_rank e <> r /\ needs need r e) /\
  (StronglySorted ent_lt (c_sends s) /\ forall g q f, In (mkE g q f) (c_sends s) <-> q < n /\ q <> r /\ needs need q (mkE g r f)) /\
  (NoDup (c_locals s) /\ forall g f, In (g, f) (c_locals s) <-> needs need r (mkE g r f)) /\
  (map fst (c_ranges s) = c_recvs s /\
   forall e x, In (e, x) (c_ranges s) -> frange (e_rank e) (e_grid e) (e_frag e) = Some x).

(** The transfer of the fragments that follows. *)
Definition transfer {V} (n : nat) (S' : nat -> cst) (data : nat -> Z -> Z -> nat -> V) : job (V := V) :=
  mkJ n (fun r => c_sends (S' r)) (fun r => c_recvs (S' r)) (fun r => length (c_locals (S' r))) data.

(** The fragment was used by process [q]: with the arrays of the process it is from, or,
    being its own, directly. *)
Definition used {V} (S' : nat -> cst) (data : nat -> Z -> Z -> nat -> V) (q : nat) (log : list (event (V := V))) (e : ent) : Prop :=
  (e_rank e <> q /\ exists i, nth_error (c_recvs (S' q)) i = Some e /\
     In (i, map (fun d => Some (data (e_rank e) (e_grid e) (e_frag e) d)) [0; 1; 2; 3]) (remote log)) \/
  (e_rank e = q /\ exists i, nth_error (c_locals (S' q)) i = Some (e_grid e, e_frag e) /\ In i (local log)).
