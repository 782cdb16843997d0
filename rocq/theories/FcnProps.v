(** C84: the processes agree on the fragments to transfer. *)
From Coq Require Import List ZArith Bool Arith.
From Verif Require Import TupleModel RangeModel ArrayModel NetModel NetSpec FtxModel FtxSpec FcnModel FcnSpec FcnMain FcnEx.
Import ListNotations.
Local Open Scope nat_scope.

(** The messages about which fragments overlap end on every interleaving, and every
    process then knows which fragments to expect, which to send and to whom, which of its
    own to use, and the ranges of those it expects. *)
Theorem C84_connected : forall n local frange need, exist_needs n local frange need ->
  exists S', computes n (connect local frange n) (fun r => cst0 (need r)) S' /\
    forall r, r < n -> connected n frange need r (S' r).
Proof. exact connect_run. Qed.
Print Assumptions C84_connected.

(** So what a process is to send is what the others expect from it: what the transfer of
    the fragments relies on (C83). *)
Theorem C84_agreed : forall V n local frange need (data : nat -> Z -> Z -> nat -> V), exist_needs n local frange need ->
  exists S', computes n (connect local frange n) (fun r => cst0 (need r)) S' /\ agreed (transfer n S' data).
Proof. exact connect_agreed. Qed.
Print Assumptions C84_agreed.

(** And a process that has left the loop has used exactly the fragments it needs, with
    the data of the processes that they are from. *)
Theorem C84_used : forall V n local frange need (data : nat -> Z -> Z -> nat -> V), exist_needs n local frange need ->
  exists S', computes n (connect local frange n) (fun r => cst0 (need r)) S' /\
    forall l g q, exec (transfer n S' data) true (start (transfer n S' data)) l = Some g -> q < n -> done (g q) = true ->
      forall e, needs need q e <-> used S' data q (k_log (g q)) e.
Proof. exact connect_used. Qed.
Print Assumptions C84_used.

Example C84_example : exist_needs 3 ex_local ex_frange ex_need /\ length (ex_need 1) = 4.
Proof. split; [exact ex_exist|reflexivity]. Qed.
