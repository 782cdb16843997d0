(** C95: errors that are known to some ranks only. *)
From Coq Require Import List ZArith Bool.
From Verif Require Import HashModel ProtoModel ProtoSpec NetModel NetSpec ExnModel ExnSpec ExnProof ExnEx.
Import ListNotations.
Local Open Scope Z_scope.

(** Afterwards every rank has an error if one has: those that had none have the lowest code, those that had one keep theirs, and all have the path of the first rank with the lowest code. *)
Theorem C95_exact : forall n E, errs_ok n E -> one_kind n E -> exists S', computes n (sync n) (fun r => est0 (E r)) S' /\
  (((forall r, (r < n)%nat -> E r = None) /\ forall r, (r < n)%nat -> x_err (S' r) = None) \/
   exists k c p, first_lowest n E k c p /\ forall r, (r < n)%nat -> x_err (S' r) = Some (match E r with Some e => fst e | None => c end, p)).
Proof. exact sync_exact. Qed.
Print Assumptions C95_exact.

(** No rank returns as if all was well when another has failed, and none fails when none has. *)
Theorem C95_all : forall n E, errs_ok n E -> one_kind n E -> exists S', computes n (sync n) (fun r => est0 (E r)) S' /\
  forall r, (r < n)%nat -> (x_err (S' r) = None <-> forall q, (q < n)%nat -> E q = None).
Proof. exact sync_all. Qed.
Print Assumptions C95_all.

(** When the failures are of one kind, all ranks fail with the same error, which is one that occurred. *)
Theorem C95_same : forall n E, errs_ok n E -> (forall r q c c' p p', (r < n)%nat -> (q < n)%nat -> E r = Some (c, p) -> E q = Some (c', p') -> c = c') ->
  exists S', computes n (sync n) (fun r => est0 (E r)) S' /\
  forall r q, (r < n)%nat -> (q < n)%nat -> x_err (S' r) = x_err (S' q) /\ forall e, x_err (S' r) = Some e -> exists k, (k < n)%nat /\ E k = Some e.
Proof. exact sync_same. Qed.
Print Assumptions C95_same.

(** Otherwise ranks fail with different errors, and with ones that did not occur: the path is another error's. *)
Theorem C95_same_refuted : exists n E, errs_ok n E /\ one_kind n E /\ exists S' r q e, computes n (sync n) (fun r => est0 (E r)) S' /\
  (r < n)%nat /\ (q < n)%nat /\ x_err (S' r) <> x_err (S' q) /\ x_err (S' r) = Some e /\ forall k, (k < n)%nat -> E k <> Some e.
Proof. exact sync_differ. Qed.
Print Assumptions C95_same_refuted.

(** An error without path and one with a path: a rank waits forever for the path. *)
Theorem C95_kind_refuted : exists n E, errs_ok n E /\ exists ls s, run (nstep true n (sync n)) (net0 (fun r => est0 (E r))) ls = Some s /\ stuck (nstep true n (sync n)) s /\
  n_pc s 2 = 4%nat /\ length (sync n) = 5%nat /\ (2 < n)%nat.
Proof. exact sync_hang. Qed.
Print Assumptions C95_kind_refuted.

(** Errors as in the hypotheses: a file is not opened on one rank and not read on another. *)
Example C95_example : errs_ok 3 ex_e /\ one_kind 3 ex_e /\ ex_e 0 = None /\ ex_e 1 <> None /\ first_lowest 3 ex_e 2 FILE_OPEN [99].
Proof.
  split; [exact ex_e_ok|]. split; [exact ex_e_kind|]. split; [reflexivity|]. split; [discriminate|]. split; [auto|]. split; [reflexivity|].
  intros [|[|[|q]]] c p Hq H; cbn in H; try discriminate; injection H as <- <-; split; try discriminate; auto.
Qed.
