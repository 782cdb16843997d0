(** C83: fragments of other processes arrive with the right data, and the transfer ends. *)
From Coq Require Import ZArith List Bool Arith Permutation Sorting.Sorted.
From Verif Require Import FtxModel FtxSpec FtxProof FtxInv FtxStep FtxLive FtxEx.
Import ListNotations.
Local Open Scope nat_scope.

(** A process that has left the loop has used each fragment it expects once, with the data
    of the process it is from, and each of its own; whatever the interleaving, when the
    signals of each process are reported in the order in which it sent them. *)
Theorem C83_right : forall V (J : job (V := V)) l g q, agreed J -> exec J true (start J) l = Some g ->
  q < j_n J -> done (g q) = true -> right J q (k_log (g q)).
Proof. intros V J l g q A. exact (run_right J A l g q). Qed.
Print Assumptions C83_right.

(** At every moment no fragment has been used twice, or with other data. *)
Theorem C83_always : forall V (J : job (V := V)) l g q, agreed J -> exec J true (start J) l = Some g ->
  q < j_n J -> NoDup (map fst (remote (k_log (g q)))) /\
  Forall (fun x => true_data J q (fst x) (snd x)) (remote (k_log (g q))).
Proof. intros V J l g q A. exact (run_log J A l g q). Qed.
Print Assumptions C83_always.

(** It never gets stuck: however it was reached, a state can go on until all are done. *)
Theorem C83_finishes : forall V (J : job (V := V)) l g, agreed J -> exec J true (start J) l = Some g ->
  exists l' g', exec J true g l' = Some g' /\ forall q, q < j_n J -> done (g' q) = true.
Proof. intros V J l g A. exact (run_finishes J A l g). Qed.
Print Assumptions C83_finishes.

(** And there are only so many reports, and fragments handled, in any execution. *)
Theorem C83_bounded : forall V (J : job (V := V)) ord l g r, agreed J -> exec J ord (start J) l = Some g ->
  reports r l + length (k_log (g r)) <= 5 * length (j_sends J r) + 5 * length (j_recvs J r) + j_locals J r + 1.
Proof. intros V J ord l g r A. exact (bounded J A ord l g r). Qed.
Print Assumptions C83_bounded.

Example C83_example : agreed (one_way 12) /\
  exists g, exec (one_way 12) true (start (one_way 12)) twelve = Some g /\ forall q, q < 2 -> done (g q) = true.
Proof. split; [apply one_way_agreed|exact twelve_run]. Qed.

(** With at most one fragment from a process to another, the order of the reports does
    not matter. *)
Theorem C83_single : forall V (J : job (V := V)) l g, single J -> exec J false (start J) l = Some g ->
  exec J true (start J) l = Some g.
Proof. intros V J l g S. exact (single_exec J l S (start J) g). Qed.
Print Assumptions C83_single.

Example C83_single_example : agreed (one_way 1) /\ single (one_way 1) /\ length (j_sends (one_way 1) 0) = 1.
Proof. split; [apply one_way_agreed|]. split; [apply one_single|reflexivity]. Qed.

(** MPI_Testsome promises no order, and signals carry no number: with two fragments from a
    process to another, data may go to the wrong fragment, and no error is seen. *)
Theorem C83_order_refuted : exists (J : job (V := Z)) l g, agreed J /\ exec J false (start J) l = Some g /\
  (forall q, q < j_n J -> done (g q) = true) /\ exists q, q < j_n J /\ ~ right J q (k_log (g q)).
Proof. exact swapped_wrong. Qed.
Print Assumptions C83_order_refuted.
