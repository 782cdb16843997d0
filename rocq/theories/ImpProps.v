(** C93: connectivities made of the donors and receivers of XINTOUT files. *)
From Coq Require Import List ZArith Bool Lia.
From Verif Require Import TupleModel RangeModel Base ContModel HashModel ProtoModel ProtoSpec NetModel NetSpec DDecompProof XinModel MatModel DistModel ImpModel ImpSpec ImpProof ImpMain ImpEx.
Import ListNotations.
Local Open Scope Z_scope.

(** All ranks create the same connectivities, one for each pair of grids with a receiver of the second whose source is the first; and every local grid has in its part of each exactly its donors
    with that destination, and its receivers with that source, in the order in which they were. *)
Theorem C93_exact : forall nd n g L, importable n g L -> exists ids S', computes n (import_all nd g) (fun r => I0 (L r)) S' /\
  NoDup ids /\ (forall i j, In (i, j) ids <-> connected n L i j) /\
  forall r, (r < n)%nat -> exists o, S' r = IDone ids o /\ Forall2 (fun x y => fst y = fst x /\ imports n L (fst x) (fst (snd x)) (snd (snd x)) (snd y)) (L r) o.
Proof. exact import_spec. Qed.
Print Assumptions C93_exact.

Example C93_two : importable 2 2 im_L /\ connected 2 im_L 1 2 /\ to_grid 2 (fst (snd (nth 0 (im_L 0) (0, ([], []))))) = [im_donor 2 4].
Proof. split; [exact im_importable|]. split; [exact im_connected|reflexivity]. Qed.

(** That inconsistent data are noticed is false: a receiver whose source is no grid (as C91_missing_refuted gives them) counts outside of the array, ... *)
Theorem C93_source_refuted : exists nd n g L, (forall r id x, (r < n)%nat -> In (id, x) (L r) -> 1 <= id <= Z.of_nat g) /\ exists ls s, run (nstep true n (import_all nd g)) (net0 (fun r => I0 (L r))) ls = Some s /\ stuck (nstep true n (import_all nd g)) s /\ n_pc s 0%nat = 0%nat.
Proof.
  exists 1%nat, 2%nat, 2%nat, im_zero. split.
  { intros [|[|r]] id x Hr H; try lia; cbn in H; intuition; match goal with E : (_, _) = (_, _) |- _ => injection E as <- _ end; lia. }
  destruct (stuck_run 2 (import_all 1 2) 8 200 (fun r => I0 (im_zero r)) (fun c => Nat.eqb (n_pc c 0) 0)) as (ls & c & H1 & H2 & H3).
  - vm_compute. reflexivity.
  - exists ls, c. split; [exact H1|]. split; [exact H2|]. apply Nat.eqb_eq, H3.
Qed.
Print Assumptions C93_source_refuted.

(** ... donors of a grid none of which has a receiver are dropped, ... *)
Theorem C93_dropped_refuted : exists nd n g L v, In v (fst (snd (nth 0 (L 0%nat) (0, ([], []))))) /\
  exists ls s, run (nstep true n (import_all nd g)) (net0 (fun r => I0 (L r))) ls = Some s /\ forall r, (r < n)%nat -> n_pc s r = 3%nat /\ no_connectivities (n_st s r) = true.
Proof.
  exists 1%nat, 2%nat, 2%nat, im_lone, (im_donor 2 4). split; [now left|].
  destruct (stuck_run 2 (import_all 1 2) 8 200 (fun r => I0 (im_lone r)) (fun c => forallb (fun r => Nat.eqb (n_pc c r) 3 && no_connectivities (n_st c r)) (seq 0 2))) as (ls & c & H1 & H2 & H3).
  - vm_compute. reflexivity.
  - exists ls, c. split; [exact H1|]. intros r Hr. rewrite forallb_forall in H3. specialize (H3 r ltac:(apply in_seq; lia)). apply andb_prop in H3 as [A B]. split; [now apply Nat.eqb_eq|exact B].
Qed.
Print Assumptions C93_dropped_refuted.

(** ... and if only some have none, a position is looked up that there is not. *)
Theorem C93_missing_refuted : exists nd n g L, (forall r id x, (r < n)%nat -> In (id, x) (L r) -> 1 <= id <= Z.of_nat g) /\ exists ls s, run (nstep true n (import_all nd g)) (net0 (fun r => I0 (L r))) ls = Some s /\ stuck (nstep true n (import_all nd g)) s /\ n_pc s 0%nat = 2%nat.
Proof.
  exists 1%nat, 2%nat, 3%nat, im_more. split.
  { intros [|[|r]] id x Hr H; try lia; cbn in H; intuition; match goal with E : (_, _) = (_, _) |- _ => injection E as <- _ end; lia. }
  destruct (stuck_run 2 (import_all 1 3) 8 200 (fun r => I0 (im_more r)) (fun c => Nat.eqb (n_pc c 0) 2)) as (ls & c & H1 & H2 & H3).
  - vm_compute. reflexivity.
  - exists ls, c. split; [exact H1|]. split; [exact H2|]. apply Nat.eqb_eq, H3.
Qed.
Print Assumptions C93_missing_refuted.
