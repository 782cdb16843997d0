(** Consequences and examples of errors known to some ranks. *)
From Coq Require Import List ZArith Bool Lia.
From Verif Require Import HashModel ProtoModel ProtoSpec NetModel NetSpec NetProof NetTools DDecompProof ExnModel ExnSpec ExnProof.
Import ListNotations.
Local Open Scope Z_scope.

Theorem sync_all n E : errs_ok n E -> one_kind n E -> exists S', computes n (sync n) (fun r => est0 (E r)) S' /\
  forall r, (r < n)%nat -> (x_err (S' r) = None <-> forall q, (q < n)%nat -> E q = None).
Proof.
  intros Hok H1. destruct (sync_exact n E Hok H1) as (S' & HC & [[HN HS]|(k & c & p & (Hk & Ek & _) & HS)]); exists S'; (split; [exact HC|]); intros r Hr.
  - rewrite (HS r Hr). tauto.
  - rewrite (HS r Hr). split; [discriminate|]. intros H. rewrite (H k Hk) in Ek. discriminate.
Qed.

Theorem sync_same n E : errs_ok n E -> (forall r q c c' p p', (r < n)%nat -> (q < n)%nat -> E r = Some (c, p) -> E q = Some (c', p') -> c = c') ->
  exists S', computes n (sync n) (fun r => est0 (E r)) S' /\
  forall r q, (r < n)%nat -> (q < n)%nat -> x_err (S' r) = x_err (S' q) /\ forall e, x_err (S' r) = Some e -> exists k, (k < n)%nat /\ E k = Some e.
Proof.
  intros Hok HS. assert (H1 : one_kind n E). { intros r q c c' p p' Hr Hq Er Eq. rewrite (HS r q c c' p p' Hr Hq Er Eq). tauto. }
  destruct (sync_exact n E Hok H1) as (S' & HC & [[HN HX]|(k & c & p & (Hk & Ek & _) & HX)]); exists S'; (split; [exact HC|]); intros r q Hr Hq.
  - rewrite (HX r Hr), (HX q Hq). split; [reflexivity|discriminate].
  - assert (M : forall q, (q < n)%nat -> x_err (S' q) = Some (c, p)).
    { intros t Ht. rewrite (HX t Ht). destruct (E t) as [[c' p']|] eqn:Et; [|reflexivity]. cbn. now rewrite (HS t k c' c p' p Ht Hk Et Ek). }
    rewrite (M r Hr), (M q Hq). split; [reflexivity|]. intros e He. injection He as <-. eauto.
Qed.

(** Three ranks: one fails to open a file, and one to read another. *)
Definition ex_e (r : nat) : option err := match r with 1%nat => Some (FILE_READ, [97; 98]) | 2%nat => Some (FILE_OPEN, [99]) | _ => None end.
Lemma ex_e_ok : errs_ok 3 ex_e.
Proof. intros [|[|[|r]]] c p Hr H; try lia; cbn in H; try discriminate; injection H as <- <-; unfold FILE_READ, FILE_OPEN; split; lia. Qed.
Lemma ex_e_kind : one_kind 3 ex_e.
Proof. intros [|[|[|r]]] [|[|[|q]]] c c' p p' Hr Hq H H'; try lia; cbn in H, H'; try discriminate; injection H as <- <-; injection H' as <- <-; unfold FILE_READ, FILE_OPEN; lia. Qed.

(** The library is not initialized on one of them. *)
Definition ex_h (r : nat) : option err := match r with 1%nat => Some (MPI_NOT_INITIALIZED, []) | 2%nat => Some (FILE_OPEN, [99]) | _ => None end.
Lemma ex_h_ok : errs_ok 3 ex_h.
Proof. intros [|[|[|r]]] c p Hr H; try lia; cbn in H; try discriminate; injection H as <- <-; unfold MPI_NOT_INITIALIZED, FILE_OPEN; split; auto; lia. Qed.

Theorem sync_differ : exists n E, errs_ok n E /\ one_kind n E /\ exists S' r q e, computes n (sync n) (fun r => est0 (E r)) S' /\
  (r < n)%nat /\ (q < n)%nat /\ x_err (S' r) <> x_err (S' q) /\ x_err (S' r) = Some e /\ forall k, (k < n)%nat -> E k <> Some e.
Proof.
  exists 3%nat, ex_e. split; [exact ex_e_ok|]. split; [exact ex_e_kind|]. destruct (sync_exact 3 ex_e ex_e_ok ex_e_kind) as (S' & HC & [[HN _]|(k & c & p & (Hk & Ek & Hm) & HX)]).
  - specialize (HN 2%nat). cbn in HN. assert (X : Some (FILE_OPEN, [99]) = None) by (apply HN; lia). discriminate.
  - destruct (Hm 2%nat FILE_OPEN [99]) as [L _]; [lia|reflexivity|]. assert (k = 2)%nat as ->.
    { destruct k as [|[|[|k]]]; cbn in Ek; try discriminate; [|reflexivity]. injection Ek as <- <-. unfold FILE_READ, FILE_OPEN in L. lia. }
    cbn in Ek. injection Ek as <- <-. exists S', 1%nat, 0%nat, (FILE_READ, [99]). split; [exact HC|]. split; [lia|]. split; [lia|]. rewrite (HX 1%nat), (HX 0%nat) by lia. cbn [ex_e fst].
    split; [discriminate|]. split; [reflexivity|]. intros [|[|[|k]]] Hk'; cbn; try discriminate.
Qed.

Theorem sync_hang : exists n E, errs_ok n E /\ exists ls s, run (nstep true n (sync n)) (net0 (fun r => est0 (E r))) ls = Some s /\ stuck (nstep true n (sync n)) s /\
  n_pc s 2 = 4%nat /\ length (sync n) = 5%nat /\ (2 < n)%nat.
Proof.
  exists 3%nat, ex_h. split; [exact ex_h_ok|]. destruct (stuck_run 3 (sync 3) 8 200 (fun r => est0 (ex_h r)) (fun s => Nat.eqb (n_pc s 2%nat) 4)) as (ls & s & H1 & H2 & H3).
  - vm_compute. reflexivity.
  - exists ls, s. apply Nat.eqb_eq in H3. repeat split; auto.
Qed.
