(** Inner programs have the same effect as on their own. *)
From Coq Require Import List Arith Lia.
From Verif Require Import HashModel HashProof NetModel NetSpec NetPhase NetTools LiftModel.
Import ListNotations.

Section Lift.
Context {A B Msg : Type} (get : B -> option A) (put : B -> A -> B).

Lemma lift1_ok n (ph : phase A Msg) (b : nat -> B) S S' :
  (forall r a, r < n -> get (put (b r) a) = Some a) ->
  (forall r a a', r < n -> put (put (b r) a) a' = put (b r) a') ->
  phase_ok n ph S S' ->
  phase_ok n (lift1 get put ph) (fun r => put (b r) (S r)) (fun r => put (b r) (S' r)).
Proof.
  intros G P. destruct ph as [f|p|f]; cbn [lift1 phase_ok].
  - intros H r Hr. rewrite G by exact Hr. rewrite (H r Hr), P by exact Hr. reflexivity.
  - intros [M D].
    assert (ER : forall r, r < n -> p_recvs p r (S r) = match get (put (b r) (S r)) with Some a => p_recvs p r a | None => [] end)
      by (intros r Hr; rewrite G; auto).
    assert (ES : forall r, r < n -> p_sends p r (S r) = match get (put (b r) (S r)) with Some a => p_sends p r a | None => [] end)
      by (intros r Hr; rewrite G; auto).
    split.
    + intros r Hr. destruct (M r Hr) as (M1 & M2 & M3). cbn [p_recvs p_sends]. rewrite <- ER, <- ES by exact Hr.
      split; [exact M1|]. split; [exact M2|]. intros s Hs. rewrite <- ES by exact Hs. auto.
    + intros r l Hr (N & L & I). cbn [p_done]. rewrite G by exact Hr.
      rewrite (D r l Hr).
      * rewrite P by exact Hr. reflexivity.
      * split; [exact N|]. cbn [p_recvs] in L. rewrite <- ER in L by exact Hr. split; [exact L|].
        intros i m Hi. specialize (I i m Hi). unfold recv_msg in *. cbn [p_recvs p_sends] in I.
        rewrite <- ER in I by exact Hr. destruct (nth_error (p_recvs p r (S r)) i) as [s|] eqn:E; [|discriminate].
        rewrite <- ES in I; [exact I|]. apply M with (r := r); [exact Hr|]. eapply nth_error_In; eauto.
  - intros H r Hr.
    assert (E : omap get (map (fun r => put (b r) (S r)) (seq 0 n)) = Some (map S (seq 0 n))).
    { apply omap_comp. intros s Hs. apply in_seq in Hs. apply G. lia. }
    rewrite E, (H r Hr), (nth_map_seq _ n r Hr), P by exact Hr. reflexivity.
Qed.

Lemma lift_ok n (prog : list (phase A Msg)) (b : nat -> B) : forall S S',
  (forall r a, r < n -> get (put (b r) a) = Some a) ->
  (forall r a a', r < n -> put (put (b r) a) a' = put (b r) a') ->
  prog_ok n prog S S' ->
  prog_ok n (lift get put prog) (fun r => put (b r) (S r)) (fun r => put (b r) (S' r)).
Proof.
  induction prog as [|ph prog IH]; intros S S' G P H; cbn [lift map prog_ok] in *.
  - intros r Hr. rewrite (H r Hr). reflexivity.
  - destruct H as (S1 & H1 & H2). exists (fun r => put (b r) (S1 r)). split; [apply lift1_ok; auto|].
    apply IH; auto.
Qed.
End Lift.

Section Remsg.
Context {A M N : Type} (inj : M -> N) (prj : N -> option M) (H : forall m, prj (inj m) = Some m).

Lemma msgs_to_inj d (l : list (nat * M)) : msgs_to d (map (fun x => (fst x, inj (snd x))) l) = map inj (msgs_to d l).
Proof.
  unfold msgs_to. induction l as [|[k m] l IH]; cbn; [reflexivity|]. destruct (k =? d); cbn; rewrite ?IH; reflexivity.
Qed.

Lemma remsg1_ok n (ph : phase A M) S S' : phase_ok n ph S S' -> phase_ok n (remsg1 inj prj ph) S S'.
Proof.
  destruct ph as [f|p|f]; cbn [remsg1 phase_ok]; auto.
  intros [Q D]. split.
  - intros r Hr. destruct (Q r Hr) as (Q1 & Q2 & Q3). cbn [p_recvs p_sends]. split; [exact Q1|]. split.
    + intros d m I. apply in_map_iff in I as ([k m'] & [= <- _] & I). eapply Q2; eauto.
    + intros s Hs. rewrite msgs_to_inj, map_length. auto.
  - intros r l Hr (N1 & L & I). cbn [p_done]. cbn [p_recvs] in L.
    assert (X : exists l', omap (fun x => let! m := prj (snd x) in Some (fst x, m)) l = Some l' /\
      map fst l' = map fst l /\ length l' = length l /\ forall i m, In (i, m) l' -> In (i, inj m) l).
    { clear N1 L. induction l as [|[i m] l IH].
      - exists []. cbn. intuition.
      - destruct IH as (l' & E1 & E2 & E3 & E4). { intros i' m' Hi. apply I. right. exact Hi. }
        pose proof (I i m (or_introl eq_refl)) as Im. unfold recv_msg in Im. cbn [p_recvs p_sends] in Im.
        destruct (nth_error (p_recvs p r (S r)) i) as [s|]; [|discriminate].
        rewrite msgs_to_inj, nth_error_map in Im. destruct (nth_error _ _) as [m0|] in Im; [|discriminate].
        injection Im as <-. exists ((i, m0) :: l'). rewrite omap_cons. cbn [fst snd]. rewrite H, E1. split; [reflexivity|].
        split; [cbn; congruence|]. split; [cbn; congruence|]. intros i' m' [[= -> ->]|J]; [left; reflexivity|]. right. auto. }
    destruct X as (l' & E1 & E2 & E3 & E4). rewrite E1. apply D; [exact Hr|]. split; [rewrite E2; exact N1|].
    split; [congruence|]. intros i m J. apply E4, I in J. unfold recv_msg in *. cbn [p_recvs p_sends] in J.
    destruct (nth_error (p_recvs p r (S r)) i) as [s|]; [|discriminate].
    rewrite msgs_to_inj, nth_error_map in J. destruct (nth_error _ _) as [m0|] in J |- *; [|discriminate].
    assert (X : inj m0 = inj m) by (cbn in J; congruence). pose proof (H m0) as H0. rewrite X, H in H0. symmetry. exact H0.
Qed.

Lemma remsg_ok n (prog : list (phase A M)) : forall S S', prog_ok n prog S S' -> prog_ok n (remsg inj prj prog) S S'.
Proof.
  induction prog as [|ph prog IH]; intros S S' Q; cbn [remsg map prog_ok] in *; [exact Q|].
  destruct Q as (S1 & Q1 & Q2). exists S1. split; [apply remsg1_ok, Q1|apply IH, Q2].
Qed.
End Remsg.
