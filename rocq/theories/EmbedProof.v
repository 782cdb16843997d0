From Coq Require Import List Arith Bool Lia.
From Verif Require Import HashModel ProtoModel NetModel NetSpec NetProof NetPhase EmbedModel.
Import ListNotations.
Local Open Scope nat_scope.

Lemma position_nth mem r i : position mem r = Some i -> nth_error mem i = Some r.
Proof.
  revert i. induction mem as [|q mem IH]; intros i H; [discriminate|]. cbn in H. destruct (Nat.eqb_spec q r) as [->|].
  - injection H as <-. reflexivity.
  - destruct (position mem r); [|discriminate]. injection H as <-. cbn. auto.
Qed.
Lemma nth_position mem i r : NoDup mem -> nth_error mem i = Some r -> position mem r = Some i.
Proof.
  revert i. induction mem as [|q mem IH]; intros i N H; [destruct i; discriminate|]. inversion N; subst. cbn. destruct i as [|i]; cbn in H.
  - injection H as ->. rewrite Nat.eqb_refl. reflexivity.
  - destruct (Nat.eqb_spec q r) as [->|]; [exfalso; apply nth_error_In in H; contradiction|]. rewrite (IH i); auto.
Qed.
Lemma position_none mem r : position mem r = None <-> ~ In r mem.
Proof.
  induction mem as [|q mem IH]; cbn; [tauto|]. destruct (Nat.eqb_spec q r) as [->|E]; [split; [discriminate|tauto]|].
  destruct (position mem r); cbn; (split; [intros H|intros H]); try discriminate; try tauto.
  exfalso. assert (X : Some n = None) by (apply IH; tauto). discriminate X.
Qed.

Section Embed.
Context {A Msg : Type} (n : nat) (mem : list nat).
Hypothesis HN : NoDup mem.
Hypothesis HB : forall r, In r mem -> r < n.
Notation k := (length mem).
Notation wr := (world_rank n mem).

Definition spread (S : nat -> A) (T : nat -> A) (r : nat) : A := match position mem r with Some i => S i | None => T r end.

Lemma wr_nth i : i < k -> nth_error mem i = Some (wr i).
Proof. intros H. unfold world_rank. apply nth_error_nth'. exact H. Qed.
Lemma wr_position i : i < k -> position mem (wr i) = Some i.
Proof. intros H. apply nth_position, wr_nth; auto. Qed.
Lemma position_wr r i : position mem r = Some i -> i < k /\ wr i = r.
Proof.
  intros H. apply position_nth in H. split; [apply nth_error_Some; congruence|]. unfold world_rank. apply nth_error_nth, H.
Qed.
Lemma wr_lt i : i < k -> wr i < n.
Proof. intros H. apply HB. eapply nth_error_In, wr_nth, H. Qed.
Lemma wr_inj i j : i < k -> j < k -> wr i = wr j -> i = j.
Proof. intros Hi Hj E. pose proof (wr_position i Hi) as P. rewrite E, (wr_position j Hj) in P. congruence. Qed.

Lemma count_wr s l : s < k -> (forall q, In q l -> q < k) -> count (wr s) (map wr l) = count s l.
Proof.
  intros Hs H. induction l as [|q l IH]; [reflexivity|]. unfold count in *. cbn [map filter].
  assert (Hq : q < k) by (apply H; left; reflexivity). specialize (IH (fun q Hq => H q (or_intror Hq))).
  destruct (Nat.eqb_spec s q) as [->|E]; [rewrite Nat.eqb_refl; cbn [length]; rewrite IH; reflexivity|].
  destruct (Nat.eqb_spec (wr s) (wr q)) as [E'|_]; [exfalso; apply E, (wr_inj s q Hs Hq E')|exact IH].
Qed.
Lemma count_wr_out s l : ~ In s mem -> (forall q, In q l -> q < k) -> count s (map wr l) = 0.
Proof.
  intros Hs H. induction l as [|q l IH]; [reflexivity|]. unfold count in *. cbn [map filter].
  assert (Hq : q < k) by (apply H; left; reflexivity). specialize (IH (fun q Hq => H q (or_intror Hq))).
  destruct (Nat.eqb_spec s (wr q)) as [->|_]; [exfalso; apply Hs; eapply nth_error_In, wr_nth, Hq|exact IH].
Qed.
Lemma msgs_wr d (l : list (nat * Msg)) : d < k -> (forall x m, In (x, m) l -> x < k) ->
  msgs_to (wr d) (map (fun x => (wr (fst x), snd x)) l) = msgs_to d l.
Proof.
  intros Hs H. induction l as [|[q m] l IH]; [reflexivity|]. unfold msgs_to in *. cbn [map filter fst snd].
  assert (Hq : q < k) by (eapply H; left; reflexivity). specialize (IH (fun x m' Hx => H x m' (or_intror Hx))).
  destruct (Nat.eqb_spec q d) as [->|E]; [rewrite Nat.eqb_refl; cbn [map snd]; rewrite IH; reflexivity|].
  destruct (Nat.eqb_spec (wr q) (wr d)) as [E'|_]; [exfalso; apply E, (wr_inj q d Hq Hs E')|exact IH].
Qed.
Lemma msgs_wr_out d (l : list (nat * Msg)) : ~ In d mem -> (forall x m, In (x, m) l -> x < k) ->
  msgs_to d (map (fun x => (wr (fst x), snd x)) l) = [].
Proof.
  intros Hs H. induction l as [|[q m] l IH]; [reflexivity|]. unfold msgs_to in *. cbn [map filter fst snd].
  assert (Hq : q < k) by (eapply H; left; reflexivity). specialize (IH (fun x m' Hx => H x m' (or_intror Hx))).
  destruct (Nat.eqb_spec (wr q) d) as [<-|_]; [exfalso; apply Hs; eapply nth_error_In, wr_nth, Hq|exact IH].
Qed.

Definition plain (ph : phase A Msg) : Prop := match ph with Coll _ => False | _ => True end.

Lemma embed1_ok ph S S' T : plain ph -> phase_ok k ph S S' -> phase_ok n (embed1 n mem ph) (spread S T) (spread S' T).
Proof.
  unfold spread. destruct ph as [f|p|f]; cbn [plain embed1 phase_ok]; [intros _ H|intros _ [M D]|contradiction].
  - intros r Hr. destruct (position mem r) as [i|] eqn:P; [|reflexivity]. apply position_wr in P as [Hi _]. auto.
  - split.
    + intros r Hr. cbn [p_recvs p_sends]. destruct (position mem r) as [i|] eqn:P.
      * apply position_wr in P as [Hi <-]. destruct (M i Hi) as (M1 & M2 & M3). split; [|split].
        -- intros s I. apply in_map_iff in I as (q & <- & I). apply wr_lt, M1, I.
        -- intros d m I. apply in_map_iff in I as ([q m'] & [= <- <-] & I). apply wr_lt. eapply M2, I.
        -- intros s Hs. destruct (position mem s) as [j|] eqn:Q.
           ++ apply position_wr in Q as [Hj <-]. rewrite count_wr, msgs_wr; auto. apply (M j Hj).
           ++ apply position_none in Q. rewrite count_wr_out; auto.
      * split; [intros s []|]. split; [intros d m []|]. intros s Hs. cbn. apply position_none in P.
        destruct (position mem s) as [j|] eqn:Q; [|reflexivity]. apply position_wr in Q as [Hj <-]. rewrite msgs_wr_out; auto. apply (M j Hj).
    + intros r l Hr Ar. cbn [p_done]. destruct (position mem r) as [i|] eqn:P; [|reflexivity]. apply position_wr in P as [Hi <-].
      apply D; [exact Hi|]. destruct Ar as (A1 & A2 & A3). cbn [p_recvs] in A2. rewrite wr_position, map_length in A2 by exact Hi.
      split; [exact A1|]. split; [exact A2|]. intros a m I. specialize (A3 a m I). unfold recv_msg in *. cbn [p_recvs p_sends] in A3.
      rewrite wr_position in A3 by exact Hi. rewrite nth_error_map in A3.
      destruct (nth_error (p_recvs p i (S i)) a) as [s|] eqn:Es; cbn [option_map] in A3; [|discriminate].
      assert (Hs : s < k) by (apply (proj1 (M i Hi)); apply nth_error_In in Es; exact Es). rewrite wr_position, firstn_map in A3 by exact Hs.
      rewrite msgs_wr, count_wr in A3; auto.
      * intros q Iq. apply (proj1 (M i Hi)). rewrite <- (firstn_skipn a). apply in_or_app. left. exact Iq.
      * intros x m' Ix. apply (proj1 (proj2 (M s Hs)) x m' Ix).
Qed.

Lemma embed_ok prog : forall S S' T, Forall plain prog -> prog_ok k prog S S' -> prog_ok n (embed n mem prog) (spread S T) (spread S' T).
Proof.
  induction prog as [|ph prog IH]; intros S S' T F H; cbn [embed map prog_ok] in *.
  - intros r Hr. unfold spread. destruct (position mem r) as [i|] eqn:P; [|reflexivity]. apply H, (proj1 (position_wr _ _ P)).
  - inversion F; subst. destruct H as (S1 & Q1 & Q2). exists (spread S1 T). split; [apply embed1_ok; auto|apply IH; auto].
Qed.
End Embed.
