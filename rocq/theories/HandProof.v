(** Proofs about the sparse handshake. *)
From Coq Require Import List Arith Bool Lia Sorting.Sorted.
From Verif Require Import Base ContModel ContSpec ContProof MapProof OMap PairMap FRefModel
  ProtoModel ProtoSpec ProtoProof.
Import ListNotations.
Local Open Scope nat_scope.
Local Arguments Nat.ltb : simpl never.
Local Arguments Nat.leb : simpl never.
Local Arguments Nat.eqb : simpl never.
Local Arguments Nat.sub : simpl never.
Local Arguments Nat.mul : simpl never.
Local Arguments sstep : simpl never.

Lemma nltb_swo : swo Nat.ltb.
Proof.
  apply total_swo.
  - intros a _. apply Nat.ltb_irrefl.
  - intros a b c _ _ _. rewrite !Nat.ltb_lt. lia.
  - intros a b _ _. rewrite !Nat.ltb_ge. lia.
Qed.
Lemma nEQ a b : eqv Nat.ltb a b = true -> a = b.
Proof.
  unfold eqv. rewrite andb_true_iff, !negb_true_iff, !Nat.ltb_ge. lia.
Qed.

Lemma self_match_spec ranks r : sok Nat.ltb (self_match ranks r) /\
  forall q, In q (self_match ranks r) <-> q = r /\ In r ranks.
Proof.
  unfold self_match.
  assert (G : forall l s, sok Nat.ltb s ->
    let s' := fold_left (fun s o => if Nat.eqb o r then set_insert Nat.ltb s r else s) l s in
    sok Nat.ltb s' /\ forall q, In q s' <-> In q s \/ (q = r /\ In r l)).
  { induction l as [|o l IH]; intros s Hs; cbn.
    - split; [exact Hs|]. intros q. tauto.
    - destruct (Nat.eqb_spec o r) as [->|Ne].
      + destruct (IH (set_insert Nat.ltb s r)) as [A B].
        { apply sok_insert; [exact nltb_swo|exact Hs]. }
        split; [exact A|]. intros q. rewrite B.
        rewrite (In_set_insert Nat.ltb nltb_swo nEQ s r q Hs). intuition congruence.
      + destruct (IH s Hs) as [A B]. split; [exact A|]. intros q. rewrite B.
        intuition congruence. }
  destruct (G ranks [] (sok_nil _)) as [A B]. split; [exact A|].
  intros q. rewrite B. cbn. tauto.
Qed.

Lemma send_count_pos ranks r d : 0 < send_count ranks r d <-> d <> r /\ In d ranks.
Proof.
  unfold send_count. destruct (Nat.eqb_spec d r) as [->|Ne]; [split; [lia|tauto]|].
  split.
  - intros H. split; [exact Ne|].
    destruct (filter (Nat.eqb d) ranks) as [|x l] eqn:E; [cbn in H; lia|].
    assert (I : In x (filter (Nat.eqb d) ranks)) by (rewrite E; now left).
    apply filter_In in I. destruct I as [I J]. apply Nat.eqb_eq in J. now subst.
  - intros [_ H].
    assert (I : In d (filter (Nat.eqb d) ranks)) by (apply filter_In; split; [exact H|apply Nat.eqb_refl]).
    destruct (filter (Nat.eqb d) ranks); [destruct I|cbn; lia].
Qed.

Section Hand.
Context (n : nat) (ranks : nat -> list nat).
Context (Hranks : forall r q, In q (ranks r) -> q < n).

Definition begun (s : hst) (r : nat) : Prop := h_pc s r <> HBefore.

Record hinv (s : hst) : Prop := {
  hi_sig : sinv n (h_sig s);
  hi_lt : forall r, begun s r -> r < n;
  hi_started : forall r, g_started (h_sig s) r = if h_sends_done s r then 1 else 0;
  hi_done : forall r, g_done (h_sig s) r = match h_pc s r with HEnd => 1 | _ => 0 end;
  hi_sdb : forall r, h_sends_done s r = true -> begun s r;
  hi_chk : forall r, h_pc s r = HCheck -> r = 0;
  hi_root : h_pc s 0 = HCheck <-> g_pc (h_sig s) <> ROut;
  hi_sent : forall q d, h_sent s q d = match h_pc s q with HBefore => 0 | _ => send_count (ranks q) q d end;
  hi_recv : forall q d, h_recv s q d <= h_sent s q d;
  hi_recvb : forall q d, 0 < h_recv s q d -> begun s d;
  hi_sd : forall r d, h_sends_done s r = true -> d < n -> h_sent s r d <= h_recv s r d;
  hi_ok : forall r, sok Nat.ltb (h_matched s r);
  hi_mem : forall r q, In q (h_matched s r) <->
      (begun s r /\ q = r /\ In r (ranks r)) \/ 0 < h_recv s q r }.

Lemma hinv0 : hinv hst0.
Proof.
  split; cbn; unfold zero, begun; cbn; intros; try lia; try congruence; try discriminate.
  - apply sinv0.
  - split; [discriminate|]. intros C. now destruct C.
  - apply sok_nil.
  - split; [tauto|]. intros [(C & _)|C]; [congruence|lia].
Qed.

Lemma all_matched_spec s r : all_matched n s r = true <-> forall d, d < n -> h_sent s r d <= h_recv s r d.
Proof.
  unfold all_matched. rewrite forallb_forall. split.
  - intros H d Hd. apply Nat.leb_le, H, in_seq. lia.
  - intros H d Hd. apply in_seq in Hd. apply Nat.leb_le, H. lia.
Qed.

(** Facts about one step of the signal on behalf of rank [srank l]. *)
Lemma sstep_frame g l g' : sstep n g l = Some g' -> is_start l = false ->
  (forall r, g_started g' r = g_started g r) /\
  (forall r, r <> srank l -> g_done g' r = g_done g r) /\
  (g_done g' (srank l) = g_done g (srank l) \/ g_done g' (srank l) = S (g_done g (srank l))) /\
  (srank l <> 0 -> g_pc g' = g_pc g /\ g_done g' (srank l) = S (g_done g (srank l))) /\
  (srank l = 0 -> g_done g' 0 = S (g_done g 0) -> g_pc g' = ROut).
Proof.
  destruct g as [started done sent0 recv0 sent1 recv1 pc nc]. unfold sstep.
  destruct l as [r|r| |q| | |]; cbn; intros E F; try discriminate.
  - match type of E with (if ?c then _ else _) = _ => destruct c eqn:C; [|discriminate] end. bsplit.
    injection E as <-. cbn. rewrite inc_same. repeat split; auto.
    + intros x Hx. now apply inc_other.
    + intros; lia.
  - destruct pc; try discriminate.
    match type of E with (if ?c then _ else _) = _ => destruct c eqn:C; [|discriminate] end. bsplit.
    injection E as <-. cbn. repeat split; auto; intros; try lia.
  - destruct pc; try discriminate.
    match type of E with (if ?c then _ else _) = _ => destruct c eqn:C; [|discriminate] end. bsplit.
    injection E as <-. cbn. repeat split; auto; intros; try lia.
  - destruct pc; try discriminate.
    match type of E with (if ?c then _ else _) = _ => destruct c eqn:C; [|discriminate] end. bsplit.
    injection E as <-. cbn. repeat split; auto; intros; try lia.
  - destruct pc; try discriminate.
    match type of E with (if ?c then _ else _) = _ => destruct c eqn:C; [|discriminate] end. bsplit.
    injection E as <-. cbn. repeat split; auto; intros; try lia.
  - destruct pc as [| |i]; try discriminate.
    destruct (Nat.ltb_spec i n).
    + match type of E with (if ?c then _ else _) = _ => destruct c eqn:C; [|discriminate] end. bsplit.
      injection E as <-. cbn. repeat split; auto; intros; try lia.
    + injection E as <-. cbn. rewrite inc_same. repeat split; auto.
      * intros x Hx. now apply inc_other.
      * intros; lia.
Qed.

Lemma upd_eq {A} (f : nat -> A) r v q : upd f r v q = if Nat.eqb q r then v else f q.
Proof. reflexivity. Qed.

(** A step that only moves rank r between two places of its loop. *)
Lemma hinv_move pc sd mt sent recv g r p :
  hinv (mkH pc sd mt sent recv g) ->
  begun (mkH pc sd mt sent recv g) r -> pc r <> HEnd -> pc r <> HCheck ->
  p = HProbe \/ p = HIf ->
  hinv (mkH (upd pc r p) sd mt sent recv g).
Proof.
  intros [J1 J2 J3 J4 J5 J6 J7 J8 J9 J10 J11 J12 J13] Hb He Hc Hp. unfold begun in *. cbn in *.
  assert (Nb : p <> HBefore /\ p <> HEnd /\ p <> HCheck) by (destruct Hp; subst; repeat split; discriminate).
  destruct Nb as (Nb & Ne & Nc).
  split; unfold begun; cbn; auto.
  - intros q. rewrite upd_eq. destruct (Nat.eqb_spec q r) as [->|]; auto.
  - intros q. rewrite upd_eq, J4. destruct (Nat.eqb_spec q r) as [->|]; [|reflexivity].
    destruct (pc r), p; congruence.
  - intros q Hq. rewrite upd_eq. destruct (Nat.eqb_spec q r) as [->|]; [exact Nb|auto].
  - intros q. rewrite upd_eq. destruct (Nat.eqb_spec q r) as [->|]; [congruence|auto].
  - rewrite upd_eq. destruct (Nat.eqb_spec 0 r) as [<-|]; [|exact J7]. rewrite <- J7. split; congruence.
  - intros q d. rewrite upd_eq, J8. destruct (Nat.eqb_spec q r) as [->|]; [|reflexivity].
    destruct (pc r), p; congruence.
  - intros q d Hq. rewrite upd_eq. destruct (Nat.eqb_spec d r) as [->|]; [exact Nb|eauto].
  - intros q x. rewrite J13, upd_eq. destruct (Nat.eqb_spec q r) as [->|]; [|reflexivity].
    intuition congruence.
Qed.

Lemma hinv_step s l s' : hinv s -> hstep n ranks s l = Some s' -> hinv s'.
Proof.
  intros I E. pose proof I as [J1 J2 J3 J4 J5 J6 J7 J8 J9 J10 J11 J12 J13].
  destruct s as [pc sd mt sent recv g]. unfold begun in *. cbn in *.
  destruct l as [r|r q|r|r b|r|sl].
  - (* HBegin *)
    destruct (pc r) eqn:Ep; try discriminate.
    match type of E with (if ?c then _ else _) = _ => destruct c eqn:C; [|discriminate] end.
    apply andb_prop in C. destruct C as [Hr _]. apply Nat.ltb_lt in Hr. injection E as <-.
    assert (Sd : sd r = false).
    { destruct (sd r) eqn:E1; [|reflexivity]. exfalso. apply (J5 r E1). exact Ep. }
    destruct (self_match_spec (ranks r) r) as [SM1 SM2].
    assert (R0 : forall q, recv q r = 0).
    { intros q. destruct (recv q r) eqn:E1; [reflexivity|]. exfalso. apply (J10 q r); [lia|exact Ep]. }
    split; unfold begun; cbn; auto.
    + intros q. rewrite upd_eq. destruct (Nat.eqb_spec q r) as [->|]; auto.
    + intros q. rewrite upd_eq, J4. destruct (Nat.eqb_spec q r) as [->|]; [now rewrite Ep|reflexivity].
    + intros q Hq. rewrite upd_eq. destruct (Nat.eqb_spec q r) as [->|]; [discriminate|auto].
    + intros q. rewrite upd_eq. destruct (Nat.eqb_spec q r) as [->|]; [discriminate|auto].
    + rewrite upd_eq. destruct (Nat.eqb_spec 0 r) as [<-|]; [|exact J7]. rewrite <- J7, Ep. split; discriminate.
    + intros q d. rewrite upd_eq. destruct (Nat.eqb_spec q r) as [->|]; [reflexivity|apply J8].
    + intros q d. destruct (Nat.eqb_spec q r) as [->|]; [|apply J9].
      pose proof (J9 r d) as A. rewrite J8, Ep in A. lia.
    + intros q d Hq. rewrite upd_eq. destruct (Nat.eqb_spec d r) as [->|]; [discriminate|eauto].
    + intros q d Hq Hd. destruct (Nat.eqb_spec q r) as [->|]; [congruence|auto].
    + intros q. rewrite upd_eq. destruct (Nat.eqb_spec q r) as [->|]; [exact SM1|apply J12].
    + intros q x. rewrite !upd_eq. destruct (Nat.eqb_spec q r) as [->|]; [|apply J13].
      rewrite SM2, R0. split; [intros [-> H]; left; repeat split; [discriminate|exact H]|].
      intros [(_ & -> & H)|H]; [auto|lia].
  - (* HHit *)
    destruct (pc r) eqn:Ep; try discriminate.
    destruct (Nat.ltb_spec (recv q r) (sent q r)) as [Hq|]; [|discriminate]. injection E as <-.
    assert (U : forall a b, upd2 recv q r (S (recv q r)) a b =
                            if Nat.eqb a q && Nat.eqb b r then S (recv q r) else recv a b) by reflexivity.
    split; unfold begun; cbn; auto.
    + intros a d. rewrite U. destruct (Nat.eqb_spec a q) as [->|], (Nat.eqb_spec d r) as [->|]; cbn;
        try apply J9. lia.
    + intros a d. rewrite U. destruct (Nat.eqb_spec a q) as [->|], (Nat.eqb_spec d r) as [->|]; cbn; intros H;
        try (eapply J10; eauto; fail). rewrite Ep. discriminate.
    + intros a d Ha Hd. rewrite U. specialize (J11 a d Ha Hd).
      destruct (Nat.eqb_spec a q) as [->|], (Nat.eqb_spec d r) as [->|]; cbn; auto.
    + intros a. rewrite upd_eq. destruct (Nat.eqb_spec a r) as [->|]; [|apply J12].
      apply sok_insert; [exact nltb_swo|apply J12].
    + intros a x. rewrite upd_eq, U. destruct (Nat.eqb_spec a r) as [->|].
      * rewrite (In_set_insert Nat.ltb nltb_swo nEQ (mt r) q x (J12 r)), J13.
        destruct (Nat.eqb_spec x q) as [->|]; cbn; intuition lia.
      * rewrite J13. rewrite andb_false_r. reflexivity.
  - (* HMiss *)
    destruct (pc r) eqn:Ep; try discriminate. injection E as <-.
    apply (hinv_move _ _ _ _ _ _ r HIf I); unfold begun; cbn; rewrite ?Ep; try discriminate. now right.
  - (* HTest *)
    destruct (pc r) eqn:Ep; try discriminate.
    destruct (sd r) eqn:Es; [discriminate|].
    destruct b; [|injection E as <-;
      apply (hinv_move _ _ _ _ _ _ r HProbe I); unfold begun; cbn; rewrite ?Ep; try discriminate; now left].
    destruct (all_matched n (mkH pc sd mt sent recv g) r) eqn:Am; [|discriminate].
    destruct (sstep n g (SStart r)) as [g'|] eqn:Eg; [|discriminate]. injection E as <-.
    pose proof (sinv_step n g _ g' J1 Eg) as J1'.
    assert (F : (forall q, g_started g' q = if Nat.eqb q r then S (g_started g q) else g_started g q) /\
                (forall q, g_done g' q = g_done g q) /\ g_pc g' = g_pc g).
    { clear -Eg. destruct g as [started done sent0 recv0 sent1 recv1 gpc nc]. cbn in *. unfold sstep in Eg.
      match type of Eg with (if ?c then _ else _) = _ => destruct c eqn:C; [|discriminate] end.
      destruct (Nat.eqb r 0); injection Eg as <-; cbn; (split; [|auto]);
      intros x; unfold inc; rewrite ?upd_eq; try reflexivity;
      (destruct (Nat.eqb_spec x r) as [e|]; [rewrite e|]; reflexivity). }
    destruct F as (F1 & F2 & F3).
    assert (I' : hinv (mkH (upd pc r HProbe) sd mt sent recv g)).
    { apply (hinv_move _ _ _ _ _ _ r HProbe I); unfold begun; cbn; rewrite ?Ep; try discriminate. now left. }
    destruct I' as [K1 K2 K3 K4 K5 K6 K7 K8 K9 K10 K11 K12 K13]. unfold begun in *. cbn in *.
    split; unfold begun; cbn; auto.
    + intros q. rewrite F1, upd_eq, J3. destruct (Nat.eqb_spec q r) as [->|]; [now rewrite Es|reflexivity].
    + intros q. rewrite F2. apply K4.
    + intros q Hq. rewrite upd_eq in Hq. destruct (Nat.eqb_spec q r) as [e|]; [rewrite e in *|auto].
      rewrite upd_eq, Nat.eqb_refl. discriminate.
    + rewrite F3. exact K7.
    + intros q d Hq Hd. rewrite upd_eq in Hq. destruct (Nat.eqb_spec q r) as [e|]; [rewrite e in *|auto].
      apply (proj1 (all_matched_spec (mkH pc sd mt sent recv g) r) Am d Hd).
  - (* HFail *)
    destruct (pc r) eqn:Ep; try discriminate.
    destruct (sd r && Nat.ltb 0 r) eqn:Es; [|discriminate]. injection E as <-.
    apply (hinv_move _ _ _ _ _ _ r HProbe I); unfold begun; cbn; rewrite ?Ep; try discriminate. now left.
  - (* HSig *)
    assert (E2 : is_start sl = false /\ (pc (srank sl) = HIf \/ pc (srank sl) = HCheck) /\
                 sd (srank sl) = true /\
                 exists g', sstep n g sl = Some g' /\
                 s' = mkH (upd pc (srank sl) (after_check g g' (srank sl))) sd mt sent recv g').
    { destruct sl; try discriminate; (split; [reflexivity|]); cbn in *;
      match type of E with context [pc ?r] => destruct (pc r) eqn:Ep; try discriminate;
        destruct (sd r) eqn:Es; try discriminate end;
      (destruct (sstep n g _) as [g'|] eqn:Eg in E; [|discriminate]);
      injection E as <-; (split; [auto|]); (split; [auto|]); exists g'; auto. }
    destruct E2 as (Ns & Hp & Sd & g' & Eg & ->).
    pose proof (sinv_step n g _ g' J1 Eg) as J1'.
    destruct (sstep_frame g sl g' Eg Ns) as (F1 & F2 & F3 & F4 & F5).
    set (r := srank sl) in *.
    assert (D0 : g_done g r = 0) by (rewrite J4; destruct Hp as [-> | ->]; reflexivity).
    assert (Ac : after_check g g' r = (if Nat.ltb 0 (g_done g' r) then HEnd
                  else match g_pc g' with ROut => HProbe | _ => HCheck end)).
    { unfold after_check. now rewrite D0. }
    assert (NB : after_check g g' r <> HBefore).
    { rewrite Ac. destruct (Nat.ltb _ _); [discriminate|]. destruct (g_pc g'); discriminate. }
    assert (NI : pc r <> HBefore) by (destruct Hp; congruence).
    split; unfold begun; cbn; auto.
    + intros q. rewrite upd_eq. destruct (Nat.eqb_spec q r) as [->|]; auto.
    + intros q. rewrite F1. apply J3.
    + intros q. rewrite upd_eq. destruct (Nat.eqb_spec q r) as [->|Nq].
      * rewrite Ac. destruct F3 as [F3|F3]; rewrite F3, D0; cbn.
        -- destruct (Nat.ltb_spec 0 0); [lia|]. destruct (g_pc g'); reflexivity.
        -- destruct (Nat.ltb_spec 0 1); [reflexivity|lia].
      * rewrite (F2 q Nq). apply J4.
    + intros q Hq. rewrite upd_eq. destruct (Nat.eqb_spec q r) as [->|]; auto.
    + intros q. rewrite upd_eq. destruct (Nat.eqb_spec q r) as [->|]; [|apply J6].
      rewrite Ac. intros Hc. destruct (Nat.eq_dec r 0) as [|Nz]; [assumption|].
      destruct (F4 Nz) as [_ F4']. rewrite D0 in F4'. rewrite F4' in Hc.
      destruct (Nat.ltb_spec 0 1); [discriminate|lia].
    + rewrite upd_eq. destruct (Nat.eqb_spec 0 r) as [E0|Nz].
      * rewrite Ac. destruct F3 as [F3|F3]; rewrite F3, D0.
        -- destruct (Nat.ltb_spec 0 0); [lia|]. destruct (g_pc g'); split; congruence.
        -- destruct (Nat.ltb_spec 0 1); [|lia]. split; [discriminate|].
           rewrite <- E0 in F3. rewrite (F5 (eq_sym E0)); [congruence|exact F3].
      * destruct (F4 (fun e => Nz (eq_sym e))) as [-> _]. exact J7.
    + intros q d. rewrite upd_eq, J8. destruct (Nat.eqb_spec q r) as [->|]; [|reflexivity].
      destruct (pc r), (after_check g g' r); congruence.
    + intros q d Hq. rewrite upd_eq. destruct (Nat.eqb_spec d r) as [->|]; [exact NB|eauto].
    + intros q x. rewrite J13, upd_eq. destruct (Nat.eqb_spec q r) as [->|]; [|reflexivity].
      intuition congruence.
Qed.

Lemma hinv_run ls s : run (hstep n ranks) hst0 ls = Some s -> hinv s.
Proof. apply (run_inv (hstep n ranks) hinv); [apply hinv_step|apply hinv0]. Qed.

(** Once one rank has returned, all messages have been matched. *)
Lemma hend_all s r : hinv s -> h_pc s r = HEnd ->
  forall q, q < n -> h_sends_done s q = true.
Proof.
  intros I Hr q Hq. pose proof (hi_lt s I r) as Hl.
  assert (Hr' : r < n) by (apply Hl; unfold begun; congruence).
  pose proof (sinv_safe n (h_sig s) r q (hi_sig s I) Hr' Hq) as A.
  rewrite (hi_done s I), Hr, (hi_started s I) in A. destruct (h_sends_done s q); [reflexivity|lia].
Qed.

Lemma sok_filter_seq f : sok Nat.ltb (filter f (seq 0 n)).
Proof.
  split; [|apply Forall_forall; intros; exact Logic.I].
  clear Hranks. generalize 0. induction n as [|m IH]; intros k; cbn; [constructor|].
  destruct (f k); [|apply IH]. constructor; [apply IH|].
  apply Forall_forall. intros x Hx. apply filter_In in Hx. destruct Hx as [Hx _].
  apply in_seq in Hx. apply Nat.ltb_lt. lia.
Qed.

Lemma hand_result s r : hinv s -> h_pc s r = HEnd -> h_matched s r = named n ranks r.
Proof.
  intros I Hr.
  assert (Hr' : r < n) by (apply (hi_lt s I); unfold begun; congruence).
  apply (sok_ext Nat.ltb nltb_swo).
  - apply (hi_ok s I).
  - apply sok_filter_seq.
  - intros q. rewrite (hi_mem s I). unfold named. rewrite filter_In, in_seq, existsb_exists.
    assert (X : (exists x, In x (ranks q) /\ Nat.eqb r x = true) <-> In r (ranks q)).
    { split; [intros (x & A & B); apply Nat.eqb_eq in B; now subst|].
      intros A. exists r. split; [exact A|apply Nat.eqb_refl]. }
    rewrite X. clear X.
    assert (Sent : q < n -> h_sent s q r = send_count (ranks q) q r).
    { intros Hq. pose proof (hi_sdb s I q (hend_all s r I Hr q Hq)) as B. rewrite (hi_sent s I).
      unfold begun in B. destruct (h_pc s q); congruence. }
    split.
    + intros [(_ & -> & H)|H]; [split; [lia|exact H]|].
      pose proof (hi_recv s I q r) as L.
      assert (Hq : q < n).
      { apply (hi_lt s I). unfold begun. intros C. rewrite (hi_sent s I), C in L. lia. }
      rewrite (Sent Hq) in L. split; [lia|]. apply (send_count_pos (ranks q) q r). lia.
    + intros (Hq & H). destruct (Nat.eq_dec q r) as [->|Ne].
      * left. repeat split; auto. unfold begun. congruence.
      * right. pose proof (hi_sd s I q r (hend_all s r I Hr q ltac:(lia)) Hr') as L.
        rewrite Sent in L by lia.
        assert (0 < send_count (ranks q) q r) by (apply send_count_pos; split; [auto|exact H]). lia.
Qed.

Theorem handshake_result ls s r : run (hstep n ranks) hst0 ls = Some s ->
  h_pc s r = HEnd -> h_matched s r = named n ranks r.
Proof. intros R. apply hand_result. eapply hinv_run; eauto. Qed.

(** * Liveness *)

Definition hreach (s s' : hst) : Prop := exists ls, run (hstep n ranks) s ls = Some s'.
Lemma hreach_refl s : hreach s s.
Proof. now exists []. Qed.
Lemma hreach_trans a b c : hreach a b -> hreach b c -> hreach a c.
Proof. intros [l1 H1] [l2 H2]. exists (l1 ++ l2). now rewrite run_app, H1. Qed.
Lemma hreach_step s l s' : hstep n ranks s l = Some s' -> hreach s s'.
Proof. intros H. exists [l]. cbn. now rewrite H. Qed.
Lemma hreach_inv s s' : hreach s s' -> hinv s -> hinv s'.
Proof. intros [ls H] I. apply (run_inv (hstep n ranks) hinv hinv_step ls s s' I H). Qed.

Lemma count_or_all (P : nat -> bool) : (forall r, r < n -> P r = true) \/ exists r, r < n /\ P r = false.
Proof.
  destruct (forallb P (seq 0 n)) eqn:E.
  - left. intros r Hr. rewrite forallb_forall in E. apply E, in_seq. lia.
  - right. assert (X : exists r, In r (seq 0 n) /\ P r = false).
    { clear -E. induction (seq 0 n) as [|x l IH]; cbn in E; [discriminate|].
      destruct (P x) eqn:Ex.
      - destruct (IH E) as (r & Hr & Er). exists r. split; [now right|exact Er].
      - exists x. split; [now left|exact Ex]. }
    destruct X as (r & Hr & Er). apply in_seq in Hr. exists r. split; [lia|exact Er].
Qed.

Definition b2n (b : bool) : nat := if b then 1 else 0.

(** Stage 1: all ranks call the function. *)
Definition before (s : hst) (r : nat) : bool := match h_pc s r with HBefore => true | _ => false end.

Lemma stage1 : forall k s, nsum (fun r => b2n (before s r)) (seq 0 n) <= k -> hinv s ->
  exists s', hreach s s' /\ forall r, r < n -> begun s' r.
Proof.
  induction k as [|k IH]; intros s Hk I.
  - exists s. split; [apply hreach_refl|]. intros r Hr C.
    assert (A : nsum (fun _ => 0) (seq 0 n) < nsum (fun r => b2n (before s r)) (seq 0 n)).
    { apply (nsum_lt _ _ _ r); [apply in_seq; lia| |intros; lia]. unfold before. rewrite C. cbn. lia. }
    lia.
  - destruct (count_or_all (fun r => negb (before s r))) as [A|(r & Hr & A)].
    + exists s. split; [apply hreach_refl|]. intros r Hr C. specialize (A r Hr).
      unfold before in A. rewrite C in A. discriminate.
    + apply negb_false_iff in A.
      destruct s as [pc sd mt sent recv g].
      assert (Ep : pc r = HBefore) by (unfold before in A; cbn in A; destruct (pc r); congruence).
      eassert (E : hstep n ranks (mkH pc sd mt sent recv g) (HBegin r) = Some _).
      { cbn. rewrite Ep. destruct (Nat.ltb_spec r n); [|lia]. cbn.
        replace (forallb (fun d => Nat.ltb d n) (ranks r)) with true; [reflexivity|].
        symmetry. apply forallb_forall. intros d Hd. apply Nat.ltb_lt. eauto. }
      match type of E with _ = Some ?x =>
        assert (Ix : hinv x) by exact (hinv_step _ _ _ I E);
        assert (NX := IH x); edestruct NX as (s' & R & F); [clear NX|exact Ix|clear NX..|]; try clear NX end.
      * cbn [h_pc]. assert (X : forall a b, a < b -> b <= S k -> a <= k) by (intros; lia).
        eapply X; [|exact Hk]. apply (nsum_lt _ _ _ r).
        -- apply in_seq; lia.
        -- unfold before; cbn. rewrite upd_eq, Nat.eqb_refl, Ep. cbn. lia.
        -- intros y _. unfold before; cbn. rewrite upd_eq. destruct (Nat.eqb_spec y r); cbn; lia.
      * exists s'. split; [|exact F]. eapply hreach_trans; [eapply hreach_step, E|exact R].
Qed.

(** Brings a rank with a message waiting back to its MPI_Iprobe. *)
Lemma to_probe s q r : hinv s -> (forall x, x < n -> begun s x) -> r < n -> q < n ->
  h_recv s q r < h_sent s q r ->
  exists s', hreach s s' /\ h_pc s' r = HProbe /\ (forall x, x < n -> begun s' x) /\
    h_sent s' = h_sent s /\ h_recv s' = h_recv s.
Proof.
  intros I B Hr Hq Hw.
  assert (Sq : h_sends_done s q = false).
  { destruct (h_sends_done s q) eqn:E; [|reflexivity]. pose proof (hi_sd s I q r E Hr). lia. }
  assert (Ne : h_pc s r <> HEnd).
  { intros C. pose proof (hend_all s r I C q Hq). congruence. }
  pose proof (B r Hr) as Br. unfold begun in Br.
  destruct (h_pc s r) eqn:Ep; try congruence.
  - exists s. repeat split; auto using hreach_refl.
  - (* at the if *)
    destruct (h_sends_done s r) eqn:Es.
    + destruct (Nat.eq_dec r 0) as [->|Nz].
      * (* the root checks the signal *)
        pose proof (hi_sig s I) as G.
        assert (G0 : g_pc (h_sig s) = ROut).
        { pose proof (proj2 (hi_root s I)) as R. destruct (g_pc (h_sig s)); [reflexivity| |];
          rewrite R in Ep; discriminate. }
        assert (Nq : q <> 0).
        { intros ->. congruence. }
        assert (Nc : g_nc (h_sig s) < n - 1).
        { pose proof (si_recv0s n _ G q ltac:(lia)) as A. rewrite (hi_started s I), Sq in A.
          rewrite (si_nc n _ G), <- others_length, <- (Nat.mul_1_l (length _)), <- nsum_const.
          apply (nsum_lt _ _ _ q).
          - apply others_In. lia.
          - lia.
          - intros y Hy. apply others_In in Hy. pose proof (si_recv0 n _ G y Hy). lia. }
        pose proof (hi_started s I 0) as S0. rewrite Es in S0.
        pose proof (hi_done s I 0) as D0. rewrite Ep in D0.
        destruct s as [pc sd mt sent recv [started done sent0 recv0 sent1 recv1 gpc nc]]. cbn in *.
        subst gpc.
        eexists. split.
        { exists [HSig SCall; HSig SMiss]. unfold run. cbn [hstep srank]. rewrite Ep, Es. unfold sstep.
          destruct (Nat.ltb_spec (done 0) (started 0)); [|lia].
          unfold after_check. cbn [g_done g_pc].
          rewrite Nat.ltb_irrefl. cbn [hstep srank]. rewrite upd_eq, Nat.eqb_refl, Es. unfold sstep.
          destruct (Nat.ltb_spec nc (n - 1)); [|lia]. cbn [g_done g_pc]. reflexivity. }
        unfold after_check. cbn. rewrite ?Nat.ltb_irrefl, upd_eq, Nat.eqb_refl. repeat split.
        intros x Hx. unfold begun. cbn. rewrite !upd_eq. destruct (Nat.eqb_spec x 0); [discriminate|].
        apply (B x Hx).
      * destruct s as [pc sd mt sent recv g]. cbn in *. eexists. split.
        { apply (hreach_step _ (HFail r)). cbn. rewrite Ep, Es. destruct (Nat.ltb_spec 0 r); [|lia]. reflexivity. }
        cbn. rewrite upd_eq, Nat.eqb_refl. repeat split.
        intros x Hx. unfold begun. cbn. rewrite upd_eq. destruct (Nat.eqb_spec x r); [discriminate|apply (B x Hx)].
    + destruct s as [pc sd mt sent recv g]. cbn in *. eexists. split.
      { apply (hreach_step _ (HTest r false)). cbn. rewrite Ep, Es. reflexivity. }
      cbn. rewrite upd_eq, Nat.eqb_refl. repeat split.
      intros x Hx. unfold begun. cbn. rewrite upd_eq. destruct (Nat.eqb_spec x r); [discriminate|apply (B x Hx)].
  - (* in Check *)
    pose proof (hi_chk s I r Ep) as ->.
    pose proof (proj1 (hi_root s I) Ep) as G0. pose proof (hi_sig s I) as G.
    assert (Nq : q <> 0).
    { intros ->. pose proof (si_root n _ G G0) as A. rewrite (hi_started s I), Sq in A. lia. }
    pose proof (si_recv0s n _ G q ltac:(lia)) as A. rewrite (hi_started s I), Sq in A.
    assert (D0 : g_done (h_sig s) 0 = 0) by (rewrite (hi_done s I), Ep; reflexivity).
    assert (Nc : g_nc (h_sig s) < n - 1).
    { rewrite (si_nc n _ G), <- others_length, <- (Nat.mul_1_l (length _)), <- nsum_const.
      apply (nsum_lt _ _ _ q).
      - apply others_In. lia.
      - lia.
      - intros y Hy. apply others_In in Hy. pose proof (si_recv0 n _ G y Hy). lia. }
    assert (Es : h_sends_done s 0 = true).
    { pose proof (si_root n _ G G0) as R. rewrite (hi_started s I) in R.
      destruct (h_sends_done s 0); [reflexivity|lia]. }
    destruct (g_pc (h_sig s)) as [| |i] eqn:Eg; [now destruct G0| |].
    + destruct s as [pc sd mt sent recv [started done sent0 recv0 sent1 recv1 gpc nc]]. cbn in *.
      subst gpc. eexists. split.
      { exists [HSig SMiss]. unfold run. cbn [hstep srank]. rewrite Ep, Es. unfold sstep.
        destruct (Nat.ltb_spec nc (n - 1)); [|lia].
        unfold after_check. cbn [g_done g_pc]. rewrite Nat.ltb_irrefl. reflexivity. }
      unfold after_check. cbn. rewrite ?Nat.ltb_irrefl, upd_eq, Nat.eqb_refl. repeat split.
      intros x Hx. unfold begun. cbn. rewrite !upd_eq. destruct (Nat.eqb_spec x 0); [discriminate|].
      apply (B x Hx).
    + exfalso. destruct (si_take n _ G i Eg) as (_ & _ & P). specialize (P q ltac:(lia)). lia.
Qed.

Definition waiting (s : hst) : nat :=
  nsum (fun q => nsum (fun r => h_sent s q r - h_recv s q r) (seq 0 n)) (seq 0 n).

Lemma waiting_or_all s : (forall q r, q < n -> r < n -> h_sent s q r <= h_recv s q r) \/
  exists q r, q < n /\ r < n /\ h_recv s q r < h_sent s q r.
Proof.
  destruct (count_or_all (fun q => forallb (fun r => Nat.leb (h_sent s q r) (h_recv s q r)) (seq 0 n)))
    as [A|(q & Hq & A)].
  - left. intros q r Hq Hr. specialize (A q Hq). rewrite forallb_forall in A.
    apply Nat.leb_le, A, in_seq. lia.
  - right. destruct (count_or_all (fun r => Nat.leb (h_sent s q r) (h_recv s q r))) as [B|(r & Hr & B)].
    + exfalso. assert (forallb (fun r => Nat.leb (h_sent s q r) (h_recv s q r)) (seq 0 n) = true); [|congruence].
      apply forallb_forall. intros x Hx. apply in_seq in Hx. apply B. lia.
    + exists q, r. apply Nat.leb_gt in B. auto.
Qed.

(** Stage 2: all messages are received. *)
Lemma stage2 : forall k s, waiting s < k -> hinv s -> (forall r, r < n -> begun s r) ->
  exists s', hreach s s' /\ (forall r, r < n -> begun s' r) /\
    forall q r, q < n -> r < n -> h_sent s' q r <= h_recv s' q r.
Proof.
  induction k as [|k IH]; intros s Hk I B; [lia|].
  destruct (waiting_or_all s) as [A|(q & r & Hq & Hr & A)].
  - exists s. split; [apply hreach_refl|]. auto.
  - destruct (to_probe s q r I B Hr Hq A) as (s1 & R1 & Ep & B1 & E1 & E2).
    pose proof (hreach_inv _ _ R1 I) as I1.
    assert (A1 : h_recv s1 q r < h_sent s1 q r) by (now rewrite E1, E2).
    assert (W : waiting s1 = waiting s) by (unfold waiting; now rewrite E1, E2).
    destruct s1 as [pc sd mt sent recv g]. cbn in Ep, A1.
    eassert (E : hstep n ranks (mkH pc sd mt sent recv g) (HHit r q) = Some _).
    { cbn. rewrite Ep. destruct (Nat.ltb_spec (recv q r) (sent q r)); [|lia]. reflexivity. }
    match type of E with _ = Some ?x =>
        assert (Ix : hinv x) by exact (hinv_step _ _ _ I1 E);
        assert (NX := IH x); edestruct NX as (s' & R & F); [clear NX|exact Ix|clear NX..|]; try clear NX end.
    + assert (X : forall a b, a < b -> b = waiting s -> a < k) by (intros; lia).
      eapply X; [|exact W]. unfold waiting. cbn [h_sent h_recv].
      assert (U : forall a b, upd2 recv q r (S (recv q r)) a b =
                              if Nat.eqb a q && Nat.eqb b r then S (recv q r) else recv a b) by reflexivity.
      apply (nsum_lt _ _ _ q).
      * apply in_seq; lia.
      * apply (nsum_lt _ _ _ r); [apply in_seq; lia| |].
        -- rewrite U, !Nat.eqb_refl. cbn. lia.
        -- intros y _. rewrite U, Nat.eqb_refl. destruct (Nat.eqb_spec y r); subst; cbn; lia.
      * intros y _. apply nsum_le. intros z _. rewrite U.
        destruct (Nat.eqb_spec y q), (Nat.eqb_spec z r); subst; cbn; lia.
    + exact B1.
    + exists s'. split; [|exact F].
      eapply hreach_trans; [exact R1|]. eapply hreach_trans; [eapply hreach_step, E|exact R].
Qed.

(** Stage 3: all ranks notice that their sends are done. *)
Lemma stage3 : forall k s, nsum (fun r => b2n (negb (h_sends_done s r))) (seq 0 n) < k -> hinv s ->
  (forall r, r < n -> begun s r) ->
  (forall q r, q < n -> r < n -> h_sent s q r <= h_recv s q r) ->
  exists s', hreach s s' /\ forall r, r < n -> h_sends_done s' r = true.
Proof.
  induction k as [|k IH]; intros s Hk I B M; [lia|].
  destruct (count_or_all (h_sends_done s)) as [A|(r & Hr & A)].
  { exists s. split; [apply hreach_refl|exact A]. }
  assert (P : exists s1, hreach s s1 /\ h_pc s1 r = HIf /\ (forall x, x < n -> begun s1 x) /\
     h_sends_done s1 = h_sends_done s /\ h_sent s1 = h_sent s /\ h_recv s1 = h_recv s).
  { pose proof (B r Hr) as Br. unfold begun in Br.
    destruct (h_pc s r) eqn:Ep; try congruence.
    - destruct s as [pc sd mt sent recv g]. cbn in *. eexists. split.
      { apply (hreach_step _ (HMiss r)). cbn. rewrite Ep. reflexivity. }
      cbn. rewrite upd_eq, Nat.eqb_refl. repeat split.
      intros x Hx. unfold begun. cbn. rewrite upd_eq. destruct (Nat.eqb_spec x r); [discriminate|apply (B x Hx)].
    - exists s. repeat split; auto using hreach_refl.
    - exfalso. pose proof (hi_chk s I r Ep) as ->. pose proof (proj1 (hi_root s I) Ep) as G0.
      pose proof (si_root n _ (hi_sig s I) G0) as R. rewrite (hi_started s I), A in R. lia.
    - exfalso. pose proof (hend_all s r I Ep r Hr). congruence. }
  destruct P as (s1 & R1 & Ep & B1 & E0 & E1 & E2).
  pose proof (hreach_inv _ _ R1 I) as I1.
  assert (A1 : h_sends_done s1 r = false) by (now rewrite E0).
  assert (M1 : all_matched n s1 r = true).
  { apply all_matched_spec. intros d Hd. rewrite E1, E2. auto. }
  assert (St : g_started (h_sig s1) r = 0 /\ g_done (h_sig s1) r = 0).
  { rewrite (hi_started s1 I1), (hi_done s1 I1), A1, Ep. auto. }
  assert (E : exists g', hstep n ranks s1 (HTest r true) =
     Some (mkH (upd (h_pc s1) r HProbe) (upd (h_sends_done s1) r true) (h_matched s1) (h_sent s1) (h_recv s1) g')).
  { destruct s1 as [pc sd mt sent recv [started done sent0 recv0 sent1 recv1 gpc nc]]. cbn in *.
    rewrite Ep, A1, M1. unfold sstep. destruct (Nat.ltb_spec r n); [|lia]. destruct St as [-> ->].
    cbn. destruct (Nat.eqb r 0); eexists; reflexivity. }
  destruct E as (g' & E).
  match type of E with _ = Some ?x =>
        assert (Ix : hinv x) by exact (hinv_step _ _ _ I1 E);
        assert (NX := IH x); edestruct NX as (s' & R & F); [clear NX|exact Ix|clear NX..|]; try clear NX end.
  - cbn [h_sends_done]. assert (X : forall a b, a < b -> b < S k -> a < k) by (intros; lia).
    eapply X; [|exact Hk]. rewrite <- E0. apply (nsum_lt _ _ _ r).
    + apply in_seq; lia.
    + rewrite upd_eq, Nat.eqb_refl, A1. cbn. lia.
    + intros y _. rewrite upd_eq. destruct (Nat.eqb_spec y r); cbn; lia.
  - intros x Hx. unfold begun. cbn. rewrite upd_eq. destruct (Nat.eqb_spec x r); [discriminate|apply (B1 x Hx)].
  - cbn. intros q x Hq Hx. rewrite E1, E2. auto.
  - exists s'. split; [|exact F].
    eapply hreach_trans; [exact R1|]. eapply hreach_trans; [eapply hreach_step, E|exact R].
Qed.

(** Stage 4: the signal completes everywhere. *)
Lemma stage4 : forall k s, smu n (h_sig s) < k -> hinv s ->
  (forall r, r < n -> h_sends_done s r = true) ->
  exists s', hreach s s' /\ forall r, r < n -> h_pc s' r = HEnd.
Proof.
  induction k as [|k IH]; intros s Hk I A; [lia|].
  destruct (all_done_dec n (h_sig s) 1) as [D|D].
  - exists s. split; [apply hreach_refl|]. intros r Hr. specialize (D r Hr).
    rewrite (hi_done s I) in D. destruct (h_pc s r); lia || reflexivity.
  - destruct (signal_live_step n (h_sig s) 1 (hi_sig s I)) as (l & g' & P & E & L).
    + intros r Hr. rewrite (hi_started s I), (A r Hr). lia.
    + exact D.
    + assert (Ns : is_start l = false) by (destruct l; cbn in *; congruence).
      destruct (sstep_frame _ _ _ E Ns) as (F1 & F2 & F3 & F4 & F5).
      assert (Hl : srank l < n).
      { destruct D as (x & Hx & _). destruct l; cbn in *; try lia; try discriminate.
        - destruct (h_sig s). unfold sstep in E.
          match type of E with (if ?c then _ else _) = _ => destruct c eqn:C; [|discriminate] end. bsplit. lia. }
      (* the rank of the label is at the if or in Check, or can go there *)
      assert (Q : exists s1, hreach s s1 /\ (h_pc s1 (srank l) = HIf \/ h_pc s1 (srank l) = HCheck) /\
         h_sends_done s1 = h_sends_done s /\ h_sig s1 = h_sig s).
      { pose proof (hi_sdb s I _ (A _ Hl)) as B. unfold begun in B.
        destruct (h_pc s (srank l)) eqn:Ep; try congruence.
        - destruct s as [pc sd mt sent recv g]. cbn in *. eexists. split.
          { apply (hreach_step _ (HMiss (srank l))). cbn. rewrite Ep. reflexivity. }
          cbn. rewrite upd_eq, Nat.eqb_refl. auto.
        - exists s. auto using hreach_refl.
        - exists s. auto using hreach_refl.
        - (* HEnd: this rank has nothing left to do in the signal *)
          exfalso. pose proof (hi_done s I (srank l)) as D1. rewrite Ep in D1.
          pose proof (hi_started s I (srank l)) as S1. rewrite (A _ Hl) in S1.
          destruct (Nat.eq_dec (srank l) 0) as [Z|Nz].
          + rewrite Z in *. 
            assert (G0 : g_pc (h_sig s) = ROut).
            { pose proof (proj2 (hi_root s I)) as R. destruct (g_pc (h_sig s)); [reflexivity| |];
              rewrite R in Ep; discriminate. }
            destruct (h_sig s) as [started done sent0 recv0 sent1 recv1 gpc nc]. cbn in *. subst gpc.
            destruct l; cbn in *; try discriminate; unfold sstep in E; subst;
            repeat match type of E with (if ?c then _ else _) = _ => destruct c eqn:?; try discriminate end;
            bsplit; lia.
          + destruct (F4 Nz) as [_ F4'].
            pose proof (sinv_step n _ _ _ (hi_sig s I) E) as SI.
            pose proof (si_use n _ SI (srank l)) as U. rewrite F1 in U. lia. }
      destruct Q as (s1 & R1 & Ep & E0 & E1).
      pose proof (hreach_inv _ _ R1 I) as I1.
      assert (A1 : h_sends_done s1 (srank l) = true) by (rewrite E0; auto).
      assert (H : exists pc', hstep n ranks s1 (HSig l) =
        Some (mkH pc' (h_sends_done s1) (h_matched s1) (h_sent s1) (h_recv s1) g')).
      { rewrite <- E1 in E. destruct s1 as [pc sd mt sent recv g]. cbn in Ep, A1, E.
        destruct l; try discriminate; cbn [hstep srank] in *; destruct Ep as [-> | ->]; rewrite A1, E;
        eexists; reflexivity. }
      destruct H as (pc' & H).
      match type of H with _ = Some ?x =>
        assert (Ix : hinv x) by exact (hinv_step _ _ _ I1 H);
        assert (NX := IH x); edestruct NX as (s' & R & F); [clear NX|exact Ix|clear NX..|]; try clear NX end.
      * cbn. lia.
      * cbn. intros r Hr. rewrite E0. auto.
      * exists s'. split; [|exact F].
        eapply hreach_trans; [exact R1|]. eapply hreach_trans; [eapply hreach_step, H|exact R].
Qed.

Theorem handshake_live ls s : run (hstep n ranks) hst0 ls = Some s ->
  exists ls' s', run (hstep n ranks) s ls' = Some s' /\ forall r, r < n -> h_pc s' r = HEnd.
Proof.
  intros R0. pose proof (hinv_run ls s R0) as I0.
  destruct (stage1 _ s (le_n _) I0) as (s1 & R1 & B1). pose proof (hreach_inv _ _ R1 I0) as I1.
  destruct (stage2 _ s1 (Nat.lt_succ_diag_r _) I1 B1) as (s2 & R2 & B2 & M2). pose proof (hreach_inv _ _ R2 I1) as I2.
  destruct (stage3 _ s2 (Nat.lt_succ_diag_r _) I2 B2 M2) as (s3 & R3 & A3). pose proof (hreach_inv _ _ R3 I2) as I3.
  destruct (stage4 _ s3 (Nat.lt_succ_diag_r _) I3 A3) as (s4 & R4 & A4).
  destruct (hreach_trans _ _ _ R1 (hreach_trans _ _ _ R2 (hreach_trans _ _ _ R3 R4))) as (ls' & R).
  exists ls', s4. auto.
Qed.

End Hand.
