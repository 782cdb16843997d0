(** Proofs about profilers. *)
From Coq Require Import List ZArith Bool Lia.
From Verif Require Import ContModel ContSpec ContProof MapProof OMap PairMap ReqProof DomainModel DomainProof ProfModel ProfSpec.
Import ListNotations.
Local Open Scope Z_scope.

Lemma busy_shift id h now t : busy id now h - busy id t h = if 0 <? depth id h then now - t else 0.
Proof.
  destruct h as [|e h]; [reflexivity|]. cbn [busy]. destruct (0 <? depth id (e :: h)); lia.
Qed.

Record entry_ok (id : Z) (h : list (Z * pop)) (e : timer * Z) : Prop := {
  en_count : snd e = depth id h;
  en_pos : 0 <= snd e;
  en_run : 0 < snd e -> t_active (fst e) = true /\ exists s, t_start (fst e) = Some s /\
             forall now, t_acc (fst e) + (now - s) = busy id now h;
  en_idle : snd e = 0 -> t_active (fst e) = false /\ forall now, t_acc (fst e) = busy id now h }.
Record pinv (h : list (Z * pop)) (p : prof) : Prop := {
  pi_on : p_on p = enabled h;
  pi_ok : mok Z.ltb (p_timers p);
  pi_in : forall id e, mget Z.ltb (p_timers p) id = Some e -> entry_ok id h e /\ started id h = true /\
            0 <= id < Z.of_nat TIMER_ID_COUNT;
  pi_out : forall id, mget Z.ltb (p_timers p) id = None ->
             started id h = false /\ depth id h = 0 /\ forall now, busy id now h = 0 }.

Lemma busy_same id h e now : depth id (e :: h) = depth id h -> busy id now (e :: h) = busy id now h.
Proof.
  intros H. cbn [busy]. pose proof (busy_shift id h now (fst e)) as S. rewrite H. lia.
Qed.
Lemma entry_same id h e x : depth id (x :: h) = depth id h -> entry_ok id h e -> entry_ok id (x :: h) e.
Proof.
  intros H [A B C D]. split.
  - rewrite H. exact A.
  - exact B.
  - intros P. destruct (C P) as (Q & s & S & F). split; [exact Q|]. exists s. split; [exact S|].
    intros now. rewrite (busy_same id h x now H). apply F.
  - intros P. destruct (D P) as (Q & F). split; [exact Q|]. intros now. rewrite (busy_same id h x now H). apply F.
Qed.

Lemma pinv_same h p p' x : pinv h p -> p_timers p' = p_timers p -> p_on p' = enabled (x :: h) ->
  (forall id, depth id (x :: h) = depth id h) -> (forall id, started id (x :: h) = started id h) ->
  pinv (x :: h) p'.
Proof.
  intros [A B C D] Ht Ho Hd Hs. split; rewrite ?Ht; auto.
  - intros id e H. rewrite Hs. destruct (C id e H) as (C1 & C2 & C3). split; [|auto]. apply entry_same; auto.
  - intros id H. rewrite Hs, Hd. destruct (D id H) as (D1 & D2 & D3). split; [exact D1|]. split; [exact D2|].
    intros now. rewrite (busy_same id h x now (Hd id)). apply D3.
Qed.

Lemma start_ok h p id now x : pinv h p -> enabled h = true -> 0 <= id < Z.of_nat TIMER_ID_COUNT ->
  fst x = now -> enabled (x :: h) = enabled h ->
  (forall i, depth i (x :: h) = if Z.eqb id i then depth i h + 1 else depth i h) ->
  (forall i, started i (x :: h) = Z.eqb id i || started i h) ->
  exists p', prof_start p id now = Some p' /\ pinv (x :: h) p'.
Proof.
  intros [A B C D] En Hid Hx He Hd Hs. unfold prof_start. cbv zeta.
  pose proof (mok_fetch Z.ltb zltb_swo (p_timers p) id (timer_init, 0) B) as G1.
  pose proof (fun y => mget_fetch Z.ltb zltb_swo zEQ (p_timers p) id (timer_init, 0) y B) as G2.
  rewrite (fetch_pos Z.ltb zltb_swo _ _ _ B).
  set (m1 := fst (map_fetch Z.ltb (p_timers p) id (timer_init, 0))) in *.
  set (e0 := match mget Z.ltb (p_timers p) id with Some w => w | None => (timer_init, 0) end).
  assert (M : mget Z.ltb m1 id = Some e0).
  { rewrite G2, zkq, Z.eqb_refl. unfold e0. destruct (mget Z.ltb (p_timers p) id); reflexivity. }
  assert (E0 : entry_ok id h e0).
  { unfold e0. destruct (mget Z.ltb (p_timers p) id) as [w|] eqn:E; [apply (C id w E)|].
    destruct (D id E) as (D1 & D2 & D3). split; cbn; [auto|lia|lia|]. intros _. split; [reflexivity|].
    intros n. rewrite D3. reflexivity. }
  pose proof (mget_at Z.ltb zltb_swo m1 id e0 G1 M) as X. unfold map_at in X. rewrite X.
  eexists. split; [reflexivity|].
  assert (HN : mget Z.ltb m1 id <> None) by congruence.
  split; cbn [p_on p_timers].
  - rewrite He. exact A.
  - apply (mok_write Z.ltb zltb_swo m1 id _ G1 HN).
  - intros i e. rewrite (mget_write Z.ltb zltb_swo zEQ m1 id _ i G1 HN), zkq.
    destruct (Z.eqb_spec i id) as [->|Hn].
    + intros [= <-]. rewrite Hs, Z.eqb_refl. split; [|auto].
      destruct E0 as [a b c d]. assert (Hd' := Hd id). rewrite Z.eqb_refl in Hd'.
      assert (Hb : forall n, busy id n (x :: h) = (n - now) + busy id now h).
      { intros n. cbn [busy]. rewrite Hd'. rewrite <- a. destruct (Z.ltb_spec 0 (snd e0 + 1)); [|lia]. rewrite Hx. reflexivity. }
      split; cbn [fst snd].
      * rewrite Hd', a. reflexivity.
      * lia.
      * intros _. split; [reflexivity|]. unfold timer_start. cbn [t_start t_acc].
        destruct (Z.eq_dec (snd e0) 0) as [Z0|Z0].
        -- destruct (d Z0) as [Q F]. rewrite Q. exists now. split; [reflexivity|]. intros n. rewrite Hb, <- (F now). lia.
        -- destruct c as (Q & s & S & F); [lia|]. rewrite Q. exists s. split; [exact S|]. intros n.
           rewrite Hb, <- (F now). lia.
      * intros. lia.
    + intros Hm. rewrite G2, zkq in Hm. destruct (Z.eqb_spec i id); [congruence|].
      destruct (C i e Hm) as (C1 & C2 & C3). rewrite Hs, C2, orb_true_r. split; [|auto].
      apply entry_same; [|exact C1]. rewrite Hd. destruct (Z.eqb_spec id i); [congruence|reflexivity].
  - intros i. rewrite (mget_write Z.ltb zltb_swo zEQ m1 id _ i G1 HN), zkq.
    destruct (Z.eqb_spec i id) as [->|Hn]; [discriminate|]. intros Hm. rewrite G2, zkq in Hm.
    destruct (Z.eqb_spec i id); [congruence|]. destruct (D i Hm) as (D1 & D2 & D3).
    assert (Y : depth i (x :: h) = depth i h) by (rewrite Hd; destruct (Z.eqb_spec id i); [congruence|reflexivity]).
    rewrite Hs, Y, D1. destruct (Z.eqb_spec id i); [congruence|]. split; [reflexivity|]. split; [exact D2|].
    intros n1. rewrite (busy_same i h x n1 Y). apply D3.
Qed.

Lemma stop_ok h p id now : pinv h p -> enabled h = true -> 0 < depth id h ->
  exists p', prof_stop p id now = Some p' /\ pinv ((now, PStop id) :: h) p'.
Proof.
  intros [A B C D] En Hpos. unfold prof_stop.
  rewrite (mget_contains Z.ltb zltb_swo _ id B).
  destruct (mget Z.ltb (p_timers p) id) as [e|] eqn:E; [|destruct (D id E) as (_ & X & _); lia].
  rewrite (mget_at Z.ltb zltb_swo _ id e B E). cbv zeta.
  destruct (C id e E) as ([a b c d] & S0 & R0).
  destruct c as (Q & s & S & F); [lia|].
  assert (Hd : forall i, depth i ((now, PStop id) :: h) = if Z.eqb id i then depth i h - 1 else depth i h).
  { intros i. cbn [depth]. rewrite En. reflexivity. }
  assert (HN : mget Z.ltb (p_timers p) id <> None) by congruence.
  set (t' := if Z.eqb (snd e - 1) 0 then mkTimer false (t_acc (fst e) + (now - s)) (Some s) (Some now) else fst e).
  assert (T : (if Z.eqb (snd e - 1) 0 then timer_stop (fst e) now else Some (fst e)) = Some t').
  { unfold t', timer_stop. rewrite Q, S. destruct (Z.eqb (snd e - 1) 0); reflexivity. }
  rewrite T. eexists. split; [reflexivity|].
  split; cbn [p_on p_timers].
  - exact A.
  - apply (mok_write Z.ltb zltb_swo _ id _ B HN).
  - intros i e'. rewrite (mget_write Z.ltb zltb_swo zEQ _ id _ i B HN), zkq.
    destruct (Z.eqb_spec i id) as [->|Hn].
    + intros [= <-]. split; [|auto].
      assert (Hd' := Hd id). rewrite Z.eqb_refl in Hd'. unfold t'.
      split; cbn [fst snd].
      * lia.
      * lia.
      * intros P. destruct (Z.eqb_spec (snd e - 1) 0); [lia|]. split; [exact Q|]. exists s. split; [exact S|].
        intros n0. cbn [busy fst]. rewrite Hd', <- a, <- (F now). destruct (Z.ltb_spec 0 (snd e - 1)); lia.
      * intros P. destruct (Z.eqb_spec (snd e - 1) 0); [|lia]. split; [reflexivity|]. cbn [t_acc]. intros n0.
        cbn [busy fst]. rewrite Hd', <- a, <- (F now). destruct (Z.ltb_spec 0 (snd e - 1)); lia.
    + intros Hm. destruct (C i e' Hm) as (C1 & C2 & C3). split; [|split; [exact C2|exact C3]].
      apply entry_same; [|exact C1]. rewrite Hd. destruct (Z.eqb_spec id i); [congruence|reflexivity].
  - intros i. rewrite (mget_write Z.ltb zltb_swo zEQ _ id _ i B HN), zkq.
    destruct (Z.eqb_spec i id) as [->|Hn]; [discriminate|]. intros Hm. destruct (D i Hm) as (D1 & D2 & D3).
    assert (Y : depth i ((now, PStop id) :: h) = depth i h) by (rewrite Hd; destruct (Z.eqb_spec id i); [congruence|reflexivity]).
    split; [exact D1|]. split; [rewrite Y; exact D2|]. intros n0. rewrite (busy_same i h _ n0 Y). apply D3.
Qed.

Lemma prof_step_ok h p e : pinv h p -> plegal h e -> exists p', prof_step p e = Some p' /\ pinv (e :: h) p'.
Proof.
  intros I0 HL. destruct e as [now o]. unfold prof_step. cbn [fst snd].
  destruct o as [| |id|id|id]; cbn [plegal snd] in HL.
  - eexists. split; [reflexivity|]. apply (pinv_same h p _ _ I0); reflexivity.
  - eexists. split; [reflexivity|]. apply (pinv_same h p _ _ I0); reflexivity.
  - rewrite (pi_on _ _ I0). destruct (enabled h) eqn:En.
    + apply (start_ok h p id now _ I0 En HL); try reflexivity; intros i; cbn [depth started]; rewrite En; reflexivity.
    + eexists. split; [reflexivity|]. apply (pinv_same h p _ _ I0); try reflexivity; try (intros i; cbn [depth started]; rewrite En; reflexivity).
      apply (pi_on _ _ I0).
  - rewrite (pi_on _ _ I0). destruct (enabled h) eqn:En.
    + apply (start_ok h p id now _ I0 En HL); try reflexivity; intros i; cbn [depth started]; rewrite En; reflexivity.
    + eexists. split; [reflexivity|]. apply (pinv_same h p _ _ I0); try reflexivity; try (intros i; cbn [depth started]; rewrite En; reflexivity).
      apply (pi_on _ _ I0).
  - rewrite (pi_on _ _ I0). destruct (enabled h) eqn:En.
    + apply (stop_ok h p id now I0 En (HL eq_refl)).
    + eexists. split; [reflexivity|]. apply (pinv_same h p _ _ I0); try reflexivity; try (intros i; cbn [depth started]; rewrite En; reflexivity).
      apply (pi_on _ _ I0).
Qed.
Lemma prof_run_ok h : plegal_history (rev h) -> exists p, prof_run h = Some p /\ pinv (rev h) p.
Proof.
  induction h as [|e h IH] using rev_ind; intros HL.
  - exists prof_init. split; [reflexivity|]. split; cbn; auto; [apply mok_empty|discriminate].
  - rewrite rev_app_distr in *. cbn [rev app] in *. destruct HL as [L1 L2]. destruct (IH L2) as (p & E & I0).
    unfold prof_run in *. rewrite ofold_app, E. cbn [ofold].
    destruct (prof_step_ok _ _ e I0 L1) as (p' & E' & I1). rewrite E'. eauto.
Qed.

Lemma accumulated_ok h p id now : pinv h p -> accumulated p id now = Some (busy id now h).
Proof.
  intros [A B C D]. unfold accumulated. rewrite (mget_contains Z.ltb zltb_swo _ id B).
  destruct (mget Z.ltb (p_timers p) id) as [e|] eqn:E.
  - rewrite (mget_at Z.ltb zltb_swo _ id e B E). destruct (C id e E) as ([a b c d] & _).
    unfold timer_accumulated. destruct (Z.eq_dec (snd e) 0) as [Z0|Z0].
    + destruct (d Z0) as [Q F]. rewrite Q. f_equal. apply F.
    + destruct c as (Q & s & S & F); [lia|]. rewrite Q, S. f_equal. apply F.
  - destruct (D id E) as (_ & _ & F). rewrite F. reflexivity.
Qed.

(** WriteProfile. *)
Lemma nth_replace_bool a i j : (i < length a)%nat ->
  nth_error (replace_at a i true) j = if Nat.eqb j i then Some true else nth_error a j.
Proof. apply replace_at_nth. Qed.
Lemma was_used_gen keys : forall a, length a = TIMER_ID_COUNT ->
  (forall id, In id keys -> 0 <= id < Z.of_nat TIMER_ID_COUNT) ->
  exists a', ofold (fun a id => if (0 <=? id) && (id <? Z.of_nat TIMER_ID_COUNT)
                     then Some (replace_at a (Z.to_nat id) true) else None) keys a = Some a' /\
    length a' = TIMER_ID_COUNT /\
    forall j, (j < TIMER_ID_COUNT)%nat -> nth_error a' j = Some true <->
       (In (Z.of_nat j) keys \/ nth_error a j = Some true).
Proof.
  induction keys as [|id keys IH]; intros a HL H.
  - exists a. cbn. repeat split; auto; intros; tauto.
  - cbn [ofold]. pose proof (H id (or_introl eq_refl)) as Hi.
    destruct (Z.leb_spec 0 id); [|lia]. destruct (Z.ltb_spec id (Z.of_nat TIMER_ID_COUNT)); [|lia]. cbn [andb].
    destruct (IH (replace_at a (Z.to_nat id) true)) as (a' & E & L' & X).
    + rewrite replace_at_length. exact HL.
    + intros k Hk. apply H. right. exact Hk.
    + exists a'. split; [exact E|]. split; [exact L'|]. intros j Hj. rewrite (X j Hj), replace_at_nth by lia.
      cbn [In]. destruct (Nat.eqb_spec j (Z.to_nat id)) as [->|Hn].
      * rewrite Z2Nat.id by lia. intuition.
      * split; [intros [?|?]; auto|]. intros [[?|?]|?]; auto. subst id. rewrite Nat2Z.id in Hn. congruence.
Qed.
Lemma was_used_ok h p : pinv h p -> exists a, was_used p = Some a /\ length a = TIMER_ID_COUNT /\
  forall j, (j < TIMER_ID_COUNT)%nat -> nth_error a j = Some (started (Z.of_nat j) h).
Proof.
  intros [A B C D]. destruct (was_used_gen (m_keys (p_timers p)) (repeat false TIMER_ID_COUNT)) as (a & E & L0 & X).
  - apply repeat_length.
  - intros id Hid. apply (mkeys_In Z.ltb zltb_swo zEQ _ id B) in Hid.
    destruct (mget Z.ltb (p_timers p) id) as [e|] eqn:M; [|congruence]. apply (C id e M).
  - exists a. split; [exact E|]. split; [exact L0|]. intros j Hj.
    destruct (nth_error a j) as [b|] eqn:Ea; [|apply nth_error_None in Ea; rewrite L0 in Ea; exfalso; apply (Nat.lt_irrefl j); eapply Nat.lt_le_trans; eauto].
    f_equal. apply eq_true_iff_eq.
    assert (Y : b = true <-> In (Z.of_nat j) (m_keys (p_timers p))).
    { specialize (X j Hj). rewrite Ea in X. split.
      - intros ->. destruct (proj1 X eq_refl) as [Z0|Z0]; [exact Z0|].
        apply nth_error_In, repeat_spec in Z0. discriminate.
      - intros Hin. pose proof (proj2 X (or_introl Hin)) as Z0. congruence. }
    rewrite Y, (mkeys_In Z.ltb zltb_swo zEQ _ _ B). split.
    + intros Hm. destruct (mget Z.ltb (p_timers p) (Z.of_nat j)) as [e|] eqn:M; [|congruence]. apply (C _ e M).
    + intros Hs Hm. destruct (D _ Hm) as (Z0 & _). congruence.
Qed.

Lemma zip2_map {A B} (f : A -> A -> A) (g1 g2 : B -> A) l :
  zip2 f (map g1 l) (map g2 l) = Some (map (fun x => f (g1 x) (g2 x)) l).
Proof. induction l as [|x l IH]; cbn; [reflexivity|]. rewrite IH. reflexivity. Qed.
Lemma allreduce_fold {A B R} (f : A -> A -> A) (g : R -> B -> A) l rs : forall g0,
  ofold (zip2 f) (map (fun r => map (g r) l) rs) (map g0 l) =
  Some (map (fun x => fold_left f (map (fun r => g r x) rs) (g0 x)) l).
Proof.
  induction rs as [|r rs IH]; intros g0; cbn [map ofold fold_left]; [reflexivity|].
  rewrite zip2_map. rewrite IH. reflexivity.
Qed.
Lemma allreduce_map {A B R} (f : A -> A -> A) (g : R -> B -> A) l r rs :
  allreduce f (map (fun r => map (g r) l) (r :: rs)) =
  Some (map (fun x => fold_left f (map (fun r => g r x) rs) (g r x)) l).
Proof. cbn [map allreduce]. apply allreduce_fold. Qed.

Lemma list_eq_nth {A} (a b : list A) : length a = length b ->
  (forall i, (i < length a)%nat -> nth_error a i = nth_error b i) -> a = b.
Proof.
  revert b. induction a as [|x a IH]; intros [|y b] HL H; cbn in HL; try discriminate; [reflexivity|].
  pose proof (H 0%nat (Nat.lt_0_succ _)) as H0. cbn in H0. injection H0 as ->. f_equal. apply IH; [lia|].
  intros i Hi. apply (H (S i)). cbn. lia.
Qed.
Lemma was_used_eq h p : pinv h p ->
  was_used p = Some (map (fun id => started (Z.of_nat id) h) (seq 0 TIMER_ID_COUNT)).
Proof.
  intros I0. destruct (was_used_ok h p I0) as (a & E & L0 & X). rewrite E. f_equal.
  apply list_eq_nth; [rewrite map_length, seq_length; exact L0|].
  intros i Hi. rewrite L0 in Hi. rewrite (X i Hi), nth_error_map, (nth_error_nth' _ 0%nat) by (rewrite seq_length; exact Hi).
  rewrite seq_nth by exact Hi. reflexivity.
Qed.

Lemma global_ids_eq (q : nat -> bool) n :
  (n <= TIMER_ID_COUNT)%nat ->
  fold_left (fun s id => match nth_error (map q (seq 0 TIMER_ID_COUNT)) id with
                         | Some true => set_insert Z.ltb s (Z.of_nat id)
                         | _ => s
                         end) (seq 0 n) [] = map Z.of_nat (filter q (seq 0 n)) /\
  sok Z.ltb (map Z.of_nat (filter q (seq 0 n))).
Proof.
  induction n as [|n IH]; intros Hn; [split; [reflexivity|apply sok_nil]|].
  destruct IH as [A B]; [apply Nat.lt_le_incl; exact Hn|].
  rewrite seq_S, fold_left_app, filter_app, map_app, A. cbn [Nat.add fold_left filter].
  rewrite nth_error_map, (nth_error_nth' _ 0%nat) by (rewrite seq_length; exact Hn).
  rewrite seq_nth by exact Hn. cbn [option_map Nat.add].
  destruct (q n) eqn:Q; cbn [map]; [|rewrite app_nil_r; auto].
  assert (Hlt : forall y, In y (map Z.of_nat (filter q (seq 0 n))) -> y < Z.of_nat n).
  { intros y Hy. apply in_map_iff in Hy. destruct Hy as (k & <- & Hk). apply filter_In in Hk.
    destruct Hk as [Hk _]. apply in_seq in Hk. lia. }
  assert (G : sok Z.ltb (map Z.of_nat (filter q (seq 0 n)) ++ [Z.of_nat n])).
  { destruct B as [B1 B2]. split; [|apply Forall_forall; auto]. revert Hlt B1.
    generalize (map Z.of_nat (filter q (seq 0 n))). clear. intros l Hlt B1. unfold increasing in *.
    induction B1 as [|a l B1 IH F]; cbn [app]; [repeat constructor|].
    constructor; [apply IH; intros y Hy; apply Hlt; right; exact Hy|].
    apply Forall_app. split; [exact F|]. constructor; [|constructor].
    apply Z.ltb_lt, Hlt. left. reflexivity. }
  split; [|exact G].
  apply (sok_ext Z.ltb zltb_swo); [apply (sok_insert Z.ltb zltb_swo), B|exact G|].
  intros x. rewrite (In_set_insert Z.ltb zltb_swo zEQ _ _ _ B), in_app_iff. cbn [In]. intuition.
Qed.

Lemma zip4_map {A} (f0 f1 f2 f3 : A -> Z) l :
  zip4 (map f0 l) (map f1 l) (map f2 l) (map f3 l) = map (fun x => (f0 x, (f1 x, f2 x, f3 x))) l.
Proof. induction l as [|x l IH]; cbn; [reflexivity|]. rewrite IH. reflexivity. Qed.
Lemma existsb_fold l b : fold_left orb l b = b || existsb (fun x => x) l.
Proof.
  revert b. induction l as [|x l IH]; intros b; cbn; [rewrite orb_false_r; reflexivity|].
  rewrite IH, orb_assoc. reflexivity.
Qed.
Lemma on_ranks_some {A B} (f : nat -> A -> option B) (g : A -> B) l : forall i,
  (forall r a, In a l -> f r a = Some (g a)) -> on_ranks f i l = Some (map g l).
Proof. intros i H. apply on_ranks_map. exact H. Qed.

Lemma times_ok h p clock ids : pinv h p ->
  times p clock ids = Some (map (fun id => busy id (clock id) h) ids).
Proof.
  intros I0. unfold times. apply on_ranks_some. intros _ id _.
  apply (accumulated_ok h p id (clock id) I0).
Qed.

Lemma map_on_ranks {A B} (f : nat -> A -> option B) (g : A -> B) (P : A -> Prop) l : forall i,
  Forall P l -> (forall r a, P a -> f r a = Some (g a)) -> on_ranks f i l = Some (map g l).
Proof.
  intros i HP H. apply on_ranks_some. intros r a Ha. apply H. rewrite Forall_forall in HP. auto.
Qed.
Lemma on_ranks_comp {A B C} (f : nat -> B -> option C) (k : A -> B) (g : A -> C) l : forall i,
  (forall r a, In a l -> f r (k a) = Some (g a)) -> on_ranks f i (map k l) = Some (map g l).
Proof.
  induction l as [|a l IH]; intros i H; cbn [map on_ranks]; [reflexivity|].
  rewrite (H i a (or_introl eq_refl)), IH; [reflexivity|]. intros r b Hb. apply H. right. exact Hb.
Qed.

Lemma profile_ok (rs : list (list (Z * pop) * prof * (Z -> Z))) : rs <> [] ->
  (forall h p cl, In (h, p, cl) rs -> pinv h p) ->
  write_profile (map (fun x => (snd (fst x), snd x)) rs) =
  Some (profile (map (fun x => (fst (fst x), snd x)) rs)).
Proof.
  intros Hne HI. unfold write_profile.
  set (hist := fun x : list (Z * pop) * prof * (Z -> Z) => fst (fst x)).
  rewrite (on_ranks_comp _ _ (fun x => map (fun id => started (Z.of_nat id) (hist x)) (seq 0 TIMER_ID_COUNT))).
  2:{ intros _ [[h p] cl] Hin. apply was_used_eq. apply (HI h p cl Hin). }
  destruct rs as [|r rs]; [congruence|].
  rewrite (allreduce_map orb (fun x id => started (Z.of_nat id) (hist x))).
  set (q := fun id => fold_left orb (map (fun x => started (Z.of_nat id) (hist x)) rs) (started (Z.of_nat id) (hist r))).
  assert (Hids : global_ids (map q (seq 0 TIMER_ID_COUNT)) = map Z.of_nat (filter q (seq 0 TIMER_ID_COUNT))).
  { apply (global_ids_eq q TIMER_ID_COUNT). apply le_n. }
  cbv zeta. rewrite Hids. set (ids := map Z.of_nat (filter q (seq 0 TIMER_ID_COUNT))).
  rewrite (on_ranks_comp _ _ (fun x => map (fun id => busy id (snd x id) (hist x)) ids)).
  2:{ intros _ [[h p] cl] Hin. apply times_ok. apply (HI h p cl Hin). }
  rewrite !(allreduce_map _ (fun x id => busy id (snd x id) (hist x))).
  f_equal. transitivity (zip4 (map (fun x => x) ids)
     (map (fun id => fold_left Z.min (map (fun x => busy id (snd x id) (hist x)) rs) (busy id (snd r id) (hist r))) ids)
     (map (fun id => fold_left Z.max (map (fun x => busy id (snd x id) (hist x)) rs) (busy id (snd r id) (hist r))) ids)
     (map (fun id => fold_left Z.add (map (fun x => busy id (snd x id) (hist x)) rs) (busy id (snd r id) (hist r))) ids)).
  { rewrite map_id. reflexivity. }
  rewrite zip4_map. unfold profile.
  assert (F : forall l, filter (fun id => existsb (fun hc : list (Z * pop) * (Z -> Z) => started id (fst hc))
     (map (fun x => (fst (fst x), snd x)) (r :: rs))) (map Z.of_nat l) = map Z.of_nat (filter q l)).
  { induction l as [|k l IH]; [reflexivity|]. cbn [map filter].
    assert (Eq : existsb (fun hc : list (Z * pop) * (Z -> Z) => started (Z.of_nat k) (fst hc))
       (map (fun x => (fst (fst x), snd x)) (r :: rs)) = q k).
    { unfold q. rewrite existsb_fold. cbn [map existsb fst]. f_equal. clear. unfold hist.
      induction rs as [|x rs IH]; [reflexivity|]. cbn [map existsb fst]. rewrite <- IH. reflexivity. }
    cbn [map] in Eq, IH. rewrite Eq. destruct (q k); cbn [map]; rewrite <- IH; reflexivity. }
  rewrite F. fold ids. apply map_ext. intros id. cbv zeta. cbn [map folded fst snd]. rewrite !map_map. reflexivity.
Qed.

Lemma profile_correct (hs : list (list (Z * pop) * (Z -> Z))) : hs <> [] ->
  (forall h cl, In (h, cl) hs -> plegal_history (rev h)) ->
  exists ps, on_ranks (fun _ hc => prof_run (fst hc)) 0 hs = Some ps /\
    write_profile (combine ps (map snd hs)) = Some (profile (map (fun hc => (rev (fst hc), snd hc)) hs)).
Proof.
  intros Hne HL.
  assert (X : forall i, exists rs : list (list (Z * pop) * prof * (Z -> Z)),
    on_ranks (fun _ hc => prof_run (fst hc)) i hs = Some (map (fun x => snd (fst x)) rs) /\
    map (fun x => (fst (fst x), snd x)) rs = map (fun hc => (rev (fst hc), snd hc)) hs /\
    forall h p cl, In (h, p, cl) rs -> pinv h p).
  { clear Hne. induction hs as [|[h cl] hs IH]; intros i.
    - exists []. split; [reflexivity|]. split; [reflexivity|]. intros ? ? ? [].
    - destruct (prof_run_ok h (HL h cl (or_introl eq_refl))) as (p & E & I0).
      destruct (IH (fun a b Hab => HL a b (or_intror Hab)) (S i)) as (rs & E1 & E2 & E3).
      exists ((rev h, p, cl) :: rs). cbn [on_ranks map fst snd]. rewrite E, E1, E2. split; [reflexivity|]. split; [reflexivity|].
      intros h' p' cl' [[= <- <- <-]|Hin]; [exact I0|apply (E3 _ _ _ Hin)]. }
  destruct (X 0%nat) as (rs & E1 & E2 & E3). eexists. split; [exact E1|].
  rewrite <- E2. rewrite <- profile_ok; [|intros ->; destruct hs; [congruence|discriminate E2]|exact E3].
  f_equal. assert (S2 : map snd hs = map snd rs).
  { transitivity (map snd (map (fun hc : list (Z * pop) * (Z -> Z) => (rev (fst hc), snd hc)) hs)); [rewrite map_map; reflexivity|].
    rewrite <- E2, map_map. reflexivity. }
  rewrite S2. clear. induction rs as [|x rs IH]; [reflexivity|]. cbn [map combine]. rewrite IH. reflexivity.
Qed.
Lemma accumulated_correct h id now : plegal_history (rev h) ->
  exists p, prof_run h = Some p /\ accumulated p id now = Some (busy id now (rev h)).
Proof.
  intros HL. destruct (prof_run_ok h HL) as (p & E & I0). exists p. split; [exact E|]. apply accumulated_ok, I0.
Qed.
