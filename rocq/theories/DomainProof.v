(** Proofs about domains and overlap components. *)
From Coq Require Import List ZArith NArith Bool Arith Lia Permutation Sorting.Sorted.
From Verif Require Import ContModel ContSpec ContProof MapProof OMap PairMap ReqProof DomainModel DomainSpec.
Import ListNotations.
Local Open Scope nat_scope.
Local Arguments N.lor : simpl never.
Local Arguments Z.of_nat : simpl never.
Local Arguments Z.sub : simpl never.

(** * Lists and option folds *)

Lemma ofold_app {S A} (f : S -> A -> option S) l1 l2 s :
  ofold f (l1 ++ l2) s = match ofold f l1 s with Some s' => ofold f l2 s' | None => None end.
Proof.
  revert s. induction l1 as [|a l1 IH]; cbn; intros s; [reflexivity|].
  destruct (f s a); [apply IH|reflexivity].
Qed.

Lemma on_ranks_spec {A B} (f : nat -> A -> option B) (P : nat -> A -> B -> Prop) l : forall i,
  (forall r a, nth_error l r = Some a -> exists b, f (i + r) a = Some b /\ P r a b) ->
  exists bs, on_ranks f i l = Some bs /\ length bs = length l /\
    forall r a, nth_error l r = Some a -> exists b, nth_error bs r = Some b /\ P r a b.
Proof.
  revert P. induction l as [|a l IH]; intros P i H.
  - exists []. split; [reflexivity|]. split; [reflexivity|]. intros [|r] a; discriminate.
  - destruct (H 0 a eq_refl) as (b & Hb & Pb).
    destruct (IH (fun r => P (S r)) (S i)) as (bs & E & EL & HP).
    { intros r x Hr. specialize (H (S r) x Hr). rewrite Nat.add_succ_r in H. exact H. }
    exists (b :: bs). cbn [on_ranks]. rewrite Nat.add_0_r in Hb. rewrite Hb, E.
    split; [reflexivity|]. split; [cbn; congruence|].
    intros [|r] x Hx; cbn in *; [|apply HP, Hx]. injection Hx as <-. exists b. auto.
Qed.
Lemma on_ranks_map {A B} (f : nat -> A -> option B) (g : A -> B) l : forall i,
  (forall r a, In a l -> f r a = Some (g a)) -> on_ranks f i l = Some (map g l).
Proof.
  induction l as [|a l IH]; intros i H; cbn; [reflexivity|].
  rewrite (H i a (or_introl eq_refl)), IH; [reflexivity|].
  intros r x Hx. apply H. right. exact Hx.
Qed.

Lemma mark_last_snoc {A} (l : list A) a : mark_last (l ++ [a]) = map (fun x => (x, false)) l ++ [(a, true)].
Proof.
  induction l as [|x l IH]; [reflexivity|]. cbn [app map]. rewrite <- IH. destruct l; reflexivity.
Qed.
Lemma mark_last_cons {A} (x : A) l :
  mark_last (x :: l) = (x, match l with [] => true | _ => false end) :: mark_last l.
Proof. destruct l; reflexivity. Qed.

(** * Pairs *)
Lemma oid_eqb_spec a b : reflect (a = b) (oid_eqb a b).
Proof. exact (peqb_spec a b). Qed.
Lemma kin_In k l : kin k l = true <-> In k l.
Proof.
  unfold kin. rewrite existsb_exists. split.
  - intros (x & H & E). destruct (oid_eqb_spec k x); congruence.
  - intros H. exists k. split; [exact H|]. destruct (oid_eqb_spec k k); congruence.
Qed.
Lemma kin_false k l : kin k l = false <-> ~ In k l.
Proof. rewrite <- kin_In. destruct (kin k l); intuition discriminate. Qed.
Lemma gin_In g l : gin g l = true <-> In g l.
Proof.
  unfold gin. rewrite existsb_exists. split.
  - intros (x & H & E). apply Z.eqb_eq in E. congruence.
  - intros H. exists g. rewrite Z.eqb_refl. auto.
Qed.
Lemma oid_beforeb_less a b : oid_beforeb a b = pair_less a b.
Proof.
  destruct (pair_less a b) eqn:E.
  - apply pair_less_spec in E. unfold oid_beforeb. rewrite orb_true_iff, andb_true_iff, !Z.ltb_lt, Z.eqb_eq. exact E.
  - apply pair_less_false in E. unfold oid_beforeb. apply not_true_iff_false.
    rewrite orb_true_iff, andb_true_iff, !Z.ltb_lt, Z.eqb_eq. exact E.
Qed.
Lemma pair_total a b : a <> b -> pair_less a b = false -> pair_less b a = true.
Proof.
  intros N H. destruct (pair_less b a) eqn:E; [reflexivity|]. exfalso. apply N, pEQ.
  unfold eqv. rewrite H, E. reflexivity.
Qed.
Lemma add_sorted_In k l x : In x (add_sorted k l) <-> x = k \/ In x l.
Proof.
  induction l as [|y l IH]; cbn; [intuition|]. destruct (oid_beforeb k y); cbn; [intuition|].
  rewrite IH. intuition.
Qed.
Lemma add_sorted_sok k l : sok pair_less l -> ~ In k l -> sok pair_less (add_sorted k l).
Proof.
  intros [S _] Hn. split; [|apply Forall_forall; intros; exact I].
  induction S as [|y l S IH Hf]; cbn; [repeat constructor|].
  destruct (oid_beforeb k y) eqn:E; rewrite oid_beforeb_less in E.
  - constructor; [constructor; assumption|]. constructor; [exact E|].
    rewrite Forall_forall in *. intros z Hz. apply (swo_trans _ _ pair_swo k y z I I I E). auto.
  - constructor; [apply IH; cbn in Hn; tauto|]. rewrite Forall_forall in *. intros z Hz.
    apply add_sorted_In in Hz. destruct Hz as [->|Hz]; [|auto]. apply pair_total; [|exact E].
    intros ->. apply Hn. left. reflexivity.
Qed.
Lemma add_all_sok ids : forall l, sok pair_less l -> NoDup ids -> (forall k, In k ids -> ~ In k l) ->
  sok pair_less (fold_left (fun l k => add_sorted k l) ids l).
Proof.
  induction ids as [|k ids IH]; cbn; intros l G ND H; [exact G|]. inversion ND; subst.
  apply IH; [apply add_sorted_sok; auto|assumption|].
  intros x Hx. rewrite add_sorted_In. intros [->|Hl]; [contradiction|]. exact (H x (or_intror Hx) Hl).
Qed.
Lemma add_all_In ids x : forall l, In x (fold_left (fun l k => add_sorted k l) ids l) <-> In x ids \/ In x l.
Proof.
  induction ids as [|k ids IH]; cbn; intros l; [intuition|]. rewrite IH, add_sorted_In. intuition.
Qed.
Lemma filter_sok (p : oid -> bool) l : sok pair_less l -> sok pair_less (filter p l).
Proof. apply good_filter. Qed.

(** * Index maps and flag arrays *)

Lemma index_fold keys : forall (m : smap oid nat) i, mok pair_less m -> NoDup keys ->
  let r := fold_left (fun mi k => (fst (map_insert pair_less (fst mi) k (snd mi)), S (snd mi)))
             keys (m, i) in
  mok pair_less (fst r) /\
  (forall j k, nth_error keys j = Some k -> mget pair_less (fst r) k = Some (i + j)) /\
  (forall k, ~ In k keys -> mget pair_less (fst r) k = mget pair_less m k).
Proof.
  induction keys as [|k keys IH]; cbv zeta; intros m i G ND.
  - split; [exact G|]. split; [intros [|j] x; discriminate|reflexivity].
  - inversion ND as [|? ? Hn ND']; subst. cbn [fold_left fst snd].
    destruct (IH _ (S i) (mok_insert pair_less pair_swo m k i G) ND') as (A & B & C). cbv zeta in A, B, C.
    split; [exact A|]. split.
    + intros [|j] x Hx; cbn in Hx.
      * injection Hx as <-. rewrite (C k Hn), (mget_insert pair_less pair_swo m k i k G).
        rewrite (kq_refl pair_less pair_swo). f_equal. lia.
      * rewrite (B j x Hx). f_equal. lia.
    + intros x Hx. rewrite C by (cbn in Hx; tauto).
      rewrite (mget_insert pair_less pair_swo m k i x G).
      rewrite (kq_neq pair_less pEQ); [reflexivity|]. intros ->. apply Hx. left. reflexivity.
Qed.
Lemma index_at keys i k : NoDup keys -> nth_error keys i = Some k ->
  map_at pair_less (index_map keys) k = Some i.
Proof.
  intros ND H. destruct (index_fold keys map_empty 0 (mok_empty pair_less) ND) as (A & B & _).
  cbv zeta in A, B. unfold index_map. apply (mget_at pair_less pair_swo _ _ _ A). apply (B i k H).
Qed.

Definition eflag (E : list (oid * N)) (k : oid) : N :=
  fold_right (fun e a => if oid_eqb k (fst e) then N.lor (snd e) a else a) 0%N E.

Lemma or_at_map (over : list oid) (g : oid -> N) i k f : NoDup over -> nth_error over i = Some k ->
  or_at (map g over) i f = Some (map (fun x => if oid_eqb x k then N.lor (g x) f else g x) over).
Proof.
  intros ND H. unfold or_at. rewrite nth_error_map, H. cbn. f_equal.
  revert i H. induction over as [|x over IH]; intros [|i] H; cbn in *; try discriminate.
  - injection H as ->. destruct (oid_eqb_spec k k); [|congruence]. f_equal.
    apply map_ext_in. intros y Hy. inversion ND; subst. destruct (oid_eqb_spec y k); [|reflexivity].
    subst. contradiction.
  - inversion ND as [|? ? Hn ND']; subst. f_equal; [|apply IH; assumption].
    destruct (oid_eqb_spec x k); [|reflexivity]. subst. exfalso. apply Hn. eapply nth_error_In, H.
Qed.

Lemma accumulate_spec over E : NoDup over -> (forall e, In e E -> In (fst e) over) ->
  forall g, accumulate (index_map over) E (map g over) =
            Some (map (fun k => N.lor (g k) (eflag E k)) over).
Proof.
  intros ND. unfold accumulate. induction E as [|e E IH]; cbn [ofold eflag fold_right]; intros HE g.
  - f_equal. apply map_ext. intros k. symmetry. apply N.lor_0_r.
  - destruct (In_nth_error _ _ (HE e (or_introl eq_refl))) as [i Hi].
    rewrite (index_at over i (fst e) ND Hi), (or_at_map over g i (fst e) (snd e) ND Hi).
    rewrite IH by (intros; apply HE; right; assumption). f_equal. apply map_ext. intros k.
    fold (eflag E k). destruct (oid_eqb k (fst e)); [|reflexivity]. rewrite N.lor_assoc. reflexivity.
Qed.

Definition rflag (rs : rank_state) (k : oid) : N :=
  N.lor (eflag (m_entries (r_ms rs)) k) (eflag (m_entries (r_ns rs)) k).
Definition orall (ranks : list rank_state) (k : oid) : N :=
  fold_right (fun rs a => N.lor (rflag rs k) a) 0%N ranks.

Lemma repeat_map {A B} (l : list A) (b : B) : repeat b (length l) = map (fun _ => b) l.
Proof. induction l; cbn; congruence. Qed.

Lemma bor2_map {A} (f g : A -> N) l : bor2 (map f l) (map g l) = Some (map (fun x => N.lor (f x) (g x)) l).
Proof. induction l as [|x l IH]; cbn; [reflexivity|]. rewrite IH. reflexivity. Qed.
Lemma bor_fold over ranks : forall g,
  ofold bor2 (map (fun rs => map (rflag rs) over) ranks) (map g over) =
  Some (map (fun k => N.lor (g k) (orall ranks k)) over).
Proof.
  induction ranks as [|rs ranks IH]; cbn; intros g.
  - f_equal. apply map_ext. intros k. symmetry. apply N.lor_0_r.
  - rewrite bor2_map, IH. f_equal. apply map_ext. intros k. symmetry. apply N.lor_assoc.
Qed.
Lemma allreduce_spec over ranks : ranks <> [] ->
  allreduce_bor (map (fun rs => map (rflag rs) over) ranks) = Some (map (orall ranks) over).
Proof.
  destruct ranks as [|rs ranks]; [congruence|]. intros _. cbn [map allreduce_bor].
  rewrite bor_fold. reflexivity.
Qed.

Lemma nonzero_iff f : nonzero f = true <-> f <> 0%N.
Proof. unfold nonzero. rewrite negb_true_iff, N.eqb_neq. tauto. Qed.
Lemma nonzero_false f : nonzero f = false <-> f = 0%N.
Proof. unfold nonzero. rewrite negb_false_iff, N.eqb_eq. tauto. Qed.

Lemma eflag_zero E : existsb (fun e => nonzero (snd e)) E = false -> forall k, eflag E k = 0%N.
Proof.
  induction E as [|e E IH]; intros H k; [reflexivity|].
  cbn [existsb] in H. apply orb_false_iff in H. destruct H as [H1 H2]. cbn [eflag fold_right].
  fold (eflag E k). rewrite (IH H2). destruct (oid_eqb k (fst e)); [|reflexivity].
  apply nonzero_false in H1. rewrite H1. reflexivity.
Qed.
Lemma no_edits_zero ranks : existsb has_edits ranks = false -> forall k, orall ranks k = 0%N.
Proof.
  induction ranks as [|rs ranks IH]; intros H k; [reflexivity|].
  cbn [existsb] in H. apply orb_false_iff in H. destruct H as [H1 H2]. cbn [orall fold_right].
  fold (orall ranks k). rewrite (IH H2). unfold has_edits in H1. apply orb_false_iff in H1. destruct H1 as [A B].
  unfold rflag. rewrite (eflag_zero _ A), (eflag_zero _ B). reflexivity.
Qed.

Lemma eflag_nil_entries E k : (forall e, In e E -> fst e <> k) -> eflag E k = 0%N.
Proof.
  induction E as [|e E IH]; intros H; [reflexivity|]. cbn [eflag fold_right]. fold (eflag E k).
  destruct (oid_eqb_spec k (fst e)) as [->|].
  - exfalso. apply (H e (or_introl eq_refl)). reflexivity.
  - apply IH. intros x Hx. apply H. right. exact Hx.
Qed.
Lemma eflag_mget m k : mok pair_less m ->
  eflag (m_entries m) k = match mget pair_less m k with Some f => f | None => 0%N end.
Proof.
  intros G. destruct (mget pair_less m k) as [f|] eqn:E.
  - apply (mget_In pair_less pair_swo pEQ m k f G) in E.
    pose proof (mkeys_NoDup pair_less pair_swo m G) as ND. rewrite (mkeys pair_less pEQ m G) in ND.
    induction (m_entries m) as [|e l IH]; [destruct E|]. cbn [map] in ND. inversion ND as [|? ? Hn ND']; subst.
    cbn [eflag fold_right]. fold (eflag l k). destruct E as [->|E].
    + cbn [fst snd]. destruct (oid_eqb_spec k k); [|congruence]. rewrite eflag_nil_entries, N.lor_0_r; [reflexivity|].
      intros e' He Hk. apply Hn. cbn [fst]. rewrite <- Hk. apply in_map, He.
    + destruct (oid_eqb_spec k (fst e)) as [Hk|]; [|apply IH; assumption].
      exfalso. apply Hn. rewrite <- Hk. apply (in_map fst) in E. exact E.
  - apply eflag_nil_entries. intros [k' f] He Hk. cbn in Hk. subst k'.
    apply (mget_In pair_less pair_swo pEQ m k f G) in He. congruence.
Qed.

(** * Triggering *)
Lemma tell_fields rs e : r_recs (tell rs e) = r_recs rs /\ r_ms (tell rs e) = r_ms rs /\
  r_ns (tell rs e) = r_ns rs /\ r_log (tell rs e) = r_log rs ++ [e].
Proof. repeat split. Qed.
Definition with_log (rs : rank_state) (l : list oevent) : rank_state :=
  mkRank (r_recs rs) (r_ms rs) (r_ns rs) l.

Lemma tell_all_gen flag ids : forall rs,
  fst (fold_left (fun s k => let n := (snd s - 1)%Z in (tell (fst s) (k, flag, Z.eqb n 0), n))
         ids (rs, Z.of_nat (length ids))) =
  with_log rs (r_log rs ++ mark_last (map (fun k => (k, flag)) ids)).
Proof.
  induction ids as [|k ids IH]; intros rs.
  - cbn. rewrite app_nil_r. destruct rs; reflexivity.
  - cbn [fold_left fst snd]. cbv zeta.
    replace (Z.of_nat (length (k :: ids)) - 1)%Z with (Z.of_nat (length ids)) by (cbn [length]; lia).
    rewrite IH. unfold with_log, tell. cbn [r_recs r_ms r_ns r_log map].
    rewrite mark_last_cons, <- app_assoc. cbn [app]. do 4 f_equal.
    destruct ids as [|k' ids]; reflexivity.
Qed.
Lemma tell_all_spec flag ids rs :
  tell_all flag ids rs = with_log rs (r_log rs ++ mark_last (map (fun k => (k, flag)) ids)).
Proof. apply tell_all_gen. Qed.

Lemma trigger_loop over (p : oid -> N) : NoDup over -> forall pre suf rs, over = pre ++ suf ->
  ofold (trigger_step (index_map over) (map p over)) suf
    (rs, Z.of_nat (length (filter (fun k => nonzero (p k)) suf))) =
  Some (with_log rs (r_log rs ++ mark_last (map (fun k => (k, p k)) (filter (fun k => nonzero (p k)) suf))), 0%Z).
Proof.
  intros ND pre suf. revert pre. induction suf as [|k suf IH]; intros pre rs Ho.
  - cbn. rewrite app_nil_r. destruct rs; reflexivity.
  - assert (Hi : nth_error over (length pre) = Some k).
    { rewrite Ho, nth_error_app2, Nat.sub_diag by lia. reflexivity. }
    cbn [ofold filter]. unfold trigger_step at 1.
    rewrite (index_at over _ k ND Hi), nth_error_map, Hi. cbn [option_map fst snd].
    assert (Ho' : over = (pre ++ [k]) ++ suf) by (rewrite <- app_assoc; exact Ho).
    destruct (nonzero (p k)) eqn:E.
    + cbv zeta.
      match goal with |- context [(Z.of_nat (length (k :: ?l)) - 1)%Z] =>
        replace (Z.of_nat (length (k :: l)) - 1)%Z with (Z.of_nat (length l)) by (cbn [length]; lia) end.
      rewrite (IH (pre ++ [k]) _ Ho'). do 2 f_equal. unfold with_log, tell. cbn [r_recs r_ms r_ns r_log map].
      rewrite mark_last_cons, <- app_assoc. cbn [app]. do 3 f_equal.
      destruct (filter (fun k0 => nonzero (p k0)) suf); reflexivity.
    + apply (IH (pre ++ [k]) rs Ho').
Qed.

Lemma num_triggers_map over (p : oid -> N) :
  num_triggers (map p over) = Z.of_nat (length (filter (fun k => nonzero (p k)) over)).
Proof.
  unfold num_triggers. f_equal. induction over as [|k l IH]; cbn; [reflexivity|].
  destruct (nonzero (p k)); cbn; congruence.
Qed.

Lemma clear_flags_ok m : mok pair_less m -> mok pair_less (clear_flags m) /\
  forall k, mget pair_less (clear_flags m) k = option_map (fun _ => 0%N) (mget pair_less m k).
Proof.
  intros [G A]. split.
  - split; [exact G|]. unfold clear_flags. cbn [m_keys m_entries]. clear G.
    induction A as [|k e ks es H _ IH]; cbn; constructor; [exact H|exact IH].
  - intros k. unfold mget, clear_flags. cbn [m_entries]. clear.
    unfold mlookup. induction (m_entries m) as [|e l IH]; cbn; [reflexivity|].
    destruct (eqv pair_less k (fst e)); [reflexivity|exact IH].
Qed.
Lemma clear_eflag m k : eflag (m_entries (clear_flags m)) k = 0%N.
Proof.
  apply eflag_zero. unfold clear_flags. cbn [m_entries].
  induction (m_entries m) as [|e l IH]; cbn; [reflexivity|exact IH].
Qed.

(** * The invariant *)
Record rinv (s : dspec) (r : nat) (rs : rank_state) : Prop := {
  ri_recs : mok pair_less (r_recs rs);
  ri_keys : m_keys (r_recs rs) = s_over s;
  ri_ms : mok pair_less (r_ms rs);
  ri_min : forall k, mget pair_less (r_ms rs) k <> None <-> In k (s_over s) /\ lives s (fst k) r;
  ri_ns : mok pair_less (r_ns rs);
  ri_nin : forall k, mget pair_less (r_ns rs) k <> None <-> In k (s_over s) /\ lives s (snd k) r;
  ri_log : r_log rs = s_log s }.
Record dinv (n : nat) (s : dspec) (c : dom) : Prop := {
  di_n : length (d_ranks c) = n;
  di_grids : mok Z.ltb (d_grids c);
  di_gin : forall g f, mget Z.ltb (d_grids c) g = Some f <-> In (g, f) (s_grids s);
  di_og : forall k, In k (s_over s) -> has_grid s (fst k) /\ has_grid s (snd k);
  di_glog : d_glog c = s_glog s;
  di_over : sok pair_less (s_over s);
  di_ranks : forall r rs, nth_error (d_ranks c) r = Some rs -> rinv s r rs;
  di_pend : forall k, s_pend s k = orall (d_ranks c) k }.

Lemma orall_zero ranks : (forall rs, In rs ranks -> forall k, rflag rs k = 0%N) -> forall k, orall ranks k = 0%N.
Proof.
  induction ranks as [|rs l IH]; intros H k; [reflexivity|]. cbn [orall fold_right]. fold (orall l k).
  rewrite (H rs (or_introl eq_refl)), (IH (fun x Hx => H x (or_intror Hx))). reflexivity.
Qed.
Lemma orall_ext l1 : forall l2, length l1 = length l2 ->
  (forall r a b, nth_error l1 r = Some a -> nth_error l2 r = Some b -> forall k, rflag a k = rflag b k) ->
  forall k, orall l1 k = orall l2 k.
Proof.
  induction l1 as [|a l1 IH]; intros [|b l2] HL H k; cbn in HL; try discriminate HL; [reflexivity|].
  cbn [orall fold_right]. fold (orall l1 k) (orall l2 k).
  rewrite (H 0 a b eq_refl eq_refl k). f_equal. apply IH; [lia|].
  intros r x y Hx Hy. apply (H (S r) x y Hx Hy).
Qed.

(** SyncEdits_ announces the pending edits on every rank. *)
Lemma sync_ok n s c : dinv n s c ->
  exists ranks', sync_ranks (d_ranks c) = Some ranks' /\ dinv n (announce s) (set_ranks c ranks').
Proof.
  intros I0. pose proof (sok_NoDup pair_less pair_swo _ (di_over _ _ _ I0)) as ND.
  unfold sync_ranks. destruct (existsb has_edits (d_ranks c)) eqn:HE.
  - assert (RF : on_ranks (fun _ rs => rank_flags rs) 0 (d_ranks c) =
                 Some (map (fun rs => map (rflag rs) (s_over s)) (d_ranks c))).
    { apply on_ranks_map. intros _ rs Hin. destruct (In_nth_error _ _ Hin) as [r Hr].
      destruct (di_ranks _ _ _ I0 r rs Hr) as [A B C D E F L]. unfold rank_flags. rewrite B, repeat_map. cbv zeta.
      rewrite (accumulate_spec (s_over s) (m_entries (r_ms rs)) ND).
      - rewrite (accumulate_spec (s_over s) (m_entries (r_ns rs)) ND).
        + f_equal.
        + intros [k f] He. apply (mget_In pair_less pair_swo pEQ _ k f E) in He. apply F. cbn [fst]. congruence.
      - intros [k f] He. apply (mget_In pair_less pair_swo pEQ _ k f C) in He. apply D. cbn [fst]. congruence. }
    rewrite RF, allreduce_spec by (intros X; rewrite X in HE; discriminate).
    set (news := mark_last (map (fun k => (k, s_pend s k)) (filter (fun k => nonzero (s_pend s k)) (s_over s)))).
    assert (TR : on_ranks (fun _ rs => match trigger_edits (map (orall (d_ranks c)) (s_over s)) rs with
                   Some rs' => Some (clear_edits rs') | None => None end) 0 (d_ranks c) =
                 Some (map (fun rs => clear_edits (with_log rs (r_log rs ++ news))) (d_ranks c))).
    { apply on_ranks_map. intros _ rs Hin. destruct (In_nth_error _ _ Hin) as [r Hr].
      destruct (di_ranks _ _ _ I0 r rs Hr) as [A B C D E F L]. unfold trigger_edits. rewrite B.
      rewrite (map_ext (orall (d_ranks c)) (s_pend s)) by (intros k; symmetry; apply (di_pend _ _ _ I0)).
      rewrite num_triggers_map. rewrite (trigger_loop (s_over s) (s_pend s) ND [] (s_over s) rs eq_refl).
      reflexivity. }
    rewrite TR. eexists. split; [reflexivity|].
    split; cbn [set_ranks d_grids d_glog d_gflags d_ranks announce s_grids s_over s_pend s_glog s_log].
    + rewrite map_length. apply (di_n _ _ _ I0).
    + apply (di_grids _ _ _ I0).
    + apply (di_gin _ _ _ I0).
    + apply (di_og _ _ _ I0).
    + apply (di_glog _ _ _ I0).
    + apply (di_over _ _ _ I0).
    + intros r rs' Hr. rewrite nth_error_map in Hr. destruct (nth_error (d_ranks c) r) as [rs|] eqn:E; [|discriminate].
      cbn in Hr. injection Hr as <-. destruct (di_ranks _ _ _ I0 r rs E) as [A B C D E' F L].
      split; unfold clear_edits, with_log; cbn [r_recs r_ms r_ns r_log s_over s_grids s_log]; auto.
      * apply clear_flags_ok, C.
      * intros k. rewrite (proj2 (clear_flags_ok _ C)). unfold lives in *. cbn [s_grids] in *. rewrite <- D.
        destruct (mget pair_less (r_ms rs) k); cbn; intuition congruence.
      * apply clear_flags_ok, E'.
      * intros k. rewrite (proj2 (clear_flags_ok _ E')). unfold lives in *. cbn [s_grids] in *. rewrite <- F.
        destruct (mget pair_less (r_ns rs) k); cbn; intuition congruence.
      * rewrite L. reflexivity.
    + intros k. symmetry. apply orall_zero. intros rs' Hin k'. apply in_map_iff in Hin.
      destruct Hin as (rs & <- & _). unfold rflag, clear_edits. cbn [r_ms r_ns].
      rewrite !clear_eflag. reflexivity.
  - exists (d_ranks c). split; [reflexivity|].
    pose proof (no_edits_zero _ HE) as Z0.
    assert (Zp : forall k, s_pend s k = 0%N) by (intros k; rewrite (di_pend _ _ _ I0); apply Z0).
    assert (Ef : filter (fun k => negb (N.eqb (s_pend s k) 0)) (s_over s) = []).
    { induction (s_over s) as [|k l IH]; cbn; [reflexivity|]. rewrite Zp. cbn. apply IH. inversion ND; assumption. }
    destruct I0 as [A B C D E F G H].
    split; unfold set_ranks, announce; cbn [d_grids d_glog d_gflags d_ranks s_grids s_over s_pend s_glog s_log]; auto.
    intros r rs Hr. destruct (G r rs Hr) as [a b c' d e f l].
    split; cbn [s_over s_grids s_log]; auto. rewrite Ef. cbn. rewrite app_nil_r. exact l.
Qed.

Lemma sync_ok' n s c : dinv n s c ->
  exists ranks', sync_ranks (d_ranks c) = Some ranks' /\ dinv n (announce s) (set_ranks c ranks') /\
    length ranks' = n /\ (forall r rs, nth_error ranks' r = Some rs -> rinv (announce s) r rs) /\
    forall rs, In rs ranks' -> forall k, rflag rs k = 0%N.
Proof.
  intros I0. destruct (sync_ok n s c I0) as (ranks' & E & I1). exists ranks'.
  split; [exact E|]. split; [exact I1|]. destruct I1 as [A B C D F G H J]. cbn [d_ranks set_ranks] in *.
  split; [exact A|]. split; [exact H|]. cbn [announce s_pend] in J.
  clear -J. induction ranks' as [|x l IH]; intros rs; [intros []|].
  assert (J' : forall k, rflag x k = 0%N /\ orall l k = 0%N).
  { intros k. specialize (J k). cbn [orall fold_right] in J. fold (orall l k) in J.
    symmetry in J. apply N.lor_eq_0_iff in J. exact J. }
  intros [<-|Hin] k; [apply J'|]. apply IH; [|exact Hin]. intros k'. symmetry. apply J'.
Qed.

(** Replace the ranks of a synchronised component. *)
Lemma dinv_ranks n s s' c ranks' : dinv n s c ->
  s_grids s' = s_grids s -> s_glog s' = s_glog s -> (forall k, s_pend s' k = 0%N) ->
  sok pair_less (s_over s') ->
  (forall k, In k (s_over s') -> has_grid s (fst k) /\ has_grid s (snd k)) ->
  length ranks' = n ->
  (forall r rs, nth_error ranks' r = Some rs -> rinv s' r rs /\ forall k, rflag rs k = 0%N) ->
  dinv n s' (set_ranks c ranks').
Proof.
  intros [A B C D E F G H] Hg Hl Hp Ho Hog HL HR.
  split; unfold set_ranks; cbn [d_grids d_glog d_ranks]; auto.
  - intros g f. rewrite Hg. apply C.
  - intros k Hk. unfold has_grid. rewrite Hg. apply Hog, Hk.
  - congruence.
  - intros r rs Hr. apply (HR r rs Hr).
  - intros k. rewrite Hp. symmetry. apply orall_zero. intros rs Hin. destruct (In_nth_error _ _ Hin) as [r Hr].
    apply (HR r rs Hr).
Qed.

Lemma grid_local_ok n s c g r : dinv n s c -> has_grid s g ->
  exists b, grid_local c g r = Some b /\ (b = true <-> lives s g r).
Proof.
  intros I0 Hg. unfold has_grid in Hg. apply in_map_iff in Hg. destruct Hg as ([g' f] & E & Hin).
  cbn in E. subst g'. pose proof (proj2 (di_gin _ _ _ I0 g f) Hin) as HM.
  exists (f r). unfold grid_local. rewrite (mget_contains Z.ltb zltb_swo _ g (di_grids _ _ _ I0)), HM.
  rewrite (mget_at Z.ltb zltb_swo _ g f (di_grids _ _ _ I0) HM). split; [reflexivity|].
  unfold lives. split; [intros H; exists f; auto|]. intros (f' & Hin' & Hf).
  apply (di_gin _ _ _ I0) in Hin'. congruence.
Qed.

Lemma eflag_insert0 m k x : mok pair_less m -> (forall y, eflag (m_entries m) y = 0%N) ->
  eflag (m_entries (fst (map_insert pair_less m k 0%N))) x = 0%N.
Proof.
  intros G H. rewrite (eflag_mget _ x (mok_insert pair_less pair_swo m k 0%N G)).
  rewrite (mget_insert pair_less pair_swo m k 0%N x G). destruct (kq pair_less x k); [reflexivity|].
  rewrite <- (eflag_mget m x G). apply H.
Qed.

Record locals (P Q : oid -> Prop) (rs : rank_state) : Prop := {
  lo_ms : mok pair_less (r_ms rs);
  lo_ns : mok pair_less (r_ns rs);
  lo_min : forall k, mget pair_less (r_ms rs) k <> None <-> P k;
  lo_nin : forall k, mget pair_less (r_ns rs) k <> None <-> Q k;
  lo_mz : forall k, eflag (m_entries (r_ms rs)) k = 0%N;
  lo_nz : forall k, eflag (m_entries (r_ns rs)) k = 0%N }.

Lemma rflag_parts rs : (forall k, rflag rs k = 0%N) ->
  (forall k, eflag (m_entries (r_ms rs)) k = 0%N) /\ (forall k, eflag (m_entries (r_ns rs)) k = 0%N).
Proof.
  intros H. split; intros k; specialize (H k); unfold rflag in H; apply N.lor_eq_0_iff in H; apply H.
Qed.
Lemma locals_of s r rs : rinv s r rs -> (forall k, rflag rs k = 0%N) ->
  locals (fun k => In k (s_over s) /\ lives s (fst k) r) (fun k => In k (s_over s) /\ lives s (snd k) r) rs.
Proof. intros [A B C D E F G] H. apply rflag_parts in H. split; auto; apply H. Qed.
Lemma locals_rflag P Q rs : locals P Q rs -> forall k, rflag rs k = 0%N.
Proof. intros L k. unfold rflag. rewrite (lo_mz _ _ _ L), (lo_nz _ _ _ L). reflexivity. Qed.
Lemma locals_ext P Q P' Q' rs : (forall k, P k <-> P' k) -> (forall k, Q k <-> Q' k) ->
  locals P Q rs -> locals P' Q' rs.
Proof.
  intros HP HQ [A B C D E F]. split; auto.
  - intros k. rewrite C. apply HP.
  - intros k. rewrite D. apply HQ.
Qed.

Lemma create_local_ok n s c r k P Q rs : dinv n s c -> has_grid s (fst k) -> has_grid s (snd k) ->
  locals P Q rs -> exists rs', create_local c r rs k = Some rs' /\
    r_recs rs' = r_recs rs /\ r_log rs' = r_log rs /\
    locals (fun x => P x \/ (x = k /\ lives s (fst k) r)) (fun x => Q x \/ (x = k /\ lives s (snd k) r)) rs'.
Proof.
  intros I0 H1 H2 [A B C D E F]. unfold create_local.
  destruct (grid_local_ok n s c (fst k) r I0 H1) as (b1 & -> & L1).
  destruct (grid_local_ok n s c (snd k) r I0 H2) as (b2 & -> & L2).
  eexists. split; [reflexivity|]. cbn [r_recs r_log]. split; [reflexivity|]. split; [reflexivity|].
  split; cbn [r_ms r_ns].
  - destruct b1; [apply (mok_insert pair_less pair_swo), A|exact A].
  - destruct b2; [apply (mok_insert pair_less pair_swo), B|exact B].
  - intros x. destruct b1.
    + rewrite (mget_insert pair_less pair_swo _ k 0%N x A), pkq, <- C.
      destruct (peqb_spec x k) as [->|N]; intuition congruence.
    + rewrite C. intuition congruence.
  - intros x. destruct b2.
    + rewrite (mget_insert pair_less pair_swo _ k 0%N x B), pkq, <- D.
      destruct (peqb_spec x k) as [->|N]; intuition congruence.
    + rewrite D. intuition congruence.
  - intros x. destruct b1; [apply eflag_insert0; assumption|apply E].
  - intros x. destruct b2; [apply eflag_insert0; assumption|apply F].
Qed.

Lemma create_locals_ok n s c r ids : dinv n s c ->
  (forall k, In k ids -> has_grid s (fst k) /\ has_grid s (snd k)) -> forall P Q rs, locals P Q rs ->
  exists rs', ofold (create_local c r) ids rs = Some rs' /\
    r_recs rs' = r_recs rs /\ r_log rs' = r_log rs /\
    locals (fun x => P x \/ (In x ids /\ lives s (fst x) r)) (fun x => Q x \/ (In x ids /\ lives s (snd x) r)) rs'.
Proof.
  intros I0. induction ids as [|k ids IH]; intros H P Q rs L0.
  - exists rs. cbn. split; [reflexivity|]. split; [reflexivity|]. split; [reflexivity|].
    revert L0. apply locals_ext; intuition.
  - destruct (H k (or_introl eq_refl)) as [H1 H2].
    destruct (create_local_ok n s c r k P Q rs I0 H1 H2 L0) as (rs1 & E1 & R1 & G1 & L1).
    destruct (IH (fun x Hx => H x (or_intror Hx)) _ _ rs1 L1) as (rs2 & E2 & R2 & G2 & L2).
    exists rs2. cbn [ofold]. rewrite E1. split; [exact E2|]. split; [congruence|]. split; [congruence|].
    revert L2. apply locals_ext; intros x; cbn [In]; intuition (subst; auto).
Qed.

Lemma add_records_fields ids : forall rs, let rs' := fold_left add_record ids rs in
  r_recs rs' = fold_left (fun m k => fst (map_insert pair_less m k tt)) ids (r_recs rs) /\
  r_ms rs' = r_ms rs /\ r_ns rs' = r_ns rs /\ r_log rs' = r_log rs.
Proof.
  induction ids as [|k ids IH]; intros rs; cbv zeta; [repeat split|].
  cbn [fold_left]. destruct (IH (add_record rs k)) as (A & B & C & D). cbv zeta in *.
  repeat split; [exact A|exact B|exact C|exact D].
Qed.
Lemma recs_insert_all m ids : mok pair_less m ->
  let m' := fold_left (fun m k => fst (map_insert pair_less m k tt)) ids m in
  mok pair_less m' /\ forall x, In x (m_keys m') <-> In x ids \/ In x (m_keys m).
Proof.
  intros G. cbv zeta. pose proof (mok_insert_all pair_less pair_swo tt ids m G) as G'.
  split; [exact G'|]. intros x. rewrite (mkeys_In pair_less pair_swo pEQ _ x G'), (mkeys_In pair_less pair_swo pEQ _ x G).
  destruct (mget_insert_all pair_less pair_swo pEQ tt ids x m G) as [H1 H2].
  destruct (in_dec (fun a b => reflect_dec _ _ (peqb_spec a b)) x ids) as [i|i].
  - rewrite (H1 i). intuition congruence.
  - rewrite (H2 i). intuition.
Qed.

Lemma lives_eq s s' g r : s_grids s' = s_grids s -> (lives s' g r <-> lives s g r).
Proof. intros E. unfold lives. rewrite E. tauto. Qed.

Lemma create_overlaps_ok n s c ids : dinv n s c -> dlegal n s (CreateOverlaps ids) ->
  exists c', create_overlaps c ids = Some c' /\ dinv n (s_create s ids) c' /\ d_gflags c' = d_gflags c.
Proof.
  intros I0 [ND HL]. unfold create_overlaps.
  destruct (sync_ok' n s c I0) as (ranks1 & E1 & I1 & N1 & R1 & Z1). rewrite E1.
  assert (Hg : forall k, In k ids -> has_grid s (fst k) /\ has_grid s (snd k)).
  { intros k Hk. destruct (HL k Hk) as (A & B & _). auto. }
  set (over' := fold_left (fun l k => add_sorted k l) ids (s_over s)).
  assert (So : sok pair_less over').
  { apply add_all_sok; [apply (di_over _ _ _ I0)|exact ND|]. intros k Hk. apply (HL k Hk). }
  destruct (on_ranks_spec (fun r st => match ofold (create_local c r) ids st with
       Some s' => Some (tell_all OVERLAP_CREATE ids (fold_left add_record ids s')) | None => None end)
     (fun r _ rs' => rinv (s_create s ids) r rs' /\ forall k, rflag rs' k = 0%N) ranks1 0)
     as (ranks2 & E2 & N2 & R2).
  { intros r rs Hr. cbn [Nat.add]. specialize (R1 r rs Hr). specialize (Z1 rs (nth_error_In _ _ Hr)).
    destruct (create_locals_ok n s c r ids I0 Hg _ _ rs (locals_of _ _ _ R1 Z1)) as (rs1 & -> & Rr & Rl & LO).
    destruct (add_records_fields ids rs1) as (A & B & C & D). cbv zeta in *.
    rewrite tell_all_spec. eexists. split; [reflexivity|].
    destruct R1 as [a b c0 d e f g].
    assert (G' : mok pair_less (r_recs rs1)) by (rewrite Rr; exact a).
    destruct (recs_insert_all (r_recs rs1) ids G') as [M1 M2]. cbv zeta in *.
    split.
    - split; unfold with_log; cbn [r_recs r_ms r_ns r_log]; rewrite ?A, ?B, ?C, ?D.
      + exact M1.
      + apply (sok_ext pair_less pair_swo); [apply sok_keys, M1|exact So|].
        intros x. rewrite M2, Rr, b. unfold over'. cbn. rewrite add_all_In. tauto.
      + apply LO.
      + intros k. rewrite (lo_min _ _ _ LO). rewrite (lives_eq s (s_create s ids)), (lives_eq s (announce s)) by reflexivity.
        cbn. rewrite add_all_In. tauto.
      + apply LO.
      + intros k. rewrite (lo_nin _ _ _ LO). rewrite (lives_eq s (s_create s ids)), (lives_eq s (announce s)) by reflexivity.
        cbn. rewrite add_all_In. tauto.
      + rewrite Rl, g. reflexivity.
    - intros k. pose proof (locals_rflag _ _ _ LO k) as Z. unfold rflag, with_log in *. cbn [r_ms r_ns].
      rewrite B, C. exact Z. }
  cbv beta in E2. rewrite E2. eexists. split; [reflexivity|]. split; [|reflexivity].
  apply (dinv_ranks n s (s_create s ids) c ranks2 I0); try reflexivity.
  - exact So.
  - intros k Hk. change (In k over') in Hk. unfold over' in Hk. apply add_all_In in Hk.
    destruct Hk as [Hk|Hk]; [apply Hg, Hk|apply (di_og _ _ _ I0), Hk].
  - congruence.
  - intros r rs' Hr.
    destruct (nth_error ranks1 r) as [rs|] eqn:E.
    + destruct (R2 r rs E) as (x & Hx & P). rewrite Hx in Hr. injection Hr as <-. exact P.
    + exfalso. apply nth_error_None in E. assert (r < length ranks2) by (apply nth_error_Some; congruence). lia.
Qed.

Lemma on_ranks_ext {A B} (f g : nat -> A -> option B) l : forall i, (forall r a, f r a = g r a) ->
  on_ranks f i l = on_ranks g i l.
Proof.
  induction l as [|a l IH]; intros i H; cbn; [reflexivity|]. rewrite H. rewrite (IH (S i) H). reflexivity.
Qed.
Lemma create_overlap_one c k : create_overlap c k = create_overlaps c [k].
Proof.
  unfold create_overlap, create_overlaps. destruct (sync_ranks (d_ranks c)) as [rs|]; [|reflexivity].
  rewrite (on_ranks_ext _ (fun r s => match ofold (create_local c r) [k] s with
    Some s' => Some (tell_all OVERLAP_CREATE [k] (fold_left add_record [k] s')) | None => None end));
    [reflexivity|].
  intros r a. cbn [ofold]. destruct (create_local c r a k); reflexivity.
Qed.

(** * Destruction *)
Lemma eflag_erase0 m k x : mok pair_less m -> (forall y, eflag (m_entries m) y = 0%N) ->
  eflag (m_entries (map_erase pair_less m k)) x = 0%N.
Proof.
  intros G H. rewrite (eflag_mget _ x (mok_erase pair_less pair_swo m k G)).
  rewrite (mget_erase pair_less pair_swo m k x G). destruct (kq pair_less x k); [reflexivity|].
  rewrite <- (eflag_mget m x G). apply H.
Qed.
Lemma erase_locals_ok ids : forall P Q rs, locals P Q rs ->
  let rs' := fold_left erase_local ids rs in
  r_recs rs' = r_recs rs /\ r_log rs' = r_log rs /\
  locals (fun x => P x /\ ~ In x ids) (fun x => Q x /\ ~ In x ids) rs'.
Proof.
  induction ids as [|k ids IH]; intros P Q rs L0; cbv zeta.
  - split; [reflexivity|]. split; [reflexivity|]. revert L0. apply locals_ext; cbn; intuition.
  - cbn [fold_left].
    assert (L1 : locals (fun x => P x /\ x <> k) (fun x => Q x /\ x <> k) (erase_local rs k)).
    { destruct L0 as [A B C D E F]. split; unfold erase_local; cbn [r_ms r_ns].
      - apply (mok_erase pair_less pair_swo), A.
      - apply (mok_erase pair_less pair_swo), B.
      - intros x. rewrite (mget_erase pair_less pair_swo _ k x A), pkq, <- C.
        destruct (peqb_spec x k); intuition congruence.
      - intros x. rewrite (mget_erase pair_less pair_swo _ k x B), pkq, <- D.
        destruct (peqb_spec x k); intuition congruence.
      - intros x. apply eflag_erase0; assumption.
      - intros x. apply eflag_erase0; assumption. }
    destruct (IH _ _ _ L1) as (R & G & L2). split; [exact R|]. split; [exact G|].
    revert L2. apply locals_ext; intros x; cbn [In]; intuition.
Qed.
Lemma erase_records_fields ids : forall rs, let rs' := fold_left erase_record ids rs in
  r_recs rs' = fold_left (fun m k => map_erase pair_less m k) ids (r_recs rs) /\
  r_ms rs' = r_ms rs /\ r_ns rs' = r_ns rs /\ r_log rs' = r_log rs.
Proof.
  induction ids as [|k ids IH]; intros rs; cbv zeta; [repeat split|].
  cbn [fold_left]. destruct (IH (erase_record rs k)) as (A & B & C & D). cbv zeta in *.
  repeat split; [exact A|exact B|exact C|exact D].
Qed.
Lemma recs_erase_all (m : smap oid unit) ids : mok pair_less m ->
  let m' := fold_left (fun m k => map_erase pair_less m k) ids m in
  mok pair_less m' /\ forall x, In x (m_keys m') <-> In x (m_keys m) /\ ~ In x ids.
Proof.
  intros G. cbv zeta. pose proof (mok_erase_all pair_less pair_swo ids m G) as G'.
  split; [exact G'|]. intros x. rewrite (mkeys_In pair_less pair_swo pEQ _ x G'), (mkeys_In pair_less pair_swo pEQ _ x G).
  destruct (mget_erase_all pair_less pair_swo pEQ ids x m G) as [H1 H2].
  destruct (in_dec (fun a b => reflect_dec _ _ (peqb_spec a b)) x ids) as [i|i].
  - rewrite (H1 i). intuition congruence.
  - rewrite (H2 i). intuition.
Qed.

Lemma sok_filter_kin ids l : sok pair_less l -> sok pair_less (filter (fun k => negb (kin k ids)) l).
Proof. apply filter_sok. Qed.

Lemma destroy_on_ok s r rs ids : rinv (announce s) r rs -> (forall k, rflag rs k = 0%N) ->
  sok pair_less (s_over s) ->
  rinv (s_destroy s ids) r (destroy_on ids rs) /\ forall k, rflag (destroy_on ids rs) k = 0%N.
Proof.
  intros R1 Z1 So. unfold destroy_on. rewrite tell_all_spec.
  set (rs0 := with_log rs (r_log rs ++ mark_last (map (fun k => (k, OVERLAP_DESTROY)) ids))).
  assert (L0 : locals (fun k => In k (s_over (announce s)) /\ lives (announce s) (fst k) r)
                      (fun k => In k (s_over (announce s)) /\ lives (announce s) (snd k) r) rs0).
  { destruct (locals_of _ _ _ R1 Z1) as [A B C D E F]. split; assumption. }
  destruct (erase_locals_ok ids _ _ rs0 L0) as (A & B & L1). cbv zeta in A, B, L1.
  destruct (erase_records_fields ids (fold_left erase_local ids rs0)) as (R & M & N & G). cbv zeta in *.
  destruct R1 as [a b c0 d e f g].
  assert (G' : mok pair_less (r_recs (fold_left erase_local ids rs0))) by (rewrite A; exact a).
  destruct (recs_erase_all _ ids G') as [M1 M2]. cbv zeta in *.
  split.
  - split; rewrite ?R, ?M, ?N, ?G.
    + exact M1.
    + apply (sok_ext pair_less pair_swo); [apply sok_keys, M1|apply filter_sok; exact So|].
      intros x. rewrite M2, A. unfold rs0, with_log. cbn [r_recs]. rewrite b. cbn.
      rewrite filter_In, negb_true_iff, kin_false. tauto.
    + apply L1.
    + intros k. rewrite (lo_min _ _ _ L1). rewrite (lives_eq s (s_destroy s ids)), (lives_eq s (announce s)) by reflexivity.
      cbn. rewrite filter_In, negb_true_iff, kin_false. tauto.
    + apply L1.
    + intros k. rewrite (lo_nin _ _ _ L1). rewrite (lives_eq s (s_destroy s ids)), (lives_eq s (announce s)) by reflexivity.
      cbn. rewrite filter_In, negb_true_iff, kin_false. tauto.
    + rewrite B. unfold rs0, with_log. cbn [r_log]. rewrite g. reflexivity.
  - intros k. pose proof (locals_rflag _ _ _ L1 k) as Z. unfold rflag in *. rewrite M, N. exact Z.
Qed.

Lemma destroy_overlaps_ok n s c ids_of ids : dinv n s c ->
  (forall r rs, rinv (announce s) r rs -> ids_of rs = ids) ->
  exists c', destroy_overlaps c ids_of = Some c' /\ dinv n (s_destroy s ids) c' /\
    d_gflags c' = d_gflags c /\ d_grids c' = d_grids c /\ d_glog c' = d_glog c.
Proof.
  intros I0 Hids. unfold destroy_overlaps.
  destruct (sync_ok' n s c I0) as (ranks1 & E1 & I1 & N1 & R1 & Z1). rewrite E1.
  eexists. split; [reflexivity|]. split; [|repeat split].
  apply (dinv_ranks n s (s_destroy s ids) c _ I0); try reflexivity.
  - apply filter_sok. apply (di_over _ _ _ I0).
  - intros k Hk. cbn in Hk. apply filter_In in Hk. apply (di_og _ _ _ I0), Hk.
  - rewrite map_length. exact N1.
  - intros r rs' Hr. rewrite nth_error_map in Hr. destruct (nth_error ranks1 r) as [rs|] eqn:E; [|discriminate].
    cbn in Hr. injection Hr as <-. rewrite (Hids r rs (R1 r rs E)).
    apply destroy_on_ok; [apply R1, E|apply Z1; eapply nth_error_In, E|apply (di_over _ _ _ I0)].
Qed.

Lemma destroy_overlap_one c k : destroy_overlap c k = destroy_overlaps c (fun _ => [k]).
Proof.
  unfold destroy_overlap, destroy_overlaps. destruct (sync_ranks (d_ranks c)) as [rs|]; [|reflexivity].
  do 2 f_equal.
Qed.

(** Clearing works with at most one record. *)
Lemma clear_on_short rs : length (m_keys (r_recs rs)) <= 1 ->
  clear_on rs = Some (destroy_on (m_keys (r_recs rs)) rs).
Proof.
  intros H. unfold clear_on, destroy_on. cbv zeta.
  destruct (m_keys (r_recs rs)) as [|k [|]] eqn:E; cbn in H; [reflexivity| |lia].
  cbn [length erase_viewed].
  assert (X : m_keys (r_recs (fold_left erase_local [k] (tell_all OVERLAP_DESTROY [k] rs))) = [k]) by exact E.
  rewrite X. cbn [nth_error]. reflexivity.
Qed.
Lemma clear_overlaps_short n s c : dinv n s c -> length (s_over s) <= 1 ->
  clear_overlaps c = destroy_overlaps c (fun rs => m_keys (r_recs rs)).
Proof.
  intros I0 H. unfold clear_overlaps, destroy_overlaps.
  destruct (sync_ok' n s c I0) as (ranks1 & E1 & I1 & N1 & R1 & Z1). rewrite E1.
  rewrite (on_ranks_map _ (fun s0 => destroy_on (m_keys (r_recs s0)) s0)); [reflexivity|].
  intros _ rs Hin. destruct (In_nth_error _ _ Hin) as [r Hr]. apply clear_on_short.
  rewrite (ri_keys _ _ _ (R1 r rs Hr)). exact H.
Qed.

(** * Grid events *)
Lemma s_destroy_nil s : s_destroy s [] = announce s.
Proof.
  unfold s_destroy, say, with_over, announce. cbn. f_equal.
  - induction (s_over s) as [|k l IH]; cbn; congruence.
  - rewrite app_nil_r. reflexivity.
Qed.

Record flagged (flag : N) (P : Z -> Prop) (m : smap Z N) : Prop := {
  fl_ok : mok Z.ltb m;
  fl_in : forall g, mget Z.ltb m g <> None <-> P g;
  fl_val : forall g f, mget Z.ltb m g = Some f -> f = flag }.

Lemma trigger_flags flag P m g : flagged flag P m ->
  let mf := map_fetch Z.ltb m g 0%N in
  exists old, option_map snd (nth_error (m_entries (fst mf)) (snd mf)) = Some old /\
    flagged flag (fun x => x = g \/ P x) (map_write (fst mf) (snd mf) (N.lor old flag)).
Proof.
  intros [A B C]. cbv zeta.
  pose proof (mok_fetch Z.ltb zltb_swo m g 0%N A) as G1.
  pose proof (mget_fetch Z.ltb zltb_swo zEQ m g 0%N g A) as G2. rewrite zkq, Z.eqb_refl in G2.
  rewrite (fetch_pos Z.ltb zltb_swo m g 0%N A).
  set (m1 := fst (map_fetch Z.ltb m g 0%N)) in *.
  assert (exists old, mget Z.ltb m1 g = Some old /\ N.lor old flag = flag) as (old & Ho & Hl).
  { rewrite G2. destruct (mget Z.ltb m g) as [w|] eqn:E.
    - exists w. split; [reflexivity|]. rewrite (C g w E). apply N.lor_diag.
    - exists 0%N. split; [reflexivity|]. apply N.lor_0_l. }
  exists old. split.
  - pose proof (mget_at Z.ltb zltb_swo m1 g old G1 Ho) as X. unfold map_at in X. exact X.
  - rewrite Hl. assert (HN : mget Z.ltb m1 g <> None) by congruence.
    assert (HM : forall x, mget Z.ltb (map_write m1 (set_lower Z.ltb (m_keys m1) g) flag) x =
                 if Z.eqb x g then Some flag else mget Z.ltb m x).
    { intros x. rewrite (mget_write Z.ltb zltb_swo zEQ m1 g flag x G1 HN), zkq.
      unfold m1. rewrite (mget_fetch Z.ltb zltb_swo zEQ m g 0%N x A), zkq.
      destruct (Z.eqb x g); reflexivity. }
    split.
    + apply (mok_write Z.ltb zltb_swo m1 g flag G1 HN).
    + intros x. rewrite HM, <- B. destruct (Z.eqb_spec x g) as [->|]; intuition congruence.
    + intros x f. rewrite HM. destruct (Z.eqb x g); [congruence|apply C].
Qed.
Lemma flagged_ext flag P P' m : (forall g, P g <-> P' g) -> flagged flag P m -> flagged flag P' m.
Proof. intros H [A B C]. split; auto. intros g. rewrite B. apply H. Qed.
Lemma flagged_empty flag : flagged flag (fun _ => False) map_empty.
Proof. split; [apply mok_empty| |]; cbn; intuition discriminate. Qed.

Lemma dying_grids_fold p es : forall s, sok Z.ltb s ->
  let s' := fold_left (fun s (e : Z * N) => if p (snd e) : bool then set_insert Z.ltb s (fst e) else s) es s in
  sok Z.ltb s' /\ forall g, In g s' <-> In g s \/ exists f, In (g, f) es /\ p f = true.
Proof.
  induction es as [|e es IH]; intros s G; cbv zeta.
  - split; [exact G|]. intros g. cbn. firstorder.
  - cbn [fold_left].
    assert (G1 : sok Z.ltb (if p (snd e) then set_insert Z.ltb s (fst e) else s)).
    { destruct (p (snd e)); [apply (sok_insert Z.ltb zltb_swo), G|exact G]. }
    destruct (IH _ G1) as [A B]. cbv zeta in *. split; [exact A|]. intros g. rewrite B. destruct e as [g0 f0]. cbn [fst snd In].
    destruct (p f0) eqn:E.
    + rewrite (In_set_insert Z.ltb zltb_swo zEQ s g0 g G). split.
      * intros [[->|H]|(f & H & Hf)]; [right; exists f0; auto|auto|right; exists f; auto].
      * intros [H|(f & [[= -> ->]|H] & Hf)]; [auto|auto|right; exists f; auto].
    + split.
      * intros [H|(f & H & Hf)]; [auto|right; exists f; auto].
      * intros [H|(f & [[= -> ->]|H] & Hf)]; [auto|congruence|right; exists f; auto].
Qed.
Lemma dying_grids_spec flag P m : flagged flag P m ->
  sok Z.ltb (dying_grids m) /\
  forall g, In g (dying_grids m) <-> P g /\ nonzero (N.land flag GRID_DESTROY) = true.
Proof.
  intros [A B C].
  destruct (dying_grids_fold (fun f => nonzero (N.land f GRID_DESTROY)) (m_entries m) [] (sok_nil Z.ltb)) as [G H].
  cbv zeta in *. split; [exact G|]. intros g. unfold dying_grids. rewrite H. cbn [In]. split.
  - intros [[]|(f & Hf & Hp)]. apply (mget_In Z.ltb zltb_swo zEQ m g f A) in Hf.
    rewrite (C g f Hf) in Hp. split; [apply B; congruence|exact Hp].
  - intros [HP Hp]. right. apply B in HP. destruct (mget Z.ltb m g) as [f|] eqn:E; [|congruence].
    exists f. split; [apply (mget_In Z.ltb zltb_swo zEQ m g f A), E|]. rewrite (C g f E). exact Hp.
Qed.
Lemma dying_overlaps_fold (p : oid -> bool) ks : forall s, sok pair_less s ->
  let s' := fold_left (fun s k => if p k then set_insert pair_less s k else s) ks s in
  sok pair_less s' /\ forall x, In x s' <-> In x s \/ (In x ks /\ p x = true).
Proof.
  induction ks as [|k ks IH]; intros s G; cbv zeta.
  - split; [exact G|]. intros x. cbn. tauto.
  - cbn [fold_left].
    assert (G1 : sok pair_less (if p k then set_insert pair_less s k else s)).
    { destruct (p k); [apply (sok_insert pair_less pair_swo), G|exact G]. }
    destruct (IH _ G1) as [A B]. cbv zeta in *. split; [exact A|]. intros x. rewrite B. cbn [In].
    destruct (p k) eqn:E.
    + rewrite (In_set_insert pair_less pair_swo pEQ s k x G). intuition (subst; auto).
    + intuition (subst; try congruence).
Qed.
Lemma dying_overlaps_spec dying ids rs over : sok Z.ltb dying -> (forall g, In g dying <-> In g ids) ->
  m_keys (r_recs rs) = over -> sok pair_less over ->
  dying_overlaps dying rs = filter (involves ids) over.
Proof.
  intros G H E So. unfold dying_overlaps. rewrite E.
  destruct (dying_overlaps_fold (fun k => set_contains Z.ltb dying (fst k) || set_contains Z.ltb dying (snd k))
              over [] (sok_nil pair_less)) as [A B]. cbv zeta in *.
  apply (sok_ext pair_less pair_swo); [exact A|apply filter_sok, So|].
  intros x. rewrite B, filter_In. cbn [In]. unfold involves.
  rewrite !orb_true_iff, !(set_contains_iff Z.ltb zltb_swo zEQ dying _ G), !H, !gin_In. tauto.
Qed.

(** All triggers but the last only accumulate. *)
Lemma trigger_loop_grids flag num l : forall c i P, (i + length l < num)%nat ->
  flagged flag P (d_gflags c) ->
  exists c', ofold (fun s g => match grid_trigger (fst s) g flag
                                     (Z.eqb (Z.of_nat (snd s)) (Z.of_nat num - 1)) with
                               Some c' => Some (c', S (snd s)) | None => None end) l (c, i) = Some (c', i + length l) /\
    d_grids c' = d_grids c /\ d_ranks c' = d_ranks c /\
    d_glog c' = d_glog c ++ map (fun g => (g, flag, false, map_contains Z.ltb (d_grids c) g)) l /\
    flagged flag (fun x => In x l \/ P x) (d_gflags c').
Proof.
  induction l as [|g l IH]; intros c i P HL HF.
  - exists c. cbn. rewrite Nat.add_0_r, app_nil_r. split; [reflexivity|]. split; [reflexivity|].
    split; [reflexivity|]. split; [reflexivity|]. revert HF. apply flagged_ext. tauto.
  - cbn [ofold fst snd length] in *.
    assert (E : Z.eqb (Z.of_nat i) (Z.of_nat num - 1) = false) by (apply Z.eqb_neq; lia).
    rewrite E. unfold grid_trigger at 1. cbv zeta.
    destruct (trigger_flags flag P (d_gflags c) g HF) as (old & Ho & F1). cbv zeta in Ho, F1. rewrite Ho.
    match goal with |- context [ofold _ l (?x, S i)] => set (c1 := x) end.
    destruct (IH c1 (S i) (fun x => x = g \/ P x)) as (c' & E' & A & B & C & D); [lia|exact F1|].
    exists c'. rewrite E'. split; [do 2 f_equal; lia|].
    split; [exact A|]. split; [exact B|]. split.
    + rewrite C. unfold c1. cbn [d_glog d_grids map]. rewrite <- app_assoc. reflexivity.
    + revert D. apply flagged_ext. intros x. cbn [In]. intuition (subst; auto).
Qed.

Lemma contains_grid n s c g : dinv n s c -> has_grid s g -> map_contains Z.ltb (d_grids c) g = true.
Proof.
  intros I0 Hg. unfold has_grid in Hg. apply in_map_iff in Hg. destruct Hg as ([g' f] & E & Hin).
  cbn in E. subst g'. pose proof (proj2 (di_gin _ _ _ I0 g f) Hin) as HM.
  rewrite (mget_contains Z.ltb zltb_swo _ g (di_grids _ _ _ I0)), HM. reflexivity.
Qed.

Lemma dinv_glog n s c s' c' : dinv n s c -> s_grids s' = s_grids s -> s_over s' = s_over s ->
  s_pend s' = s_pend s -> s_log s' = s_log s -> d_grids c' = d_grids c -> d_ranks c' = d_ranks c ->
  d_glog c' = s_glog s' -> dinv n s' c'.
Proof.
  intros [A B C D E F G H] Hg Ho Hp Hl Hd Hr Hlog.
  split; rewrite ?Hg, ?Ho, ?Hp, ?Hd, ?Hr; auto.
  - intros k Hk. unfold has_grid. rewrite Hg. apply D, Hk.
  - intros r rs Hn. destruct (G r rs Hn) as [a b c0 d e f g].
    split; rewrite ?Ho, ?Hl; auto.
    + intros k. rewrite (lives_eq s s' _ _ Hg). apply d.
    + intros k. rewrite (lives_eq s s' _ _ Hg). apply f.
Qed.

(** The whole sequence of triggers of one call. *)
Lemma grid_trigger_all_ok n s c flag ids : dinv n s c -> d_gflags c = map_empty -> ids <> [] ->
  (forall g, In g ids -> has_grid s g) ->
  let gone := if nonzero (N.land flag GRID_DESTROY) then filter (involves ids) (s_over s) else [] in
  exists c', grid_trigger_all flag (length ids) ids c = Some c' /\
    dinv n (s_destroy (mkDS (s_grids s) (s_over s) (s_pend s)
       (s_glog s ++ map (fun e => (fst e, flag, snd e, true)) (mark_last ids)) (s_log s)) gone) c' /\
    d_gflags c' = map_empty /\ d_grids c' = d_grids c.
Proof.
  intros I0 H0 Hne Hg. cbv zeta.
  destruct (exists_last Hne) as (l & g & ->). clear Hne.
  unfold grid_trigger_all. rewrite ofold_app.
  destruct (trigger_loop_grids flag (length (l ++ [g])) l c 0 (fun _ => False)) as (c1 & -> & A & B & C & D).
  { rewrite app_length. cbn. lia. }
  { rewrite H0. apply flagged_empty. }
  cbn [ofold fst snd].
  assert (E : Z.eqb (Z.of_nat (0 + length l)) (Z.of_nat (length (l ++ [g])) - 1) = true).
  { apply Z.eqb_eq. rewrite app_length. cbn [length]. lia. }
  rewrite E. unfold grid_trigger. cbv zeta.
  destruct (trigger_flags flag _ (d_gflags c1) g D) as (old & -> & F1).
  match goal with |- context [on_grid_event ?x] => set (c2 := x) end.
  set (s2 := mkDS (s_grids s) (s_over s) (s_pend s)
       (s_glog s ++ map (fun e => (fst e, flag, snd e, true)) (mark_last (l ++ [g]))) (s_log s)).
  assert (I2 : dinv n s2 c2).
  { apply (dinv_glog n s c s2 c2 I0); try reflexivity; [exact A|exact B|].
    unfold c2, s2. cbn [d_glog s_glog]. rewrite C, A, (di_glog _ _ _ I0), mark_last_snoc, map_app, map_map, <- app_assoc.
    f_equal. cbn [map fst snd]. f_equal.
    - apply map_ext_in. intros x Hx. rewrite (contains_grid n s c x I0); [reflexivity|].
      apply Hg, in_or_app. left. exact Hx.
    - rewrite (contains_grid n s c g I0); [reflexivity|]. apply Hg, in_or_app. right. left. reflexivity. }
  assert (F2 : flagged flag (fun x => In x (l ++ [g])) (d_gflags c2)).
  { unfold c2. cbn [d_gflags]. revert F1. apply flagged_ext. intros x. rewrite in_app_iff. cbn [In]. intuition. }
  destruct (dying_grids_spec flag _ _ F2) as [G1 G2].
  unfold on_grid_event.
  destruct (destroy_overlaps_ok n s2 c2 (dying_overlaps (dying_grids (d_gflags c2)))
     (if nonzero (N.land flag GRID_DESTROY) then filter (involves (l ++ [g])) (s_over s) else []) I2)
     as (c3 & -> & I3 & _ & Hgr & Hgl).
  { intros r rs R. destruct (nonzero (N.land flag GRID_DESTROY)) eqn:En.
    - apply dying_overlaps_spec; [exact G1| |apply (ri_keys _ _ _ R)|apply (di_over _ _ _ I2)].
      intros x. rewrite G2. intuition.
    - assert (Ed : dying_grids (d_gflags c2) = []).
      { destruct (dying_grids (d_gflags c2)) as [|x xs] eqn:Ex; [reflexivity|].
        exfalso. destruct (proj1 (G2 x) (or_introl eq_refl)). congruence. }
      rewrite Ed. unfold dying_overlaps.
      assert (X : forall ks acc, fold_left (fun s0 (k : oid) =>
         if set_contains Z.ltb [] (fst k) || set_contains Z.ltb [] (snd k) then set_insert pair_less s0 k else s0) ks acc = acc).
      { induction ks as [|k ks IH]; intros acc; cbn [fold_left]; [reflexivity|]. apply IH. }
      apply X. }
  eexists. split; [reflexivity|]. cbn [fst]. split; [|split; [reflexivity|exact (eq_trans Hgr A)]].
  apply (dinv_glog n _ _ _ _ I3); try reflexivity. cbn [d_glog]. apply (di_glog _ _ _ I3).
Qed.

Lemma grid_trigger_one c g flag : grid_trigger c g flag true = grid_trigger_all flag 1 [g] c.
Proof.
  unfold grid_trigger_all. cbn [ofold fst snd].
  change (Z.eqb (Z.of_nat 0) (Z.of_nat 1 - 1)) with true. destruct (grid_trigger c g flag true); reflexivity.
Qed.
Lemma create_grid_one c g f : create_grid c g f = create_grids c [(g, f)].
Proof. apply grid_trigger_one. Qed.
Lemma destroy_grid_one c g : destroy_grid c g = destroy_grids c [g].
Proof. unfold destroy_grid, destroy_grids. rewrite grid_trigger_one. reflexivity. Qed.

Lemma add_grids_fields l : forall c, let c' := fold_left add_grid l c in
  d_glog c' = d_glog c /\ d_gflags c' = d_gflags c /\ d_ranks c' = d_ranks c.
Proof.
  induction l as [|x l IH]; intros c; cbv zeta; [repeat split|]. cbn [fold_left].
  destruct (IH (add_grid c x)) as (A & B & C). cbv zeta in *. repeat split; [exact A|exact B|exact C].
Qed.
Lemma del_grids_fields l : forall c, let c' := fold_left del_grid l c in
  d_glog c' = d_glog c /\ d_gflags c' = d_gflags c /\ d_ranks c' = d_ranks c.
Proof.
  induction l as [|x l IH]; intros c; cbv zeta; [repeat split|]. cbn [fold_left].
  destruct (IH (del_grid c x)) as (A & B & C). cbv zeta in *. repeat split; [exact A|exact B|exact C].
Qed.

Definition gfn_ok (m : smap Z (nat -> bool)) (l : list (Z * (nat -> bool))) : Prop :=
  mok Z.ltb m /\ forall g f, mget Z.ltb m g = Some f <-> In (g, f) l.

Lemma add_grid_ok c l gf : gfn_ok (d_grids c) l -> ~ In (fst gf) (map fst l) ->
  gfn_ok (d_grids (add_grid c gf)) (gf :: l).
Proof.
  intros [A B] H. destruct gf as [g0 f0]. unfold add_grid. cbn [fst snd d_grids] in *.
  assert (N0 : mget Z.ltb (d_grids c) g0 = None).
  { destruct (mget Z.ltb (d_grids c) g0) as [w|] eqn:E; [|reflexivity]. exfalso. apply H.
    apply B in E. apply (in_map fst) in E. exact E. }
  split; [apply (mok_insert Z.ltb zltb_swo), A|].
  intros g f. rewrite (mget_insert Z.ltb zltb_swo _ g0 f0 g A), zkq. cbn [In].
  destruct (Z.eqb_spec g g0) as [->|Hn].
  - split; [intros [= ->]; auto|]. intros [[= ->]|Hin]; [reflexivity|].
    exfalso. apply H. apply (in_map fst) in Hin. exact Hin.
  - rewrite B. split; [auto|]. intros [[= <- <-]|Hin]; [congruence|exact Hin].
Qed.
Lemma add_grids_ok l2 : forall c l, gfn_ok (d_grids c) l -> NoDup (map fst l2) ->
  (forall g, In g (map fst l2) -> ~ In g (map fst l)) ->
  gfn_ok (d_grids (fold_left add_grid l2 c)) (rev l2 ++ l).
Proof.
  induction l2 as [|x l2 IH]; intros c l G ND H; [exact G|].
  cbn [fold_left rev map] in *. inversion ND as [|? ? Hx ND']. subst.
  rewrite <- app_assoc. cbn [app]. apply IH; [apply add_grid_ok; [exact G|apply H; left; reflexivity]|exact ND'|].
  intros g Hg [E|Hin]; [subst; contradiction|]. eapply H; [right; exact Hg|exact Hin].
Qed.
Lemma del_grids_ok ids : forall c l, gfn_ok (d_grids c) l ->
  gfn_ok (d_grids (fold_left del_grid ids c)) (filter (fun gf => negb (gin (fst gf) ids)) l).
Proof.
  induction ids as [|x ids IH]; intros c l [A B].
  - cbn. split; [exact A|]. intros g f. rewrite B, filter_In. tauto.
  - cbn [fold_left].
    assert (G1 : gfn_ok (d_grids (del_grid c x)) (filter (fun gf => negb (Z.eqb (fst gf) x)) l)).
    { unfold del_grid. cbn [d_grids]. split; [apply (mok_erase Z.ltb zltb_swo), A|].
      intros g f. rewrite (mget_erase Z.ltb zltb_swo _ x g A), zkq, filter_In. cbn [fst].
      destruct (Z.eqb_spec g x); cbn; [|rewrite B]; intuition congruence. }
    destruct (IH _ _ G1) as [A2 B2]. split; [exact A2|]. intros g f. rewrite B2, !filter_In.
    cbn [fst gin existsb]. unfold gin. rewrite !negb_true_iff, orb_false_iff. tauto.
Qed.

Lemma lives_mono s s' g r : has_grid s g ->
  (forall f, In (g, f) (s_grids s') <-> In (g, f) (s_grids s)) -> (lives s' g r <-> lives s g r).
Proof. intros _ H. unfold lives. split; intros (f & Hf & Hr); exists f; (split; [apply H, Hf|exact Hr]). Qed.

(** Changing the set of grids without touching those that overlaps use. *)
Lemma dinv_grids n s c s' c' : dinv n s c ->
  s_over s' = s_over s -> s_pend s' = s_pend s -> s_log s' = s_log s -> s_glog s' = s_glog s ->
  d_ranks c' = d_ranks c -> d_glog c' = d_glog c ->
  gfn_ok (d_grids c') (s_grids s') ->
  (forall k g f, In k (s_over s) -> g = fst k \/ g = snd k -> (In (g, f) (s_grids s') <-> In (g, f) (s_grids s))) ->
  dinv n s' c'.
Proof.
  intros [A B C D E F G H] Ho Hp Hl Hgl Hr Hcl [K1 K2] HS.
  split; rewrite ?Ho, ?Hp, ?Hr, ?Hcl, ?Hgl; auto.
  - intros k Hk. destruct (D k Hk) as [D1 D2]. unfold has_grid in *.
    apply in_map_iff in D1. destruct D1 as ([g1 f1] & E1 & I1). apply in_map_iff in D2. destruct D2 as ([g2 f2] & E2 & I2).
    cbn in E1, E2. subst g1 g2. split; apply in_map_iff.
    + exists (fst k, f1). split; [reflexivity|]. apply (HS k); auto.
    + exists (snd k, f2). split; [reflexivity|]. apply (HS k); auto.
  - intros r rs Hn. destruct (G r rs Hn) as [a b c0 d e f g].
    split; rewrite ?Ho, ?Hl; auto.
    + intros k. rewrite d. split; intros [Hk (f0 & Hf & Hr0)]; (split; [exact Hk|]); exists f0; (split; [|exact Hr0]);
      apply (HS k (fst k) f0 Hk); auto.
    + intros k. rewrite f. split; intros [Hk (f0 & Hf & Hr0)]; (split; [exact Hk|]); exists f0; (split; [|exact Hr0]);
      apply (HS k (snd k) f0 Hk); auto.
Qed.

Lemma create_grids_ok n s c l : dinv n s c -> d_gflags c = map_empty -> dlegal n s (CreateGrids l) ->
  exists c', create_grids c l = Some c' /\ dinv n (s_create_grids s l) c' /\ d_gflags c' = map_empty.
Proof.
  intros I0 H0 [ND HL]. destruct l as [|x l0]; [exists c; auto|].
  set (l := x :: l0) in *. unfold create_grids.
  destruct (add_grids_fields l c) as (A & B & C). cbv zeta in *.
  assert (I1 : dinv n (with_grids s (rev l ++ s_grids s)) (fold_left add_grid l c)).
  { apply (dinv_grids n s c _ _ I0); try reflexivity; [exact C|exact A| |].
    - apply add_grids_ok; [split; [apply (di_grids _ _ _ I0)|apply (di_gin _ _ _ I0)]|exact ND|exact HL].
    - intros k g f Hk Hg. cbn [with_grids s_grids]. rewrite in_app_iff, <- in_rev. split; [|auto].
      intros [Hi|Hi]; [exfalso|exact Hi]. apply (HL g).
      + apply (in_map fst) in Hi. exact Hi.
      + destruct (di_og _ _ _ I0 k Hk). destruct Hg as [->| ->]; assumption. }
  assert (E : length l = length (map fst l)) by (rewrite map_length; reflexivity). rewrite E.
  destruct (grid_trigger_all_ok n _ _ GRID_CREATE (map fst l) I1) as (c' & -> & I2 & F2 & _).
  - rewrite B. exact H0.
  - unfold l. discriminate.
  - intros g Hg. unfold has_grid. cbn [with_grids s_grids]. rewrite map_app, map_rev. apply in_or_app. left.
    rewrite <- in_rev. exact Hg.
  - exists c'. split; [reflexivity|]. split; [|exact F2].
    cbv zeta in I2. change (nonzero (N.land GRID_CREATE GRID_DESTROY)) with false in I2.
    rewrite s_destroy_nil in I2. exact I2.
Qed.

Lemma destroy_grids_ok n s c ids : dinv n s c -> d_gflags c = map_empty -> dlegal n s (DestroyGrids ids) ->
  exists c', destroy_grids c ids = Some c' /\ dinv n (s_destroy_grids s ids) c' /\ d_gflags c' = map_empty.
Proof.
  intros I0 H0 [ND HL]. destruct ids as [|x l0]; [exists c; auto|].
  set (ids := x :: l0) in *. unfold destroy_grids.
  destruct (grid_trigger_all_ok n s c GRID_DESTROY ids I0 H0) as (c1 & -> & I1 & F1 & G1); [unfold ids; discriminate|exact HL|].
  cbv zeta in I1. change (nonzero (N.land GRID_DESTROY GRID_DESTROY)) with true in I1. cbv iota in I1.
  destruct (del_grids_fields ids c1) as (A & B & C). cbv zeta in *.
  eexists. split; [reflexivity|]. split; [|rewrite B; exact F1].
  unfold s_destroy_grids. unfold ids at 1. cbv iota. cbv zeta.
  eapply (dinv_grids n _ c1 _ _ I1); try reflexivity; [exact C|exact A| |].
  - cbn [with_grids s_grids]. apply del_grids_ok. split; [apply (di_grids _ _ _ I1)|apply (di_gin _ _ _ I1)].
  - intros k g f Hk Hg. cbn [with_grids s_grids s_destroy say announce with_over say_grids].
    rewrite filter_In. cbn [fst].
    assert (Hn : negb (gin g ids) = true).
    { cbn [s_destroy s_over with_over say announce] in Hk. apply filter_In in Hk. destruct Hk as [Hk Hk2].
      apply negb_true_iff, kin_false in Hk2. apply negb_true_iff. destruct (gin g ids) eqn:E; [|reflexivity].
      exfalso. apply Hk2. apply filter_In. split; [exact Hk|]. unfold involves. apply orb_true_iff.
      destruct Hg as [->| ->]; auto. }
    rewrite Hn. tauto.
Qed.

(** * Edits *)
Lemma raise_ok m k f : mok pair_less m -> mget pair_less m k <> None ->
  exists m', raise m k f = Some m' /\ mok pair_less m' /\
    (forall x, mget pair_less m' x <> None <-> mget pair_less m x <> None) /\
    (forall x, eflag (m_entries m') x = if oid_eqb x k then N.lor (eflag (m_entries m) x) f else eflag (m_entries m) x).
Proof.
  intros G H. unfold raise. rewrite (mget_contains pair_less pair_swo m k G).
  destruct (mget pair_less m k) as [old|] eqn:E; [|congruence].
  rewrite (mget_at pair_less pair_swo m k old G E).
  assert (HN : mget pair_less m k <> None) by congruence.
  pose proof (mok_write pair_less pair_swo m k (N.lor old f) G HN) as G'.
  eexists. split; [reflexivity|]. split; [exact G'|].
  assert (HM : forall x, mget pair_less (map_write m (set_lower pair_less (m_keys m) k) (N.lor old f)) x =
                         if peqb x k then Some (N.lor old f) else mget pair_less m x).
  { intros x. rewrite (mget_write pair_less pair_swo pEQ m k (N.lor old f) x G HN), pkq. reflexivity. }
  split.
  - intros x. rewrite HM. destruct (peqb_spec x k) as [->|]; intuition congruence.
  - intros x. rewrite (eflag_mget _ x G'), (eflag_mget m x G), HM.
    destruct (peqb_spec x k) as [e|e]; destruct (oid_eqb_spec x k) as [e'|e']; try congruence.
    subst x. rewrite E. reflexivity.
Qed.

Lemma replace_at_S {A} (x : A) l i a : replace_at (x :: l) (S i) a = x :: replace_at l i a.
Proof. reflexivity. Qed.
Lemma orall_update ranks r rs rs' k f : nth_error ranks r = Some rs ->
  (forall x, rflag rs' x = if oid_eqb x k then N.lor (rflag rs x) f else rflag rs x) ->
  forall x, orall (replace_at ranks r rs') x = if oid_eqb x k then N.lor (orall ranks x) f else orall ranks x.
Proof.
  intros Hr H x. revert r Hr. induction ranks as [|a l IH]; intros [|r] Hr; cbn in Hr; try discriminate Hr.
  - injection Hr as ->. change (replace_at (rs :: l) 0 rs') with (rs' :: l). cbn [orall fold_right]. fold (orall l x). rewrite H.
    destruct (oid_eqb x k); [|reflexivity]. rewrite <- !N.lor_assoc. f_equal. apply N.lor_comm.
  - rewrite replace_at_S. cbn [orall fold_right]. fold (orall (replace_at l r rs') x) (orall l x).
    rewrite (IH r Hr). destruct (oid_eqb x k); [|reflexivity]. apply N.lor_assoc.
Qed.
Lemma replace_at_nth_eq {A} (l : list A) i a j b : nth_error (replace_at l i a) j = Some b ->
  (j = i /\ b = a) \/ nth_error l j = Some b.
Proof.
  revert i j. induction l as [|x l IH]; intros i j H.
  - unfold replace_at in H. rewrite firstn_nil, skipn_nil in H. destruct j; discriminate H.
  - destruct i as [|i].
    + change (replace_at (x :: l) 0 a) with (a :: l) in H. destruct j; cbn in H |- *; [injection H as <-|]; auto.
    + rewrite replace_at_S in H. destruct j; cbn in H |- *; [auto|]. destruct (IH i j H) as [[-> ->]|]; auto.
Qed.

Lemma at_rank_ok n s c r k f g : dinv n s c -> r < n ->
  (forall rs, rinv s r rs -> exists rs', g rs = Some rs' /\ rinv s r rs' /\
      forall x, rflag rs' x = if oid_eqb x k then N.lor (rflag rs x) f else rflag rs x) ->
  exists c', at_rank c r g = Some c' /\ dinv n (s_edit s k f) c' /\ d_gflags c' = d_gflags c.
Proof.
  intros I0 Hr HG. unfold at_rank.
  destruct (nth_error (d_ranks c) r) as [rs|] eqn:E.
  2:{ apply nth_error_None in E. rewrite (di_n _ _ _ I0) in E. lia. }
  destruct (HG rs (di_ranks _ _ _ I0 r rs E)) as (rs' & -> & R' & F').
  eexists. split; [reflexivity|]. split; [|reflexivity].
  destruct I0 as [A B C D E0 F G H]. split; cbn [s_edit s_grids s_over s_glog s_log s_pend set_ranks d_grids d_glog d_ranks]; auto.
  - rewrite replace_at_length. exact A.
  - intros j b Hj. destruct (replace_at_nth_eq _ _ _ _ _ Hj) as [[-> ->]|Hj'].
    + destruct R'. split; auto.
    + destruct (G j b Hj'). split; auto.
  - intros x. rewrite (orall_update _ _ _ _ k f E F'), <- H. reflexivity.
Qed.
Lemma edit_m_ok n s c r k f : dinv n s c -> dlegal n s (EditM r k f) ->
  exists c', edit_m c r k f = Some c' /\ dinv n (s_edit s k f) c' /\ d_gflags c' = d_gflags c.
Proof.
  intros I0 (Hr & Hk & Hl). apply at_rank_ok; [exact I0|exact Hr|]. intros rs [a b c0 d e f0 g].
  destruct (raise_ok (r_ms rs) k f c0) as (m' & -> & M1 & M2 & M3); [apply d; auto|].
  eexists. split; [reflexivity|]. split.
  - split; cbn [r_recs r_ms r_ns r_log]; auto. intros x. rewrite M2. apply d.
  - intros x. unfold rflag. cbn [r_ms r_ns]. rewrite M3. destruct (oid_eqb x k); [|reflexivity].
    rewrite <- !N.lor_assoc. f_equal. apply N.lor_comm.
Qed.
Lemma edit_n_ok n s c r k f : dinv n s c -> dlegal n s (EditN r k f) ->
  exists c', edit_n c r k f = Some c' /\ dinv n (s_edit s k f) c' /\ d_gflags c' = d_gflags c.
Proof.
  intros I0 (Hr & Hk & Hl). apply at_rank_ok; [exact I0|exact Hr|]. intros rs [a b c0 d e f0 g].
  destruct (raise_ok (r_ns rs) k f e) as (m' & -> & M1 & M2 & M3); [apply f0; auto|].
  eexists. split; [reflexivity|]. split.
  - split; cbn [r_recs r_ms r_ns r_log]; auto. intros x. rewrite M2. apply f0.
  - intros x. unfold rflag. cbn [r_ms r_ns]. rewrite M3. destruct (oid_eqb x k); [|reflexivity].
    apply N.lor_assoc.
Qed.

(** * Whole histories *)
Lemma dstep_ok n s c o : dinv n s c -> d_gflags c = map_empty -> dlegal n s o ->
  exists c', dstep c o = Some c' /\ dinv n (sstep s o) c' /\ d_gflags c' = map_empty.
Proof.
  intros I0 H0 HL. destruct o; cbn [dstep sstep].
  - rewrite create_grid_one. apply create_grids_ok; auto. cbn in *. split; [repeat constructor; auto|].
    intros x [<-|[]]. exact HL.
  - apply create_grids_ok; auto.
  - rewrite destroy_grid_one. apply destroy_grids_ok; auto. cbn in *. split; [repeat constructor; auto|].
    intros x [<-|[]]. exact HL.
  - apply destroy_grids_ok; auto.
  - rewrite create_overlap_one.
    destruct (create_overlaps_ok n s c [k] I0) as (c' & E & I1 & G).
    { cbn in *. split; [repeat constructor; auto|]. intros x [<-|[]]. exact HL. }
    exists c'. rewrite <- H0. auto.
  - destruct (create_overlaps_ok n s c ids I0 HL) as (c' & E & I1 & G). exists c'. rewrite <- H0. auto.
  - rewrite destroy_overlap_one.
    destruct (destroy_overlaps_ok n s c (fun _ => [k]) [k] I0) as (c' & E & I1 & G & _); [reflexivity|].
    exists c'. rewrite <- H0. auto.
  - destruct (destroy_overlaps_ok n s c (fun _ => ids) ids I0) as (c' & E & I1 & G & _); [reflexivity|].
    exists c'. rewrite <- H0. auto.
  - rewrite (clear_overlaps_short n s c I0 HL).
    destruct (destroy_overlaps_ok n s c (fun rs => m_keys (r_recs rs)) (s_over s) I0) as (c' & E & I1 & G & _).
    { intros r rs R. apply (ri_keys _ _ _ R). }
    exists c'. rewrite <- H0. auto.
  - destruct (edit_m_ok n s c r k f I0 HL) as (c' & E & I1 & G). exists c'. rewrite <- H0. auto.
  - destruct (edit_n_ok n s c r k f I0 HL) as (c' & E & I1 & G). exists c'. rewrite <- H0. auto.
  - unfold end_edit. destruct (sync_ok' n s c I0) as (ranks1 & -> & I1 & _ & _ & _). eauto.
Qed.
Lemma dinv_init n : dinv n dspec_init (dom_init n).
Proof.
  split; cbn [dom_init dspec_init d_ranks d_grids d_glog s_grids s_over s_pend s_glog].
  - apply repeat_length.
  - apply mok_empty.
  - cbn. intuition discriminate.
  - intros k [].
  - reflexivity.
  - apply sok_nil.
  - intros r rs H. apply nth_error_In, repeat_spec in H. subst. split; cbn; try apply mok_empty; intuition.
  - intros k. symmetry. apply orall_zero. intros rs H. apply repeat_spec in H. subst. reflexivity.
Qed.
Lemma drun_from n h : forall s c, dinv n s c -> d_gflags c = map_empty -> dlegal_from n s h ->
  exists c', ofold dstep h c = Some c' /\ dinv n (fold_left sstep h s) c' /\ d_gflags c' = map_empty.
Proof.
  induction h as [|o h IH]; intros s c I0 H0 HL; [exists c; auto|].
  destruct HL as [L1 L2]. destruct (dstep_ok n s c o I0 H0 L1) as (c1 & E & I1 & G1).
  cbn [ofold fold_left]. rewrite E. apply (IH _ _ I1 G1 L2).
Qed.
Lemma drun_ok n h : dlegal_history n h ->
  exists c, drun n h = Some c /\ dinv n (srun h) c /\ d_gflags c = map_empty.
Proof. intros H. apply (drun_from n h _ _ (dinv_init n) eq_refl H). Qed.

(** * Statements read off the history *)
Lemma dlegal_app n h1 h2 : forall s, dlegal_from n s (h1 ++ h2) <->
  dlegal_from n s h1 /\ dlegal_from n (fold_left sstep h1 s) h2.
Proof.
  induction h1 as [|o h1 IH]; intros s; cbn [app dlegal_from fold_left]; [tauto|]. rewrite IH. tauto.
Qed.
Lemma srun_snoc h o : srun (h ++ [o]) = sstep (srun h) o.
Proof. unfold srun. rewrite fold_left_app. reflexivity. Qed.
Lemma glog_events h : s_glog (srun h) = flat_map grid_events h.
Proof.
  induction h as [|o h IH] using rev_ind; [reflexivity|].
  rewrite srun_snoc, flat_map_app, <- IH. cbn [flat_map]. rewrite app_nil_r.
  destruct o; cbn; rewrite ?app_nil_r; try reflexivity.
  - destruct l; [cbn; rewrite app_nil_r|]; reflexivity.
  - destruct ids; [cbn; rewrite app_nil_r|]; reflexivity.
Qed.
Lemma gin_map_filter g l ids : In g (map fst (filter (fun gf : Z * (nat -> bool) => negb (gin (fst gf) ids)) l)) <->
  In g (map fst l) /\ gin g ids = false.
Proof.
  rewrite !in_map_iff. split.
  - intros (x & <- & H). apply filter_In in H. destruct H as [H1 H2]. apply negb_true_iff in H2.
    split; [exists x; auto|exact H2].
  - intros [(x & <- & H1) H2]. exists x. split; [reflexivity|]. apply filter_In. rewrite H2. auto.
Qed.
Lemma has_grid_there h g : has_grid (srun h) g <-> grid_there (rev h) g = true.
Proof.
  induction h as [|o h IH] using rev_ind; [cbn; intuition|].
  rewrite srun_snoc, rev_app_distr. cbn [rev app].
  destruct o; cbn [grid_there]; try exact IH.
  - rewrite orb_true_iff, <- IH, Z.eqb_eq. unfold has_grid. cbn. intuition.
  - rewrite orb_true_iff, <- IH, gin_In. unfold has_grid. destruct l as [|x l]; [cbn; intuition|].
    cbn [sstep s_create_grids announce say_grids with_grids s_grids].
    rewrite map_app, map_rev, in_app_iff, <- in_rev. reflexivity.
  - rewrite andb_true_iff, <- IH, negb_true_iff. unfold has_grid.
    cbn [sstep s_destroy_grids with_grids s_grids]. rewrite gin_map_filter. cbn [gin existsb].
    rewrite orb_false_r. cbn. tauto.
  - rewrite andb_true_iff, <- IH, negb_true_iff. unfold has_grid. destruct ids as [|x ids]; [cbn; intuition|].
    cbn [sstep s_destroy_grids with_grids s_grids]. rewrite gin_map_filter. cbn. tauto.
Qed.

Lemma grid_lifecycle n h : dlegal_history n h ->
  exists c, drun n h = Some c /\
    (forall g, grid_exists c g = true <-> grid_there (rev h) g = true) /\
    d_glog c = flat_map grid_events h.
Proof.
  intros H. destruct (drun_ok n h H) as (c & E & I0 & _). exists c. split; [exact E|]. split.
  - intros g. rewrite <- has_grid_there. unfold grid_exists.
    rewrite (mget_contains Z.ltb zltb_swo _ g (di_grids _ _ _ I0)). unfold has_grid. rewrite in_map_iff. split.
    + destruct (mget Z.ltb (d_grids c) g) as [f|] eqn:M; [|discriminate]. intros _.
      apply (di_gin _ _ _ I0) in M. exists (g, f). auto.
    + intros ([g' f] & <- & Hin). apply (di_gin _ _ _ I0) in Hin. cbn [fst]. rewrite Hin. reflexivity.
  - rewrite (di_glog _ _ _ I0). apply glog_events.
Qed.

Lemma rinv_exists s r rs k : rinv s r rs -> (overlap_exists rs k = true <-> In k (s_over s)).
Proof.
  intros R. unfold overlap_exists. rewrite (mget_contains pair_less pair_swo _ k (ri_recs _ _ _ R)).
  rewrite <- (ri_keys _ _ _ R), (mkeys_In pair_less pair_swo pEQ _ k (ri_recs _ _ _ R)).
  destruct (mget pair_less (r_recs rs) k); intuition congruence.
Qed.
Lemma contains_iff (m : smap oid N) k : mok pair_less m ->
  (map_contains pair_less m k = true <-> mget pair_less m k <> None).
Proof.
  intros G. rewrite (mget_contains pair_less pair_swo _ k G).
  destruct (mget pair_less m k); intuition congruence.
Qed.

Lemma dying_records n h ids : dlegal_history n (h ++ [DestroyGrids ids]) ->
  exists c c', drun n h = Some c /\ drun n (h ++ [DestroyGrids ids]) = Some c' /\
    length (d_ranks c) = n /\ length (d_ranks c') = n /\
    forall r rs rs' k, nth_error (d_ranks c) r = Some rs -> nth_error (d_ranks c') r = Some rs' ->
      (overlap_exists rs' k = true <->
       overlap_exists rs k = true /\ ~ In (fst k) ids /\ ~ In (snd k) ids).
Proof.
  intros H. destruct (proj1 (dlegal_app n h [DestroyGrids ids] dspec_init) H) as [H1 _].
  destruct (drun_ok n h H1) as (c & E & I0 & _). destruct (drun_ok n _ H) as (c' & E' & I1 & _).
  exists c, c'. split; [exact E|]. split; [exact E'|].
  split; [apply (di_n _ _ _ I0)|]. split; [apply (di_n _ _ _ I1)|].
  intros r rs rs' k Hr Hr'.
  rewrite (rinv_exists _ _ _ k (di_ranks _ _ _ I0 r rs Hr)), (rinv_exists _ _ _ k (di_ranks _ _ _ I1 r rs' Hr')).
  rewrite srun_snoc. cbn [sstep]. destruct ids as [|x ids0]; [cbn; tauto|]. set (ids := x :: ids0).
  cbn [s_destroy_grids ids]. fold ids. cbn [with_grids s_over s_destroy with_over say announce say_grids].
  rewrite filter_In, negb_true_iff, kin_false, filter_In. unfold involves.
  rewrite orb_true_iff, !gin_In.
  split.
  - intros [A B]. split; [exact A|]. split; intros X; apply B; auto.
  - intros (A & B & C). split; [exact A|]. intros [_ [X|X]]; auto.
Qed.

Lemma records_refine n h : dlegal_history n h ->
  exists c, drun n h = Some c /\ length (d_ranks c) = n /\
    forall r rs, nth_error (d_ranks c) r = Some rs ->
      m_keys (r_recs rs) = s_over (srun h) /\
      (forall k, overlap_exists rs k = true <-> In k (s_over (srun h))) /\
      (forall k, map_contains pair_less (r_ms rs) k = true <->
                 In k (s_over (srun h)) /\ lives (srun h) (fst k) r) /\
      (forall k, map_contains pair_less (r_ns rs) k = true <->
                 In k (s_over (srun h)) /\ lives (srun h) (snd k) r) /\
      r_log rs = s_log (srun h).
Proof.
  intros H. destruct (drun_ok n h H) as (c & E & I0 & _). exists c. split; [exact E|].
  split; [apply (di_n _ _ _ I0)|]. intros r rs Hr. pose proof (di_ranks _ _ _ I0 r rs Hr) as R.
  split; [apply (ri_keys _ _ _ R)|]. split; [intros k; apply (rinv_exists _ _ _ k R)|].
  split; [intros k; rewrite (contains_iff _ k (ri_ms _ _ _ R)); apply (ri_min _ _ _ R)|].
  split; [intros k; rewrite (contains_iff _ k (ri_ns _ _ _ R)); apply (ri_nin _ _ _ R)|].
  apply (ri_log _ _ _ R).
Qed.

Lemma edits_pend es : forall s, Forall is_edit es ->
  let s' := fold_left sstep es s in
  s_over s' = s_over s /\ s_log s' = s_log s /\
  forall k, s_pend s' k = N.lor (s_pend s k) (edit_flags k es).
Proof.
  induction es as [|o es IH]; intros s F; cbv zeta.
  - split; [reflexivity|]. split; [reflexivity|]. intros k. cbn. rewrite N.lor_0_r. reflexivity.
  - inversion F as [|? ? Ho F']. subst. cbn [fold_left].
    destruct (IH (sstep s o) F') as (A & B & C). cbv zeta in *.
    destruct o; try contradiction Ho; (split; [exact A|]; split; [exact B|]; intros x; rewrite C;
      cbn [sstep s_edit s_pend edit_flags]; destruct (oid_eqb x k); [rewrite N.lor_assoc|]; reflexivity).
Qed.
Lemma edit_events n h es : dlegal_history n (h ++ [EndEdit] ++ es ++ [EndEdit]) -> Forall is_edit es ->
  exists c0 c c2, drun n (h ++ [EndEdit]) = Some c0 /\
    drun n (h ++ [EndEdit] ++ es ++ [EndEdit]) = Some c /\
    drun n (h ++ [EndEdit] ++ es ++ [EndEdit; EndEdit]) = Some c2 /\
    length (d_ranks c0) = n /\ length (d_ranks c) = n /\ length (d_ranks c2) = n /\
    forall r rs0 rs rs2, nth_error (d_ranks c0) r = Some rs0 -> nth_error (d_ranks c) r = Some rs ->
      nth_error (d_ranks c2) r = Some rs2 ->
      r_log rs = r_log rs0 ++ mark_last (map (fun k => (k, edit_flags k es))
                   (filter (fun k => negb (N.eqb (edit_flags k es) 0)) (m_keys (r_recs rs0)))) /\
      r_log rs2 = r_log rs.
Proof.
  intros H F.
  assert (H0 : dlegal_history n (h ++ [EndEdit])).
  { rewrite app_assoc in H. apply dlegal_app in H. apply H. }
  assert (H2 : dlegal_history n (h ++ [EndEdit] ++ es ++ [EndEdit; EndEdit])).
  { replace (h ++ [EndEdit] ++ es ++ [EndEdit; EndEdit]) with ((h ++ [EndEdit] ++ es ++ [EndEdit]) ++ [EndEdit]).
    - apply dlegal_app. split; [exact H|]. cbn. auto.
    - rewrite <- !app_assoc. reflexivity. }
  destruct (drun_ok n _ H0) as (c0 & E0 & I0 & _). destruct (drun_ok n _ H) as (c & E & I1 & _).
  destruct (drun_ok n _ H2) as (c2 & E2 & I2 & _).
  exists c0, c, c2. split; [exact E0|]. split; [exact E|]. split; [exact E2|].
  split; [apply (di_n _ _ _ I0)|]. split; [apply (di_n _ _ _ I1)|]. split; [apply (di_n _ _ _ I2)|].
  intros r rs0 rs rs2 Hr0 Hr Hr2.
  rewrite (ri_log _ _ _ (di_ranks _ _ _ I0 r rs0 Hr0)), (ri_log _ _ _ (di_ranks _ _ _ I1 r rs Hr)),
    (ri_log _ _ _ (di_ranks _ _ _ I2 r rs2 Hr2)), (ri_keys _ _ _ (di_ranks _ _ _ I0 r rs0 Hr0)).
  replace (h ++ [EndEdit] ++ es ++ [EndEdit; EndEdit]) with ((h ++ [EndEdit] ++ es ++ [EndEdit]) ++ [EndEdit])
    by (rewrite <- !app_assoc; reflexivity).
  rewrite (srun_snoc (h ++ [EndEdit] ++ es ++ [EndEdit])).
  assert (X : srun (h ++ [EndEdit] ++ es ++ [EndEdit]) = announce (fold_left sstep es (srun (h ++ [EndEdit])))).
  { unfold srun. rewrite !fold_left_app. reflexivity. }
  rewrite X. destruct (edits_pend es (srun (h ++ [EndEdit])) F) as (A & B & C). cbv zeta in *.
  assert (P0 : forall k, s_pend (srun (h ++ [EndEdit])) k = 0%N) by (intros k; rewrite srun_snoc; reflexivity).
  assert (P1 : forall k, s_pend (fold_left sstep es (srun (h ++ [EndEdit]))) k = edit_flags k es).
  { intros k. rewrite C, P0. apply N.lor_0_l. }
  split.
  - cbn [announce s_log]. rewrite A, B. f_equal. f_equal.
    rewrite (filter_ext _ (fun k => negb (N.eqb (edit_flags k es) 0))).
    + apply map_ext. intros k. rewrite P1. reflexivity.
    + intros k. rewrite P1. reflexivity.
  - cbn [sstep announce s_log s_over s_pend]. rewrite <- app_assoc. f_equal.
    rewrite <- (app_nil_r (mark_last _)) at 2. f_equal.
    assert (Y : forall l : list oid, filter (fun _ => negb (0 =? 0)%N) l = []) by (induction l; auto).
    rewrite Y. reflexivity.
Qed.

Lemma clear_short n h : dlegal_history n h -> length (s_over (srun h)) <= 1 ->
  exists c, drun n (h ++ [ClearOverlaps]) = Some c /\ length (d_ranks c) = n /\
    forall r rs k, nth_error (d_ranks c) r = Some rs -> overlap_exists rs k = false.
Proof.
  intros H HL. assert (H1 : dlegal_history n (h ++ [ClearOverlaps])).
  { apply dlegal_app. split; [exact H|]. cbn. auto. }
  destruct (drun_ok n _ H1) as (c & E & I0 & _). exists c. split; [exact E|]. split; [apply (di_n _ _ _ I0)|].
  intros r rs k Hr. destruct (overlap_exists rs k) eqn:X; [|reflexivity]. exfalso.
  apply (rinv_exists _ _ _ k (di_ranks _ _ _ I0 r rs Hr)) in X. rewrite srun_snoc in X.
  cbn [sstep s_destroy with_over s_over say announce] in X. apply filter_In in X. destruct X as [X1 X2].
  apply negb_true_iff, kin_false in X2. contradiction.
Qed.

(** Clearing two or more records always reads beyond the end of the keys. *)
Lemma erase_record_length rs i k : mok pair_less (r_recs rs) -> nth_error (m_keys (r_recs rs)) i = Some k ->
  mok pair_less (r_recs (erase_record rs k)) /\
  S (length (m_keys (r_recs (erase_record rs k)))) = length (m_keys (r_recs rs)).
Proof.
  intros G E. destruct (recs_erase_all (r_recs rs) [k] G) as [G' H]. cbn [fold_left] in *.
  split; [exact G'|]. unfold erase_record. cbn [r_recs].
  change (S (length (m_keys (map_erase pair_less (r_recs rs) k)))) with
    (length (k :: m_keys (map_erase pair_less (r_recs rs) k))).
  assert (ND : NoDup (m_keys (map_erase pair_less (r_recs rs) k)))
    by (apply (sok_NoDup pair_less pair_swo), sok_keys, G').
  apply Permutation_length, NoDup_Permutation.
  - constructor; [|exact ND]. rewrite H. cbn. tauto.
  - apply (sok_NoDup pair_less pair_swo), sok_keys, G.
  - intros x. cbn [In]. rewrite H. cbn [In]. split.
    + intros [<-|[X _]]; [eapply nth_error_In, E|exact X].
    + intros X. destruct (peqb_spec x k) as [->|Hn]; [auto|]. right. split; [exact X|]. intuition.
Qed.
Lemma erase_viewed_fails m : forall i rs, mok pair_less (r_recs rs) ->
  length (m_keys (r_recs rs)) = m -> 0 < m -> 1 <= i \/ 2 <= m -> erase_viewed m i rs = None.
Proof.
  induction m as [|m IH]; intros i rs G HL Hm Hor; [lia|].
  cbn [erase_viewed]. destruct (nth_error (m_keys (r_recs rs)) i) as [k|] eqn:E; [|reflexivity].
  destruct (erase_record_length rs i k G E) as [G' L'].
  assert (i < S m). { rewrite <- HL. apply nth_error_Some. congruence. }
  destruct (Nat.eq_dec m 0) as [->|Hm0]; [lia|]. apply IH; [exact G'|lia|lia|lia].
Qed.
Lemma clear_long n h : 0 < n -> dlegal_history n h -> 2 <= length (s_over (srun h)) ->
  exists c, drun n h = Some c /\ clear_overlaps c = None.
Proof.
  intros Hn H HL. destruct (drun_ok n h H) as (c & E & I0 & _). exists c. split; [exact E|].
  unfold clear_overlaps. destruct (sync_ok' n _ c I0) as (ranks1 & -> & I1 & N1 & R1 & Z1).
  destruct ranks1 as [|rs rest]; [cbn in N1; lia|]. cbn [on_ranks].
  assert (X : clear_on rs = None).
  { pose proof (R1 0 rs eq_refl) as R. unfold clear_on.
    set (rs1 := fold_left erase_local (m_keys (r_recs rs)) (tell_all OVERLAP_DESTROY (m_keys (r_recs rs)) rs)).
    assert (Y : r_recs rs1 = r_recs rs).
    { unfold rs1. destruct (erase_locals_ok (m_keys (r_recs rs))
        (fun k => In k (s_over (announce (srun h))) /\ lives (announce (srun h)) (fst k) 0)
        (fun k => In k (s_over (announce (srun h))) /\ lives (announce (srun h)) (snd k) 0)
        (tell_all OVERLAP_DESTROY (m_keys (r_recs rs)) rs)) as (A & _).
      - rewrite tell_all_spec. destruct (locals_of _ _ _ R (Z1 rs (or_introl eq_refl))). split; assumption.
      - rewrite A, tell_all_spec. reflexivity. }
    assert (KL : length (m_keys (r_recs rs)) = length (s_over (srun h))) by (rewrite (ri_keys _ _ _ R); reflexivity).
    apply erase_viewed_fails; rewrite ?Y; [apply (ri_recs _ _ _ R)|reflexivity|lia|right; lia]. }
  rewrite X. reflexivity.
Qed.
