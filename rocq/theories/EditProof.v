From Coq Require Import ZArith List Bool Arith Lia.
From Verif Require Import FRefModel FRefProof EditModel EditSpec.
Import ListNotations.
Local Open Scope nat_scope.

(** * Counting shares *)

Notation cnt e l := (fold_right (fun p n => shares_in e (snd p) + n) 0 l).

Definition keys_nd (l : list (nat * option nat)) : Prop := NoDup (map fst l).

Lemma look_In l h v : look l h = Some v -> In (h, v) l.
Proof.
  induction l as [|[k w] l IH]; cbn; [discriminate|]. destruct (Nat.eqb_spec k h) as [->|].
  - intros [= ->]. auto.
  - auto.
Qed.
Lemma look_None l h : look l h = None <-> ~ In h (map fst l).
Proof.
  induction l as [|[k w] l IH]; cbn; [tauto|]. destruct (Nat.eqb_spec k h) as [->|N].
  - split; [discriminate|]. intros H. exfalso. auto.
  - rewrite IH. tauto.
Qed.
Lemma map_fst_put l h v : map fst (put l h v) = map fst l.
Proof.
  unfold put. rewrite map_map. apply map_ext. intros [k w]. cbn.
  destruct (Nat.eqb_spec k h); cbn; congruence.
Qed.
Lemma look_put l h v g : look (put l h v) g =
  if Nat.eqb g h then option_map (fun _ => v) (look l h) else look l g.
Proof.
  induction l as [|[k w] l IH]; [cbn; destruct (Nat.eqb g h); reflexivity|]. cbn.
  destruct (Nat.eqb_spec g h) as [Eg|N].
  - subst g. destruct (Nat.eqb_spec k h) as [->|]; cbn.
    + rewrite Nat.eqb_refl. reflexivity.
    + apply Nat.eqb_neq in n. rewrite n. exact IH.
  - destruct (Nat.eqb_spec k h) as [->|]; cbn.
    + destruct (Nat.eqb_spec h g); [congruence|]. exact IH.
    + destruct (Nat.eqb k g); [reflexivity|exact IH].
Qed.
Lemma put_absent l h v : look l h = None -> put l h v = l.
Proof.
  induction l as [|[k w] l IH]; cbn; auto. destruct (Nat.eqb_spec k h); [discriminate|].
  intros H. f_equal. apply IH, H.
Qed.
Lemma cnt_put e l h v w : keys_nd l -> look l h = Some w ->
  cnt e (put l h v) + shares_in e w = cnt e l + shares_in e v.
Proof.
  unfold keys_nd. induction l as [|[k x] l IH]; cbn; [discriminate|]. intros D.
  inversion D as [|? ? Nk D']; subst. destruct (Nat.eqb_spec k h) as [->|N]; cbn.
  - intros [= ->]. fold (put l h v). rewrite put_absent; [lia|]. apply look_None, Nk.
  - intros H. fold (put l h v). specialize (IH D' H). lia.
Qed.
Lemma look_drop l h g : look (drop l h) g = if Nat.eqb g h then None else look l g.
Proof.
  induction l as [|[k w] l IH]; cbn; [destruct (Nat.eqb g h); reflexivity|].
  destruct (Nat.eqb_spec k h) as [->|]; cbn; fold (drop l h).
  - rewrite IH. destruct (Nat.eqb_spec g h) as [Eg|]; [reflexivity|].
    destruct (Nat.eqb_spec h g); [congruence|reflexivity].
  - rewrite IH. destruct (Nat.eqb_spec g h) as [Eg|]; [subst g|reflexivity].
    apply Nat.eqb_neq in n. rewrite n. reflexivity.
Qed.
Lemma drop_absent l h : look l h = None -> drop l h = l.
Proof.
  induction l as [|[k w] l IH]; cbn; auto. destruct (Nat.eqb_spec k h); [discriminate|].
  intros H. cbn. f_equal. apply IH, H.
Qed.
Lemma cnt_drop e l h w : keys_nd l -> look l h = Some w ->
  cnt e (drop l h) + shares_in e w = cnt e l.
Proof.
  unfold keys_nd. induction l as [|[k x] l IH]; cbn; [discriminate|]. intros D.
  inversion D as [|? ? Nk D']; subst. destruct (Nat.eqb_spec k h) as [->|N]; cbn.
  - intros [= ->]. fold (drop l h). rewrite drop_absent; [lia|]. apply look_None, Nk.
  - intros H. fold (drop l h). specialize (IH D' H). lia.
Qed.
Lemma keys_drop l h : keys_nd l -> keys_nd (drop l h).
Proof.
  unfold keys_nd. induction l as [|[k x] l IH]; cbn; auto. intros D. inversion D as [|? ? Nk D']; subst.
  destruct (Nat.eqb_spec k h); cbn; [apply IH, D'|]. constructor; [|apply IH, D'].
  intros H. apply Nk. apply in_map_iff in H. destruct H as (p & <- & Hp). apply filter_In in Hp.
  apply in_map, Hp.
Qed.
Lemma keys_put l h v : keys_nd l -> keys_nd (put l h v).
Proof. unfold keys_nd. rewrite map_fst_put. auto. Qed.
Lemma cnt_In e l h : look l h = Some (Some e) -> 0 < cnt e l.
Proof.
  induction l as [|[k x] l IH]; cbn; [discriminate|]. destruct (Nat.eqb_spec k h).
  - intros [= ->]. cbn. rewrite Nat.eqb_refl. lia.
  - intros H. specialize (IH H). lia.
Qed.

(** * The editors, given the number of shares and of ended sessions *)

Record good (s : est) (sh en : nat -> nat) : Prop := {
  g_cnt : forall e, e_cnt s e = Z.of_nat (sh e);
  g_fun : forall e, e_fun s e = if Nat.eqb (sh e) 0 then None else Some (en e);
  g_sess : forall e, e_sess s e = en e + (if Nat.eqb (sh e) 0 then 0 else 1);
  g_log : forall e, ran e (e_log s) = seq 0 (en e) }.

Lemma good_ext s sh en sh' en' : (forall e, sh' e = sh e) -> (forall e, en' e = en e) ->
  good s sh en -> good s sh' en'.
Proof. intros A B G. split; intros e; rewrite ?A, ?B; apply G. Qed.

Lemma good_hnd s sh en h v : good s sh en -> good (set_hnd s h v) sh en.
Proof. intros G. split; apply G. Qed.

Lemma good_activate s sh en e : good s sh en -> sh e = 0 ->
  good (increment (activate s e) e) (fun x => (if Nat.eqb x e then 1 else 0) + sh x) en.
Proof.
  intros G Z. split; cbn; intros x; unfold upd; destruct (Nat.eqb_spec x e) as [->|]; cbn; try apply G.
  - rewrite (g_cnt _ _ _ G), Z. reflexivity.
  - rewrite (g_sess _ _ _ G), Z. cbn. f_equal. lia.
  - rewrite (g_sess _ _ _ G), Z. cbn. lia.
Qed.

Lemma good_incr s sh en e : good s sh en -> 0 < sh e ->
  good (increment s e) (fun x => (if Nat.eqb x e then 1 else 0) + sh x) en.
Proof.
  intros G Z. split; cbn; intros x; unfold upd; destruct (Nat.eqb_spec x e) as [->|]; cbn; try apply G.
  - rewrite (g_cnt _ _ _ G). lia.
  - rewrite (g_fun _ _ _ G). destruct (sh e); [lia|reflexivity].
  - rewrite (g_sess _ _ _ G). destruct (sh e); [lia|reflexivity].
Qed.

Local Arguments ran : simpl never.
Lemma ran_app e a b : ran e (a ++ b) = ran e a ++ ran e b.
Proof. unfold ran. rewrite filter_app, map_app. reflexivity. Qed.

Lemma good_decr s sh en e : good s sh en -> 0 < sh e -> exists s', decrement s e = Some s' /\
  good s' (fun x => sh x - (if Nat.eqb x e then 1 else 0))
          (fun x => en x + (if Nat.eqb x e && Nat.eqb (sh e) 1 then 1 else 0)) /\
  e_hnd s' = e_hnd s.
Proof.
  intros G Z. unfold decrement. rewrite (g_cnt _ _ _ G), (g_fun _ _ _ G).
  destruct (Nat.eqb_spec (sh e) 0); [lia|]. destruct (Nat.eqb_spec (sh e) 1) as [E|E].
  - rewrite E. cbn [Z.of_nat Z.eqb]. change ((Z.pos (Pos.of_succ_nat 0) - 1 =? 0)%Z) with true. cbn iota.
    eexists. split; [reflexivity|]. split; [|reflexivity].
    split; cbn; intros x; unfold upd; destruct (Nat.eqb_spec x e) as [->|]; cbn; rewrite ?Nat.add_0_r, ?Nat.sub_0_r; try apply G.
    + rewrite E. reflexivity.
    + rewrite E. reflexivity.
    + rewrite (g_sess _ _ _ G), E. cbn. lia.
    + rewrite ran_app, (g_log _ _ _ G). unfold ran at 1. cbn. rewrite Nat.eqb_refl. cbn.
      rewrite seq_app. reflexivity.
    + rewrite ran_app, (g_log _ _ _ G). unfold ran at 1. cbn.
      destruct (Nat.eqb_spec e x); [congruence|]. apply app_nil_r.
  - destruct (Z.eqb_spec (Z.of_nat (sh e) - 1) 0); [lia|].
    eexists. split; [reflexivity|]. split; [|reflexivity].
    split; cbn; intros x; unfold upd; destruct (Nat.eqb_spec x e) as [->|]; cbn; rewrite ?Nat.add_0_r, ?Nat.sub_0_r; try apply G.
    + lia.
    + rewrite (g_fun _ _ _ G). destruct (Nat.eqb_spec (sh e) 0), (Nat.eqb_spec (sh e - 1) 0); try lia; reflexivity.
    + rewrite (g_sess _ _ _ G). destruct (Nat.eqb_spec (sh e) 0), (Nat.eqb_spec (sh e - 1) 0); lia.
Qed.

(** * One step *)

Local Arguments shares : simpl never.

Record sim (s : est) (t : sst) (en : nat -> nat) : Prop := {
  m_good : good s (shares t) en;
  m_hnd : forall h, e_hnd s h = look (sh_h t) h;
  m_keys : keys_nd (sh_h t) }.

Definition ended (t t' : sst) (e : nat) : nat :=
  if Nat.ltb 0 (shares t e) && Nat.eqb (shares t' e) 0 then 1 else 0.

Lemma sim_intro t en s' t' en' sh : good s' sh en' -> (forall e, shares t' e = sh e) ->
  (forall e, en' e = en e + ended t t' e) ->
  (forall h, e_hnd s' h = look (sh_h t') h) -> keys_nd (sh_h t') ->
  sim s' t' (fun e => en e + ended t t' e).
Proof.
  intros G A B C D. split; auto. eapply good_ext; [| |exact G]; auto.
Qed.

Lemma shares_look t h e : look (sh_h t) h = Some (Some e) -> 0 < shares t e.
Proof. intros H. apply cnt_In in H. unfold shares. lia. Qed.

Lemma e_hnd_incr s v : e_hnd (incr_opt s v) = e_hnd s.
Proof. destruct v; reflexivity. Qed.

Lemma ended_mono t t' e : shares t e <= shares t' e -> ended t t' e = 0.
Proof.
  unfold ended. intros H. destruct (Nat.ltb_spec 0 (shares t e)); [|reflexivity].
  destruct (Nat.eqb_spec (shares t' e) 0); [lia|reflexivity].
Qed.

Lemma shares_in_1 e : shares_in e (Some e) = 1.
Proof. cbn. rewrite Nat.eqb_refl. reflexivity. Qed.

Lemma sim_decr s t en t' old : sim s t en -> keys_nd (sh_h t') ->
  (forall e, shares t' e + shares_in e old = shares t e) ->
  exists s', decr_opt s old = Some s' /\ e_hnd s' = e_hnd s /\
    good s' (shares t') (fun e => en e + ended t t' e).
Proof.
  intros M K E. destruct old as [e0|]; cbn [decr_opt].
  - assert (P : 0 < shares t e0) by (rewrite <- E, shares_in_1; lia).
    destruct (good_decr s (shares t) en e0 (m_good _ _ _ M) P) as (s' & -> & G & H).
    exists s'. split; [reflexivity|]. split; [exact H|]. eapply good_ext; [| |exact G].
    + intros e. cbn. rewrite <- E. cbn. rewrite (Nat.eqb_sym e0 e). destruct (Nat.eqb e e0); lia.
    + intros e. cbn. f_equal. unfold ended. specialize (E e) as Ee. cbn in Ee.
      destruct (Nat.eqb_spec e e0) as [->|N].
      * rewrite Nat.eqb_refl in Ee. cbn in Ee. destruct (Nat.ltb_spec 0 (shares t e0)); [|lia].
        destruct (Nat.eqb_spec (shares t' e0) 0), (Nat.eqb_spec (shares t e0) 1); cbn; lia.
      * destruct (Nat.eqb_spec e0 e); [congruence|].
        destruct (Nat.ltb_spec 0 (shares t e)), (Nat.eqb_spec (shares t' e) 0); cbn; lia.
  - exists s. split; [reflexivity|]. split; [reflexivity|].
    eapply good_ext; [| |apply (m_good _ _ _ M)].
    + intros e. specialize (E e). cbn in E. lia.
    + intros e. cbn. rewrite ended_mono; [lia|]. specialize (E e). cbn in E. lia.
Qed.

Lemma estep_sim s t en o t' : sim s t en -> no_restore o -> sstep t o = Some t' ->
  exists s', estep s o = Some s' /\ sim s' t' (fun e => en e + ended t t' e).
Proof.
  intros M Nr E. pose proof (m_good _ _ _ M) as G. pose proof (m_keys _ _ _ M) as K.
  destruct o as [h|h e0|h g|h g|h g|h g|h|h|h|e0]; cbn [estep sstep no_restore] in *.
  - rewrite (m_hnd _ _ _ M h). destruct (look (sh_h t) h) eqn:Lh; [discriminate|].
    injection E as <-. eexists. split; [reflexivity|].
    assert (Sh : forall e, shares (mkSh ((h, None) :: sh_h t) (sh_raw t)) e = shares t e) by reflexivity.
    eapply (sim_intro _ _ _ _ _ _ (good_hnd _ _ _ _ _ G)); auto.
    + intros e. rewrite ended_mono; [lia|]. rewrite Sh. lia.
    + intros k. cbn. unfold upd. rewrite (Nat.eqb_sym h k).
      destruct (Nat.eqb k h); [reflexivity|apply M].
    + constructor; [apply look_None, Lh|exact K].
  - rewrite (m_hnd _ _ _ M h). destruct (look (sh_h t) h) eqn:Lh; [discriminate|].
    injection E as <-. eexists. split; [reflexivity|].
    assert (Sh : forall e, shares (mkSh ((h, Some e0) :: sh_h t) (sh_raw t)) e =
      (if Nat.eqb e e0 then 1 else 0) + shares t e).
    { intros e. unfold shares. cbn. rewrite (Nat.eqb_sym e e0). destruct (Nat.eqb e0 e); reflexivity. }
    assert (G' : good (increment match e_fun s e0 with Some _ => s | None => activate s e0 end e0)
      (fun e => (if Nat.eqb e e0 then 1 else 0) + shares t e) en).
    { rewrite (g_fun _ _ _ G). destruct (Nat.eqb_spec (shares t e0) 0) as [Z|Z].
      - apply good_activate; assumption.
      - apply good_incr; [assumption|lia]. }
    eapply (sim_intro _ _ _ _ _ _ (good_hnd _ _ _ _ _ G')); auto.
    + intros e. rewrite ended_mono; [lia|]. rewrite Sh. lia.
    + intros k. cbn. unfold upd. rewrite (Nat.eqb_sym h k).
      destruct (Nat.eqb k h); [reflexivity|]. destruct (e_fun s e0); apply M.
    + constructor; [apply look_None, Lh|exact K].
  - rewrite (m_hnd _ _ _ M h), (m_hnd _ _ _ M g). destruct (look (sh_h t) h) eqn:Lh; [discriminate|].
    destruct (look (sh_h t) g) as [v|] eqn:Lg; [|discriminate].
    injection E as <-. eexists. split; [reflexivity|].
    assert (Sh : forall e, shares (mkSh ((h, v) :: sh_h t) (sh_raw t)) e = shares_in e v + shares t e).
    { intros e. unfold shares. cbn. lia. }
    assert (G' : good (incr_opt (set_hnd s h (Some v)) v) (fun e => shares_in e v + shares t e) en).
    { destruct v as [e0|]; cbn [incr_opt].
      - eapply good_ext; [| |apply (good_incr _ _ _ e0 (good_hnd _ _ _ h (Some (Some e0)) G)); eapply shares_look; exact Lg];
          cbn; auto.
        intros e. rewrite (Nat.eqb_sym e e0). reflexivity.
      - apply good_hnd, G. }
    eapply (sim_intro _ _ _ _ _ _ G'); auto.
    + intros e. rewrite ended_mono; [lia|]. rewrite Sh. lia.
    + intros k. rewrite e_hnd_incr. cbn. unfold upd. rewrite (Nat.eqb_sym h k).
      destruct (Nat.eqb k h); [reflexivity|apply M].
    + constructor; [apply look_None, Lh|exact K].
  - rewrite (m_hnd _ _ _ M h), (m_hnd _ _ _ M g). destruct (look (sh_h t) h) eqn:Lh; [discriminate|].
    destruct (look (sh_h t) g) as [v|] eqn:Lg; [|discriminate].
    injection E as <-. eexists. split; [reflexivity|].
    assert (Sh : forall e, shares (mkSh ((h, v) :: put (sh_h t) g None) (sh_raw t)) e = shares t e).
    { intros e. unfold shares. cbn. pose proof (cnt_put e _ g None v K Lg) as X. cbn in X. lia. }
    eapply (sim_intro _ _ _ _ _ _ (good_hnd _ _ _ _ _ (good_hnd _ _ _ _ _ G))); auto.
    + intros e. rewrite ended_mono; [lia|]. rewrite Sh. lia.
    + intros k. cbn. unfold upd. rewrite look_put, Lg, (Nat.eqb_sym h k).
      destruct (Nat.eqb_spec k g) as [->|]; cbn.
      * destruct (Nat.eqb_spec g h); [congruence|reflexivity].
      * destruct (Nat.eqb_spec k h); [reflexivity|apply M].
    + constructor; [rewrite map_fst_put; apply look_None, Lh|apply keys_put, K].
  - rewrite (m_hnd _ _ _ M h), (m_hnd _ _ _ M g).
    destruct (look (sh_h t) h) as [old|] eqn:Lh; [|discriminate].
    destruct (look (sh_h t) g) as [v|] eqn:Lg; [|discriminate].
    injection E as <-. rewrite e_hnd_incr, (m_hnd _ _ _ M h), Lh.
    set (t' := mkSh (put (sh_h t) h v) (sh_raw t)).
    assert (Sh : forall e, shares t' e + shares_in e old = shares t e + shares_in e v).
    { intros e. unfold shares, t'. cbn. pose proof (cnt_put e _ h v old K Lh). lia. }
    (* with the parameter of operator= as one more handle *)
    assert (M1 : good (incr_opt s v) (fun e => shares_in e v + shares t e) en).
    { destruct v as [e0|]; cbn [incr_opt].
      - eapply good_ext; [| |apply (good_incr _ _ _ e0 G); eapply shares_look; exact Lg]; cbn; auto.
        intros e. rewrite (Nat.eqb_sym e e0). reflexivity.
      - exact G. }
    destruct old as [e0|]; cbn [decr_opt].
    + assert (P : 0 < shares_in e0 v + shares t e0).
      { pose proof (shares_look t h e0 Lh). lia. }
      destruct (good_decr _ _ _ e0 (good_hnd _ _ _ h (Some v) M1) P) as (s' & -> & G' & H').
      eexists. split; [reflexivity|].
      eapply (sim_intro _ _ _ _ _ _ G').
      * intros e. specialize (Sh e). cbn in Sh. rewrite (Nat.eqb_sym e e0).
        destruct (Nat.eqb e0 e); lia.
      * intros e. f_equal. unfold ended. pose proof (Sh e) as She. cbn in She.
        destruct (Nat.eqb_spec e e0) as [->|N].
        -- rewrite Nat.eqb_refl in She. cbn in She. pose proof (shares_look t h e0 Lh).
           destruct (Nat.ltb_spec 0 (shares t e0)); [|lia]. cbn.
           destruct (Nat.eqb_spec (shares_in e0 v + shares t e0) 1), (Nat.eqb_spec (shares t' e0) 0);
             try reflexivity; lia.
        -- destruct (Nat.eqb_spec e0 e); [congruence|].
           destruct (Nat.ltb_spec 0 (shares t e)); cbn; [|reflexivity].
           destruct (Nat.eqb_spec (shares t' e) 0); [lia|reflexivity].
      * intros k. rewrite H'. cbn. unfold upd. rewrite look_put, Lh. cbn.
        destruct (Nat.eqb k h); [reflexivity|]. rewrite e_hnd_incr. apply M.
      * apply keys_put, K.
    + eexists. split; [reflexivity|].
      eapply (sim_intro _ _ _ _ _ _ (good_hnd _ _ _ _ _ M1)).
      * intros e. specialize (Sh e). cbn in Sh. lia.
      * intros e. rewrite ended_mono; [lia|]. specialize (Sh e). cbn in Sh. lia.
      * intros k. cbn. unfold upd. rewrite look_put, Lh. cbn.
        destruct (Nat.eqb k h); [reflexivity|]. rewrite e_hnd_incr. apply M.
      * apply keys_put, K.
  - rewrite (m_hnd _ _ _ M h), (m_hnd _ _ _ M g).
    destruct (look (sh_h t) h) as [old|] eqn:Lh; [|discriminate].
    destruct (look (sh_h t) g) as [v|] eqn:Lg; [|discriminate].
    injection E as <-.
    assert (Hh : e_hnd (set_hnd s g (Some None)) h = Some (if Nat.eqb h g then None else old)).
    { cbn. unfold upd. destruct (Nat.eqb h g); [reflexivity|]. rewrite (m_hnd _ _ _ M h). exact Lh. }
    rewrite Hh. set (old' := if Nat.eqb h g then None else old).
    set (t' := mkSh (put (put (sh_h t) g None) h v) (sh_raw t)).
    assert (Lh' : look (put (sh_h t) g None) h = Some old').
    { rewrite look_put, Lg. unfold old'. destruct (Nat.eqb h g); [reflexivity|exact Lh]. }
    assert (Sh : forall e, shares t' e + shares_in e old' = shares t e).
    { intros e. unfold shares, t'. cbn.
      pose proof (cnt_put e _ g None v K Lg) as X. cbn in X.
      pose proof (cnt_put e _ h v old' (keys_put _ g None K) Lh') as Y. lia. }
    destruct (sim_decr s t en t' old' M (keys_put _ _ _ (keys_put _ _ _ K)) Sh) as (s' & Es & Hs & G').
    assert (Ed : exists s'', decr_opt (set_hnd (set_hnd s g (Some None)) h (Some v)) old' = Some s'' /\
      e_hnd s'' = e_hnd (set_hnd (set_hnd s g (Some None)) h (Some v)) /\
      good s'' (shares t') (fun e => en e + ended t t' e)).
    { destruct old' as [e0|].
      - assert (P : 0 < shares t e0) by (rewrite <- Sh, shares_in_1; lia).
        destruct (good_decr _ _ _ e0 (good_hnd _ _ _ h (Some v) (good_hnd _ _ _ g (Some None) G)) P)
          as (s'' & E'' & G'' & H''). exists s''. split; [exact E''|]. split; [exact H''|].
        destruct (good_decr _ _ _ e0 G P) as (s3 & E3 & G3 & _).
        cbn [decr_opt] in Es. rewrite Es in E3. injection E3 as <-.
        eapply good_ext; [| |exact G''].
        + intros e. pose proof (g_cnt _ _ _ G' e) as X. rewrite (g_cnt _ _ _ G3 e) in X. cbv beta. lia.
        + intros e. pose proof (f_equal (@length nat) (g_log _ _ _ G' e)) as X.
          rewrite (g_log _ _ _ G3 e), !seq_length in X. symmetry. exact X.
      - eexists. split; [reflexivity|]. split; [reflexivity|]. apply good_hnd, good_hnd.
        cbn in Es. injection Es as <-. exact G'. }
    destruct Ed as (s'' & -> & H'' & G''). exists s''. split; [reflexivity|].
    split; [exact G''| |apply keys_put, keys_put, K].
    intros k. rewrite H''. cbn. unfold upd. rewrite look_put, Lh'. cbn.
    destruct (Nat.eqb k h); [reflexivity|]. rewrite look_put, Lg. cbn.
    destruct (Nat.eqb k g); [reflexivity|apply M].
  - rewrite (m_hnd _ _ _ M h). destruct (look (sh_h t) h) as [v|] eqn:Lh; [|discriminate].
    injection E as <-. set (t' := mkSh (drop (sh_h t) h) (sh_raw t)).
    destruct (sim_decr s t en t' v M (keys_drop _ _ K)) as (s' & -> & H' & G').
    { intros e. unfold shares, t'. cbn. pose proof (cnt_drop e _ h v K Lh). lia. }
    eexists. split; [reflexivity|]. split; [apply good_hnd, G'| |apply keys_drop, K].
    intros k. cbn. unfold upd. rewrite look_drop, H'. destruct (Nat.eqb k h); [reflexivity|apply M].
  - contradiction.
  - rewrite (m_hnd _ _ _ M h). destruct (look (sh_h t) h) as [v|] eqn:Lh; [|discriminate].
    injection E as <-. eexists. split; [reflexivity|].
    set (t' := mkSh _ _).
    assert (Sh : forall e, shares t' e = shares t e).
    { intros e. unfold shares, t'. cbn. pose proof (cnt_put e _ h None v K Lh) as X. cbn in X. lia. }
    eapply (sim_intro _ _ _ _ _ _ (good_hnd _ _ _ _ _ G)); auto.
    + intros e. rewrite ended_mono; [lia|]. rewrite Sh. lia.
    + intros k. cbn. unfold upd. rewrite look_put, Lh. destruct (Nat.eqb k h); [reflexivity|apply M].
    + apply keys_put, K.
  - destruct (Nat.eqb_spec (sh_raw t e0) 0) as [Z|Z]; [discriminate|]. injection E as <-.
    set (t' := mkSh _ _).
    destruct (sim_decr s t en t' (Some e0) M K) as (s' & Es & H' & G').
    { intros e. unfold shares, t'. cbn. rewrite (Nat.eqb_sym e e0).
      destruct (Nat.eqb_spec e0 e) as [->|]; lia. }
    cbn [decr_opt] in Es. rewrite Es. exists s'. split; [reflexivity|].
    split; [exact G'| |exact K]. intros k. rewrite H'. apply M.
Qed.

Lemma restore_sim s t en h t1 t2 : sim s t en -> sstep t (EdRestore h) = Some t1 ->
  sstep t1 (EdRelease h) = Some t2 ->
  exists s1 s2, estep s (EdRestore h) = Some s1 /\ estep s1 (EdRelease h) = Some s2 /\
    sim s2 t2 (fun e => en e + ended t t1 e + ended t1 t2 e).
Proof.
  intros M E1 E2. pose proof (m_keys _ _ _ M) as K. cbn [estep sstep] in *.
  rewrite (m_hnd _ _ _ M h). destruct (look (sh_h t) h) as [v|] eqn:Lh; [|discriminate].
  injection E1 as <-. cbn in E2. rewrite look_put, Nat.eqb_refl, Lh in E2. cbn in E2.
  injection E2 as <-. set (t1 := mkSh (put (sh_h t) h None) (sh_raw t)).
  destruct (sim_decr s t en t1 v M (keys_put _ _ _ K)) as (s1 & E & H1 & G1).
  { intros e. unfold shares, t1. cbn. pose proof (cnt_put e _ h None v K Lh) as X. cbn in X. lia. }
  exists s1. rewrite H1, (m_hnd _ _ _ M h), Lh. eexists. split; [exact E|]. split; [reflexivity|].
  assert (L1 : look (put (sh_h t) h None) h = Some None) by (rewrite look_put, Nat.eqb_refl, Lh; reflexivity).
  set (t2 := mkSh _ _).
  assert (Sh : forall e, shares t2 e = shares t1 e).
  { intros e. unfold shares, t2, t1. cbn.
    pose proof (cnt_put e _ h None None (keys_put _ h None K) L1) as X. cbn in X.
    fold (put (put (sh_h t) h None) h None). lia. }
  split.
  - apply good_hnd. eapply good_ext; [exact Sh| |exact G1]. intros e. cbn.
    rewrite (ended_mono t1 t2); [lia|]. rewrite Sh. lia.
  - intros k. cbn. unfold upd. fold (put (put (sh_h t) h None) h None). rewrite look_put, L1, H1. cbn.
    destruct (Nat.eqb_spec k h) as [->|]; [reflexivity|]. rewrite look_put.
    apply Nat.eqb_neq in n. rewrite n. apply M.
  - apply keys_put, keys_put, K.
Qed.

Lemma paired_sim l : paired l -> forall s t en t', sim s t en -> srun t l = Some t' ->
  exists s', erun s l = Some s' /\ sim s' t' (fun e => en e + ends e t l).
Proof.
  induction 1 as [|o l Nr _ IH|h l _ IH]; intros s t en t' M E.
  - injection E as <-. exists s. split; [reflexivity|]. split; try apply M.
    eapply good_ext; [| |apply M]; cbn; intros; lia.
  - cbn [srun] in E. destruct (sstep t o) as [t1|] eqn:E1; [|discriminate].
    destruct (estep_sim s t en o t1 M Nr E1) as (s1 & Es & M1).
    destruct (IH s1 t1 _ t' M1 E) as (s' & Es' & M'). exists s'. cbn [erun ends]. rewrite Es, E1.
    split; [exact Es'|]. split; try apply M'. eapply good_ext; [| |apply M']; [auto|].
    intros e. unfold ended. lia.
  - cbn [srun] in E. destruct (sstep t (EdRestore h)) as [t1|] eqn:E1; [|discriminate].
    destruct (sstep t1 (EdRelease h)) as [t2|] eqn:E2; [|discriminate].
    destruct (restore_sim s t en h t1 t2 M E1 E2) as (s1 & s2 & Es1 & Es2 & M2).
    destruct (IH s2 t2 _ t' M2 E) as (s' & Es' & M'). exists s'. cbn [erun ends].
    rewrite Es1, Es2, E1, E2.
    split; [exact Es'|]. split; try apply M'. eapply good_ext; [| |apply M']; [auto|].
    intros e. unfold ended. lia.
Qed.

Lemma sim0 : sim est0 sst0 (fun _ => 0).
Proof. split; [split; reflexivity|reflexivity|constructor]. Qed.

Lemma edit_paired l t : paired l -> srun sst0 l = Some t ->
  exists s, erun est0 l = Some s /\ forall e,
    ran e (e_log s) = seq 0 (ends e sst0 l) /\
    (e_fun s e <> None <-> 0 < shares t e).
Proof.
  intros P E. destruct (paired_sim l P est0 sst0 _ t sim0 E) as (s & Es & M). exists s.
  split; [exact Es|]. intros e. split.
  - rewrite (g_log _ _ _ (m_good _ _ _ M)). reflexivity.
  - rewrite (g_fun _ _ _ (m_good _ _ _ M)).
    destruct (Nat.eqb_spec (shares t e) 0); split; intros; try lia; congruence || discriminate.
Qed.

Lemma paired_no_restore l : Forall no_restore l -> paired l.
Proof. induction 1; constructor; auto. Qed.

Lemma edit_correct l t : Forall no_restore l -> srun sst0 l = Some t ->
  exists s, erun est0 l = Some s /\ forall e,
    ran e (e_log s) = seq 0 (ends e sst0 l) /\
    (e_fun s e <> None <-> 0 < shares t e).
Proof. intros H. apply edit_paired, paired_no_restore, H. Qed.
