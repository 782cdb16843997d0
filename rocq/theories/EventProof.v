(** Lemmas about EventModel. *)
From Coq Require Import List ZArith Bool Arith Lia Permutation Sorting.Sorted.
From Verif Require Import ContModel ContSpec ContProof MapProof OMap FRefModel FRefProof
  EventModel EventSpec Assoc.
Import ListNotations.
Local Open Scope nat_scope.

(** Entries of a map as a multiset. *)
Lemma mentries_NoDup {V} (m : smap Z V) : mok Z.ltb m -> NoDup (m_entries m).
Proof.
  intros G. apply NoDup_map_inv with (f := fst). rewrite <- (mkeys Z.ltb zEQ m G).
  apply (mkeys_NoDup Z.ltb zltb_swo m G).
Qed.
Lemma perm_insert {V} (m : smap Z V) k v : mok Z.ltb m -> mget Z.ltb m k = None ->
  Permutation (m_entries (fst (map_insert Z.ltb m k v))) ((k, v) :: m_entries m).
Proof.
  intros G N. pose proof (mok_insert Z.ltb zltb_swo m k v G) as G'.
  assert (Nk : forall w, ~ In (k, w) (m_entries m)).
  { intros w H. apply (mget_In Z.ltb zltb_swo zEQ m k w G) in H. congruence. }
  apply NoDup_Permutation.
  - apply mentries_NoDup, G'.
  - constructor; [apply Nk|apply mentries_NoDup, G].
  - intros [x w]. rewrite (mget_In Z.ltb zltb_swo zEQ _ x w G'), (mget_insert Z.ltb zltb_swo m k v x G), zkq.
    cbn [In]. rewrite (mget_In Z.ltb zltb_swo zEQ m x w G).
    destruct (Z.eqb_spec x k) as [->|Ne].
    + split; [intros [= ->]; auto|]. intros [[= ->]|H]; congruence.
    + split; [auto|]. intros [[= -> _]|H]; [congruence|exact H].
Qed.
Lemma perm_erase {V} (m : smap Z V) k v : mok Z.ltb m -> mget Z.ltb m k = Some v ->
  Permutation (m_entries m) ((k, v) :: m_entries (map_erase Z.ltb m k)).
Proof.
  intros G E. pose proof (mok_erase Z.ltb zltb_swo m k G) as G'.
  apply NoDup_Permutation.
  - apply mentries_NoDup, G.
  - constructor; [|apply mentries_NoDup, G'].
    rewrite (mget_In Z.ltb zltb_swo zEQ _ k v G'), (mget_erase Z.ltb zltb_swo m k k G), zkq, Z.eqb_refl.
    discriminate.
  - intros [x w]. cbn [In].
    rewrite (mget_In Z.ltb zltb_swo zEQ _ x w G'), (mget_erase Z.ltb zltb_swo m k x G), zkq,
      (mget_In Z.ltb zltb_swo zEQ m x w G).
    destruct (Z.eqb_spec x k) as [->|Ne].
    + rewrite E. split; [intros [= ->]; auto|]. intros [[= ->]|H]; congruence.
    + split; [auto|]. intros [[= -> _]|H]; [congruence|exact H].
Qed.

(** What a handle holds: event, function and listener ID. *)
Definition gh : Type := option (nat * nat * Z).
Definition to_spec (v : gh) : option (nat * nat) := option_map fst v.
Definition to_model (v : gh) : option (nat * Z) := option_map (fun p => (fst (fst p), snd p)) v.
Definition gent (e : nat) (v : gh) : list (Z * nat) :=
  match v with Some (e', f, id) => if Nat.eqb e' e then [(id, f)] else [] | None => [] end.

Record vrel (s : vst) (t : lst) (g : list (nat * gh)) : Prop := {
  vr_spec : l_h t = map (fun p => (fst p, to_spec (snd p))) g;
  vr_model : forall h, v_h s h = option_map to_model (aget g h);
  vr_nd : akeys_nd g;
  vr_id : forall h e f id, aget g h = Some (Some (e, f, id)) -> (0 <= id)%Z;
  vr_ev : forall e, match v_ev s e with
                    | Some m => exists_ev t e = true /\ mok Z.ltb m /\
                                Permutation (m_entries m) (contents (gent e) g)
                    | None => exists_ev t e = false end;
  vr_gone : forall e, v_gone s e = existsb (Nat.eqb e) (l_gone t);
  vr_old : forall h e f id, aget g h = Some (Some (e, f, id)) -> exists_ev t e = true \/ v_gone s e = true;
  vr_log : Forall2 (fun a b => fst a = fst b /\ Permutation (snd a) (snd b)) (v_log s) (l_log t) }.

Lemma contents_attached e g t : l_h t = map (fun p => (fst p, to_spec (snd p))) g ->
  map snd (contents (gent e) g) = attached t e.
Proof.
  intros H. unfold attached. rewrite H. clear H.
  induction g as [|[k [[[e' f] id]|]] g IH]; cbn; [reflexivity| |exact IH].
  rewrite map_app. fold (contents (gent e) g). rewrite IH. destruct (Nat.eqb e' e); reflexivity.
Qed.

Lemma contents_In e g x f : akeys_nd g -> In (x, f) (contents (gent e) g) ->
  exists h, aget g h = Some (Some (e, f, x)).
Proof.
  intros K H. apply in_flat_map in H. destruct H as ([h v] & Hi & Hx). cbn in Hx.
  destruct v as [[[e' f'] id]|]; cbn in Hx; [|contradiction].
  destruct (Nat.eqb_spec e' e) as [->|]; [|contradiction]. destruct Hx as [[= -> ->]|[]].
  exists h. apply In_aget; assumption.
Qed.

(** A map of event [e] is coherent with a ghost list and spare entries [extra]. *)
Lemma removed s g e f id m rest :
  v_ev s e = Some m -> mok Z.ltb m -> Permutation (m_entries m) ((id, f) :: rest) -> (0 <= id)%Z ->
  exists m', remove s (Some (e, id)) = Some (mkV (upd (v_ev s) e (Some m')) (v_gone s) (v_h s) (v_log s)) /\
  mok Z.ltb m' /\ Permutation (m_entries m') rest /\ (g : list (nat * gh)) = g.
Proof.
  intros E G P Hp. unfold remove. apply Z.leb_le in Hp. rewrite Hp, E.
  exists (map_erase Z.ltb m id). split; [reflexivity|].
  split; [apply (mok_erase Z.ltb zltb_swo m id G)|]. split; [|reflexivity].
  - apply Permutation_cons_inv with (a := (id, f)). rewrite <- P. symmetry. apply perm_erase; [exact G|].
    apply (mget_In Z.ltb zltb_swo zEQ m id f G). rewrite P. left. reflexivity.
Qed.

Lemma exists_ev_cons t e e' gone hs lg :
  exists_ev (mkL (e :: l_ev t) gone hs lg) e' = Nat.eqb e' e || exists_ev t e'.
Proof. reflexivity. Qed.
Lemma exists_ev_filter t e e' gone hs lg :
  exists_ev (mkL (filter (fun x => negb (Nat.eqb e x)) (l_ev t)) gone hs lg) e' =
  negb (Nat.eqb e' e) && exists_ev t e'.
Proof.
  unfold exists_ev. cbn. induction (l_ev t) as [|x l IH]; cbn; [rewrite andb_false_r; reflexivity|].
  destruct (Nat.eqb_spec e x) as [->|N]; cbn; rewrite IH.
  - destruct (Nat.eqb e' x); reflexivity.
  - destruct (Nat.eqb_spec e' x) as [->|]; cbn; [|reflexivity].
    destruct (Nat.eqb_spec x e); [congruence|reflexivity].
Qed.

Lemma spec_get s t g h : vrel s t g -> aget (l_h t) h = option_map to_spec (aget g h).
Proof. intros R. rewrite (vr_spec _ _ _ R). apply aget_map. Qed.

Lemma vrel0 : vrel vst0 lst0 [].
Proof.
  constructor; cbn; auto; try discriminate; try (intros; discriminate).
  constructor.
Qed.

Lemma ev_alive s t g e : vrel s t g -> exists_ev t e = true ->
  exists m, v_ev s e = Some m /\ mok Z.ltb m /\ Permutation (m_entries m) (contents (gent e) g).
Proof.
  intros R H. pose proof (vr_ev _ _ _ R e) as X. destruct (v_ev s e) as [m|]; [|congruence].
  exists m. tauto.
Qed.

Lemma gent_same e f id : gent e (Some (e, f, id)) = [(id, f)].
Proof. cbn. rewrite Nat.eqb_refl. reflexivity. Qed.
Lemma gent_other e e' f id : e' <> e -> gent e (Some (e', f, id)) = [].
Proof. intros N. cbn. destruct (Nat.eqb_spec e' e); [congruence|reflexivity]. Qed.

(** [remove] of a value no longer held by a variable. *)
Definition maps_ok (ev : nat -> option (smap Z nat)) (t : lst) (c : nat -> list (Z * nat)) : Prop :=
  forall e, match ev e with
            | Some m => exists_ev t e = true /\ mok Z.ltb m /\ Permutation (m_entries m) (c e)
            | None => exists_ev t e = false end.

Lemma remove_ok s t (v : gh) c :
  maps_ok (v_ev s) t (fun e => gent e v ++ c e) ->
  (forall e f id, v = Some (e, f, id) -> (0 <= id)%Z) ->
  detachable t (to_spec v) = true ->
  exists ev', remove s (to_model v) = Some (mkV ev' (v_gone s) (v_h s) (v_log s)) /\ maps_ok ev' t c.
Proof.
  intros M Hp D. destruct v as [[[e f] id]|]; cbn [to_model to_spec option_map fst snd] in *.
  - cbn in D. specialize (Hp e f id eq_refl). pose proof (M e) as Me.
    destruct (v_ev s e) as [m|] eqn:E; [|congruence]. destruct Me as (_ & G & P).
    rewrite gent_same in P. cbn [app] in P.
    destruct (removed s [] e f id m (c e) E G P Hp) as (m' & -> & G' & P' & _).
    eexists. split; [reflexivity|]. intros e'. unfold upd. destruct (Nat.eqb_spec e' e) as [Ee|N].
    + subst e'. auto.
    + specialize (M e'). cbv beta in M. rewrite (gent_other e' e f id) in M by auto. exact M.
  - exists (v_ev s). split; [destruct s; reflexivity|]. exact M.
Qed.

Lemma maps_ok_perm ev t t' c c' : maps_ok ev t c -> l_ev t = l_ev t' ->
  (forall e, Permutation (c e) (c' e)) -> maps_ok ev t' c'.
Proof.
  intros M E P e. specialize (M e). unfold exists_ev in *. rewrite <- E. destruct (ev e) as [m|]; [|exact M].
  destruct M as (A & B & C). split; [exact A|]. split; [exact B|]. rewrite C. apply P.
Qed.

Lemma add_ok s t g e p : vrel s t g -> exists_ev t e = true ->
  exists ev' id, add_listener s e p = Some (mkV ev' (v_gone s) (v_h s) (v_log s), (e, id)) /\ (0 <= id)%Z /\
  maps_ok ev' t (fun x => gent x (Some (e, p, id)) ++ contents (gent x) g).
Proof.
  intros R H. destruct (ev_alive _ _ _ _ R H) as (m & E & G & P). unfold add_listener. rewrite E.
  destruct (next_id_map m G) as (Hn & Hf).
  { intros k Hk. destruct (mget Z.ltb m k) as [f|] eqn:Ek; [|congruence].
    apply (mget_In Z.ltb zltb_swo zEQ m k f G) in Ek. rewrite P in Ek.
    destruct (contents_In _ _ _ _ (vr_nd _ _ _ R) Ek) as (h & Hh). exact (vr_id _ _ _ R _ _ _ _ Hh). }
  eexists _, _. split; [reflexivity|]. split; [exact Hn|]. intros x. unfold upd.
  destruct (Nat.eqb_spec x e) as [Ex|N].
  - subst x. rewrite gent_same. split; [exact H|]. split; [apply (mok_insert Z.ltb zltb_swo m _ _ G)|].
    rewrite (perm_insert m _ p G Hf), P. reflexivity.
  - rewrite gent_other by auto. cbn [app]. exact (vr_ev _ _ _ R x).
Qed.

Lemma maps_of s t g : vrel s t g -> maps_ok (v_ev s) t (fun e => contents (gent e) g).
Proof. intros R e. apply (vr_ev _ _ _ R). Qed.

(** Rebuilding the relation after a change of handles and maps only. *)
Lemma rebuild s t g ev' hs' lh' g' : vrel s t g ->
  lh' = map (fun p => (fst p, to_spec (snd p))) g' ->
  (forall h, hs' h = option_map to_model (aget g' h)) -> akeys_nd g' ->
  (forall h e f id, aget g' h = Some (Some (e, f, id)) ->
     ((0 <= id)%Z /\ exists_ev t e = true) \/ exists h0, aget g h0 = Some (Some (e, f, id))) ->
  maps_ok ev' t (fun e => contents (gent e) g') ->
  vrel (mkV ev' (v_gone s) hs' (v_log s)) (mkL (l_ev t) (l_gone t) lh' (l_log t)) g'.
Proof.
  intros R A B C D E. constructor; cbn [v_ev v_gone v_h v_log l_ev l_gone l_h l_log].
  - exact A.
  - exact B.
  - exact C.
  - intros h e f id H. destruct (D _ _ _ _ H) as [[X _]|[h0 X]]; [exact X|]. exact (vr_id _ _ _ R _ _ _ _ X).
  - intros e. exact (E e).
  - exact (vr_gone _ _ _ R).
  - intros h e f id H. destruct (D _ _ _ _ H) as [[_ X]|[h0 X]]; [left; exact X|].
    exact (vr_old _ _ _ R _ _ _ _ X).
  - exact (vr_log _ _ _ R).
Qed.

Lemma model_upd hs g h v : (forall x, hs x = option_map to_model (aget g x)) -> aget g h <> None ->
  forall x, upd hs h (Some (to_model v)) x = option_map to_model (aget (aput g h v) x).
Proof.
  intros H N x. unfold upd. rewrite aget_aput. destruct (Nat.eqb x h); [|apply H].
  destruct (aget g h); [reflexivity|congruence].
Qed.
Lemma model_new hs g h v : (forall x, hs x = option_map to_model (aget g x)) ->
  forall x, upd hs h (Some (to_model v)) x = option_map to_model (aget ((h, v) :: g) x).
Proof.
  intros H x. unfold upd. cbn. rewrite (Nat.eqb_sym h x). destruct (Nat.eqb x h); [reflexivity|apply H].
Qed.
Lemma model_drop hs g h : (forall x, hs x = option_map to_model (aget g x)) ->
  forall x, upd hs h None x = option_map to_model (aget (adrop g h) x).
Proof. intros H x. unfold upd. rewrite aget_adrop. destruct (Nat.eqb x h); [reflexivity|apply H]. Qed.

Lemma vstep_ok s t g o t' : vrel s t g -> lstep t o = Some t' ->
  exists s' g', vstep s o = Some s' /\ vrel s' t' g'.
Proof.
  intros R H. pose proof (vr_nd _ _ _ R) as K. pose proof (vr_model _ _ _ R) as HM.
  pose proof (vr_spec _ _ _ R) as HS.
  destruct o as [e|e|e|h e p|h e p|h|h g0|h g0|h|h]; cbn [lstep vstep] in *.
  - (* VEvent *)
    destruct (exists_ev t e) eqn:Ee; cbn [orb] in H; [discriminate|].
    destruct (existsb (Nat.eqb e) (l_gone t)) eqn:Eg; [discriminate|]. injection H as <-.
    pose proof (vr_ev _ _ _ R e) as X. rewrite Ee in X. destruct (v_ev s e); [destruct X; discriminate|].
    rewrite (vr_gone _ _ _ R e), Eg. eexists _, g. split; [reflexivity|].
    constructor; cbn [v_ev v_gone v_h v_log l_ev l_gone l_h l_log]; try apply R.
    + intros x. rewrite exists_ev_cons. unfold upd. destruct (Nat.eqb_spec x e) as [Ex|N].
      * subst x. cbn. split; [reflexivity|]. split; [apply mok_empty|].
        replace (contents (gent e) g) with (@nil (Z * nat)); [reflexivity|].
        symmetry. destruct (contents (gent e) g) as [|[i f] r] eqn:Ec; [reflexivity|]. exfalso.
        destruct (contents_In e g i f K) as (h & Hh); [rewrite Ec; left; reflexivity|].
        destruct (vr_old _ _ _ R _ _ _ _ Hh) as [Y|Y]; [congruence|]. rewrite (vr_gone _ _ _ R) in Y. congruence.
      * cbn. exact (vr_ev _ _ _ R x).
    + intros h x f id Hh. rewrite exists_ev_cons. destruct (vr_old _ _ _ R _ _ _ _ Hh) as [Y|Y]; [|auto].
      rewrite Y, orb_true_r. auto.
  - (* VEventDestroy *)
    destruct (exists_ev t e) eqn:Ee; [|discriminate]. injection H as <-.
    destruct (ev_alive _ _ _ _ R Ee) as (m & Em & _). rewrite Em. eexists _, g. split; [reflexivity|].
    constructor; cbn [v_ev v_gone v_h v_log l_ev l_gone l_h l_log]; try apply R.
    + intros x. rewrite exists_ev_filter. unfold upd. destruct (Nat.eqb_spec x e) as [Ex|N]; cbn.
      * reflexivity.
      * exact (vr_ev _ _ _ R x).
    + intros x. unfold upd. cbn. destruct (Nat.eqb x e); cbn; [reflexivity|apply R].
    + intros h x f id Hh. rewrite exists_ev_filter. unfold upd. destruct (Nat.eqb_spec x e) as [Ex|N]; cbn; [auto|].
      exact (vr_old _ _ _ R _ _ _ _ Hh).
  - (* VTrigger *)
    destruct (exists_ev t e) eqn:Ee; [|discriminate]. injection H as <-.
    destruct (ev_alive _ _ _ _ R Ee) as (m & Em & G & P). rewrite Em. eexists _, g. split; [reflexivity|].
    constructor; cbn [v_ev v_gone v_h v_log l_ev l_gone l_h l_log]; try apply R.
    apply Forall2_app; [apply R|]. constructor; [|constructor]. cbn. split; [reflexivity|].
    rewrite <- (contents_attached e g t HS). apply Permutation_map, P.
  - (* VAdd *)
    rewrite (spec_get _ _ _ h R) in H. destruct (aget g h) as [v|] eqn:Eh; [discriminate|]. cbn in H.
    destruct (exists_ev t e) eqn:Ee; [|discriminate]. injection H as <-.
    rewrite HM, Eh. cbn [option_map]. destruct (add_ok s t g e p R Ee) as (ev' & id & -> & Hp & M).
    eexists _, ((h, Some (e, p, id)) :: g). split; [reflexivity|].
    unfold set_h. cbn [v_ev v_gone v_h v_log]. apply (rebuild s t g); [exact R| | | | |].
    + rewrite HS. reflexivity.
    + exact (model_new _ _ h (Some (e, p, id)) HM).
    + apply akeys_cons; assumption.
    + intros x a f i. cbn. destruct (Nat.eqb h x); [|right; eauto]. intros [= -> -> ->]. auto.
    + exact M.
  - (* VAddAssign *)
    rewrite (spec_get _ _ _ h R) in H. destruct (aget g h) as [v|] eqn:Eh; [|discriminate]. cbn [option_map] in H.
    destruct (exists_ev t e) eqn:Ee; [|discriminate]. destruct (detachable t (to_spec v)) eqn:Ed; [|discriminate].
    injection H as <-.
    rewrite HM, Eh. cbn [option_map]. destruct (add_ok s t g e p R Ee) as (ev' & id & -> & Hp & M).
    set (g' := aput g h (Some (e, p, id))).
    edestruct (remove_ok (set_h (mkV ev' (v_gone s) (v_h s) (v_log s)) h (Some (Some (e, id)))) t v
                 (fun x => contents (gent x) g')) as (ev2 & E2 & M2).
    + unfold set_h. cbn [v_ev]. refine (maps_ok_perm _ t t _ _ M eq_refl _). intros x. cbv beta.
      unfold g'. symmetry. apply contents_aput; assumption.
    + intros a f i ->. exact (vr_id _ _ _ R _ _ _ _ Eh).
    + exact Ed.
    + rewrite E2. eexists _, g'. split; [reflexivity|]. unfold set_h. cbn [v_ev v_gone v_h v_log].
      apply (rebuild s t g); [exact R| | | | |].
      * rewrite HS. unfold g'. rewrite <- aput_map. reflexivity.
      * apply (model_upd _ _ h (Some (e, p, id)) HM). congruence.
      * apply akeys_aput, K.
      * intros x a f i. unfold g'. rewrite aget_aput. destruct (Nat.eqb x h); [|right; eauto].
        rewrite Eh. cbn. intros [= -> -> ->]. auto.
      * exact M2.
  - (* VNew *)
    rewrite (spec_get _ _ _ h R) in H. destruct (aget g h) as [v|] eqn:Eh; [discriminate|]. injection H as <-.
    rewrite HM, Eh. cbn [option_map]. eexists _, ((h, None) :: g). split; [reflexivity|]. unfold set_h.
    apply (rebuild s t g); [exact R| | | | |].
    + rewrite HS. reflexivity.
    + exact (model_new _ _ h None HM).
    + apply akeys_cons; assumption.
    + intros x a f i. cbn. destruct (Nat.eqb h x); [discriminate|right; eauto].
    + exact (maps_of _ _ _ R).
  - (* VMoveNew *)
    rewrite !(spec_get _ _ _ _ R) in H. destruct (aget g h) as [|] eqn:Eh; [discriminate|].
    destruct (aget g g0) as [v|] eqn:Eg; [|discriminate]. injection H as <-.
    assert (N : h <> g0) by congruence.
    rewrite !HM, Eh, Eg. cbn [option_map]. eexists _, ((h, v) :: aput g g0 None). split; [reflexivity|].
    unfold set_h. cbn [v_ev v_gone v_h v_log]. apply (rebuild s t g); [exact R| | | | |].
    + rewrite HS. cbn. rewrite <- aput_map. reflexivity.
    + intros x. unfold upd. cbn. rewrite aget_aput, Eg. cbn.
      rewrite (Nat.eqb_sym h x). destruct (Nat.eqb_spec x g0) as [Ex|Nx]; [subst x|].
      * destruct (Nat.eqb_spec g0 h); [congruence|reflexivity].
      * destruct (Nat.eqb x h); [reflexivity|apply HM].
    + apply akeys_cons; [apply akeys_aput, K|]. rewrite aget_aput.
      destruct (Nat.eqb_spec h g0); [congruence|exact Eh].
    + intros x a f i. cbn. destruct (Nat.eqb h x).
      * intros [= ->]. right. eauto.
      * rewrite aget_aput, Eg. destruct (Nat.eqb x g0); [discriminate|]. right. eauto.
    + refine (maps_ok_perm _ t t _ _ (maps_of _ _ _ R) eq_refl _). intros x. cbv beta.
      cbn. fold (contents (gent x) (aput g g0 None)). symmetry.
      exact (contents_aput (gent x) g g0 None v K Eg).
  - (* VMoveAssign *)
    rewrite !(spec_get _ _ _ _ R) in H. destruct (aget g h) as [old|] eqn:Eh; [|discriminate].
    destruct (aget g g0) as [v|] eqn:Eg; [|discriminate]. cbn [option_map] in H.
    rewrite !HM, Eh, Eg. cbn [option_map]. cbv zeta.
    destruct (Nat.eqb_spec h g0) as [E0|N].
    + (* self: the variable is emptied into the parameter and filled again *)
      subst g0. injection H as <-. change (v_h (set_h s h (Some None)) h) with (upd (v_h s) h (Some None) h).
      rewrite upd_same. cbn [remove].
      eexists _, g. split; [reflexivity|]. unfold set_h. cbn [v_ev v_gone v_h v_log].
      replace t with (mkL (l_ev t) (l_gone t) (l_h t) (l_log t)) by (destruct t; reflexivity).
      apply (rebuild s t g); [exact R|exact HS| |exact K| |exact (maps_of _ _ _ R)].
      * intros x. unfold upd. destruct (Nat.eqb_spec x h) as [Ex|]; [subst x|apply HM].
        rewrite Eg. reflexivity.
      * right. eauto.
    + destruct (detachable t (to_spec old)) eqn:Ed; [|discriminate]. injection H as <-.
      change (v_h (set_h s g0 (Some None)) h) with (upd (v_h s) g0 (Some None) h).
      rewrite upd_other by exact N. rewrite HM, Eh. cbn [option_map].
      set (g' := aput (aput g g0 None) h v).
      assert (Eh' : aget (aput g g0 None) h = Some old).
      { rewrite aget_aput. destruct (Nat.eqb_spec h g0); [congruence|exact Eh]. }
      edestruct (remove_ok (set_h (set_h s g0 (Some None)) h (Some (to_model v))) t old
                 (fun x => contents (gent x) g')) as (ev2 & E2 & M2).
      * unfold set_h. cbn [v_ev]. refine (maps_ok_perm _ t t _ _ (maps_of _ _ _ R) eq_refl _). intros x. cbv beta.
        unfold g'. rewrite (contents_aput (gent x) _ h v old (akeys_aput _ _ _ K) Eh').
        symmetry. exact (contents_aput (gent x) g g0 None v K Eg).
      * intros a f i ->. exact (vr_id _ _ _ R _ _ _ _ Eh).
      * exact Ed.
      * rewrite E2. eexists _, g'. split; [reflexivity|]. unfold set_h. cbn [v_ev v_gone v_h v_log].
        apply (rebuild s t g); [exact R| | | | |].
        -- rewrite HS. unfold g'. rewrite <- !aput_map. reflexivity.
        -- apply (model_upd _ (aput g g0 None) h v); [|congruence].
           apply (model_upd _ g g0 None HM). congruence.
        -- apply akeys_aput, akeys_aput, K.
        -- intros x a f i. unfold g'. rewrite aget_aput. destruct (Nat.eqb x h).
           ++ rewrite Eh'. cbn. intros [= ->]. right. eauto.
           ++ rewrite aget_aput, Eg. destruct (Nat.eqb x g0); [discriminate|right; eauto].
        -- exact M2.
  - (* VReset *)
    rewrite (spec_get _ _ _ h R) in H. destruct (aget g h) as [v|] eqn:Eh; [|discriminate]. cbn [option_map] in H.
    destruct (detachable t (to_spec v)) eqn:Ed; [|discriminate]. injection H as <-.
    rewrite HM, Eh. cbn [option_map].
    edestruct (remove_ok s t v (fun x => contents (gent x) (aput g h None))) as (ev2 & -> & M2).
    + refine (maps_ok_perm _ t t _ _ (maps_of _ _ _ R) eq_refl _). intros x. cbv beta.
      symmetry. exact (contents_aput (gent x) g h None v K Eh).
    + intros a f i ->. exact (vr_id _ _ _ R _ _ _ _ Eh).
    + exact Ed.
    + eexists _, (aput g h None). split; [reflexivity|]. unfold set_h. cbn [v_ev v_gone v_h v_log].
      apply (rebuild s t g); [exact R| | | | |exact M2].
      * rewrite HS. rewrite <- aput_map. reflexivity.
      * apply (model_upd _ g h None HM). congruence.
      * apply akeys_aput, K.
      * intros x a f i. rewrite aget_aput, Eh. destruct (Nat.eqb x h); [discriminate|right; eauto].
  - (* VDestroy *)
    rewrite (spec_get _ _ _ h R) in H. destruct (aget g h) as [v|] eqn:Eh; [|discriminate]. cbn [option_map] in H.
    destruct (detachable t (to_spec v)) eqn:Ed; [|discriminate]. injection H as <-.
    rewrite HM, Eh. cbn [option_map].
    edestruct (remove_ok s t v (fun x => contents (gent x) (adrop g h))) as (ev2 & -> & M2).
    + refine (maps_ok_perm _ t t _ _ (maps_of _ _ _ R) eq_refl _). intros x. cbv beta.
      exact (contents_adrop (gent x) g h v K Eh).
    + intros a f i ->. exact (vr_id _ _ _ R _ _ _ _ Eh).
    + exact Ed.
    + eexists _, (adrop g h). split; [reflexivity|]. unfold set_h. cbn [v_ev v_gone v_h v_log].
      apply (rebuild s t g); [exact R| | | | |exact M2].
      * rewrite HS. rewrite <- adrop_map. reflexivity.
      * apply (model_drop _ g h HM).
      * apply akeys_adrop, K.
      * intros x a f i. rewrite aget_adrop. destruct (Nat.eqb x h); [discriminate|right; eauto].
Qed.

Lemma vrun_ok l : forall s t g t', vrel s t g -> lrun t l = Some t' ->
  exists s' g', vrun s l = Some s' /\ vrel s' t' g'.
Proof.
  induction l as [|o l IH]; intros s t g t' R H; cbn in *.
  - injection H as <-. eauto.
  - destruct (lstep t o) as [t1|] eqn:E; [|discriminate].
    destruct (vstep_ok _ _ _ _ _ R E) as (s1 & g1 & -> & R1). exact (IH _ _ _ _ R1 H).
Qed.

Lemma events_correct l t : lrun lst0 l = Some t ->
  exists s, vrun vst0 l = Some s /\
  Forall2 (fun a b => fst a = fst b /\ Permutation (snd a) (snd b)) (v_log s) (l_log t).
Proof.
  intros H. destruct (vrun_ok _ _ _ _ _ vrel0 H) as (s & g & E & R). exists s. split; [exact E|apply R].
Qed.
