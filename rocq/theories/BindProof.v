(** Lemmas about BindModel. *)
From Coq Require Import List ZArith Bool Arith Lia Permutation Sorting.Sorted.
From Verif Require Import ContModel ContSpec ContProof MapProof OMap FRefModel EventProof BindModel BindSpec.
Import ListNotations.
Local Open Scope nat_scope.

Record binv (s : bst) : Prop := {
  bi_ok : mok Z.ltb (b_ls s);
  bi_on : forall h o, In (h, o) (m_entries (b_ls s)) <-> exists cs, b_on s o = Some (h, cs);
  bi_id : forall h o, In (h, o) (m_entries (b_ls s)) -> (0 <= h)%Z }.

Lemma entry_get (m : smap Z nat) h o : mok Z.ltb m -> (In (h, o) (m_entries m) <-> mget Z.ltb m h = Some o).
Proof. intros G. apply (mget_In Z.ltb zltb_swo zEQ m h o G). Qed.

Lemma binv0 : binv bst0.
Proof.
  constructor; cbn.
  - apply mok_empty.
  - intros h o. split; [tauto|]. intros (cs & H). discriminate.
  - tauto.
Qed.

Lemma unbind_ok s o s' : binv s -> unbind s o = Some s' ->
  binv s' /\ b_comps s' = b_comps s /\ (forall x, b_on s' x = if Nat.eqb x o then None else b_on s x) /\
  length (m_entries (b_ls s)) = S (length (m_entries (b_ls s'))).
Proof.
  intros I H. unfold unbind in H. destruct (b_on s o) as [[h cs]|] eqn:E; [|discriminate].
  injection H as <-. cbn [b_ls b_on b_comps].
  assert (Hin : In (h, o) (m_entries (b_ls s))) by (apply (bi_on _ I); eauto).
  pose proof (bi_ok _ I) as G.
  pose proof (mok_erase Z.ltb zltb_swo (b_ls s) h G) as G'.
  assert (Hg : mget Z.ltb (b_ls s) h = Some o) by (apply entry_get; auto).
  assert (Hmem : forall k p, In (k, p) (m_entries (map_erase Z.ltb (b_ls s) h)) <->
                 In (k, p) (m_entries (b_ls s)) /\ k <> h).
  { intros k p. rewrite (entry_get _ k p G'), (entry_get _ k p G).
    rewrite (mget_erase Z.ltb zltb_swo _ h k G), zkq.
    destruct (Z.eqb_spec k h); [split; [discriminate|tauto]|tauto]. }
  split; [constructor; cbn [b_ls b_on]|split; [reflexivity|split; [intros x; reflexivity|]]].
  - exact G'.
  - intros k p. rewrite Hmem, (bi_on _ I). unfold upd. destruct (Nat.eqb_spec p o) as [->|N].
    + split; [|intros (c & Hc); discriminate]. intros ((c & Hc) & Nk). congruence.
    + split; [tauto|]. intros (c & Hc). split; [eauto|]. intros ->.
      assert (In (h, p) (m_entries (b_ls s))) as Hp by (apply (bi_on _ I); eauto).
      apply (entry_get _ h p G) in Hp. congruence.
  - intros k p Hk. apply Hmem in Hk. apply (bi_id _ I k p). tauto.
  - pose proof (perm_erase (b_ls s) h o G Hg) as P. apply Permutation_length in P. exact P.
Qed.

Lemma unbind_def s o h : binv s -> In (h, o) (m_entries (b_ls s)) -> exists s', unbind s o = Some s'.
Proof. intros I H. apply (bi_on _ I) in H. destruct H as (cs & E). unfold unbind. rewrite E. eauto. Qed.

(** Too few entries left: the loop reaches one that is gone. *)
Lemma trigger_short c : forall k i s, binv s -> length (m_entries (b_ls s)) < i + k -> i <= length (m_entries (b_ls s)) + 1 ->
  (k = 0 -> False) -> trigger_from c i k s = None.
Proof.
  induction k as [|k IH]; intros i s I L _ K; [elim (K eq_refl)|]. clear K. cbn [trigger_from].
  destruct (nth_error (m_entries (b_ls s)) i) as [[h o]|] eqn:E; [|reflexivity].
  assert (Hi : i < length (m_entries (b_ls s))) by (apply nth_error_Some; congruence).
  destruct (bound_to s c o).
  - destruct (unbind s o) as [s'|] eqn:U; [|reflexivity].
    destruct (unbind_ok s o s' I U) as (I' & _ & _ & Le). apply IH; auto; lia.
  - apply IH; auto; lia.
Qed.

Lemma trigger_quiet c s : forall k i, i + k = length (m_entries (b_ls s)) ->
  (forall j h o, i <= j -> nth_error (m_entries (b_ls s)) j = Some (h, o) -> bound_to s c o = false) ->
  trigger_from c i k s = Some s.
Proof.
  induction k as [|k IH]; intros i L Q; [reflexivity|]. cbn [trigger_from].
  destruct (nth_error (m_entries (b_ls s)) i) as [[h o]|] eqn:E.
  - rewrite (Q i h o (Nat.le_refl i) E). apply IH; [lia|]. intros j h' o' Hj. apply Q. lia.
  - apply nth_error_None in E. lia.
Qed.

Lemma trigger_case c s : binv s -> forall k i, i + k = length (m_entries (b_ls s)) ->
  match trigger_from c i k s with
  | Some s' => (s' = s /\ forall j h o, i <= j -> nth_error (m_entries (b_ls s)) j = Some (h, o) -> bound_to s c o = false) \/
      exists h o, nth_error (m_entries (b_ls s)) (length (m_entries (b_ls s)) - 1) = Some (h, o) /\
        bound_to s c o = true /\ unbind s o = Some s' /\
        forall j h' o', i <= j < length (m_entries (b_ls s)) - 1 -> nth_error (m_entries (b_ls s)) j = Some (h', o') ->
          bound_to s c o' = false
  | None => exists j h o, i <= j < length (m_entries (b_ls s)) - 1 /\
      nth_error (m_entries (b_ls s)) j = Some (h, o) /\ bound_to s c o = true
  end.
Proof.
  intros I. induction k as [|k IH]; intros i L.
  - cbn [trigger_from]. left. split; [reflexivity|]. intros j h o Hj E.
    assert (nth_error (m_entries (b_ls s)) j <> None) by congruence. apply nth_error_Some in H. lia.
  - cbn [trigger_from]. destruct (nth_error (m_entries (b_ls s)) i) as [[h o]|] eqn:E.
    2: { apply nth_error_None in E. lia. }
    destruct (bound_to s c o) eqn:B.
    + destruct (unbind_def s o h I (nth_error_In _ _ E)) as (s1 & U). rewrite U.
      destruct (unbind_ok s o s1 I U) as (I1 & _ & _ & L1).
      destruct k as [|k].
      * cbn [trigger_from]. right. exists h, o. replace (length (m_entries (b_ls s)) - 1) with i by lia.
        split; [exact E|]. split; [exact B|]. split; [exact U|]. intros; lia.
      * rewrite trigger_short; [|exact I1|lia|lia|discriminate].
        exists i, h, o. split; [lia|]. auto.
    + specialize (IH (S i) ltac:(lia)). destruct (trigger_from c (S i) k s) as [s'|].
      * destruct IH as [(-> & Q)|(h1 & o1 & E1 & B1 & U1 & Q)].
        -- left. split; [reflexivity|]. intros j h' o' Hj Ej.
           destruct (Nat.eq_dec j i) as [->|]; [congruence|]. apply (Q j h' o'); [lia|exact Ej].
        -- right. exists h1, o1. split; [exact E1|]. split; [exact B1|]. split; [exact U1|].
           intros j h' o' Hj Ej. destruct (Nat.eq_dec j i) as [->|]; [congruence|]. apply (Q j h' o'); [lia|exact Ej].
      * destruct IH as (j & h1 & o1 & Hj & E1 & B1). exists j, h1, o1. split; [lia|]. auto.
Qed.

Lemma sorted_nth : forall (l : list Z), StronglySorted Z.lt l -> forall i j a b, i < j ->
  nth_error l i = Some a -> nth_error l j = Some b -> (a < b)%Z.
Proof.
  induction 1 as [|x l S IH F]; intros i j a b L Ea Eb; [destruct i; discriminate|].
  destruct j as [|j]; [lia|]. destruct i as [|i]; cbn in *.
  - injection Ea as <-. rewrite Forall_forall in F. apply F. eapply nth_error_In; eauto.
  - apply (IH i j a b); auto; lia.
Qed.
Lemma entries_order s i j h o h' o' : binv s -> i < j ->
  nth_error (m_entries (b_ls s)) i = Some (h, o) -> nth_error (m_entries (b_ls s)) j = Some (h', o') -> (h < h')%Z.
Proof.
  intros I L E E'. assert (S : StronglySorted Z.lt (m_keys (b_ls s))) by (apply increasing_Zlt; apply (bi_ok _ I)).
  apply (sorted_nth _ S i j); [exact L| |];
    rewrite (mkeys Z.ltb zEQ _ (bi_ok _ I)), nth_error_map, ?E, ?E'; reflexivity.
Qed.

Lemma bound_entry s o h cs : binv s -> b_on s o = Some (h, cs) ->
  exists j, j < length (m_entries (b_ls s)) /\ nth_error (m_entries (b_ls s)) j = Some (h, o).
Proof.
  intros I E. assert (H : In (h, o) (m_entries (b_ls s))) by (apply (bi_on _ I); eauto).
  apply In_nth_error in H. destruct H as (j & Hj). exists j. split; [|exact Hj].
  apply nth_error_Some. congruence.
Qed.
Lemma bound_some s c o : bound_to s c o = true -> exists h cs, b_on s o = Some (h, cs).
Proof. unfold bound_to. destruct (b_on s o) as [[h cs]|]; [eauto|discriminate]. Qed.
Lemma entry_on s j h o : binv s -> nth_error (m_entries (b_ls s)) j = Some (h, o) -> exists cs, b_on s o = Some (h, cs).
Proof. intros I E. apply (bi_on _ I). eapply nth_error_In; eauto. Qed.

(** The trigger is defined exactly when the objects to be unbound have the last listener. *)
Lemma trigger_iff c s : binv s ->
  ((exists s', trigger_from c 0 (length (m_entries (b_ls s))) s = Some s') <->
   (forall o o' h h', bound_to s c o = true -> slot s o = Some h -> slot s o' = Some h' -> (h' <= h)%Z)).
Proof.
  intros I. pose proof (trigger_case c s I (length (m_entries (b_ls s))) 0 eq_refl) as T.
  destruct (trigger_from c 0 (length (m_entries (b_ls s))) s) as [s'|].
  - split; [|eauto]. intros _ o o' h h' B Eh Eh'. unfold slot in *.
    destruct (b_on s o) as [[h1 cs]|] eqn:E; [|discriminate]. injection Eh as <-.
    destruct (b_on s o') as [[h1' cs']|] eqn:E'; [|discriminate]. injection Eh' as <-.
    destruct (bound_entry s o h1 cs I E) as (j & Lj & Hj).
    destruct (bound_entry s o' h1' cs' I E') as (j' & Lj' & Hj').
    destruct T as [(_ & Q)|(h2 & o2 & _ & _ & _ & Q)].
    + rewrite (Q j h1 o ltac:(lia) Hj) in B. discriminate.
    + destruct (Nat.lt_ge_cases j (length (m_entries (b_ls s)) - 1)) as [L|L].
      * rewrite (Q j h1 o ltac:(lia) Hj) in B. discriminate.
      * destruct (Nat.eq_dec j' j) as [->|N]; [assert (h1 = h1') by congruence; lia|].
        pose proof (entries_order s j' j _ _ _ _ I ltac:(lia) Hj' Hj). cbn [fst] in *. lia.
  - destruct T as (j & h & o & L & E & B). split; [intros (s' & H); discriminate|].
    intros H. exfalso.
    destruct (nth_error (m_entries (b_ls s)) (length (m_entries (b_ls s)) - 1)) as [[h' o']|] eqn:E'.
    2: { apply nth_error_None in E'. lia. }
    destruct (entry_on s j h o I E) as (cs & Eo). destruct (entry_on _ _ h' o' I E') as (cs' & Eo').
    specialize (H o o' h h' B). unfold slot in H. rewrite Eo, Eo' in H. specialize (H eq_refl eq_refl).
    pose proof (entries_order s j _ _ _ _ _ I (proj2 L) E E'). lia.
Qed.

(** When it is defined, it unbinds them all. *)
Lemma trigger_effect c s s' : binv s -> trigger_from c 0 (length (m_entries (b_ls s))) s = Some s' ->
  binv s' /\ b_comps s' = b_comps s /\ forall o, b_on s' o = if bound_to s c o then None else b_on s o.
Proof.
  intros I H. pose proof (trigger_case c s I (length (m_entries (b_ls s))) 0 eq_refl) as T. rewrite H in T.
  assert (Z0 : forall o, bound_to s c o = true -> exists j h, j < length (m_entries (b_ls s)) /\ nth_error (m_entries (b_ls s)) j = Some (h, o)).
  { intros o B. destruct (bound_some _ _ _ B) as (h & cs & E). destruct (bound_entry s o h cs I E) as (j & Lj & Hj). eauto. }
  destruct T as [(-> & Q)|(h & o & E & B & U & Q)].
  - split; [exact I|]. split; [reflexivity|]. intros o. destruct (bound_to s c o) eqn:B; [|reflexivity].
    destruct (Z0 o B) as (j & h & L & E). rewrite (Q j h o ltac:(lia) E) in B. discriminate.
  - destruct (unbind_ok s o s' I U) as (I' & Ec & On & _). split; [exact I'|]. split; [exact Ec|].
    intros x. rewrite On. destruct (Nat.eqb_spec x o) as [->|N]; [rewrite B; reflexivity|].
    destruct (bound_to s c x) eqn:Bx; [|reflexivity]. exfalso.
    destruct (Z0 x Bx) as (j & h' & L & E'). destruct (Nat.eq_dec j (length (m_entries (b_ls s)) - 1)) as [->|Nj].
    + congruence.
    + rewrite (Q j h' x ltac:(lia) E') in Bx. discriminate.
Qed.

Lemma bstep_inv s op s' : binv s -> bstep s op = Some s' -> binv s'.
Proof.
  intros I H. destruct op as [c|c|o cs|o]; cbn [bstep] in H.
  - destruct (existsb (Z.eqb c) (b_comps s)); [discriminate|]. injection H as <-.
    destruct I as [A B C]. constructor; assumption.
  - unfold destroy in H. destruct (existsb (Z.eqb c) (b_comps s)); [|discriminate].
    destruct (trigger_from c 0 _ s) as [s1|] eqn:T; [|discriminate]. injection H as <-.
    destruct (trigger_effect c s s1 I T) as ([A B C] & _ & _). constructor; assumption.
  - destruct (b_on s o) as [?|] eqn:E; [discriminate|].
    destruct (forallb _ cs); [|discriminate]. injection H as <-. pose proof (bi_ok _ I) as G.
    destruct (next_id_map (b_ls s) G) as (Hn & Hf).
    { intros k Hk. destruct (mget Z.ltb (b_ls s) k) as [p|] eqn:Ek; [|congruence].
      apply (entry_get _ k p G) in Ek. exact (bi_id _ I _ _ Ek). }
    set (id := next_available_id (m_keys (b_ls s))) in *.
    pose proof (mok_insert Z.ltb zltb_swo (b_ls s) id o G) as G'.
    assert (Hmem : forall k p, In (k, p) (m_entries (fst (map_insert Z.ltb (b_ls s) id o))) <->
                   (k = id /\ p = o) \/ In (k, p) (m_entries (b_ls s))).
    { intros k p. 
      pose proof (perm_insert (b_ls s) id o G Hf) as P. split; intros Hi.
      - apply (Permutation_in _ P) in Hi. destruct Hi as [Hi|Hi]; [left; split; congruence|right; exact Hi].
      - apply (Permutation_in _ (Permutation_sym P)). destruct Hi as [(-> & ->)|Hi]; [left; reflexivity|right; exact Hi]. }
    constructor; cbn [b_ls b_on].
    + exact G'.
    + intros k p. rewrite Hmem, (bi_on _ I). unfold upd. destruct (Nat.eqb_spec p o) as [->|N].
      * split.
        -- intros [(-> & _)|(c & Hc)]; [eauto|congruence].
        -- intros (c & Hc). left. split; congruence.
      * split; [intros [(_ & Hp)|Hx]; [contradiction|exact Hx]|intros Hx; right; exact Hx].
    + intros k p Hk. apply Hmem in Hk. destruct Hk as [(-> & _)|Hk]; [exact Hn|]. exact (bi_id _ I _ _ Hk).
  - apply (unbind_ok s o s' I H).
Qed.
Lemma brun_inv l : forall s s', binv s -> brun s l = Some s' -> binv s'.
Proof.
  induction l as [|op l IH]; cbn [brun]; intros s s' I H.
  - congruence.
  - destruct (bstep s op) as [s1|] eqn:E; [|discriminate]. apply (IH s1 s'); [apply (bstep_inv s op s1 I E)|exact H].
Qed.

Lemma agree_uses s u o c : agree s u -> bound_to s c o = uses u o c.
Proof.
  intros (A & _). unfold bound_to, uses. rewrite <- A. destruct (b_on s o) as [[h cs]|]; reflexivity.
Qed.

(** A step that is defined does what the user expects. *)
Lemma bstep_agree s u op s' : binv s -> agree s u -> bstep s op = Some s' ->
  exists u', ustep u op = Some u' /\ agree s' u'.
Proof.
  intros I A H. pose proof A as (Ao & Ac). destruct op as [c|c|o cs|o]; cbn [bstep ustep] in *.
  - rewrite <- Ac. destruct (existsb (Z.eqb c) (b_comps s)); [discriminate|]. injection H as <-.
    eexists. split; [reflexivity|]. split; [exact Ao|]. reflexivity.
  - unfold destroy in H. rewrite <- Ac. destruct (existsb (Z.eqb c) (b_comps s)); [|discriminate].
    destruct (trigger_from c 0 _ s) as [s1|] eqn:T; [|discriminate]. injection H as <-.
    destruct (trigger_effect c s s1 I T) as (_ & Ec & On).
    eexists. split; [reflexivity|]. split; cbn [b_on b_comps u_on u_comps].
    + intros o. rewrite On, (agree_uses s u o c A). destruct (uses u o c); [reflexivity|apply Ao].
    + rewrite Ec. reflexivity.
  - destruct (b_on s o) as [?|] eqn:E; [discriminate|].
    assert (Eu : u_on u o = None) by (rewrite <- Ao, E; reflexivity). rewrite Eu, <- Ac.
    destruct (forallb _ cs); [|discriminate]. injection H as <-.
    eexists. split; [reflexivity|]. split; cbn [b_on b_comps u_on u_comps]; [|reflexivity].
    intros x. unfold upd. destruct (Nat.eqb x o); [reflexivity|apply Ao].
  - unfold unbind in H. destruct (b_on s o) as [[h cs]|] eqn:E; [|discriminate]. injection H as <-.
    assert (Eu : u_on u o = Some cs) by (rewrite <- Ao, E; reflexivity). rewrite Eu.
    eexists. split; [reflexivity|]. split; cbn [b_on b_comps u_on u_comps]; [|exact Ac].
    intros x. unfold upd. destruct (Nat.eqb x o); [reflexivity|apply Ao].
Qed.
Lemma brun_agree l : forall s u s', binv s -> agree s u -> brun s l = Some s' ->
  exists u', urun u l = Some u' /\ agree s' u'.
Proof.
  induction l as [|op l IH]; cbn [brun urun]; intros s u s' I A H.
  - injection H as <-. eauto.
  - destruct (bstep s op) as [s1|] eqn:E; [|discriminate].
    destruct (bstep_agree s u op s1 I A E) as (u1 & E1 & A1). rewrite E1.
    apply (IH s1 u1 s'); auto. apply (bstep_inv s op s1 I E).
Qed.
Lemma agree0 : agree bst0 ust0.
Proof. split; reflexivity. Qed.

(** Steps of histories in which components are destroyed under one object at most. *)
Lemma bstep_def s u op u' : binv s -> agree s u -> alone_at u op -> ustep u op = Some u' ->
  exists s', bstep s op = Some s'.
Proof.
  intros I A L H. pose proof A as (Ao & Ac). destruct op as [c|c|o cs|o]; cbn [bstep ustep alone_at] in *.
  - rewrite Ac. destruct (existsb (Z.eqb c) (u_comps u)); [discriminate|]. eauto.
  - unfold destroy. rewrite Ac. destruct (existsb (Z.eqb c) (u_comps u)); [|discriminate].
    destruct (proj2 (trigger_iff c s I)) as (s1 & T).
    + intros o o' h h' B Eh Eh'. unfold slot in *.
      assert (o' = o) as ->; [|assert (h = h') by congruence; lia].
      apply L; [rewrite <- (agree_uses s u o c A); exact B|]. rewrite <- Ao.
      destruct (b_on s o') as [[? ?]|]; [discriminate|discriminate Eh'].
    + rewrite T. eauto.
  - assert (E : b_on s o = None).
    { specialize (Ao o). destruct (u_on u o); [discriminate|]. destruct (b_on s o); [discriminate|reflexivity]. }
    rewrite E. assert (Eu : u_on u o = None) by (rewrite <- Ao, E; reflexivity). rewrite Eu in H. rewrite Ac.
    destruct (forallb _ cs); [eauto|discriminate].
  - unfold unbind. specialize (Ao o). destruct (u_on u o); [|discriminate].
    destruct (b_on s o) as [[h cs]|]; [eauto|discriminate].
Qed.
Lemma brun_def l : forall s u u', binv s -> agree s u -> alone u l -> urun u l = Some u' ->
  exists s', brun s l = Some s' /\ agree s' u'.
Proof.
  induction l as [|op l IH]; cbn [brun urun alone]; intros s u u' I A L H.
  - injection H as <-. eauto.
  - destruct L as (La & Ll). destruct (ustep u op) as [u1|] eqn:E; [|discriminate].
    destruct (bstep_def s u op u1 I A La E) as (s1 & E1). rewrite E1.
    destruct (bstep_agree s u op s1 I A E1) as (u2 & E2 & A2). assert (u2 = u1) by congruence. subst u2.
    apply (IH s1 u1 u'); auto. apply (bstep_inv s op s1 I E1).
Qed.

Lemma slots_differ s o o' h : binv s -> slot s o = Some h -> slot s o' = Some h -> o = o'.
Proof.
  intros I E E'. unfold slot in *. destruct (b_on s o) as [[h1 cs]|] eqn:F; [|discriminate].
  destruct (b_on s o') as [[h2 cs']|] eqn:F'; [|discriminate]. cbn in *. injection E as ->. injection E' as ->.
  assert (A : In (h, o) (m_entries (b_ls s))) by (apply (bi_on _ I); eauto).
  assert (B : In (h, o') (m_entries (b_ls s))) by (apply (bi_on _ I); eauto).
  apply (entry_get _ _ _ (bi_ok _ I)) in A. apply (entry_get _ _ _ (bi_ok _ I)) in B. congruence.
Qed.

Lemma runs_agree l s : brun bst0 l = Some s -> exists u, urun ust0 l = Some u /\ agree s u.
Proof. apply (brun_agree l bst0 ust0 s binv0 agree0). Qed.
Lemma runs_alone l u : urun ust0 l = Some u -> alone ust0 l -> exists s, brun bst0 l = Some s /\ agree s u.
Proof. intros H L. apply (brun_def l bst0 ust0 u binv0 agree0 L H). Qed.
Lemma destroy_defined l s c : brun bst0 l = Some s -> In c (b_comps s) ->
  ((exists s', bstep s (BDestroy c) = Some s') <->
   (forall o o' h h', bound_to s c o = true -> slot s o = Some h -> slot s o' = Some h' -> (h' <= h)%Z)).
Proof.
  intros H Hc. pose proof (brun_inv l bst0 s binv0 H) as I. rewrite <- (trigger_iff c s I).
  cbn [bstep]. unfold destroy.
  replace (existsb (Z.eqb c) (b_comps s)) with true.
  2: { symmetry. apply existsb_exists. exists c. split; [exact Hc|apply Z.eqb_refl]. }
  destruct (trigger_from c 0 _ s); split; intros (x & E); try discriminate; eauto.
Qed.
Lemma destroy_two l s c o o' : brun bst0 l = Some s -> o <> o' ->
  bound_to s c o = true -> bound_to s c o' = true -> bstep s (BDestroy c) = None.
Proof.
  intros H N B B'. pose proof (brun_inv l bst0 s binv0 H) as I. cbn [bstep]. unfold destroy.
  destruct (existsb (Z.eqb c) (b_comps s)); [|reflexivity].
  destruct (trigger_from c 0 _ s) as [s1|] eqn:T; [|reflexivity]. exfalso.
  destruct (bound_some _ _ _ B) as (h & cs & E). destruct (bound_some _ _ _ B') as (h' & cs' & E').
  assert (L := proj1 (trigger_iff c s I) (ex_intro _ s1 T)).
  pose proof (L o o' h h' B) as L1. pose proof (L o' o h' h B') as L2. unfold slot in *. rewrite E, E' in *.
  specialize (L1 eq_refl eq_refl). specialize (L2 eq_refl eq_refl). assert (h = h') by lia. subst h'.
  apply N. apply (slots_differ s o o' h I); unfold slot; [rewrite E|rewrite E']; reflexivity.
Qed.
