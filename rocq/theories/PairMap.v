(** Sets and maps ordered by Z or by pairs of integers (elem<int,2>): library for the proofs
    about code that uses them. *)
From Coq Require Import List ZArith Bool Arith Lia Sorting.Sorted.
From Verif Require Import ContModel ContSpec ContProof MapProof OMap.
Import ListNotations.

Lemma pair_less_spec a b : pair_less a b = true <->
  (fst a < fst b \/ (fst a = fst b /\ snd a < snd b))%Z.
Proof.
  unfold pair_less, elem_less_r. cbn.
  rewrite ?orb_true_iff, ?andb_true_iff, ?Z.ltb_lt, ?Z.eqb_eq. cbn. intuition discriminate.
Qed.

Lemma pair_less_false a b : pair_less a b = false <->
  ~ (fst a < fst b \/ (fst a = fst b /\ snd a < snd b))%Z.
Proof. rewrite <- pair_less_spec. destruct (pair_less a b); intuition discriminate. Qed.

Lemma pair_swo : swo pair_less.
Proof.
  apply total_swo.
  - intros a _. apply pair_less_false. lia.
  - intros a b c _ _ _. rewrite !pair_less_spec. lia.
  - intros [a1 a2] [b1 b2] _ _. rewrite !pair_less_false. cbn. intros. f_equal; lia.
Qed.

Lemma pEQ a b : eqv pair_less a b = true -> a = b.
Proof.
  unfold eqv. rewrite andb_true_iff, !negb_true_iff, !pair_less_false.
  destruct a as [a1 a2], b as [b1 b2]. cbn. intros. f_equal; lia.
Qed.

Definition peqb (a b : Z * Z) : bool := (Z.eqb (fst a) (fst b) && Z.eqb (snd a) (snd b))%bool.
Lemma peqb_spec a b : reflect (a = b) (peqb a b).
Proof.
  unfold peqb. destruct a as [a1 a2], b as [b1 b2]. cbn.
  destruct (Z.eqb_spec a1 b1), (Z.eqb_spec a2 b2); constructor; congruence.
Qed.
Lemma pkq a b : kq pair_less a b = peqb a b.
Proof.
  destruct (peqb_spec a b) as [->|N].
  - apply kq_refl, pair_swo.
  - apply kq_neq; [exact pEQ|exact N].
Qed.

Section OSet.
Context {K : Type} (lt : K -> K -> bool) (O : swo lt)
        (EQ : forall a b, eqv lt a b = true -> a = b).
Notation Dt := (fun _ : K => True).
Definition sok (s : list K) : Prop := good Dt lt s.

Lemma lookup_iff s x : sok s -> (In x s <-> lookup lt s x <> None).
Proof.
  intros G. split.
  - intros H. rewrite (lookup_In Dt lt O s x (g_inc _ _ _ G) (g_D _ _ _ G) H). discriminate.
  - intros H. destruct (lookup lt s x) as [y|] eqn:E; [|congruence].
    pose proof (lookup_some_In lt s x y E) as I1. apply find_some in E. destruct E as [_ E].
    apply EQ in E. subst. exact I1.
Qed.
Lemma sok_nil : sok [].
Proof. split; constructor. Qed.
Lemma sok_insert s v : sok s -> sok (set_insert lt s v).
Proof. intros G. apply (set_insert_good Dt lt O s v G I). Qed.
Lemma In_set_insert s v x : sok s -> (In x (set_insert lt s v) <-> x = v \/ In x s).
Proof.
  intros G. destruct (set_insert_good Dt lt O s v G I) as [G' H].
  rewrite (lookup_iff _ x G'), (lookup_iff _ x G), H by exact I. unfold fadd.
  destruct (eqv lt x v) eqn:E.
  - apply EQ in E. subst. destruct (lookup lt s v); intuition congruence.
  - intuition. subst. rewrite (eqv_self lt O) in E. discriminate.
Qed.
Lemma sok_erase s v : sok s -> sok (set_erase lt s v).
Proof. intros G. apply (set_erase_good Dt lt O s v G I). Qed.
Lemma In_set_erase s v x : sok s -> (In x (set_erase lt s v) <-> x <> v /\ In x s).
Proof.
  intros G. destruct (set_erase_good Dt lt O s v G I) as [G' H].
  rewrite (lookup_iff _ x G'), (lookup_iff _ x G), H by exact I. unfold fdel.
  destruct (eqv lt x v) eqn:E.
  - apply EQ in E. subst. intuition.
  - intuition. subst. rewrite (eqv_self lt O) in E. discriminate.
Qed.
Lemma sok_erase_if s p : sok s -> sok (set_erase_if p s).
Proof. intros G. rewrite set_erase_if_filter. apply good_filter; assumption. Qed.
Lemma In_set_erase_if (s : list K) p x : In x (set_erase_if p s) <-> In x s /\ p x = false.
Proof. rewrite set_erase_if_filter, filter_In, negb_true_iff. tauto. Qed.
Lemma set_contains_iff s x : sok s -> (set_contains lt s x = true <-> In x s).
Proof.
  intros G. rewrite (set_contains_spec Dt lt O s x G I), (lookup_iff s x G).
  destruct (lookup lt s x); intuition congruence.
Qed.
Lemma sok_NoDup s : sok s -> NoDup s.
Proof.
  intros [Hs _]. induction Hs as [|k ks _ IH Hf]; constructor; [|exact IH].
  intros H. rewrite Forall_forall in Hf. apply Hf in H.
  rewrite (swo_irrefl _ _ O k I) in H. discriminate.
Qed.
(** A sorted set is determined by its members. *)
Lemma sok_ext a b : sok a -> sok b -> (forall x, In x a <-> In x b) -> a = b.
Proof.
  intros [Sa _]. revert b. induction Sa as [|x a Sa IH Ha]; intros b [Sb _] H.
  - destruct b as [|y b]; [reflexivity|]. exfalso. apply (H y). left. reflexivity.
  - destruct Sb as [|y b Sb Hb]; [exfalso; apply (H x); left; reflexivity|].
    rewrite Forall_forall in Ha, Hb.
    assert (Ir : forall k, lt k k = false) by (intros k; apply (swo_irrefl _ _ O k I)).
    assert (E : x = y).
    { destruct (proj1 (H x) (or_introl eq_refl)) as [E|E]; [auto|].
      destruct (proj2 (H y) (or_introl eq_refl)) as [E'|E']; [auto|].
      exfalso. apply Hb in E. apply Ha in E'.
      pose proof (swo_trans _ _ O _ _ _ I I I E E') as X. rewrite Ir in X. discriminate. }
    subst y. f_equal. apply IH; [split; [exact Sb|]|].
    + apply Forall_forall. intros; exact I.
    + intros e. split; intros He.
      * destruct (proj1 (H e) (or_intror He)) as [->|]; [|assumption].
        apply Ha in He. rewrite Ir in He. discriminate.
      * destruct (proj2 (H e) (or_intror He)) as [->|]; [|assumption].
        apply Hb in He. rewrite Ir in He. discriminate.
Qed.
Lemma sok_keys {V} (m : smap K V) : mok lt m -> sok (m_keys m).
Proof. intros G. apply G. Qed.

Section MapExtra.
Context {V : Type}.
Lemma mok_erase_if_key (m : smap K V) p : mok lt m -> mok lt (map_erase_if_key p m).
Proof.
  intros G. apply (map_erase_if_key_good Dt lt O m p G).
  intros a b E. apply EQ in E. congruence.
Qed.
Lemma mget_erase_if_key (m : smap K V) p x : mok lt m ->
  mget lt (map_erase_if_key p m) x = if p x then None else mget lt m x.
Proof.
  intros G. destruct (map_erase_if_key_good Dt lt O m p G) as [_ H].
  { intros a b E. apply EQ in E. congruence. }
  unfold mget. rewrite H by exact I. unfold fkeep.
  destruct (mlookup lt (m_entries m) x) as [e|] eqn:E; cbn.
  - pose proof (mlookup_key lt EQ m x e G E). subst. destruct (p (fst e)); reflexivity.
  - destruct (p x); reflexivity.
Qed.

(** Inserting (erasing) one value under many keys. *)
Lemma mok_insert_all v ks : forall m : smap K V, mok lt m ->
  mok lt (fold_left (fun m k => fst (map_insert lt m k v)) ks m).
Proof. induction ks as [|k ks IH]; cbn; intros m G; [exact G|]. apply IH, mok_insert; assumption. Qed.
Lemma mget_insert_all v ks x : forall m : smap K V, mok lt m ->
  (In x ks -> mget lt (fold_left (fun m k => fst (map_insert lt m k v)) ks m) x = Some v) /\
  (~ In x ks -> mget lt (fold_left (fun m k => fst (map_insert lt m k v)) ks m) x = mget lt m x).
Proof.
  induction ks as [|k ks IH]; cbn; intros m G; [tauto|].
  specialize (IH _ (mok_insert lt O m k v G)). rewrite (mget_insert lt O m k v x G) in IH.
  destruct (kq_spec lt O EQ x k) as [->|N].
  - split; [intros _|tauto]. destruct IH as [I1 I2].
    destruct (in_dec (fun a b => reflect_dec _ _ (kq_spec lt O EQ a b)) k ks); auto.
  - split; [intros [E|E]|intros E]; [congruence|apply IH; auto|apply IH; tauto].
Qed.
Lemma mok_erase_all ks : forall m : smap K V, mok lt m ->
  mok lt (fold_left (fun m k => map_erase lt m k) ks m).
Proof. induction ks as [|k ks IH]; cbn; intros m G; [exact G|]. apply IH, mok_erase; assumption. Qed.
Lemma mget_erase_all ks x : forall m : smap K V, mok lt m ->
  (In x ks -> mget lt (fold_left (fun m k => map_erase lt m k) ks m) x = None) /\
  (~ In x ks -> mget lt (fold_left (fun m k => map_erase lt m k) ks m) x = mget lt m x).
Proof.
  induction ks as [|k ks IH]; cbn; intros m G; [tauto|].
  specialize (IH _ (mok_erase lt O m k G)). rewrite (mget_erase lt O m k x G) in IH.
  destruct (kq_spec lt O EQ x k) as [->|N].
  - split; [intros _|tauto]. destruct IH as [I1 I2].
    destruct (in_dec (fun a b => reflect_dec _ _ (kq_spec lt O EQ a b)) k ks); auto.
  - split; [intros [E|E]|intros E]; [congruence|apply IH; auto|apply IH; tauto].
Qed.
End MapExtra.
End OSet.
