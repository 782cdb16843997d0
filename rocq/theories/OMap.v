(** Sorted maps whose keys are totally ordered, as finite functions (library for the
    proofs about code that uses maps). *)
From Coq Require Import List ZArith Bool Arith Lia Sorting.Sorted.
From Verif Require Import ContModel ContSpec ContProof MapProof.
Import ListNotations.

Section OMap.
Context {K V : Type} (lt : K -> K -> bool) (O : swo lt)
        (EQ : forall a b, eqv lt a b = true -> a = b).

Notation Dt := (fun _ : K => True).
Definition mok (m : smap K V) : Prop := mgood Dt lt m.
Definition mget (m : smap K V) (k : K) : option V := option_map snd (mlookup lt (m_entries m) k).

Lemma eqv_self a : eqv lt a a = true.
Proof. apply (eqv_refl Dt lt O). exact I. Qed.
Lemma eqv_eq a b : eqv lt a b = true <-> a = b.
Proof. split; [apply EQ|]. intros ->. apply eqv_self. Qed.

Lemma mok_empty : mok map_empty.
Proof. split; [split; constructor|constructor]. Qed.
Lemma mget_empty k : mget map_empty k = None.
Proof. reflexivity. Qed.

Lemma mlookup_key m k e : mok m -> mlookup lt (m_entries m) k = Some e -> fst e = k.
Proof. intros _ H. apply find_some in H. symmetry. apply EQ, H. Qed.

Lemma mget_In m k v : mok m -> (In (k, v) (m_entries m) <-> mget m k = Some v).
Proof.
  intros G. rewrite (mlookup_In Dt lt O m (k, v) G). unfold mget. cbn. split.
  - intros [_ ->]. reflexivity.
  - destruct (mlookup lt (m_entries m) k) as [e|] eqn:E; [|discriminate]. cbn. intros [= <-].
    pose proof (mlookup_key m k e G E) as H. destruct e. cbn in *. subst. auto.
Qed.

Lemma mkeys m : mok m -> m_keys m = map fst (m_entries m).
Proof.
  intros G. pose proof (mg_al Dt lt m G) as F. induction F as [|k e ks es [_ H] _ IH]; cbn; [reflexivity|].
  f_equal; [apply EQ, H|exact IH].
Qed.

Lemma mkeys_In m k : mok m -> (In k (m_keys m) <-> mget m k <> None).
Proof.
  intros G. rewrite (mkeys m G), in_map_iff. split.
  - intros ([k' v] & <- & H). cbn. apply (mget_In m k' v G) in H. congruence.
  - intros H. destruct (mget m k) as [v|] eqn:E; [|congruence]. exists (k, v). split; [reflexivity|].
    apply mget_In; assumption.
Qed.

Lemma mget_contains m k : mok m -> map_contains lt m k = match mget m k with Some _ => true | None => false end.
Proof.
  intros G. pose proof (map_find_spec Dt lt O m k G I) as F. unfold mget.
  destruct (mlookup lt (m_entries m) k); cbn; apply F.
Qed.
Lemma mget_at m k v : mok m -> mget m k = Some v -> map_at lt m k = Some v.
Proof.
  intros G. pose proof (map_find_spec Dt lt O m k G I) as F. unfold mget.
  destruct (mlookup lt (m_entries m) k) as [e|]; cbn; [|discriminate]. intros [= <-]. apply F.
Qed.
Lemma mget_find m k v : mok m -> mget m k = Some v ->
  nth_error (m_entries m) (map_find lt m k) = Some (k, v).
Proof.
  intros G. pose proof (map_find_spec Dt lt O m k G I) as F. unfold mget.
  destruct (mlookup lt (m_entries m) k) as [e|] eqn:E; cbn; [|discriminate]. intros [= <-].
  destruct F as [-> _]. pose proof (mlookup_key m k e G E). destruct e; cbn in *. subst. reflexivity.
Qed.

Definition kq (a b : K) : bool := eqv lt a b.

Lemma mok_insert m k v : mok m -> mok (fst (map_insert lt m k v)).
Proof. intros G. apply (map_insert_good Dt lt O m k v G I). Qed.
Lemma mget_insert m k v x : mok m ->
  mget (fst (map_insert lt m k v)) x = if kq x k then Some v else mget m x.
Proof.
  intros G. destruct (map_insert_good Dt lt O m k v G I) as (_ & H & _). unfold mget, kq.
  rewrite H by exact I. unfold fput. destruct (eqv lt x k); reflexivity.
Qed.
Lemma mok_fetch m k v : mok m -> mok (fst (map_fetch lt m k v)).
Proof. intros G. apply (map_fetch_good Dt lt O m k v G I). Qed.
Lemma mget_fetch m k v x : mok m ->
  mget (fst (map_fetch lt m k v)) x =
  if kq x k then match mget m k with Some w => Some w | None => Some v end else mget m x.
Proof.
  intros G. destruct (map_fetch_good Dt lt O m k v G I) as (_ & H & _). unfold mget, kq.
  rewrite H by exact I. unfold fget_or_put.
  destruct (eqv lt x k) eqn:E; [|reflexivity]. apply EQ in E. subst.
  destruct (mlookup lt (m_entries m) k); reflexivity.
Qed.
Lemma fetch_pos m k v : mok m -> snd (map_fetch lt m k v) = set_lower lt (m_keys (fst (map_fetch lt m k v))) k.
Proof. intros G. apply (map_fetch_good Dt lt O m k v G I). Qed.
Lemma mok_erase m k : mok m -> mok (map_erase lt m k).
Proof. intros G. apply (map_erase_good Dt lt O m k G I). Qed.
Lemma mget_erase m k x : mok m -> mget (map_erase lt m k) x = if kq x k then None else mget m x.
Proof.
  intros G. destruct (map_erase_good Dt lt O m k G I) as (_ & H). unfold mget, kq.
  rewrite H by exact I. unfold fremove. destruct (eqv lt x k); reflexivity.
Qed.
Lemma mok_write m k v : mok m -> mget m k <> None -> mok (map_write m (set_lower lt (m_keys m) k) v).
Proof.
  intros G H. apply (map_write_good Dt lt O m k v G I). unfold mget in H.
  destruct (mlookup lt (m_entries m) k); cbn in H; congruence.
Qed.
Lemma mget_write m k v x : mok m -> mget m k <> None ->
  mget (map_write m (set_lower lt (m_keys m) k) v) x = if kq x k then Some v else mget m x.
Proof.
  intros G H. destruct (map_write_good Dt lt O m k v G I) as (_ & W).
  { unfold mget in H. destruct (mlookup lt (m_entries m) k); cbn in H; congruence. }
  unfold mget in *. rewrite W by exact I. unfold fset_value, kq.
  destruct (eqv lt x k) eqn:E; [|reflexivity]. apply EQ in E. subst.
  destruct (mlookup lt (m_entries m) k) as [[]|]; cbn in *; [reflexivity|congruence].
Qed.
Lemma mok_erase_if m p : mok m -> mok (map_erase_if p m).
Proof. intros G. apply (map_erase_if_good Dt lt O m p G). Qed.

Lemma kq_refl a : kq a a = true.
Proof. apply eqv_self. Qed.
Lemma kq_neq a b : a <> b -> kq a b = false.
Proof. intros N. destruct (kq a b) eqn:E; [|reflexivity]. apply EQ in E. congruence. Qed.
Lemma kq_spec a b : reflect (a = b) (kq a b).
Proof. destruct (kq a b) eqn:E; constructor; [apply EQ, E|]. intros ->. rewrite kq_refl in E. discriminate. Qed.

Lemma mkeys_sorted m : mok m -> StronglySorted (fun a b => lt a b = true) (m_keys m).
Proof.
  intros G. destruct G as [[Gi _] _]. induction Gi; constructor; auto.
Qed.
Lemma mkeys_NoDup m : mok m -> NoDup (m_keys m).
Proof.
  intros G. pose proof (mkeys_sorted m G) as S. induction S as [|k ks _ IH Hf]; constructor; [|exact IH].
  intros H. rewrite Forall_forall in Hf. apply Hf in H.
  rewrite (swo_irrefl _ _ O k I) in H. discriminate.
Qed.

(** A map is determined by its lookups. *)
Lemma sorted_ext (a b : list (K * V)) :
  StronglySorted (fun x y => lt (fst x) (fst y) = true) a ->
  StronglySorted (fun x y => lt (fst x) (fst y) = true) b ->
  (forall e, In e a <-> In e b) -> a = b.
Proof.
  intros Sa. revert b. induction Sa as [|x a Sa IH Ha]; intros b Sb H.
  - destruct b as [|y b]; [reflexivity|]. exfalso. apply (H y). left. reflexivity.
  - destruct Sb as [|y b Sb Hb]; [exfalso; apply (H x); left; reflexivity|].
    rewrite Forall_forall in Ha, Hb.
    assert (Ir : forall k, lt k k = false) by (intros k; apply (swo_irrefl _ _ O k I)).
    assert (E : x = y).
    { destruct (proj1 (H x) (or_introl eq_refl)) as [E|E]; [auto|].
      destruct (proj2 (H y) (or_introl eq_refl)) as [E'|E']; [auto|].
      exfalso. apply Hb in E. apply Ha in E'.
      pose proof (swo_trans _ _ O _ _ _ I I I E E') as X. rewrite Ir in X. discriminate. }
    subst y. f_equal. apply IH; [exact Sb|]. intros e. split; intros He.
    + destruct (proj1 (H e) (or_intror He)) as [->|]; [|assumption].
      apply Ha in He. rewrite Ir in He. discriminate.
    + destruct (proj2 (H e) (or_intror He)) as [->|]; [|assumption].
      apply Hb in He. rewrite Ir in He. discriminate.
Qed.

Lemma mentries_sorted m : mok m -> StronglySorted (fun x y => lt (fst x) (fst y) = true) (m_entries m).
Proof.
  intros G. pose proof (mkeys_sorted m G) as S. rewrite (mkeys m G) in S.
  induction (m_entries m) as [|e es IH]; constructor; inversion S as [|? ? S' Hf]; subst.
  - apply IH, S'.
  - rewrite Forall_forall in *. intros y Hy. apply Hf. apply in_map, Hy.
Qed.

Lemma mext m m' : mok m -> mok m' -> (forall k, mget m k = mget m' k) -> m = m'.
Proof.
  intros G G' H. assert (E : m_entries m = m_entries m').
  { apply sorted_ext; [apply mentries_sorted, G|apply mentries_sorted, G'|].
    intros [k v]. rewrite (mget_In m k v G), (mget_In m' k v G'), H. tauto. }
  pose proof (mkeys m G) as A. pose proof (mkeys m' G') as B. rewrite E in A.
  destruct m, m'; cbn in *. congruence.
Qed.

End OMap.

Lemma zEQ a b : eqv Z.ltb a b = true -> a = b.
Proof. unfold eqv. rewrite andb_true_iff, !negb_true_iff, !Z.ltb_ge. lia. Qed.

Lemma zkq a b : kq Z.ltb a b = Z.eqb a b.
Proof.
  destruct (Z.eqb_spec a b) as [->|N].
  - apply kq_refl, zltb_swo.
  - apply kq_neq; [exact zEQ|exact N].
Qed.

(** The next ID is not a key of the map. *)
Lemma next_id_map {V} (m : smap Z V) : mok Z.ltb m -> (forall k, mget Z.ltb m k <> None -> (0 <= k)%Z) ->
  (0 <= next_available_id (m_keys m))%Z /\ mget Z.ltb m (next_available_id (m_keys m)) = None.
Proof.
  intros G H. destruct (next_available_id_spec (m_keys m)) as (A & B & _).
  - apply increasing_Zlt. apply G.
  - intros x Hx. apply H. apply (mkeys_In Z.ltb zltb_swo zEQ m x G), Hx.
  - split; [exact A|]. rewrite (mkeys_In Z.ltb zltb_swo zEQ m _ G) in B.
    destruct (mget Z.ltb m (next_available_id (m_keys m))); [exfalso; apply B; discriminate|reflexivity].
Qed.
