(** Proofs about the lives of contexts (C104). *)
From Coq Require Import List Bool Arith Lia.
From Verif Require Import FRefModel ShrModel ShrSpec.
Import ListNotations.

Lemma upd_eq {A} (f : nat -> A) n v : upd f n v n = v.
Proof. unfold upd; now rewrite Nat.eqb_refl. Qed.
Lemma upd_ne {A} (f : nat -> A) n m v : m <> n -> upd f n v m = f m.
Proof. unfold upd; destruct (Nat.eqb_spec m n); congruence. Qed.

Lemma holders_cons h i l id : holders ((h, i) :: l) id = if Nat.eqb i id then h :: holders l id else holders l id.
Proof. unfold holders; cbn. destruct (Nat.eqb i id); auto. Qed.
Lemma held_in l h id : held l h = Some id -> In h (holders l id).
Proof.
  induction l as [|[k x] l IH]; cbn [held]; [discriminate|]. rewrite holders_cons.
  destruct (Nat.eqb_spec k h) as [->|].
  - intros E; inversion E; subst. rewrite Nat.eqb_refl; left; auto.
  - intros E; specialize (IH E). destruct (Nat.eqb x id); [right|]; auto.
Qed.
Lemma held_keys l h : held l h = None <-> ~ In h (map fst l).
Proof.
  induction l as [|[k x] l IH]; cbn; [tauto|]. destruct (Nat.eqb_spec k h) as [->|].
  - split; [discriminate|intros H; destruct H; auto].
  - rewrite IH; tauto.
Qed.
Lemma unheld_none l h : ~ In h (map fst l) -> unheld l h = l.
Proof.
  induction l as [|[k x] l IH]; cbn; auto. intros H. destruct (Nat.eqb_spec k h); [tauto|]. cbn. f_equal; auto.
Qed.
Lemma held_unheld l h k : held (unheld l h) k = if Nat.eqb k h then None else held l k.
Proof.
  unfold unheld. induction l as [|[i x] l IH]; cbn; [destruct (Nat.eqb k h); auto|].
  destruct (Nat.eqb_spec i h) as [E|E]; cbn; rewrite ?IH;
    destruct (Nat.eqb_spec k h), (Nat.eqb_spec i k); congruence.
Qed.
Lemma keys_unheld l h : forall k, In k (map fst (unheld l h)) -> In k (map fst l).
Proof. intros k; rewrite !in_map_iff. intros (p & E & I). apply filter_In in I. exists p; tauto. Qed.
Lemma nodup_unheld l h : NoDup (map fst l) -> NoDup (map fst (unheld l h)).
Proof.
  induction l as [|[k x] l IH]; cbn; auto. intros N; inversion N; subst. destruct (Nat.eqb k h); cbn; auto.
  constructor; auto. intros I; apply H1; eapply keys_unheld; eauto.
Qed.
Lemma holders_drop l h id : NoDup (map fst l) -> held l h = Some id ->
  length (holders l id) = S (length (holders (unheld l h) id)).
Proof.
  induction l as [|[k x] l IH]; cbn [held map fst]; [discriminate|]. intros N E; inversion N; subst.
  unfold unheld; cbn [filter fst]. fold (unheld l h). destruct (Nat.eqb_spec k h) as [->|]; cbn [negb].
  - inversion E; subst. rewrite (unheld_none l h) by auto. rewrite holders_cons, Nat.eqb_refl. auto.
  - rewrite !holders_cons. specialize (IH H2 E). destruct (Nat.eqb x id); cbn [length]; lia.
Qed.
Lemma holders_drop_other l h id id' : NoDup (map fst l) -> held l h = Some id -> id' <> id ->
  holders (unheld l h) id' = holders l id'.
Proof.
  induction l as [|[k x] l IH]; cbn [held map fst]; [discriminate|]. intros N E D; inversion N; subst.
  unfold unheld; cbn [filter fst]. fold (unheld l h). destruct (Nat.eqb_spec k h) as [->|]; cbn [negb].
  - inversion E; subst. rewrite (unheld_none l h) by auto. rewrite holders_cons. destruct (Nat.eqb_spec id id'); congruence.
  - rewrite !holders_cons, (IH H2 E D). auto.
Qed.

Definition what (q : qst) (id : nat) : cobj :=
  if q_raw q id then CRaw id else CShr id (length (holders (q_hold q) id)).
Lemma cid_what q id : cid (what q id) = id.
Proof. unfold what; destruct (q_raw q id); auto. Qed.

Record sinv (s : sst) (q : qst) (adr : nat -> nat) : Prop := {
  i1 : forall id, exists_now q id = true -> s_mem s (adr id) = Some (what q id);
  i2 : forall a o, s_mem s a = Some o -> exists_now q (cid o) = true /\ a = adr (cid o) /\ a < s_next s;
  i3 : forall h id, held (q_hold q) h = Some id -> s_hold s h = Some (adr id);
  i4 : forall v id, q_var q v = Some id -> exists_now q id = true -> s_var s v = Some (adr id);
  i5 : forall v v' id, q_var q v = Some id -> q_var q v' = Some id -> q_raw q id = true -> v = v';
  i6 : NoDup (map fst (q_hold q));
  i7 : forall v id, q_var q v = Some id -> q_used q id = true;
  i7' : forall id, exists_now q id = true -> q_used q id = true;
  i8 : forall id, q_raw q id = true -> holders (q_hold q) id = [];
  i9 : s_gone s = q_gone q;
  i10 : s_seen s = q_seen q }.

Lemma sinv0 : sinv sst0 qst0 (fun _ => 0).
Proof. split; cbn; try discriminate; auto. constructor. Qed.

Lemma adr_lt s q adr id : sinv s q adr -> exists_now q id = true -> adr id < s_next s.
Proof. intros I E. apply (i2 _ _ _ I _ _ (i1 _ _ _ I _ E)). Qed.
Lemma adr_inj s q adr id id' : sinv s q adr -> exists_now q id = true -> exists_now q id' = true -> adr id = adr id' -> id = id'.
Proof.
  intros I E E' A. pose proof (i1 _ _ _ I _ E) as M. rewrite A, (i1 _ _ _ I _ E') in M. inversion M as [W].
  rewrite <- (cid_what q id), <- (cid_what q id'). congruence.
Qed.
Lemma raw_now q id : q_raw q id = true -> exists_now q id = true.
Proof. unfold exists_now; intros ->; auto. Qed.
Lemma hold_now q h id : held (q_hold q) h = Some id -> exists_now q id = true.
Proof. intros H; apply held_in in H. unfold exists_now. destruct (holders (q_hold q) id); [destruct H|apply orb_true_r]. Qed.
Lemma hold_raw s q adr h id : sinv s q adr -> held (q_hold q) h = Some id -> q_raw q id = false.
Proof.
  intros I H. destruct (q_raw q id) eqn:R; auto. apply (i8 _ _ _ I) in R. apply held_in in H. rewrite R in H; destruct H.
Qed.

(** ** Steps *)

Lemma step_create s q adr v id q' : sinv s q adr -> qstep q (SCreate v id) = Some q' ->
  exists s' adr', sstep s (SCreate v id) = Some s' /\ sinv s' q' adr'.
Proof.
  intros I P; cbn [qstep] in P. destruct (q_used q id) eqn:U; inversion P; subst; clear P.
  eexists; exists (upd adr id (s_next s)). split; [reflexivity|].
  assert (Nx : exists_now q id = false) by (destruct (exists_now q id) eqn:E; auto; apply (i7' _ _ _ I) in E; congruence).
  assert (Hn : holders (q_hold q) id = []).
  { unfold exists_now in Nx. apply orb_false_iff in Nx. destruct (holders (q_hold q) id); auto; destruct Nx; discriminate. }
  set (q' := mkQ _ _ _ _ _ _).
  assert (Now : forall k, k <> id -> exists_now q' k = exists_now q k) by (intros k D; unfold exists_now; cbn; now rewrite upd_ne).
  assert (Wh : forall k, k <> id -> what q' k = what q k) by (intros k D; unfold what; cbn; now rewrite upd_ne).
  assert (Wi : what q' id = CRaw id) by (unfold what; cbn; now rewrite upd_eq).
  assert (Ni : exists_now q' id = true) by (apply raw_now; cbn; apply upd_eq).
  split; cbn [s_mem s_next s_var s_hold s_gone s_seen].
  - intros k E. destruct (Nat.eq_dec k id) as [->|D].
    + rewrite !upd_eq, Wi; auto.
    + rewrite (upd_ne adr) by auto. rewrite Now in E by auto. pose proof (adr_lt _ _ _ _ I E).
      rewrite upd_ne by lia. rewrite Wh by auto. apply (i1 _ _ _ I); auto.
  - intros a o. destruct (Nat.eq_dec a (s_next s)) as [->|D].
    + rewrite upd_eq. intros E; inversion E; subst; cbn [cid]. rewrite upd_eq. repeat split; auto.
    + rewrite upd_ne by auto. intros E. destruct (i2 _ _ _ I _ _ E) as (A & B & C).
      assert (cid o <> id) by (intros X; rewrite X in A; congruence).
      rewrite Now, upd_ne by auto. repeat split; auto.
  - intros h k H. rewrite upd_ne; [apply (i3 _ _ _ I); auto|]. intros ->. apply (hold_now q) in H. congruence.
  - cbn [q_var q']. intros w k. destruct (Nat.eq_dec w v) as [->|D].
    + rewrite !upd_eq. intros E _; inversion E; subst. now rewrite upd_eq.
    + rewrite !(upd_ne _ v) by auto. intros E L. assert (k <> id) by (intros ->; apply (i7 _ _ _ I) in E; congruence).
      rewrite upd_ne by auto. rewrite Now in L by auto. apply (i4 _ _ _ I); auto.
  - cbn [q_var q_raw q']. intros w w' k Ew Ew' R. destruct (Nat.eq_dec k id) as [->|D].
    + assert (F : forall u, upd (q_var q) v (Some id) u = Some id -> u = v).
      { intros u. destruct (Nat.eq_dec u v); auto. rewrite upd_ne by auto. intros X; apply (i7 _ _ _ I) in X; congruence. }
      rewrite (F _ Ew), (F _ Ew'); auto.
    + rewrite upd_ne in R by auto.
      destruct (Nat.eq_dec w v) as [->|]; [rewrite upd_eq in Ew; congruence|].
      destruct (Nat.eq_dec w' v) as [->|]; [rewrite upd_eq in Ew'; congruence|].
      rewrite upd_ne in Ew, Ew' by auto. eapply (i5 _ _ _ I); eauto.
  - apply (i6 _ _ _ I).
  - cbn [q_var q_used q']. intros w k E. destruct (Nat.eq_dec k id) as [->|]; [apply upd_eq|]. rewrite upd_ne by auto.
    destruct (Nat.eq_dec w v) as [->|]; [rewrite upd_eq in E; congruence|]. rewrite upd_ne in E by auto. eapply (i7 _ _ _ I); eauto.
  - intros k E. cbn [q_used q']. destruct (Nat.eq_dec k id) as [->|]; [apply upd_eq|]. rewrite upd_ne by auto.
    rewrite Now in E by auto. apply (i7' _ _ _ I); auto.
  - cbn [q_raw q_hold q']. intros k R. destruct (Nat.eq_dec k id) as [->|]; auto. rewrite upd_ne in R by auto. apply (i8 _ _ _ I); auto.
  - apply (i9 _ _ _ I).
  - apply (i10 _ _ _ I).
Qed.

Lemma step_destroy s q adr v q' : sinv s q adr -> qstep q (SDestroy v) = Some q' ->
  exists s' adr', sstep s (SDestroy v) = Some s' /\ sinv s' q' adr'.
Proof.
  intros I P; cbn [qstep] in P. destruct (q_var q v) as [id|] eqn:V; [|discriminate].
  destruct (q_raw q id) eqn:R; inversion P; subst; clear P.
  pose proof (raw_now _ _ R) as E. cbn [sstep]. rewrite (i4 _ _ _ I _ _ V E), (i1 _ _ _ I _ E). unfold what at 1. rewrite R.
  eexists; exists adr. split; [reflexivity|].
  pose proof (i8 _ _ _ I _ R) as Hn.
  set (q' := mkQ _ _ _ _ _ _).
  assert (Now : forall k, k <> id -> exists_now q' k = exists_now q k) by (intros k D; unfold exists_now; cbn; now rewrite upd_ne).
  assert (Wh : forall k, k <> id -> what q' k = what q k) by (intros k D; unfold what; cbn; now rewrite upd_ne).
  assert (Ni : exists_now q' id = false) by (unfold exists_now; cbn [q' q_raw q_hold]; rewrite upd_eq, Hn; auto).
  split; cbn [s_mem s_next s_var s_hold s_gone s_seen].
  - intros k Ek. assert (D : k <> id) by congruence. rewrite Now in Ek by auto. rewrite Wh by auto.
    rewrite upd_ne; [apply (i1 _ _ _ I); auto|]. intros X. apply D. eapply adr_inj; eauto.
  - intros a o. destruct (Nat.eq_dec a (adr id)) as [->|D]; [rewrite upd_eq; discriminate|]. rewrite upd_ne by auto.
    intros M. destruct (i2 _ _ _ I _ _ M) as (A & B & C). assert (cid o <> id) by congruence. rewrite Now by auto. auto.
  - intros h k H. apply (i3 _ _ _ I); auto.
  - cbn [q_var q']. intros w k. destruct (Nat.eq_dec w v) as [->|D]; [rewrite !upd_eq; discriminate|].
    rewrite !upd_ne by auto. intros Ew L. assert (k <> id) by congruence. rewrite Now in L by auto. apply (i4 _ _ _ I); auto.
  - cbn [q_var q_raw q']. intros w w' k Ew Ew' Rk.
    destruct (Nat.eq_dec k id) as [->|]; [rewrite upd_eq in Rk; discriminate|]. rewrite upd_ne in Rk by auto.
    destruct (Nat.eq_dec w v) as [->|]; [rewrite upd_eq in Ew; discriminate|].
    destruct (Nat.eq_dec w' v) as [->|]; [rewrite upd_eq in Ew'; discriminate|].
    rewrite upd_ne in Ew, Ew' by auto. eapply (i5 _ _ _ I); eauto.
  - apply (i6 _ _ _ I).
  - cbn [q_var q_used q']. intros w k Ew. destruct (Nat.eq_dec w v) as [->|]; [rewrite upd_eq in Ew; discriminate|].
    rewrite upd_ne in Ew by auto. eapply (i7 _ _ _ I); eauto.
  - intros k Ek. assert (D : k <> id) by congruence. rewrite Now in Ek by auto. apply (i7' _ _ _ I); auto.
  - cbn [q_raw q_hold q']. intros k Rk. destruct (Nat.eq_dec k id) as [->|]; auto. rewrite upd_ne in Rk by auto. apply (i8 _ _ _ I); auto.
  - cbn. now rewrite (i9 _ _ _ I).
  - apply (i10 _ _ _ I).
Qed.

Lemma step_share s q adr v h q' : sinv s q adr -> qstep q (SShare v h) = Some q' ->
  exists s' adr', sstep s (SShare v h) = Some s' /\ sinv s' q' adr'.
Proof.
  intros I P; cbn [qstep] in P. destruct (q_var q v) as [id|] eqn:V; [|discriminate].
  destruct (held (q_hold q) h) eqn:Hh; [discriminate|].
  destruct (q_raw q id) eqn:R; inversion P; subst; clear P.
  pose proof (raw_now _ _ R) as E. cbn [sstep]. rewrite (i4 _ _ _ I _ _ V E), (i1 _ _ _ I _ E). unfold what at 1. rewrite R.
  eexists; exists (upd adr id (s_next s)). split; [reflexivity|].
  pose proof (i8 _ _ _ I _ R) as Hn. pose proof (adr_lt _ _ _ _ I E) as Lt.
  set (q' := mkQ _ _ _ _ _ _).
  assert (Ho : forall k, k <> id -> holders (q_hold q') k = holders (q_hold q) k).
  { intros k D. cbn [q' q_hold]. rewrite holders_cons. destruct (Nat.eqb_spec id k); congruence. }
  assert (Hi : holders (q_hold q') id = [h]) by (cbn [q' q_hold]; rewrite holders_cons, Nat.eqb_refl, Hn; auto).
  assert (Now : forall k, k <> id -> exists_now q' k = exists_now q k).
  { intros k D; unfold exists_now. rewrite Ho by auto. cbn [q' q_raw]. now rewrite upd_ne. }
  assert (Wh : forall k, k <> id -> what q' k = what q k).
  { intros k D; unfold what. rewrite Ho by auto. cbn [q' q_raw]. now rewrite upd_ne. }
  assert (Wi : what q' id = CShr id 1) by (unfold what; rewrite Hi; cbn [q' q_raw]; now rewrite upd_eq).
  assert (Ni : exists_now q' id = true) by (unfold exists_now; rewrite Hi; apply orb_true_r).
  split; cbn [s_mem s_next s_var s_hold s_gone s_seen].
  - intros k Ek. destruct (Nat.eq_dec k id) as [->|D].
    + rewrite !upd_eq, Wi; auto.
    + rewrite (upd_ne adr) by auto. rewrite Now in Ek by auto. pose proof (adr_lt _ _ _ _ I Ek).
      rewrite upd_ne by lia. rewrite upd_ne by (intros X; apply D; eapply adr_inj; eauto).
      rewrite Wh by auto. apply (i1 _ _ _ I); auto.
  - intros a o. destruct (Nat.eq_dec a (s_next s)) as [->|D].
    + rewrite upd_eq. intros M; inversion M; subst; cbn [cid]. rewrite upd_eq. repeat split; auto.
    + rewrite upd_ne by auto. destruct (Nat.eq_dec a (adr id)) as [->|D']; [rewrite upd_eq; discriminate|].
      rewrite upd_ne by auto. intros M. destruct (i2 _ _ _ I _ _ M) as (A & B & C).
      assert (cid o <> id) by congruence. rewrite Now, upd_ne by auto. repeat split; auto.
  - cbn [q' q_hold held]. intros k j. destruct (Nat.eqb_spec h k) as [->|D].
    + intros X; inversion X; subst. rewrite !upd_eq; auto.
    + intros X. rewrite (upd_ne _ h) by auto. assert (j <> id) by (intros ->; apply held_in in X; rewrite Hn in X; destruct X).
      rewrite upd_ne by auto. apply (i3 _ _ _ I); auto.
  - cbn [q' q_var]. intros w k Ew L. destruct (Nat.eq_dec k id) as [->|D].
    + rewrite (i5 _ _ _ I _ _ _ Ew V R), !upd_eq; auto.
    + rewrite Now in L by auto. rewrite (upd_ne adr) by auto. rewrite upd_ne by congruence. apply (i4 _ _ _ I); auto.
  - cbn [q' q_var q_raw]. intros w w' k Ew Ew' Rk.
    destruct (Nat.eq_dec k id) as [->|]; [rewrite upd_eq in Rk; discriminate|]. rewrite upd_ne in Rk by auto.
    eapply (i5 _ _ _ I); eauto.
  - cbn [q' q_hold map fst]. constructor; [apply held_keys; auto|apply (i6 _ _ _ I)].
  - apply (i7 _ _ _ I).
  - intros k Ek. cbn [q' q_used]. destruct (Nat.eq_dec k id) as [->|D]; [eapply (i7 _ _ _ I); eauto|].
    rewrite Now in Ek by auto. apply (i7' _ _ _ I); auto.
  - intros k Rk. cbn [q' q_raw] in Rk. destruct (Nat.eq_dec k id) as [->|]; [rewrite upd_eq in Rk; discriminate|].
    rewrite upd_ne in Rk by auto. rewrite Ho by auto. apply (i8 _ _ _ I); auto.
  - apply (i9 _ _ _ I).
  - apply (i10 _ _ _ I).
Qed.

Lemma step_copy s q adr h g q' : sinv s q adr -> qstep q (SCopy h g) = Some q' ->
  exists s' adr', sstep s (SCopy h g) = Some s' /\ sinv s' q' adr'.
Proof.
  intros I P; cbn [qstep] in P. destruct (held (q_hold q) g) as [id|] eqn:G; [|discriminate].
  destruct (held (q_hold q) h) eqn:Hh; inversion P; subst; clear P.
  pose proof (hold_now _ _ _ G) as E. pose proof (hold_raw _ _ _ _ _ I G) as R.
  cbn [sstep]. rewrite (i3 _ _ _ I _ _ G), (i1 _ _ _ I _ E). unfold what at 1. rewrite R.
  eexists; exists adr. split; [reflexivity|].
  set (q' := mkQ _ _ _ _ _ _).
  assert (Ho : forall k, k <> id -> holders (q_hold q') k = holders (q_hold q) k).
  { intros k D. cbn [q' q_hold]. rewrite holders_cons. destruct (Nat.eqb_spec id k); congruence. }
  assert (Hi : holders (q_hold q') id = h :: holders (q_hold q) id) by (cbn [q' q_hold]; rewrite holders_cons, Nat.eqb_refl; auto).
  assert (Now : forall k, exists_now q' k = exists_now q k).
  { intros k. destruct (Nat.eq_dec k id) as [->|]; [|unfold exists_now; rewrite Ho by auto; auto].
    rewrite E. unfold exists_now. rewrite Hi. apply orb_true_r. }
  assert (Wh : forall k, k <> id -> what q' k = what q k) by (intros k D; unfold what; rewrite Ho by auto; auto).
  assert (Wi : what q' id = CShr id (S (length (holders (q_hold q) id)))) by (unfold what; rewrite Hi; cbn [q' q_raw]; rewrite R; auto).
  split; cbn [s_mem s_next s_var s_hold s_gone s_seen].
  - intros k Ek. rewrite Now in Ek. destruct (Nat.eq_dec k id) as [->|D]; [rewrite upd_eq, Wi; auto|].
    rewrite upd_ne by (intros X; apply D; eapply adr_inj; eauto). rewrite Wh by auto. apply (i1 _ _ _ I); auto.
  - intros a o. rewrite Now. destruct (Nat.eq_dec a (adr id)) as [->|D].
    + rewrite upd_eq. intros M; inversion M; subst; cbn [cid]. repeat split; auto. eapply adr_lt; eauto.
    + rewrite upd_ne by auto. apply (i2 _ _ _ I).
  - cbn [q' q_hold held]. intros k j. destruct (Nat.eqb_spec h k) as [->|D].
    + intros X; inversion X; subst. rewrite upd_eq; auto.
    + intros X. rewrite upd_ne by auto. apply (i3 _ _ _ I); auto.
  - intros w k Ew L. rewrite Now in L. apply (i4 _ _ _ I); auto.
  - apply (i5 _ _ _ I).
  - cbn [q' q_hold map fst]. constructor; [apply held_keys; auto|apply (i6 _ _ _ I)].
  - apply (i7 _ _ _ I).
  - intros k Ek. rewrite Now in Ek. apply (i7' _ _ _ I); auto.
  - intros k Rk. cbn [q' q_raw] in Rk. rewrite Ho by congruence. apply (i8 _ _ _ I); auto.
  - apply (i9 _ _ _ I).
  - apply (i10 _ _ _ I).
Qed.

Lemma step_drop s q adr h q' : sinv s q adr -> qstep q (SDrop h) = Some q' ->
  exists s' adr', sstep s (SDrop h) = Some s' /\ sinv s' q' adr'.
Proof.
  intros I P; cbn [qstep] in P. destruct (held (q_hold q) h) as [id|] eqn:G; inversion P; subst; clear P.
  pose proof (hold_now _ _ _ G) as E. pose proof (hold_raw _ _ _ _ _ I G) as R.
  pose proof (holders_drop _ _ _ (i6 _ _ _ I) G) as Len.
  set (q' := mkQ _ _ _ _ _ _).
  assert (Ho : forall k, k <> id -> holders (q_hold q') k = holders (q_hold q) k).
  { intros k D. cbn [q' q_hold]. eapply holders_drop_other; eauto. apply (i6 _ _ _ I). }
  assert (Now : forall k, k <> id -> exists_now q' k = exists_now q k) by (intros k D; unfold exists_now; rewrite Ho by auto; auto).
  assert (Wh : forall k, k <> id -> what q' k = what q k) by (intros k D; unfold what; rewrite Ho by auto; auto).
  assert (Wi : what q' id = CShr id (length (holders (unheld (q_hold q) h) id))) by (unfold what; cbn [q' q_raw q_hold]; rewrite R; auto).
  assert (Ni : exists_now q' id = match holders (unheld (q_hold q) h) id with [] => false | _ => true end)
    by (unfold exists_now; cbn [q' q_raw q_hold]; rewrite R; auto).
  assert (Sub : forall k, exists_now q' k = true -> exists_now q k = true).
  { intros k. destruct (Nat.eq_dec k id) as [->|]; [auto|rewrite Now by auto; auto]. }
  assert (St : sstep s (SDrop h) = Some (mkS (s_next s)
      (upd (s_mem s) (adr id) (if exists_now q' id then Some (what q' id) else None)) (s_var s) (upd (s_hold s) h None)
      (q_gone q') (s_seen s))).
  { cbn [sstep]. rewrite (i3 _ _ _ I _ _ G), (i1 _ _ _ I _ E). unfold what at 1. rewrite R, Len, Wi, Ni, (i9 _ _ _ I).
    cbn [q' q_gone]. destruct (holders (unheld (q_hold q) h) id); cbn [length]; rewrite ?app_nil_r; auto. }
  eexists; exists adr. split; [exact St|].
  split; cbn [s_mem s_next s_var s_hold s_gone s_seen].
  - intros k Ek. destruct (Nat.eq_dec k id) as [->|D]; [rewrite upd_eq, Ek; auto|].
    rewrite upd_ne by (intros X; apply D; eapply adr_inj; eauto). rewrite Wh by auto. apply (i1 _ _ _ I); auto.
  - intros a o. destruct (Nat.eq_dec a (adr id)) as [->|D].
    + rewrite upd_eq. destruct (exists_now q' id) eqn:X; [|discriminate]. intros M; inversion M; subst. rewrite cid_what.
      repeat split; auto. eapply adr_lt; eauto.
    + rewrite upd_ne by auto. intros M. destruct (i2 _ _ _ I _ _ M) as (A & B & C).
      rewrite Now by congruence. auto.
  - cbn [q' q_hold]. intros k j. rewrite held_unheld. destruct (Nat.eqb_spec k h) as [->|D]; [discriminate|].
    intros X. rewrite upd_ne by auto. apply (i3 _ _ _ I); auto.
  - intros w k Ew L. apply (i4 _ _ _ I); auto.
  - apply (i5 _ _ _ I).
  - apply nodup_unheld, (i6 _ _ _ I).
  - apply (i7 _ _ _ I).
  - intros k Ek. apply (i7' _ _ _ I); auto.
  - intros k Rk. cbn [q' q_raw] in Rk. rewrite Ho by congruence. apply (i8 _ _ _ I); auto.
  - auto.
  - apply (i10 _ _ _ I).
Qed.

Lemma step_get s q adr h v q' : sinv s q adr -> qstep q (SGet h v) = Some q' ->
  exists s' adr', sstep s (SGet h v) = Some s' /\ sinv s' q' adr'.
Proof.
  intros I P; cbn [qstep] in P. destruct (held (q_hold q) h) as [id|] eqn:G; inversion P; subst; clear P.
  pose proof (hold_raw _ _ _ _ _ I G) as R. cbn [sstep]. rewrite (i3 _ _ _ I _ _ G).
  eexists; exists adr. split; [reflexivity|].
  split; cbn [s_mem s_next s_var s_hold s_gone s_seen].
  - apply (i1 _ _ _ I).
  - apply (i2 _ _ _ I).
  - apply (i3 _ _ _ I).
  - cbn [q_var]. intros w k. destruct (Nat.eq_dec w v) as [->|D].
    + rewrite !upd_eq. intros X _; inversion X; auto.
    + rewrite !upd_ne by auto. apply (i4 _ _ _ I).
  - cbn [q_var q_raw]. intros w w' k Ew Ew' Rk.
    destruct (Nat.eq_dec w v) as [->|]; [rewrite upd_eq in Ew; congruence|].
    destruct (Nat.eq_dec w' v) as [->|]; [rewrite upd_eq in Ew'; congruence|].
    rewrite upd_ne in Ew, Ew' by auto. eapply (i5 _ _ _ I); eauto.
  - apply (i6 _ _ _ I).
  - cbn [q_var q_used]. intros w k. destruct (Nat.eq_dec w v) as [->|D].
    + rewrite !upd_eq. intros X; inversion X; subst. apply (i7' _ _ _ I). eapply hold_now; eauto.
    + rewrite !upd_ne by auto. apply (i7 _ _ _ I).
  - apply (i7' _ _ _ I).
  - apply (i8 _ _ _ I).
  - apply (i9 _ _ _ I).
  - apply (i10 _ _ _ I).
Qed.

Lemma step_use s q adr v q' : sinv s q adr -> qstep q (SUse v) = Some q' ->
  exists s' adr', sstep s (SUse v) = Some s' /\ sinv s' q' adr'.
Proof.
  intros I P; cbn [qstep] in P. destruct (q_var q v) as [id|] eqn:V; [|discriminate].
  destruct (exists_now q id) eqn:E; inversion P; subst; clear P.
  cbn [sstep]. rewrite (i4 _ _ _ I _ _ V E), (i1 _ _ _ I _ E), cid_what.
  eexists; exists adr. split; [reflexivity|]. destruct I. split; auto. cbn; congruence.
Qed.

Lemma step_any s q adr o q' : sinv s q adr -> qstep q o = Some q' -> exists s' adr', sstep s o = Some s' /\ sinv s' q' adr'.
Proof.
  intros I P; destruct o; eauto using step_create, step_destroy, step_share, step_copy, step_drop, step_get, step_use.
Qed.

Lemma run_any : forall ops s q adr q', sinv s q adr -> qrun q ops = Some q' ->
  exists s' adr', srun_ctx s ops = Some s' /\ sinv s' q' adr'.
Proof.
  induction ops as [|o r IH]; intros s q adr q' I P; cbn [qrun srun_ctx] in *.
  - inversion P; subst; eauto.
  - destruct (qstep q o) as [q1|] eqn:S; [|discriminate]. destruct (step_any _ _ _ _ _ I S) as (s1 & a1 & S1 & I1).
    rewrite S1. eauto.
Qed.

Lemma lives : forall ops q, qrun qst0 ops = Some q ->
  exists s, srun_ctx sst0 ops = Some s /\ s_gone s = q_gone q /\ s_seen s = q_seen q /\
    forall id, exists_now q id = true <-> exists a o, s_mem s a = Some o /\ cid o = id.
Proof.
  intros ops q P. destruct (run_any _ _ _ _ _ sinv0 P) as (s & adr & S & I). exists s.
  split; [exact S|]. split; [apply (i9 _ _ _ I)|]. split; [apply (i10 _ _ _ I)|].
  intros id; split.
  - intros E. exists (adr id), (what q id). split; [apply (i1 _ _ _ I); auto|apply cid_what].
  - intros (a & o & M & <-). apply (i2 _ _ _ I _ _ M).
Qed.

Lemma srun_ctx_app ops ops' s : srun_ctx s (ops ++ ops') = match srun_ctx s ops with Some s' => srun_ctx s' ops' | None => None end.
Proof. revert s; induction ops as [|o r IH]; intros s; cbn; auto. destruct (sstep s o); auto. Qed.

Lemma destroy_iff : forall ops q v id h, qrun qst0 ops = Some q -> q_var q v = Some id -> exists_now q id = true ->
  (srun_ctx sst0 (ops ++ [SDestroy v]) <> None <-> q_raw q id = true) /\
  (srun_ctx sst0 (ops ++ [SShare v h]) <> None <-> q_raw q id = true).
Proof.
  intros ops q v id h P V E. destruct (run_any _ _ _ _ _ sinv0 P) as (s & adr & S & I).
  rewrite !srun_ctx_app, S. cbn [srun_ctx sstep]. rewrite (i4 _ _ _ I _ _ V E), (i1 _ _ _ I _ E). unfold what.
  destruct (q_raw q id); split; split; congruence.
Qed.


(** ** Every context is destroyed once *)

Definition qacc (q : qst) : Prop :=
  NoDup (q_gone q) /\ forall id, In id (q_gone q) <-> q_used q id = true /\ exists_now q id = false.

Lemma qacc_same q q' : q_gone q' = q_gone q -> q_used q' = q_used q -> (forall k, exists_now q' k = exists_now q k) -> qacc q -> qacc q'.
Proof. intros G U E [N A]. split; [now rewrite G|]. intros id; now rewrite G, U, E. Qed.
Lemma qacc_end q q' id : qacc q -> exists_now q id = true -> q_used q id = true -> q_gone q' = q_gone q ++ [id] ->
  q_used q' = q_used q -> exists_now q' id = false -> (forall k, k <> id -> exists_now q' k = exists_now q k) -> qacc q'.
Proof.
  intros [N A] E U G U' Ni No. split.
  - rewrite G. apply NoDup_rev in N. rewrite <- (rev_involutive (q_gone q ++ [id])). apply NoDup_rev. rewrite rev_app_distr. cbn.
    constructor; auto. rewrite <- in_rev. intros I; apply A in I. destruct I; congruence.
  - intros k. rewrite G, U', in_app_iff, A. cbn. destruct (Nat.eq_dec k id) as [->|D].
    + split; auto. 
    + rewrite No by auto. intuition congruence.
Qed.

Lemma qacc_step s q adr o q' : sinv s q adr -> qacc q -> qstep q o = Some q' -> qacc q'.
Proof.
  intros I Ac P. destruct o as [v i|v|v h|h g|h|h v|v]; cbn [qstep] in P.
  - destruct (q_used q i) eqn:U; inversion P; subst. destruct Ac as [N A]. split; [exact N|].
    intros id. cbn [q_gone q_used]. rewrite A. unfold exists_now; cbn [q_raw q_hold]. destruct (Nat.eq_dec id i) as [->|D].
    + rewrite !upd_eq. cbn. split; [intros []; congruence|intros []; congruence].
    + rewrite !upd_ne by auto. tauto.
  - destruct (q_var q v) as [i|] eqn:V; [|discriminate]. destruct (q_raw q i) eqn:R; inversion P; subst.
    eapply qacc_end with (id := i); try exact Ac; try reflexivity.
    + apply raw_now; auto.
    + eapply (i7 _ _ _ I); eauto.
    + unfold exists_now; cbn [q_raw q_hold]. rewrite upd_eq, (i8 _ _ _ I _ R). auto.
    + intros k D. unfold exists_now; cbn [q_raw q_hold]. rewrite upd_ne by auto. auto.
  - destruct (q_var q v) as [i|] eqn:V; [|discriminate]. destruct (held (q_hold q) h); [discriminate|].
    destruct (q_raw q i) eqn:R; inversion P; subst. eapply qacc_same; try exact Ac; auto.
    intros k. unfold exists_now; cbn [q_raw q_hold]. rewrite holders_cons. destruct (Nat.eqb_spec i k) as [->|].
    + rewrite R. apply orb_true_r.
    + rewrite upd_ne by auto. auto.
  - destruct (held (q_hold q) g) as [i|] eqn:H; [|discriminate]. destruct (held (q_hold q) h); inversion P; subst.
    eapply qacc_same; try exact Ac; auto.
    intros k. destruct (Nat.eq_dec i k) as [->|].
    + rewrite (hold_now _ _ _ H). unfold exists_now; cbn [q_raw q_hold]. rewrite holders_cons, Nat.eqb_refl. apply orb_true_r.
    + unfold exists_now; cbn [q_raw q_hold]. rewrite holders_cons. destruct (Nat.eqb_spec i k); [congruence|auto].
  - destruct (held (q_hold q) h) as [i|] eqn:H; inversion P; subst.
    assert (O : forall k, k <> i -> holders (unheld (q_hold q) h) k = holders (q_hold q) k).
    { intros k D. eapply holders_drop_other; eauto. apply (i6 _ _ _ I). }
    destruct (holders (unheld (q_hold q) h) i) as [|z zs] eqn:Z.
    + eapply qacc_end with (id := i); try exact Ac; try reflexivity.
      * eapply hold_now; eauto.
      * eapply (i7' _ _ _ I), hold_now; eauto.
      * unfold exists_now; cbn [q_raw q_hold]. rewrite (hold_raw _ _ _ _ _ I H), Z. auto.
      * intros k D. unfold exists_now; cbn [q_raw q_hold]. rewrite O by auto. auto.
    + eapply qacc_same; try exact Ac; auto; [cbn; apply app_nil_r|].
      intros k. unfold exists_now; cbn [q_raw q_hold]. destruct (Nat.eq_dec k i) as [->|].
      * rewrite Z. pose proof (hold_now _ _ _ H) as E. unfold exists_now in E. rewrite E. apply orb_true_r.
      * rewrite O by auto. auto.
  - destruct (held (q_hold q) h); inversion P; subst. eapply qacc_same; try exact Ac; auto.
  - destruct (q_var q v) as [i|]; [|discriminate]. destruct (exists_now q i); inversion P; subst. eapply qacc_same; try exact Ac; auto.
Qed.

Lemma qacc_run : forall ops s q adr q', sinv s q adr -> qacc q -> qrun q ops = Some q' -> qacc q'.
Proof.
  induction ops as [|o r IH]; intros s q adr q' I A P; cbn [qrun] in P; [inversion P; subst; auto|].
  destruct (qstep q o) as [q1|] eqn:S; [|discriminate]. destruct (step_any _ _ _ _ _ I S) as (s1 & a1 & _ & I1).
  refine (IH s1 q1 a1 q' I1 _ P). exact (qacc_step s q adr o q1 I A S).
Qed.

Lemma destroyed_once : forall ops q, qrun qst0 ops = Some q ->
  exists s, srun_ctx sst0 ops = Some s /\ NoDup (s_gone s) /\
    forall id, In id (s_gone s) <-> (exists v, In (SCreate v id) ops) /\ forall a o, s_mem s a = Some o -> cid o <> id.
Proof.
  intros ops q P. destruct (lives _ _ P) as (s & S & G & _ & L). exists s. split; [exact S|]. rewrite G.
  assert (A0 : qacc qst0) by (split; [constructor|cbn; intuition discriminate]).
  destruct (qacc_run _ _ _ _ _ sinv0 A0 P) as [N A]. split; [exact N|]. intros id. rewrite A.
  assert (U : q_used q id = true <-> exists v, In (SCreate v id) ops).
  { assert (W : forall ops q0, qrun q0 ops = Some q -> (q_used q id = true <-> q_used q0 id = true \/ exists v, In (SCreate v id) ops)).
    { clear. induction ops as [|o r IH]; intros q0 P; cbn [qrun] in P.
      - inversion P; subst. split; auto. intros [|[v []]]; auto.
      - destruct (qstep q0 o) as [q1|] eqn:S; [|discriminate]. rewrite (IH _ P).
        assert (X : q_used q1 id = true <-> q_used q0 id = true \/ exists v, o = SCreate v id).
        { destruct o as [v i|v|v h|h g|h|h v|v]; cbn [qstep] in S;
          repeat match type of S with context[match ?x with _ => _ end] => destruct x eqn:?; try discriminate end;
          inversion S; subst; cbn [q_used];
          try (split; [auto|intros [|[? ?]]; [auto|discriminate]]).
          unfold upd. destruct (Nat.eqb_spec id i) as [->|D].
          - split; eauto.
          - split; [auto|intros [|[? E]]; auto; inversion E; congruence]. }
        rewrite X. cbn [In]. split; intros H.
        + destruct H as [[?|[v ->]]|[v ?]]; eauto.
        + destruct H as [?|[v [->|?]]]; eauto. }
    rewrite (W _ _ P). cbn. split; [intros [|]; [discriminate|auto]|auto]. }
  rewrite U. apply and_iff_compat_l. split.
  - intros E a o M X. assert (exists_now q id = true) by (apply L; eauto). congruence.
  - intros H. destruct (exists_now q id) eqn:E; auto. apply L in E. destruct E as (a & o & M & C). destruct (H _ _ M C).
Qed.
