(** Occluded points: consequences. *)
From Coq Require Import List ZArith QArith Bool Lia.
From Verif Require Import TupleModel RangeModel RangeProof CartModel CartProof FieldSpec AsmSpec NeighSpec OccModel OccSpec OccProof.
Import ListNotations.
Local Open Scope Z_scope.

Section Laws.
Variables (X : odata) (junk : mask) (r : list (Z * mask)).
Hypothesis HX : odata_ok X.
Hypothesis Hr : detect_occluded X junk = Some r.
Notation rng g := (c_range (od_cart X g)).

Lemma result : map fst r = od_grids X /\ forall g m p, In (g, m) r -> pt_in (rng g) p -> (m p = true <-> occluded X g p).
Proof.
  destruct (detect_ok X junk HX (detect_needs X junk r HX Hr)) as (r' & E & H). rewrite E in Hr. injection Hr as ->. exact H.
Qed.

Lemma marked_cell k p : marked X k p -> od_vertices X k p <> None.
Proof.
  intros [[_ H] | [[_ [_ [H _]]] | [[_ [_ (vs & E & _)]] | [_ [_ (vs & E & _)]]]]]; [apply (oo_overlap X HX); exact H | exact H | congruence | congruence].
Qed.

Lemma occluded_based g p : occluded X g p -> based X g p.
Proof. intros [(m & A & B & _) | (_ & B & _)]; [exists m; auto | exact B]. Qed.

Lemma occluded_cell g m p : In (g, m) r -> pt_in (rng g) p -> m p = true -> exists k, occluding X (k, g) /\ od_vertices X (k, g) p <> None.
Proof.
  intros Hg Hp H. apply (proj2 result g m p Hg Hp) in H. destruct (occluded_based g p H) as (k & A & B). exists k. split; [exact A | apply marked_cell; exact B].
Qed.

Lemma occluded_coarse g m p : In (g, m) r -> pt_in (rng g) p ->
  (forall k, occluding X (k, g) -> od_occludes X (k, g) = O_COARSE /\ od_occludes X (g, k) <> O_COARSE) ->
  m p = true -> exists k, occluding X (k, g) /\ coarser X (k, g) p.
Proof.
  intros Hg Hp Ho H. apply (proj2 result g m p Hg Hp) in H. destruct (occluded_based g p H) as (k & A & B). exists k. split; [exact A |].
  destruct (Ho k A) as [O1 O2]. assert (N : ~ both_ways X (k, g)) by (intros [_ C]; exact (O2 C)).
  destruct B as [[B _] | [[_ [_ B]] | [[B _] | [B _]]]]; [congruence | exact B | tauto | tauto].
Qed.

Lemma within_self' g u n : 0 <= n -> within (od_cart X g) n u u.
Proof.
  intro Hk. exists u. split.
  - intros d Hd. split; intro H; [exists 0; lia | reflexivity].
  - intros d Hd. destruct (Nat.ltb d (c_nd (od_cart X g))); [lia | reflexivity].
Qed.

Lemma occluded_away g m p : In (g, m) r -> pt_in (rng g) p -> od_smoothing X g = 0 -> m p = true ->
  exists k, occluding X (k, g) /\ on_cell X (k, g) p (fun v => forall w, pt_in (rng k) w -> within (od_cart X k) (od_padding X (k, g)) v w ->
    od_fringe X k w = false /\
    (od_occludes X (g, k) <> O_NONE -> od_active X k w = true /\
       ((forall k', occluding X (k', k) -> k' = g) -> forall mk, In (k, mk) r -> mk w = false))).
Proof.
  intros Hg Hp Hs H. apply (proj2 result g m p Hg Hp) in H. destruct H as [(k & A & B & (vs & E & C)) | (N & _)]; [| congruence].
  exists k. split; [exact A |]. exists vs. split; [exact E |]. intros v Hv w Hw Hvw.
  assert (F : ~ forbidden X (k, g) w) by (intro F; apply (C v Hv); exists w; auto).
  unfold forbidden in F. cbn [fst snd swap] in F. split; [destruct (od_fringe X k w); [exfalso; apply F; auto | reflexivity] |].
  intro N. split; [destruct (od_active X k w) eqn:G; [reflexivity | exfalso; apply F; auto] |].
  intros Honly mk Hmk. destruct (mk w) eqn:G; [| reflexivity]. exfalso. apply (proj2 result k mk w Hmk Hw) in G.
  destruct (occluded_based k w G) as (k' & A' & B'). rewrite (Honly k' A') in B'. apply F. right. auto.
Qed.

Lemma occluded_all g k m p : In (g, m) r -> pt_in (rng g) p -> occluding X (k, g) -> od_occludes X (k, g) = O_ALL -> od_occludes X (g, k) = O_NONE ->
  (forall v, pt_in (rng k) v -> od_fringe X k v = false) -> od_overlap X (k, g) p = true -> m p = true.
Proof.
  intros Hg Hp A O1 O2 Hf H. apply (proj2 result g m p Hg Hp). left. exists k. split; [exact A |]. split; [left; auto |].
  destruct (od_vertices X (k, g) p) as [vs |] eqn:E; [| exfalso; apply (oo_overlap X HX _ _ H); exact E].
  exists vs. split; [exact E |]. intros v Hv (w & W1 & W2 & _). destruct W2 as [W2 | [W2 _]].
  - cbn in W2. rewrite (Hf w W1) in W2. discriminate.
  - unfold swap in W2. cbn [fst snd] in W2. congruence.
Qed.

Lemma unsmoothed_ok : odata_ok (unsmoothed X).
Proof. destruct HX. constructor; cbn; auto. intros _. lia. Qed.

Lemma smoothing_adds r0 : detect_occluded (unsmoothed X) junk = Some r0 -> forall g m m0 p, In (g, m) r -> In (g, m0) r0 -> pt_in (rng g) p ->
  m0 p = true -> m p = true.
Proof.
  intros H0 g m m0 p Hg Hg0 Hp H. destruct (detect_ok (unsmoothed X) junk unsmoothed_ok (detect_needs _ _ _ unsmoothed_ok H0)) as (r' & E & _ & R).
  rewrite E in H0. injection H0 as ->. apply (R g m0 p Hg0 Hp) in H. destruct H as [H | [N _]]; [| cbn in N; congruence].
  apply (proj2 result g m p Hg Hp). left. exact H.
Qed.

Lemma smoothing_near r0 : detect_occluded (unsmoothed X) junk = Some r0 -> forall g m m0 p, In (g, m) r -> In (g, m0) r0 -> pt_in (rng g) p ->
  m p = true -> exists q, pt_in (rng g) q /\ within (od_cart X g) (od_smoothing X g) p q /\ m0 q = true.
Proof.
  intros H0 g m m0 p Hg Hg0 Hp H. destruct (detect_ok (unsmoothed X) junk unsmoothed_ok (detect_needs _ _ _ unsmoothed_ok H0)) as (r' & E & _ & R).
  rewrite E in H0. injection H0 as ->. pose proof (oo_smoothing X HX g) as Hs.
  apply (proj2 result g m p Hg Hp) in H. destruct H as [H | (_ & _ & A)].
  - exists p. split; [exact Hp |]. split; [apply within_self'; exact Hs |]. apply (R g m0 p Hg0 Hp). left. exact H.
  - destruct (A p Hp (within_self' g p _ Hs)) as (q & Q1 & Q2 & Q3). exists q. split; [exact Q1 |]. split; [exact Q3 |].
    apply (R g m0 q Hg0 Q1). left. exact Q2.
Qed.
End Laws.

Lemma smoothing_both X junk r : odata_ok X -> detect_occluded X junk = Some r -> forall r0, detect_occluded (unsmoothed X) junk = Some r0 ->
  forall g m m0 p, In (g, m) r -> In (g, m0) r0 -> pt_in (c_range (od_cart X g)) p ->
  (m0 p = true -> m p = true) /\
  (m p = true -> exists q, pt_in (c_range (od_cart X g)) q /\ within (od_cart X g) (od_smoothing X g) p q /\ m0 q = true).
Proof.
  intros HX Hr r0 H0 g m m0 p Hg Hg0 Hp. split; [apply (smoothing_adds X junk r HX Hr r0 H0 g m m0 p Hg Hg0 Hp) |
    apply (smoothing_near X junk r HX Hr r0 H0 g m m0 p Hg Hg0 Hp)].
Qed.
