(** A whole assembly: what the parts contribute. *)
From Coq Require Import List ZArith QArith Bool Lia Sorting.Sorted.
From Verif Require Import TupleModel RangeModel Base RangeProof DRangeProof CartModel CartProof DecompModel IndexerModel ArrayModel ArrayProof HashModel HashProof.
From Verif Require Import NetModel NeighSpec HaloModel FieldModel FieldSpec FieldProof EdgeProof AsmModel AsmSpec AsmFlags AsmGeom AsmPhase AsmProof AsmMain AsmLaws.
From Verif Require Import CellModel CellSpec DonorProof OccModel OccSpec OccProof OccLaws HoleModel HoleSpec HoleProof HoleLaws DomModel DomSpec DomGeom DomProof.
Import ListNotations.
Local Open Scope Z_scope.
Notation flag := AsmSpec.flag.
Notation kept := AsmSpec.kept.

(** ** More about occlusion *)

Section Occ.
Variables (Y : odata) (junk : mask).
Hypothesis HY : odata_ok Y.
Notation rng g := (c_range (od_cart Y g)).

Lemma kept_based g p : OccSpec.kept Y g p -> based Y g p.
Proof. intros (m & A & B & _). exists m. auto. Qed.

Lemma occ0_spec g p : pt_in (rng g) p -> occ0 Y junk g p = true <-> occluded Y g p.
Proof.
  intros Hp. split; [exact (occ0_ok Y junk HY g p Hp)|]. intros [A|(A & B & C)]; [|exact (occ0_iff Y junk HY g p Hp A B C)].
  destruct (Z.eq_dec (od_smoothing Y g) 0) as [E|E].
  - unfold occ0, smoothed. rewrite E. cbn [Z.eqb]. apply (kept0_ok Y junk HY), A.
  - apply (occ0_iff Y junk HY g p Hp E (kept_based g p A)). intros x Hx W. exists p. split; [exact Hp|]. split; [exact A|]. apply (AsmGeom.within_sym), W.
Qed.

Lemma pairwise_spec pw : pairwise_masks Y junk = Some pw -> exists f, pw = with_all (used Y) f /\
  forall m g p, In g (od_grids Y) -> pt_in (rng g) p -> occluding Y (m, g) -> (f (m, g) p = true <-> marked Y (m, g) p /\ occluded Y g p).
Proof.
  intros E. assert (C : complete Y) by (apply (detect_needs Y junk (map (fun g => (g, any_for g pw)) (od_grids Y)) HY); unfold detect_occluded; rewrite E; reflexivity).
  destruct (pairwise_eq Y junk C) as (f & E' & Hf). rewrite E in E'. injection E' as ->. exists f. split; [reflexivity|].
  intros m g p Hg Hp O. rewrite (Hf g m p Hg). assert (U : In (m, g) (used Y)) by (apply used_ok, O).
  assert (M : mk2 Y (m, g) p = true <-> marked Y (m, g) p) by (apply (mk2_ok Y HY); [apply O|apply (proj2 (oo_pairs Y HY)), O]).
  rewrite <- M, <- (occ0_spec g p Hp). destruct (mk2 Y (m, g) p) eqn:EM; [|cbn; split; [discriminate|intros [Q _]; discriminate]]. cbn [andb].
  destruct (alw Y junk (m, g) p) eqn:EA.
  - cbn. split; [|reflexivity]. intros _. split; [reflexivity|]. apply (occ0_spec g p Hp). left. exists m. split; [exact O|].
    apply (kept_pair Y junk HY (m, g) p U). rewrite EM, EA. reflexivity.
  - cbn. rewrite negb_involutive. tauto.
Qed.

Lemma pairwise_any pw : pairwise_masks Y junk = Some pw -> forall g p, In g (od_grids Y) -> pt_in (rng g) p -> (any_for g pw p = true <-> occluded Y g p).
Proof.
  intros E g p Hg Hp. destruct (pairwise_spec pw E) as (f & -> & Hf). rewrite (any_all Y). split.
  - intros (m & O & A). apply (Hf m g p Hg Hp O) in A. apply A.
  - intros A. pose proof (occluded_based Y g p A) as (m & O & B). exists m. split; [exact O|]. apply (Hf m g p Hg Hp O). auto.
Qed.
End Occ.

(** ** Lists of pairs *)

Lemma sorted_nodup {A} (lt : A -> A -> Prop) l : (forall a, ~ lt a a) -> StronglySorted lt l -> NoDup l.
Proof.
  intros Irr. induction 1 as [|a l S IH Hf]; constructor; [|exact IH]. intros Ha. rewrite Forall_forall in Hf. apply (Irr a), Hf, Ha.
Qed.

Lemma sorted_sub {A} (lt : A -> A -> Prop) f l : StronglySorted lt l -> StronglySorted lt (filter f l).
Proof.
  induction 1 as [|a l S IH Hf]; cbn; [constructor|]. destruct (f a); [|exact IH]. constructor; [exact IH|].
  rewrite Forall_forall in *. intros b Hb. apply filter_In in Hb. apply Hf, Hb.
Qed.

Section Laws.
Variable X : ddata.
Hypothesis K : ddata_ok X.
Notation cart_of := (dd_cart X).
Notation rng g := (c_range (dd_cart X g)).
Notation gin g := (In g (dd_grids X)).
Notation at_ F g := (flags_of X F g).

Lemma pair_map_at (f : Z * Z -> mask) l k p : pt_in (rng (snd k)) p -> In k l -> pair_mask X (map (fun k => (k, each (cart_of (snd k)) (f k))) l) k p = f k p.
Proof.
  intros Hp Hk. unfold pair_mask. induction l as [|a l IH]; [contradiction|]. cbn [map find fst snd]. destruct (pair_eqb a k) eqn:E.
  - apply pair_eqb_ok in E. subst a. apply value_each, Hp.
  - apply IH. destruct Hk as [->|Hk]; [rewrite (proj2 (pair_eqb_ok k k) eq_refl) in E; discriminate|exact Hk].
Qed.

Lemma pair_map_in (f : Z * Z -> mask) l k p : pair_mask X (map (fun k => (k, each (cart_of (snd k)) (f k))) l) k p = true -> pt_in (rng (snd k)) p /\ In k l.
Proof.
  unfold pair_mask. intros H. destruct (find _ _) as [e|] eqn:E; [|discriminate]. split.
  - destruct (rcontains (rng (snd k)) p) eqn:R; [apply rcontains_spec, R|]. unfold value in H. rewrite R in H. discriminate.
  - apply find_some in E as [E1 E2]. apply in_map_iff in E1 as (a & <- & Ha). apply pair_eqb_ok in E2. cbn in E2. subst a. exact Ha.
Qed.

Variables (junk : mask) (fuel : nat) (F : fields Z).
Variables (hol : list (Z * mask)) (pw : pmap) (don : list (Z * list donor_state)).
Notation V := (s_V X F).
Notation R := (s_R X F hol pw don).
Hypothesis Ehol : cut_holes (s_hdata X F) fuel = Some hol.
Hypothesis Epw : pairwise_masks (s_odata X F hol) junk = Some pw.
Hypothesis Edon : donors X V (s_recv X F hol pw) (s_ov7 X F hol pw) (s_dist X F hol pw) = Some don.

Lemma VK : found_ok X (s_act1 X F) V.
Proof. exact (dk_detect X K (s_act1 X F)). Qed.
Lemma pairs_nodup : NoDup (fo_pairs V).
Proof. apply (sorted_nodup _ _ ) with (2 := fk_pairs X _ _ VK). intros a. lia. Qed.
Lemma vertices_in k p vs v : fo_vertices V k p = Some vs -> In v vs -> pt_in (rng (fst k)) v.
Proof. intros E Hv. apply (fk_cells X _ _ VK k p vs E), Hv. Qed.
Lemma vertices_point k p vs : fo_vertices V k p = Some vs -> pt_in (rng (snd k)) p.
Proof. intros E. apply (fk_cells X _ _ VK k p vs E). Qed.
Lemma vertices_pair k p vs : fo_vertices V k p = Some vs -> In k (fo_pairs V).
Proof. intros E. apply (fk_cells X _ _ VK k p vs E). Qed.

Lemma Hout g : gin g -> outcome (cart_of g) (dd_infer X g) (dd_fringe X g) (at_ F g) (contributed X R g) (at_ (as_flags R) g) (max_distance X V g) (at_ (as_distances R) g).
Proof. intros Hg. exact (flags_outcome X K F hol pw don g Hg). Qed.

(** Holes. *)
Lemma hdata_is_ok : hdata_ok (s_hdata X F).
Proof.
  constructor.
  - intros g. destruct (dk_carts X K g) as (A & B & C & D & E). split; [exact B|]. split; [exact C|]. split; [apply A|]. intros d Hd. destruct (E d Hd) as (E1 & E2 & E3).
    split; [exact E1|]. cbn [hd_cart s_hdata hole_data]. lia.
  - intros k p vs v. apply vertices_in.
Qed.

Lemma hole_at g p : gin g -> pt_in (rng g) p -> mask_of X (as_holes R) g p = true <-> hole (s_hdata X F) g p.
Proof.
  intros Hg Hp. destruct (cut_result _ hdata_is_ok fuel hol Ehol) as [E1 E2]. assert (Hh : In g (map fst hol)) by (rewrite E1; exact Hg).
  apply in_map_iff in Hh as ([g' m] & Eg & Hm). cbn in Eg. subst g'. cbn [as_holes s_R]. unfold s_hole.
  rewrite (as_fields_at X hol g m p); [apply (E2 g m p Hm Hp)| |exact Hm|exact Hg|exact Hp]. rewrite E1. apply (dk_grids X K).
Qed.

Lemma hole_flag g p : gin g -> pt_in (rng g) p -> flag BOUNDARY_HOLE (at_ (as_flags R) g) p = mask_of X (as_holes R) g p.
Proof. intros Hg Hp. destruct (Hout g Hg) as (_ & O & _). apply (O p Hp). Qed.

Lemma was_hole g p : gin g -> pt_in (rng g) p -> mask_of X (as_holes R) g p = true -> was_active (at_ F g) p = true.
Proof.
  intros Hg Hp H. apply (hole_at g p Hg Hp) in H as (_ & H & _). cbn [hd_active s_hdata hole_data] in H. rewrite (act1_at X F hol pw don g Hg p Hp) in H. exact H.
Qed.

Lemma hole_input_ok : hole_input X F R (s_hdata X F).
Proof.
  do 5 (split; [reflexivity|]). intros g p Hg Hp. split; [apply (act1_at X F hol pw don g Hg p Hp)|]. split.
  - cbn [hd_boundary s_hdata hole_data]. rewrite either_at by assumption. rewrite (bnd1_at X F hol pw don g Hg p Hp), (inf_at X K F hol pw don g Hg p Hp).
    destruct (Hout g Hg) as (_ & _ & O & _). destruct (O p Hp) as [O1 O2]. rewrite O2.
    assert (I : inf (cart_of g) (contributed X R g) (dd_infer X g) (t1 X F hol pw don g) p = flag INFERRED_DOMAIN_BOUNDARY (at_ (as_flags R) g) p).
    { apply bool_iff. rewrite O1. destruct (whole _ (dk_carts X K g)) as (N & H & P). apply (inf_spec _ _ _ _ _ _ P (dd_infer X g) (at_ F g) (contributed X R g) p Hp). }
    rewrite I. destruct (was_active (at_ F g) p) eqn:A; [reflexivity|]. cbn [andb orb].
    destruct (flag INFERRED_DOMAIN_BOUNDARY (at_ (as_flags R) g) p) eqn:Q; [|reflexivity]. destruct (proj1 O1 eq_refl) as (_ & Q' & _). discriminate.
  - intros k Ek Hk. subst g. apply (pair_map_at (has_cell V)); assumption.
Qed.

(** Occlusion. *)
Lemma left_at g p : gin g -> pt_in (rng g) p -> mask_of X (s_act4 X F hol) g p = left_active X F R g p.
Proof. intros Hg Hp. rewrite (act4_at X K F hol pw don g Hg p Hp). unfold left_active. rewrite (hole_flag g p Hg Hp). reflexivity. Qed.

Lemma ov4_spec k p : pair_mask X (s_ov4 X F hol) k p = true <-> exists vs, fo_vertices V k p = Some vs /\ forall v, In v vs -> left_active X F R (fst k) v = true.
Proof.
  unfold s_ov4, updated. split.
  - intros H. destruct (pair_map_in _ _ _ _ H) as [Hp Hk]. rewrite pair_map_at in H by assumption. destruct (fo_vertices V k p) as [vs|] eqn:E.
    + exists vs. split; [reflexivity|]. rewrite forallb_forall in H. intros v Hv. rewrite <- left_at; [apply H, Hv|apply (fk_grids X _ _ VK k Hk)|exact (vertices_in k p vs v E Hv)].
    + apply andb_true_iff in H as [H _]. unfold overlap_masks in H. rewrite (pair_map_at (has_cell V)) in H by assumption. unfold has_cell in H. rewrite E in H. discriminate.
  - intros (vs & E & H). pose proof (vertices_pair k p vs E) as Hk. rewrite pair_map_at by (try exact Hk; exact (vertices_point k p vs E)). rewrite E. apply forallb_forall.
    intros v Hv. rewrite left_at; [apply H, Hv|apply (fk_grids X _ _ VK k Hk)|exact (vertices_in k p vs v E Hv)].
Qed.

Lemma odata_is_ok : odata_ok (s_odata X F hol).
Proof.
  constructor.
  - intros g. destruct (dk_carts X K g) as (A & B & C & D & E). split; [exact B|]. split; [exact C|]. intros d Hd. apply (E d Hd).
  - split; [exact pairs_nodup|]. intros k Hk. apply (fk_grids X _ _ VK k Hk).
  - intros k p vs v. apply vertices_in.
  - intros k p H. apply ov4_spec in H as (vs & E & _). cbn. congruence.
  - intros k. apply (dk_padding X K k).
  - intros g. apply (dk_smoothing X K g).
Qed.

Lemma out_spec g p : gin g -> pt_in (rng g) p -> mask_of X (s_out X F hol) g p = true <->
  outer (cart_of g) (dd_fringe X g) (at_ F g) (contributed X R g) (at_ (as_flags R) g) p.
Proof.
  intros Hg Hp. rewrite (outer_ext _ _ _ _ (t7 X F hol pw don g) (at_ (as_flags R) g) p (at8 X K F hol pw don g Hg)).
  exact (out_outer (cart_of g) (dd_infer X g) (at_ F g) (contributed X R g) (mask_of X (s_mn X F hol pw) g) (mask_of X (s_inn X F hol pw) g) (mask_of X (s_out X F hol) g)
    (mask_of X (s_recv X F hol pw) g) (dd_fringe X g) (out_at X K F hol pw don g Hg) p Hp).
Qed.

Lemma occlusion_input_ok : occlusion_input X F R (s_odata X F hol).
Proof.
  do 9 (split; [reflexivity|]). intros g p Hg Hp. split; [apply (left_at g p Hg Hp)|]. split; [apply (out_spec g p Hg Hp)|].
  intros k _ _. apply ov4_spec.
Qed.

Lemma occluded_at g p : gin g -> pt_in (rng g) p -> mask_of X (as_occluded R) g p = true <-> occluded (s_odata X F hol) g p.
Proof.
  intros Hg Hp. cbn [as_occluded s_R]. unfold s_occl. rewrite (as_fields_at X _ g (any_for g pw) p).
  - apply (pairwise_any (s_odata X F hol) junk odata_is_ok pw Epw g p Hg Hp).
  - rewrite map_map. cbn. rewrite map_id. apply (dk_grids X K).
  - apply in_map_iff. exists g. auto.
  - exact Hg.
  - exact Hp.
Qed.

Lemma cand_at g p : gin g -> pt_in (rng g) p -> mask_of X (as_cand R) g p = true <->
  exists m, occluding (s_odata X F hol) (m, g) /\ dd_minimize X (m, g) = true /\ marked (s_odata X F hol) (m, g) p /\ occluded (s_odata X F hol) g p.
Proof.
  intros Hg Hp. cbn [as_cand s_R]. unfold s_cand, to_minimize. rewrite mask_for by assumption.
  destruct (pairwise_spec (s_odata X F hol) junk odata_is_ok pw Epw) as (f & -> & Hf). rewrite existsb_exists. split.
  - intros (e & He & Q). apply in_map_iff in He as ([m g'] & <- & Hk). cbn [fst snd] in Q. rewrite !andb_true_iff, Z.eqb_eq in Q. destruct Q as [[<- Q1] Q2].
    apply used_ok in Hk. exists m. split; [exact Hk|]. split; [exact Q1|]. apply (Hf m g' p Hg Hp Hk), Q2.
  - intros (m & O & Q1 & Q2). exists ((m, g), f (m, g)). split; [apply in_map_iff; exists (m, g); split; [reflexivity|apply used_ok, O]|]. cbn [fst snd].
    rewrite Z.eqb_refl, Q1. apply (Hf m g p Hg Hp O), Q2.
Qed.

Lemma cand_active g p : gin g -> pt_in (rng g) p -> mask_of X (as_cand R) g p = true -> was_active (at_ F g) p = true /\ mask_of X (as_occluded R) g p = true.
Proof.
  intros Hg Hp H. apply (cand_at g p Hg Hp) in H as (m & O & _ & M & Q). split; [|apply (occluded_at g p Hg Hp), Q].
  pose proof (marked_cell (s_odata X F hol) odata_is_ok (m, g) p M) as E. cbn [od_vertices s_odata occlusion_data] in E.
  destruct (fo_vertices V (m, g) p) as [vs|] eqn:E'; [|congruence]. destruct (fk_cells X _ _ VK (m, g) p vs E') as (_ & _ & _ & A & _). cbn [snd] in A.
  rewrite (act1_at X F hol pw don g Hg p Hp) in A. exact A.
Qed.

(** Donors. *)
Lemma receiver_at g p : gin g -> pt_in (rng g) p -> flag RECEIVER (at_ (as_flags R) g) p = mask_of X (s_recv X F hol pw) g p.
Proof.
  intros Hg Hp. unfold flag. change (as_flags R) with (s_f8 X F hol pw don). rewrite (at8 X K F hol pw don g Hg p Hp).
  exact (receiver_bit (cart_of g) (dd_infer X g) (at_ F g) (contributed X R g) (mask_of X (s_mn X F hol pw) g) (mask_of X (s_inn X F hol pw) g) (mask_of X (s_out X F hol) g)
    (mask_of X (s_recv X F hol pw) g) p Hp).
Qed.

Lemma active_at g p : gin g -> pt_in (rng g) p -> flag ACTIVE (at_ (as_flags R) g) p = mask_of X (s_act7 X F hol pw) g p.
Proof.
  intros Hg Hp. rewrite (act7_at X K F hol pw don g Hg p Hp). unfold flag. change (as_flags R) with (s_f8 X F hol pw don). rewrite (at8 X K F hol pw don g Hg p Hp).
  exact (active_bit' (cart_of g) (dd_infer X g) (at_ F g) (contributed X R g) (mask_of X (s_mn X F hol pw) g) (mask_of X (s_inn X F hol pw) g) (mask_of X (s_out X F hol) g)
    (mask_of X (s_recv X F hol pw) g) p Hp).
Qed.

Lemma ov7_spec k p : pair_mask X (s_ov7 X F hol pw) k p = true <-> exists vs, fo_vertices V k p = Some vs /\ forall v, In v vs -> flag ACTIVE (at_ (as_flags R) (fst k)) v = true.
Proof.
  unfold s_ov7, updated. split.
  - intros H. destruct (pair_map_in _ _ _ _ H) as [Hp Hk]. rewrite pair_map_at in H by assumption. destruct (fo_vertices V k p) as [vs|] eqn:E.
    + exists vs. split; [reflexivity|]. rewrite forallb_forall in H. intros v Hv. rewrite active_at; [apply H, Hv|apply (fk_grids X _ _ VK k Hk)|exact (vertices_in k p vs v E Hv)].
    + apply andb_true_iff in H as [H _]. apply ov4_spec in H as (vs & Q & _). congruence.
  - intros (vs & E & H). pose proof (vertices_pair k p vs E) as Hk. rewrite pair_map_at by (try exact Hk; exact (vertices_point k p vs E)). rewrite E. apply forallb_forall.
    intros v Hv. rewrite <- active_at; [apply H, Hv|apply (fk_grids X _ _ VK k Hk)|exact (vertices_in k p vs v E Hv)].
Qed.

Lemma count_filter {A} (f : A -> bool) l : length (filter (fun b : bool => b) (map f l)) = length (filter f l).
Proof. induction l as [|a l IH]; [reflexivity|]. cbn. destruct (f a); cbn; rewrite IH; reflexivity. Qed.

Lemma vread_at {A} (l : list A) i a : nth_error l i = Some a -> vread l (Z.of_nat i) = Some a.
Proof. intros E. unfold vread. destruct (Z.ltb_spec (Z.of_nat i) 0); [lia|]. rewrite Nat2Z.id. exact E. Qed.

Lemma slot_spec {A} (r : range) (f : tup Z -> bool) (h : tup Z -> A) p : pt_in r p -> f p = true ->
  vread (map h (filter f (RangeModel.foreach_col r)))
    (Z.of_nat (length (filter (fun b : bool => b) (firstn (Z.to_nat (rindex ColMajor r p)) (map f (RangeModel.foreach_col r)))))) = Some (h p).
Proof.
  intros Hp Hf. destruct (in_split p (RangeModel.foreach_col r)) as (a & b & E); [apply foreach_col_In, Hp|]. rewrite (foreach_index r a p b E), Nat2Z.id, E.
  rewrite map_app, firstn_app, map_length, Nat.sub_diag. cbn [firstn]. rewrite app_nil_r. replace (length a) with (length (map f a)) by apply map_length. rewrite firstn_all, count_filter.
  rewrite filter_app, map_app. cbn [filter]. rewrite Hf. cbn [map]. apply vread_at. rewrite nth_error_app2 by (rewrite map_length; lia). rewrite map_length, Nat.sub_diag. reflexivity.
Qed.

Notation os g := (map (donor_data X V (s_ov7 X F hol pw) (s_dist X F hol pw)) (pairs_to V g)).

Lemma to_pair k g : In k (pairs_to V g) <-> In k (fo_pairs V) /\ snd k = g.
Proof. unfold pairs_to. rewrite filter_In, Z.eqb_eq. tauto. Qed.

Lemma each_len {A} c (f : tup Z -> A) : Z.of_nat (length (each c f)) = rcount (c_range c).
Proof. unfold each. rewrite map_length. apply foreach_col_length. Qed.

Lemma valid_gen P dist g : valid_overlaps (rng g) (rng g) (map (donor_data X V P dist) (pairs_to V g)).
Proof.
  split.
  - intros o Ho. apply in_map_iff in Ho as (k & <- & Hk). apply to_pair in Hk as [Hk <-]. unfold valid_overlap, donor_data. cbn [o_m o_padding o_base o_mask o_distances o_volumes].
    split; [apply (dk_grids X K), (fk_grids X _ _ VK k Hk)|]. split; [apply (dk_padding X K)|]. split; [apply each_len|]. split; [apply each_len|].
    unfold each. rewrite count_filter, !map_length. auto.
  - assert (Q : StronglySorted (fun a b : Z * Z => fst a < fst b) (pairs_to V g)).
    { unfold pairs_to. generalize (fk_pairs X _ _ VK). induction 1 as [|a l S IH Hf]; cbn; [constructor|]. destruct (Z.eqb_spec (snd a) g) as [Ea|]; [|exact IH]. constructor; [exact IH|].
      rewrite Forall_forall in *. intros b Hb. apply filter_In in Hb as [Hb Eb]. apply Z.eqb_eq in Eb. specialize (Hf b Hb). lia. }
    induction Q as [|a l S IH Hf]; cbn; [constructor|]. constructor; [exact IH|]. rewrite Forall_forall in *. intros b Hb. apply in_map_iff in Hb as (k & <- & Hk). apply Hf, Hk.
Qed.

Lemma least_spec l d : l <> [] -> d = least l <-> (forall x, In x l -> d <= x) /\ In d l.
Proof.
  intros Hl. destruct l as [|a t]; [congruence|]. cbn [least]. clear Hl.
  assert (Q : forall t a, (forall x, In x (a :: t) -> fold_left Z.min t a <= x) /\ In (fold_left Z.min t a) (a :: t)).
  { clear. induction t as [|b t IH]; intros a; cbn [fold_left]; [split; [intros x [->|[]]; lia|left; reflexivity]|].
    destruct (IH (Z.min a b)) as [I1 I2]. split.
    - intros x Hx. specialize (I1 (Z.min a b) (or_introl eq_refl)) as I0. destruct Hx as [->|[->|Hx]]; [lia|lia|]. apply I1. right. exact Hx.
    - destruct I2 as [I2|I2]; [|right; right; exact I2]. rewrite <- I2. destruct (Z.min_spec a b) as [[_ ->]|[_ ->]]; [left|right; left]; reflexivity. }
  destruct (Q t a) as [Q1 Q2]. split; [intros ->; auto|]. intros [D1 D2]. apply Z.le_antisymm; [apply D1, Q2|apply Q1, D2].
Qed.

Lemma candidate_spec g k p dist w : gin g -> In k (fo_pairs V) -> snd k = g -> pt_in (rng g) p ->
  candidate (rng g) (rng g) (values (s_recv X F hol pw) g) (donor_data X V (s_ov7 X F hol pw) (s_dist X F hol pw) k) p dist w <->
  flag RECEIVER (at_ (as_flags R) g) p = true /\ can_donate X R (fst k) g p dist /\ w = fo_interp V k p.
Proof.
  intros Hg Hk Ek Hp. unfold candidate. cbn [o_connects o_mask o_disjoint o_base donor_data]. unfold overlaps_at. cbn zeta. cbn [o_base o_distances o_volumes donor_data].
  rewrite Ek. assert (Rv : vread (values (s_recv X F hol pw) g) (rindex ColMajor (rng g) p) = Some (mask_of X (s_recv X F hol pw) g p)).
  { assert (E : exists f, values (s_recv X F hol pw) g = each (cart_of g) f) by (eexists; unfold s_recv, masks_for; rewrite values_for by exact Hg; reflexivity). destruct E as (f & E).
    unfold mask_of, value. rewrite (proj2 (rcontains_spec _ _) Hp), E. unfold each. rewrite (vread_points _ (rng g) p Hp). reflexivity. }
  rewrite Rv. unfold each. rewrite !(vread_points _ (rng g) p Hp). rewrite (receiver_at g p Hg Hp). unfold can_donate.
  assert (EK : (fst k, g) = k) by (rewrite <- Ek; symmetry; apply surjective_pairing). rewrite EK. unfold with_cells. rewrite Ek.
  split.
  - intros (C1 & C2 & C3 & (C4 & C5 & C6) & C7). injection C4 as C4. injection C3 as C3. injection C2 as C2. rewrite (slot_spec (rng g) (has_cell V k) (cell_distance X V (s_dist X F hol pw) k) p Hp C4) in C5.
    rewrite (slot_spec (rng g) (has_cell V k) (fo_interp V k) p Hp C4) in C6. injection C5 as C5. injection C6 as C6. split; [exact C2|]. split; [|congruence].
    split; [exact Hk|]. split; [exact C1|]. split; [exact C7|]. apply ov7_spec in C3 as (vs & E & Q). exists vs. split; [exact E|].
    unfold cell_distance in C5. rewrite E in C5. symmetry in C5. destruct (fk_cells X _ _ VK k p vs E) as (_ & NE & _).
    apply least_spec in C5 as [D1 D2]; [|destruct vs; [congruence|discriminate]]. split.
    + intros v Hv. split; [apply Q, Hv|]. apply D1, in_map_iff. exists v. auto.
    + apply in_map_iff in D2 as (v & Ev & Hv). exists v. auto.
  - intros (Q1 & (_ & Q2 & Q3 & vs & E & Q4 & v & Hv & Q5) & Q6). change (as_found R) with V in E. assert (HC : has_cell V k p = true) by (unfold has_cell; rewrite E; reflexivity).
    rewrite (slot_spec (rng g) (has_cell V k) (cell_distance X V (s_dist X F hol pw) k) p Hp HC), (slot_spec (rng g) (has_cell V k) (fo_interp V k) p Hp HC).
    split; [exact Q2|]. split; [congruence|]. split; [|split; [|exact Q3]].
    + f_equal. apply ov7_spec. exists vs. split; [exact E|]. intros x Hx. apply (Q4 x Hx).
    + split; [congruence|]. split; [|congruence]. f_equal. symmetry. unfold cell_distance. rewrite E. apply least_spec; [destruct vs; [contradiction|discriminate]|]. split.
      * intros x Hx. apply in_map_iff in Hx as (y & <- & Hy). apply (Q4 y Hy).
      * apply in_map_iff. exists v. auto.
Qed.

Lemma don_values g : gin g -> choose_donors (fun a b => occ_of (dd_occludes X (a, b))) (rng g) (rng g) (values (s_recv X F hol pw) g) (os g) = Some (values don g).
Proof.
  intros Hg. unfold donors in Edon. apply omap_some in Edon. clear -Hg Edon. unfold values at 2. induction Edon as [|a b l l' E Hl IH]; [contradiction|].
  cbn beta in E. destruct (choose_donors _ _ _ _ _) as [d|] eqn:C in E; [|discriminate]. injection E as <-. cbn [find fst]. destruct (Z.eqb_spec a g) as [->|Na]; [exact C|].
  apply IH; [exact Hl|]. destruct Hg as [->|Hg]; [contradiction|exact Hg].
Qed.

Lemma donors_spec g p : gin g -> pt_in (rng g) p ->
  (flag RECEIVER (at_ (as_flags R) g) p = true /\ flag ORPHAN (at_ (as_flags R) g) p = false /\
     exists d, can_donate X R (donor_at X R g p) g p d /\ farthest X R (donor_at X R g p) g p d /\ not_beaten X R (donor_at X R g p) g p d) \/
  (donor_at X R g p < 0 /\ flag ORPHAN (at_ (as_flags R) g) p = flag RECEIVER (at_ (as_flags R) g) p /\
     (flag RECEIVER (at_ (as_flags R) g) p = true -> forall m d, ~ can_donate X R m g p d)).
Proof.
  intros Hg Hp. destruct (Hout g Hg) as (_ & _ & _ & _ & _ & O6 & _). destruct (O6 p Hp) as [_ Orp]. cbn [v_no_donor contributed] in Orp. rewrite Orp. clear O6 Orp.
  destruct (donors_ok (fun a b => occ_of (dd_occludes X (a, b))) (rng g) (rng g) (values (s_recv X F hol pw) g) (os g)) as (ds & E & _ & S).
  - auto.
  - unfold s_recv, masks_for. rewrite values_for by exact Hg. apply each_len.
  - apply valid_gen.
  - intros o Ho. apply in_map_iff in Ho as (k & <- & Hk). apply (dk_padding X K k).
  - rewrite don_values in E by exact Hg. injection E as <-. destruct (S p Hp) as (s & Es & Q).
    assert (Ed : donor_at X R g p = s_id s). { unfold donor_at, value. rewrite (proj2 (rcontains_spec _ _) Hp). cbn [as_donors s_R]. rewrite Es. reflexivity. }
    rewrite Ed. destruct Q as [[Q1 Q2]|(o & d & w & Q1 & (Q2 & Q3 & Q4) & Q5)].
    + right. split; [exact Q1|]. rewrite (proj2 (Z.ltb_lt _ _) Q1), andb_true_r. split; [reflexivity|]. intros Rp m d Cm.
      pose proof Cm as (Hk & _). apply (Q2 (donor_data X V (s_ov7 X F hol pw) (s_dist X F hol pw) (m, g)) d (fo_interp V (m, g) p)).
      * apply in_map, to_pair. auto.
      * apply (candidate_spec g (m, g) p); auto.
    + left. apply in_map_iff in Q2 as (k & <- & Hk). apply to_pair in Hk as [Hk Ek]. cbn [o_m donor_data] in Q1. apply (candidate_spec g k p d w Hg Hk Ek Hp) in Q3 as (Rp & Cm & Ew).
      split; [exact Rp|]. rewrite Rp, Q1. assert (0 <= fst k) by (apply (dk_grids X K), (fk_grids X _ _ VK k Hk)).
      split; [rewrite (proj2 (Z.ltb_ge _ _)) by lia; reflexivity|]. assert (Ekk : (fst k, g) = k) by (rewrite <- Ek; symmetry; apply surjective_pairing). exists d. split; [exact Cm|]. split.
      * intros m' d' C'. pose proof C' as (Hk' & _).
        assert (NF := Q4 (donor_data X V (s_ov7 X F hol pw) (s_dist X F hol pw) (m', g)) d' (fo_interp V (m', g) p) ltac:(apply in_map, to_pair; auto)
          ltac:(apply (candidate_spec g (m', g) p); auto)).
        unfold farther_from_edge in NF. cbn [o_padding donor_data] in NF. rewrite Ekk. lia.
      * intros m' d' C' Eq. pose proof C' as (Hk' & _). rewrite Ekk in Eq |- *.
        destruct (Q5 (donor_data X V (s_ov7 X F hol pw) (s_dist X F hol pw) (m', g)) d' (fo_interp V (m', g) p) ltac:(apply in_map, to_pair; auto)
          ltac:(apply (candidate_spec g (m', g) p); auto)) as [T1 T2].
        { unfold farther_from_edge. cbn [o_padding donor_data]. lia. }
        cbn [o_m donor_data fst] in T1, T2. change (as_found R) with V. rewrite Ew in T1, T2.
        assert (U : forall k0 o0, occ_of o0 = k0 -> (forall a b, In (a, g) (fo_pairs V) -> In (b, g) (fo_pairs V) -> a < b -> dd_occludes X (a, b) = o0) -> preferred k0 (fst k) (fo_interp V k p) m' (fo_interp V (m', g) p)).
        { intros k0 o0 Ek0 HU. apply T2. intros a b Ha Hb L. apply in_map_iff in Ha as (ka & <- & Ha), Hb as (kb & <- & Hb). cbn [o_m donor_data] in *.
          apply to_pair in Ha as [Ha Ea], Hb as [Hb Eb]. destruct ka as [ka1 ka2], kb as [kb1 kb2]. cbn [fst snd] in *. subst ka2 kb2. rewrite (HU ka1 kb1 Ha Hb L). exact Ek0. }
        split; [|split; [|split]].
        -- intros L. specialize (T1 L). destruct (dd_occludes X (fst k, m')); cbn in T1; [destruct T1|left; reflexivity|right; split; [reflexivity|exact T1]].
        -- intros HU. exact (U OCC_COARSE O_COARSE eq_refl HU).
        -- intros HU. exact (U OCC_ALL O_ALL eq_refl HU).
        -- intros HU. exact (U OCC_NONE O_NONE eq_refl HU).
Qed.
End Laws.
