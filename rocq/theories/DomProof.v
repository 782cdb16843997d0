(** A whole assembly: the flags that come out. *)
From Coq Require Import List ZArith QArith Bool Lia Sorting.Sorted.
From Verif Require Import TupleModel RangeModel Base RangeProof DRangeProof CartModel CartProof DecompModel IndexerModel ArrayModel HashModel HashProof.
From Verif Require Import NetModel NeighSpec HaloModel FieldModel FieldSpec FieldProof EdgeProof AsmModel AsmSpec AsmFlags AsmGeom AsmPhase AsmProof AsmLaws.
From Verif Require Import CellModel OccModel OccSpec OccProof HoleModel HoleSpec HoleProof HoleLaws DomModel DomSpec DomGeom.
Import ListNotations.
Local Open Scope Z_scope.
Notation flag := AsmSpec.flag.
Notation kept := AsmSpec.kept.

Section Chain.
Variable X : ddata.
Hypothesis K : ddata_ok X.
Notation cart_of := (dd_cart X).
Notation rng g := (c_range (dd_cart X g)).
Notation gin g := (In g (dd_grids X)).
Notation at_ F g := (flags_of X F g).

Lemma values_for {A} (f : Z -> list A) g : gin g -> values (for_grids X f) g = f g.
Proof.
  intros Hg. unfold values, for_grids. induction (dd_grids X) as [|a l IH]; [contradiction|]. cbn. destruct (Z.eqb_spec a g) as [->|Na]; [reflexivity|].
  apply IH. destruct Hg as [E|Hg]; [contradiction|exact Hg].
Qed.

Lemma at_for (f : Z -> tup Z -> Z) g u : gin g -> pt_in (rng g) u -> at_ (for_grids X (fun g => each (cart_of g) (f g))) g u = f g u.
Proof. intros Hg Hu. unfold flags_of. rewrite values_for by exact Hg. apply value_each, Hu. Qed.

Lemma mask_for (f : Z -> mask) g u : gin g -> pt_in (rng g) u -> mask_of X (masks_for X f) g u = f g u.
Proof. intros Hg Hu. unfold mask_of, masks_for. rewrite values_for by exact Hg. apply value_each, Hu. Qed.

Lemma mask_out M g u : ~ pt_in (rng g) u -> mask_of X M g u = false.
Proof. intros Hu. apply value_out, Hu. Qed.

Lemma flag_mask_at F f g u : gin g -> pt_in (rng g) u -> mask_of X (flag_mask X F f) g u = f (at_ F g u).
Proof. intros Hg Hu. unfold flag_mask. rewrite mask_for by assumption. reflexivity. Qed.

Lemma set_flags_at F m f g u : gin g -> pt_in (rng g) u -> at_ (set_flags X F m f) g u = f (mask_of X m g u) (at_ F g u).
Proof. intros Hg Hu. unfold set_flags. rewrite (at_for (fun g p => f (mask_of X m g p) (value 0 (cart_of g) (values F g) p))) by assumption. reflexivity. Qed.

Lemma either_at a b g u : gin g -> pt_in (rng g) u -> mask_of X (either X a b) g u = mask_of X a g u || mask_of X b g u.
Proof. intros Hg Hu. unfold either. rewrite mask_for by assumption. reflexivity. Qed.

Lemma as_fields_at (r : list (Z * mask)) g m u : NoDup (map fst r) -> In (g, m) r -> gin g -> pt_in (rng g) u -> mask_of X (as_fields X r) g u = m u.
Proof.
  intros ND Hr Hg Hu. unfold as_fields. rewrite mask_for by assumption. induction r as [|[h m'] r IH]; [contradiction|]. cbn in *. inversion ND as [|? ? N1 N2]; subst.
  destruct (Z.eqb_spec h g) as [->|Nh].
  - destruct Hr as [E|Hr]; [injection E as ->; reflexivity|]. exfalso. apply N1, in_map_iff. exists (g, m). auto.
  - destruct Hr as [E|Hr]; [injection E as -> ->; contradiction|]. apply IH; assumption.
Qed.

(** ** The parts of an assembly *)

Variables (junk : mask) (fuel : nat) (F : fields Z).
Variables (hol : list (Z * mask)) (pw : pmap) (don : list (Z * list donor_state)).

Definition s_f1 := initialized X F.
Definition s_act1 := flag_mask X s_f1 active_of.
Definition s_bnd1 := flag_mask X s_f1 domain_boundary_of.
Definition s_V := dd_detect X s_act1.
Definition s_f2 := set_flags X s_f1 (overlapped_by_any X s_V) flag_overlapped.
Definition s_inf := inferred X s_V s_act1 s_bnd1.
Definition s_f3 := set_flags X s_f2 s_inf flag_inferred.
Definition s_hdata := hole_data X s_V s_act1 (either X s_bnd1 s_inf).
Definition s_hole := as_fields X hol.
Definition s_f4 := set_flags X s_f3 s_hole flag_hole.
Definition s_act4 := flag_mask X s_f4 active_of.
Definition s_ov4 := updated X s_V (overlap_masks X s_V) s_act4.
Definition s_out := DomModel.outer_fringe X s_act4 (either X (flag_mask X s_f4 domain_boundary_of) (flag_mask X s_f4 internal_boundary_of)).
Definition s_f5 := set_flags X s_f4 s_out flag_outer.
Definition s_odata := occlusion_data X s_V s_ov4 s_out s_act4.
Definition s_occl := as_fields X (map (fun g => (g, any_for g pw)) (dd_grids X)).
Definition s_f6 := set_flags X s_f5 s_occl flag_occluded.
Definition s_cand := to_minimize X pw.
Definition s_mn := minimized X s_cand s_occl s_act4.
Definition s_inn := inner_fringe X s_mn s_act4.
Definition s_f7 := for_grids X (fun g => each (cart_of g) (fun p => flag_minimized (mask_of X s_mn g p) (mask_of X s_inn g p) (value 0 (cart_of g) (values s_f6 g) p))).
Definition s_act7 := flag_mask X s_f7 active_of.
Definition s_out7 := masks_for X (fun g p => mask_of X s_out g p && mask_of X s_act7 g p).
Definition s_ov7 := updated X s_V s_ov4 s_act7.
Definition s_recv := masks_for X (fun g p => mask_of X s_out7 g p || mask_of X s_inn g p || (mask_of X s_occl g p && mask_of X s_act7 g p)).
Definition s_dist := DomModel.distances X s_V s_recv.
Definition s_orph := orphans X s_recv don.
Definition s_f8 := for_grids X (fun g => each (cart_of g) (fun p => flag_receiver (mask_of X s_recv g p) (mask_of X s_orph g p) (value 0 (cart_of g) (values s_f7 g) p))).
Definition s_R := Assembled s_f8 s_dist don s_V s_hole s_out s_occl s_cand s_mn s_recv.

(** ** The flags at a point *)

Section Grid.
Variable g : Z.
Hypothesis Hg : gin g.
Notation dom u := (pt_in (rng g) u).
Notation c := (cart_of g).
Notation fl := (at_ F g).
Notation v := (contributed X s_R g).
Notation infer := (dd_infer X g).
Notation fringe := (dd_fringe X g).
Definition t1 : tup Z -> Z := fl_overlapped v (fun u => reset_flags (fl u)).
Definition t2 := fl_inferred c v infer t1.
Definition t3 := fl_hole v t2.
Definition t4 := fl_outer (mask_of X s_out g) t3.
Definition t5 := fl_occluded v t4.
Definition t6 := fl_minimized (mask_of X s_mn g) (mask_of X s_inn g) t5.
Definition t7 := fl_receiver v (mask_of X s_recv g) t6.

Lemma Gc h : grid_ok (cart_of h). Proof. exact (dk_carts X K h). Qed.
Lemma Hfr : 0 <= fringe. Proof. exact (dk_fringe X K g). Qed.

Lemma at1 u : dom u -> at_ s_f1 g u = reset_flags (fl u).
Proof. intros Hu. unfold s_f1, initialized. rewrite (at_for (fun g p => reset_flags (value 0 (cart_of g) (values F g) p))) by assumption. reflexivity. Qed.

Lemma act1_at u : dom u -> mask_of X s_act1 g u = was_active fl u.
Proof.
  intros Hu. unfold s_act1. rewrite flag_mask_at, at1 by assumption. rewrite <- (act1 fl v u). unfold fl_overlapped. rewrite !active_bit, flag_overlapped_bit by discriminate.
  bits. rewrite andb_false_r, orb_false_r. reflexivity.
Qed.

Lemma bnd1_at u : dom u -> mask_of X s_bnd1 g u = was_active fl u && was_boundary fl u.
Proof.
  intros Hu. unfold s_bnd1. rewrite flag_mask_at, at1 by assumption. rewrite <- (bnd1 fl v u). unfold fl_overlapped. rewrite !domain_bit, !flag_overlapped_bit by discriminate.
  bits. rewrite !andb_false_r, !orb_false_r. reflexivity.
Qed.

Lemma at2 u : dom u -> at_ s_f2 g u = t1 u.
Proof.
  intros Hu. unfold s_f2. rewrite set_flags_at by assumption. unfold overlapped_by_any. rewrite mask_for by assumption. rewrite at1 by exact Hu. reflexivity.
Qed.

Lemma inf_at u : dom u -> mask_of X s_inf g u = inf c v infer t1 u.
Proof.
  intros Hu. unfold s_inf, inferred. rewrite mask_for by assumption. unfold inf. f_equal. f_equal.
  - f_equal.
    + apply bool_iff. destruct (whole c (Gc g)) as (N & H & P). rewrite (inner_ok c (g_cart c (Gc g)) (g_once c (Gc g)) (g_nd c (Gc g)) (g_per c (Gc g)) _ u Hu).
      rewrite (edgeb_spec c _ _ _ u (dom_dims c _ _ _ _ _ P u Hu)). apply is_edge_ext. intros x Hx. unfold t1. rewrite (act1 fl v x). apply act1_at, Hx.
    + rewrite bnd1_at by exact Hu. unfold t1. rewrite (bnd1 fl v u). reflexivity.
  - cbn [v_overlaps contributed]. change (pairs_to s_V g) with (to_grid (as_found s_R) g). generalize (to_grid (as_found s_R) g). intros l. induction l as [|k l IH]; [reflexivity|].
    cbn [forallb map]. rewrite <- IH. reflexivity.
Qed.

Lemma at3 u : dom u -> at_ s_f3 g u = t2 u.
Proof. intros Hu. unfold s_f3. rewrite set_flags_at, inf_at, at2 by assumption. reflexivity. Qed.
Lemma at4 u : dom u -> at_ s_f4 g u = t3 u.
Proof. intros Hu. unfold s_f4. rewrite set_flags_at, at3 by assumption. reflexivity. Qed.
Lemma at5 u : dom u -> at_ s_f5 g u = t4 u.
Proof. intros Hu. unfold s_f5. rewrite set_flags_at, at4 by assumption. reflexivity. Qed.
Lemma at6 u : dom u -> at_ s_f6 g u = t5 u.
Proof. intros Hu. unfold s_f6. rewrite set_flags_at, at5 by assumption. reflexivity. Qed.
Lemma at7 u : dom u -> at_ s_f7 g u = t6 u.
Proof.
  intros Hu. unfold s_f7. rewrite (at_for (fun g p => flag_minimized (mask_of X s_mn g p) (mask_of X s_inn g p) (value 0 (cart_of g) (values s_f6 g) p))) by assumption.
  unfold t6, fl_minimized. rewrite <- at6 by exact Hu. reflexivity.
Qed.
Lemma at8 u : dom u -> at_ s_f8 g u = t7 u.
Proof.
  intros Hu. unfold s_f8. rewrite (at_for (fun g p => flag_receiver (mask_of X s_recv g p) (mask_of X s_orph g p) (value 0 (cart_of g) (values s_f7 g) p))) by assumption.
  unfold t7, fl_receiver. rewrite <- at7 by exact Hu. unfold s_orph, orphans. rewrite mask_for by assumption. reflexivity.
Qed.

Lemma act4_at u : dom u -> mask_of X s_act4 g u = kept fl v u.
Proof. intros Hu. unfold s_act4. rewrite flag_mask_at, at4 by assumption. apply act3. Qed.
Lemma act7_at u : dom u -> mask_of X s_act7 g u = kept fl v u && negb (mask_of X s_mn g u).
Proof. intros Hu. unfold s_act7. rewrite flag_mask_at, at7 by assumption. apply act6. Qed.

Lemma out_at u : dom u -> mask_of X s_out g u = true <->
  active_of (t3 u) = true /\ exists q, apart (c_nd c) fringe u q /\ opening c (fun x => active_of (t3 x)) (bnd_of t3) q.
Proof.
  intros Hu. unfold s_out, DomModel.outer_fringe. rewrite mask_for by assumption. cbn beta zeta.
  set (act := mask_of X s_act4 g). set (bnd := mask_of X (either X (flag_mask X s_f4 domain_boundary_of) (flag_mask X s_f4 internal_boundary_of)) g).
  assert (E : (if fringe =? 0 then (fun _ => false) : mask else fun p => act p && OccModel.dilate (cart_include_exterior c) fringe (fringe_cover c act bnd) p) u =
              (if fringe =? 0 then false else act u && OccModel.dilate (cart_include_exterior c) fringe (fringe_cover c act bnd) u)) by (destruct (fringe =? 0); reflexivity).
  assert (A : forall x, dom x -> act x = active_of (t3 x)) by (intros x Hx; unfold act, s_act4; rewrite flag_mask_at, at4 by assumption; reflexivity).
  assert (B : forall x, dom x -> bnd x = bnd_of t3 x) by (intros x Hx; unfold bnd; rewrite either_at, !flag_mask_at, at4 by assumption; reflexivity).
  change ((if fringe =? 0 then (fun _ => false) : mask else fun p => act p && OccModel.dilate (cart_include_exterior c) fringe (fringe_cover c act bnd) p) u = true <->
    active_of (t3 u) = true /\ exists q, apart (c_nd c) fringe u q /\ opening c (fun x => active_of (t3 x)) (bnd_of t3) q).
  rewrite E, (outer_spec c (Gc g) fringe act bnd u Hfr Hu), (A u Hu).
  - unfold opening. split; intros [Q1 (q & Aq & C1 & w & Aw & C2)]; (split; [exact Q1|]); exists q; (split; [exact Aq|]);
      (split; [rewrite <- C1; apply continued_ext; intros x Hx; rewrite (A x Hx); reflexivity|]); exists w; (split; [exact Aw|]); rewrite <- C2; apply continued_ext; intros x Hx;
      rewrite (A x Hx), (B x Hx); reflexivity.
  - intros x Hx. rewrite (A x Hx), (B x Hx). apply bnd_active.
Qed.

Lemma min_at u : dom u ->
  (0 < fringe -> (mask_of X s_mn g u = true <-> v_minimize v u = true /\ active_of (t5 u) = true /\
     forall x, dom x -> within c fringe u x -> v_occluded v x = true \/ active_of (t5 x) = false)) /\
  (fringe = 0 -> mask_of X s_mn g u = v_minimize v u) /\
  (mask_of X s_inn g u = true <-> active_of (t5 u) = true /\ mask_of X s_mn g u = false /\ exists x, dom x /\ within c fringe u x /\ mask_of X s_mn g x = true).
Proof.
  intros Hu. pose proof Hfr as F0. assert (A : forall x, dom x -> active_of (t5 x) = mask_of X s_act4 g x) by (intros x Hx; rewrite act4_at by exact Hx; apply act5).
  assert (E1 : mask_of X s_mn g u = if 0 <? fringe then mask_of X s_cand g u && (erode c fringe (fun q => mask_of X s_occl g q || negb (mask_of X s_act4 g q)) u && mask_of X s_act4 g u)
                                    else mask_of X s_cand g u).
  { unfold s_mn, minimized. rewrite mask_for by assumption. destruct (0 <? fringe); [|reflexivity]. cbn zeta. rewrite array_ok by exact Hu. reflexivity. }
  split; [|split].
  - intros Fp. rewrite E1, (proj2 (Z.ltb_lt _ _) Fp), !andb_true_iff, (erode_ok c (g_cart c (Gc g)) (g_once c (Gc g)) (g_per c (Gc g)) fringe _ u F0 Hu), (A u Hu).
    split; [intros (Q1 & Q2 & Q3); split; [exact Q1|]; split; [exact Q3|]|intros (Q1 & Q2 & Q3); split; [exact Q1|]; split; [|exact Q2]]; intros x Hx W; [specialize (Q2 x Hx W)|specialize (Q3 x Hx W)].
    + apply orb_true_iff in Q2 as [Q2|Q2]; [left; exact Q2|right; rewrite (A x Hx); apply negb_true_iff, Q2].
    + apply orb_true_iff. destruct Q3 as [Q3|Q3]; [left; exact Q3|right]. rewrite (A x Hx) in Q3. rewrite Q3. reflexivity.
  - intros Fz. rewrite E1, Fz. reflexivity.
  - rewrite (A u Hu). unfold s_inn, inner_fringe. rewrite mask_for by assumption. destruct (0 <? fringe) eqn:Fp.
    + rewrite !andb_true_iff, negb_true_iff. rewrite (OccProof.dilate_ok c (g_cart c (Gc g)) (g_once c (Gc g)) (g_per c (Gc g)) fringe _ u F0 Hu). split.
      * intros ((x & Hx & Mx & W) & Q2 & Q3). split; [exact Q2|]. split; [exact Q3|]. exists x. auto.
      * intros (Q1 & Q2 & x & Hx & W & Mx). split; [exists x; auto|]. auto.
    + assert (Fz : fringe = 0) by (apply Z.ltb_ge in Fp; lia). split; [discriminate|]. intros (_ & Q2 & x & Hx & W & Mx). rewrite Fz in W.
      rewrite (within0 c (g_once c (Gc g)) (g_per c (Gc g)) u x Hu Hx W) in Q2. congruence.
Qed.

Lemma recv_at u : dom u -> mask_of X s_recv g u =
  (mask_of X s_out g u && negb (mask_of X s_mn g u)) || mask_of X s_inn g u || (v_occluded v u && active_of (t6 u)).
Proof.
  intros Hu. unfold s_recv. rewrite mask_for by assumption. unfold s_out7. rewrite mask_for by assumption.
  assert (A7 : mask_of X s_act7 g u = active_of (t6 u)) by (unfold s_act7; rewrite flag_mask_at, at7 by assumption; reflexivity).
  assert (E : mask_of X s_out g u && mask_of X s_act7 g u = mask_of X s_out g u && negb (mask_of X s_mn g u)).
  { rewrite act7_at by exact Hu. destruct (mask_of X s_out g u) eqn:Eo; [|reflexivity]. apply (out_at u Hu) in Eo as [Eo _]. unfold t3, t2, t1 in Eo. rewrite act3 in Eo. rewrite Eo. reflexivity. }
  rewrite E, A7. reflexivity.
Qed.

Lemma max_pos (V : found) : 1 <= max_distance X V g.
Proof.
  unfold max_distance. assert (Q : forall l a, 1 <= a -> 1 <= fold_left (fun a k => if fst k =? g then Z.max a (1 + dd_padding X k) else a) l a).
  { induction l as [|k l IH]; intros a Ha; [exact Ha|]. cbn. apply IH. destruct (fst k =? g); lia. }
  apply Q. lia.
Qed.

Lemma dist_at : measured c (max_distance X s_V g) (mask_of X s_recv g) (edgeb c (mask_of X s_recv g) BC_FALSE INNER) (max_distance X s_V g) (at_ s_dist g).
Proof.
  unfold s_dist, DomModel.distances, flags_of. rewrite values_for by exact Hg. cbn zeta. apply (measured_all c (Gc g)), max_pos.
Qed.

Lemma flags_outcome : outcome c infer fringe fl v (at_ s_f8 g) (max_distance X s_V g) (at_ s_dist g).
Proof.
  destruct (whole c (Gc g)) as (N & H & P).
  apply (outcome_ext c infer fringe fl v t7 (at_ s_f8 g) _ (at_ s_dist g)); [apply at8|reflexivity|].
  exact (final_outcome c _ _ _ _ _ P infer fl v (mask_of X s_mn g) (mask_of X s_inn g) (mask_of X s_out g) (mask_of X s_recv g) fringe (max_distance X s_V g) (at_ s_dist g)
    out_at min_at recv_at dist_at).
Qed.
End Grid.
End Chain.

Lemma assembly_inv X junk fuel F R : assembly X junk fuel F = Some R -> exists hol pw don,
  cut_holes (s_hdata X F) fuel = Some hol /\ pairwise_masks (s_odata X F hol) junk = Some pw /\
  donors X (s_V X F) (s_recv X F hol pw) (s_ov7 X F hol pw) (s_dist X F hol pw) = Some don /\ R = s_R X F hol pw don.
Proof.
  unfold assembly. cbn zeta. fold (s_f1 X F). fold (s_act1 X F). fold (s_bnd1 X F). fold (s_V X F). fold (s_inf X F). fold (s_hdata X F).
  destruct (cut_holes (s_hdata X F) fuel) as [hol|] eqn:E1; [|discriminate].
  fold (s_f2 X F). fold (s_f3 X F). fold (s_hole X hol). fold (s_f4 X F hol). fold (s_act4 X F hol). fold (s_ov4 X F hol). fold (s_out X F hol). fold (s_odata X F hol).
  destruct (pairwise_masks (s_odata X F hol) junk) as [pw|] eqn:E2; [|discriminate].
  fold (s_occl X pw). fold (s_f5 X F hol). fold (s_f6 X F hol pw). fold (s_cand X pw). fold (s_mn X F hol pw). fold (s_inn X F hol pw). fold (s_f7 X F hol pw). fold (s_act7 X F hol pw).
  fold (s_out7 X F hol pw). fold (s_ov7 X F hol pw). fold (s_recv X F hol pw). fold (s_dist X F hol pw).
  destruct (donors X (s_V X F) (s_recv X F hol pw) (s_ov7 X F hol pw) (s_dist X F hol pw)) as [don|] eqn:E3; [|discriminate].
  intros Q. injection Q as <-. exists hol, pw, don. auto.
Qed.

Lemma assembly_intro X junk fuel F hol pw don :
  cut_holes (s_hdata X F) fuel = Some hol -> pairwise_masks (s_odata X F hol) junk = Some pw ->
  donors X (s_V X F) (s_recv X F hol pw) (s_ov7 X F hol pw) (s_dist X F hol pw) = Some don -> assembly X junk fuel F = Some (s_R X F hol pw don).
Proof.
  intros E1 E2 E3. unfold assembly. cbn zeta. fold (s_f1 X F). fold (s_act1 X F). fold (s_bnd1 X F). fold (s_V X F). fold (s_inf X F). fold (s_hdata X F).
  rewrite E1.
  fold (s_f2 X F). fold (s_f3 X F). fold (s_hole X hol). fold (s_f4 X F hol). fold (s_act4 X F hol). fold (s_ov4 X F hol). fold (s_out X F hol). fold (s_odata X F hol).
  rewrite E2.
  fold (s_occl X pw). fold (s_f5 X F hol). fold (s_f6 X F hol pw). fold (s_cand X pw). fold (s_mn X F hol pw). fold (s_inn X F hol pw). fold (s_f7 X F hol pw). fold (s_act7 X F hol pw).
  fold (s_out7 X F hol pw). fold (s_ov7 X F hol pw). fold (s_recv X F hol pw). fold (s_dist X F hol pw).
  rewrite E3. reflexivity.
Qed.
