(** A whole assembly: the main results. *)
From Coq Require Import List ZArith QArith Bool Lia.
From Verif Require Import TupleModel RangeModel Base RangeProof DRangeProof CartModel CartProof DecompModel IndexerModel ArrayModel HashModel HashProof.
From Verif Require Import NetModel NeighSpec HaloModel FieldModel FieldSpec FieldProof EdgeProof AsmModel AsmSpec AsmFlags AsmGeom AsmPhase AsmProof AsmMain AsmLaws.
From Verif Require Import CellModel CellSpec DonorProof OccModel OccSpec OccProof OccLaws HoleModel HoleSpec HoleProof HoleLaws DomModel DomSpec DomGeom DomProof DomLaws.
Import ListNotations.
Local Open Scope Z_scope.
Notation flag := AsmSpec.flag.

(** A loop ends or not for the same data. *)
Lemma continued_same c bc (m m' : mask) q : (forall p, m p = m' p) -> continued c bc m q = continued c bc m' q.
Proof. intros E. unfold continued. rewrite !E. reflexivity. Qed.
Lemma edge_same c bc (m m' : mask) ty q : (forall p, m p = m' p) -> is_edge c bc m ty q <-> is_edge c bc m' ty q.
Proof.
  intros E. unfold is_edge. rewrite (continued_same c bc m m' q E). split; intros [A (x & B & C)]; (split; [exact A|]); exists x; (split; [exact B|]);
    rewrite <- C; apply continued_same; intros p; rewrite E; reflexivity.
Qed.

Lemma finite_same gs ct ps vt cut (o o' : Z * Z -> mask) a a' b b' : (forall k p, o k p = o' k p) -> finite (HD gs ct ps vt o a b cut) -> finite (HD gs ct ps vt o' a' b' cut).
Proof.
  intros E Fi k Ck (p & Hp & Ep). destruct (Fi k Ck) as (q & Hq & x & vs & T1 & T2 & T3).
  - exists p. split; [exact Hp|]. apply (edge_same _ _ _ _ _ _ (E k)), Ep.
  - exists q. split; [exact Hq|]. exists x, vs. split; [exact T1|]. split; [|exact T3]. apply (edge_same _ _ _ _ _ _ (E (swap k))), T2.
Qed.

Section Main.
Variable X : ddata.
Hypothesis K : ddata_ok X.
Notation cart_of := (dd_cart X).
Notation rng g := (c_range (dd_cart X g)).
Notation gin g := (In g (dd_grids X)).
Notation at_ F g := (flags_of X F g).
Variables (junk : mask) (fuel : nat) (F : fields Z).

Lemma before_is : s_act1 X F = active_before X F.
Proof.
  unfold s_act1, flag_mask, active_before, masks_for, for_grids. apply map_ext_in. intros g Hg. f_equal. unfold each. apply map_ext_in. intros p Hp. apply foreach_col_In in Hp.
  rewrite <- (act1_at X F [] [] [] g Hg p Hp). unfold s_act1. rewrite flag_mask_at by assumption. reflexivity.
Qed.
Lemma found_is : s_V X F = dd_detect X (active_before X F).
Proof. unfold s_V. rewrite before_is. reflexivity. Qed.

Section Result.
Variable R : assembled.
Hypothesis A : assembly X junk fuel F = Some R.

Lemma dom_found : as_found R = dd_detect X (active_before X F).
Proof. destruct (assembly_inv _ _ _ _ _ A) as (hol & pw & don & E1 & E2 & E3 & ->). exact found_is. Qed.

Lemma dom_outcome g : gin g -> outcome (cart_of g) (dd_infer X g) (dd_fringe X g) (at_ F g) (contributed X R g) (at_ (as_flags R) g) (max_distance X (as_found R) g) (at_ (as_distances R) g).
Proof. destruct (assembly_inv _ _ _ _ _ A) as (hol & pw & don & E1 & E2 & E3 & ->). exact (Hout X K F hol pw don g). Qed.

Lemma dom_holes : exists H, hole_input X F R H /\ forall g p, gin g -> pt_in (rng g) p -> (flag BOUNDARY_HOLE (at_ (as_flags R) g) p = true <-> hole H g p).
Proof.
  destruct (assembly_inv _ _ _ _ _ A) as (hol & pw & don & E1 & E2 & E3 & ->). exists (s_hdata X F). split; [exact (hole_input_ok X K F hol pw don)|].
  intros g p Hg Hp. rewrite (hole_flag X K F hol pw don g p Hg Hp). exact (hole_at X K fuel F hol pw don E1 g p Hg Hp).
Qed.

Lemma occl_flag g p : gin g -> pt_in (rng g) p -> flag OCCLUDED (at_ (as_flags R) g) p = mask_of X (as_occluded R) g p.
Proof. intros Hg Hp. destruct (dom_outcome g Hg) as (_ & O & _). apply (O p Hp). Qed.

Lemma dom_occluded : exists D, odata_ok D /\ occlusion_input X F R D /\ forall g p, gin g -> pt_in (rng g) p ->
  (flag OCCLUDED (at_ (as_flags R) g) p = true <-> occluded D g p) /\
  (v_minimize (contributed X R g) p = true <->
     flag OCCLUDED (at_ (as_flags R) g) p = true /\ exists m, In (m, g) (fo_pairs (as_found R)) /\ dd_occludes X (m, g) <> O_NONE /\ dd_minimize X (m, g) = true /\ marked D (m, g) p).
Proof.
  pose proof occl_flag as OF. destruct (assembly_inv _ _ _ _ _ A) as (hol & pw & don & E1 & E2 & E3 & ER). subst R. exists (s_odata X F hol). split; [exact (odata_is_ok X K F hol pw don)|].
  split; [exact (occlusion_input_ok X K F hol pw don)|]. intros g p Hg Hp. rewrite (OF g p Hg Hp). pose proof (occluded_at X K junk F hol pw don E2 g p Hg Hp) as O. split; [exact O|].
  rewrite O. cbn [v_minimize contributed]. rewrite (cand_at X K junk F hol pw don E2 E3 g p Hg Hp). split.
  - intros (m & [O1 O2] & Q1 & Q2 & Q3). split; [exact Q3|]. exists m. auto.
  - intros (Q3 & m & O1 & O2 & Q1 & Q2). exists m. split; [split; assumption|]. auto.
Qed.

Lemma min_active g p : gin g -> pt_in (rng g) p -> v_minimize (contributed X R g) p = true -> was_active (at_ F g) p = true /\ v_occluded (contributed X R g) p = true.
Proof. intros Hg Hp. destruct (assembly_inv _ _ _ _ _ A) as (hol & pw & don & E1 & E2 & E3 & ->). exact (cand_active X K junk F hol pw don E2 E3 g p Hg Hp). Qed.

Lemma dom_donors g p : gin g -> pt_in (rng g) p ->
  (flag RECEIVER (at_ (as_flags R) g) p = true /\ flag ORPHAN (at_ (as_flags R) g) p = false /\
     exists d, can_donate X R (donor_at X R g p) g p d /\ farthest X R (donor_at X R g p) g p d /\ not_beaten X R (donor_at X R g p) g p d) \/
  (donor_at X R g p < 0 /\ flag ORPHAN (at_ (as_flags R) g) p = flag RECEIVER (at_ (as_flags R) g) p /\
     (flag RECEIVER (at_ (as_flags R) g) p = true -> forall m d, ~ can_donate X R m g p d)).
Proof. destruct (assembly_inv _ _ _ _ _ A) as (hol & pw & don & E1 & E2 & E3 & ->). exact (donors_spec X K F hol pw don E3 g p). Qed.

Lemma dom_points g p : gin g -> pt_in (rng g) p -> was_active (at_ (as_flags R) g) p = was_active (at_ F g) p /\ was_boundary (at_ (as_flags R) g) p = was_boundary (at_ F g) p.
Proof.
  intros Hg Hp. pose proof (dom_outcome g Hg) as O. split; [|exact (again_boundary _ _ _ _ _ _ _ _ O p Hp)].
  apply (again_active _ _ _ _ _ _ _ _ O (dk_fringe X K g)); [| |exact Hp].
  - intros u Hu. destruct (assembly_inv _ _ _ _ _ A) as (hol & pw & don & E1 & E2 & E3 & ->). exact (was_hole X K fuel F hol pw don E1 g u Hg Hu).
  - intros u Hu Q. apply (min_active g u Hg Hu Q).
Qed.

Lemma dom_again : assembly X junk fuel (as_flags R) = Some R.
Proof.
  assert (E : initialized X (as_flags R) = initialized X F).
  { unfold initialized, for_grids. apply map_ext_in. intros g Hg. f_equal. unfold each. apply map_ext_in. intros p Hp. apply foreach_col_In in Hp.
    change (reset_flags (at_ (as_flags R) g p) = reset_flags (at_ F g p)). destruct (dom_points g p Hg Hp) as [P1 P2]. destruct (dom_outcome g Hg) as (O1 & _).
    apply Z.bits_inj'. intros k Hk. rewrite !reset_bit by exact Hk. unfold was_active, was_boundary, flag in P1, P2.
    destruct (k =? ACTIVE); [exact P1|]. destruct (k =? DOMAIN_BOUNDARY); [exact P2|]. destruct (k =? INTERNAL_BOUNDARY); [apply (O1 p INTERNAL_BOUNDARY Hp); auto|].
    destruct (Z.ltb_spec ORPHAN k) as [L|]; [|reflexivity]. apply (O1 p k Hp). auto. }
  rewrite <- A. unfold assembly. rewrite E. reflexivity.
Qed.

Lemma dom_execution g n L E N H ko overlaps o S : gin g -> partitioned (cart_of g) n L E N H ->
  loaded (cart_of g) n L E N H ko overlaps o S (at_ F g) (contributed X R g) ->
  assembles (cart_of g) n L E N (dd_infer X g) overlaps (dd_fringe X g) (max_distance X (as_found R) g) o S (at_ (as_flags R) g) (at_ (as_distances R) g).
Proof.
  intros Hg P LD. pose proof (dom_outcome g Hg) as O. pose proof (dk_fringe X K g) as Fr. assert (M : 1 <= max_distance X (as_found R) g) by apply max_pos.
  destruct (assemble_outcome (cart_of g) n L E N H ko (dd_infer X g) overlaps (dd_fringe X g) (max_distance X (as_found R) g) o P Fr M S _ _ LD) as (fl' & d & As & O').
  apply (assembles_values _ _ _ _ _ _ _ _ _ _ _ P S fl' d); [exact As|]. intros u Hu. split.
  - apply (same_flags _ _ _ _ _ _ _ _ _ _ _ O' O Fr); auto.
  - apply (same_distance _ _ _ _ _ _ _ _ _ _ _ O' O Fr); auto.
Qed.

Lemma dom_interior g u : gin g -> pt_in (rng g) u -> flag ACTIVE (at_ (as_flags R) g) u = true -> flag RECEIVER (at_ (as_flags R) g) u = false ->
  (forall x, pt_in (rng g) x -> within (cart_of g) (dd_fringe X g) u x -> flag OVERLAP_MINIMIZED (at_ (as_flags R) g) x = false) /\
  (forall q w, apart (c_nd (cart_of g)) (dd_fringe X g) u q -> continued (cart_of g) BC_FALSE (flag ACTIVE (at_ (as_flags R) g)) q = false ->
     apart (c_nd (cart_of g)) 1 q w ->
     continued (cart_of g) BC_FALSE (fun x => flag ACTIVE (at_ (as_flags R) g) x && negb (boundary (at_ (as_flags R) g) x)) w = false).
Proof.
  intros Hg. destruct (whole _ (dk_carts X K g)) as (N & H & P). exact (AsmLaws.interior _ _ _ _ _ _ P _ _ _ _ _ _ _ (dom_outcome g Hg) (dk_fringe X K g) u).
Qed.

(** What occludes a point is there. *)
Lemma dom_covered g p : gin g -> pt_in (rng g) p -> dd_smoothing X g = 0 -> flag OCCLUDED (at_ (as_flags R) g) p = true ->
  exists m vs, In (m, g) (fo_pairs (as_found R)) /\ dd_occludes X (m, g) <> O_NONE /\ fo_vertices (as_found R) (m, g) p = Some vs /\
    forall v, In v vs -> left_active X F R m v = true /\ flag OUTER_FRINGE (at_ (as_flags R) m) v = false /\
      (flag ACTIVE (at_ (as_flags R) m) v = true /\ flag OCCLUDED (at_ (as_flags R) m) v = false \/
       exists m2, m2 <> g /\ m2 <> m /\ In (m2, m) (fo_pairs (as_found R)) /\ dd_occludes X (m2, m) <> O_NONE /\ celled (as_found R) (m2, m) v = true).
Proof.
  intros Hg Hp Hs Hocc. destruct dom_occluded as (D & OK & (D1 & D2 & D3 & D4 & D5 & D6 & D7 & D8 & D9 & D10) & DS).
  apply (DS g p Hg Hp) in Hocc. destruct Hocc as [Hk|(Q & _)]; [|rewrite D9 in Q; congruence].
  destruct Hk as (m & [O1 O2] & Mk & vs & Ev & Hv). rewrite D3 in O1. rewrite D7 in O2. rewrite D4 in Ev. cbn [fst] in Hv.
  pose proof (dk_detect X K (active_before X F)) as FK. rewrite <- dom_found in FK. destruct (fk_grids X _ _ FK (m, g) O1) as (Hm & _ & Nmg). cbn [fst snd] in Hm, Nmg.
  assert (VIN : forall v, In v vs -> pt_in (rng m) v) by (intros v Q; apply (fk_cells X _ _ FK (m, g) p vs Ev), Q).
  exists m, vs. split; [exact O1|]. split; [exact O2|]. split; [exact Ev|]. intros v Qv. pose proof (VIN v Qv) as Hvin. destruct (D10 m v Hm Hvin) as (X1 & X2 & X3).
  assert (NF : ~ forbidden D (m, g) v).
  { intros Fb. apply (Hv v Qv). exists v. rewrite D2. split; [exact Hvin|]. split; [exact Fb|]. apply AsmGeom.within_self. apply (oo_padding D OK). }
  assert (LA : left_active X F R m v = true).
  { assert (OV : od_overlap D (m, g) p = true -> left_active X F R m v = true).
    { intros Q. destruct (D10 g p Hg Hp) as (_ & _ & Y3). apply (Y3 (m, g) eq_refl O1) in Q as (vs' & Ev' & Q). rewrite Ev in Ev'. injection Ev' as <-. apply Q, Qv. }
    assert (BW : both_ways D (m, g) -> left_active X F R m v = true).
    { intros [B1 B2]. destruct (Bool.bool_dec (left_active X F R m v) true) as [L|L]; [exact L|apply Bool.not_true_iff_false in L]. exfalso. apply NF. right. split; [rewrite B2; discriminate|]. right. cbn [fst]. rewrite X1. exact L. }
    destruct Mk as [[_ Q]|[(_ & _ & _ & Q & _)|[(Q & _)|(Q & _)]]]; auto. }
  split; [exact LA|]. destruct (dom_outcome m Hm) as (_ & _ & _ & O4 & O5 & _). destruct (O4 v Hvin) as [O4a _]. destruct (O5 v Hvin) as (_ & _ & O5c & _). split.
  { apply Bool.not_true_iff_false. intros Q. apply NF. left. cbn [fst]. apply X2. exact (proj1 (proj1 O4a Q)). }
  destruct (flag OCCLUDED (at_ (as_flags R) m) v) eqn:Oc.
  - right. apply (DS m v Hm Hvin) in Oc. pose proof (occluded_based D m v Oc) as (m2 & [B1 B2] & B3). exists m2. rewrite D3 in B1. rewrite D7 in B2.
    split; [|split; [|split; [exact B1|split; [exact B2|]]]].
    + intros ->. apply NF. right. cbn [swap fst snd]. split; [rewrite D7; exact B2|]. left. exact B3.
    + apply (fk_grids X _ _ FK (m2, m) B1).
    + pose proof (marked_cell D OK (m2, m) v B3) as NN. rewrite D4 in NN. unfold celled. destruct (fo_vertices (as_found R) (m2, m) v); [reflexivity|congruence].
  - left. split; [|reflexivity]. rewrite O5c. unfold AsmSpec.kept. destruct (dom_outcome m Hm) as (_ & O2' & _). destruct (O2' v Hvin) as (_ & Q2 & _). rewrite <- Q2.
    unfold left_active in LA. rewrite LA. cbn [andb]. destruct (flag OVERLAP_MINIMIZED (at_ (as_flags R) m) v) eqn:Mn; [|reflexivity]. exfalso.
    assert (flag OCCLUDED (at_ (as_flags R) m) v = true); [|congruence].
    apply (minimized_occluded _ _ _ _ _ _ _ _ (dom_outcome m Hm) (dk_fringe X K m) v Hvin); [|exact Mn]. intros Q. apply (min_active m v Hm Hvin Q).
Qed.

Lemma dom_pair a b g p : dd_grids X = [a; b] -> gin g -> pt_in (rng g) p -> dd_smoothing X g = 0 -> flag OCCLUDED (at_ (as_flags R) g) p = true ->
  exists m vs, m <> g /\ fo_vertices (as_found R) (m, g) p = Some vs /\ vs <> [] /\
    forall v, In v vs -> flag ACTIVE (at_ (as_flags R) m) v = true /\ flag OCCLUDED (at_ (as_flags R) m) v = false /\ flag OUTER_FRINGE (at_ (as_flags R) m) v = false.
Proof.
  intros Two Hg Hp Hs Ho. pose proof (dk_detect X K (active_before X F)) as FK. rewrite <- dom_found in FK.
  destruct (dom_covered g p Hg Hp Hs Ho) as (m & vs & O1 & O2 & Ev & Q). exists m, vs. destruct (fk_grids X _ _ FK (m, g) O1) as (Hm & _ & Nmg). cbn [fst snd] in *.
  split; [exact Nmg|]. split; [exact Ev|]. split; [apply (fk_cells X _ _ FK (m, g) p vs Ev)|].
  intros v Hv. destruct (Q v Hv) as (_ & Q1 & [[Q2 Q3]|(m2 & N1 & N2 & P2 & _)]); [auto|]. exfalso.
  destruct (fk_grids X _ _ FK (m2, m) P2) as (H2 & _ & _). cbn [fst] in H2. rewrite Two in Hg, Hm, H2. cbn in Hg, Hm, H2.
  destruct Hg as [<-|[<-|[]]], Hm as [<-|[<-|[]]], H2 as [<-|[<-|[]]]; congruence.
Qed.
End Result.

Lemma overlap_celled k p : pair_mask X (overlap_masks X (s_V X F)) k p = celled (s_V X F) k p.
Proof.
  destruct (celled (s_V X F) k p) eqn:E.
  - unfold celled in E. destruct (fo_vertices (s_V X F) k p) as [vs|] eqn:Ev; [|discriminate]. unfold overlap_masks.
    rewrite (pair_map_at X (has_cell (s_V X F))); [unfold has_cell; rewrite Ev; reflexivity|exact (vertices_point X K F k p vs Ev)|exact (vertices_pair X K F k p vs Ev)].
  - destruct (pair_mask X (overlap_masks X (s_V X F)) k p) eqn:Q; [|reflexivity]. destruct (pair_map_in X _ _ _ _ Q) as [Hp Hk]. unfold overlap_masks in Q.
    rewrite (pair_map_at X (has_cell (s_V X F))) in Q by assumption. unfold has_cell in Q. unfold celled in E. congruence.
Qed.

Lemma donors_total recv P dist : (forall g, gin g -> Z.of_nat (length (values recv g)) = rcount (rng g)) -> exists don, donors X (s_V X F) recv P dist = Some don.
Proof.
  intros Len. unfold donors. apply omap_total. intros g Hg.
  destruct (donors_ok (fun a b => occ_of (dd_occludes X (a, b))) (rng g) (rng g) (values recv g) (map (donor_data X (s_V X F) P dist) (pairs_to (s_V X F) g))) as (ds & E & _).
  - auto.
  - apply Len, Hg.
  - apply (valid_gen X K F).
  - intros o Ho. apply in_map_iff in Ho as (k & <- & Hk). apply (dk_padding X K k).
  - rewrite E. eexists. reflexivity.
Qed.

Lemma dom_ends : (exists f0, forall fuel, (f0 <= fuel)%nat -> exists R, assembly X junk fuel F = Some R) <->
  finite (cells_only X (dd_detect X (active_before X F))) /\ all_pairs X (dd_detect X (active_before X F)).
Proof.
  rewrite <- found_is. split.
  - intros (f0 & Q). destruct (Q f0 (le_n f0)) as (R & A). destruct (assembly_inv _ _ _ _ _ A) as (hol & pw & don & E1 & E2 & E3 & _). split.
    + pose proof (cut_needs _ (hdata_is_ok X K F) f0 hol E1) as Fi. revert Fi. apply finite_same, overlap_celled.
    + assert (C : complete (s_odata X F hol)).
      { apply (detect_needs _ junk (map (fun g => (g, any_for g pw)) (dd_grids X)) (odata_is_ok X K F hol [] [])). unfold detect_occluded. rewrite E2. reflexivity. }
      intros k Hk H1 H2. apply (C k (conj Hk H1) H2).
  - intros [Fi AP]. destruct (cut_ends (s_hdata X F) (hdata_is_ok X K F)) as (f0 & Q).
    + revert Fi. apply finite_same. intros k p. symmetry. apply overlap_celled.
    + exists f0. intros f Hf. destruct (Q f Hf) as (hol & E1). destruct (pairwise_eq (s_odata X F hol) junk) as (fm & E2 & _).
      * intros k [H1 H2] H3. apply (AP k H1 H2 H3).
      * destruct (donors_total (s_recv X F hol (with_all (used (s_odata X F hol)) fm)) (s_ov7 X F hol (with_all (used (s_odata X F hol)) fm))
          (s_dist X F hol (with_all (used (s_odata X F hol)) fm))) as (don & E3).
        -- intros g Hg. unfold s_recv, masks_for. rewrite values_for by exact Hg. apply each_len.
        -- eexists. exact (assembly_intro X junk f F hol _ don E1 E2 E3).
Qed.
End Main.
