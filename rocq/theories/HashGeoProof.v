(** Proofs about region hashes: bins of points and regions (C22). *)
From Coq Require Import List ZArith QArith Qround Bool Lia Lqa Sorting.Sorted.
From Verif Require Import TupleModel RangeModel BoxModel IndexerModel ArrayModel ContModel HashModel HashSpec.
From Verif Require Import Base RangeProof IndexerProof ArrayProof BoxProof HashProof.
Import ListNotations.
Local Open Scope Z_scope.

Section Cells.
Context {C : Type} (cell : C -> C -> C -> option Z) (le : C -> C -> Prop) (pos : C -> Prop).
Hypothesis mono : forall o s p q c c', pos s -> le p q ->
  cell o s p = Some c -> cell o s q = Some c' -> c <= c'.

Lemma grid_cell_mono nd o s p q c c' : (forall d, (d < nd)%nat -> pos (tget s d)) ->
  (forall d, (d < nd)%nat -> le (tget p d) (tget q d)) ->
  grid_cell cell nd o s p = Some c -> grid_cell cell nd o s q = Some c' ->
  forall d, (d < 3)%nat -> tget c d <= tget c' d.
Proof.
  intros Hs Hle E E' d Hd. unfold grid_cell in *.
  pose proof (tmake_opt_some _ _ E d Hd) as A. pose proof (tmake_opt_some _ _ E' d Hd) as B.
  cbn beta in A, B. destruct (Nat.ltb_spec d nd) as [L|L].
  - eapply mono; eauto.
  - assert (tget c d = 0) by congruence. assert (tget c' d = 0) by congruence. lia.
Qed.

Lemma clamp_mono r a b d : (d < 3)%nat -> rempty r = false -> tget a d <= tget b d ->
  tget (clamp_to_range r a) d <= tget (clamp_to_range r b) d.
Proof.
  intros Hd E H. unfold clamp_to_range. rewrite !tget_tmake by exact Hd.
  assert (N : tget (rb r) d < tget (re r) d).
  { apply rempty_false in E. unfold pt_in in E. destruct d as [|[|[|d]]]; cbn [tget] in *; lia. }
  repeat match goal with |- context [if ?b then _ else _] => destruct b eqn:?; b2p end; lia.
Qed.

Lemma extend2 nd a b : (1 <= nd)%nat -> forall p,
  pt_in (extend_range (extend_range (make_empty_range nd) a) b) p <->
  (forall d, (d < 3)%nat -> Z.min (tget a d) (tget b d) <= tget p d <= Z.max (tget a d) (tget b d)).
Proof.
  intros Hn p. unfold extend_range at 2. rewrite make_empty_range_empty by exact Hn. cbn [negb].
  unfold extend_range.
  assert (E : rempty (mkR (tmake (fun d => tget a d)) (tmake (fun d => tget a d + 1))) = false).
  { unfold rempty, tany, tmake. cbn [rb re tget c0 c1 c2]. destr_tups; cbn [c0 c1 c2]. lia. }
  rewrite E. cbn [negb]. unfold pt_in, tmake. cbn [rb re c0 c1 c2 tget]. split.
  - intros (A & B & D) [|[|[|d]]] Hd; cbn [tget]; lia.
  - intros H. pose proof (H 0%nat ltac:(lia)) as H0. pose proof (H 1%nat ltac:(lia)) as H1.
    pose proof (H 2%nat ltac:(lia)) as H2. cbn [tget] in *. lia.
Qed.

(** The bins between those of two corners contain the bin of every point between, and are
    bins of the hash. *)
Lemma corner_bins_complete nd bins o s lo up p m c : (1 <= nd)%nat -> rempty bins = false ->
  (forall d, (d < nd)%nat -> pos (tget s d)) ->
  (forall d, (d < nd)%nat -> le (tget lo d) (tget p d) /\ le (tget p d) (tget up d)) ->
  corner_bins cell nd bins o s lo up = Some m -> grid_cell cell nd o s p = Some c ->
  exists r, m = MapRange r /\ pt_in r (clamp_to_range bins c).
Proof.
  intros Hn E Hs Hp Hm Hc. unfold corner_bins in Hm.
  destruct (grid_cell cell nd o s lo) as [l|] eqn:El; [|discriminate].
  destruct (grid_cell cell nd o s up) as [u|] eqn:Eu; [|discriminate].
  injection Hm as <-. eexists. split; [reflexivity|]. apply extend2; [exact Hn|].
  intros d Hd.
  assert (A : tget l d <= tget c d) by (eapply grid_cell_mono; eauto; apply Hp; auto).
  assert (B : tget c d <= tget u d) by (eapply grid_cell_mono; eauto; intros; apply Hp; auto).
  pose proof (clamp_mono bins l c d Hd E A). pose proof (clamp_mono bins c u d Hd E B). lia.
Qed.

Lemma corner_bins_in nd bins o s lo up m : (1 <= nd)%nat -> rempty bins = false ->
  corner_bins cell nd bins o s lo up = Some m -> exists r, m = MapRange r /\ pt_subset r bins.
Proof.
  intros Hn E Hm. unfold corner_bins in Hm.
  destruct (grid_cell cell nd o s lo) as [l|] eqn:El; [|discriminate].
  destruct (grid_cell cell nd o s up) as [u|] eqn:Eu; [|discriminate].
  injection Hm as <-. eexists. split; [reflexivity|]. intros p Hp. rewrite extend2 in Hp by exact Hn.
  pose proof (clamp_in bins l E) as A. pose proof (clamp_in bins u E) as B.
  pose proof (Hp 0%nat ltac:(lia)) as H0. pose proof (Hp 1%nat ltac:(lia)) as H1.
  pose proof (Hp 2%nat ltac:(lia)) as H2. unfold pt_in in *. cbn [tget] in *. lia.
Qed.

End Cells.

(** ** Cells of rationals *)

Lemma qcell_mono rnd : rounding rnd -> forall o s p q c c', (0 < s)%Q -> (p <= q)%Q ->
  qfloor_cell rnd o s p = Some c -> qfloor_cell rnd o s q = Some c' -> c <= c'.
Proof.
  intros [M _] o s p q c c' Hs Hpq A B. unfold qfloor_cell in *.
  destruct (Qeq_bool s 0); [discriminate|]. injection A as <-. injection B as <-.
  apply Qfloor_resp_le. apply M. apply Qmult_le_compat_r.
  - apply M. lra.
  - apply Qinv_le_0_compat. lra.
Qed.

Lemma qcell_def rnd o s p : ~ (s == 0)%Q -> exists c, qfloor_cell rnd o s p = Some c.
Proof.
  intros H. unfold qfloor_cell. destruct (Qeq_bool s 0) eqn:E; [|eauto].
  apply Qeq_bool_iff in E. contradiction.
Qed.

Lemma qcell_nz rnd o s p c : qfloor_cell rnd o s p = Some c -> ~ (s == 0)%Q.
Proof.
  unfold qfloor_cell. destruct (Qeq_bool s 0) eqn:E; [discriminate|]. intros _ H.
  apply Qeq_bool_iff in H. congruence.
Qed.

Lemma qbin_size_nonneg rnd x n s : rounding rnd -> (forall d, (d < 3)%nat -> 1 <= tget n d) ->
  qbin_size rnd x n = Some s -> forall d, (d < 3)%nat -> (0 <= tget s d)%Q.
Proof.
  intros [M Z0] Hn E d Hd. pose proof (tmake_opt_some _ _ E d Hd) as A. cbn beta in A.
  destruct (tget n d =? 0); [discriminate|]. injection A as <-.
  apply Qle_trans with (rnd 0%Q); [rewrite Z0; apply Qle_refl|]. apply M. apply Qle_shift_div_l.
  - specialize (Hn d Hd). change 0%Q with (inject_Z 0). rewrite <- Zlt_Qlt. lia.
  - rewrite Qmult_0_l. unfold qmax. destruct (qlt _ 0) eqn:L; [lra|]. apply qlt_false in L. exact L.
Qed.

Lemma qbin_size_def rnd x n : (forall d, (d < 3)%nat -> 1 <= tget n d) ->
  exists s, qbin_size rnd x n = Some s.
Proof.
  intros Hn. apply tmake_opt_ok. intros d Hd. specialize (Hn d Hd).
  destruct (Z.eqb_spec (tget n d) 0); [lia|eauto].
Qed.

(** ** The extents *)

Lemma union_fold_subset bs : forall x, box_subset x (fold_left (fun a b => union_boxes a b) bs x) /\
  (forall b, In b bs -> box_subset b (fold_left (fun a b => union_boxes a b) bs x)) /\
  (forall y, box_subset x y -> (forall b, In b bs -> box_subset b y) ->
     box_subset (fold_left (fun a b => union_boxes a b) bs x) y).
Proof.
  induction bs as [|b bs IH]; intros x; cbn [fold_left].
  - split; [intros p; auto|]. split; [intros b []|auto].
  - destruct (IH (union_boxes x b)) as (A & B & D). destruct (bunion_upper x b) as (U1 & U2).
    split; [intros p Hp; apply A, U1, Hp|]. split.
    + intros c [<-|Hc]; [intros p Hp; apply A, U2, Hp|apply B, Hc].
    + intros y Hx Hy. apply D; [|intros; apply Hy; right; auto].
      apply bunion_least; [exact Hx|]. apply Hy. left. reflexivity.
Qed.

Lemma make_empty_box_empty nd p : (1 <= nd)%nat -> ~ box_in (make_empty_box nd) p.
Proof.
  intros H B. destruct nd; [lia|]. unfold box_in, make_empty_box, tmake in B. cbn in B. lra.
Qed.

Lemma box_extents rnd nd bs : (1 <= nd)%nat ->
  bounding_box bs (hash_extents (qcoords rnd) (box_traits rnd) nd bs).
Proof.
  intros Hn. unfold hash_extents. cbn [k_union k_empty qcoords t_ext box_traits].
  destruct (union_fold_subset bs (make_empty_box nd)) as (_ & B & D). split.
  - intros b p Hb. apply B, Hb.
  - intros y Hy. apply D; [|intros b Hb p; apply Hy, Hb].
    intros p Hp. apply make_empty_box_empty in Hp; [contradiction|exact Hn].
Qed.

(** ** The hash *)

Lemma holding_In b lists : forall i x, In x (holding b i lists) <->
  exists k l, nth_error lists k = Some l /\ x = i + Z.of_nat k /\ In b l.
Proof.
  induction lists as [|l r IH]; intros i x; cbn [holding].
  - split; [intros []|]. intros (k & l & H & _). destruct k; discriminate.
  - rewrite in_app_iff, IH, in_map_iff. split.
    + intros [(y & <- & Hy)|(k & l' & A & B & D)].
      * apply filter_In in Hy as [Hy E]. apply Z.eqb_eq in E. subst y.
        exists 0%nat, l. repeat split; auto; lia.
      * exists (S k), l'. repeat split; auto. lia.
    + intros (k & l' & A & B & D). destruct k as [|k]; cbn in A.
      * injection A as <-. left. exists b. split; [lia|]. apply filter_In. split; [exact D|apply Z.eqb_refl].
      * right. exists k, l'. repeat split; auto. lia.
Qed.

Lemma filter_one b l : NoDup l -> (length (filter (Z.eqb b) l) <= 1)%nat.
Proof.
  induction l as [|x l IH]; intros H; cbn; [lia|]. inversion H; subst.
  destruct (Z.eqb_spec b x) as [->|]; [|auto]. cbn.
  rewrite (proj2 (length_zero_iff_nil _)); [lia|].
  destruct (filter (Z.eqb x) l) as [|y r] eqn:E; [reflexivity|].
  exfalso. assert (In y (filter (Z.eqb x) l)) as I by (rewrite E; left; reflexivity).
  apply filter_In in I as [I1 I2]. apply Z.eqb_eq in I2. subst y. contradiction.
Qed.

Lemma holding_NoDup b lists : (forall l, In l lists -> NoDup l) -> forall i, NoDup (holding b i lists).
Proof.
  intros H. induction lists as [|l r IH]; intros i; cbn [holding]; [constructor|].
  apply NoDup_app_intro.
  - pose proof (filter_one b l (H l (or_introl eq_refl))) as L.
    destruct (filter (Z.eqb b) l) as [|x [|y q]]; cbn in *; [constructor|repeat constructor; auto|lia].
  - apply IH. intros l' Hl'. apply H. right. exact Hl'.
  - intros x Hx Hy. apply in_map_iff in Hx as (y & <- & _). apply holding_In in Hy as (k & l' & _ & E & _). lia.
Qed.

Lemma holding_sorted b lists : (forall l, In l lists -> NoDup l) -> forall i, StronglySorted Z.lt (holding b i lists).
Proof.
  intros H. induction lists as [|l r IH]; intros i; cbn [holding]; [constructor|].
  assert (S : StronglySorted Z.lt (holding b (i + 1) r)) by (apply IH; intros l' Hl'; apply H; right; exact Hl').
  assert (F : Forall (Z.lt i) (holding b (i + 1) r)).
  { apply Forall_forall. intros x Hx. apply holding_In in Hx as (k & l' & _ & E & _). lia. }
  pose proof (filter_one b l (H l (or_introl eq_refl))) as L.
  destruct (filter (Z.eqb b) l) as [|x [|y q]]; cbn in *; [exact S|constructor; assumption|lia].
Qed.

Lemma range_of_nonempty n : (forall d, (d < 3)%nat -> 1 <= tget n d) -> rempty (range_of n) = false.
Proof.
  intros H. pose proof (H 0%nat ltac:(lia)). pose proof (H 1%nat ltac:(lia)). pose proof (H 2%nat ltac:(lia)).
  unfold range_of, rempty, tany. cbn [tget rb re c0 c1 c2] in *. lia.
Qed.

Lemma visits_in bins r b : pt_subset r bins -> In b (visits_of bins (MapRange r)) -> 0 <= b < rcount bins.
Proof.
  intros H Hb. cbn [visits_of] in Hb. apply in_map_iff in Hb as (p & <- & Hp). apply foreach_col_In in Hp.
  apply rindex_bounds. auto.
Qed.

Lemma visits_NoDup bins r : pt_subset r bins -> NoDup (visits_of bins (MapRange r)).
Proof.
  intros H. cbn [visits_of]. pose proof (foreach_col_NoDup r) as ND.
  assert (G : forall l, (forall p, In p l -> pt_in bins p) -> NoDup l -> NoDup (map (rindex ColMajor bins) l)).
  { induction l as [|p l IH]; intros Hl N; cbn [map]; [constructor|]. inversion N; subst. constructor.
    - intros X. apply in_map_iff in X as (q & E & Hq).
      apply rindex_inj in E; [subst; contradiction|apply Hl; right; auto|apply Hl; left; auto].
    - apply IH; auto. intros; apply Hl; right; auto. }
  apply G; [|exact ND]. intros p Hp. apply H, foreach_col_In, Hp.
Qed.

Lemma rcount_nonneg r : 0 <= rcount r.
Proof. rewrite rcount_ecount. apply ecount_nonneg. Qed.

(** Construction from the bins of each region. *)
Lemma hash_build_some {C X R} (k : coords C X) (t : traits C X R) nd n regions size over :
  let bins := range_of n in
  let x := hash_extents k t nd regions in
  k_size k x n = Some size ->
  omap (t_map t nd bins (rindex ColMajor bins) (k_b k x) size) regions = Some over ->
  (forall m b, In m over -> In b (visits_of bins m) -> 0 <= b < rcount bins) ->
  exists h, hash_build k t nd n regions = Some h /\ h_nd h = nd /\ h_bins h = bins /\ h_ext h = x /\
    h_size h = size /\
    forall b, 0 <= b < rcount bins -> hash_retrieve h b = Some (holding b 0 (map (visits_of bins) over)).
Proof.
  intros bins x Es Eo Hv. unfold hash_build. fold bins x. rewrite Es, Eo.
  pose proof (rcount_nonneg bins) as Hc.
  assert (HN : Z.of_nat (Z.to_nat (rcount bins)) = rcount bins) by lia.
  destruct (csr_correct (Z.to_nat (rcount bins)) (map (visits_of bins) over))
    as (counts & st & total & Ec & Lc & Rc & Hst & Ht & Hend & HS & Hf).
  { intros v b H1 H2. apply in_map_iff in H1 as (m & <- & Hm). rewrite HN. eauto. }
  rewrite Ec, rindex_foreach.
  destruct (Hst (repeat 0 (Z.to_nat (rcount bins + 1)))) as (st' & E1 & L1 & R1).
  { rewrite repeat_length. lia. }
  rewrite E1. cbn [fst snd].
  destruct (vwrite_spec st' (rcount bins - 1 + 1) total) as (starts & E2 & L2 & R2).
  { rewrite L1, repeat_length. lia. }
  rewrite E2. destruct (Hf starts) as (ind & E3 & R3).
  { intros b Hb. rewrite R2, R1. destruct (Z.eqb_spec b (rcount bins - 1 + 1)); [lia|].
    destruct (Z.leb_spec 0 b), (Z.ltb_spec b (Z.of_nat (Z.to_nat (rcount bins)))); auto; lia. }
  rewrite E3. cbn [fst]. eexists. split; [reflexivity|]. cbn. repeat split.
  intros b Hb. unfold hash_retrieve. cbn [h_starts h_ind].
  assert (RS : forall c, 0 <= c <= rcount bins -> vread starts c = Some (st c)).
  { intros c Hc'. rewrite R2, R1. destruct (Z.eqb_spec c (rcount bins - 1 + 1)).
    - replace c with (Z.of_nat (Z.to_nat (rcount bins))) by lia. congruence.
    - destruct (Z.leb_spec 0 c), (Z.ltb_spec c (Z.of_nat (Z.to_nat (rcount bins)))); auto; lia. }
  rewrite !RS by lia. rewrite HS by lia.
  replace (st b + _ - st b) with (Z.of_nat (length (holding b 0 (map (visits_of bins) over)))) by lia.
  apply R3. lia.
Qed.

Lemma hash_build_inv {C X R} (k : coords C X) (t : traits C X R) nd n regions h :
  hash_build k t nd n regions = Some h ->
  exists size over, k_size k (hash_extents k t nd regions) n = Some size /\
    omap (t_map t nd (range_of n) (rindex ColMajor (range_of n))
            (k_b k (hash_extents k t nd regions)) size) regions = Some over.
Proof.
  unfold hash_build. destruct (k_size k _ n) as [size|]; [|discriminate].
  destruct (omap _ regions) as [over|] eqn:E; [|discriminate]. intros _. exists size, over. auto.
Qed.

(** What a user of the hash of boxes relies on. *)
Theorem box_hash_correct rnd nd n regions h : rounding rnd -> (1 <= nd <= 3)%nat ->
  (forall d, (d < 3)%nat -> 1 <= tget n d) ->
  hash_build (qcoords rnd) (box_traits rnd) nd n regions = Some h ->
  bounding_box regions (h_ext h) /\
  forall p, exists b, hash_bin (qcoords rnd) h p = Some b /\
    (b = -1 <-> ~ box_in (h_ext h) p) /\
    (b <> -1 -> 0 <= b < c0 n * c1 n * c2 n /\
       exists l, hash_retrieve h b = Some l /\ StronglySorted Z.lt l /\
         (forall i, In i l -> 0 <= i < Z.of_nat (length regions)) /\
         (forall i r, nth_error regions i = Some r -> box_in r p -> In (Z.of_nat i) l)).
Proof.
  intros RN Hnd Hn HB. destruct (hash_build_inv _ _ _ _ _ _ HB) as (size & over & Es & Eo).
  pose proof (range_of_nonempty n Hn) as NE.
  assert (HT : forall i r m, nth_error regions i = Some r -> nth_error over i = Some m ->
    corner_bins (qfloor_cell rnd) nd (range_of n)
      (bb (hash_extents (qcoords rnd) (box_traits rnd) nd regions)) size (bb r) (be r) = Some m).
  { intros i r m A B. destruct (omap_nth _ _ _ _ _ Eo A) as (m' & B' & E).
    assert (m' = m) by congruence. subst. exact E. }
  assert (LO : length over = length regions) by (eapply omap_length; eauto).
  assert (HM : forall m, In m over -> exists r, m = MapRange r /\ pt_subset r (range_of n)).
  { intros m Hm. apply In_nth_error in Hm as [i Hi].
    destruct (nth_error regions i) as [r|] eqn:Er.
    - pose proof (HT i r m Er Hi) as CB. eapply corner_bins_in in CB; [exact CB|lia|exact NE].
    - apply nth_error_None in Er. assert (i < length over)%nat by (apply nth_error_Some; congruence). lia. }
  destruct (hash_build_some (qcoords rnd) (box_traits rnd) nd n regions size over Es Eo)
    as (h' & HB' & A1 & A2 & A3 & A4 & A5).
  { intros m b Hm Hb. destruct (HM m Hm) as (r & -> & Hr). eapply visits_in; eauto. }
  rewrite HB in HB'. injection HB' as <-.
  set (x := hash_extents (qcoords rnd) (box_traits rnd) nd regions) in *.
  pose proof (box_extents rnd nd regions ltac:(lia)) as BB. fold x in BB.
  rewrite A3. split; [exact BB|]. intros p. unfold hash_bin. rewrite A1, A2, A3, A4.
  cbn [k_contains k_cell k_b qcoords]. destruct (bcontains x p) eqn:Ec.
  - apply bcontains_spec in Ec.
    assert (POS : forall d, (d < nd)%nat -> (0 < tget size d)%Q).
    { intros d Hd. destruct regions as [|r0 rest].
      - exfalso. exact (make_empty_box_empty nd p (proj1 Hnd) Ec).
      - assert (exists m0, nth_error over 0 = Some m0) as [m0 Hm0].
        { destruct over; [discriminate|eexists; reflexivity]. }
        pose proof (HT 0%nat r0 m0 eq_refl Hm0) as E. unfold corner_bins in E.
        destruct (grid_cell _ nd _ size (bb r0)) as [c|] eqn:G; [|discriminate].
        unfold grid_cell in G. pose proof (tmake_opt_some _ _ G d ltac:(lia)) as G1. cbn beta in G1.
        destruct (Nat.ltb_spec d nd); [|lia]. apply qcell_nz in G1.
        pose proof (qbin_size_nonneg rnd x n size RN Hn Es d ltac:(lia)). lra. }
    assert (exists c, grid_cell (qfloor_cell rnd) nd (bb x) size p = Some c) as [c Gc].
    { apply tmake_opt_ok. intros d Hd. destruct (Nat.ltb_spec d nd) as [L|L]; [|eauto].
      apply qcell_def. specialize (POS d L). lra. }
    rewrite Gc. eexists. split; [reflexivity|].
    pose proof (rindex_bounds ColMajor (range_of n) _ (clamp_in (range_of n) c NE)) as BD.
    assert (CN : rcount (range_of n) = c0 n * c1 n * c2 n).
    { pose proof (Hn 0%nat ltac:(lia)). pose proof (Hn 1%nat ltac:(lia)). pose proof (Hn 2%nat ltac:(lia)).
      unfold rcount, rsize1, range_of. cbn [tget rb re c0 c1 c2] in *.
      rewrite !Z.max_l by lia. ring. }
    split. { split; [intros; lia|]. intros X. contradiction. }
    intros _. split; [lia|]. eexists. split; [apply A5; exact BD|]. split; [|split].
    + apply holding_sorted. intros l Hl. apply in_map_iff in Hl as (m & <- & Hm).
      destruct (HM m Hm) as (r & -> & Hr). apply visits_NoDup, Hr.
    + intros i Hi. apply holding_In in Hi as (k & l & E & -> & _).
      assert (k < length (map (visits_of (range_of n)) over))%nat by (apply nth_error_Some; congruence).
      rewrite map_length in *. lia.
    + intros i r Er Hp. apply holding_In.
      assert (exists m, nth_error over i = Some m) as [m Em].
      { destruct (nth_error over i) eqn:E; [eauto|]. apply nth_error_None in E.
        assert (i < length regions)%nat by (apply nth_error_Some; congruence). lia. }
      pose proof (HT i r m Er Em) as CB.
      destruct (corner_bins_complete (qfloor_cell rnd) Qle (fun s => 0 < s)%Q (qcell_mono rnd RN)
                  nd (range_of n) (bb x) size (bb r) (be r) p m c) as (rr & -> & Hin); auto; [lia| |].
      * intros d Hd. unfold box_in in Hp. destruct d as [|[|[|d]]]; cbn [tget]; [..|lia]; tauto.
      * exists i, (visits_of (range_of n) (MapRange rr)). repeat split.
        -- rewrite nth_error_map, Em. reflexivity.
        -- apply in_map. apply foreach_col_In. exact Hin.
  - exists (-1). split; [reflexivity|]. split; [|congruence]. split; [|auto]. intros _ Hp.
    apply bcontains_spec in Hp. congruence.
Qed.

(** The construction succeeds when no bin size is zero. *)
Theorem box_hash_built rnd nd n regions : rounding rnd -> (1 <= nd <= 3)%nat ->
  (forall d, (d < 3)%nat -> 1 <= tget n d) ->
  regions = [] \/
  (forall d, (d < nd)%nat -> exists b p b' p', In b regions /\ box_in b p /\ In b' regions /\ box_in b' p' /\
     0 < rnd (rnd (tget p' d - tget p d) / inject_Z (tget n d)))%Q ->
  exists h, hash_build (qcoords rnd) (box_traits rnd) nd n regions = Some h.
Proof.
  intros RN Hnd Hn HD. pose proof (box_extents rnd nd regions ltac:(lia)) as BB.
  set (x := hash_extents (qcoords rnd) (box_traits rnd) nd regions) in *.
  destruct (qbin_size_def rnd x n Hn) as [size Es].
  assert (NZ : regions <> [] -> forall d, (d < nd)%nat -> ~ (tget size d == 0)%Q).
  { intros NE d Hd. destruct HD as [HD|HD]; [contradiction|].
    destruct (HD d Hd) as (b & p & b' & p' & I1 & B1 & I2 & B2 & P).
    pose proof (tmake_opt_some _ _ Es d ltac:(lia)) as A. cbn beta in A.
    destruct (tget n d =? 0); [discriminate|]. injection A as <-. intros Z0.
    destruct BB as [BB _]. pose proof (BB _ _ I1 B1) as C1. pose proof (BB _ _ I2 B2) as C2.
    assert (W : (tget p' d - tget p d <= tget (be x) d - tget (bb x) d)%Q).
    { unfold box_in in C1, C2. destruct d as [|[|[|d]]]; cbn [tget]; [..|lia]; lra. }
    destruct RN as [M _]. apply M in W.
    assert (W' : (rnd (tget p' d - tget p d) <= qmax (rnd (tget (be x) d - tget (bb x) d)) 0)%Q).
    { eapply Qle_trans; [exact W|]. unfold qmax. destruct (qlt _ 0) eqn:L; [|lra].
      apply qlt_true in L. lra. }
    assert (PN : (0 < inject_Z (tget n d))%Q).
    { specialize (Hn d ltac:(lia)). change 0%Q with (inject_Z 0). rewrite <- Zlt_Qlt. lia. }
    assert (K : (rnd (tget p' d - tget p d) / inject_Z (tget n d) <=
                 qmax (rnd (tget (be x) d - tget (bb x) d)) 0 / inject_Z (tget n d))%Q).
    { apply Qmult_le_compat_r; [exact W'|]. apply Qinv_le_0_compat. lra. }
    apply M in K. lra. }
  destruct (omap_total (t_map (box_traits rnd) nd (range_of n) (rindex ColMajor (range_of n)) (bb x) size) regions)
    as [over Eo].
  { intros r Hr. cbn [t_map box_traits]. unfold corner_bins.
    assert (NE : regions <> []) by (intros ->; contradiction).
    assert (G : forall q, exists c, grid_cell (qfloor_cell rnd) nd (bb x) size q = Some c).
    { intros q. apply tmake_opt_ok. intros d Hd. destruct (Nat.ltb_spec d nd) as [L|L]; [|eauto].
      apply qcell_def, NZ; auto. }
    destruct (G (bb r)) as [c1 ->]. destruct (G (be r)) as [c2 ->]. eauto. }
  pose proof (range_of_nonempty n Hn) as NE.
  destruct (hash_build_some (qcoords rnd) (box_traits rnd) nd n regions size over Es Eo) as (h & E & _); [|eauto].
  intros m b Hm Hb. apply In_nth_error in Hm as [i Hi].
  destruct (nth_error regions i) as [r|] eqn:Er.
  - destruct (omap_nth _ _ _ _ _ Eo Er) as (m' & B' & E). assert (m' = m) by congruence. subst.
    cbn [t_map box_traits] in E. eapply corner_bins_in in E as (rr & -> & Hr); [|lia|exact NE].
    eapply visits_in; eauto.
  - apply nth_error_None in Er. assert (i < length over)%nat by (apply nth_error_Some; congruence).
    rewrite (omap_length _ _ _ Eo) in *. lia.
Qed.
