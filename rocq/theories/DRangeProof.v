(** Proofs about distributed region hashes of ranges. *)
From Coq Require Import List ZArith QArith Bool Lia.
From Verif Require Import TupleModel RangeModel IndexerModel ArrayModel ContModel HashModel HashSpec DHashModel.
From Verif Require Import Base RangeProof IndexerProof ArrayProof HashProof HashGeoProof.
From Verif Require Import ProtoModel NetModel NetSpec NetProof NetPhase NetTools DHashProof DRetrProof DCompProof.
Import ListNotations.
Local Open Scope Z_scope.

Lemma pt_in_d r p : pt_in r p <-> forall d, (d < 3)%nat -> tget (rb r) d <= tget p d < tget (re r) d.
Proof.
  split.
  - intros (A & B & D) [|[|[|d]]] Hd; cbn [tget]; lia.
  - intros H. pose proof (H 0%nat ltac:(lia)). pose proof (H 1%nat ltac:(lia)). pose proof (H 2%nat ltac:(lia)).
    unfold pt_in. cbn [tget] in *. lia.
Qed.

Lemma grid_range_nonempty nd g : grid_range nd g -> rempty g = false.
Proof.
  intros [H _]. apply rempty_false. apply pt_in_d. intros d Hd. specialize (H d Hd). lia.
Qed.

Lemma clamp_le r c d : (d < 3)%nat -> tget (rb r) d <= tget c d -> tget (clamp_to_range r c) d <= tget c d.
Proof.
  intros Hd H. unfold clamp_to_range. rewrite tget_tmake by exact Hd.
  repeat match goal with |- context [if ?b then _ else _] => destruct b eqn:?; b2p end; lia.
Qed.

(** ** Extents *)
Definition ext_inv (nd : nat) (x : range) : Prop :=
  (forall d, (nd <= d < 3)%nat -> tget (rb x) d = 0 /\ tget (re x) d = 1) /\
  (rempty x = true -> x = make_empty_range nd) .

Definition covers (nd : nat) (x g : range) : Prop :=
  forall d, (d < nd)%nat -> tget (rb x) d <= tget (rb g) d /\ tget (re g) d <= tget (re x) d.

Lemma union_inv nd x g : (1 <= nd <= 3)%nat -> ext_inv nd x -> grid_range nd g ->
  ext_inv nd (union_ranges x g) /\ rempty (union_ranges x g) = false /\ covers nd (union_ranges x g) g /\
  forall g', grid_range nd g' -> covers nd x g' -> covers nd (union_ranges x g) g'.
Proof.
  intros Hnd [I1 I2] G. pose proof (grid_range_nonempty nd g G) as NE. destruct G as [G1 G2].
  unfold union_ranges. destruct (rempty x) eqn:E.
  - split; [split; [exact G2|congruence]|]. split; [exact NE|]. split; [intros d Hd; lia|].
    intros g' [G1' _] Hc. rewrite (I2 eq_refl) in Hc. specialize (Hc 0%nat ltac:(lia)). specialize (G1' 0%nat ltac:(lia)).
    unfold make_empty_range in Hc. cbn [rb re] in Hc. rewrite !tget_tmake in Hc by lia.
    destruct (Nat.ltb_spec 0 nd); lia.
  - rewrite NE. assert (E2 : rempty (mkR (tmake (fun d => Z.min (tget (rb x) d) (tget (rb g) d)))
      (tmake (fun d => Z.max (tget (re x) d) (tget (re g) d)))) = false).
    { apply rempty_false, pt_in_d. intros d Hd. cbn [rb re]. rewrite !tget_tmake by exact Hd. specialize (G1 d Hd). lia. }
    split; [split|split; [exact E2|split]].
    + intros d Hd. cbn [rb re]. rewrite !tget_tmake by lia. specialize (I1 d Hd). specialize (G2 d Hd). lia.
    + congruence.
    + intros d Hd. cbn [rb re]. rewrite !tget_tmake by lia. lia.
    + intros g' _ Hc d Hd. specialize (Hc d Hd). cbn [rb re]. rewrite !tget_tmake by lia. lia.
Qed.

Lemma empty_inv nd : ext_inv nd (make_empty_range nd).
Proof.
  split; [|auto]. intros d Hd. unfold make_empty_range. cbn [rb re]. rewrite !tget_tmake by lia.
  destruct (Nat.ltb_spec d nd); lia.
Qed.

Lemma extents_inv nd l : (1 <= nd <= 3)%nat -> (forall g, In g l -> grid_range nd g) ->
  ext_inv nd (hash_extents zcoords range_traits nd l) /\
  forall g, In g l -> covers nd (hash_extents zcoords range_traits nd l) g.
Proof.
  intros Hnd H. unfold hash_extents. cbn [k_union zcoords t_ext range_traits k_empty].
  enough (G : forall l x, (forall g, In g l -> grid_range nd g) -> ext_inv nd x ->
    ext_inv nd (fold_left (fun a g => union_ranges a g) l x) /\
    (forall g, In g l -> covers nd (fold_left (fun a g => union_ranges a g) l x) g) /\
    (forall g, grid_range nd g -> covers nd x g -> covers nd (fold_left (fun a g => union_ranges a g) l x) g)).
  { destruct (G l (make_empty_range nd) H (empty_inv nd)) as (A & B & _). auto. }
  clear l H. induction l as [|g l IH]; intros x H Ix; cbn [fold_left].
  - split; [exact Ix|]. split; [intros g []|auto].
  - assert (Gg : grid_range nd g) by (apply H; left; reflexivity).
    destruct (union_inv nd x g Hnd Ix Gg) as (A & _ & B & D).
    destruct (IH (union_ranges x g) (fun g' Hg => H g' (or_intror Hg)) A) as (A' & B' & D').
    split; [exact A'|]. split.
    + intros g' [<-|Hg]; [apply D'; auto|apply B'; auto].
    + intros g' Gg' Hc. apply D'; auto.
Qed.

Lemma reduce_min l : forall a x, In x (a :: l) -> reduce Z.min (a :: l) 0 <= x.
Proof.
  cbn [reduce]. assert (G : forall l a, fold_left Z.min l a <= a) .
  { induction l0 as [|b l0 IH]; intros a; cbn [fold_left]; [lia|]. specialize (IH (Z.min a b)). lia. }
  induction l as [|b l IH]; intros a x [<-|H]; cbn [fold_left]; [lia|destruct H|..].
  - specialize (G l (Z.min a b)). lia.
  - destruct H as [<-|H]; [specialize (G l (Z.min a b)); lia|]. apply IH. right. exact H.
Qed.
Lemma reduce_max l : forall a x, In x (a :: l) -> x <= reduce Z.max (a :: l) 0.
Proof.
  cbn [reduce]. assert (G : forall l a, a <= fold_left Z.max l a) .
  { induction l0 as [|b l0 IH]; intros a; cbn [fold_left]; [lia|]. specialize (IH (Z.max a b)). lia. }
  induction l as [|b l IH]; intros a x [<-|H]; cbn [fold_left]; [lia|destruct H|..].
  - specialize (G l (Z.max a b)). lia.
  - destruct H as [<-|H]; [specialize (G l (Z.max a b)); lia|]. apply IH. right. exact H.
Qed.
Lemma reduce_dflt {A} (f : A -> A -> A) l a b : l <> [] -> reduce f l a = reduce f l b.
Proof. destruct l; [congruence|reflexivity]. Qed.

Section Ranges.
Variables (nd n : nat) (decomp : range -> Z -> tup Z) (ratio : tup Z -> list range -> option Z).
Variable L : nat -> list range.
Hypothesis Hnd : (1 <= nd <= 3)%nat.
Hypothesis Hn : (1 <= n)%nat.
Hypothesis HL : forall r g, (r < n)%nat -> In g (L r) -> grid_range nd g.
Hypothesis Hdec : forall x, (forall d, (d < 3)%nat -> 1 <= tget (decomp x (Z.of_nat n)) d) /\
  rcount (range_of (decomp x (Z.of_nat n))) <= Z.of_nat n.
Hypothesis Hratio : forall size l, l <> [] -> (forall g, In g l -> grid_range nd g) -> exists z, ratio size l = Some z.

Let xs := fun r => hash_extents zcoords range_traits nd (L r).
Let x0 : range := reduce_ext zcoords nd (map xs (seq 0 n)) (xs 0%nat).
Let num := decomp x0 (Z.of_nat n).
Let procs := range_of num.
Let size : tup Z := tmake (fun d => Z.quot (rsize1 x0 d + tget num d - 1) (tget num d)).

Lemma seq_nonempty {A} (f : nat -> A) : map f (seq 0 n) <> [].
Proof. destruct n; [lia|]. discriminate. Qed.

Lemma x0_same r : (r < n)%nat -> reduce_ext zcoords nd (map xs (seq 0 n)) (xs r) = x0.
Proof.
  intros Hr. destruct (extents_inv nd (L r) Hnd (fun g Hg => HL r g Hr Hg)) as ((A & _) & _).
  destruct (extents_inv nd (L 0%nat) Hnd (fun g Hg => HL 0%nat g Hn Hg)) as ((B & _) & _).
  fold (xs r) in A. fold (xs 0%nat) in B.
  unfold x0, reduce_ext. cbn [k_mk k_b k_e k_min k_max zcoords].
  assert (E : forall f g : nat -> Z, (forall d, (d < 3)%nat -> f d = g d) -> tmake f = tmake g).
  { intros f g H. unfold tmake. rewrite !H by lia. reflexivity. }
  f_equal; apply E; intros d Hd; destruct (Nat.ltb_spec d nd).
  - apply reduce_dflt. rewrite map_map. apply seq_nonempty.
  - rewrite (proj1 (A d ltac:(lia))), (proj1 (B d ltac:(lia))). reflexivity.
  - apply reduce_dflt. rewrite map_map. apply seq_nonempty.
  - rewrite (proj2 (A d ltac:(lia))), (proj2 (B d ltac:(lia))). reflexivity.
Qed.

Lemma x0_unused d : (nd <= d < 3)%nat -> tget (rb x0) d = 0 /\ tget (re x0) d = 1.
Proof.
  intros Hd. destruct (extents_inv nd (L 0%nat) Hnd (fun g Hg => HL 0%nat g Hn Hg)) as ((B & _) & _).
  unfold x0, reduce_ext. cbn [k_mk k_b k_e k_min k_max zcoords rb re]. rewrite !tget_tmake by lia.
  destruct (Nat.ltb_spec d nd); [lia|]. apply B. exact Hd.
Qed.

Lemma x0_covers r g : (r < n)%nat -> In g (L r) -> covers nd x0 g.
Proof.
  intros Hr Hg d Hd. destruct (extents_inv nd (L r) Hnd (fun g Hg => HL r g Hr Hg)) as (_ & A).
  specialize (A g Hg d Hd). fold (xs r) in A.
  unfold x0, reduce_ext. cbn [k_mk k_b k_e k_min k_max zcoords rb re]. rewrite !tget_tmake by lia.
  destruct (Nat.ltb_spec d nd); [|lia].
  assert (I1 : In (tget (rb (xs r)) d) (map (fun x => tget (rb x) d) (map xs (seq 0 n)))).
  { apply in_map_iff. exists (xs r). split; [reflexivity|]. apply in_map. apply in_seq. lia. }
  assert (I2 : In (tget (re (xs r)) d) (map (fun x => tget (re x) d) (map xs (seq 0 n)))).
  { apply in_map_iff. exists (xs r). split; [reflexivity|]. apply in_map. apply in_seq. lia. }
  destruct (map (fun x => tget (rb x) d) (map xs (seq 0 n))) as [|a l] eqn:E1; [destruct I1|].
  destruct (map (fun x => tget (re x) d) (map xs (seq 0 n))) as [|a' l'] eqn:E2; [destruct I2|].
  apply reduce_min in I1. apply reduce_max in I2. cbn [reduce] in *. lia.
Qed.

Lemma num_pos d : (d < 3)%nat -> 1 <= tget num d.
Proof. apply Hdec. Qed.
Lemma procs_nonempty : rempty procs = false.
Proof. apply range_of_nonempty. exact num_pos. Qed.

Lemma size_spec : zbin_size x0 num = Some size.
Proof.
  unfold zbin_size, tmake_opt. pose proof (num_pos 0%nat ltac:(lia)). pose proof (num_pos 1%nat ltac:(lia)).
  pose proof (num_pos 2%nat ltac:(lia)).
  destruct (Z.eqb_spec (tget num 0) 0); [lia|]. destruct (Z.eqb_spec (tget num 1) 0); [lia|].
  destruct (Z.eqb_spec (tget num 2) 0); [lia|]. reflexivity.
Qed.

Lemma quot_pos a b : 1 <= a -> 1 <= b -> 1 <= Z.quot (a + b - 1) b.
Proof. intros. rewrite Z.quot_div_nonneg by lia. apply Z.div_le_lower_bound; lia. Qed.

Lemma size_pos r g d : (r < n)%nat -> In g (L r) -> (d < nd)%nat -> 0 < tget size d.
Proof.
  intros Hr Hg Hd. unfold size. rewrite tget_tmake by lia.
  destruct (x0_covers r g Hr Hg d Hd). destruct (HL r g Hr Hg) as [G _]. specialize (G d ltac:(lia)).
  assert (1 <= Z.quot (rsize1 x0 d + tget num d - 1) (tget num d)); [|lia].
  apply quot_pos; [unfold rsize1; lia|apply num_pos; lia].
Qed.

Lemma cell_some o s p : (forall d, (d < nd)%nat -> 0 < tget s d) -> exists c, grid_cell floor_cell nd o s p = Some c.
Proof.
  intros H. apply tmake_opt_ok. intros d Hd. destruct (Nat.ltb_spec d nd); [|eauto].
  destruct (floor_cell_spec (tget o d) (tget s d) (tget p d) (H d ltac:(lia))) as (c & -> & _). eauto.
Qed.

Lemma cell_spec o s p c d : (forall d, (d < nd)%nat -> 0 < tget s d) -> grid_cell floor_cell nd o s p = Some c ->
  (d < nd)%nat -> tget o d + tget c d * tget s d <= tget p d < tget o d + (tget c d + 1) * tget s d.
Proof.
  intros H E Hd. pose proof (tmake_opt_some _ _ E d ltac:(lia)) as A. cbn beta in A.
  destruct (Nat.ltb_spec d nd); [|lia].
  destruct (floor_cell_spec (tget o d) (tget s d) (tget p d) (H d Hd)) as (c' & E' & B).
  rewrite E' in A. injection A as ->. exact B.
Qed.

Lemma map_some bins lay o s g : (forall d, (d < nd)%nat -> 0 < tget s d) ->
  exists m, t_map range_traits nd bins (rindex lay bins) o s g = Some m.
Proof.
  intros H. cbn [t_map range_traits]. unfold corner_bins.
  destruct (cell_some o s (rb g) H) as [l ->].
  destruct (cell_some o s (tmake (fun d => tget (re g) d - 1)) H) as [u ->]. eauto.
Qed.

Lemma map_in bins lay o s g m : rempty bins = false ->
  t_map range_traits nd bins (rindex lay bins) o s g = Some m ->
  exists r, m = MapRange r /\ pt_subset r bins.
Proof. intros NE E. cbn [t_map range_traits] in E. eapply corner_bins_in in E; [exact E|lia|exact NE]. Qed.

Lemma bin_set_In bins lay r b : In b (bin_set bins (rindex lay bins) (MapRange r)) <-> exists p, pt_in r p /\ b = rindex lay bins p.
Proof.
  cbn [bin_set]. rewrite zset_In, in_map_iff. split.
  - intros (p & <- & H). exists p. split; [apply foreach_col_In, H|reflexivity].
  - intros (p & H & ->). exists p. split; [reflexivity|]. apply foreach_col_In, H.
Qed.

(** Bins of a process that a region reaches have a positive size. *)
Lemma bins_pos mult loc bs : 1 <= mult -> (forall d, (d < nd)%nat -> 0 < tget size d) ->
  (forall d, (d < nd)%nat -> tget (rb x0) d + tget loc d * tget size d < tget (re x0) d) ->
  k_size zcoords (proc_ext zcoords nd x0 size loc) (rsize (proc_bins nd mult)) = Some bs ->
  forall d, (d < nd)%nat -> 0 < tget bs d.
Proof.
  intros Hm Hs Hl E d Hd. change (k_size zcoords) with zbin_size in E. pose proof (tmake_opt_some _ _ E d ltac:(lia)) as A. cbn beta in A.
  assert (E2 : tget (rsize (proc_bins nd mult)) d = mult).
  { unfold rsize, proc_bins. rewrite tget_tmake by lia. unfold rsize1. cbn [rb re]. rewrite !tget_tmake by lia.
    destruct (Nat.ltb_spec d nd); lia. }
  rewrite E2 in A. destruct (mult =? 0); [discriminate|].
  assert (EQ : tget bs d = Z.quot (rsize1 (proc_ext zcoords nd x0 size loc) d + mult - 1) mult) by congruence.
  rewrite EQ. clear A EQ. assert (1 <= Z.quot (rsize1 (proc_ext zcoords nd x0 size loc) d + mult - 1) mult); [|lia].
  apply quot_pos; [|exact Hm]. unfold rsize1, proc_ext. cbn [k_mk k_min k_b k_e k_corner zcoords rb re].
  rewrite !tget_tmake by lia. destruct (Nat.ltb_spec d nd); [|lia]. specialize (Hs d Hd). specialize (Hl d Hd). lia.
Qed.

Lemma bins_some mult loc : 1 <= mult ->
  exists bs, k_size zcoords (proc_ext zcoords nd x0 size loc) (rsize (proc_bins nd mult)) = Some bs.
Proof.
  intros Hm. cbn [k_size zcoords]. apply tmake_opt_ok. intros d Hd.
  destruct (Z.eqb_spec (tget (rsize (proc_bins nd mult)) d) 0) as [E|]; [exfalso|eauto].
  unfold rsize, proc_bins in E. rewrite tget_tmake in E by lia. unfold rsize1, make_empty_range in E. cbn [rb re] in E.
  rewrite !tget_tmake in E by lia. destruct (Nat.ltb_spec d nd); lia.
Qed.

(** A process that a region is sent to begins before the end of the extents. *)
Lemma reached_proc r g m b loc : (r < n)%nat -> In g (L r) ->
  t_map range_traits nd procs (rindex RowMajor procs) (rb x0) size g = Some m ->
  In b (bin_set procs (rindex RowMajor procs) m) -> pt_in procs loc -> b = rindex RowMajor procs loc ->
  forall d, (d < nd)%nat -> tget (rb x0) d + tget loc d * tget size d < tget (re x0) d.
Proof.
  intros Hr Hg Em Ib Il Eb d Hd. pose proof (fun d Hd => size_pos r g d Hr Hg Hd) as SP.
  destruct (map_in _ _ _ _ _ _ procs_nonempty Em) as (rg & -> & Hsub).
  apply bin_set_In in Ib as (p & Ip & Ep). rewrite Ep in Eb. apply rindex_inj in Eb; [|auto|auto]. subst p.
  cbn [t_map range_traits] in Em. unfold corner_bins in Em.
  destruct (grid_cell floor_cell nd (rb x0) size (rb g)) as [l|] eqn:El; [|discriminate].
  destruct (grid_cell floor_cell nd (rb x0) size (tmake (fun d => tget (re g) d - 1))) as [u|] eqn:Eu; [|discriminate].
  injection Em as <-. rewrite extend2 in Ip by lia. specialize (Ip d ltac:(lia)).
  pose proof (cell_spec _ _ _ _ d SP El Hd) as A. pose proof (cell_spec _ _ _ _ d SP Eu Hd) as B.
  rewrite tget_tmake in B by lia.
  destruct (x0_covers r g Hr Hg d Hd) as [C1 C2]. destruct (HL r g Hr Hg) as [G _]. specialize (G d ltac:(lia)).
  specialize (SP d Hd).
  assert (0 <= tget l d) by nia. assert (0 <= tget u d) by nia.
  assert (Rb : tget (rb procs) d = 0) by (unfold procs, range_of; destruct d as [|[|[|d]]]; cbn; lia).
  pose proof (clamp_le procs l d ltac:(lia) ltac:(lia)). pose proof (clamp_le procs u d ltac:(lia) ltac:(lia)).
  assert (tget loc d <= tget l d \/ tget loc d <= tget u d) as [K|K] by lia; nia.
Qed.

Lemma inside_bin bins lay o s g p m : (forall d, (d < nd)%nat -> 0 < tget s d) -> rempty bins = false -> pt_in g p ->
  t_map range_traits nd bins (rindex lay bins) o s g = Some m ->
  exists c, grid_cell floor_cell nd o s p = Some c /\
    In (rindex lay bins (clamp_to_range bins c)) (bin_set bins (rindex lay bins) m).
Proof.
  intros Hs NE Hp Em. destruct (cell_some o s p Hs) as [c Ec]. exists c. split; [exact Ec|].
  cbn [t_map range_traits] in Em.
  assert (Hlu : forall d, (d < nd)%nat -> tget (rb g) d <= tget p d /\ tget p d <= tget (tmake (fun d => tget (re g) d - 1)) d).
  { intros d Hd. rewrite tget_tmake by lia. pose proof (proj1 (pt_in_d g p) Hp d ltac:(lia)). lia. }
  destruct (corner_bins_complete floor_cell Z.le (fun s => 0 < s) floor_cell_mono nd bins o s _ _ p m c
    ltac:(lia) NE Hs Hlu Em Ec) as (r & -> & Hr). apply bin_set_In. eauto.
Qed.

Theorem range_dhash_complete : exists H,
  prog_ok n (dh_build zcoords range_traits nd n decomp ratio) (fun r => D0 (L r)) (fun r => DH (H r)) /\
  (forall r r' p, (r < n)%nat -> (r' < n)%nat -> dh_map zcoords nd (H r) p = dh_map zcoords nd (H r') p) /\
  (forall r g s p, (r < n)%nat -> (s < n)%nat -> In g (L s) -> pt_in g p ->
     exists q b, dh_map zcoords nd (H r) p = Some (q, b)) /\
  forall ids,
    (forall r q b, (r < n)%nat -> In (q, b) (ids r) -> (exists p, dh_map zcoords nd (H r) p = Some (q, b)) /\
       exists g s p b', (s < n)%nat /\ In g (L s) /\ pt_in g p /\ dh_map zcoords nd (H r) p = Some (q, b')) ->
    exists res, prog_ok n (dh_retrieve n) (fun r => R0 (H r) (ids r)) (fun r => RH (H r) (res r)) /\
      forall r q b, (r < n)%nat -> In (q, b) (ids r) ->
        exists f, retrieved (res r) q b = Some (filter f (contributions n L)) /\
          forall g s p, (s < n)%nat -> In g (L s) -> pt_in g p -> dh_map zcoords nd (H r) p = Some (q, b) ->
          f (g, s) = true.
Proof.
  apply dhash_complete with (x0 := x0) (size := size).
  - exact x0_same.
  - exact size_spec.
  - split; [exact procs_nonempty|apply Hdec].
  - intros r g bins lay o s m Hr Hg NE Em. destruct (map_in _ _ _ _ _ _ NE Em) as (rg & -> & Hsub).
    eexists. split; [reflexivity|]. split; [apply zset_NoDup|]. intros b Hb.
    apply bin_set_In in Hb as (p & Hp & ->). apply rindex_bounds. auto.
  - intros r g Hr Hg. apply map_some. intros d Hd. eapply size_pos; eauto.
  - intros l Hl H. apply Hratio; [exact Hl|]. intros g Hg. destruct (H g Hg) as (r & Hr & Ig). eapply HL; eauto.
  - intros r g q mult loc Hr Hg Eq Hm Il Iq. unfold region_procs in Eq.
    cbn [k_b zcoords] in Eq. fold procs in Eq. fold num in Eq. change (range_of num) with procs in Eq.
    match type of Eq with match ?a with _ => _ end = _ => destruct a as [m|] eqn:Em end; [|discriminate].
    injection Eq as <-. apply in_map_iff in Iq as (b & Eb & Ib).
    destruct (map_in _ _ _ _ _ _ procs_nonempty Em) as (rg & Erg & Hsub). pose proof Ib as Ib'. rewrite Erg in Ib'.
    apply bin_set_In in Ib' as (p & Hp & Ep). pose proof (rindex_bounds RowMajor procs p (Hsub p Hp)).
    pose proof (rindex_bounds RowMajor procs loc Il).
    assert (b = rindex RowMajor procs loc) as Eb' by (change (range_of (decomp x0 (Z.of_nat n))) with procs in Eb; lia).
    destruct (bins_some mult loc Hm) as [bs Es].
    assert (BP : forall d, (d < nd)%nat -> 0 < tget bs d).
    { eapply bins_pos; [exact Hm|intros; eapply size_pos; eauto| |exact Es]. eapply reached_proc; eauto. }
    destruct (map_some (proc_bins nd mult) ColMajor (rb (proc_ext zcoords nd x0 size loc)) bs g BP) as [m' Em'].
    exists bs, m'. split; [exact Es|exact Em'].
  - intros r g p m Hr Hg Hp Em. apply inside_bin with (g := g); auto.
    + intros d Hd. eapply size_pos; eauto.
    + exact procs_nonempty.
  - intros r g p c mult bs m Hr Hg Hp Hm Ec px bins Es Em.
    apply inside_bin with (g := g); auto.
    + eapply bins_pos; [exact Hm|intros; eapply size_pos; eauto| |exact Es].
      intros d Hd. change (range_of (decomp x0 (Z.of_nat n))) with procs.
      pose proof (cell_spec _ _ _ _ d (fun d Hd => size_pos r g d Hr Hg Hd) Ec Hd) as A. cbn [k_b zcoords] in A.
      destruct (x0_covers r g Hr Hg d Hd) as [C1 C2]. pose proof (proj1 (pt_in_d g p) Hp d ltac:(lia)) as B.
      pose proof (size_pos r g d Hr Hg Hd) as SP. assert (0 <= tget c d) by nia.
      assert (Rb : tget (rb procs) d = 0) by (unfold procs, range_of; destruct d as [|[|[|d]]]; cbn; lia).
      pose proof (clamp_le procs c d ltac:(lia) ltac:(lia)). nia.
    + apply proc_bins_nonempty; [exact Hnd|exact Hm].
  - exact Hnd.
Qed.

End Ranges.
