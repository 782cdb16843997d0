(** Proofs about distributed region hashes: what is retrieved is complete. *)
From Coq Require Import List ZArith Bool Lia.
From Verif Require Import TupleModel RangeModel IndexerModel ArrayModel ContModel HashModel HashSpec DHashModel.
From Verif Require Import Base RangeProof IndexerProof ArrayProof HashProof HashGeoProof.
From Verif Require Import ContSpec ContProof MapProof OMap PairMap ProtoModel ProtoSpec NetModel NetSpec NetProof NetPhase HandProof NetTools DHashProof DRetrProof.
Import ListNotations.
Local Open Scope nat_scope.

Definition zmemb (b : Z) (l : list Z) : bool := existsb (Z.eqb b) l.
Lemma zmemb_In b l : zmemb b l = true <-> In b l.
Proof.
  unfold zmemb. rewrite existsb_exists. split.
  - intros (x & H & E). apply Z.eqb_eq in E. congruence.
  - intros H. exists b. split; [exact H|apply Z.eqb_refl].
Qed.

Lemma filter_eqb_NoDup b l : NoDup l -> filter (Z.eqb b) l = if zmemb b l then [b] else [].
Proof.
  induction l as [|x l IH]; intros N; [reflexivity|]. inversion N; subst. cbn [filter zmemb existsb].
  fold (zmemb b l). rewrite IH by auto. destruct (Z.eqb_spec b x) as [->|E]; cbn [orb]; [|reflexivity].
  destruct (zmemb x l) eqn:M; [apply zmemb_In in M; contradiction|reflexivity].
Qed.

Lemma holding_read {A} (f : A -> list Z) b l : (forall a, In a l -> NoDup (f a)) -> forall pre,
  omap (vread (pre ++ l)) (holding b (Z.of_nat (length pre)) (map f l)) = Some (filter (fun a => zmemb b (f a)) l).
Proof.
  induction l as [|a l IH]; intros H pre; [reflexivity|]. cbn [map holding filter].
  rewrite filter_eqb_NoDup by (apply H; left; reflexivity).
  specialize (IH (fun a Ha => H a (or_intror Ha)) (pre ++ [a])).
  rewrite app_length, <- app_assoc in IH. cbn [length app] in IH.
  replace (Z.of_nat (length pre + 1)) with (Z.of_nat (length pre) + 1)%Z in IH by lia.
  destruct (zmemb b (f a)); cbn [map app].
  - rewrite omap_cons, vread_app_mid, IH. reflexivity.
  - exact IH.
Qed.

Lemma holding_bound b lists : forall i j, In j (holding b i lists) -> (i <= j < i + Z.of_nat (length lists))%Z.
Proof.
  induction lists as [|l r IH]; intros i j H; [destruct H|]. cbn [holding length] in *. apply in_app_iff in H as [H|H].
  - apply in_map_iff in H as (x & <- & _). lia.
  - apply IH in H. lia.
Qed.

Lemma proc_bins_nonempty nd m : 1 <= nd <= 3 -> (1 <= m)%Z -> rempty (proc_bins nd m) = false.
Proof.
  intros Hnd Hm. unfold proc_bins, rempty, tany, make_empty_range, tmake. cbn [rb re tget c0 c1 c2].
  destruct nd as [|[|[|[|]]]]; try lia; cbn; lia.
Qed.

Section Complete.
Context {C X R : Type} (k : coords C X) (t : traits C X R) (nd n : nat).
Variable decomp : X -> Z -> tup Z.
Variable ratio : tup C -> list R -> option Z.
Variable L : nat -> list R.
Variable x0 : X.
Variable size : tup C.
Notation procs := (range_of (decomp x0 (Z.of_nat n))).
Notation xs := (fun r => hash_extents k t nd (L r)).
Hypothesis Hx : forall r, r < n -> reduce_ext k nd (map xs (seq 0 n)) (xs r) = x0.
Hypothesis Hsize : k_size k x0 (decomp x0 (Z.of_nat n)) = Some size.
Hypothesis Hprocs : rempty procs = false /\ (rcount procs <= Z.of_nat n)%Z.
(** Where regions go. *)
Hypothesis Hmap : forall r g bins lay o s m, r < n -> In g (L r) -> rempty bins = false ->
  t_map t nd bins (rindex lay bins) o s g = Some m ->
  exists l, bin_set bins (rindex lay bins) m = l /\ NoDup l /\ forall b, In b l -> (0 <= b < rcount bins)%Z.
Hypothesis Hreg : forall r g, r < n -> In g (L r) ->
  exists m, t_map t nd procs (rindex RowMajor procs) (k_b k x0) size g = Some m.
Hypothesis Hratio : forall l, l <> [] -> (forall g, In g l -> exists r, r < n /\ In g (L r)) ->
  exists z, ratio size l = Some z.
Hypothesis Hbins : forall r g q mult loc, r < n -> In g (L r) -> region_procs k t nd x0 procs size g = Some q ->
  (1 <= mult)%Z -> pt_in procs loc -> In (Z.to_nat (rindex RowMajor procs loc)) q ->
  exists bs m, k_size k (proc_ext k nd x0 size loc) (rsize (proc_bins nd mult)) = Some bs /\
    t_map t nd (proc_bins nd mult) (rindex ColMajor (proc_bins nd mult)) (k_b k (proc_ext k nd x0 size loc)) bs g = Some m.
(** Points of regions, and the bins of their regions. *)
Variable inside : R -> tup C -> Prop.
Hypothesis Hin1 : forall r g p m, r < n -> In g (L r) -> inside g p ->
  t_map t nd procs (rindex RowMajor procs) (k_b k x0) size g = Some m ->
  exists c, grid_cell (k_cell k) nd (k_b k x0) size p = Some c /\
    In (rindex RowMajor procs (clamp_to_range procs c)) (bin_set procs (rindex RowMajor procs) m).
Hypothesis Hin2 : forall r g p c mult bs m, r < n -> In g (L r) -> inside g p -> (1 <= mult)%Z ->
  grid_cell (k_cell k) nd (k_b k x0) size p = Some c ->
  let px := proc_ext k nd x0 size (clamp_to_range procs c) in
  let bins := proc_bins nd mult in
  k_size k px (rsize bins) = Some bs ->
  t_map t nd bins (rindex ColMajor bins) (k_b k px) bs g = Some m ->
  exists c', grid_cell (k_cell k) nd (k_b k px) bs p = Some c' /\
    In (rindex ColMajor bins (clamp_to_range bins c')) (bin_set bins (rindex ColMajor bins) m).

Let P (g : R) : list nat := match region_procs k t nd x0 procs size g with Some l => l | None => [] end.

Lemma P_spec r g : r < n -> In g (L r) ->
  region_procs k t nd x0 procs size g = Some (P g) /\ NoDup (P g) /\ (forall q, In q (P g) -> q < n).
Proof.
  intros Hr Hg. destruct (Hreg r g Hr Hg) as [m Em]. destruct Hprocs as [NE LE].
  assert (E : region_procs k t nd x0 procs size g = Some (map Z.to_nat (bin_set procs (rindex RowMajor procs) m)))
    by (unfold region_procs; rewrite Em; reflexivity).
  unfold P. rewrite E. split; [reflexivity|].
  destruct (Hmap r g procs RowMajor _ _ m Hr Hg NE Em) as (l & El & N & Hb). rewrite El. split.
  - assert (G : forall l, (forall b, In b l -> (0 <= b)%Z) -> NoDup l -> NoDup (map Z.to_nat l)).
    { induction l0 as [|a l0 IH]; intros H1 H2; cbn [map]; [constructor|]. inversion H2; subst. constructor.
      - intros I. apply in_map_iff in I as (a' & Ea & Ia). assert (a' = a); [|congruence].
        pose proof (H1 a (or_introl eq_refl)). pose proof (H1 a' (or_intror Ia)). lia.
      - apply IH; auto. intros; apply H1; right; auto. }
    apply G; [|exact N]. intros b Hb'. apply Hb in Hb'. lia.
  - intros q Hq. apply in_map_iff in Hq as (b & <- & Ib). apply Hb in Ib. lia.
Qed.

Let Dt := data n L P.

Lemma Dt_In r g s : In (g, s) (Dt r) <-> s < n /\ In g (L s) /\ In r (P g).
Proof.
  unfold Dt, data. rewrite in_flat_map. split.
  - intros (q & Hq & H). apply in_map_iff in H as (g' & E & Hg). injection E as -> ->.
    apply filter_In in Hg as [G1 G2]. apply memb_In in G2. apply in_seq in Hq. repeat split; auto; lia.
  - intros (H1 & H2 & H3). exists s. split; [apply in_seq; lia|]. apply in_map_iff. exists g. split; [reflexivity|].
    apply filter_In. split; [exact H2|]. apply memb_In, H3.
Qed.

Let M (r : nat) : Z := match Dt r with [] => 1%Z | _ => match ratio size (map fst (Dt r)) with Some z => Z.max z 1 | None => 1%Z end end.

Lemma M_spec r : match Dt r with [] => Some 1%Z | _ => let! z := ratio size (map fst (Dt r)) in Some (Z.max z 1) end = Some (M r).
Proof.
  unfold M. destruct (Dt r) as [|d l] eqn:E; [reflexivity|]. rewrite <- E.
  destruct (Hratio (map fst (Dt r))) as [z Ez].
  - rewrite E. discriminate.
  - intros g Hg. apply in_map_iff in Hg as ([g' s] & <- & I). apply Dt_In in I. cbn. exists s. tauto.
  - rewrite Ez. reflexivity.
Qed.

Lemma M_pos r : (1 <= M r)%Z.
Proof. unfold M. destruct (Dt r); [lia|]. destruct (ratio _ _); lia. Qed.

Let B (g : R) (q : nat) : list Z :=
  match region_bins k t nd x0 procs size (map M (seq 0 n)) g q with Some l => l | None => [] end.

Hypothesis Hnd : 1 <= nd <= 3.

Lemma region_bins_spec g q l : In q (P g) -> q < n -> region_bins k t nd x0 procs size (map M (seq 0 n)) g q = Some l ->
  exists loc bs m, rtuple RowMajor procs (Z.of_nat q) = Some loc /\
    k_size k (proc_ext k nd x0 size loc) (rsize (proc_bins nd (M q))) = Some bs /\
    t_map t nd (proc_bins nd (M q)) (rindex ColMajor (proc_bins nd (M q))) (k_b k (proc_ext k nd x0 size loc)) bs g = Some m /\
    l = bin_set (proc_bins nd (M q)) (rindex ColMajor (proc_bins nd (M q))) m.
Proof.
  intros _ Hq. unfold region_bins. destruct (rtuple RowMajor procs (Z.of_nat q)) as [loc|]; [|discriminate].
  rewrite nth_map_seq by exact Hq. match goal with |- match ?a with _ => _ end = _ -> _ => destruct a as [bs|] eqn:Es end; [|discriminate].
  match goal with |- match ?a with _ => _ end = _ -> _ => destruct a as [m|] eqn:Em end; [|discriminate].
  intros [= <-]. eauto 10.
Qed.

Lemma P_loc r g q : r < n -> In g (L r) -> In q (P g) ->
  exists loc, rtuple RowMajor procs (Z.of_nat q) = Some loc /\ pt_in procs loc /\
    q = Z.to_nat (rindex RowMajor procs loc).
Proof.
  intros Hr Hg Hq. destruct (P_spec r g Hr Hg) as (E & _ & _). unfold region_procs in E.
  match type of E with match ?a with _ => _ end = _ => destruct a as [m|] eqn:Em end; [|discriminate]. injection E as E.
  destruct Hprocs as [NE _].
  destruct (Hmap r g procs RowMajor _ _ m Hr Hg NE Em) as (l & El & _ & Hb). rewrite El in E.
  rewrite <- E in Hq. apply in_map_iff in Hq as (b & <- & Ib). apply Hb in Ib.
  destruct (rtuple_ok RowMajor procs b Ib) as (loc & E1 & E2 & E3). exists loc.
  rewrite Z2Nat.id by lia. rewrite E3. auto.
Qed.

Lemma B_spec s g q : s < n -> In g (L s) -> In q (P g) ->
  region_bins k t nd x0 procs size (map M (seq 0 n)) g q = Some (B g q) /\
  NoDup (B g q) /\ (forall b, In b (B g q) -> (0 <= b < rcount (proc_bins nd (M q)))%Z).
Proof.
  intros Hs Hg Hq. destruct (P_spec s g Hs Hg) as (EP & _ & Hlt). pose proof (Hlt q Hq) as Hqn.
  destruct (P_loc s g q Hs Hg Hq) as (loc & E1 & E2 & E3).
  destruct (Hbins s g (P g) (M q) loc Hs Hg EP (M_pos q) E2) as (bs & m & F1 & F2).
  { rewrite <- E3. exact Hq. }
  assert (E : region_bins k t nd x0 procs size (map M (seq 0 n)) g q =
    Some (bin_set (proc_bins nd (M q)) (rindex ColMajor (proc_bins nd (M q))) m)).
  { unfold region_bins. rewrite E1, nth_map_seq by exact Hqn. rewrite F1, F2. reflexivity. }
  unfold B. rewrite E. split; [reflexivity|].
  destruct (Hmap s g _ ColMajor _ _ m Hs Hg (proc_bins_nonempty _ _ Hnd (M_pos q)) F2) as (l & -> & N & Hb). auto.
Qed.

(** The map of points to bins is the same on all ranks. *)
Let hmap (p : tup C) : option (nat * Z) :=
  dh_map k nd (DHash x0 procs size (map M (seq 0 n)) [] [] [] [] : dhash C X R) p.

Lemma vread_mults q : q < n -> vread (map M (seq 0 n)) (Z.of_nat q) = Some (M q).
Proof.
  intros Hq. unfold vread. destruct (Z.ltb_spec (Z.of_nat q) 0); [lia|]. rewrite Nat2Z.id. apply nth_map_seq, Hq.
Qed.

Lemma hmap_complete r g p : r < n -> In g (L r) -> inside g p ->
  exists q b, hmap p = Some (q, b) /\ In q (P g) /\ In b (B g q).
Proof.
  intros Hr Hg Hp. destruct (Hreg r g Hr Hg) as [m Em]. destruct Hprocs as [NE LE].
  destruct (Hin1 r g p m Hr Hg Hp Em) as (c & Ec & Ic).
  pose proof (clamp_in procs c NE) as IN. set (loc := clamp_to_range procs c) in *.
  set (q := Z.to_nat (rindex RowMajor procs loc)).
  assert (Hq : In q (P g)).
  { unfold P, region_procs. rewrite Em. apply in_map, Ic. }
  destruct (P_spec r g Hr Hg) as (EP & _ & Hlt). pose proof (Hlt q Hq) as Hqn.
  pose proof (rindex_bounds RowMajor procs loc IN) as Hb.
  assert (Eq : Z.of_nat q = rindex RowMajor procs loc) by (unfold q; lia).
  destruct (B_spec r g q Hr Hg Hq) as (EB & _ & _).
  destruct (region_bins_spec g q _ Hq Hqn EB) as (loc' & bs & m' & F1 & F2 & F3 & F4).
  rewrite Eq, rtuple_rindex in F1 by exact IN. injection F1 as <-.
  destruct (Hin2 r g p c (M q) bs m' Hr Hg Hp (M_pos q) Ec F2 F3) as (c' & Ec' & Ic').
  fold loc in Ec'. exists q, (rindex ColMajor (proc_bins nd (M q)) (clamp_to_range (proc_bins nd (M q)) c')).
  split; [|split; [exact Hq|rewrite F4; exact Ic']].
  unfold hmap, dh_map. cbn [d_ext d_procs d_psize d_mults]. rewrite Ec. fold loc.
  rewrite <- Eq, vread_mults by exact Hqn. rewrite F2, Ec', Nat2Z.id. reflexivity.
Qed.

Lemma hmap_bin p q b : hmap p = Some (q, b) -> q < n /\ (0 <= b < rcount (proc_bins nd (M q)))%Z.
Proof.
  unfold hmap, dh_map. cbn [d_ext d_procs d_psize d_mults]. destruct (grid_cell (k_cell k) nd (k_b k x0) size p) as [c|]; [|discriminate].
  destruct Hprocs as [NE LE]. pose proof (clamp_in procs c NE) as IN. set (loc := clamp_to_range procs c) in *.
  pose proof (rindex_bounds RowMajor procs loc IN) as Hb.
  set (z := rindex RowMajor procs loc) in *.
  replace z with (Z.of_nat (Z.to_nat z)) at 1 by lia. rewrite vread_mults by lia.
  match goal with |- match ?a with _ => _ end = _ -> _ => destruct a as [bs|] end; [|discriminate].
  match goal with |- match ?a with _ => _ end = _ -> _ => destruct a as [c'|] end; [|discriminate].
  intros [= <- <-]. split; [lia|]. apply rindex_bounds, clamp_in, proc_bins_nonempty; [exact Hnd|apply M_pos].
Qed.

Lemma data_contributions r : Dt r = filter (fun d => memb r (P (fst d))) (contributions n L).
Proof.
  unfold Dt, data, contributions. rewrite filter_flat_map. rewrite !flat_map_concat_map. f_equal.
  apply map_ext. intros s. unfold sub. rewrite filter_map. reflexivity.
Qed.

Lemma filter_filter {A} (f g : A -> bool) l : filter f (filter g l) = filter (fun a => g a && f a) l.
Proof. induction l as [|a l IH]; cbn; [reflexivity|]. destruct (g a); cbn; [destruct (f a); congruence|exact IH]. Qed.

(** Construction succeeds; all ranks map points to bins in the same way, and every point of a
    region has a bin.  Retrieval of bins of ranks that have regions succeeds and gives regions with
    their ranks, each at most once, among them all that contain a point of the bin. *)
Theorem dhash_complete : exists H,
  prog_ok n (dh_build k t nd n decomp ratio) (fun r => D0 (L r)) (fun r => DH (H r)) /\
  (forall r r' p, r < n -> r' < n -> dh_map k nd (H r) p = dh_map k nd (H r') p) /\
  (forall r g s p, r < n -> s < n -> In g (L s) -> inside g p -> exists q b, dh_map k nd (H r) p = Some (q, b)) /\
  forall ids,
    (forall r q b, r < n -> In (q, b) (ids r) -> (exists p, dh_map k nd (H r) p = Some (q, b)) /\
       exists g s p b', s < n /\ In g (L s) /\ inside g p /\ dh_map k nd (H r) p = Some (q, b')) ->
    exists res, prog_ok n (dh_retrieve n) (fun r => R0 (H r) (ids r)) (fun r => RH (H r) (res r)) /\
      forall r q b, r < n -> In (q, b) (ids r) ->
        exists f, retrieved (res r) q b = Some (filter f (contributions n L)) /\
          forall g s p, s < n -> In g (L s) -> inside g p -> dh_map k nd (H r) p = Some (q, b) -> f (g, s) = true.
Proof.
  destruct (build_ok k t nd n decomp ratio L x0 size Hx Hsize P P_spec M (fun r _ => M_spec r) B B_spec)
    as (H & PO & HH).
  assert (EM : forall r p, r < n -> dh_map k nd (H r) p = hmap p).
  { intros r p Hr. destruct (HH r Hr) as (A1 & A2 & A3 & A4 & _).
    unfold hmap, dh_map. cbn [d_ext d_procs d_psize d_mults]. rewrite A1, A2, A3, A4. reflexivity. }
  exists H. split; [exact PO|]. split; [intros; rewrite !EM by auto; reflexivity|]. split.
  - intros r g s p Hr Hs Hg Hp. rewrite EM by exact Hr.
    destruct (hmap_complete s g p Hs Hg Hp) as (q & b & E & _). eauto.
  - intros ids Hids.
    set (T := fun q b => holding b 0 (map (fun d => B (fst d) q) (Dt q))).
    assert (HT : forall r q b, r < n -> In (q, b) (ids r) -> q < n /\
      bin_regions (H q) b = Some (T q b) /\ vread (d_count (H q)) b = Some (Z.of_nat (length (T q b))) /\
      (forall i, In i (T q b) -> (0 <= i < Z.of_nat (length (d_data (H q))))%Z)).
    { intros r q b Hr I. destruct (Hids r q b Hr I) as ((p & Ep) & g & s & p' & b' & Hs & Hg & Hp' & Ep').
      rewrite EM in Ep, Ep' by exact Hr. destruct (hmap_bin p q b Ep) as [Hq Hb].
      destruct (hmap_complete s g p' Hs Hg Hp') as (q2 & b2 & E2 & I2 & _).
      rewrite E2 in Ep'. injection Ep' as <- <-.
      destruct (HH q2 Hq) as (_ & _ & _ & _ & A5 & A6).
      destruct (A6 ltac:(intros E0; assert (In (g, s) []) as [] by (rewrite <- E0; apply Dt_In; auto)) b Hb) as [B1 B2].
      split; [exact Hq|]. split; [exact B2|]. split; [exact B1|]. intros i Hi.
      apply holding_bound in Hi. rewrite map_length in Hi. rewrite A5. fold Dt. lia. }
    destruct (retr_ok n H ids T HT) as (res & PR & HR). exists res. split; [exact PR|].
    intros r q b Hr I. destruct (HT r q b Hr I) as (Hq & _).
    exists (fun d => memb q (P (fst d)) && zmemb b (B (fst d) q)). split.
    + rewrite HR by auto. destruct (HH q Hq) as (_ & _ & _ & _ & A5 & _). rewrite A5. unfold T. fold Dt.
      change (Dt q) with ([] ++ Dt q) at 1. change 0%Z with (Z.of_nat (length (@nil (R * nat)))).
      rewrite (holding_read (fun d => B (fst d) q) b (Dt q)).
      * rewrite data_contributions, filter_filter. reflexivity.
      * intros [g s] Hd. apply Dt_In in Hd as (Hs & Hg & Hgq). apply (B_spec s g q Hs Hg Hgq).
    + intros g s p Hs Hg Hp E. rewrite EM in E by exact Hr. cbn [fst].
      destruct (hmap_complete s g p Hs Hg Hp) as (q2 & b2 & E2 & I2 & I3). rewrite E2 in E. injection E as -> ->.
      apply andb_true_iff. split; [apply memb_In, I2|apply zmemb_In, I3].
Qed.

End Complete.
