(** Proofs about distributed region hashes: retrieval. *)
From Coq Require Import List ZArith Bool Lia.
From Verif Require Import TupleModel RangeModel IndexerModel ArrayModel ContModel HashModel HashSpec DHashModel.
From Verif Require Import Base RangeProof IndexerProof ArrayProof HashProof HashGeoProof.
From Verif Require Import ContSpec ContProof MapProof OMap PairMap ProtoModel ProtoSpec NetModel NetSpec NetProof NetPhase HandProof NetTools DHashProof.
Import ListNotations.
Local Open Scope nat_scope.
Local Arguments count : simpl never.
Local Arguments Nat.eqb : simpl never.
Local Arguments Nat.ltb : simpl never.

Lemma vread_app_mid {A} (pre : list A) x post : vread (pre ++ x :: post) (Z.of_nat (length pre)) = Some x.
Proof.
  unfold vread. destruct (Z.ltb_spec (Z.of_nat (length pre)) 0); [lia|]. rewrite Nat2Z.id.
  rewrite nth_error_app2, Nat.sub_diag by lia. reflexivity.
Qed.

Lemma slice_mid pre x post : slice (pre ++ x ++ post) (Z.of_nat (length pre)) (Z.of_nat (length x)) = Some x.
Proof.
  unfold slice, zrange. rewrite Z.sub_0_r, Nat2Z.id.
  enough (G : forall x pre a, omap (fun k => vread (pre ++ x ++ post) (Z.of_nat (length pre) - a + k)%Z) (zseq a (length x)) = Some x).
  { specialize (G x pre 0%Z). rewrite Z.sub_0_r in G. exact G. }
  clear. induction x as [|y x IH]; intros pre a; [reflexivity|]. cbn [length zseq]. rewrite omap_cons.
  replace (Z.of_nat (length pre) - a + a)%Z with (Z.of_nat (length pre)) by lia.
  cbn [app]. rewrite vread_app_mid. specialize (IH (pre ++ [y]) (a + 1)%Z).
  rewrite app_length, <- app_assoc in IH. cbn [app length] in IH.
  replace (Z.of_nat (length pre + 1) - (a + 1))%Z with (Z.of_nat (length pre) - a)%Z in IH by lia.
  rewrite IH. reflexivity.
Qed.

(** The position of i in a list, from a on. *)
Fixpoint posf (s : list Z) (i a : Z) : Z :=
  match s with [] => (-1)%Z | x :: r => if Z.eqb x i then a else posf r i (a + 1) end.

Lemma posf_nth s i : In i s -> forall a, exists j, posf s i a = (a + Z.of_nat j)%Z /\ nth_error s j = Some i.
Proof.
  induction s as [|x s IH]; intros H a; [destruct H|]. cbn [posf]. destruct (Z.eqb_spec x i) as [->|E].
  - exists 0. split; [lia|reflexivity].
  - destruct H as [H|H]; [contradiction|]. destruct (IH H (a + 1)%Z) as (j & E1 & E2).
    exists (S j). split; [lia|exact E2].
Qed.

Lemma positions_spec total s : NoDup s -> (forall i, In i s -> 0 <= i < Z.of_nat total)%Z ->
  exists pos, positions total s = Some pos /\ forall i, In i s -> vread pos i = Some (posf s i 0).
Proof.
  intros N H. unfold positions, zrange. rewrite Z.sub_0_r, Nat2Z.id.
  enough (G : forall a l, length l = total ->
    exists pos, ofoldl (fun p x => vwrite p (snd x) (fst x)) (combine (zseq a (length s)) s) l = Some pos /\
      length pos = total /\
      (forall i, In i s -> vread pos i = Some (posf s i a)) /\ (forall i, ~ In i s -> vread pos i = vread l i)).
  { destruct (G 0%Z (repeat (-1)%Z total) (repeat_length _ _)) as (pos & E & _ & P & _). eauto. }
  revert N H. induction s as [|x s IH]; intros N H a l Hl.
  - exists l. cbn. intuition.
  - inversion N; subst. cbn [length zseq combine ofoldl fst snd].
    destruct (vwrite_spec l x a) as (l' & E & L' & R); [apply H; left; reflexivity|]. rewrite E.
    destruct (IH H3 (fun i Hi => H i (or_intror Hi)) (a + 1)%Z l' L') as (pos & E2 & Lp & R1 & R2).
    exists pos. split; [exact E2|]. split; [exact Lp|]. cbn [posf]. split.
    + intros i Hi. destruct (Z.eqb_spec x i) as [->|Ne].
      * rewrite R2 by auto. rewrite R. rewrite Z.eqb_refl. reflexivity.
      * destruct Hi; [contradiction|]. auto.
    + intros i Hi. cbn in Hi. rewrite R2 by auto. rewrite R. destruct (Z.eqb_spec i x); [exfalso; auto|reflexivity].
Qed.

Lemma intervals_spec (f : Z -> list Z) all bins : forall a m pre,
  all = pre ++ flat_map f bins -> a = Z.of_nat (length pre) -> mok Z.ltb m ->
  (forall b iv, mget Z.ltb m b = Some iv -> slice all (fst iv) (snd iv - fst iv) = Some (f b)) ->
  exists m', intervals bins (map (fun b => Z.of_nat (length (f b))) bins) a m = Some m' /\ mok Z.ltb m' /\
    (forall b iv, mget Z.ltb m' b = Some iv -> slice all (fst iv) (snd iv - fst iv) = Some (f b)) /\
    (forall b, In b bins \/ mget Z.ltb m b <> None -> mget Z.ltb m' b <> None).
Proof.
  induction bins as [|b bins IH]; intros a m pre Ea El G H.
  - exists m. cbn. intuition.
  - cbn [map intervals]. subst a.
    destruct (IH (Z.of_nat (length pre) + Z.of_nat (length (f b)))%Z
      (fst (map_insert Z.ltb m b (Z.of_nat (length pre), (Z.of_nat (length pre) + Z.of_nat (length (f b)))%Z)))
      (pre ++ f b)) as (m' & E & G' & H' & I').
    + rewrite Ea. cbn [flat_map]. rewrite app_assoc. reflexivity.
    + rewrite app_length. lia.
    + apply (mok_insert Z.ltb zltb_swo). exact G.
    + intros c iv. rewrite (mget_insert Z.ltb zltb_swo) by exact G. rewrite zkq.
      destruct (Z.eqb_spec c b) as [->|Ne]; [|apply H]. intros [= <-]. cbn [fst snd].
      replace (Z.of_nat (length pre) + Z.of_nat (length (f b)) - Z.of_nat (length pre))%Z
        with (Z.of_nat (length (f b))) by lia.
      rewrite Ea. cbn [flat_map]. apply slice_mid.
    + exists m'. split; [exact E|]. split; [exact G'|]. split; [exact H'|].
      intros c Hc. apply I'. rewrite (mget_insert Z.ltb zltb_swo) by exact G. rewrite zkq.
      destruct (Z.eqb_spec c b) as [->|Ne]; [right; discriminate|].
      cbn [In] in Hc. destruct Hc as [[Hc|Hc]|Hc]; auto; congruence.
Qed.

Lemma sending_spec {C X R} (h : dhash C X R) T bins : (forall b, In b bins -> bin_regions h b = Some (T b)) ->
  sending_regions h bins = Some (fold_left (set_insert Z.ltb) (flat_map T bins) []).
Proof.
  unfold sending_regions. generalize (@nil Z). induction bins as [|b bins IH]; intros s H; [reflexivity|].
  cbn [ofoldl flat_map]. rewrite H by (left; reflexivity). rewrite IH by (intros; apply H; right; auto).
  rewrite fold_left_app. reflexivity.
Qed.

Lemma pair_up_spec {A R} (num : A -> Z) (f : A -> list (R * nat)) l :
  (forall a, In a l -> num a = Z.of_nat (length (f a))) ->
  pair_up (map num l)
    (flat_map (fun a => [MRegs (map fst (f a)); MInts (map (fun x => Z.of_nat (snd x)) (f a))]) l) =
  Some (map f l).
Proof.
  induction l as [|a l IH]; intros H; [reflexivity|]. cbn [map flat_map app pair_up get_regs get_ints].
  rewrite H by (left; reflexivity). rewrite !map_length, Z.eqb_refl. cbn [andb].
  rewrite IH by (intros; apply H; right; auto). do 2 f_equal. rewrite map_map.
  generalize (f a). clear. induction l as [|[g s] l IH]; [reflexivity|]. cbn [map combine fst snd].
  rewrite Nat2Z.id, IH. reflexivity.
Qed.

Lemma zsum_map {A} (f : A -> nat) l : zsum (map (fun a => Z.of_nat (f a)) l) = Z.of_nat (fold_right Nat.add 0 (map f l)).
Proof. unfold zsum. induction l as [|a l IH]; cbn [map fold_right]; [reflexivity|]. rewrite IH. lia. Qed.

Lemma flat_map_len {A B} (f : A -> list B) l : length (flat_map f l) = fold_right Nat.add 0 (map (fun a => length (f a)) l).
Proof. induction l as [|a l IH]; cbn; [reflexivity|]. rewrite app_length, IH. reflexivity. Qed.

Section Retr.
Context {C X R : Type} (n : nat).
Variable H : nat -> dhash C X R.
Variable ids : nat -> list (nat * Z).
Variable T : nat -> Z -> list Z.
Hypothesis HT : forall r q b, r < n -> In (q, b) (ids r) -> q < n /\
  bin_regions (H q) b = Some (T q b) /\ vread (d_count (H q)) b = Some (Z.of_nat (length (T q b))) /\
  (forall i, In i (T q b) -> (0 <= i < Z.of_nat (length (d_data (H q))))%Z).

Let ranks r := bin_ranks (ids r).
Let from r := named n ranks r.
Let bq r q := bins_of (ids r) q.
Let sd r q := fold_left (set_insert Z.ltb) (flat_map (T q) (bq r q)) [].
Let rd r q := match region_data (H q) (sd r q) with Some d => d | None => [] end.
Let cn r q := map (fun b => Z.of_nat (length (T q b))) (bq r q).
Let il r q := flat_map (fun b => map (fun i => posf (sd r q) i 0) (T q b)) (bq r q).

Lemma ranks_In r q : In q (ranks r) <-> exists b, In (q, b) (ids r).
Proof.
  unfold ranks, bin_ranks. rewrite nset_In, in_map_iff. split.
  - intros ([q' b] & <- & I). eauto.
  - intros (b & I). exists (q, b). auto.
Qed.
Lemma ranks_NoDup r : NoDup (ranks r).
Proof. apply nset_NoDup. Qed.
Lemma ranks_lt r q : r < n -> In q (ranks r) -> q < n.
Proof. intros Hr I. apply ranks_In in I as [b I]. eapply HT; eauto. Qed.
Lemma from_In' r q : In q (from r) <-> q < n /\ In r (ranks q).
Proof. unfold from, named. rewrite filter_In, in_seq. fold (memb r (ranks q)). rewrite memb_In. intuition; lia. Qed.
Lemma from_NoDup' r : NoDup (from r).
Proof. apply NoDup_filter, seq_NoDup. Qed.
Lemma sym1 r s : r < n -> s < n -> (In s (from r) <-> In r (ranks s)).
Proof. intros. rewrite from_In'. tauto. Qed.
Lemma bq_In r q b : In b (bq r q) <-> In (q, b) (ids r).
Proof.
  unfold bq, bins_of. rewrite in_map_iff. split.
  - intros ([q' b'] & <- & I). apply filter_In in I as [I1 I2]. apply Nat.eqb_eq in I2. cbn in *. subst. exact I1.
  - intros I. exists (q, b). split; [reflexivity|]. apply filter_In. split; [exact I|]. apply Nat.eqb_refl.
Qed.

Lemma sd_In r q i : In i (sd r q) <-> exists b, In (q, b) (ids r) /\ In i (T q b).
Proof.
  unfold sd. rewrite zset_In, in_flat_map. split; intros (b & I & J); exists b; split; auto; apply bq_In; auto.
Qed.
Lemma sd_bound r q i : r < n -> In i (sd r q) -> (0 <= i < Z.of_nat (length (d_data (H q))))%Z.
Proof. intros Hr I. apply sd_In in I as (b & I & J). eapply HT; eauto. Qed.
Lemma rd_spec r q : r < n -> region_data (H q) (sd r q) = Some (rd r q).
Proof.
  intros Hr. unfold rd, region_data. destruct (omap_total (vread (d_data (H q))) (sd r q)) as [d E].
  - intros i Hi. apply vread_some. eapply sd_bound; eauto.
  - rewrite E. reflexivity.
Qed.
Lemma rd_length r q : r < n -> length (rd r q) = length (sd r q).
Proof. intros Hr. apply (omap_length _ _ _ (rd_spec r q Hr)). Qed.

Let S0 r : rst C X R := R0 (H r) (ids r).
Let S1 r : rst C X R := R1 (H r) (ids r) (ranks r) (from r).
Let S2 r : rst C X R := R2 (H r) (ids r) (ranks r) (from r) (map (fun q => Z.of_nat (length (bq q r))) (from r)).
Let S3 r : rst C X R := R3 (H r) (ids r) (ranks r) (from r) (map (fun q => bq q r) (from r)) (map (fun q => sd q r) (from r)).
Let S4 r : rst C X R := R4 (H r) (ids r) (ranks r) (from r) (map (fun q => bq q r) (from r)) (map (fun q => sd q r) (from r))
  (map (fun q => Z.of_nat (length (sd r q))) (ranks r)).
Let S5 r : rst C X R := R5 (H r) (ids r) (ranks r) (from r) (map (fun q => bq q r) (from r)) (map (fun q => sd q r) (from r))
  (map (fun q => rd r q) (ranks r)).
Let S6 r : rst C X R := R6 (H r) (ids r) (ranks r) (from r) (map (fun q => bq q r) (from r)) (map (fun q => sd q r) (from r))
  (map (fun q => rd r q) (ranks r)) (map (fun q => (cn q r, il q r)) (from r)).
Let S7 r : rst C X R := R7 (H r) (ids r) (ranks r) (from r) (map (fun q => rd r q) (ranks r))
  (map (fun q => (cn q r, il q r)) (from r)) (map (fun q => cn r q) (ranks r)).

Lemma rp1 : phase_ok n (Coll (rt_handshake n) : phase (rst C X R) (dmsg R)) S0 S1.
Proof.
  intros r Hr. unfold rt_handshake. rewrite (omap_comp _ S0 ranks) by reflexivity.
  rewrite nth_map_seq by exact Hr. unfold S0, S1. do 2 f_equal. unfold from, named. apply filter_ext_in'.
  intros q Hq. apply in_seq in Hq. rewrite nth_map_seq by lia. reflexivity.
Qed.

Ltac fwd f := apply single_phase with (g := f) (src := from) (dst := ranks);
  [intros; apply from_NoDup'|intros; apply ranks_NoDup|
   intros ? ? ? I; apply from_In' in I; tauto|intros; eapply ranks_lt; eauto|apply sym1|reflexivity| |].
Ltac bwd f := apply single_phase with (g := f) (src := ranks) (dst := from);
  [intros; apply ranks_NoDup|intros; apply from_NoDup'|intros; eapply ranks_lt; eauto|
   intros ? ? ? I; apply from_In' in I; tauto|intros; rewrite sym1 by auto; reflexivity|reflexivity| |].

Lemma rp2 : phase_ok n (rt_numbers : phase (rst C X R) (dmsg R)) S1 S2.
Proof.
  fwd (fun s d => MNum (Z.of_nat (length (bq s d))) : dmsg R).
  - reflexivity.
  - intros r Hr. cbn [S1]. rewrite (omap_comp _ _ (fun q => Z.of_nat (length (bq q r)))) by reflexivity. reflexivity.
Qed.

Lemma rp3 : phase_ok n (rt_bins : phase (rst C X R) (dmsg R)) S2 S3.
Proof.
  fwd (fun s d => MInts (bq s d) : dmsg R).
  - reflexivity.
  - intros r Hr. cbn [S2]. rewrite (omap_comp _ _ (fun q => bq q r)) by reflexivity.
    rewrite (same_lengths_ok (fun q => bq q r)).
    rewrite (omap_comp _ _ (fun q => sd q r)); [reflexivity|]. intros q Hq. apply from_In' in Hq as [Hq _].
    apply sending_spec. intros b Hb. apply bq_In in Hb. apply (HT q r b Hq Hb).
Qed.

Lemma rp4 : phase_ok n (rt_region_numbers : phase (rst C X R) (dmsg R)) S3 S4.
Proof.
  bwd (fun s d => MNum (Z.of_nat (length (sd d s))) : dmsg R).
  - intros r Hr. cbn [S3]. rewrite combine_map_r, map_map. reflexivity.
  - intros r Hr. cbn [S3]. rewrite (omap_comp _ _ (fun q => Z.of_nat (length (sd r q)))) by reflexivity. reflexivity.
Qed.

Lemma rp5 : phase_ok n (rt_regions : phase (rst C X R) (dmsg R)) S4 S5.
Proof.
  apply pair_phase with (src := ranks) (dst := from)
    (g := fun s d => [MRegs (map fst (rd d s)); MInts (map (fun x => Z.of_nat (snd x)) (rd d s))] : list (dmsg R));
  [intros; apply ranks_NoDup|intros; apply from_NoDup'|intros; eapply ranks_lt; eauto|
   intros ? ? ? I; apply from_In' in I; tauto|intros; rewrite sym1 by auto; reflexivity|reflexivity| |].
  - intros r Hr. cbn [S4]. rewrite combine_map_r, flat_map_concat_map, map_map, <- flat_map_concat_map.
    rewrite !flat_map_concat_map. f_equal. apply map_ext_in. intros q Hq. apply from_In' in Hq as [Hq _].
    cbn [fst snd]. unfold region_msgs. rewrite rd_spec by exact Hq. reflexivity.
  - intros r Hr. cbn [S4].
    destruct (omap_total (region_data (H r)) (map (fun q => sd q r) (from r))) as [x E].
    { intros a Ha. apply in_map_iff in Ha as (q & <- & Hq). apply from_In' in Hq as [Hq _]. rewrite rd_spec; eauto. }
    rewrite E. rewrite (pair_up_spec (fun q => Z.of_nat (length (sd r q))) (fun q => rd r q)); [reflexivity|].
    intros q _. rewrite rd_length by exact Hr. reflexivity.
Qed.

Lemma data_spec q r : q < n -> bin_index_data (H r) (bq q r) (sd q r) = Some (cn q r, il q r).
Proof.
  intros Hq. unfold bin_index_data.
  rewrite (omap_map _ (fun b => Z.of_nat (length (T r b)))) by (intros b Hb; apply bq_In in Hb; apply (HT q r b Hq Hb)).
  destruct (positions_spec (length (d_data (H r))) (sd q r)) as (pos & E & P).
  { apply zset_NoDup. } { intros i Hi. eapply sd_bound; eauto. }
  rewrite E. rewrite (omap_map _ (fun b => map (fun i => posf (sd q r) i 0) (T r b))).
  - unfold cn, il. rewrite flat_map_concat_map. reflexivity.
  - intros b Hb. apply bq_In in Hb. destruct (HT q r b Hq Hb) as (_ & -> & _). apply omap_map.
    intros i Hi. apply P. apply sd_In. eauto.
Qed.

Lemma rp6 : phase_ok n (Local rt_index_data : phase (rst C X R) (dmsg R)) S5 S6.
Proof.
  intros r Hr. unfold rt_index_data, S5.
  assert (E : forall l, combine (map (fun q => bq q r) l) (map (fun q => sd q r) l) = map (fun q => (bq q r, sd q r)) l)
    by (induction l; cbn; congruence).
  rewrite E, (omap_comp _ _ (fun q => (cn q r, il q r))); [reflexivity|].
  intros q Hq. apply from_In' in Hq as [Hq _]. apply data_spec, Hq.
Qed.

Lemma rp7 : phase_ok n (rt_bin_counts : phase (rst C X R) (dmsg R)) S6 S7.
Proof.
  bwd (fun s d => MInts (cn d s) : dmsg R).
  - intros r Hr. cbn [S6]. rewrite combine_map_r, map_map. reflexivity.
  - intros r Hr. cbn [S6]. rewrite (omap_comp _ _ (fun q => cn r q)) by reflexivity.
    assert (E : forall l, map (fun q => Z.of_nat (length (bins_of (ids r) q))) l = map (fun q => Z.of_nat (length (cn r q))) l).
    { intros l. apply map_ext. intros q. unfold cn. rewrite map_length. reflexivity. }
    rewrite E, (same_lengths_ok (fun q => cn r q)). reflexivity.
Qed.

Definition ivs r q := match intervals (bq r q) (cn r q) 0 (mkM [] []) with Some m => m | None => mkM [] [] end.

Lemma ivs_spec r q : intervals (bq r q) (cn r q) 0 (mkM [] []) = Some (ivs r q) /\ mok Z.ltb (ivs r q) /\
  forall b, In b (bq r q) -> exists iv, mget Z.ltb (ivs r q) b = Some iv /\
    slice (il r q) (fst iv) (snd iv - fst iv) = Some (map (fun i => posf (sd r q) i 0) (T q b)).
Proof.
  destruct (intervals_spec (fun b => map (fun i => posf (sd r q) i 0) (T q b)) (il r q) (bq r q) 0%Z (mkM [] []) [])
    as (m & E & G & Hs & Hi).
  - reflexivity. - reflexivity. - apply mok_empty. - intros b iv. cbn. discriminate.
  - assert (E' : intervals (bq r q) (cn r q) 0 (mkM [] []) = Some m).
    { rewrite <- E. f_equal. unfold cn. apply map_ext. intros b. rewrite map_length. reflexivity. }
    unfold ivs. rewrite E'. split; [reflexivity|]. split; [exact G|]. intros b Hb.
    destruct (mget Z.ltb m b) as [iv|] eqn:Em; [exists iv; split; [reflexivity|apply Hs; exact Em]|].
    exfalso. apply (Hi b); auto.
Qed.

Definition result r : smap nat (rbins R) :=
  fold_left (fun m x => fst (map_insert Nat.ltb m (fst x) (snd x)))
    (map (fun q => (q, RBins (rd r q) (ivs r q) (il r q))) (ranks r)) (mkM [] []).

Lemma rp8 : phase_ok n (rt_result : phase (rst C X R) (dmsg R)) S7 (fun r => RH (H r) (result r)).
Proof.
  bwd (fun s d => MInts (il d s) : dmsg R).
  - intros r Hr. cbn [S7]. rewrite combine_map_r, map_map. reflexivity.
  - intros r Hr. cbn [S7]. rewrite (omap_comp _ _ (fun q => il r q)) by reflexivity.
    assert (E : map zsum (map (fun q => cn r q) (ranks r)) = map (fun q => Z.of_nat (length (il r q))) (ranks r)).
    { rewrite map_map. apply map_ext. intros q. unfold cn, il. rewrite zsum_map, flat_map_len. do 2 f_equal.
      apply map_ext. intros b. rewrite map_length. reflexivity. }
    rewrite E, (same_lengths_ok (fun q => il r q)).
    assert (E2 : forall l, combine l (combine (map (fun q => rd r q) l) (combine (map (fun q => cn r q) l) (map (fun q => il r q) l))) =
      map (fun q => (q, (rd r q, (cn r q, il r q)))) l) by (induction l; cbn; congruence).
    rewrite E2, (omap_comp _ _ (fun q => RBins (rd r q) (ivs r q) (il r q))).
    + rewrite combine_map_r. reflexivity.
    + intros q _. unfold make_rbins. fold (bq r q). destruct (ivs_spec r q) as (-> & _). reflexivity.
Qed.

Lemma fold_insert {V} (f : nat -> V) l : forall m, mok Nat.ltb m ->
  mok Nat.ltb (fold_left (fun m x => fst (map_insert Nat.ltb m (fst x) (snd x))) (map (fun q => (q, f q)) l) m) /\
  forall q, (In q l -> mget Nat.ltb (fold_left (fun m x => fst (map_insert Nat.ltb m (fst x) (snd x))) (map (fun q => (q, f q)) l) m) q = Some (f q)) /\
    (~ In q l -> mget Nat.ltb (fold_left (fun m x => fst (map_insert Nat.ltb m (fst x) (snd x))) (map (fun q => (q, f q)) l) m) q = mget Nat.ltb m q).
Proof.
  induction l as [|a l IH]; intros m G; [cbn; intuition|]. cbn [map fold_left fst snd].
  pose proof (mok_insert Nat.ltb nltb_swo m a (f a) G) as G'. destruct (IH _ G') as [G2 H2].
  split; [exact G2|]. intros q. destruct (H2 q) as [A B]. split.
  - intros I. destruct (in_dec Nat.eq_dec q l) as [J|J]; [auto|]. destruct I as [->|I]; [|contradiction].
    rewrite B by exact J. rewrite (mget_insert Nat.ltb nltb_swo) by exact G. rewrite kq_refl by apply nltb_swo. reflexivity.
  - intros I. cbn in I. rewrite B by auto. rewrite (mget_insert Nat.ltb nltb_swo) by exact G.
    rewrite kq_neq by (auto using nltb_swo, nEQ). reflexivity.
Qed.

Theorem retr_ok : exists res, prog_ok n (dh_retrieve n : list (phase (rst C X R) (dmsg R))) (fun r => R0 (H r) (ids r)) (fun r => RH (H r) (res r)) /\
  forall r q b, r < n -> In (q, b) (ids r) -> retrieved (res r) q b = omap (vread (d_data (H q))) (T q b).
Proof.
  exists result. split.
  - exists S1. split; [exact rp1|]. exists S2. split; [exact rp2|]. exists S3. split; [exact rp3|].
    exists S4. split; [exact rp4|]. exists S5. split; [exact rp5|]. exists S6. split; [exact rp6|].
    exists S7. split; [exact rp7|]. eexists. split; [exact rp8|]. cbn [prog_ok]. intros; reflexivity.
  - intros r q b Hr I. unfold retrieved.
    assert (Iq : In q (ranks r)) by (apply ranks_In; eauto).
    destruct (fold_insert (fun q => RBins (rd r q) (ivs r q) (il r q)) (ranks r) (mkM [] []) (mok_empty _)) as [G F].
    unfold result. rewrite (mget_at Nat.ltb nltb_swo _ _ _ G (proj1 (F q) Iq)).
    cbn [rb_iv rb_ind rb_data].
    destruct (ivs_spec r q) as (_ & Gi & Fi). destruct (Fi b) as (iv & E1 & E2); [apply bq_In, I|].
    rewrite (mget_at Z.ltb zltb_swo _ _ _ Gi E1), E2.
    assert (G2 : forall l, (forall i, In i l -> In i (sd r q)) ->
      omap (vread (rd r q)) (map (fun i => posf (sd r q) i 0) l) = omap (vread (d_data (H q))) l).
    { induction l as [|i l IH]; intros Hl; [reflexivity|]. cbn [map]. rewrite !omap_cons.
      rewrite IH by (intros; apply Hl; right; auto).
      destruct (posf_nth (sd r q) i (Hl i (or_introl eq_refl)) 0%Z) as (j & -> & Ej).
      destruct (omap_nth _ _ _ _ _ (rd_spec r q Hr) Ej) as (d & Ed & Ed'). rewrite Ed'.
      unfold vread at 1. destruct (Z.ltb_spec (0 + Z.of_nat j) 0); [lia|].
      replace (Z.to_nat (0 + Z.of_nat j)) with j by lia. rewrite Ed. reflexivity. }
    apply G2. intros i Hi. apply sd_In. eauto.
Qed.

End Retr.
