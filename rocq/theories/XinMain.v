(** Proofs about reading XINTOUT files. *)
From Coq Require Import List ZArith Bool Arith Lia ZifyNat.
From Verif Require Import Base TupleModel XinModel XinSpec XinBytes XinChunk XinRead XinData.
Import ListNotations.
Local Open Scope Z_scope.

Lemma existsb_false {A} (f : A -> bool) l : (forall a, In a l -> f a = false) -> existsb f l = false.
Proof. induction l; cbn; intros H; auto. rewrite H, IHl; auto. Qed.
Lemma small_not_big v : 0 <= v -> small v -> too_big v 8 = false.
Proof. unfold small; intros Hv H. rewrite too_big_false by (change (2 ^ 61) with (2 ^ 31 * 2 ^ 30); lia). apply Z.ltb_ge. lia. Qed.
Lemma sum_app a b : sum (a ++ b) = sum a + sum b.
Proof. induction a as [|y a IH]; [reflexivity|]. change (sum ((y :: a) ++ b)) with (y + sum (a ++ b)). change (sum (y :: a)) with (y + sum a). lia. Qed.
Lemma sum_parts d c l k : sum (map (fun j => coefs_in d (part c l j)) (seq 0 k)) = coefs_in d (concat (map (part c l) (seq 0 k))).
Proof.
  induction k; [reflexivity|]. rewrite seq_S, !map_app, concat_app, coefs_in_app, <- IHk. cbn [map concat plus]. rewrite app_nil_r.
  rewrite sum_app. cbn [sum fold_right]. lia.
Qed.
Lemma donor_entries P : Forall donor_ok P ->
  map (fun i => let cell := tmap (fun v => v - 1) (row (cols (fun d => one_based (d_cell d)) P) i) in
     DonorEntry cell (tadd cell (row (cols d_size P) i)) (row (cols d_coords P) i) (nth i (map d_coefs P) (T3 [] [] []))) (seq 0 (length P)) = map donor_read P.
Proof.
  intros _. destruct P as [|p0 P]; [reflexivity|]. rewrite <- (map_nth_seq donor_read (p0 :: P) p0). apply map_ext_in; intros i Hi. apply in_seq in Hi.
  cbv zeta. rewrite !(row_cols _ (p0 :: P) i p0) by lia. rewrite (nth_map_in d_coefs (p0 :: P) i p0) by lia. unfold donor_read.
  assert (E : forall t, tmap (fun v => v - 1) (one_based t) = t) by (intros [a b c]; apply tup_eq; cbn; lia).
  now rewrite E.
Qed.

Section Grid.
Variables (m e : endian) (fmt : format) (iblank : bool) (oh ox : list Z) (gs : list grid_data) (g : grid_data) (inf : info).
Notation ho := (ho_file fmt e iblank oh gs).
Notation x := (x_file fmt e ox gs).
Hypothesis Hg : grid_ok fmt iblank g.
Hypothesis Hp : placed e fmt iblank oh ox gs g inf.
Variables (size : tup Z) (ranks adjust : Z).
Hypothesis Hr : 1 <= ranks.

Section Donors.
Notation D := (g_donors g).
Variables i n c : Z.
Hypothesis Hk : chunkify (len D) ranks (bin_divide (num_points size) ranks) adjust = Some (i, n, c).
Hypothesis Hfit : donors_fit c n D.

Lemma donors_chunk : 1 <= n /\ 0 <= c.
Proof.
  destruct (chunkify_spec (len D) ranks (bin_divide (num_points size) ranks) adjust (len_nonneg _) Hr) as (i' & n' & c' & E & H1 & H2 & H3 & _).
  rewrite Hk in E; injection E as -> -> ->. pose proof (ceiling_pos _ _ _ H1 H2). split; [lia|]. pose proof (len_nonneg D). unfold ceiling in H3. nia.
Qed.
Lemma donors_all_ok : Forall donor_ok D.
Proof. apply Hg. Qed.
Lemma part_all_ok k : Forall donor_ok (part c D k).
Proof. apply Forall_slice, donors_all_ok. Qed.
Lemma part_read k : (k < Z.to_nat n)%nat -> part c D k = firstn (length (part c D k)) (skipn (Z.to_nat c * k) D) /\ (Z.to_nat c * k + length (part c D k) <= length D)%nat.
Proof.
  intros H. destruct donors_chunk as [N C]. unfold part. destruct Hfit as [[F1 F2] _]. unfold len in *. split.
  - rewrite firstn_length. destruct (Nat.le_ge_cases (Z.to_nat c) (length (skipn (Z.to_nat c * k) D))) as [L|L].
    + now rewrite Nat.min_l.
    + rewrite Nat.min_r by auto. now rewrite (firstn_all2 (skipn (Z.to_nat c * k) D) (n := Z.to_nat c)), firstn_all.
  - rewrite firstn_length, skipn_length. assert (Z.to_nat c * k <= length D)%nat by nia. lia.
Qed.
Lemma count_part k : (k < Z.to_nat n)%nat -> local_end c (len D) (Z.of_nat k) - local_begin c (Z.of_nat k) = len (part c D k).
Proof. intros H. destruct donors_chunk as [N C]. symmetry. apply (part_length (len D) c n C (proj1 Hfit)); auto; lia. Qed.
Lemma begin_nat k : local_begin c (Z.of_nat k) = Z.of_nat (Z.to_nat c * k).
Proof. destruct donors_chunk. unfold local_begin. lia. Qed.
Lemma end_part k : (k < Z.to_nat n)%nat -> local_end c (len D) (Z.of_nat k) = c * Z.of_nat k + len (part c D k).
Proof. intros H. pose proof (count_part k H). unfold local_begin in *. lia. Qed.

Lemma donor_columns (read : Z -> Z -> res (list Z)) put_all elem f P (F : donor -> tup Z) off :
  (forall off l c, located f off (put_all l) -> Forall P l -> c = len l -> read off c = Done l) ->
  (forall a b, put_all (a ++ b) = put_all a ++ put_all b) -> (forall l, len (put_all l) = elem * len l) -> 0 <= elem ->
  located f off (put_all (columns F D)) -> Forall (fun d => tup_ok P (F d)) D ->
  all_ranks (map (fun k => read_columns read elem off (len D) (local_begin c k) (local_end c (len D) k - local_begin c k)) (chunk_ranks n)) =
  Done (map (fun k => cols F (part c D k)) (seq 0 (Z.to_nat n))).
Proof.
  intros H1 H2 H3 H4 HL HP. unfold chunk_ranks. rewrite map_map.
  apply all_ranks_done. intros k Hin. apply in_seq in Hin. rewrite count_part, begin_nat by lia. destruct (part_read k) as [E B]; [lia|].
  change (len (part c D k)) with (Z.of_nat (length (part c D k))).
  rewrite (read_columns_located read put_all elem f P H1 H2 H3 F off D _ _ HL HP B). now rewrite <- E.
Qed.

Lemma coefs_located d k : (k < Z.to_nat n)%nat -> (d < 3)%nat -> forall off, located x off (longs e (coefs_dim d D)) ->
  read_doubles m e x (off + sum (map (fun j => coefs_in d (part c D j)) (seq 0 k)) * 8) (coefs_in d (part c D k)) = Done (coefs_dim d (part c D k)).
Proof.
  intros H Hd off HL. destruct donors_chunk as [N C]. apply read_doubles_located.
  - pose proof (parts_concat (len D) c n C (proj1 Hfit) D eq_refl) as E.
    replace (Z.to_nat n) with (k + S (Z.to_nat n - k - 1))%nat in E by lia. rewrite seq_app, map_app, concat_app in E. cbn [plus seq map concat] in E.
    rewrite sum_parts. set (A := concat (map (part c D) (seq 0 k))) in *. set (B := concat (map (part c D) (seq (S k) _))) in *.
    assert (EA : Forall donor_ok A) by (pose proof donors_all_ok as X; rewrite <- E in X; now apply Forall_app in X as [X _]).
    rewrite <- E, !coefs_dim_app, !longs_app, !located_app in HL. destruct HL as (_ & HL & _). rewrite len_longs, len_coefs_dim in HL by auto.
    eapply located_eq; [exact HL|lia].
  - apply coefs_dim_bits, part_all_ok.
  - symmetry. apply len_coefs_dim; auto. apply part_all_ok.
Qed.
Lemma sum_all d : sum (map (fun j => coefs_in d (part c D j)) (seq 0 (Z.to_nat n))) = coefs_in d D.
Proof. destruct donors_chunk as [N C]. rewrite sum_parts. now rewrite (parts_concat (len D) c n C (proj1 Hfit) D eq_refl). Qed.

Lemma read_donors_done : read_donors m e ho x size ranks adjust inf = Done (donors_read (g_first g) c n D).
Proof.
  destruct donors_chunk as [N C]. destruct Hp as [E1 E2 E3 L1 L2 L3 L4 L5 L6]. destruct Hfit as [F1 F2].
  unfold read_donors. rewrite E1, Hk. cbv zeta.
  rewrite existsb_false.
  2:{ intros k Hin. unfold chunk_ranks in Hin. apply in_map_iff in Hin as (j & <- & Hin). apply in_seq in Hin. rewrite count_part by lia. apply small_not_big; [apply len_nonneg|]. apply F2; lia. }
  pose proof donors_all_ok as OKD.
  rewrite (donor_columns (read_ints m e x) (ints e) 4 x int_ok d_size (i_sizes inf)); [|intros; now apply read_ints_located|apply ints_app|apply len_ints|lia|exact L5|].
  2:{ eapply Forall_impl; [|exact OKD]. intros d (_ & (S0 & S1 & S2) & _). unfold tup_ok, int_ok. lia. }
  cbn [bind].
  rewrite (donor_columns (read_ints m e ho) (ints e) 4 ho int_ok (fun d => one_based (d_cell d)) (i_cells inf)); [|intros; now apply read_ints_located|apply ints_app|apply len_ints|lia|exact L1|].
  2:{ eapply Forall_impl; [|exact OKD]. intros d (S & _). exact S. }
  cbn [bind].
  rewrite (donor_columns (read_doubles m e ho) (longs e) 8 ho bits_ok d_coords (i_coords inf)); [|intros; now apply read_doubles_located|apply longs_app|apply len_longs|lia|exact L2|].
  2:{ eapply Forall_impl; [|exact OKD]. intros d (_ & _ & S & _). exact S. }
  cbn [bind].
  assert (EL : map (tmap sum) (map (fun k => cols d_size (part c D k)) (seq 0 (Z.to_nat n))) =
               map (fun k => T3 (coefs_in 0 (part c D k)) (coefs_in 1 (part c D k)) (coefs_in 2 (part c D k))) (seq 0 (Z.to_nat n))).
  { rewrite map_map. apply map_ext; intros k. apply tmap_sum_cols. }
  rewrite EL. clear EL. set (loc := fun k => T3 (coefs_in 0 (part c D k)) (coefs_in 1 (part c D k)) (coefs_in 2 (part c D k))).
  rewrite existsb_false.
  2:{ intros t Hin. apply in_map_iff in Hin as (k & <- & Hin). apply in_seq in Hin. destruct (F2 k) as [_ G]; [lia|]. unfold loc; cbn [c0 c1 c2].
      rewrite !small_not_big; auto; apply coefs_in_nonneg, part_all_ok. }
  rewrite map_length, seq_length.
  unfold coefs_of in L6. change (flat_map (fun d => c0 (d_coefs d)) D) with (coefs_dim 0 D) in L6. change (flat_map (fun d => c1 (d_coefs d)) D) with (coefs_dim 1 D) in L6.
  change (flat_map (fun d => c2 (d_coefs d)) D) with (coefs_dim 2 D) in L6.
  rewrite !longs_app, !located_app, !len_longs, !len_coefs_dim in L6 by auto. destruct L6 as (M0 & M1 & M2).
  assert (S0 : forall k, (k <= Z.to_nat n)%nat -> firstn k (map loc (seq 0 (Z.to_nat n))) = map loc (seq 0 k)).
  { intros k Hkn. rewrite firstn_map. f_equal. replace (Z.to_nat n) with (k + (Z.to_nat n - k))%nat by lia. rewrite seq_app. replace k with (length (seq 0 k)) at 1 by apply seq_length.
    rewrite firstn_app, firstn_all, Nat.sub_diag. cbn [firstn]. apply app_nil_r. }
  rewrite (all_ranks_done _ (fun k => coefs_dim 0 (part c D k) ++ coefs_dim 1 (part c D k) ++ coefs_dim 2 (part c D k))).
  2:{ intros k Hin. apply in_seq in Hin. rewrite S0 by lia. rewrite !map_map. rewrite (nth_map_seq loc) by lia. unfold loc; cbn [c0 c1 c2].
      rewrite (sum_all 0), (sum_all 1).
      rewrite (coefs_located 0 k); [cbn [bind]|lia|lia|exact M0].
      rewrite (coefs_located 1 k); [cbn [bind]|lia|lia|eapply located_eq; [exact M1|lia]].
      rewrite (coefs_located 2 k); [cbn [bind]|lia|lia|eapply located_eq; [exact M2|lia]]. reflexivity. }
  cbn [bind]. unfold donors_read. apply all_ranks_done. intros k Hin. apply in_seq in Hin.
  rewrite !(nth_map_seq loc) by lia. rewrite count_part by lia.
  rewrite (nth_map_seq (fun k => cols d_size (part c D k))) by lia. rewrite (nth_map_seq (fun k => cols (fun d => one_based (d_cell d)) (part c D k))) by lia.
  rewrite (nth_map_seq (fun k => cols d_coords (part c D k))) by lia. rewrite (nth_map_seq (fun k => coefs_dim 0 (part c D k) ++ coefs_dim 1 (part c D k) ++ coefs_dim 2 (part c D k))) by lia.
  replace (Z.to_nat (len (part c D k))) with (length (part c D k)) by (unfold len; lia).
  rewrite rows_cols. unfold loc; cbn [c0 c1 c2]. pose proof (part_all_ok k) as OP.
  pose proof (len_coefs_dim 0 (part c D k) ltac:(lia) OP) as K0. pose proof (len_coefs_dim 1 (part c D k) ltac:(lia) OP) as K1.
  rewrite (spread_spec _ (part c D k) _ _ _ (coefs_dim 1 (part c D k) ++ coefs_dim 2 (part c D k)) (coefs_dim 2 (part c D k)) [] OP).
  - cbn [bind]. rewrite donor_entries by exact OP. rewrite max_size_cols by exact OP. rewrite end_part, E3 by lia. unfold local_begin. reflexivity.
  - lia.
  - apply coefs_in_nonneg; auto.
  - pose proof (coefs_in_nonneg 0 _ OP). pose proof (coefs_in_nonneg 1 _ OP). lia.
  - reflexivity.
  - rewrite <- K0. unfold len. rewrite Nat2Z.id, skipn_app, skipn_all, Nat.sub_diag. reflexivity.
  - rewrite <- K0, <- K1. unfold len. rewrite app_nil_r. replace (Z.to_nat _) with (length (coefs_dim 0 (part c D k)) + length (coefs_dim 1 (part c D k)))%nat by lia.
    rewrite app_assoc, <- app_length, skipn_app, skipn_all, Nat.sub_diag. reflexivity.
Qed.
End Donors.

(** A part that is not there is refused. *)
Lemma read_donors_refused i n c : chunkify (len (g_donors g)) ranks (bin_divide (num_points size) ranks) adjust = Some (i, n, c) -> ranks < 2 ^ 31 ->
  ~ fits (len (g_donors g)) c n -> read_donors m e ho x size ranks adjust inf = Failed.
Proof.
  intros E Hb Hf. destruct (chunkify_spec (len (g_donors g)) ranks (bin_divide (num_points size) ranks) adjust (len_nonneg _) Hr) as (i' & n' & c' & E' & H1 & H2 & H3 & _).
  rewrite E in E'; injection E' as <- <- <-. pose proof (ceiling_pos _ _ _ H1 H2) as Hn. unfold read_donors. rewrite (p_donors _ _ _ _ _ _ _ _ Hp), E. cbv zeta.
  replace (existsb _ _) with true; [reflexivity|]. symmetry. apply existsb_exists. exists (n - 1). split.
  - unfold chunk_ranks. apply in_map_iff. exists (Z.to_nat (n - 1)). split; [lia|]. apply in_seq; lia.
  - apply too_big_negative. unfold local_end, local_begin, fits, ceiling in *. pose proof (len_nonneg (g_donors g)). nia.
Qed.
Lemma read_receivers_refused i n c : chunkify (len (g_receivers g)) ranks (bin_divide (num_points size) ranks) adjust = Some (i, n, c) -> ranks < 2 ^ 31 ->
  ~ fits (len (g_receivers g)) c n -> read_receivers m e fmt ho size ranks adjust inf = Failed.
Proof.
  intros E Hb Hf. destruct (chunkify_spec (len (g_receivers g)) ranks (bin_divide (num_points size) ranks) adjust (len_nonneg _) Hr) as (i' & n' & c' & E' & H1 & H2 & H3 & _).
  rewrite E in E'; injection E' as <- <- <-. pose proof (ceiling_pos _ _ _ H1 H2) as Hn. unfold read_receivers. rewrite (p_receivers _ _ _ _ _ _ _ _ Hp), E. cbv zeta.
  replace (existsb _ _) with true; [reflexivity|]. symmetry. apply existsb_exists. exists (n - 1). split.
  - unfold chunk_ranks. apply in_map_iff. exists (Z.to_nat (n - 1)). split; [lia|]. apply in_seq; lia.
  - apply too_big_negative. unfold local_end, local_begin, fits, ceiling in *. pose proof (len_nonneg (g_receivers g)). nia.
Qed.

Section Receivers.
Notation R := (g_receivers g).
Variables i n c : Z.
Hypothesis Hk : chunkify (len R) ranks (bin_divide (num_points size) ranks) adjust = Some (i, n, c).
Hypothesis Hfit : receivers_fit c n R.
Lemma receivers_chunk : 1 <= n /\ 0 <= c.
Proof.
  destruct (chunkify_spec (len R) ranks (bin_divide (num_points size) ranks) adjust (len_nonneg _) Hr) as (i' & n' & c' & E & H1 & H2 & H3 & _).
  rewrite Hk in E; injection E as -> -> ->. pose proof (ceiling_pos _ _ _ H1 H2). split; [lia|]. pose proof (len_nonneg R). unfold ceiling in H3. nia.
Qed.
Lemma rpart_read k : (k < Z.to_nat n)%nat -> part c R k = firstn (length (part c R k)) (skipn (Z.to_nat c * k) R) /\ (Z.to_nat c * k + length (part c R k) <= length R)%nat.
Proof.
  intros H. destruct receivers_chunk as [N C]. unfold part. destruct Hfit as [[F1 F2] _]. unfold len in *. split.
  - rewrite firstn_length. destruct (Nat.le_ge_cases (Z.to_nat c) (length (skipn (Z.to_nat c * k) R))) as [L|L].
    + now rewrite Nat.min_l.
    + rewrite Nat.min_r by auto. now rewrite (firstn_all2 (skipn (Z.to_nat c * k) R) (n := Z.to_nat c)), firstn_all.
  - rewrite firstn_length, skipn_length. assert (Z.to_nat c * k <= length R)%nat by nia. lia.
Qed.
Lemma rcount_part k : (k < Z.to_nat n)%nat -> local_end c (len R) (Z.of_nat k) - local_begin c (Z.of_nat k) = len (part c R k).
Proof. intros H. destruct receivers_chunk as [N C]. symmetry. apply (part_length (len R) c n C (proj1 Hfit)); auto; lia. Qed.
Lemma rbegin_nat k : local_begin c (Z.of_nat k) = Z.of_nat (Z.to_nat c * k).
Proof. destruct receivers_chunk. unfold local_begin. lia. Qed.
Lemma read_receivers_done : read_receivers m e fmt ho size ranks adjust inf = Done (receivers_read c n R).
Proof.
  destruct receivers_chunk as [N C]. destruct Hp as [E1 E2 E3 L1 L2 L3 L4 L5 L6]. destruct Hfit as [F1 F2].
  assert (OKR : Forall (receiver_ok fmt) R) by apply Hg.
  unfold read_receivers. rewrite E2, Hk. cbv zeta.
  rewrite existsb_false.
  2:{ intros k Hin. unfold chunk_ranks in Hin. apply in_map_iff in Hin as (j & <- & Hin). apply in_seq in Hin. rewrite rcount_part by lia. apply small_not_big; [apply len_nonneg|]. apply F2; lia. }
  unfold chunk_ranks. rewrite !map_map.
  rewrite (all_ranks_done _ (fun k => cols (fun r => one_based (r_point r)) (part c R k))).
  2:{ intros k Hin. apply in_seq in Hin. rewrite rcount_part, rbegin_nat by lia. destruct (rpart_read k) as [E B]; [lia|].
      change (len (part c R k)) with (Z.of_nat (length (part c R k))).
      rewrite (read_columns_located (read_ints m e ho) (ints e) 4 ho int_ok ltac:(intros; now apply read_ints_located) (ints_app e) (len_ints e) (fun r => one_based (r_point r)) _ R _ _ L3).
      - now rewrite <- E.
      - eapply Forall_impl; [|exact OKR]. intros r [S _]; exact S.
      - exact B. }
  cbn [bind].
  rewrite (all_ranks_done _ (fun k => map (fun r => r_connection r + 1) (part c R k))).
  2:{ intros k Hin. apply in_seq in Hin. rewrite rcount_part, rbegin_nat by lia. destruct (rpart_read k) as [E B]; [lia|].
      change (len (part c R k)) with (Z.of_nat (length (part c R k))). unfold ids_payload in L4.
      assert (EM : map (fun r => r_connection r + 1) (part c R k) = firstn (length (part c R k)) (skipn (Z.to_nat c * k) (map (fun r => r_connection r + 1) R))).
      { rewrite skipn_map, firstn_map. now rewrite <- E. }
      clear L1 L2 L3. set (hf := ho) in *. clearbody hf. destruct fmt.
      - rewrite (read_slice (read_ints m e hf) (ints e) 4 hf int_ok ltac:(intros; now apply read_ints_located) (ints_app e) (len_ints e) _ _ _ _ L4).
        + now rewrite EM.
        + apply Forall_map. eapply Forall_impl; [|exact OKR]. intros r [_ S]; exact S.
        + now rewrite map_length.
      - rewrite (read_slice (read_longs m e hf) (longs e) 8 hf long_ok ltac:(intros; now apply read_longs_located) (longs_app e) (len_longs e) _ _ _ _ L4).
        + now rewrite EM.
        + apply Forall_map. eapply Forall_impl; [|exact OKR]. intros r [_ S]; exact S.
        + now rewrite map_length. }
  cbn [bind]. unfold receivers_read. f_equal. apply map_ext_in. intros k Hin. apply in_seq in Hin.
  rewrite (nth_map_seq (fun k => cols (fun r => one_based (r_point r)) (part c R k))) by lia. rewrite (nth_map_seq (fun k => map (fun r => r_connection r + 1) (part c R k))) by lia.
  pose proof (rcount_part k ltac:(lia)) as RC. rewrite RC. replace (Z.to_nat (len (part c R k))) with (length (part c R k)) by (unfold len; lia).
  f_equal.
  - unfold local_begin in RC. lia.
  - destruct (part c R k) as [|r0 P]; [reflexivity|]. rewrite <- (map_nth_seq receiver_read (r0 :: P) r0). apply map_ext_in; intros j Hj. apply in_seq in Hj.
    rewrite (row_cols _ (r0 :: P) j r0) by lia. rewrite (nth_map_in (fun r => r_connection r + 1) (r0 :: P) j r0) by lia. unfold receiver_read. f_equal; [|lia].
    destruct (r_point (nth j (r0 :: P) r0)); apply tup_eq; cbn; lia.
Qed.
End Receivers.
End Grid.

(** The parts of a grid's data on the ranks of the grid. *)
Lemma grid_info_first m e fmt b b' ho x size : grid_info m e fmt b ho x size 0 = grid_info m e fmt b' ho x size 0.
Proof. reflexivity. Qed.

Lemma all_ranks_nth {A} (l : list (res A)) (v : list A) : length v = length l -> (forall i r, nth_error l i = Some r -> exists a, r = Done a /\ nth_error v i = Some a) -> all_ranks l = Done v.
Proof.
  revert v; induction l as [|r l IH]; intros v L H; destruct v as [|a v]; cbn in L; try lia; [reflexivity|].
  destruct (H 0%nat r eq_refl) as (a' & -> & E). cbn in E; injection E as ->. cbn [all_ranks]. rewrite (IH v) by (lia || intros i s Hs; apply (H (S i) s Hs)). reflexivity.
Qed.
