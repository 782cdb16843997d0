(** Proofs about reading XINTOUT files: whole files and truncated ones. *)
From Coq Require Import List ZArith Bool Arith Lia ZifyNat.
From Verif Require Import Base TupleModel XinModel XinSpec XinBytes XinChunk XinRead XinData XinMain.
Import ListNotations.
Local Open Scope Z_scope.

Lemma Forall2_nth {A B} (P : A -> B -> Prop) l l' : Forall2 P l l' -> length l = length l' /\ forall i a b, nth_error l i = Some a -> nth_error l' i = Some b -> P a b.
Proof.
  induction 1 as [|a b l l' H H' [IH1 IH2]]; cbn; split; auto; intros [|i]; cbn; try congruence; intros; try congruence; eauto.
Qed.
Lemma in_parts_exists count d adjust : 0 <= count -> 1 <= snd d -> exists n c, in_parts count d adjust n c.
Proof.
  intros Hc Hd. destruct (chunkify_spec count (snd d) (bin_divide (num_points (fst d)) (snd d)) adjust Hc Hd) as (i & n & c & E & _). exists n, c, i. exact E.
Qed.
Lemma nth_error_combine_seq {A} (l : list A) : forall b i p, nth_error (combine (seq b (length l)) l) i = Some p -> fst p = (b + i)%nat /\ nth_error l i = Some (snd p).
Proof.
  induction l as [|a l IH]; intros b i p; cbn [length seq combine]; [destruct i; cbn; congruence|].
  destruct i; cbn [nth_error]; intros H; [injection H as <-; cbn; split; [lia|reflexivity]|]. destruct (IH (S b) i p H). split; auto; lia.
Qed.
Lemma build_list {A} (P : nat -> A -> Prop) n : (forall i, (i < n)%nat -> exists a, P i a) -> exists l, length l = n /\ forall i a, nth_error l i = Some a -> P i a.
Proof.
  induction n; intros H; [exists []; split; auto; intros [|i]; cbn; congruence|].
  destruct IHn as (l & L & Hl); [intros; apply H; lia|]. destruct (H n) as [a Ha]; [lia|]. exists (l ++ [a]). rewrite app_length; cbn. split; [lia|].
  intros i b Hi. destruct (Nat.lt_ge_cases i (length l)).
  - rewrite nth_error_app1 in Hi; auto.
  - rewrite nth_error_app2 in Hi; auto. destruct (i - length l)%nat eqn:E; cbn in Hi; [injection Hi as <-; now replace i with n by lia|destruct n0; cbn in Hi; congruence].
Qed.

Section Whole.
Variables (m e : endian) (fmt : format) (iblank : bool) (oh ox : list Z) (gs : list grid_data) (domain : list (tup Z * Z)) (adjust : Z).
Notation ho := (ho_file fmt e iblank oh gs).
Notation x := (x_file fmt e ox gs).
Hypothesis OK : file_ok fmt iblank oh gs.
Hypothesis Lox : length ox = 4%nat.
Hypothesis Hne : gs <> [].
Hypothesis Hd : matches gs domain.

Lemma domain_length : length domain = length gs.
Proof. symmetry. apply (Forall2_nth _ _ _ Hd). Qed.
Lemma info_of_file : exists b, global_info m (Z.of_nat (length domain)) ho = Done (e, fmt, b) /\
  forall i g, nth_error gs i = Some g -> exists inf, grid_info m e fmt b ho x (g_size g) i = Done inf /\ placed e fmt iblank oh ox gs g inf.
Proof.
  rewrite domain_length. destruct (global_info_file m e fmt iblank oh ox gs OK Lox Hne) as (b & Hb & Hb'). exists b. split; [exact Hb|].
  intros i g Hi. destruct (grid_info_located m e fmt iblank oh ox gs OK Lox i g Hi) as (inf & Hinf & Hpl). exists inf. split; auto.
  destruct (Z_lt_dec 1 (len gs)) as [L|L]; [now rewrite Hb'|].
  assert (i = 0)%nat. { assert (i < length gs)%nat by (apply nth_error_Some; congruence). unfold len in L. lia. }
  subst i. now rewrite (grid_info_first m e fmt b iblank).
Qed.

Lemma file_read : readable gs domain adjust -> exists L, read_xintout m domain adjust ho x = Done L /\ contents_read gs domain adjust L.
Proof.
  intros Hr. destruct info_of_file as (b & Hb & Hi). unfold read_xintout. rewrite Hb. cbn [bind].
  destruct (Forall2_nth _ _ _ Hd) as [_ Hd']. destruct (Forall2_nth _ _ _ Hr) as [_ Hr'].
  assert (Hlen := domain_length).
  assert (OKg : forall i g, nth_error gs i = Some g -> grid_ok fmt iblank g).
  { intros i g H. destruct OK as (F & _). rewrite Forall_forall in F. apply F. eapply nth_error_In; eauto. }
  destruct (build_list (fun i a => forall g d, nth_error gs i = Some g -> nth_error domain i = Some d ->
     read_grid m e fmt b ho x (fst d) (snd d) adjust i = Done a /\
     exists n c n' c', in_parts (len (g_donors g)) d adjust n c /\ in_parts (len (g_receivers g)) d adjust n' c' /\
       a = (donors_read (g_first g) c n (g_donors g), receivers_read c' n' (g_receivers g))) (length gs)) as (L & L1 & L2).
  - intros i Hin. destruct (nth_error gs i) as [g|] eqn:Eg; [|apply nth_error_None in Eg; lia]. destruct (nth_error domain i) as [d|] eqn:Ed; [|apply nth_error_None in Ed; lia].
    destruct (Hd' i g d Eg Ed) as [D1 D2]. destruct (Hr' i g d Eg Ed) as [R1 R2].
    destruct (in_parts_exists (len (g_donors g)) d adjust (len_nonneg _) (proj1 D2)) as (n & c & i1 & P1).
    destruct (in_parts_exists (len (g_receivers g)) d adjust (len_nonneg _) (proj1 D2)) as (n' & c' & i2 & P2).
    exists (donors_read (g_first g) c n (g_donors g), receivers_read c' n' (g_receivers g)).
    intros g0 d0 E1 E2. injection E1 as <-. injection E2 as <-.
    assert (Q1 : in_parts (len (g_donors g)) d adjust n c) by (exists i1; exact P1). assert (Q2 : in_parts (len (g_receivers g)) d adjust n' c') by (exists i2; exact P2).
    split; [|exists n, c, n', c'; auto].
    destruct (Hi i g Eg) as (inf & I1 & I2). unfold read_grid. rewrite D1, I1. cbn [bind]. rewrite <- D1.
    rewrite (read_donors_done m e fmt iblank oh ox gs g inf (OKg i g Eg) I2 (fst d) (snd d) adjust (proj1 D2) i1 n c P1 (R1 n c Q1)). cbn [bind].
    rewrite (read_receivers_done m e fmt iblank oh ox gs g inf (OKg i g Eg) I2 (fst d) (snd d) adjust (proj1 D2) i2 n' c' P2 (R2 n' c' Q2)). reflexivity.
  - exists L. split.
    + apply all_ranks_nth; [rewrite map_length, combine_length, seq_length; lia|]. intros i r Hir. rewrite nth_error_map in Hir.
      destruct (nth_error (combine (seq 0 (length domain)) domain) i) as [p|] eqn:Ep; [|discriminate]. cbn in Hir. injection Hir as <-.
      destruct (nth_error_combine_seq domain 0 i p Ep) as [F1 F2]. cbn [plus] in F1.
      destruct (nth_error L i) as [a|] eqn:Ea. 2:{ apply nth_error_None in Ea. assert (i < length domain)%nat by (apply nth_error_Some; congruence). lia. }
      destruct (nth_error gs i) as [g|] eqn:Eg. 2:{ apply nth_error_None in Eg. assert (i < length domain)%nat by (apply nth_error_Some; congruence). lia. }
      destruct (L2 i a Ea g (snd p) Eg F2) as [H _]. exists a. rewrite F1. auto.
    + split; auto. intros i g d Eg Ed. destruct (nth_error L i) as [a|] eqn:Ea. 2:{ apply nth_error_None in Ea. assert (i < length gs)%nat by (apply nth_error_Some; congruence). lia. }
      destruct (L2 i a Ea g d Eg Ed) as [_ (n & c & n' & c' & P1 & P2 & ->)]. exists n, c, n', c'; auto.
Qed.

(** If the parts do not fit, reading fails. *)
Lemma file_refused i g d n c : nth_error gs i = Some g -> nth_error domain i = Some d ->
  in_parts (len (g_donors g)) d adjust n c /\ ~ fits (len (g_donors g)) c n \/ in_parts (len (g_receivers g)) d adjust n c /\ ~ fits (len (g_receivers g)) c n ->
  ~ exists L, read_xintout m domain adjust ho x = Done L.
Proof.
  intros Eg Ed Hp (L & HL). destruct info_of_file as (b & Hb & Hi). unfold read_xintout in HL. rewrite Hb in HL. cbn [bind] in HL.
  destruct (Forall2_nth _ _ _ Hd) as [_ Hd']. destruct (Hd' i g d Eg Ed) as [D1 D2].
  destruct (Hi i g Eg) as (inf & I1 & I2).
  assert (F : forall z, read_grid m e fmt b ho x (fst d) (snd d) adjust i <> Done z).
  { intros z. unfold read_grid. rewrite D1, I1. cbn [bind]. rewrite <- D1. destruct Hp as [((i1 & P) & Hf)|((i1 & P) & Hf)].
    - rewrite (read_donors_refused m e fmt iblank oh ox gs g inf I2 (fst d) (snd d) adjust (proj1 D2) i1 n c P (proj2 D2) Hf). discriminate.
    - rewrite (read_receivers_refused m e fmt iblank oh ox gs g inf I2 (fst d) (snd d) adjust (proj1 D2) i1 n c P (proj2 D2) Hf). destruct read_donors; discriminate. }
  assert (G : forall (l : list (res (list donor_chunk * list receiver_chunk))) v, all_ranks l = Done v -> forall r, In r l -> exists z, r = Done z).
  { induction l as [|r l IH]; intros v Hv r' Hr; [destruct Hr|]; cbn in Hv. destruct r; destruct (all_ranks l) eqn:E; try discriminate. destruct Hr as [<- |Hr]; eauto. }
  destruct (G _ _ HL (read_grid m e fmt b ho x (fst d) (snd d) adjust i)) as (z & Hz); [|exact (F z Hz)]. apply in_map_iff. exists (i, d). split; [reflexivity|].
  apply nth_error_In with (n := i). clear - Ed. assert (X : forall (l : list (tup Z * Z)) b i, nth_error l i = Some d -> nth_error (combine (seq b (length l)) l) i = Some ((b + i)%nat, d)).
  { induction l as [|a l IH]; intros b' j Hj; [destruct j; discriminate|]. cbn [length seq combine]. destruct j; cbn in *; [injection Hj as ->; now rewrite Nat.add_0_r|]. rewrite IH by auto. do 2 f_equal; lia. }
  exact (X domain 0%nat i Ed).
Qed.
End Whole.

(** Truncated files. *)
Lemma refines_refl {A} (r : res A) : refines r r.
Proof. now right. Qed.
Lemma refines_bind {A B} (r r' : res A) (k k' : A -> res B) : refines r r' -> (forall a, refines (k a) (k' a)) -> refines (bind r k) (bind r' k').
Proof. intros [-> | ->] H; [now left|]. destruct r'; cbn; auto; now right. Qed.
Lemma refines_all_ranks {A} (l l' : list (res A)) : Forall2 refines l l' -> refines (all_ranks l) (all_ranks l').
Proof.
  induction 1 as [|r r' l l' [-> | ->] H [IH|IH]]; cbn [all_ranks].
  - now right.
  - rewrite IH. left; reflexivity.
  - rewrite IH. destruct r', (all_ranks l'); unfold refines; auto.
  - rewrite IH. destruct r'; unfold refines; auto.
  - rewrite IH. destruct r', (all_ranks l'); unfold refines; auto.
Qed.
Lemma Forall2_map_same {A B} (P : B -> B -> Prop) (f g : A -> B) l : (forall a, P (f a) (g a)) -> Forall2 P (map f l) (map g l).
Proof. intros H; induction l; cbn; auto. Qed.

Section Truncated.
Variables (m e : endian).
Lemma read_exact_prefix f t off n c : (0 < n)%nat -> refines (read_exact m e f off n c) (read_exact m e (f ++ t) off n c).
Proof.
  intros Hn. unfold read_exact. destruct ((off <? 0) || (c <? 0)) eqn:E; [now right|]. apply orb_false_iff in E as [E1 E2]. apply Z.ltb_ge in E1, E2. cbv zeta.
  destruct (Z.ltb_spec (Z.of_nat (length (read_at m e f off n (Z.to_nat c)))) c) as [L|L]; [now left|]. right.
  assert (X : read_at m e (f ++ t) off n (Z.to_nat c) = read_at m e f off n (Z.to_nat c)).
  { unfold read_at in *. cbv zeta in *. rewrite map_length, seq_length, firstn_length, skipn_length in L.
    assert (B : (n * Z.to_nat c <= length f - Z.to_nat off)%nat).
    { destruct (Nat.le_gt_cases (n * Z.to_nat c) (length f - Z.to_nat off)) as [B|B]; auto. exfalso. rewrite Nat.min_r in L by lia.
      assert ((length f - Z.to_nat off) / n < Z.to_nat c)%nat by (apply Nat.div_lt_upper_bound; lia). lia. }
    assert (G : firstn (n * Z.to_nat c) (skipn (Z.to_nat off) (f ++ t)) = firstn (n * Z.to_nat c) (skipn (Z.to_nat off) f)).
    { rewrite skipn_app, firstn_app. rewrite skipn_length. replace (n * Z.to_nat c - (length f - Z.to_nat off))%nat with 0%nat by lia. cbn [firstn]. apply app_nil_r. }
    now rewrite G. }
  rewrite X. destruct (Z.ltb_spec (Z.of_nat (length (read_at m e f off n (Z.to_nat c)))) c); [lia|reflexivity].
Qed.
Lemma read_ints_prefix f t off c : refines (read_ints m e f off c) (read_ints m e (f ++ t) off c).
Proof. unfold read_ints. apply refines_bind; [apply read_exact_prefix; lia|intros; apply refines_refl]. Qed.
Lemma read_longs_prefix f t off c : refines (read_longs m e f off c) (read_longs m e (f ++ t) off c).
Proof. unfold read_longs. apply refines_bind; [apply read_exact_prefix; lia|intros; apply refines_refl]. Qed.
Lemma read_doubles_prefix f t off c : refines (read_doubles m e f off c) (read_doubles m e (f ++ t) off c).
Proof. apply read_exact_prefix; lia. Qed.
Ltac ref := repeat first [apply refines_refl | apply read_ints_prefix | apply read_longs_prefix | apply read_doubles_prefix | (apply refines_bind; [|intros ?]) ].
Lemma grid_header_prefix fmt f t off : refines (grid_header m e fmt f off) (grid_header m e fmt (f ++ t) off).
Proof. unfold grid_header. destruct fmt; ref. Qed.
Variables (ho x th tx : bytes).
Lemma skip_grids_prefix fmt b n at_ : refines (skip_grids m e fmt b ho x n at_) (skip_grids m e fmt b (ho ++ th) (x ++ tx) n at_).
Proof.
  revert at_; induction n; intros at_; cbn [skip_grids]; [apply refines_refl|]. apply refines_bind; [|intros; apply IHn].
  unfold skip_grid. destruct at_ as [h o]. cbv zeta. apply refines_bind; [apply grid_header_prefix|]. intros [hd off]. apply refines_bind; [|intros; apply refines_refl]. destruct fmt; ref.
Qed.
Lemma grid_info_prefix fmt b size i : refines (grid_info m e fmt b ho x size i) (grid_info m e fmt b (ho ++ th) (x ++ tx) size i).
Proof.
  unfold grid_info. cbv zeta. apply refines_bind; [apply skip_grids_prefix|]. intros [h o]. apply refines_bind; [apply grid_header_prefix|]. intros [hd off]. apply refines_refl.
Qed.
Lemma read_columns_prefix (read read' : Z -> Z -> res (list Z)) elem off total b n : (forall o c, refines (read o c) (read' o c)) -> refines (read_columns read elem off total b n) (read_columns read' elem off total b n).
Proof. intros H. unfold read_columns. apply refines_bind; [auto|intros ?]. apply refines_bind; [auto|intros ?]. apply refines_bind; [auto|intros ?]. apply refines_refl. Qed.
Lemma read_donors_prefix size ranks adjust inf : refines (read_donors m e ho x size ranks adjust inf) (read_donors m e (ho ++ th) (x ++ tx) size ranks adjust inf).
Proof.
  unfold read_donors. destruct (chunkify _ _ _ _) as [[[i n] c]|]; [|apply refines_refl]. cbv zeta.
  destruct (existsb _ _); [apply refines_refl|].
  apply refines_bind; [apply refines_all_ranks, Forall2_map_same; intros; apply read_columns_prefix; intros; apply read_ints_prefix|intros sizes].
  apply refines_bind; [apply refines_all_ranks, Forall2_map_same; intros; apply read_columns_prefix; intros; apply read_ints_prefix|intros cells].
  apply refines_bind; [apply refines_all_ranks, Forall2_map_same; intros; apply read_columns_prefix; intros; apply read_doubles_prefix|intros coords].
  destruct (existsb _ _); [apply refines_refl|].
  apply refines_bind; [|intros; apply refines_refl]. apply refines_all_ranks, Forall2_map_same. intros k. ref.
Qed.
Lemma read_receivers_prefix fmt size ranks adjust inf : refines (read_receivers m e fmt ho size ranks adjust inf) (read_receivers m e fmt (ho ++ th) size ranks adjust inf).
Proof.
  unfold read_receivers. destruct (chunkify _ _ _ _) as [[[i n] c]|]; [|apply refines_refl]. cbv zeta.
  destruct (existsb _ _); [apply refines_refl|].
  apply refines_bind; [apply refines_all_ranks, Forall2_map_same; intros; apply read_columns_prefix; intros; apply read_ints_prefix|intros points].
  apply refines_bind; [|intros; apply refines_refl]. apply refines_all_ranks, Forall2_map_same. intros k. destruct fmt; ref.
Qed.
Lemma read_grid_prefix fmt b size ranks adjust i : refines (read_grid m e fmt b ho x size ranks adjust i) (read_grid m e fmt b (ho ++ th) (x ++ tx) size ranks adjust i).
Proof.
  unfold read_grid. apply refines_bind; [apply grid_info_prefix|intros inf]. apply refines_bind; [apply read_donors_prefix|intros D]. apply refines_bind; [apply read_receivers_prefix|intros R]. apply refines_refl.
Qed.
End Truncated.

Lemma detect_format_prefix m ho t : (4 <= length ho)%nat -> detect_format m (ho ++ t) = detect_format m ho.
Proof.
  intros H. unfold detect_format. rewrite app_length. destruct (Nat.ltb_spec (length ho + length t) 4); [lia|]. destruct (Nat.ltb_spec (length ho) 4); [lia|].
  rewrite firstn_app. replace (4 - length ho)%nat with 0%nat by lia. cbn [firstn]. now rewrite app_nil_r.
Qed.
Lemma read_grid_first m e fmt b b' ho x size ranks adjust : read_grid m e fmt b ho x size ranks adjust 0 = read_grid m e fmt b' ho x size ranks adjust 0.
Proof. reflexivity. Qed.
Lemma read_at_one m e f t off : 0 <= off -> read_at m e f off 4 1 = [] \/ read_at m e (f ++ t) off 4 1 = read_at m e f off 4 1.
Proof.
  intros H. pose proof (read_exact_prefix m e f t off 4 1 ltac:(lia)) as P. unfold read_exact in P.
  destruct (Z.ltb_spec off 0); [lia|]. cbn [orb Z.ltb Z.compare Z.to_nat Pos.to_nat Pos.iter_op plus] in P. cbv zeta in P.
  change (Pos.to_nat 1) with 1%nat in *.
  destruct (read_at m e f off 4 1) as [|v l] eqn:E; [now left|]. right.
  destruct P as [P|P]; cbn [length] in P.
  - destruct (Z.ltb_spec (Z.of_nat (S (length l))) 1); [lia|discriminate].
  - destruct (Z.ltb_spec (Z.of_nat (S (length l))) 1); [lia|]. destruct (Z.of_nat (length (read_at m e (f ++ t) off 4 1)) <? 1); [discriminate|]. now injection P.
Qed.
Lemma global_info_prefix m n ho t : (4 <= length ho)%nat -> refines (global_info m n ho) (global_info m n (ho ++ t)) \/
  (n = 1 /\ exists e fmt b, global_info m n ho = Done (e, fmt, false) /\ global_info m n (ho ++ t) = Done (e, fmt, b)).
Proof.
  intros H. unfold global_info. rewrite detect_format_prefix by auto. destruct (detect_format m ho) as [[e fmt]| |]; cbn [bind]; try (left; apply refines_refl). cbv zeta.
  destruct (read_ints_prefix m e ho t 4 1) as [-> | ->]; [left; now left|]. destruct (read_ints m e (ho ++ t) 4 1) as [l| |]; cbn [bind]; try (left; apply refines_refl).
  destruct (negb _); [left; apply refines_refl|]. destruct fmt.
  - destruct (read_ints_prefix m e ho t (wrapper_size STANDARD + header_size STANDARD + wrapper_size STANDARD + wrapper_size STANDARD) 7) as [-> | ->]; [left; now left|].
    destruct (read_ints m e (ho ++ t) _ 7) as [h| |]; cbn [bind]; try (left; apply refines_refl).
    set (off := _ + wrapper_size STANDARD). destruct (Z.ltb_spec off 0); [left; apply refines_refl|].
    destruct (read_at_one m e ho t off ltac:(lia)) as [E|E].
    + rewrite E. destruct (Z.eqb_spec n 1); [|left; now left]. right. split; auto. destruct (read_at m e (ho ++ t) off 4 1); eexists _, _, _; split; reflexivity.
    + rewrite E. left; apply refines_refl.
  - left. apply refines_bind; [apply read_longs_prefix|intros _]. apply refines_bind; [apply read_ints_prefix|intros _]. apply refines_refl.
Qed.

Lemma truncated m domain adjust ho x th tx : (4 <= length ho)%nat -> refines (read_xintout m domain adjust ho x) (read_xintout m domain adjust (ho ++ th) (x ++ tx)).
Proof.
  intros H. unfold read_xintout. destruct (global_info_prefix m (Z.of_nat (length domain)) ho th H) as [P|(E & e & fmt & b & -> & ->)].
  - apply refines_bind; auto. intros [[e fmt] b]. apply refines_all_ranks, Forall2_map_same. intros [i d]. cbn [fst snd]. apply read_grid_prefix.
  - cbn [bind]. destruct domain as [|d [|d' domain]]; cbn [length] in E; try lia. cbn [length seq combine map fst snd].
    rewrite (read_grid_first m e fmt b false). apply refines_all_ranks. constructor; auto. apply read_grid_prefix.
Qed.

(** The parts together are all there is. *)
Lemma contents_all gs domain adjust L : matches gs domain -> readable gs domain adjust -> contents_read gs domain adjust L -> forall i g, nth_error gs i = Some g ->
  exists D R, nth_error L i = Some (D, R) /\ concat (map dc_data D) = map donor_read (g_donors g) /\ concat (map rc_data R) = map receiver_read (g_receivers g).
Proof.
  intros HM HR (_ & H) i g Hg. destruct (Forall2_nth _ _ _ HM) as [HL HM']. destruct (nth_error domain i) as [d|] eqn:Hd.
  2: { apply nth_error_None in Hd. assert (i < length gs)%nat by (apply nth_error_Some; congruence). lia. }
  destruct (H i g d Hg Hd) as (n & c & n' & c' & P & P' & E). destruct (Forall2_nth _ _ _ HR) as [_ HR']. destruct (HR' i g d Hg Hd) as [F F'].
  destruct (HM' i g d Hg Hd) as [_ Hr]. destruct (F n c P) as [F1 _]. destruct (F' n' c' P') as [F2 _].
  assert (Q : forall count n c, in_parts count d adjust n c -> 0 <= count -> 0 <= c).
  { clear - Hr. intros count n c (i & E) Hc. destruct (chunkify_spec count (snd d) (bin_divide (num_points (fst d)) (snd d)) adjust Hc (proj1 Hr)) as (i' & n' & c' & E' & H1 & H2 & H3 & _).
    rewrite E in E'. injection E' as <- <- <-. pose proof (ceiling_pos _ _ _ H1 H2). unfold ceiling in *. nia. }
  eexists _, _. split; [exact E|]. unfold donors_read, receivers_read. rewrite !map_map. cbn [dc_data rc_data].
  rewrite <- (map_map (part c (g_donors g)) (map donor_read)), <- (map_map (part c' (g_receivers g)) (map receiver_read)), <- !concat_map.
  split; f_equal; eapply parts_concat; eauto using len_nonneg.
Qed.
