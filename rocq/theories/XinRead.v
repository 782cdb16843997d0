(** Proofs about reading the information on a grid from XINTOUT files. *)
From Coq Require Import List ZArith Bool Arith Lia ZifyNat.
From Verif Require Import Base TupleModel XinModel XinSpec XinBytes XinChunk.
Import ListNotations.
Local Open Scope Z_scope.

Lemma located_eq f o o' b : located f o b -> o = o' -> located f o' b.
Proof. now intros H <-. Qed.
Lemma len_record fmt e b : len (record fmt e b) = len b + 2 * wrapper_size fmt.
Proof. destruct fmt; cbn [record wrapper_size]; rewrite ?len_app, ?len_put; lia. Qed.
Lemma located_record f off fmt e b : located f off (record fmt e b) -> located f (off + wrapper_size fmt) b.
Proof.
  destruct fmt; cbn [record wrapper_size]; intros H.
  - apply located_app in H as [_ H]. apply located_app in H as [H _]. now rewrite len_put in H.
  - now rewrite Z.add_0_r.
Qed.
Lemma put_ints e v : put e 4 v = ints e [v].
Proof. unfold ints; cbn [flat_map]. now rewrite app_nil_r. Qed.
Lemma len_columns {A} (F : A -> tup Z) l : len (columns F l) = 3 * len l.
Proof. unfold columns. rewrite !len_app, !len_map. lia. Qed.
Lemma Forall_columns {A} (P : Z -> Prop) (F : A -> tup Z) l : Forall (fun x => tup_ok P (F x)) l -> Forall P (columns F l).
Proof.
  intros H. unfold columns. rewrite !Forall_app, !Forall_map. repeat split; eapply Forall_impl; try exact H; intros x (X & Y & Z); auto.
Qed.
Lemma len_pos {A} (x : A) l : 1 <= len (x :: l).
Proof. unfold len; cbn [length]; lia. Qed.

(** Reading anything that is there. *)
Lemma read_at_length m e f off n c : (0 < n)%nat -> 0 <= off -> off + Z.of_nat (n * c) <= len f -> length (read_at m e f off n c) = c.
Proof.
  intros Hn Ho Hl. unfold read_at; cbv zeta. rewrite map_length, seq_length, firstn_length, skipn_length.
  replace (Nat.min _ _) with (n * c)%nat by (unfold len in Hl; lia). rewrite Nat.mul_comm; apply Nat.div_mul; lia.
Qed.
Lemma read_exact_any m e f off n c : (0 < n)%nat -> 0 <= off -> 0 <= c -> off + Z.of_nat n * c <= len f -> exists l, read_exact m e f off n c = Done l.
Proof.
  intros Hn Ho Hc Hl. unfold read_exact. destruct (Z.ltb_spec off 0); [lia|]. destruct (Z.ltb_spec c 0); [lia|]. cbn [orb]. cbv zeta.
  rewrite read_at_length by lia. destruct (Z.ltb_spec (Z.of_nat (Z.to_nat c)) c); [lia|]. eauto.
Qed.

Section File.
Variables (m e : endian) (fmt : format) (iblank : bool).
Notation w := (wrapper_size fmt).

Definition header_payload (g : grid_data) : bytes :=
  let h := [len (g_receivers g); len (g_donors g); g_other g; g_first g + 1] in
  match fmt with
  | STANDARD => ints e (h ++ listed (g_size g))
  | EXTENDED => longs e h ++ ints e (listed (g_size g)) ++ longs e [len (coefs_of g)]
  end.
Definition header_len : Z := match fmt with STANDARD => 28 | EXTENDED => 52 end.
Lemma len_header_payload g : len (header_payload g) = header_len.
Proof. unfold header_payload, header_len; destruct fmt; rewrite ?len_app, ?len_ints, ?len_longs; cbn; lia. Qed.
Lemma ids_ok g : grid_ok fmt iblank g -> id_ok fmt (len (g_receivers g)) /\ id_ok fmt (len (g_donors g)) /\ id_ok fmt (g_other g) /\ id_ok fmt (g_first g + 1).
Proof. intros (_ & _ & _ & A & B & C & D & _); auto. Qed.
Lemma size_ok g : grid_ok fmt iblank g -> Forall int_ok (listed (g_size g)).
Proof. intros (_ & _ & (A & B & C) & _). unfold listed; auto. Qed.
Definition header_of (g : grid_data) : header :=
  Header (len (g_receivers g)) (len (g_donors g)) (g_first g + 1) (g_size g) (match fmt with STANDARD => 0 | EXTENDED => len (coefs_of g) end).
Lemma grid_header_located ho off g : grid_ok fmt iblank g -> located ho off (header_payload g) ->
  grid_header m e fmt ho off = Done (header_of g, off + header_len).
Proof.
  intros Hg H. pose proof (ids_ok g Hg) as I. pose proof (size_ok g Hg) as S.
  unfold grid_header, header_payload, header_of, header_len in *. destruct fmt.
  - rewrite (read_ints_located m e ho off _ 7 H).
    + cbn [bind]. destruct (g_size g); reflexivity.
    + apply Forall_app; split; auto. repeat constructor; apply I.
    + reflexivity.
  - apply located_app in H as [H1 H]. apply located_app in H as [H2 H3]. rewrite len_longs, len_ints in H3. rewrite len_longs in H2.
    change (len [len (g_receivers g); len (g_donors g); g_other g; g_first g + 1]) with 4 in *. change (len (listed (g_size g))) with 3 in *.
    rewrite (read_longs_located m e ho off _ 4 H1); [cbn [bind]|repeat constructor; apply I|reflexivity].
    rewrite (read_ints_located m e ho (off + 32) _ 3 H2); [cbn [bind]|exact S|reflexivity].
    rewrite (read_longs_located m e ho (off + 32 + 12) _ 1 H3); [cbn [bind]|constructor; auto; apply Hg|reflexivity].
    replace (ints_tup (listed (g_size g))) with (g_size g) by (destruct (g_size g); reflexivity). do 2 f_equal; cbn [nth]; lia.
Qed.

(** The places of the parts of a grid. *)
Definition donor_payload (g : grid_data) : bytes := ints e (columns (fun d => one_based (d_cell d)) (g_donors g)) ++ longs e (columns d_coords (g_donors g)).
Definition ids_payload (g : grid_data) : bytes := let l := map (fun r => r_connection r + 1) (g_receivers g) in match fmt with STANDARD => ints e l | EXTENDED => longs e l end.
Definition receiver_payload (g : grid_data) : bytes := ints e (columns (fun r => one_based (r_point r)) (g_receivers g)) ++ ids_payload g.
Lemma ho_grid_eq g : ho_grid fmt e iblank g = record fmt e (header_payload g) ++ record fmt e (donor_payload g) ++ record fmt e (receiver_payload g) ++ (if iblank then record fmt e (ints e (g_blank g)) else []).
Proof. reflexivity. Qed.
Lemma len_donor_payload g : len (donor_payload g) = 36 * len (g_donors g).
Proof. unfold donor_payload. rewrite len_app, len_ints, len_longs, !len_columns. lia. Qed.
Lemma len_ids_payload g : len (ids_payload g) = id_size fmt * len (g_receivers g).
Proof. unfold ids_payload, id_size; destruct fmt; rewrite ?len_ints, ?len_longs, len_map; lia. Qed.
Lemma len_receiver_payload g : len (receiver_payload g) = 12 * len (g_receivers g) + id_size fmt * len (g_receivers g).
Proof. unfold receiver_payload. rewrite len_app, len_ints, len_columns, len_ids_payload. lia. Qed.
Lemma len_ho_grid g : grid_ok fmt iblank g -> len (ho_grid fmt e iblank g) =
  header_len + 36 * len (g_donors g) + 12 * len (g_receivers g) + id_size fmt * len (g_receivers g) + 6 * w + (if iblank then num_points (g_size g) * 4 + 2 * w else 0).
Proof.
  intros Hg. rewrite ho_grid_eq, !len_app, !len_record, len_header_payload, len_donor_payload, len_receiver_payload.
  assert (B : iblank = true -> len (g_blank g) = num_points (g_size g)).
  { intros E. destruct Hg as (_ & _ & _ & _ & _ & _ & _ & Hg). destruct fmt; [now apply Hg|]. destruct Hg; congruence. }
  destruct iblank; [|change (len (@nil Z)) with 0; lia].
  rewrite len_record, len_ints, B by reflexivity. lia.
Qed.
Lemma len_x_grid g : len (x_grid fmt e g) = 12 * len (g_donors g) + 8 * len (coefs_of g) + 12 + 6 * w.
Proof. unfold x_grid. rewrite !len_app, !len_record, !len_ints, len_longs, len_columns. cbn [listed len length]. change (len (listed (g_tail g))) with 3. lia. Qed.

Lemma skip_grid_located ho x hoff xoff g : grid_ok fmt iblank g -> located ho hoff (ho_grid fmt e iblank g) -> located x xoff (x_grid fmt e g) ->
  skip_grid m e fmt iblank ho x (hoff, xoff) = Done (hoff + len (ho_grid fmt e iblank g), xoff + len (x_grid fmt e g)).
Proof.
  intros Hg H X. pose proof (len_ho_grid g Hg) as LH. pose proof (len_x_grid g) as LX.
  rewrite ho_grid_eq in H. apply located_app in H as [H _]. apply located_record in H.
  unfold skip_grid. rewrite (grid_header_located ho _ g Hg H). cbn [bind header_of h_donors h_receivers h_size h_coefs].
  unfold x_grid in X. apply located_app in X as [_ X]. rewrite len_record, len_ints, len_columns in X. apply located_app in X as [X _].
  destruct fmt eqn:F.
  - cbn [record] in X. apply located_app in X as [X _]. rewrite put_ints, len_longs in X. cbn [wrapper_size] in *.
    assert (C : 8 * len (coefs_of g) < 2 ^ 31) by (destruct Hg as (_ & _ & _ & _ & _ & _ & _ & Hg); apply Hg).
    rewrite (read_ints_located m e x _ [8 * len (coefs_of g)] 1).
    + cbn [bind nth]. replace (8 * len (coefs_of g) / 8) with (len (coefs_of g)) by (rewrite Z.mul_comm, Z.div_mul; lia). rewrite LH, LX. cbn [header_len id_size]. do 2 f_equal; destruct iblank; lia.
    + eapply located_eq; [exact X|lia].
    + constructor; auto. unfold int_ok. pose proof (len_nonneg (coefs_of g)). lia.
    + reflexivity.
  - cbn [bind wrapper_size] in *. rewrite LH, LX. cbn [header_len id_size]. do 2 f_equal; destruct iblank; lia.
Qed.

Lemma skip_grids_located ho x : forall gs hoff xoff, Forall (grid_ok fmt iblank) gs ->
  located ho hoff (flat_map (ho_grid fmt e iblank) gs) -> located x xoff (flat_map (x_grid fmt e) gs) ->
  skip_grids m e fmt iblank ho x (length gs) (hoff, xoff) = Done (hoff + len (flat_map (ho_grid fmt e iblank) gs), xoff + len (flat_map (x_grid fmt e) gs)).
Proof.
  induction gs as [|g gs IH]; intros hoff xoff Hg H X; cbn [length skip_grids].
  - cbn; do 2 f_equal; lia.
  - inversion Hg as [|? ? G1 G2]; subst. cbn [flat_map] in *. apply located_app in H as [H1 H2]. apply located_app in X as [X1 X2].
    rewrite (skip_grid_located ho x hoff xoff g G1 H1 X1). cbn [bind]. rewrite IH; auto. rewrite !len_app. do 2 f_equal; lia.
Qed.

Variables (oh ox : list Z) (gs : list grid_data).
Hypothesis OK : file_ok fmt iblank oh gs.
Hypothesis Lox : length ox = 4%nat.
Notation ho := (ho_file fmt e iblank oh gs).
Notation x := (x_file fmt e ox gs).

Lemma len_file_header n o : length o = 4%nat -> len (file_header fmt e n o) = 4 + header_size fmt + w.
Proof.
  intros Ho. destruct fmt; cbn [file_header header_size wrapper_size]; rewrite ?len_app, ?len_put, ?len_ints, ?len_longs.
  - unfold len; cbn [length]; rewrite Ho; reflexivity.
  - unfold len; cbn [length]; rewrite Ho; reflexivity.
Qed.

Record placed (g : grid_data) (inf : info) : Prop := {
  p_donors : i_donors inf = len (g_donors g); p_receivers : i_receivers inf = len (g_receivers g); p_start : i_start inf = g_first g;
  p_cells : located ho (i_cells inf) (ints e (columns (fun d => one_based (d_cell d)) (g_donors g)));
  p_coords : located ho (i_coords inf) (longs e (columns d_coords (g_donors g)));
  p_points : located ho (i_points inf) (ints e (columns (fun r => one_based (r_point r)) (g_receivers g)));
  p_ids : located ho (i_ids inf) (ids_payload g);
  p_sizes : located x (i_sizes inf) (ints e (columns d_size (g_donors g)));
  p_coefs : located x (i_coefs inf) (longs e (coefs_of g)) }.

Lemma teqb_refl t : teqb t t = true.
Proof. unfold teqb, tall. now rewrite !Z.eqb_refl. Qed.
Lemma grid_info_located i g : nth_error gs i = Some g -> exists inf, grid_info m e fmt iblank ho x (g_size g) i = Done inf /\ placed g inf.
Proof.
  intros Hi. destruct OK as (Hgs & Lo & _). assert (Hg : grid_ok fmt iblank g) by (rewrite Forall_forall in Hgs; apply Hgs; eapply nth_error_In; eauto).
  apply nth_error_split in Hi as (l1 & l2 & E & <-).
  pose proof (located_0 ho) as H. pose proof (located_0 x) as X. unfold ho_file in H at 2. unfold x_file in X at 2.
  apply located_app in H as [_ H]. apply located_app in X as [_ X]. rewrite !len_file_header in * by auto. rewrite !Z.add_0_l in *.
  rewrite E, flat_map_app in H, X. apply located_app in H as [H1 H2]. apply located_app in X as [X1 X2].
  rewrite <- E in *.
  cbn [flat_map] in H2, X2. apply located_app in H2 as [H2 _]. apply located_app in X2 as [X2 _].
  unfold grid_info. cbv zeta.
  rewrite (skip_grids_located ho x l1 _ _) by (auto; rewrite E in Hgs; apply Forall_app in Hgs; tauto). cbn [bind].
  set (hoff := _ + len (flat_map (ho_grid fmt e iblank) l1)) in *. set (xoff := _ + len (flat_map (x_grid fmt e) l1)) in *.
  rewrite ho_grid_eq in H2. rewrite !located_app in H2. destruct H2 as (A & B & C & _).
  apply located_record in A, B, C. rewrite (grid_header_located ho _ g Hg A). cbn [bind header_of h_donors h_receivers h_size h_start].
  rewrite teqb_refl. cbn [negb]. eexists; split; [reflexivity|].
  rewrite !len_record, len_header_payload, ?len_donor_payload in *.
  unfold donor_payload in B. apply located_app in B as [B1 B2]. rewrite len_ints, len_columns in B2.
  unfold receiver_payload in C. apply located_app in C as [C1 C2]. rewrite len_ints, len_columns in C2.
  unfold x_grid in X2. rewrite !located_app, !len_record, len_ints, len_columns in X2. destruct X2 as (X2 & X3 & _). apply located_record in X2, X3.
  constructor; cbn [i_donors i_receivers i_start i_cells i_coords i_points i_ids i_sizes i_coefs]; auto; try lia.
  - eapply located_eq; [apply B1|lia].
  - eapply located_eq; [apply B2|lia].
  - eapply located_eq; [apply C1|lia].
  - eapply located_eq; [apply C2|lia].
  - eapply located_eq; [apply X3|lia].
Qed.

Lemma first_ints n o : located (file_header fmt e n o) 0 (ints e [match fmt with STANDARD => 20 | EXTENDED => 36 end; n]).
Proof.
  destruct fmt; cbn [file_header].
  - change (n :: o) with ([n] ++ o). rewrite put_ints at 1. rewrite ints_app. exists [], (ints e o ++ put e 4 20). split; auto. cbn [app]. now rewrite <- app_assoc, (app_assoc (ints e [20])), <- (ints_app e [20] [n]).
  - rewrite put_ints. exists [], (longs e o). split; auto. now rewrite app_assoc, <- (ints_app e [36] [n]).
Qed.
Lemma first_byte : forall r, nth 0 (firstn 4 (put e 4 (header_size fmt) ++ r)) 0 = match e with BIG => 0 | LITTLE => header_size fmt end.
Proof. intros r. unfold header_size. destruct e, fmt; reflexivity. Qed.
Lemma file_header_put n o : exists r, file_header fmt e n o = put e 4 (header_size fmt) ++ r /\ (4 <= length o -> True)%nat.
Proof. unfold header_size; destruct fmt; eexists; cbn [file_header]; split; auto. Qed.
Lemma swap_one v : swap_endian 4 1 (put e 4 v) = rev (put e 4 v).
Proof.
  pose proof (swap_pieces 4 [put e 4 v] ltac:(lia)) as H. cbn [concat map length] in H. rewrite !app_nil_r in H. apply H.
  constructor; [apply put_length|constructor].
Qed.
Lemma detect_format_file r : detect_format m (put e 4 (header_size fmt) ++ r) = Done (e, fmt).
Proof.
  unfold detect_format. rewrite app_length, put_length. cbn [Nat.ltb Nat.leb plus]. cbv zeta. rewrite first_byte.
  assert (E : (if match e with BIG => 0 | LITTLE => header_size fmt end =? 0 then BIG else LITTLE) = e) by (unfold header_size; destruct e, fmt; reflexivity).
  rewrite E.
  assert (T : firstn 4 (put e 4 (header_size fmt) ++ r) = put e 4 (header_size fmt)).
  { rewrite firstn_app, put_length, firstn_all2 by now rewrite put_length. cbn [Nat.sub firstn]. apply app_nil_r. }
  rewrite T, swap_one, value_put. rewrite signed_mod; [|lia|].
  - unfold header_size; destruct fmt; reflexivity.
  - unfold header_size; destruct fmt; cbn; lia.
Qed.

Lemma global_info_file : gs <> [] -> exists b, global_info m (len gs) ho = Done (e, fmt, b) /\ (1 < len gs -> b = iblank).
Proof.
  intros Hne. destruct OK as (Hgs & Lo & Hn & Hseven).
  unfold global_info. pose proof (detect_format_file) as D.
  assert (E : exists r, ho = put e 4 (header_size fmt) ++ r).
  { unfold ho_file. destruct (file_header_put (len gs) oh) as (r & -> & _). rewrite <- app_assoc. eauto. }
  destruct E as [r E]. assert (D' : detect_format m ho = Done (e, fmt)) by (rewrite E; apply D). rewrite D'. clear E D D'. cbn [bind]. cbv zeta.
  assert (N : read_ints m e ho 4 1 = Done [len gs]).
  { apply read_ints_located; auto.
    pose proof (first_ints (len gs) oh) as F. apply (located_prefix _ _ _ (flat_map (ho_grid fmt e iblank) gs)) in F.
    change [match fmt with STANDARD => 20 | EXTENDED => 36 end; len gs] with ([match fmt with STANDARD => 20 | EXTENDED => 36 end] ++ [len gs]) in F.
    rewrite ints_app in F. apply located_app in F as [_ F]. rewrite len_ints in F. exact F. }
  rewrite N. cbn [bind nth]. rewrite Z.eqb_refl. cbn [negb].
  pose proof (located_0 ho) as H. unfold ho_file in H at 2. apply located_app in H as [HH H]. rewrite len_file_header, Z.add_0_l in H by auto.
  destruct gs as [|g rest] eqn:Eg; [congruence|]. rewrite <- Eg in *. assert (G1 : grid_ok fmt iblank g) by (rewrite Eg in Hgs; now inversion Hgs).
  rewrite Eg in H at 2. cbn [flat_map] in H. apply located_app in H as [H HR].
  pose proof (len_ho_grid g G1) as LH.
  rewrite ho_grid_eq in H. rewrite !located_app in H. destruct H as (A & B & C & K). rewrite !len_record, len_header_payload, ?len_donor_payload, ?len_receiver_payload in *.
  pose proof (located_record _ _ _ _ _ A) as A'.
  assert (HR2 : forall g2 r2, rest = g2 :: r2 -> located ho (4 + header_size fmt + w + len (ho_grid fmt e iblank g)) (record fmt e (header_payload g2))).
  { intros g2 r2 ->. cbn [flat_map] in HR. apply located_app in HR as [HR _]. rewrite ho_grid_eq in HR. now apply located_app in HR as [HR _]. }
  rewrite LH in HR2. clear HR.
  pose proof (ids_ok g G1) as I. pose proof (size_ok g G1) as S.
  set (hf := ho) in *; clearbody hf. unfold header_len in *.
  destruct fmt eqn:F; cbn [wrapper_size header_size header_len id_size] in *.
  - unfold header_payload in A'. rewrite F in A'.
    rewrite (read_ints_located m e hf _ ([len (g_receivers g); len (g_donors g); g_other g; g_first g + 1] ++ listed (g_size g)) 7).
    2:{ eapply located_eq; [exact A'|lia]. }
    2:{ apply Forall_app; split; auto. repeat constructor; apply I. }
    2:{ reflexivity. }
    cbn [bind nth app skipn]. set (off := _ + 4).
    assert (Eoff : off = 28 + (28 + 2 * 4) + (36 * len (g_donors g) + 2 * 4) + (12 * len (g_receivers g) + 4 * len (g_receivers g) + 2 * 4)) by (subst off; lia).
    clearbody off. pose proof (len_nonneg (g_donors g)). pose proof (len_nonneg (g_receivers g)).
    destruct (Z.ltb_spec off 0); [lia|].
    replace (ints_tup (listed (g_size g))) with (g_size g) by (destruct (g_size g); reflexivity).
    assert (RD : forall v, int_ok v -> located hf off (put e 4 v) -> exists u l, read_at m e hf off 4 1 = u :: l /\ signed 4 u = v).
    { intros v Hv HL. rewrite put_ints in HL. pose proof (read_at_located m e hf off 4 [v] ltac:(lia) HL) as R. cbn [length map] in R.
      eexists _, _; split; [exact R|]. apply signed_mod; [lia|]. exact Hv. }
    destruct iblank eqn:IB.
    + destruct (RD (len (ints e (g_blank g)))) as (u & l & R & U).
      * rewrite len_ints. destruct G1 as (_ & _ & _ & _ & _ & _ & _ & _ & G1). destruct (G1 eq_refl) as [_ G2]. unfold int_ok. pose proof (len_nonneg (g_blank g)). lia.
      * cbn [record] in K. apply located_app in K as [K _]. eapply located_eq; [exact K|lia].
      * rewrite R, U, len_ints. eexists; split; [reflexivity|]. intros _. apply Z.eqb_eq.
        destruct G1 as (_ & _ & _ & _ & _ & _ & _ & _ & G1). destruct (G1 eq_refl) as [G2 _]. lia.
    + destruct rest as [|g2 rest].
      * destruct (read_at m e hf off 4 1) as [|u l].
        -- rewrite Eg. cbn. eexists; split; [reflexivity|]. intros; lia.
        -- eexists; split; [reflexivity|]. rewrite Eg; cbn; lia.
      * specialize (HR2 g2 rest eq_refl) as HR. cbn [record] in HR. apply located_app in HR as [HR _]. rewrite len_header_payload in HR. unfold header_len in HR; rewrite F in HR.
        destruct (RD 28) as (u & l & R & U).
        -- unfold int_ok; lia.
        -- eapply located_eq; [exact HR|lia].
        -- rewrite R, U. eexists; split; [reflexivity|]. intros _. apply Z.eqb_neq. intros X; apply Hseven. lia.
  - assert (L : 92 <= len hf).
    { apply located_record in A. destruct A as (pa & qa & Ea & La). rewrite Ea, !len_app, <- La, len_header_payload. unfold header_len; rewrite F. cbn [wrapper_size]. pose proof (len_nonneg qa). lia. }
    unfold read_longs, read_ints.
    destruct (read_exact_any m e hf (0 + 36 + 0 + 0) 8 4) as [l1 ->]; [lia..|]. cbn [bind].
    destruct (read_exact_any m e hf (0 + 36 + 0 + 0 + 32) 4 3) as [l2 ->]; [lia..|]. cbn [bind].
    eexists; split; [reflexivity|]. intros _. destruct G1 as (_ & _ & _ & _ & _ & _ & _ & _ & G1). now symmetry.
Qed.
End File.
