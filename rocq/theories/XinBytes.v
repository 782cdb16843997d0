(** Proofs about reading numbers from XINTOUT files. *)
From Coq Require Import List ZArith Bool Arith Lia.
From Verif Require Import Base TupleModel XinModel XinSpec.
Import ListNotations.
Local Open Scope Z_scope.

Lemma digits_length n v : length (digits n v) = n.
Proof. revert v; induction n; cbn; intros; auto. Qed.
Lemma put_length e n v : length (put e n v) = n.
Proof. destruct e; cbn; [|rewrite rev_length]; apply digits_length. Qed.
Lemma digits_value n v : fold_right (fun x a => x + 256 * a) 0 (digits n v) = v mod 2 ^ (8 * Z.of_nat n).
Proof.
  revert v; induction n; intros v.
  - cbn. now rewrite Z.mod_1_r.
  - change (digits (S n) v) with (v mod 256 :: digits n (v / 256)); cbn [fold_right]; rewrite IHn.
    replace (8 * Z.of_nat (S n)) with (8 + 8 * Z.of_nat n) by lia.
    rewrite Z.pow_add_r by lia. change (2 ^ 8) with 256.
    rewrite Z.rem_mul_r; try lia.
Qed.
Lemma signed_mod n v : (0 < n)%nat -> - 2 ^ (8 * Z.of_nat n - 1) <= v < 2 ^ (8 * Z.of_nat n - 1) -> signed n (v mod 2 ^ (8 * Z.of_nat n)) = v.
Proof.
  intros Hn Hv. unfold signed.
  assert (E : 2 ^ (8 * Z.of_nat n) = 2 * 2 ^ (8 * Z.of_nat n - 1)).
  { replace (8 * Z.of_nat n) with (1 + (8 * Z.of_nat n - 1)) at 1 by lia. rewrite Z.pow_add_r by lia. reflexivity. }
  assert (P : 0 < 2 ^ (8 * Z.of_nat n - 1)) by (apply Z.pow_pos_nonneg; lia).
  rewrite E in *. set (h := 2 ^ (8 * Z.of_nat n - 1)) in *. clearbody h.
  destruct (Z_lt_dec v 0).
  - replace (v mod (2 * h)) with (v + 2 * h).
    2:{ symmetry. rewrite <- (Z.mod_small (v + 2 * h) (2 * h)) by lia. replace (v + 2 * h) with (v + 1 * (2 * h)) by lia. now rewrite Z_mod_plus_full. }
    destruct (Z.ltb_spec (v + 2 * h) h); lia.
  - rewrite Z.mod_small by lia. destruct (Z.ltb_spec v h); lia.
Qed.

Lemma same_endian_spec a b : same_endian a b = true <-> a = b.
Proof. destruct a, b; cbn; split; congruence. Qed.

(** A concatenation of pieces of one length. *)
Definition pieces (n : nat) (l : list bytes) : Prop := Forall (fun b => length b = n) l.
Lemma pieces_length n l : pieces n l -> length (concat l) = (n * length l)%nat.
Proof. induction 1; cbn; [lia|]. rewrite app_length, IHForall, H; lia. Qed.
Lemma pieces_nth n l k j d : pieces n l -> (j < n)%nat -> nth (n * k + j) (concat l) d = nth j (nth k l []) d.
Proof.
  intros H Hj; revert k; induction H as [|b l Hb H IH]; intros k.
  - cbn. destruct k; cbn; now destruct (n * _ + j)%nat, j || destruct j.
  - cbn [concat]. destruct k.
    + rewrite Nat.mul_0_r; cbn [nth plus]. rewrite app_nth1; auto; lia.
    + rewrite app_nth2 by lia. cbn [nth]. rewrite <- IH. f_equal; lia.
Qed.
Lemma swap_pieces n l : (0 < n)%nat -> pieces n l -> swap_endian n (length l) (concat l) = concat (map (@rev Z) l).
Proof.
  intros Hn H. unfold swap_endian.
  apply (nth_ext _ _ 0 0).
  - rewrite map_length, seq_length, (pieces_length n).
    + now rewrite map_length.
    + apply Forall_map; eapply Forall_impl; [|exact H]; intros a Ha; cbn; now rewrite rev_length.
  - intros k Hk. rewrite map_length, seq_length in Hk.
    rewrite (nth_indep _ 0 ((fun k => nth (n * (k / n) + (n - k mod n - 1)) (concat l) 0) 0%nat)) by now rewrite map_length, seq_length.
    rewrite (map_nth (fun k => nth (n * (k / n) + (n - k mod n - 1)) (concat l) 0)).
    rewrite seq_nth by exact Hk; cbn [plus].
    pose proof (Nat.mod_upper_bound k n ltac:(lia)) as Hm.
    rewrite (pieces_nth n) by (auto; lia).
    replace (nth k (concat (map (@rev Z) l)) 0) with (nth (n * (k / n) + k mod n) (concat (map (@rev Z) l)) 0) by (f_equal; symmetry; apply Nat.div_mod; lia).
    rewrite (pieces_nth n).
    + pose proof (map_nth (@rev Z) l [] (k / n)) as En; cbn [rev] in En. rewrite En.
      assert (Hq : (k / n < length l)%nat) by (apply Nat.div_lt_upper_bound; lia).
      assert (Hl : length (nth (k / n) l []) = n).
      { unfold pieces in H. rewrite Forall_forall in H. apply H, nth_In, Hq. }
      rewrite rev_nth by (rewrite Hl; exact Hm). rewrite Hl. f_equal. lia.
    + apply Forall_map; eapply Forall_impl; [|exact H]; intros a Ha; cbn; now rewrite rev_length.
    + lia.
Qed.
Lemma pieces_take n l i : pieces n l -> (i < length l)%nat -> firstn n (skipn (n * i) (concat l)) = nth i l [].
Proof.
  intros H; revert i; induction H as [|b l Hb H IH]; intros i Hi; cbn in Hi; [lia|].
  destruct i; cbn [concat nth].
  - rewrite Nat.mul_0_r; cbn [skipn]. rewrite <- Hb, firstn_app, Nat.sub_diag, firstn_all; cbn. apply app_nil_r.
  - rewrite skipn_app, skipn_all2 by lia. cbn [app]. rewrite <- IH by lia. do 2 f_equal; lia.
Qed.

Lemma put_pieces e n l : pieces n (map (put e n) l).
Proof. apply Forall_map, Forall_forall; intros; apply put_length. Qed.
Lemma puts_length e n l : length (flat_map (put e n) l) = (n * length l)%nat.
Proof. rewrite flat_map_concat_map, (pieces_length n) by apply put_pieces. now rewrite map_length. Qed.

Lemma value_put m e n v : machine_value m (if same_endian e m then put e n v else rev (put e n v)) = v mod 2 ^ (8 * Z.of_nat n).
Proof. destruct m, e; cbn [same_endian put machine_value]; unfold machine_value; rewrite ?rev_involutive; apply digits_value. Qed.

(** [b] is at offset [off] of [f]. *)
Definition located (f : bytes) (off : Z) (b : bytes) : Prop := exists p q, f = p ++ b ++ q /\ off = len p.

Lemma len_app {A} (a b : list A) : len (a ++ b) = len a + len b.
Proof. unfold len; rewrite app_length; lia. Qed.
Lemma len_nonneg {A} (a : list A) : 0 <= len a.
Proof. unfold len; lia. Qed.
Lemma located_0 f : located f 0 f.
Proof. exists [], []; rewrite app_nil_r; auto. Qed.
Lemma located_nonneg f off b : located f off b -> 0 <= off.
Proof. intros (p & q & _ & ->); apply len_nonneg. Qed.
Lemma located_app f off a b : located f off (a ++ b) <-> located f off a /\ located f (off + len a) b.
Proof.
  split.
  - intros (p & q & E & ->). split.
    + exists p, (b ++ q); rewrite <- app_assoc in E; auto.
    + exists (p ++ a), q. rewrite E, len_app, <- !app_assoc; auto.
  - intros [(p & q & E & ->) (p' & q' & E' & H)].
    assert (X : p' = p ++ a).
    { assert (L : length p' = length (p ++ a)) by (rewrite app_length; unfold len in H; lia).
      assert (X1 : firstn (length p') f = p') by (rewrite E', firstn_app, Nat.sub_diag, firstn_all; cbn; apply app_nil_r).
      assert (X2 : firstn (length (p ++ a)) f = p ++ a) by (rewrite E, app_assoc, firstn_app, Nat.sub_diag, firstn_all; cbn; apply app_nil_r).
      rewrite <- X1, <- X2. now rewrite L. }
    subst p'. exists p, q'. rewrite E', <- !app_assoc; auto.
Qed.
Lemma located_read f off b : located f off b -> firstn (length b) (skipn (Z.to_nat off) f) = b.
Proof.
  intros (p & q & -> & ->). unfold len; rewrite Nat2Z.id, skipn_app, skipn_all, Nat.sub_diag; cbn [app skipn].
  rewrite firstn_app, Nat.sub_diag, firstn_all; cbn. apply app_nil_r.
Qed.
Lemma located_prefix f off b g : located f off b -> located (f ++ g) off b.
Proof. intros (p & q & -> & ->). exists p, (q ++ g). now rewrite <- !app_assoc. Qed.

Lemma map_nth_seq {A B} (g : A -> B) (l : list A) d : map (fun i => g (nth i l d)) (seq 0 (length l)) = map g l.
Proof.
  induction l; cbn [length seq map nth]; [reflexivity|]. f_equal.
  rewrite <- seq_shift, map_map. exact IHl.
Qed.
Lemma read_at_located m e f off n l : (0 < n)%nat -> located f off (flat_map (put e n) l) ->
  read_at m e f off n (length l) = map (fun v => v mod 2 ^ (8 * Z.of_nat n)) l.
Proof.
  intros Hn H. apply located_read in H. rewrite puts_length in H. unfold read_at; cbv zeta.
  assert (Hd : (n * length l / n = length l)%nat) by (rewrite Nat.mul_comm; apply Nat.div_mul; lia).
  rewrite H, puts_length, Hd.
  rewrite flat_map_concat_map. pose proof (put_pieces e n l) as P.
  assert (E : (if same_endian e m then concat (map (put e n) l) else swap_endian n (length l) (concat (map (put e n) l)))
              = concat (map (fun v => if same_endian e m then put e n v else rev (put e n v)) l)).
  { destruct (same_endian e m); auto.
    rewrite <- (map_length (put e n) l) at 1. rewrite swap_pieces by auto. now rewrite map_map. }
  rewrite E.
  assert (P' : pieces n (map (fun v => if same_endian e m then put e n v else rev (put e n v)) l)).
  { apply Forall_map, Forall_forall; intros v _. destruct same_endian; rewrite ?rev_length; apply put_length. }
  transitivity (map (fun i => machine_value m (nth i (map (fun v => if same_endian e m then put e n v else rev (put e n v)) l) [])) (seq 0 (length l))).
  - apply map_ext_in; intros i Hi. apply in_seq in Hi. rewrite pieces_take; auto. rewrite map_length; lia.
  - replace (length l) with (length (map (fun v => if same_endian e m then put e n v else rev (put e n v)) l)) by apply map_length.
    rewrite (map_nth_seq (machine_value m)), map_map. apply map_ext; intros v. apply value_put.
Qed.

Lemma read_exact_located m e f off n l c : (0 < n)%nat -> located f off (flat_map (put e n) l) -> c = len l ->
  read_exact m e f off n c = Done (map (fun v => v mod 2 ^ (8 * Z.of_nat n)) l).
Proof.
  intros Hn H ->. unfold read_exact. pose proof (located_nonneg _ _ _ H). pose proof (len_nonneg l).
  destruct (Z.ltb_spec off 0); [lia|]. destruct (Z.ltb_spec (len l) 0); [lia|]. cbn [orb].
  replace (Z.to_nat (len l)) with (length l) by (unfold len; lia). rewrite (read_at_located m e f off n l Hn H). cbv zeta. rewrite map_length.
  unfold len. now rewrite Z.ltb_irrefl.
Qed.
Lemma map_signed n l : (0 < n)%nat -> Forall (fun v => - 2 ^ (8 * Z.of_nat n - 1) <= v < 2 ^ (8 * Z.of_nat n - 1)) l ->
  map (signed n) (map (fun v => v mod 2 ^ (8 * Z.of_nat n)) l) = l.
Proof. intros Hn; induction 1; cbn [map]; [reflexivity|]. rewrite signed_mod by auto. now f_equal. Qed.
Lemma read_ints_located m e f off l c : located f off (ints e l) -> Forall int_ok l -> c = len l -> read_ints m e f off c = Done l.
Proof.
  intros H F ->. unfold read_ints. rewrite (read_exact_located m e f off 4 l) by (auto; lia). cbn [bind]. f_equal. apply map_signed; auto; lia.
Qed.
Lemma read_longs_located m e f off l c : located f off (longs e l) -> Forall long_ok l -> c = len l -> read_longs m e f off c = Done l.
Proof.
  intros H F ->. unfold read_longs. rewrite (read_exact_located m e f off 8 l) by (auto; lia). cbn [bind]. f_equal. apply map_signed; auto; lia.
Qed.
Lemma map_bits l : Forall bits_ok l -> map (fun v => v mod 2 ^ (8 * Z.of_nat 8)) l = l.
Proof. induction 1; cbn [map]; [reflexivity|]. rewrite IHForall. f_equal. apply Z.mod_small. exact H. Qed.
Lemma read_doubles_located m e f off l c : located f off (longs e l) -> Forall bits_ok l -> c = len l -> read_doubles m e f off c = Done l.
Proof.
  intros H F ->. unfold read_doubles. rewrite (read_exact_located m e f off 8 l) by (auto; lia). f_equal. now apply map_bits.
Qed.

Lemma ints_app e a b : ints e (a ++ b) = ints e a ++ ints e b.
Proof. apply flat_map_app. Qed.
Lemma longs_app e a b : longs e (a ++ b) = longs e a ++ longs e b.
Proof. apply flat_map_app. Qed.
Lemma len_ints e l : len (ints e l) = 4 * len l.
Proof. unfold len, ints; rewrite puts_length; lia. Qed.
Lemma len_longs e l : len (longs e l) = 8 * len l.
Proof. unfold len, longs; rewrite puts_length; lia. Qed.
Lemma len_put e n v : len (put e n v) = Z.of_nat n.
Proof. unfold len; now rewrite put_length. Qed.
Lemma len_map {A B} (f : A -> B) l : len (map f l) = len l.
Proof. unfold len; now rewrite map_length. Qed.

(** A part of a list that is in the file. *)
Lemma slice {A} (b n : nat) (l : list A) : l = firstn b l ++ firstn n (skipn b l) ++ skipn n (skipn b l).
Proof. rewrite (firstn_skipn n), firstn_skipn; reflexivity. Qed.
Lemma located_ints_slice e f off l b n : located f off (ints e l) -> (b <= length l)%nat ->
  located f (off + Z.of_nat b * 4) (ints e (firstn n (skipn b l))).
Proof.
  intros H Hb. rewrite (slice b n l), !ints_app, !located_app in H. destruct H as (_ & H & _).
  rewrite len_ints in H. unfold len in H; rewrite firstn_length_le in H by exact Hb. replace (off + Z.of_nat b * 4) with (off + 4 * Z.of_nat b) by lia. exact H.
Qed.
Lemma located_longs_slice e f off l b n : located f off (longs e l) -> (b <= length l)%nat ->
  located f (off + Z.of_nat b * 8) (longs e (firstn n (skipn b l))).
Proof.
  intros H Hb. rewrite (slice b n l), !longs_app, !located_app in H. destruct H as (_ & H & _).
  rewrite len_longs in H. unfold len in H; rewrite firstn_length_le in H by exact Hb. replace (off + Z.of_nat b * 8) with (off + 8 * Z.of_nat b) by lia. exact H.
Qed.
Lemma Forall_slice {A} (P : A -> Prop) b n l : Forall P l -> Forall P (firstn n (skipn b l)).
Proof.
  intros H. rewrite (slice b n l) in H. apply Forall_app in H as [_ H]. now apply Forall_app in H as [H _].
Qed.
