(** Proofs about reading donors and receivers from XINTOUT files. *)
From Coq Require Import List ZArith Bool Arith Lia ZifyNat.
From Verif Require Import Base TupleModel XinModel XinSpec XinBytes XinChunk XinRead.
Import ListNotations.
Local Open Scope Z_scope.

Lemma all_ranks_done {A B} (f : A -> res B) (v : A -> B) l : (forall k, In k l -> f k = Done (v k)) -> all_ranks (map f l) = Done (map v l).
Proof.
  induction l; intros H; cbn [map all_ranks]; [reflexivity|]. rewrite (H a) by now left. rewrite IHl; [reflexivity|]. intros; apply H; now right.
Qed.
Lemma chunk_ranks_in n k : In k (chunk_ranks n) -> 0 <= k < n.
Proof. unfold chunk_ranks. intros H. apply in_map_iff in H as (j & <- & H). apply in_seq in H. lia. Qed.
Lemma nth_map_seq {A} (f : nat -> A) n k d : (k < n)%nat -> nth k (map f (seq 0 n)) d = f k.
Proof.
  intros H. rewrite (nth_indep _ d (f 0%nat)) by now rewrite map_length, seq_length. rewrite map_nth, seq_nth; auto.
Qed.
Lemma nth_chunk_ranks {A} (f : Z -> A) n k d : (k < Z.to_nat n)%nat -> nth k (map f (chunk_ranks n)) d = f (Z.of_nat k).
Proof. intros H. unfold chunk_ranks. rewrite map_map. now rewrite (nth_map_seq (fun x => f (Z.of_nat x))). Qed.

(** The columns of a list. *)
Definition cols {A} (F : A -> tup Z) (l : list A) : tup (list Z) := T3 (map (fun a => c0 (F a)) l) (map (fun a => c1 (F a)) l) (map (fun a => c2 (F a)) l).
Lemma nth_map_in {A B} (f : A -> B) l i d d' : (i < length l)%nat -> nth i (map f l) d' = f (nth i l d).
Proof. intros H. rewrite (nth_indep _ d' (f d)) by now rewrite map_length. apply map_nth. Qed.
Lemma row_cols {A} (F : A -> tup Z) l i d : (i < length l)%nat -> row (cols F l) i = F (nth i l d).
Proof.
  intros H. unfold row, tmap, tmake, cols; cbn [tget]. apply tup_eq; cbn -[nth]; now rewrite (nth_map_in _ l i d).
Qed.
Lemma rows_cols {A} (F : A -> tup Z) l : map (row (cols F l)) (seq 0 (length l)) = map F l.
Proof.
  destruct l as [|a l]; [reflexivity|].
  rewrite <- (map_nth_seq F (a :: l) a). apply map_ext_in; intros i Hi. apply in_seq in Hi. apply row_cols; lia.
Qed.
Lemma map_part {A B} (f : A -> B) c l k : map f (part c l k) = part c (map f l) k.
Proof. unfold part. now rewrite skipn_map, firstn_map. Qed.

Section Columns.
Variables (read : Z -> Z -> res (list Z)) (put_all : list Z -> bytes) (elem : Z) (f : bytes) (P : Z -> Prop).
Hypothesis Hread : forall off l c, located f off (put_all l) -> Forall P l -> c = len l -> read off c = Done l.
Hypothesis Happ : forall a b, put_all (a ++ b) = put_all a ++ put_all b.
Hypothesis Hlen : forall l, len (put_all l) = elem * len l.
Hypothesis He : 0 <= elem.
Lemma read_slice off (l : list Z) b n : located f off (put_all l) -> Forall P l -> (b + n <= length l)%nat ->
  read (off + Z.of_nat b * elem) (Z.of_nat n) = Done (firstn n (skipn b l)).
Proof.
  intros H HP Hb. apply Hread.
  - rewrite (slice b n l), !Happ, !located_app in H. destruct H as (_ & H & _). rewrite Hlen in H. unfold len in H. rewrite firstn_length_le in H by lia.
    eapply located_eq; [exact H|lia].
  - now apply Forall_slice.
  - unfold len. rewrite firstn_length_le; [reflexivity|]. rewrite skipn_length. lia.
Qed.
Lemma read_columns_located {A} (F : A -> tup Z) off l b n : located f off (put_all (columns F l)) -> Forall (fun x => tup_ok P (F x)) l -> (b + n <= length l)%nat ->
  read_columns read elem off (len l) (Z.of_nat b) (Z.of_nat n) = Done (cols F (firstn n (skipn b l))).
Proof.
  intros H HP Hb. unfold columns in H. rewrite !Happ, !located_app, !Hlen, !len_map in H. destruct H as (H0 & H1 & H2). unfold read_columns.
  assert (L : forall h : A -> Z, length (map h l) = length l) by (intros; apply map_length).
  rewrite (read_slice off (map (fun x => c0 (F x)) l)); [cbn [bind]|exact H0|apply Forall_map; eapply Forall_impl; [|exact HP]; intros ? (?&?&?); auto|now rewrite L].
  replace (off + len l * elem + Z.of_nat b * elem) with (off + elem * len l + Z.of_nat b * elem) by lia.
  rewrite (read_slice _ (map (fun x => c1 (F x)) l)); [cbn [bind]|exact H1|apply Forall_map; eapply Forall_impl; [|exact HP]; intros ? (?&?&?); auto|now rewrite L].
  replace (off + len l * elem + len l * elem + Z.of_nat b * elem) with (off + elem * len l + elem * len l + Z.of_nat b * elem) by lia.
  rewrite (read_slice _ (map (fun x => c2 (F x)) l)); [cbn [bind]|exact H2|apply Forall_map; eapply Forall_impl; [|exact HP]; intros ? (?&?&?); auto|now rewrite L].
  unfold cols. now rewrite !skipn_map, !firstn_map.
Qed.
End Columns.

(** Coefficients. *)
Definition coefs_dim (d : nat) (l : list donor) : list Z := flat_map (fun x => tget (d_coefs x) d) l.
Lemma coefs_dim_app d a b : coefs_dim d (a ++ b) = coefs_dim d a ++ coefs_dim d b.
Proof. apply flat_map_app. Qed.
Lemma coefs_in_app d a b : coefs_in d (a ++ b) = coefs_in d a + coefs_in d b.
Proof.
  induction a as [|y a IH]; [reflexivity|]. change (coefs_in d ((y :: a) ++ b)) with (tget (d_size y) d + coefs_in d (a ++ b)).
  change (coefs_in d (y :: a)) with (tget (d_size y) d + coefs_in d a). lia.
Qed.
Lemma len_coefs_dim d l : (d < 3)%nat -> Forall donor_ok l -> len (coefs_dim d l) = coefs_in d l.
Proof.
  intros Hd. induction 1 as [|x l (_ & _ & _ & _ & H0 & H1 & H2) H IH]; [reflexivity|]. unfold coefs_dim; cbn [flat_map coefs_in fold_right]. rewrite len_app. fold (coefs_dim d l). fold (coefs_in d l). rewrite IH.
  destruct d as [|[|[|d]]]; cbn [tget]; lia.
Qed.
Lemma coefs_dim_bits d l : Forall donor_ok l -> Forall bits_ok (coefs_dim d l).
Proof.
  induction 1 as [|x l (_ & _ & _ & (B0 & B1 & B2) & _) H IH]; [constructor|]. unfold coefs_dim; cbn [flat_map]. apply Forall_app; split; auto. destruct d as [|[|d]]; auto.
Qed.
Lemma coefs_in_nonneg d l : Forall donor_ok l -> 0 <= coefs_in d l.
Proof.
  induction 1 as [|x l (_ & (S0 & S1 & S2) & _) H IH]; cbn [coefs_in fold_right]; [lia|]. fold (coefs_in d l). destruct d as [|[|d]]; cbn [tget]; lia.
Qed.
Lemma tmap_sum_cols l : tmap sum (cols d_size l) = T3 (coefs_in 0 l) (coefs_in 1 l) (coefs_in 2 l).
Proof.
  unfold tmap, tmake, cols; cbn [tget]. assert (E : forall h, sum (map h l) = fold_right (fun x a => h x + a) 0 l).
  { intros h. unfold sum. induction l; cbn [map fold_right]; congruence. }
  apply tup_eq; cbn -[sum]; rewrite E; reflexivity.
Qed.

Lemma take_coefs_at a next (b r : list Z) : 0 <= next -> skipn (Z.to_nat next) a = b ++ r -> take_coefs a next (len b) = Done b.
Proof.
  intros Hn H. unfold take_coefs. destruct (Z.leb_spec (len b) 0) as [L|L].
  - unfold len in L. destruct b; [reflexivity|cbn in L; lia].
  - assert (X : length (skipn (Z.to_nat next) a) = (length b + length r)%nat) by (rewrite H; apply app_length). rewrite skipn_length in X. unfold len in *.
    destruct (Z.ltb_spec next 0); [lia|]. destruct (Z.ltb_spec (Z.of_nat (length a)) (next + Z.of_nat (length b))); [lia|]. cbn [orb].
    rewrite H, Nat2Z.id, firstn_app, Nat.sub_diag, firstn_all; cbn [firstn]. now rewrite app_nil_r.
Qed.
Lemma skipn_next {A} n m (l : list A) : skipn (n + m) l = skipn m (skipn n l).
Proof. revert l; induction n; intros l; cbn; auto. destruct l; auto. now destruct m. Qed.
Lemma spread_spec a : forall ds n0 n1 n2 r0 r1 r2, Forall donor_ok ds -> 0 <= n0 -> 0 <= n1 -> 0 <= n2 ->
  skipn (Z.to_nat n0) a = coefs_dim 0 ds ++ r0 -> skipn (Z.to_nat n1) a = coefs_dim 1 ds ++ r1 -> skipn (Z.to_nat n2) a = coefs_dim 2 ds ++ r2 ->
  spread a (T3 n0 n1 n2) (map d_size ds) = Done (map d_coefs ds).
Proof.
  induction ds as [|d ds IH]; intros n0 n1 n2 r0 r1 r2 Hd P0 P1 P2 E0 E1 E2; cbn [map spread]; [reflexivity|].
  inversion Hd as [|? ? D1 D2]; subst. destruct D1 as (_ & (S0 & S1 & S2) & _ & _ & L0 & L1 & L2).
  unfold coefs_dim in E0, E1, E2; cbn [flat_map tget] in E0, E1, E2. rewrite <- !app_assoc in *.
  cbn [c0 c1 c2]. rewrite <- L0, <- L1, <- L2.
  rewrite (take_coefs_at a n0 _ _ P0 E0); cbn [bind]. rewrite (take_coefs_at a n1 _ _ P1 E1); cbn [bind]. rewrite (take_coefs_at a n2 _ _ P2 E2); cbn [bind].
  assert (N : forall n b r, 0 <= n -> skipn (Z.to_nat n) a = b ++ r -> skipn (Z.to_nat (n + Z.max 0 (len b))) a = r).
  { intros n b r Hn E. unfold len. replace (Z.to_nat (n + Z.max 0 (Z.of_nat (length b)))) with (Z.to_nat n + length b)%nat by lia.
    rewrite skipn_next, E, skipn_app, skipn_all, Nat.sub_diag; reflexivity. }
  rewrite (IH _ _ _ r0 r1 r2 D2); try (unfold len; lia); [|now apply N with (b := c0 (d_coefs d))|now apply N with (b := c1 (d_coefs d))|now apply N with (b := c2 (d_coefs d))].
  cbn [bind]. destruct (d_coefs d); reflexivity.
Qed.
Lemma max_size_cols l : Forall donor_ok l -> max_size (cols d_size l) = max_extent l.
Proof.
  intros H. unfold max_size, cols; cbn [c0 c1 c2]. assert (A : forall x y, fold_right Z.max 0 (x ++ y) = Z.max (fold_right Z.max 0 x) (fold_right Z.max 0 y)).
  { induction x; intros y; cbn [app fold_right]; [|rewrite IHx; lia]. induction y; cbn [fold_right]; lia. }
  rewrite !A. induction H as [|x l (_ & (S0 & S1 & S2) & _) H IH]; [reflexivity|]. cbn [map fold_right max_extent]. fold (max_extent l). rewrite <- IH. lia.
Qed.
