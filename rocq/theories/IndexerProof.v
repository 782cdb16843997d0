(** Proofs about indexers of any rank (C05). *)
From Coq Require Import List ZArith Bool Lia Permutation.
From Verif Require Import TupleModel RangeModel IndexerModel Base.
Import ListNotations.
Open Scope Z_scope.

(** Specification: the tuples inside extents. *)
Definition in_ext (ext : extents) (t : list Z) : Prop :=
  Forall2 (fun x i => fst x <= i < snd x) ext t.

Lemma econtains_spec ext t : econtains ext t = true <-> in_ext ext t.
Proof.
  unfold in_ext; revert t; induction ext as [|[b e] r IH]; intros [|i t]; cbn [econtains].
  - split; auto.
  - split; [discriminate|intros H; inversion H].
  - split; [discriminate|intros H; inversion H].
  - rewrite !andb_true_iff, IH; split.
    + intros [[H1 H2] H3]; constructor; auto; cbn; lia.
    + intros H; inversion H; subst; cbn in *; repeat split; auto; lia.
Qed.

Lemma in_ext_rev ext t : in_ext ext t -> in_ext (rev ext) (rev t).
Proof.
  unfold in_ext; induction 1 as [|x i r t H1 H2 IH]; cbn [rev]; [constructor|].
  apply Forall2_app; auto.
Qed.

Lemma in_ext_rev_iff ext t : in_ext ext t <-> in_ext (rev ext) (rev t).
Proof.
  split; [apply in_ext_rev|].
  intros H; apply in_ext_rev in H; rewrite !rev_involutive in H; exact H.
Qed.

Lemma in_ext_length ext t : in_ext ext t -> length t = length ext.
Proof. unfold in_ext; induction 1; cbn; auto. Qed.

(** Row-major indexer as a recursion. *)
Fixpoint row_ix (ext : extents) : list (Z * Z) :=
  match ext with [] => [] | x :: r => (fst x, stride_elem r) :: row_ix r end.

Lemma indexer_row ext : indexer RowMajor ext = row_ix ext.
Proof.
  unfold indexer, strides; induction ext as [|x r IH]; cbn; auto. f_equal; exact IH.
Qed.

Lemma row_strides_length ext : length (row_strides ext) = length ext.
Proof. induction ext; cbn; auto. Qed.

Lemma col_strides_length b ext : length (col_strides b ext) = length ext.
Proof. revert b; induction ext; intros b; cbn; auto. Qed.

Lemma col_strides_rev ext b :
  row_strides (rev ext ++ b) = rev (col_strides b ext) ++ row_strides b.
Proof.
  revert b; induction ext as [|x r IH]; intros b; cbn [rev col_strides app]; auto.
  rewrite <- app_assoc; cbn [app]. rewrite IH. cbn [row_strides]. rewrite <- app_assoc; auto.
Qed.

Lemma combine_app {A B} (l1 l1' : list A) (l2 l2' : list B) : length l1 = length l2 ->
  combine (l1 ++ l1') (l2 ++ l2') = combine l1 l2 ++ combine l1' l2'.
Proof.
  revert l2; induction l1 as [|a l1 IH]; intros [|c l2] H; cbn in *; try discriminate; auto.
  f_equal; apply IH; lia.
Qed.

Lemma combine_rev {A B} (l1 : list A) (l2 : list B) : length l1 = length l2 ->
  combine (rev l1) (rev l2) = rev (combine l1 l2).
Proof.
  revert l2; induction l1 as [|a l1 IH]; intros [|c l2] H; cbn in *; try discriminate; auto.
  rewrite combine_app; [|rewrite !rev_length; lia]. rewrite IH by lia. auto.
Qed.

Lemma indexer_col ext : indexer ColMajor ext = rev (row_ix (rev ext)).
Proof.
  rewrite <- indexer_row. unfold indexer, strides.
  pose proof (col_strides_rev ext []) as H. cbn [row_strides] in H.
  rewrite !app_nil_r in H. rewrite H, map_rev.
  rewrite combine_rev by (rewrite map_length, col_strides_length; auto).
  rewrite rev_involutive; auto.
Qed.

Lemma row_ix_length ext : length (row_ix ext) = length ext.
Proof. induction ext; cbn; auto. Qed.

Lemma to_index_app ix1 t1 ix2 t2 : length ix1 = length t1 ->
  to_index (ix1 ++ ix2) (t1 ++ t2) = to_index ix1 t1 + to_index ix2 t2.
Proof.
  revert t1; induction ix1 as [|[b s] ix1 IH]; intros [|i t1] H; cbn in *; try discriminate; auto.
  rewrite IH by lia; lia.
Qed.

Lemma to_index_rev ix t : length ix = length t -> to_index (rev ix) (rev t) = to_index ix t.
Proof.
  revert t; induction ix as [|[b s] ix IH]; intros [|i t] H; cbn [rev length] in *; try discriminate; auto.
  rewrite to_index_app by (rewrite !rev_length; lia).
  rewrite IH by lia. cbn; lia.
Qed.

Lemma ecount_nonneg ext : 0 <= ecount ext.
Proof.
  induction ext as [|x r IH]; cbn; [lia|]. unfold esize; nia.
Qed.

Lemma in_ext_stride ext t : in_ext ext t -> stride_elem ext = ecount ext /\ 0 < ecount ext.
Proof.
  unfold in_ext; induction 1 as [|x i r t H1 H2 [IH1 IH2]]; cbn [stride_elem ecount]; [lia|].
  rewrite IH1; unfold espan, esize; rewrite Z.max_l by lia. split; [auto|nia].
Qed.

Lemma ecount_pos_stride ext : 0 < ecount ext ->
  stride_elem ext = ecount ext /\ Forall (fun x => fst x < snd x) ext.
Proof.
  induction ext as [|x r IH]; cbn [stride_elem ecount]; intros H; [split; auto; constructor|].
  pose proof (ecount_nonneg r).
  assert (0 < ecount r) by (unfold esize in H; nia).
  assert (0 < esize x) by nia.
  destruct IH as [IH1 IH2]; auto.
  rewrite IH1; unfold espan, esize in *. split; [f_equal; lia|].
  constructor; auto; lia.
Qed.

Lemma ecount_app l1 l2 : ecount (l1 ++ l2) = ecount l1 * ecount l2.
Proof. induction l1 as [|x l1 IH]; cbn [app ecount]; [lia|rewrite IH; lia]. Qed.

Lemma ecount_rev ext : ecount (rev ext) = ecount ext.
Proof.
  induction ext as [|x r IH]; cbn [rev]; auto.
  rewrite ecount_app, IH; cbn [ecount]; lia.
Qed.

Lemma row_index_bounds ext t : in_ext ext t -> 0 <= to_index (row_ix ext) t < ecount ext.
Proof.
  intros H; induction H as [|x i r t H1 H2 IH]; cbn [row_ix to_index ecount]; [lia|].
  destruct (in_ext_stride r t H2) as [E1 E2]. rewrite E1.
  unfold esize; rewrite Z.max_l by lia. nia.
Qed.

Lemma row_split_index ext t : in_ext ext t ->
  split_index (row_ix ext) (to_index (row_ix ext) t) = Some t.
Proof.
  intros H; induction H as [|x i r t H1 H2 IH]; cbn [row_ix to_index split_index]; auto.
  destruct (in_ext_stride r t H2) as [E1 E2]. rewrite E1.
  pose proof (row_index_bounds r t H2) as B.
  destruct (Z.eqb_spec (ecount r) 0) as [Hz|Hz]; [lia|].
  assert (Q : Z.quot (ecount r * (i - fst x) + to_index (row_ix r) t) (ecount r) = i - fst x).
  { symmetry; apply Z.quot_unique with (r := to_index (row_ix r) t); [nia|lia|lia]. }
  rewrite Q.
  replace (ecount r * (i - fst x) + to_index (row_ix r) t - (i - fst x) * ecount r)
    with (to_index (row_ix r) t) by lia.
  rewrite IH. do 2 f_equal; lia.
Qed.

Lemma row_to_tuple ext i : 0 <= i < ecount ext ->
  exists t, split_index (row_ix ext) i = Some t /\ in_ext ext t /\ to_index (row_ix ext) t = i.
Proof.
  revert i; induction ext as [|x r IH]; intros i H; cbn [row_ix split_index ecount] in *.
  - exists []; split; auto. split; [constructor|cbn; lia].
  - pose proof (ecount_nonneg r).
    assert (P : 0 < ecount r) by (unfold esize in H; nia).
    destruct (ecount_pos_stride r P) as [E1 _]. rewrite E1.
    destruct (Z.eqb_spec (ecount r) 0); [lia|].
    rewrite Z.quot_div_nonneg by lia.
    pose proof (Z.div_mod i (ecount r) ltac:(lia)) as D.
    pose proof (Z.mod_pos_bound i (ecount r) P) as M.
    assert (L : 0 <= i / ecount r) by (apply Z.div_pos; lia).
    assert (U : i / ecount r < snd x - fst x).
    { apply Z.div_lt_upper_bound; auto. unfold esize in H. nia. }
    destruct (IH (i - i / ecount r * ecount r)) as (t & T1 & T2 & T3); [lia|].
    rewrite T1. exists (fst x + i / ecount r :: t). split; auto. split.
    + constructor; auto; cbn; lia.
    + cbn [to_index]; rewrite T3; lia.
Qed.

(** Iteration. *)
Lemma foreach_rm_In ext t : In t (foreach_rm ext) <-> in_ext ext t.
Proof.
  revert t; induction ext as [|[b e] r IH]; intros t; cbn [foreach_rm].
  - cbn; split; [intros [<-|[]]; constructor|]. intros H; inversion H; auto.
  - rewrite in_flat_map; split.
    + intros (i & Hi & Ht). apply zrange_In in Hi. apply in_map_iff in Ht.
      destruct Ht as (t' & <- & Ht'). constructor; [cbn; lia|]. apply IH; auto.
    + intros H; inversion H as [|x i r' t' H1 H2]; subst. cbn in H1.
      exists i; split; [apply zrange_In; lia|]. apply in_map, IH; auto.
Qed.

Lemma zseq_app b n m : zseq b (n + m) = zseq b n ++ zseq (b + Z.of_nat n) m.
Proof.
  revert b; induction n as [|n IH]; intros b; cbn [Nat.add zseq app].
  - f_equal; lia.
  - f_equal. rewrite IH. do 2 f_equal; lia.
Qed.

Lemma zseq_shift b c n : map (fun x => c + x) (zseq b n) = zseq (c + b) n.
Proof.
  revert b; induction n as [|n IH]; intros b; cbn [zseq map]; auto.
  f_equal; rewrite IH; f_equal; lia.
Qed.

Lemma row_foreach_index ext :
  map (to_index (row_ix ext)) (foreach_rm ext) = zseq 0 (Z.to_nat (ecount ext)).
Proof.
  induction ext as [|[b e] r IH]; cbn [foreach_rm row_ix ecount]; auto.
  cbn [fst]. unfold esize, zrange; cbn [fst snd].
  destruct (Z.eq_dec (ecount r) 0) as [Hz|Hz].
  { rewrite Hz in *. rewrite Z.mul_0_r. cbn [Z.to_nat zseq] in *.
    apply map_eq_nil in IH. rewrite IH. cbn [map].
    induction (zseq b (Z.to_nat (e - b))); cbn; auto. }
  pose proof (ecount_nonneg r).
  assert (P : 0 < ecount r) by lia. clear Hz.
  destruct (ecount_pos_stride r P) as [E1 _]. rewrite E1.
  assert (G : forall n c, map (to_index ((b, ecount r) :: row_ix r))
     (flat_map (fun i => map (cons i) (foreach_rm r)) (zseq c n))
     = zseq ((c - b) * ecount r) (n * Z.to_nat (ecount r))).
  { induction n as [|n IHn]; intros c; cbn [zseq flat_map Nat.mul map]; auto.
    rewrite map_app, IHn, zseq_app. f_equal.
    - rewrite map_map. cbn [to_index].
      replace ((c - b) * ecount r) with (ecount r * (c - b) + 0) by lia.
      rewrite <- zseq_shift, <- IH, map_map. reflexivity.
    - f_equal. rewrite Z2Nat.id by lia. lia. }
  rewrite G. f_equal; [lia|].
  rewrite Z2Nat.inj_mul by lia. f_equal. lia.
Qed.

Lemma foreach_cm_rm rext inner :
  foreach_cm rext inner = map (fun t => rev t ++ inner) (foreach_rm rext).
Proof.
  revert inner; induction rext as [|[b e] r IH]; intros inner; cbn [foreach_cm foreach_rm]; auto.
  rewrite !flat_map_concat_map, concat_map, map_map. f_equal. apply map_ext; intros i.
  rewrite IH, map_map. apply map_ext; intros t. cbn [rev]. rewrite <- app_assoc; auto.
Qed.

Lemma foreach_col ext : foreach ColMajor ext = map (@rev Z) (foreach_rm (rev ext)).
Proof.
  unfold foreach; rewrite foreach_cm_rm. apply map_ext; intros; apply app_nil_r.
Qed.

Lemma foreach_In lay ext t : In t (foreach lay ext) <-> in_ext ext t.
Proof.
  destruct lay; [apply foreach_rm_In|].
  rewrite foreach_col, in_map_iff; split.
  - intros (u & <- & Hu). apply foreach_rm_In in Hu.
    apply in_ext_rev_iff. rewrite rev_involutive; auto.
  - intros H; exists (rev t); rewrite rev_involutive; split; auto.
    apply foreach_rm_In, in_ext_rev; auto.
Qed.

Lemma col_to_index ext t : length t = length ext ->
  to_index (indexer ColMajor ext) t = to_index (row_ix (rev ext)) (rev t).
Proof.
  intros H; rewrite indexer_col.
  rewrite <- (to_index_rev (row_ix (rev ext)) (rev t)).
  - rewrite rev_involutive; auto.
  - rewrite row_ix_length, !rev_length; auto.
Qed.

Lemma foreach_index lay ext :
  map (to_index (indexer lay ext)) (foreach lay ext) = zseq 0 (Z.to_nat (ecount ext)).
Proof.
  destruct lay.
  - rewrite indexer_row; apply row_foreach_index.
  - rewrite foreach_col, map_map, <- (ecount_rev ext), <- row_foreach_index.
    apply map_ext_in. intros t Ht. apply foreach_rm_In, in_ext_length in Ht.
    rewrite rev_length in Ht.
    rewrite col_to_index by (rewrite rev_length; auto). rewrite rev_involutive; auto.
Qed.

Lemma index_bounds lay ext t : in_ext ext t ->
  0 <= to_index (indexer lay ext) t < ecount ext.
Proof.
  intros H; destruct lay.
  - rewrite indexer_row; apply row_index_bounds; auto.
  - rewrite col_to_index by (apply in_ext_length; auto).
    rewrite <- ecount_rev. apply row_index_bounds, in_ext_rev; auto.
Qed.

Lemma index_tuple lay ext t : in_ext ext t ->
  to_tuple lay (indexer lay ext) (to_index (indexer lay ext) t) = Some t.
Proof.
  intros H; destruct lay; unfold to_tuple.
  - rewrite indexer_row; apply row_split_index; auto.
  - rewrite col_to_index by (apply in_ext_length; auto).
    rewrite indexer_col, rev_involutive.
    rewrite row_split_index by (apply in_ext_rev; auto). cbn. rewrite rev_involutive; auto.
Qed.

Lemma tuple_index lay ext i : 0 <= i < ecount ext ->
  exists t, to_tuple lay (indexer lay ext) i = Some t /\ in_ext ext t /\
    to_index (indexer lay ext) t = i.
Proof.
  intros H; destruct lay; unfold to_tuple.
  - rewrite indexer_row; apply row_to_tuple; auto.
  - rewrite indexer_col, rev_involutive. rewrite <- ecount_rev in H.
    destruct (row_to_tuple (rev ext) i H) as (t & T1 & T2 & T3).
    exists (rev t). rewrite T1. split; [reflexivity|].
    assert (Hin : in_ext ext (rev t)) by (apply in_ext_rev_iff; rewrite rev_involutive; auto).
    split; auto.
    rewrite <- indexer_col, col_to_index by (apply in_ext_length; auto).
    rewrite rev_involutive; auto.
Qed.

Lemma index_inj lay ext t u : in_ext ext t -> in_ext ext u ->
  to_index (indexer lay ext) t = to_index (indexer lay ext) u -> t = u.
Proof.
  intros Ht Hu E. pose proof (index_tuple lay ext t Ht) as H1.
  pose proof (index_tuple lay ext u Hu) as H2. congruence.
Qed.

Lemma foreach_NoDup lay ext : NoDup (foreach lay ext).
Proof.
  apply (NoDup_map_inv (to_index (indexer lay ext))).
  rewrite foreach_index. apply zseq_NoDup.
Qed.

(** Specification of the storage order: in row-major layout the last index varies
    fastest (lexicographic order), in column-major layout the first. *)
Fixpoint lex (t u : list Z) : Prop :=
  match t, u with
  | i :: t', j :: u' => i < j \/ (i = j /\ lex t' u')
  | _, _ => False
  end.

Definition storage_before (lay : layout) (t u : list Z) : Prop :=
  match lay with RowMajor => lex t u | ColMajor => lex (rev t) (rev u) end.

Lemma lex_index ext t u : in_ext ext t -> in_ext ext u -> lex t u ->
  to_index (row_ix ext) t < to_index (row_ix ext) u.
Proof.
  intros Ht; revert u; induction Ht as [|x i r t H1 H2 IH]; intros u Hu L;
    inversion Hu as [|y j r' u' J1 J2]; subst; cbn [lex] in L; [contradiction|].
  cbn [row_ix to_index].
  pose proof (row_index_bounds r t H2). pose proof (row_index_bounds r u' J2).
  destruct (in_ext_stride r t H2) as [E1 E2]. rewrite E1.
  destruct L as [L|[-> L]]; [nia|]. specialize (IH u' J2 L). lia.
Qed.

Lemma lex_total t u : length t = length u -> lex t u \/ t = u \/ lex u t.
Proof.
  revert u; induction t as [|i t IH]; intros [|j u] H; cbn in *; try discriminate; auto.
  destruct (Z.lt_trichotomy i j) as [L|[->|L]]; auto.
  destruct (IH u) as [L|[->|L]]; auto.
Qed.

Lemma lex_index_iff ext t u : in_ext ext t -> in_ext ext u ->
  (lex t u <-> to_index (row_ix ext) t < to_index (row_ix ext) u).
Proof.
  intros Ht Hu; split; [apply lex_index; auto|]. intros L.
  destruct (lex_total t u) as [H|[->|H]]; auto.
  - rewrite (in_ext_length _ _ Ht), (in_ext_length _ _ Hu); auto.
  - lia.
  - pose proof (lex_index ext u t Hu Ht H). lia.
Qed.

Lemma storage_order lay ext t u : in_ext ext t -> in_ext ext u ->
  (storage_before lay t u <-> to_index (indexer lay ext) t < to_index (indexer lay ext) u).
Proof.
  intros Ht Hu; destruct lay; unfold storage_before.
  - rewrite indexer_row; apply lex_index_iff; auto.
  - rewrite !col_to_index by (apply in_ext_length; auto).
    apply lex_index_iff; apply in_ext_rev; auto.
Qed.

Lemma indexer_bijection : forall lay ext,
  (forall t, in_ext ext t -> 0 <= to_index (indexer lay ext) t < ecount ext /\
     to_tuple lay (indexer lay ext) (to_index (indexer lay ext) t) = Some t) /\
  (forall i, 0 <= i < ecount ext -> exists t,
     to_tuple lay (indexer lay ext) i = Some t /\ in_ext ext t /\
     to_index (indexer lay ext) t = i) /\
  (forall t, In t (foreach lay ext) <-> in_ext ext t) /\
  map (to_index (indexer lay ext)) (foreach lay ext) = zseq 0 (Z.to_nat (ecount ext)) /\
  (forall t u, in_ext ext t -> in_ext ext u ->
    (storage_before lay t u <-> to_index (indexer lay ext) t < to_index (indexer lay ext) u)).
Proof.
  intros lay ext; split; [|split; [|split; [|split]]].
  - intros t Ht; split; [apply index_bounds|apply index_tuple]; auto.
  - intros i Hi; apply tuple_index; auto.
  - intros t; apply foreach_In.
  - apply foreach_index.
  - apply storage_order.
Qed.
