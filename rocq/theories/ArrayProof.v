(** Proofs about owning arrays (C44, C45, C56). *)
From Coq Require Import List ZArith Bool Lia.
From Verif Require Import TupleModel RangeModel IndexerModel ArrayModel Base IndexerProof.
Import ListNotations.
Open Scope Z_scope.

(** An array holds one value per tuple of its extents. *)
Definition array_wf {V} (a : array V) : Prop :=
  Z.of_nat (length (a_vals a)) = ecount (a_ext a).

Lemma vread_some {V} (l : list V) i : (exists x, vread l i = Some x) <-> 0 <= i < Z.of_nat (length l).
Proof.
  unfold vread; destruct (Z.ltb_spec i 0).
  - split; [intros [x Hx]; discriminate|lia].
  - split.
    + intros [x Hx]. assert (Z.to_nat i < length l)%nat by (apply nth_error_Some; congruence). lia.
    + intros Hi. destruct (nth_error l (Z.to_nat i)) eqn:E; [eauto|].
      apply nth_error_None in E. lia.
Qed.

Lemma vset_spec {V} (l : list V) n v : (n < length l)%nat ->
  exists l', vset l n v = Some l' /\ length l' = length l /\
    forall m, nth_error l' m = if Nat.eqb m n then Some v else nth_error l m.
Proof.
  revert n; induction l as [|x l IH]; intros n Hn; cbn [length] in Hn; [lia|].
  destruct n as [|n]; cbn [vset].
  - exists (v :: l); repeat split; auto. intros [|m]; auto.
  - destruct (IH n ltac:(lia)) as (l' & E & L & N). rewrite E; cbn [option_map].
    exists (x :: l'); repeat split; cbn; auto. intros [|m]; cbn; auto.
Qed.

Lemma vwrite_spec {V} (l : list V) i v : 0 <= i < Z.of_nat (length l) ->
  exists l', vwrite l i v = Some l' /\ length l' = length l /\
    forall j, vread l' j = if j =? i then Some v else vread l j.
Proof.
  intros Hi; unfold vwrite; destruct (Z.ltb_spec i 0); [lia|].
  destruct (vset_spec l (Z.to_nat i) v ltac:(lia)) as (l' & E & L & N).
  exists l'; repeat split; auto. intros j; unfold vread.
  destruct (Z.ltb_spec j 0).
  - destruct (Z.eqb_spec j i); [lia|auto].
  - rewrite N. destruct (Nat.eqb_spec (Z.to_nat j) (Z.to_nat i)), (Z.eqb_spec j i); auto; lia.
Qed.

Lemma vresize_length {V} (l : list V) n v : 0 <= n -> Z.of_nat (length (vresize l n v)) = n.
Proof.
  intros; unfold vresize; rewrite app_length, firstn_length, repeat_length. lia.
Qed.

Lemma nth_error_firstn {V} (l : list V) n m :
  nth_error (firstn n l) m = if Nat.ltb m n then nth_error l m else None.
Proof.
  revert n m; induction l as [|x l IH]; intros n m.
  - rewrite firstn_nil. destruct m; cbn [nth_error]; destruct (Nat.ltb _ _); auto.
  - destruct n as [|n], m as [|m]; cbn [firstn nth_error]; auto.
    rewrite IH. destruct (Nat.ltb_spec m n), (Nat.ltb_spec (S m) (S n)); auto; lia.
Qed.

Lemma nth_error_repeat_lt {V} (v : V) n m : (m < n)%nat -> nth_error (repeat v n) m = Some v.
Proof.
  revert m; induction n as [|n IH]; intros [|m] H; cbn; try lia; auto. apply IH; lia.
Qed.

Lemma vresize_read {V} (l : list V) n v i : 0 <= i < n ->
  vread (vresize l n v) i = if i <? Z.of_nat (length l) then vread l i else Some v.
Proof.
  intros Hi; unfold vread; destruct (Z.ltb_spec i 0); [lia|]. unfold vresize.
  destruct (Z.ltb_spec i (Z.of_nat (length l))).
  - rewrite nth_error_app1 by (rewrite firstn_length; lia).
    rewrite nth_error_firstn. destruct (Nat.ltb_spec (Z.to_nat i) (Z.to_nat n)); auto; lia.
  - rewrite nth_error_app2 by (rewrite firstn_length; lia).
    apply nth_error_repeat_lt. rewrite firstn_length. lia.
Qed.

Lemma repeat_read {V} (v : V) n i : 0 <= i < Z.of_nat n -> vread (repeat v n) i = Some v.
Proof.
  intros Hi; unfold vread; destruct (Z.ltb_spec i 0); [lia|]. apply nth_error_repeat_lt; lia.
Qed.

Lemma indexer_eqb_eq x y : indexer_eqb x y = true <-> x = y.
Proof.
  revert y; induction x as [|[b s] x IH]; intros [|[b' s'] y]; cbn [indexer_eqb]; try easy.
  rewrite !andb_true_iff, IH, !Z.eqb_eq. split.
  - intros [[-> ->] ->]; auto.
  - intros H; injection H; auto.
Qed.

(** Copying loop invariant. *)
Lemma copy_fold {V} lay old_ix new_ix ext (old : list V) L vals :
  (forall t, In t L -> in_ext ext t -> exists x, vread old (to_index old_ix t) = Some x) ->
  (forall t, In t L -> in_ext ext t -> 0 <= to_index new_ix t < Z.of_nat (length vals)) ->
  (forall t u, In t L -> In u L -> in_ext ext t -> in_ext ext u ->
     to_index new_ix t = to_index new_ix u -> t = u) ->
  NoDup L ->
  exists vals', fold_left (copy_step lay old_ix new_ix ext old) L (Some vals) = Some vals' /\
    length vals' = length vals /\
    (forall t, In t L -> in_ext ext t ->
       vread vals' (to_index new_ix t) = vread old (to_index old_ix t)) /\
    (forall i, (forall t, In t L -> in_ext ext t -> to_index new_ix t <> i) ->
       vread vals' i = vread vals i).
Proof.
  revert vals; induction L as [|u L IH]; intros vals H1 H2 H3 ND; cbn [fold_left].
  { exists vals; split; auto. split; auto. split; [intros t []|auto]. }
  inversion ND as [|? ? N1 N2]; subst.
  unfold copy_step at 2. destruct (econtains ext u) eqn:E.
  - apply econtains_spec in E.
    destruct (H1 u) as [x Hx]; [left; auto|auto|]. rewrite Hx.
    destruct (vwrite_spec vals (to_index new_ix u) x) as (v1 & W1 & W2 & W3).
    { apply H2; [left|]; auto. }
    rewrite W1.
    destruct (IH v1) as (v2 & F1 & F2 & F3 & F4); auto.
    + intros t Ht; apply H1; right; auto.
    + intros t Ht; rewrite W2; apply H2; right; auto.
    + intros t w Ht Hw; apply H3; right; auto.
    + exists v2; split; [exact F1|]. split; [congruence|]. split.
      * intros t [<-|Ht] Ht'.
        -- rewrite F4.
           ++ rewrite W3, Z.eqb_refl, Hx; auto.
           ++ intros t Ht Hte Heq. assert (t = u) by (apply H3; auto; [right|left]; auto). congruence.
        -- apply F3; auto.
      * intros i Hi. rewrite F4 by (intros t Ht; apply Hi; right; auto).
        rewrite W3. destruct (Z.eqb_spec i (to_index new_ix u)) as [->|]; auto.
        exfalso; apply (Hi u); auto; left; auto.
  - assert (~ in_ext ext u) by (rewrite <- econtains_spec; congruence).
    destruct (IH vals) as (v2 & F1 & F2 & F3 & F4); auto.
    + intros t Ht; apply H1; right; auto.
    + intros t Ht; apply H2; right; auto.
    + intros t w Ht Hw; apply H3; right; auto.
    + exists v2; split; [exact F1|]. split; auto. split.
      * intros t [<-|Ht] Ht'; [contradiction|apply F3; auto].
      * intros i Hi; apply F4. intros t Ht; apply Hi; right; auto.
Qed.

(** Equal indexers on a non-empty old array: a tuple of the new extents is either
    in the old extents, or its index is past the old count. *)
Lemma row_ix_same_tail e1 e2 t : row_ix e1 = row_ix e2 -> 0 < ecount e1 ->
  in_ext e2 t -> in_ext e1 t \/ ecount e1 <= to_index (row_ix e1) t.
Proof.
  revert e1 t; induction e2 as [|y r2 IH]; intros e1 t E P Ht.
  { destruct e1; cbn in E; [auto|discriminate]. }
  destruct e1 as [|x r1]; cbn in E; [discriminate|].
  injection E as E1 E2 E3.
  inversion Ht as [|? i ? t' T1 T2]; subst.
  cbn [ecount] in P. pose proof (ecount_nonneg r1).
  assert (P1 : 0 < ecount r1) by (unfold esize in P; nia).
  destruct (ecount_pos_stride r1 P1) as [S1 _].
  destruct (in_ext_stride r2 t' T2) as [S2 _].
  pose proof (row_index_bounds r2 t' T2) as B.
  destruct (IH r1 t' E3 P1 T2) as [In|Ge].
  - destruct (Z.lt_ge_cases i (snd x)) as [L|G].
    + left; constructor; auto; lia.
    + right. cbn [ecount row_ix to_index]. rewrite S1, E3, E1.
      unfold esize. unfold esize in P. nia.
  - (* the tail count of the new extents equals the old one *)
    rewrite E3 in Ge. rewrite S1, S2 in E2. lia.
Qed.

Lemma same_ix_tail lay e1 e2 t : length e1 = length e2 ->
  indexer lay e1 = indexer lay e2 -> 0 < ecount e1 ->
  in_ext e2 t -> in_ext e1 t \/ ecount e1 <= to_index (indexer lay e1) t.
Proof.
  intros L E P Ht; destruct lay.
  - rewrite indexer_row in *. rewrite indexer_row in E. apply row_ix_same_tail with e2; auto.
  - rewrite !indexer_col in E. apply (f_equal (@rev _)) in E. rewrite !rev_involutive in E.
    rewrite col_to_index by (rewrite (in_ext_length _ _ Ht); auto).
    rewrite <- (ecount_rev e1) in *. rewrite (in_ext_rev_iff e1).
    apply row_ix_same_tail with (rev e2); auto. apply in_ext_rev; auto.
Qed.

Lemma aresize_correct {V} lay (a : array V) ext v :
  array_wf a -> length ext = length (a_ext a) ->
  exists a', aresize lay a ext v = Some a' /\ a_ext a' = ext /\ array_wf a' /\
    (forall t, in_ext ext t -> in_ext (a_ext a) t -> aget lay a' t = aget lay a t) /\
    (forall t, in_ext ext t -> ~ in_ext (a_ext a) t -> aget lay a' t = Some v).
Proof.
  intros W L. unfold array_wf in *. unfold aresize.
  pose proof (ecount_nonneg ext) as N. pose proof (ecount_nonneg (a_ext a)) as N'.
  destruct (indexer_eqb (indexer lay ext) (indexer lay (a_ext a))) eqn:E; cbn [negb].
  - apply indexer_eqb_eq in E.
    exists (mkA ext (vresize (a_vals a) (ecount ext) v)); split; auto. split; auto.
    split; [apply vresize_length; auto|]. unfold aget; cbn [a_ext a_vals].
    split; intros t Ht Ht'.
    + rewrite vresize_read by (apply index_bounds; auto).
      rewrite E. pose proof (index_bounds lay (a_ext a) t Ht') as B. rewrite W.
      destruct (Z.ltb_spec (to_index (indexer lay (a_ext a)) t) (ecount (a_ext a))); auto; lia.
    + rewrite vresize_read by (apply index_bounds; auto). rewrite W.
      destruct (Z.ltb_spec (to_index (indexer lay ext) t) (ecount (a_ext a))) as [Hlt|]; auto.
      exfalso. pose proof (index_bounds lay ext t Ht).
      destruct (same_ix_tail lay (a_ext a) ext t) as [H1|H1]; auto; try lia.
      rewrite <- E in H1. lia.
  - assert (FN : firstn (Z.to_nat (ecount (a_ext a))) (a_vals a) = a_vals a).
    { apply firstn_all2; lia. }
    assert (SN : skipn (Z.to_nat (ecount (a_ext a))) (a_vals a) = []).
    { apply skipn_all2; lia. }
    rewrite FN, SN, app_nil_r.
    set (sw := vresize (repeat v (Z.to_nat (ecount (a_ext a)))) (ecount ext) v).
    assert (SL : Z.of_nat (length sw) = ecount ext) by (apply vresize_length; auto).
    assert (SV : forall i, 0 <= i < ecount ext -> vread sw i = Some v).
    { intros i Hi; unfold sw; rewrite vresize_read by auto.
      destruct (Z.ltb_spec i (Z.of_nat (length (repeat v (Z.to_nat (ecount (a_ext a)))))));
        auto. rewrite repeat_length in *. apply repeat_read; lia. }
    destruct (copy_fold lay (indexer lay (a_ext a)) (indexer lay ext) ext (a_vals a)
                (foreach lay (a_ext a)) sw) as (vals & F1 & F2 & F3 & F4).
    + intros t Ht _. apply foreach_In in Ht. apply vread_some. rewrite W. apply index_bounds; auto.
    + intros t Ht Hte. rewrite SL. apply index_bounds; auto.
    + intros t u _ _ Ht Hu Heq. eapply index_inj; eauto.
    + apply foreach_NoDup.
    + rewrite F1. exists (mkA ext vals). split; [reflexivity|]. split; auto.
      cbn [a_vals a_ext]. split; [lia|]. unfold aget; cbn [a_ext a_vals]. split; intros t Ht Ht'.
      * apply F3; auto. apply foreach_In; auto.
      * rewrite F4; [apply SV, index_bounds; auto|].
        intros u Hu Hue Heq. apply foreach_In in Hu.
        assert (u = t) by (eapply index_inj; eauto). subst; contradiction.
Qed.

Lemma take_exact_some {V} n (src : list V) : (n <= length src)%nat ->
  take_exact n src = Some (firstn n src, skipn n src).
Proof.
  revert src; induction n as [|n IH]; intros src H; cbn; auto.
  destruct src as [|x r]; cbn in *; [lia|]. rewrite IH by lia; auto.
Qed.

Lemma take_exact_none {V} n (src : list V) : (length src < n)%nat -> take_exact n src = None.
Proof.
  revert src; induction n as [|n IH]; intros src H; cbn; [lia|].
  destruct src as [|x r]; cbn in *; auto. rewrite IH by lia; auto.
Qed.

(** C45, growing case. *)
Lemma aassign_iter_grow {V} (a : array V) ext src :
  array_wf a -> Z.of_nat (length src) = ecount ext -> ecount (a_ext a) <= ecount ext ->
  aassign_iter a ext src = Some (mkA ext src).
Proof.
  unfold array_wf, aassign_iter; intros W L G.
  rewrite take_exact_some by lia.
  rewrite take_exact_some by (rewrite skipn_length; lia).
  f_equal. f_equal.
  rewrite (firstn_all2 (skipn (length (a_vals a)) src)) by (rewrite skipn_length; lia).
  apply firstn_skipn.
Qed.

(** C45, shrinking case: the overwriting loop reads past the end of the source. *)
Lemma aassign_iter_shrink {V} (a : array V) ext src :
  array_wf a -> Z.of_nat (length src) = ecount ext -> ecount ext < ecount (a_ext a) ->
  aassign_iter a ext src = None.
Proof.
  unfold array_wf, aassign_iter; intros W L G. rewrite take_exact_none by lia; auto.
Qed.

Lemma vassign_bool_grow {V} (old src : list V) : (length old <= length src)%nat ->
  vassign_bool old src = Some src.
Proof.
  intros H; unfold vassign_bool; rewrite take_exact_some by auto. rewrite firstn_skipn; auto.
Qed.

Lemma vassign_bool_shrink {V} (old src : list V) : (length src < length old)%nat ->
  vassign_bool old src = None.
Proof. intros H; unfold vassign_bool; rewrite take_exact_none by auto; auto. Qed.

Lemma aassign_other {V} (a other : array V) ext (v : V) : array_wf other ->
  (aassign_copy a other = other /\ fst (aassign_move a other) = other /\
   (a_ext other <> [] -> array_wf (snd (aassign_move a other)))) /\
  (array_wf (aassign_fill ext v) /\ a_ext (aassign_fill ext v) = ext /\
   forall lay t, in_ext ext t -> aget lay (aassign_fill ext v) t = Some v).
Proof.
  intros W. split.
  - unfold aassign_copy, aassign_move; destruct other as [e l]; cbn [fst snd a_ext a_vals].
    split; auto. split; auto. intros H; destruct e; [congruence|]. unfold array_wf; cbn. auto.
  - unfold aassign_fill, array_wf; cbn [a_ext a_vals]. rewrite repeat_length.
    pose proof (ecount_nonneg ext). split; [lia|]. split; auto.
    intros lay t Ht; unfold aget; cbn [a_ext a_vals]. apply repeat_read.
    pose proof (index_bounds lay ext t Ht). lia.
Qed.

(** Filling part of an array (used by C51). *)
Lemma fill_fold {V} ix (v : V) L vals :
  (forall t, In t L -> 0 <= to_index ix t < Z.of_nat (length vals)) ->
  exists vals', fold_left (fun acc t => match acc with
                             | None => None
                             | Some vals => vwrite vals (to_index ix t) v
                             end) L (Some vals) = Some vals' /\
    length vals' = length vals /\
    (forall i, 0 <= i < Z.of_nat (length vals) ->
      ((exists t, In t L /\ to_index ix t = i) -> vread vals' i = Some v) /\
      ((forall t, In t L -> to_index ix t <> i) -> vread vals' i = vread vals i)).
Proof.
  revert vals; induction L as [|u L IH]; intros vals H; cbn [fold_left].
  { exists vals; split; auto. split; auto. intros i Hi; split; auto. intros (t & [] & _). }
  destruct (vwrite_spec vals (to_index ix u) v) as (v1 & W1 & W2 & W3); [apply H; left; auto|].
  rewrite W1. destruct (IH v1) as (v2 & F1 & F2 & F3).
  { intros t Ht; rewrite W2; apply H; right; auto. }
  exists v2; split; [exact F1|]. split; [congruence|].
  intros i Hi. rewrite W2 in F3. destruct (F3 i Hi) as [G1 G2]. split.
  - intros (t & [<-|Ht] & Hti).
    + assert (D : (exists w, In w L /\ to_index ix w = i) \/ (forall w, In w L -> to_index ix w <> i)).
      { clear -L. induction L as [|w L IHL]; [right; intros ? []|].
        destruct IHL as [(w' & Hw & E)|N]; [left; exists w'; split; [right|]; auto|].
        destruct (Z.eq_dec (to_index ix w) i); [left; exists w; split; [left|]; auto|].
        right; intros x [<-|Hx]; auto. }
      destruct D as [D|D]; [auto|]. rewrite G2 by auto. rewrite W3, Hti, Z.eqb_refl; auto.
    + apply G1; eauto.
  - intros N. rewrite G2 by (intros t Ht; apply N; right; auto).
    rewrite W3. destruct (Z.eqb_spec i (to_index ix u)) as [->|]; auto.
    exfalso; apply (N u); auto; left; auto.
Qed.

Lemma afill_interval_correct {V} lay (a : array V) iv v : array_wf a ->
  (forall t, in_ext iv t -> in_ext (a_ext a) t) ->
  exists a', afill_interval lay a iv v = Some a' /\ a_ext a' = a_ext a /\ array_wf a' /\
    forall t, in_ext (a_ext a) t ->
      aget lay a' t = if econtains iv t then Some v else aget lay a t.
Proof.
  intros W S; unfold afill_interval, array_wf in *.
  destruct (fill_fold (indexer lay (a_ext a)) v (foreach lay iv) (a_vals a)) as (l & F1 & F2 & F3).
  { intros t Ht; rewrite W; apply index_bounds, S. apply foreach_In in Ht; auto. }
  rewrite F1; cbn [option_map]. exists (mkA (a_ext a) l); cbn [a_ext a_vals].
  split; auto. split; auto. split; [lia|]. intros t Ht. unfold aget; cbn [a_ext a_vals].
  destruct (F3 (to_index (indexer lay (a_ext a)) t)) as [G1 G2].
  { rewrite W; apply index_bounds; auto. }
  destruct (econtains iv t) eqn:E.
  - apply econtains_spec in E. apply G1. exists t; split; auto. apply foreach_In; auto.
  - apply G2. intros u Hu Heq. apply foreach_In in Hu.
    assert (u = t) by (apply (index_inj lay (a_ext a)); auto). subst u.
    apply econtains_spec in Hu. congruence.
Qed.

(** Rank-1 editing (C56). *)
Lemma rank1_index (b e i : Z) lay : to_index (indexer lay [(b, e)]) [i] = i - b.
Proof. destruct lay; change (1 * (i - b) + 0 = i - b); lia. Qed.

Lemma aappend_correct {V} lay (a : array V) b e v : array_wf a -> a_ext a = [(b, e)] -> b <= e ->
  let a' := aappend a v in
  a_ext a' = [(b, e + 1)] /\ array_wf a' /\
  (forall i, b <= i < e -> aget lay a' [i] = aget lay a [i]) /\ aget lay a' [e] = Some v.
Proof.
  intros W E H; unfold aappend, array_wf, aget in *; cbn [a_ext a_vals]. rewrite E in *.
  cbn [map fst snd]. split; auto. cbn [ecount] in *. unfold esize in *; cbn [fst snd] in *.
  split; [rewrite app_length; cbn; lia|]. split.
  - intros i Hi. rewrite !rank1_index. unfold vread. destruct (Z.ltb_spec (i - b) 0); [lia|].
    rewrite nth_error_app1; auto; lia.
  - rewrite rank1_index. unfold vread. destruct (Z.ltb_spec (e - b) 0); [lia|].
    rewrite nth_error_app2 by lia. replace (Z.to_nat (e - b) - length (a_vals a))%nat with 0%nat by lia.
    auto.
Qed.

Lemma nth_error_skipn {V} (l : list V) n m : nth_error (skipn n l) m = nth_error l (n + m).
Proof. revert l; induction n; intros [|x l]; cbn; auto. destruct m; auto. Qed.

Lemma ainsert_correct {V} lay (a : array V) b e k v : array_wf a -> a_ext a = [(b, e)] ->
  0 <= k <= e - b ->
  exists a', ainsert a k v = Some a' /\ a_ext a' = [(b, e + 1)] /\ array_wf a' /\
  (forall i, b <= i < b + k -> aget lay a' [i] = aget lay a [i]) /\
  aget lay a' [b + k] = Some v /\
  (forall i, b + k <= i < e -> aget lay a' [i + 1] = aget lay a [i]).
Proof.
  intros W E H; unfold ainsert, array_wf, aget in *. rewrite E in *.
  cbn [ecount] in *. unfold esize in *; cbn [fst snd] in *.
  destruct (Z.ltb_spec k 0); [lia|].
  destruct (Z.ltb_spec (Z.of_nat (length (a_vals a))) k); [lia|]. cbn [orb].
  eexists; split; [reflexivity|]. cbn [a_ext a_vals map fst snd]. split; auto.
  split; [cbn [ecount]; unfold esize; cbn [fst snd]; rewrite app_length; cbn [length]; rewrite firstn_length, skipn_length; lia|].
  split; [|split].
  - intros i Hi. rewrite !rank1_index. unfold vread. destruct (Z.ltb_spec (i - b) 0); [lia|].
    rewrite nth_error_app1 by (rewrite firstn_length; lia).
    rewrite nth_error_firstn. destruct (Nat.ltb_spec (Z.to_nat (i-b)) (Z.to_nat k)); auto; lia.
  - rewrite rank1_index. unfold vread. destruct (Z.ltb_spec (b + k - b) 0); [lia|].
    rewrite nth_error_app2 by (rewrite firstn_length; lia). rewrite firstn_length.
    replace (Z.to_nat (b + k - b) - Nat.min (Z.to_nat k) (length (a_vals a)))%nat with 0%nat by lia.
    auto.
  - intros i Hi. rewrite !rank1_index. unfold vread. destruct (Z.ltb_spec (i + 1 - b) 0); [lia|].
    destruct (Z.ltb_spec (i - b) 0); [lia|].
    rewrite nth_error_app2 by (rewrite firstn_length; lia). rewrite firstn_length.
    replace (Z.to_nat (i + 1 - b) - Nat.min (Z.to_nat k) (length (a_vals a)))%nat
      with (S (Z.to_nat (i - b) - Z.to_nat k))%nat by lia.
    cbn [nth_error]. rewrite nth_error_skipn. f_equal; lia.
Qed.

Lemma aerase_correct {V} lay (a : array V) b e k : array_wf a -> a_ext a = [(b, e)] ->
  0 <= k < e - b ->
  exists a', aerase a k = Some a' /\ a_ext a' = [(b, e - 1)] /\ array_wf a' /\
  (forall i, b <= i < b + k -> aget lay a' [i] = aget lay a [i]) /\
  (forall i, b + k <= i < e - 1 -> aget lay a' [i] = aget lay a [i + 1]).
Proof.
  intros W E H; unfold aerase, array_wf, aget in *. rewrite E in *.
  cbn [ecount] in *. unfold esize in *; cbn [fst snd] in *.
  destruct (Z.ltb_spec k 0); [lia|].
  destruct (Z.leb_spec (Z.of_nat (length (a_vals a))) k); [lia|]. cbn [orb].
  eexists; split; [reflexivity|]. cbn [a_ext a_vals map fst snd]. split; auto.
  split; [cbn [ecount]; unfold esize; cbn [fst snd]; rewrite app_length, firstn_length, skipn_length; lia|].
  split.
  - intros i Hi. rewrite !rank1_index. unfold vread. destruct (Z.ltb_spec (i - b) 0); [lia|].
    rewrite nth_error_app1 by (rewrite firstn_length; lia).
    rewrite nth_error_firstn. destruct (Nat.ltb_spec (Z.to_nat (i-b)) (Z.to_nat k)); auto; lia.
  - intros i Hi. rewrite !rank1_index. unfold vread. destruct (Z.ltb_spec (i - b) 0); [lia|].
    destruct (Z.ltb_spec (i + 1 - b) 0); [lia|].
    rewrite nth_error_app2 by (rewrite firstn_length; lia). rewrite firstn_length.
    rewrite nth_error_skipn. f_equal; lia.
Qed.

Lemma aassign_refuted :
  (exists (a : array Z) ext src, array_wf a /\ Z.of_nat (length src) = ecount ext /\
     aassign_iter a ext src = None) /\
  (exists (a a' : array Z) ext src v, array_wf a /\ aassign_iter a ext src = Some a' /\
     ~ array_wf a' /\ aget RowMajor (aappend a' v) [ecount ext] <> Some v) /\
  (exists (old src : list bool), vassign_bool old src = None).
Proof.
  split; [|split].
  - exists (mkA [(0, 3)] [1; 2; 3]), [(0, 1)], [7]. vm_compute; auto.
  - exists (mkA [(0, 3)] [1; 2; 3]), (mkA [(0, 1)] [7; 8; 9]), [(0, 1)], [7; 8; 9], 5.
    split; [reflexivity|]. split; [reflexivity|]. split; [discriminate|vm_compute; discriminate].
  - exists [true; false], [true]. reflexivity.
Qed.
Lemma aassign_iter_cases : forall V (a : array V) ext src,
  array_wf a -> Z.of_nat (length src) = ecount ext ->
  (ecount (a_ext a) <= ecount ext -> aassign_iter a ext src = Some (mkA ext src)) /\
  (ecount ext < ecount (a_ext a) -> aassign_iter a ext src = None).
Proof.
  intros V a ext src W L; split; intros H;
    [exact (aassign_iter_grow a ext src W L H)|exact (aassign_iter_shrink a ext src W L H)].
Qed.
