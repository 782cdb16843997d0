(** Interpolation with threads on one of the ranks. *)
From Coq Require Import List ZArith Bool Lia Arith.
From Verif Require Import TupleModel RangeModel Base RangeProof CartModel CartProof IndexerModel IndexerProof ArrayModel ArrayProof HashModel HashProof SendModel SendProof.
From Verif Require Import HaloProof NeighSpec NeighProof CollectModel CollectSpec CollectProof CollectLaws ThrModel ThrSpec ThrGen ThrProof.
Import ListNotations.
Local Open Scope Z_scope.

Theorem threads_interp V D (mul : D -> D -> D) (acc : V -> D -> V -> V) zero coefs lay c cnt n L FR N cells fields m M (w : Z -> tup Z -> D) r bufs alloc T work m0 :
  distributed c n L N cells ->
  (forall r cell, (r < n)%nat -> In cell (cells r) -> lay = ColMajor \/ whole c (L r) cell) ->
  (forall r, (r < n)%nat -> has_values lay cnt (L r) (FR r) (fields r) m /\ collect_map c (L r) (map (fun q => (q, L q)) (N r)) (cells r) = Some (M r)) ->
  (r < n)%nat -> received lay cnt FR fields M r bufs ->
  (forall i cell p, vread (cells r) i = Some cell -> pt_in cell p -> exists a b d,
     coefs 0%nat (c0 p - c0 (rb cell)) i = Some a /\ coefs 1%nat (c1 p - c1 (rb cell)) i = Some b /\
     coefs 2%nat (c2 p - c2 (rb cell)) i = Some d /\ w i p = mul (mul a b) d) ->
  Z.of_nat T <= alloc -> shared_out T (items (M r)) work -> typed m0 ->
  let ok := valid cnt (M r) alloc (Z.of_nat (length (cells r))) in
  exists bound, forall ts o,
    truns ok T (start m0 (fun t => prog_thread lay c cnt (L r) (FR r) (fields r) (M r) bufs mul acc zero coefs (Z.of_nat t) (work t))) ts = Some o ->
    exists s, o = Some s /\ (length ts <= bound)%nat /\ ~ race T s /\ (finished T s \/ exists t, tstep ok T s t <> None) /\
    (finished T s -> forall k i cell, 0 <= k < cnt -> vread (cells r) i = Some cell ->
       t_mem s (LOut k i) = WV (fold_left (fun a p => acc a (w i p) (m k (home c cell p))) (in_order lay cell) zero)).
Proof.
  intros (HD & HN & HL & HR) HW H Hr Hb HC HT Hs Hm ok.
  assert (Hw : forall i cell p, vread (cells r) i = Some cell -> pt_in cell p -> vertex_coef mul coefs i cell p = Some (w i p)).
  { intros i cell p Ei Hp. destruct (HC i cell p Ei Hp) as (a & b & d & E1 & E2 & E3 & ->). unfold vertex_coef. rewrite E1, E2, E3. reflexivity. }
  assert (Cok : cart_ok c) by apply HD. assert (Cnd : (1 <= c_nd c)%nat) by apply HD.
  assert (G : forall q, (q < n)%nat -> map_good c L (L q) (N q) (cells q) (M q)).
  { intros q Hq. destruct (g_map c n L N cells HD HN HL HR q Hq) as (cm & E & Gq). rewrite (proj2 (H q Hq)) in E. injection E as ->. exact Gq. }
  pose proof (G r Hr) as Gr. pose proof (mg_cells _ _ _ _ _ _ Gr) as Ec. pose proof (mg_max _ _ _ _ _ _ Gr) as Em. pose proof (mg_remote _ _ _ _ _ _ Gr) as F.
  destruct (H r Hr) as [Hf _]. assert (Hc : 0 <= cnt) by (destruct Hf as [E _]; lia).
  assert (Hmaxc : forall cell, In cell (cm_cells (M r)) -> rcount cell <= cm_max (M r)).
  { intros cell Ic. rewrite Ec in Ic. rewrite Em. apply max_vertices_ok; [exact Ic|]. destruct HL as (_ & H2 & _). destruct (H2 r cell Hr Ic) as (p & Hp & _). eauto. }
  assert (Hmaxv : 0 <= cm_max (M r)).
  { rewrite Em. unfold max_vertices. assert (X : forall l a, 0 <= a -> 0 <= fold_left (fun m cell => Z.max m (extent_product cell)) l a) by (induction l as [|y l IH]; cbn; intros a Ha; [exact Ha|apply IH; lia]). apply X. lia. }
  assert (Hlen : length (cm_remote (M r)) = length (cm_cells (M r))) by (rewrite Ec; apply Forall2_len in F; lia).
  assert (It : forall i cell rem, In (i, (cell, rem)) (items (M r)) -> vread (cells r) i = Some cell /\ rem_ok c (L r) (cm_recvs (M r)) cell rem).
  { intros i cell rem I. split.
    - assert (I3 : In (i, cell) (combine (zseq 0 (length (cm_cells (M r)))) (cm_cells (M r)))).
      { unfold items in I. revert I. generalize (cm_remote (M r)). generalize (zseq 0 (length (cm_cells (M r)))). generalize (cm_cells (M r)). clear.
        intros l1 l2 l3. revert l2 l3. induction l1 as [|a l1 IH]; intros [|b l2] [|d l3]; cbn; try tauto.
        intros [E|I]; [injection E as <- <- <-; auto|right; eapply IH; eauto]. }
      apply combine_zseq in I3 as [I3 _]. rewrite Z.sub_0_r, Ec in I3. exact I3.
    - unfold items in I. apply in_combine_r in I. rewrite Ec in I. apply (Forall2_combine _ _ _ F _ _ I). }
  assert (Hbuf : forall ir v, vread (cm_recvs (M r)) ir = Some v -> exists b, vread bufs ir = Some b /\
    forall cell u j k, In cell (cm_cells (M r)) -> In u (vs c cell) -> pt_in (v_local v) u -> vread (v_idx v) (rindex ColMajor (v_range v) u) = Some j -> 0 <= k < cnt ->
      buf_read cnt (v_num v) b k j = Some (m k u)).
  { intros ir v Ev. destruct (Hb ir v Ev) as (ps & b & Ips & Eb & Er). exists b. split; [exact Er|]. intros cell u j k Ic Iu Hu Ej Hk.
    pose proof (vread_In _ _ _ Ev) as Iv. destruct (mg_recv _ _ _ _ _ _ Gr v Iv) as (_ & En & El & Hgood).
    assert (Iq : In (v_rank v) (N r)) by (apply (in_map v_rank) in Iv; rewrite (mg_recvs _ _ _ _ _ _ Gr) in Iv; apply filter_In in Iv; tauto).
    destruct (proj2 (HN r Hr) _ Iq) as [Bq _]. rewrite (mg_sends _ _ _ _ _ _ (G _ Bq)) in Ips. apply in_map_iff in Ips. destruct Ips as (q' & Eq' & _). injection Eq' as -> <-.
    change (pts_of c (mkS c (L (v_rank v)) (L r)) (cells (v_rank v))) with (out_to c L cells (v_rank v) r) in Eb.
    assert (Eb' := Eb). rewrite (send_buffer_ok c Cnd lay cnt m (L (v_rank v)) (FR (v_rank v)) (fields (v_rank v))) in Eb'; [|apply H, Bq|].
    2: { intros p Hp. apply pts_of_In in Hp as (_ & cell' & _ & Hp). apply mkS_In in Hp. tauto. }
    injection Eb' as <-. rewrite Ec in Ic. rewrite El in Hu. destruct (Hgood cell u Ic Iu Hu) as (j' & Ej' & Enth). rewrite Ej in Ej'. injection Ej' as ->.
    rewrite (paired c n L cells HL (v_rank v) r Bq Hr). rewrite En. apply (packed_read c Cnd); [exact Hk|exact Enth]. }
  set (junk := w 0 (T3 0 0 0)). set (red := red_interp mul acc zero junk coefs lay).
  assert (Hred : forall i cell vals, vread (cells r) i = Some cell -> Z.of_nat (length vals) = rcount cell -> red i cell vals <> None).
  { intros i cell vals Ei Lv. unfold red. rewrite (interp_ok mul acc zero junk coefs lay i cell (w i)); [discriminate|intros; eapply Hw; eauto|exact Lv]. }
  assert (Hitem : forall i cell rem, In (i, (cell, rem)) (items (M r)) -> In cell (cm_cells (M r)) /\ rcount cell <= cm_max (M r) /\ rem_ok c (L r) (cm_recvs (M r)) cell rem /\
     (lay = ColMajor \/ whole c (L r) cell) /\ (forall vals, Z.of_nat (length vals) = rcount cell -> red i cell vals <> None)).
  { intros i cell rem I. destruct (It i cell rem I) as [Ei Hrem]. pose proof (vread_In _ _ _ Ei) as Ic. assert (Ic' : In cell (cm_cells (M r))) by now rewrite Ec.
    split; [exact Ic'|]. split; [apply Hmaxc, Ic'|]. split; [exact Hrem|]. split; [apply (HW r); auto|]. intros vals. apply Hred, Ei. }
  set (vv := repeat zero (Z.to_nat (cnt * cm_max (M r)))). assert (Lvv : Z.of_nat (length vv) = cnt * cm_max (M r)) by (unfold vv; rewrite repeat_length, Z2Nat.id; nia).
  destruct (loop_ok c Cok Cnd lay cnt m red (L r) (FR r) (fields r) (M r) bufs Hf Hbuf (items (M r)) Hitem vv [] Lvv) as (vv' & rows & E & _ & ER). cbn [app] in E.
  destruct (threads_same lay c cnt (L r) (FR r) (fields r) (M r) bufs mul acc zero junk coefs alloc Hc Hmaxv Hlen Hmaxc) with (n := T) (work := work) (vv := vv) (vv' := vv') (rows := rows) (m0 := m0) as (bound & B); auto.
  - intros [i [cell rem]] p I Ip. destruct (It i cell rem I) as [Ei _]. cbn [fst snd] in *. rewrite (Hw i cell p Ei); [discriminate|]. now apply foreach_col_In.
  - intros [i [cell rem]] I. destruct (Hitem i cell rem I) as (Ic & Hm1 & Hr1 & Hl1 & Hd1).
    assert (Hb1 : forall ir v, vread (cm_recvs (M r)) ir = Some v -> exists b, vread bufs ir = Some b /\
      forall u j k, In u (vs c cell) -> pt_in (v_local v) u -> vread (v_idx v) (rindex ColMajor (v_range v) u) = Some j -> 0 <= k < cnt -> buf_read cnt (v_num v) b k j = Some (m k u)).
    { intros ir v Ev. destruct (Hbuf ir v Ev) as (b & Eb & Hb'). exists b. split; [exact Eb|]. intros u j k. apply Hb', Ic. }
    destruct (collect_cell_ok c Cok Cnd lay cnt m red (L r) (FR r) (fields r) (M r) bufs Hf vv [] i cell rem Lvv Hm1 Hr1 Hb1 Hl1 Hd1) as (_ & row & _ & _ & Er).
    exists row. intros v1 o L1. destruct (collect_cell_ok c Cok Cnd lay cnt m red (L r) (FR r) (fields r) (M r) bufs Hf v1 o i cell rem L1 Hm1 Hr1 Hb1 Hl1 Hd1) as (v2 & row2 & E2 & L2 & Er2).
    rewrite Er in Er2. injection Er2 as <-. eauto.
  - exists bound. intros ts o R. unfold ok in *. rewrite <- Ec in R |- *. destruct (B ts o R) as (s & Eo & Lb & Nr & Pr & Fi). exists s. split; [exact Eo|]. split; [exact Lb|]. split; [exact Nr|]. split; [exact Pr|].
    intros Fin k i cell Hk Ei. pose proof (vread_lt _ _ _ Ei) as Bi. destruct (Fi Fin k i Hk Bi) as (row & v & Erow & Ev & Es). rewrite Es. f_equal.
    destruct (nth_error (cm_remote (M r)) (Z.to_nat i)) as [rem|] eqn:Rm; [|apply nth_error_None in Rm; lia].
    assert (X : nth_error (items (M r)) (Z.to_nat i) = Some (i, (cell, rem))).
    { unfold items. apply nth_error_combine; split; [rewrite zseq_nth by lia; f_equal; lia|]. apply nth_error_combine; split; [|exact Rm]. rewrite <- vread_nth, Z2Nat.id by lia. exact Ei. }
    destruct (omap_nth _ _ _ _ _ ER X) as (row' & Erow' & Erw). cbn [fst snd] in Erw.
    assert (row' = row). { rewrite <- vread_nth, Z2Nat.id in Erow' by lia. congruence. } subst row'.
    unfold row_of in Erw. assert (Xk : nth_error (zseq 0 (Z.to_nat cnt)) (Z.to_nat k) = Some k) by (rewrite zseq_nth by lia; f_equal; lia).
    destruct (omap_nth _ _ _ _ _ Erw Xk) as (y & Ey & Ek). assert (y = v). { rewrite <- vread_nth, Z2Nat.id in Ey by lia. congruence. } subst y.
    rewrite Ec in Ei. unfold red in Ek. rewrite (interp_ok mul acc zero junk coefs lay i cell (w i)) in Ek; [|intros; eapply Hw; eauto|rewrite map_length; apply in_order_length].
    rewrite interp_fold in Ek. injection Ek as <-. reflexivity.
Qed.
