(** Collecting on all ranks, and what the reductions are. *)
From Coq Require Import List ZArith Bool Lia.
From Verif Require Import TupleModel RangeModel Base RangeProof CartModel CartProof IndexerModel ArrayModel ArrayProof HashModel HashProof HaloProof NetModel NetSpec NetProof NetTools.
From Verif Require Import NeighSpec NeighProof SendModel SendProof FieldSpec FieldProof CollectModel CollectSpec CollectProof.
Import ListNotations.
Local Open Scope Z_scope.

Section Global.
Context {V : Type}.
Variables (lay : layout) (c : cart) (cnt : Z) (n : nat) (L FR : nat -> range) (N : nat -> list nat) (cells : nat -> list range).
Variables (red : nat -> Z -> range -> list V -> option V) (fields : nat -> list (list V)) (vv : nat -> list V) (m : Z -> tup Z -> V).
Hypothesis HD : decomposed c n L.
Hypothesis HN : forall r, (r < n)%nat -> NoDup (N r) /\ forall q, In q (N r) -> (q < n)%nat /\ q <> r.
Hypothesis HL : listed c n L cells.
Hypothesis HR : in_reach c n L N cells.
Hypothesis HF : forall r, (r < n)%nat -> has_values lay cnt (L r) (FR r) (fields r) m.
Hypothesis HV : forall r, (r < n)%nat -> Z.of_nat (length (vv r)) = cnt * max_vertices (cells r).
Hypothesis HW : forall r cell, (r < n)%nat -> In cell (cells r) -> lay = ColMajor \/ whole c (L r) cell.
Hypothesis HE : forall r, (r < n)%nat -> reduces (red r) (cells r).

Notation nbs r := (map (fun q => (q, L q)) (N r)).
Notation vs := (vs c).

Lemma g_ok : cart_ok c. Proof. apply HD. Qed.
Lemma g_nd : (1 <= c_nd c)%nat. Proof. apply HD. Qed.
Lemma g_sub r : (r < n)%nat -> pt_subset (L r) (c_range c). Proof. intros H. eapply L_sub; eauto. Qed.
Lemma g_uni r s u : (r < n)%nat -> (s < n)%nat -> pt_in (L r) u -> pt_in (L s) u -> r = s.
Proof. intros. eapply L_unique; eauto. Qed.

Lemma touches_vs q cell : touches c (L q) cell <-> exists u, In u (vs cell) /\ pt_in (L q) u.
Proof.
  split.
  - intros (p & Hp & H). exists (home c cell p). split; [apply vs_In; eauto|exact H].
  - intros (u & Hu & H). apply vs_In in Hu as (p & Hp & <-). exists p. auto.
Qed.

Lemma same_vs a b : same_vertices c a b -> forall u, In u (vs a) <-> In u (vs b).
Proof. intros H u. rewrite !vs_In. apply H. Qed.

Definition out_to (r q : nat) : list (tup Z) := pts_of c (mkS c (L r) (L q)) (cells r).
Definition in_from (r q : nat) : list (tup Z) := pts_of c (mkV c (L q)) (cells r).

Lemma paired r q : (r < n)%nat -> (q < n)%nat -> out_to r q = in_from q r.
Proof.
  intros Hr Hq. destruct HL as (_ & H2 & H3). unfold out_to, in_from, pts_of. apply filter_ext_in'. intros p _.
  apply eq_true_iff_eq. rewrite !marked_iff. split.
  - intros (cell & Ic & Ip). apply mkS_In in Ip as (Ip & Hp & T). apply touches_vs in T. destruct (H3 r q cell Hr Hq Ic T) as (cell' & Ic' & E).
    exists cell'. split; [exact Ic'|]. apply mkV_In. split; [apply (same_vs _ _ E), Ip|exact Hp].
  - intros (cell & Ic & Ip). apply mkV_In in Ip as (Ip & Hp).
    destruct (H3 q r cell Hq Hr Ic) as (cell' & Ic' & E); [apply touches_vs; eauto|].
    exists cell'. split; [exact Ic'|]. apply mkS_In. split; [apply (same_vs _ _ E), Ip|]. split; [exact Hp|].
    destruct (proj1 (touches_vs q cell) (H2 q cell Hq Ic)) as (u & Iu & Hu). exists u. split; [apply (same_vs _ _ E), Iu|exact Hu].
Qed.

Lemma g_map r : (r < n)%nat -> exists cm, collect_map c (L r) (nbs r) (cells r) = Some cm /\ map_good c L (L r) (N r) (cells r) cm.
Proof.
  intros Hr. destruct HL as (H1 & H2 & _). apply map_ok.
  - exact g_ok.
  - exact g_nd.
  - apply g_sub, Hr.
  - intros q Iq. apply g_sub. apply (HN r Hr), Iq.
  - intros q u Iq Hu Hl. apply (HN r Hr) in Iq as [Bq Nq]. apply Nq. eapply g_uni; eauto.
  - intros cell I. destruct (H2 r cell Hr I) as (p & Hp & _). eauto.
  - intros cell u I Iu Nu. apply vs_In in Iu as (p & Hp & <-). pose proof (H1 r cell p Hr I Hp) as Hg.
    destruct (L_owner c n L HD _ Hg) as (q & Hq & Ho). exists q. split; [|exact Ho]. destruct (HR r q cell p Hr Hq I Hp Ho) as [->|X]; [contradiction|exact X].
Qed.

Definition gcm (r : nat) : cmap := match collect_map c (L r) (nbs r) (cells r) with Some cm => cm | None => CM [] 0 [] [] [] end.
Lemma gcm_ok r : (r < n)%nat -> collect_map c (L r) (nbs r) (cells r) = Some (gcm r) /\ map_good c L (L r) (N r) (cells r) (gcm r).
Proof. intros Hr. destruct (g_map r Hr) as (cm & E & H). unfold gcm. rewrite E. auto. Qed.

Definition S0 (r : nat) : cst V := CS0 (fields r) (vv r).
Definition S1 (r : nat) : cst V := CS (fields r) (vv r) [] (gcm r) [].
Definition dst (r : nat) : list nat := filter (fun q => some_pts (out_to r q)) (N r).
Definition src (r : nat) : list nat := filter (fun q => some_pts (in_from r q)) (N r).
Definition S2 (r : nat) : cst V := CS (fields r) (vv r) [] (gcm r) (map (fun q => packed cnt m (out_to r q)) (dst r)).
Definition msg (r q : nat) : list V := packed cnt m (out_to r q).
Definition S3 (r : nat) : cst V := match col_done lay c cnt (red r) (L r) (FR r) (S2 r) (map (fun s => msg s r) (src r)) with Some s => s | None => S2 r end.

Lemma Forall2_combine {A B} (P : A -> B -> Prop) l1 l2 : Forall2 P l1 l2 -> forall x y, In (x, y) (combine l1 l2) -> P x y.
Proof. induction 1; intros x' y'; cbn; [tauto|]. intros [E|I]; [injection E as <- <-; exact H|apply IHForall2, I]. Qed.
Lemma Forall2_len {A B} (P : A -> B -> Prop) l1 l2 : Forall2 P l1 l2 -> length l1 = length l2.
Proof. induction 1; cbn; congruence. Qed.

Lemma map_rank_read (recvs : list crecv) qs : map v_rank recvs = qs -> forall i v, vread recvs i = Some v -> vread qs i = Some (v_rank v).
Proof. intros <- i v E. rewrite vread_fmap, E. reflexivity. Qed.

Lemma msg_of r q v : (r < n)%nat -> In v (cm_recvs (gcm r)) -> v_rank v = q ->
  (q < n)%nat /\ In q (N r) /\ v_num v = Z.of_nat (length (out_to q r)) /\ v_local v = L q.
Proof.
  intros Hr Iv Eq. destruct (gcm_ok r Hr) as (_ & M). destruct (mg_recv _ _ _ _ _ _ M v Iv) as (_ & En & El & _).
  assert (Iq : In (v_rank v) (N r)) by (apply (in_map v_rank) in Iv; rewrite (mg_recvs _ _ _ _ _ _ M) in Iv; apply filter_In in Iv; tauto).
  subst q. pose proof (proj2 (HN r Hr) _ Iq) as [Bq _]. split; [exact Bq|]. split; [exact Iq|]. split; [|exact El]. rewrite En, paired by auto. reflexivity.
Qed.

Lemma done_ok r : (r < n)%nat -> col_done lay c cnt (red r) (L r) (FR r) (S2 r) (map (fun s => msg s r) (src r)) = Some (S3 r) /\
  reduced lay c cnt m (red r) (cells r) (k_out (S3 r)).
Proof.
  intros Hr. destruct (gcm_ok r Hr) as (_ & M). pose proof (HF r Hr) as Hf. assert (Hc : 0 <= cnt) by (destruct Hf as [E _]; lia).
  assert (EB : forall ir v, vread (cm_recvs (gcm r)) ir = Some v -> vread (map (fun s => msg s r) (src r)) ir = Some (msg (v_rank v) r)).
  { intros ir v Ev. rewrite vread_fmap. unfold src, in_from. rewrite (map_rank_read _ _ (mg_recvs _ _ _ _ _ _ M) ir v Ev). reflexivity. }
  assert (LB : length (map (fun s => msg s r) (src r)) = length (cm_recvs (gcm r))).
  { rewrite map_length. unfold src, in_from. rewrite <- (mg_recvs _ _ _ _ _ _ M). apply map_length. }
  destruct (loop_ok c g_ok g_nd lay cnt m (red r) (L r) (FR r) (fields r) (gcm r) (map (fun s => msg s r) (src r)) Hf)
    with (xs := combine (zseq 0 (length (cm_cells (gcm r)))) (combine (cm_cells (gcm r)) (cm_remote (gcm r)))) (vv := vv r) (out := @nil (list V)) as (v' & rows & E & _ & ER).
  - intros ir v Ev. exists (msg (v_rank v) r). split; [apply EB, Ev|]. intros cell u j k Ic Iu Hu Ej Hk.
    rewrite (mg_cells _ _ _ _ _ _ M) in Ic. pose proof (vread_In _ _ _ Ev) as Iv. destruct (msg_of r _ v Hr Iv eq_refl) as (Bq & Iq & En & El).
    destruct (mg_recv _ _ _ _ _ _ M v Iv) as (_ & _ & _ & Hgood). rewrite El in Hu. destruct (Hgood cell u Ic Iu Hu) as (j' & Ej' & Enth).
    rewrite Ej in Ej'. injection Ej' as ->. rewrite En. apply (packed_read c g_nd); [exact Hk|]. rewrite paired by auto. exact Enth.
  - intros i cell rem I. pose proof (in_combine_r _ _ _ _ I) as I2. pose proof (mg_cells _ _ _ _ _ _ M) as Ec.
    assert (Ei : vread (cells r) i = Some cell).
    { assert (I3 : In (i, cell) (combine (zseq 0 (length (cm_cells (gcm r)))) (cm_cells (gcm r)))).
      { revert I. generalize (cm_remote (gcm r)). generalize (zseq 0 (length (cm_cells (gcm r)))). generalize (cm_cells (gcm r)). clear.
        intros l1 l2 l3. revert l2 l3. induction l1 as [|a l1 IH]; intros [|b l2] [|d l3]; cbn; try tauto.
        intros [E|I]; [injection E as <- <- <-; auto|right; eapply IH; eauto]. }
      apply combine_zseq in I3 as [I3 _]. rewrite Z.sub_0_r, Ec in I3. exact I3. }
    pose proof (vread_In _ _ _ Ei) as Ic. rewrite Ec. split; [exact Ic|]. split.
    { rewrite (mg_max _ _ _ _ _ _ M). apply max_vertices_ok; [exact Ic|]. destruct HL as (_ & H2 & _). destruct (H2 r cell Hr Ic) as (p & Hp & _). eauto. }
    split. { pose proof (mg_remote _ _ _ _ _ _ M) as F. rewrite Ec in I2. apply (Forall2_combine _ _ _ F _ _ I2). }
    split; [apply HW; auto|]. intros vals Lv. apply (HE r Hr i cell vals Ei Lv).
  - rewrite (mg_max _ _ _ _ _ _ M). apply HV, Hr.
  - assert (ED : col_done lay c cnt (red r) (L r) (FR r) (S2 r) (map (fun s => msg s r) (src r)) =
      Some (CS (fields r) v' rows (gcm r) (map (fun q => packed cnt m (out_to r q)) (dst r)))).
    { unfold col_done, S2. cbn [k_map k_field k_vv k_out k_bufs]. rewrite E.
      replace (forallb _ _) with true; [reflexivity|]. symmetry. apply forallb_forall. intros [v b] I. cbn [fst snd].
      apply In_nth_error in I as (i & I). apply nth_error_combine in I as [Iv Ib].
      rewrite <- vread_nth in Iv. rewrite <- vread_nth in Ib. rewrite (EB _ _ Iv) in Ib. injection Ib as <-.
      destruct (msg_of r _ v Hr (vread_In _ _ _ Iv) eq_refl) as (_ & _ & En & _). rewrite En. apply Z.eqb_eq. apply (packed_length c g_nd), Hc. }
    unfold S3. rewrite ED. split; [reflexivity|]. cbn [k_out]. pose proof (mg_cells _ _ _ _ _ _ M) as Ec. pose proof (mg_remote _ _ _ _ _ _ M) as F.
    apply Forall2_len in F. rewrite Ec in ER. split.
    + rewrite (omap_length _ _ _ ER), !combine_length, zseq_length. lia.
    + intros i cell row Ei Er. pose proof (vread_lt _ _ _ Ei) as Bi.
      destruct (nth_error (cm_remote (gcm r)) (Z.to_nat i)) as [rem|] eqn:Rm; [|apply nth_error_None in Rm; lia].
      assert (X : nth_error (combine (zseq 0 (length (cells r))) (combine (cells r) (cm_remote (gcm r)))) (Z.to_nat i) = Some (i, (cell, rem))).
      { apply nth_error_combine; split; [rewrite zseq_nth by lia; f_equal; lia|]. apply nth_error_combine; split; [|exact Rm]. rewrite <- vread_nth, Z2Nat.id by lia. exact Ei. }
      rewrite <- (Z2Nat.id i) in Er by lia. rewrite vread_nth in Er.
      destruct (omap_nth _ _ _ _ _ ER X) as (row' & Er' & Eo). rewrite Er in Er'. injection Er' as <-. cbn [fst snd] in Eo. unfold row_of in Eo.
      split; [rewrite (omap_length _ _ _ Eo), zseq_length; lia|]. intros k Hk.
      assert (Xk : nth_error (zseq 0 (Z.to_nat cnt)) (Z.to_nat k) = Some k) by (rewrite zseq_nth by lia; f_equal; lia).
      destruct (omap_nth _ _ _ _ _ Eo Xk) as (w & Ew & Ek). rewrite Ek, <- (Z2Nat.id k) by lia. rewrite vread_nth. exact Ew.
Qed.

Lemma collect_ok : prog_ok n (collect lay c cnt L FR (fun r => nbs r) cells red) S0 S3.
Proof.
  cbn [prog_ok collect]. exists S1. split.
  { intros r Hr. unfold col_map. rewrite (proj1 (gcm_ok r Hr)). reflexivity. }
  exists S2. split.
  { intros r Hr. unfold col_pack. destruct (gcm_ok r Hr) as (_ & M). unfold S1, S2. cbn [k_map k_field k_vv k_out k_bufs]. rewrite (mg_sends _ _ _ _ _ _ M), omap_of_map.
    pose proof (HF r Hr) as Hf. assert (Hc : 0 <= cnt) by (destruct Hf as [E _]; lia).
    rewrite (omap_map _ (fun q => packed cnt m (out_to r q))); [reflexivity|]. intros q Iq. cbn [snd].
    eapply (send_buffer_ok c g_nd); [exact Hf|]. intros p Hp. apply pts_of_In in Hp as (_ & cell & _ & Hp). apply mkS_In in Hp. tauto. }
  exists S3. split; [|cbn [prog_ok]; reflexivity].
  apply single_phase with (g := msg) (src := src) (dst := dst).
  - intros r Hr. apply NoDup_filter, (HN r Hr).
  - intros r Hr. apply NoDup_filter, (HN r Hr).
  - intros r s Hr I. apply filter_In in I as [I _]. apply (HN r Hr), I.
  - intros r s Hr I. apply filter_In in I as [I _]. apply (HN r Hr), I.
  - assert (NE : forall r s, (r < n)%nat -> (s < n)%nat -> r <> s -> some_pts (out_to r s) = true -> In s (N r) /\ In r (N s)).
    { intros r s Hr Hs Nrs P. assert (X : exists p, In p (out_to r s)) by (destruct (out_to r s) as [|p l]; [discriminate|exists p; left; reflexivity]).
      destruct X as (p & Hp). split.
      - apply pts_of_In in Hp as (_ & cell & Ic & Hp). apply mkS_In in Hp as (_ & _ & u & Iu & Hu). apply vs_In in Iu as (q & Hq & <-).
        destruct (HR r s cell q Hr Hs Ic Hq Hu) as [E|I]; [congruence|exact I].
      - rewrite paired in Hp by auto. apply pts_of_In in Hp as (_ & cell & Ic & Hp). apply mkV_In in Hp as (Iu & Hu). apply vs_In in Iu as (q & Hq & <-).
        destruct (HR s r cell q Hs Hr Ic Hq Hu) as [E|I]; [congruence|exact I]. }
    intros r s Hr Hs. unfold src, dst. rewrite !filter_In, <- paired by auto. split.
    + intros [I P]. split; [|exact P]. apply (NE s r); auto. apply (HN r Hr), I.
    + intros [I P]. split; [|exact P]. apply (NE s r); auto. intros ->. destruct (proj2 (HN r Hs) r I). congruence.
  - intros r Hr. unfold col_recvs, S2. cbn [k_map]. destruct (gcm_ok r Hr) as (_ & M). apply (mg_recvs _ _ _ _ _ _ M).
  - intros r Hr. unfold col_sends, S2. cbn [k_map k_bufs]. destruct (gcm_ok r Hr) as (_ & M). rewrite (mg_sends _ _ _ _ _ _ M), map_map. cbn [fst].
    rewrite map_id. unfold dst, out_to, msg. apply combine_map_self.
  - intros r Hr. apply done_ok, Hr.
Qed.

Theorem collect_reduces : exists S', prog_ok n (collect lay c cnt L FR (fun r => nbs r) cells red) S0 S' /\
  forall r, (r < n)%nat -> k_field (S' r) = fields r /\ reduced lay c cnt m (red r) (cells r) (k_out (S' r)).
Proof.
  exists S3. split; [apply collect_ok|]. intros r Hr. destruct (done_ok r Hr) as [E R]. split; [|exact R].
  unfold col_done in E. destruct (forallb _ _) in E; [|discriminate]. destruct (ofoldl _ _ _) in E; [|discriminate]. injection E as <-. reflexivity.
Qed.
End Global.

Theorem collect_prog V lay c cnt n L FR N cells red (fields : nat -> list (list V)) vv m :
  distributed c n L N cells ->
  (forall r cell, (r < n)%nat -> In cell (cells r) -> lay = ColMajor \/ whole c (L r) cell) ->
  (forall r, (r < n)%nat -> has_values lay cnt (L r) (FR r) (fields r) m /\ Z.of_nat (length (vv r)) = cnt * max_vertices (cells r) /\ reduces (red r) (cells r)) ->
  exists S', prog_ok n (collect lay c cnt L FR (fun r => map (fun q => (q, L q)) (N r)) cells red) (fun r => CS0 (fields r) (vv r)) S' /\
  forall r, (r < n)%nat -> k_field (S' r) = fields r /\ reduced lay c cnt m (red r) (cells r) (k_out (S' r)).
Proof.
  intros (D & HN & HL & HR) HW H. apply (collect_reduces lay c cnt n L FR N cells red fields vv m D HN HL HR).
  - intros r Hr. apply (H r Hr).
  - intros r Hr. apply (H r Hr).
  - exact HW.
  - intros r Hr. apply (H r Hr).
Qed.

Theorem collect_distributed V lay c cnt n L FR N cells red (fields : nat -> list (list V)) vv m :
  distributed c n L N cells ->
  (forall r cell, (r < n)%nat -> In cell (cells r) -> lay = ColMajor \/ whole c (L r) cell) ->
  (forall r, (r < n)%nat -> has_values lay cnt (L r) (FR r) (fields r) m /\ Z.of_nat (length (vv r)) = cnt * max_vertices (cells r) /\ reduces (red r) (cells r)) ->
  exists S', computes n (collect lay c cnt L FR (fun r => map (fun q => (q, L q)) (N r)) cells red) (fun r => CS0 (fields r) (vv r)) S' /\
  forall r, (r < n)%nat -> k_field (S' r) = fields r /\ reduced lay c cnt m (red r) (cells r) (k_out (S' r)).
Proof.
  intros D HW H. destruct (collect_prog V lay c cnt n L FR N cells red fields vv m D HW H) as (S' & A & B). exists S'. split; [apply prog_computes, A|exact B].
Qed.

(** With a property of the reduction of the values at the vertices. *)
Lemma reduced_results {V} lay c cnt (m : Z -> tup Z -> V) red cells out (P : Z -> Z -> range -> V -> Prop) :
  reduced lay c cnt m red cells out ->
  (forall i cell k, vread cells i = Some cell -> 0 <= k < cnt ->
     exists x, red i cell (map (fun p => m k (home c cell p)) (in_order lay cell)) = Some x /\ P i k cell x) ->
  results cnt cells out P.
Proof.
  intros [LO H] HP. split; [exact LO|]. intros i cell Ei. pose proof (vread_lt _ _ _ Ei). destruct (vread_ge out i ltac:(lia)) as (row & Er).
  destruct (H i cell row Ei Er) as [Lr Hk]. exists row. split; [exact Er|]. split; [exact Lr|]. intros k Hk'.
  destruct (HP i cell k Ei Hk') as (x & Ex & Px). exists x. rewrite (Hk k Hk'). auto.
Qed.

Theorem collect_results V lay c cnt n L FR N cells red (fields : nat -> list (list V)) vv m P :
  distributed c n L N cells ->
  (forall r cell, (r < n)%nat -> In cell (cells r) -> lay = ColMajor \/ whole c (L r) cell) ->
  (forall r, (r < n)%nat -> has_values lay cnt (L r) (FR r) (fields r) m /\ Z.of_nat (length (vv r)) = cnt * max_vertices (cells r)) ->
  (forall r, (r < n)%nat -> reduces (red r) (cells r)) ->
  (forall r i cell k, (r < n)%nat -> vread (cells r) i = Some cell -> 0 <= k < cnt -> (exists p, pt_in cell p) ->
     exists x, red r i cell (map (fun p => m k (home c cell p)) (in_order lay cell)) = Some x /\ P r i k cell x) ->
  exists S', computes n (collect lay c cnt L FR (fun r => map (fun q => (q, L q)) (N r)) cells red) (fun r => CS0 (fields r) (vv r)) S' /\
  forall r, (r < n)%nat -> k_field (S' r) = fields r /\ results cnt (cells r) (k_out (S' r)) (P r).
Proof.
  intros D HW H HE HP. destruct (collect_distributed V lay c cnt n L FR N cells red fields vv m D HW) as (S' & C & R).
  { intros r Hr. destruct (H r Hr). auto. }
  exists S'. split; [exact C|]. intros r Hr. destruct (R r Hr) as [F Rd]. split; [exact F|].
  eapply reduced_results; [exact Rd|]. intros i cell k Ei Hk. apply HP; auto.
  destruct D as (_ & _ & (_ & H2 & _) & _). destruct (H2 r cell Hr (vread_In _ _ _ Ei)) as (p & Hp & _). eauto.
Qed.

(** ** Cells of two points in each direction *)

Lemma home_image c cell p : cart_ok c -> is_image c p (home c cell p).
Proof. intros H. unfold home. destruct (rincludes _ _); [apply is_image_refl|apply wrap_image, H]. Qed.

Lemma small_reach c n L cells : decomposed c n L -> stored_once c -> listed c n L cells ->
  (forall r cell, (r < n)%nat -> In cell (cells r) -> small cell) -> in_reach c n L (nb c n L) cells.
Proof.
  intros D SO (_ & H2 & _) Hs r q cell p Hr Hq Ic Hp Ho. destruct (Nat.eq_dec q r) as [E|E]; [auto|right].
  apply (neighbors_near c n L D r q SO Hr). split; [exact Hq|]. split; [exact E|].
  destruct (H2 r cell Hr Ic) as (p0 & Hp0 & H0). exists (home c cell p0), (home c cell p). split; [exact H0|]. split; [exact Ho|].
  assert (Hok : cart_ok c) by apply D.
  pose proof (home_image c cell p0 Hok) as I0. pose proof (home_image c cell p Hok) as I.
  exists (tmake (fun d => tget p d + tget (home c cell p0) d - tget p0 d)). split.
  - intros d Hd. rewrite tget_tmake by exact Hd. destruct (I0 d Hd) as [A0 B0]. destruct (I d Hd) as [A B]. split; intros P.
    + destruct (A0 P) as (k0 & K0). destruct (A P) as (k & K). exists (k0 - k). lia.
    + rewrite (B0 P), (B P). lia.
  - intros d Hd. rewrite tget_tmake by exact Hd. specialize (Hs r cell Hr Ic d Hd).
    pose proof (proj1 (pt_in_tget _ _) Hp d Hd). pose proof (proj1 (pt_in_tget _ _) Hp0 d Hd). lia.
Qed.

Lemma nb_members c n L r : decomposed c n L -> (r < n)%nat -> NoDup (nb c n L r) /\ forall q, In q (nb c n L r) -> (q < n)%nat /\ q <> r.
Proof.
  intros D Hr. destruct (neighbors_spec c n L D r Hr) as [A B]. split.
  - clear B. induction A as [|x l A IH F]; constructor; auto. intros I. rewrite Forall_forall in F. specialize (F x I). lia.
  - intros q Iq. apply B in Iq. tauto.
Qed.

(** ** Reductions *)

Lemma at_vertex_In {V} lay c (m : Z -> tup Z -> V) k cell x : at_vertex c m k cell x <-> In x (map (fun p => m k (home c cell p)) (in_order lay cell)).
Proof.
  rewrite in_map_iff. split.
  - intros (p & Hp & ->). exists p. split; [reflexivity|apply in_order_In, Hp].
  - intros (p & <- & Hp). exists p. split; [apply in_order_In in Hp; exact Hp|reflexivity].
Qed.

Section Flags.
Context {V : Type}.
Variables (of_bool : bool -> V) (truth : V -> bool).
Hypothesis HT : forall b, truth (of_bool b) = b.

Definition red_flag (op : flag_op) : Z -> range -> list V -> option V :=
  match op with
  | NoneOf => red_none of_bool truth | AnyOf => red_any of_bool truth
  | NotAllOf => red_not_all of_bool truth | AllOf => red_all of_bool truth
  end.

Lemma fold_and (f : V -> bool) vals : forall a, truth (fold_left (fun a v => of_bool (truth a && f v)) vals a) = truth a && forallb f vals.
Proof. induction vals as [|v vals IH]; intros a; cbn [fold_left forallb]; [rewrite andb_true_r; reflexivity|]. rewrite IH, HT, andb_assoc. reflexivity. Qed.
Lemma fold_or (f : V -> bool) vals : forall a, truth (fold_left (fun a v => of_bool (truth a || f v)) vals a) = truth a || existsb f vals.
Proof. induction vals as [|v vals IH]; intros a; cbn [fold_left existsb]; [rewrite orb_false_r; reflexivity|]. rewrite IH, HT, orb_assoc. reflexivity. Qed.

Lemma flag_ok op i cell vals : exists x, red_flag op i cell vals = Some x /\ (truth x = true <-> flagged op truth (fun y => In y vals)).
Proof.
  destruct op; (eexists; split; [reflexivity|]); cbn [flagged].
  - rewrite (fold_and (fun v => negb (truth v))), HT, andb_true_l, forallb_forall. split; intros H x I; specialize (H x I); destruct (truth x); auto; discriminate.
  - rewrite (fold_or truth), HT, orb_false_l, existsb_exists. reflexivity.
  - rewrite (fold_or (fun v => negb (truth v))), HT, orb_false_l, existsb_exists. split; intros (x & I & H); exists x; (split; [exact I|]); destruct (truth x); auto; discriminate.
  - rewrite (fold_and truth), HT, andb_true_l, forallb_forall. reflexivity.
Qed.
End Flags.

Section Extremes.
Context {V : Type}.
Variable lt : V -> V -> bool.
Hypothesis HL : linear lt.

Lemma lt_split a b d : lt a d = true -> lt a b = true \/ lt b d = true.
Proof.
  destruct HL as (T & I & E). intros H. destruct (lt a b) eqn:A; [auto|]. right. destruct (lt b a) eqn:B; [eapply T; eauto|].
  rewrite (E a b A B) in H. exact H.
Qed.

Lemma fold_max vals : forall a, let x := fold_left (fun a v => if lt a v then v else a) vals a in
  (x = a \/ In x vals) /\ lt x a = false /\ forall y, In y vals -> lt x y = false.
Proof.
  pose proof HL as (T & I & E). induction vals as [|v vals IH]; intros a; cbn [fold_left].
  - split; [auto|]. split; [apply I|]. intros y [].
  - destruct (IH (if lt a v then v else a)) as (A & B & C). cbv zeta in *. set (x := fold_left _ vals _) in *. destruct (lt a v) eqn:Q.
    + split; [right; destruct A as [->|A]; [left; reflexivity|right; exact A]|]. split.
      * destruct (lt x a) eqn:X; [|reflexivity]. rewrite (T x a v X Q) in B. discriminate.
      * intros y [<-|J]; auto.
    + split; [destruct A as [->|A]; [left; reflexivity|right; right; exact A]|]. split; [exact B|]. intros y [<-|J]; [|auto].
      destruct (lt x v) eqn:X; [|reflexivity]. destruct (lt_split x a v X) as [Y|Y]; congruence.
Qed.

Lemma fold_min vals : forall a, let x := fold_left (fun a v => if lt v a then v else a) vals a in
  (x = a \/ In x vals) /\ lt a x = false /\ forall y, In y vals -> lt y x = false.
Proof.
  pose proof HL as (T & I & E). induction vals as [|v vals IH]; intros a; cbn [fold_left].
  - split; [auto|]. split; [apply I|]. intros y [].
  - destruct (IH (if lt v a then v else a)) as (A & B & C). cbv zeta in *. set (x := fold_left _ vals _) in *. destruct (lt v a) eqn:Q.
    + split; [right; destruct A as [->|A]; [left; reflexivity|right; exact A]|]. split.
      * destruct (lt a x) eqn:X; [|reflexivity]. rewrite (T v a x Q X) in B. discriminate.
      * intros y [<-|J]; auto.
    + split; [destruct A as [->|A]; [left; reflexivity|right; right; exact A]|]. split; [exact B|]. intros y [<-|J]; [|auto].
      destruct (lt v x) eqn:X; [|reflexivity]. destruct (lt_split v a x X) as [Y|Y]; congruence.
Qed.

Lemma max_ok start i cell vals : vals <> [] -> (forall v, In v vals -> lt v start = false) ->
  exists x, red_max lt start i cell vals = Some x /\ greatest lt (fun y => In y vals) x.
Proof.
  intros NE Hs. eexists. split; [reflexivity|]. destruct (fold_max vals start) as (A & B & C). split; [|exact C].
  destruct A as [A|A]; [|exact A]. rewrite A in *. destruct vals as [|v vals]; [contradiction|]. left. destruct HL as (_ & _ & E). symmetry. apply E.
  - apply C, in_eq.
  - apply Hs, in_eq.
Qed.

Lemma min_ok start i cell vals : vals <> [] -> (forall v, In v vals -> lt start v = false) ->
  exists x, red_min lt start i cell vals = Some x /\ least lt (fun y => In y vals) x.
Proof.
  intros NE Hs. eexists. split; [reflexivity|]. destruct (fold_min vals start) as (A & B & C). split; [|exact C].
  destruct A as [A|A]; [|exact A]. rewrite A in *. destruct vals as [|v vals]; [contradiction|]. left. destruct HL as (_ & _ & E). apply E.
  - apply C, in_eq.
  - apply Hs, in_eq.
Qed.
End Extremes.

(** ** Interpolation *)

Lemma nth_error_ext' {A} (l : list A) : forall l', (forall k, nth_error l k = nth_error l' k) -> l = l'.
Proof.
  induction l as [|a l IH]; intros [|b l'] H; [reflexivity|specialize (H 0%nat); discriminate|specialize (H 0%nat); discriminate|].
  f_equal; [specialize (H 0%nat); cbn in H; congruence|]. apply IH. intros k. apply (H (S k)).
Qed.

Section Interp.
Context {V D : Type}.
Variables (mul : D -> D -> D) (acc : V -> D -> V -> V) (zero : V) (junk : D) (coefs : nat -> Z -> Z -> option D) (lay : layout).
Variables (i : Z) (cell : range) (w : tup Z -> D).
Hypothesis HW : forall p, pt_in cell p -> vertex_coef mul coefs i cell p = Some (w p).

Lemma coefs_ok ws : Z.of_nat (length ws) = rcount cell ->
  ofoldl (fun ws p => let! x := vertex_coef mul coefs i cell p in vwrite ws (rindex lay cell p) x) (foreach_col cell) ws = Some (map w (in_order lay cell)).
Proof.
  intros Lw.
  assert (X : forall l, (forall p, In p l -> pt_in cell p) -> forall ws, Z.of_nat (length ws) = rcount cell -> exists ws',
    ofoldl (fun ws p => let! x := vertex_coef mul coefs i cell p in vwrite ws (rindex lay cell p) x) l ws = Some ws' /\ length ws' = length ws /\
    forall p, pt_in cell p -> (In p l \/ vread ws (rindex lay cell p) = Some (w p)) -> vread ws' (rindex lay cell p) = Some (w p)).
  { clear ws Lw. induction l as [|q l IH]; intros Hl ws Lw.
    - exists ws. split; [reflexivity|]. split; [reflexivity|]. intros p _ [[]|H]. exact H.
    - cbn [ofoldl]. pose proof (Hl q (in_eq _ _)) as Hq. rewrite HW by exact Hq. pose proof (rindex_bounds lay cell q Hq).
      destruct (vwrite_spec ws (rindex lay cell q) (w q) ltac:(lia)) as (w1 & -> & L1 & R1).
      destruct (IH (fun p I => Hl p (in_cons _ _ _ I)) w1 ltac:(lia)) as (w2 & E & L2 & R2). exists w2. split; [exact E|]. split; [lia|].
      intros p Hp H'. apply R2; [exact Hp|]. destruct H' as [[->|I]|H']; [right; rewrite R1, Z.eqb_refl; reflexivity|auto|]. right. rewrite R1.
      destruct (Z.eqb_spec (rindex lay cell p) (rindex lay cell q)) as [Q|Q]; [|exact H']. apply rindex_inj in Q; auto. subst. reflexivity. }
  destruct (X (foreach_col cell) (fun p => proj1 (foreach_col_In cell p)) ws Lw) as (ws' & -> & L' & R'). f_equal.
  apply nth_error_ext'. intros k. destruct (Nat.lt_ge_cases k (length (in_order lay cell))) as [Hk|Hk].
  - rewrite nth_error_map. destruct (nth_error (in_order lay cell) k) as [p|] eqn:Ep; [|apply nth_error_None in Ep; lia]. cbn [option_map].
    pose proof (nth_error_In _ _ Ep) as Ip. apply in_order_In in Ip. rewrite <- (R' p Ip ltac:(left; apply foreach_col_In, Ip)), <- vread_nth. f_equal.
    pose proof (rindex_order lay cell) as RO. assert (Y : nth_error (map (rindex lay cell) (in_order lay cell)) k = Some (rindex lay cell p)) by (rewrite nth_error_map, Ep; reflexivity).
    rewrite RO in Y. pose proof (in_order_length lay cell). rewrite zseq_nth in Y by lia. injection Y as <-. lia.
  - pose proof (in_order_length lay cell). rewrite !(proj2 (nth_error_None _ _)); [reflexivity|rewrite map_length; exact Hk|lia].
Qed.

Lemma interp_ok vals : Z.of_nat (length vals) = rcount cell ->
  red_interp mul acc zero junk coefs lay i cell vals = Some (fold_left (fun a x => acc a (fst x) (snd x)) (combine (map w (in_order lay cell)) vals) zero).
Proof. intros Lv. unfold red_interp. rewrite coefs_ok by (rewrite repeat_length; exact Lv). reflexivity. Qed.

Lemma interp_fold (f : tup Z -> V) l : forall a, fold_left (fun a x => acc a (fst x) (snd x)) (combine (map w l) (map f l)) a = fold_left (fun a p => acc a (w p) (f p)) l a.
Proof. induction l as [|p l IH]; intros a; [reflexivity|]. cbn. apply IH. Qed.
End Interp.

(** ** Programs with the reductions of the library *)

Lemma some_vertex {V} lay c (m : Z -> tup Z -> V) k cell : (exists p, pt_in cell p) -> map (fun p => m k (home c cell p)) (in_order lay cell) <> [].
Proof. intros (p & Hp) E. apply map_eq_nil in E. apply (in_order_In lay) in Hp. rewrite E in Hp. destruct Hp. Qed.

Theorem collect_flags V (of_bool : bool -> V) truth op lay c cnt n L FR N cells fields vv m :
  (forall b, truth (of_bool b) = b) -> distributed c n L N cells ->
  (forall r cell, (r < n)%nat -> In cell (cells r) -> lay = ColMajor \/ whole c (L r) cell) ->
  (forall r, (r < n)%nat -> has_values lay cnt (L r) (FR r) (fields r) m /\ Z.of_nat (length (vv r)) = cnt * max_vertices (cells r)) ->
  exists S', computes n (collect lay c cnt L FR (fun r => map (fun q => (q, L q)) (N r)) cells (fun _ => red_flag of_bool truth op)) (fun r => CS0 (fields r) (vv r)) S' /\
  forall r, (r < n)%nat -> k_field (S' r) = fields r /\
    results cnt (cells r) (k_out (S' r)) (fun _ k cell x => truth x = true <-> flagged op truth (at_vertex c m k cell)).
Proof.
  intros HT D HW H. apply (collect_results V lay c cnt n L FR N cells _ fields vv m (fun _ _ k cell x => truth x = true <-> flagged op truth (at_vertex c m k cell)) D HW H).
  - intros r Hr i cell vals _ _. destruct op; discriminate.
  - intros r i cell k Hr _ _ _. destruct (flag_ok of_bool truth HT op i cell (map (fun p => m k (home c cell p)) (in_order lay cell))) as (x & Ex & Hx).
    exists x. split; [exact Ex|]. rewrite Hx. destruct op; cbn [flagged]; setoid_rewrite <- at_vertex_In; reflexivity.
Qed.

Theorem collect_max V lt (start : V) lay c cnt n L FR N cells fields vv m :
  linear lt -> (forall k p, lt (m k p) start = false) -> distributed c n L N cells ->
  (forall r cell, (r < n)%nat -> In cell (cells r) -> lay = ColMajor \/ whole c (L r) cell) ->
  (forall r, (r < n)%nat -> has_values lay cnt (L r) (FR r) (fields r) m /\ Z.of_nat (length (vv r)) = cnt * max_vertices (cells r)) ->
  exists S', computes n (collect lay c cnt L FR (fun r => map (fun q => (q, L q)) (N r)) cells (fun _ => red_max lt start)) (fun r => CS0 (fields r) (vv r)) S' /\
  forall r, (r < n)%nat -> k_field (S' r) = fields r /\
    results cnt (cells r) (k_out (S' r)) (fun _ k cell x => greatest lt (at_vertex c m k cell) x).
Proof.
  intros HT Hs D HW H. apply (collect_results V lay c cnt n L FR N cells _ fields vv m (fun _ _ k cell x => greatest lt (at_vertex c m k cell) x) D HW H).
  - intros r Hr i cell vals _ _. discriminate.
  - intros r i cell k Hr _ _ NE. destruct (max_ok lt HT start i cell (map (fun p => m k (home c cell p)) (in_order lay cell))) as (x & Ex & Hx).
    + apply some_vertex, NE.
    + intros v I. apply in_map_iff in I as (p & <- & _). apply Hs.
    + exists x. split; [exact Ex|]. destruct Hx as [A B]. split; [apply (at_vertex_In lay), A|]. intros y Y. apply B, (at_vertex_In lay), Y.
Qed.

Theorem collect_min V lt (start : V) lay c cnt n L FR N cells fields vv m :
  linear lt -> (forall k p, lt start (m k p) = false) -> distributed c n L N cells ->
  (forall r cell, (r < n)%nat -> In cell (cells r) -> lay = ColMajor \/ whole c (L r) cell) ->
  (forall r, (r < n)%nat -> has_values lay cnt (L r) (FR r) (fields r) m /\ Z.of_nat (length (vv r)) = cnt * max_vertices (cells r)) ->
  exists S', computes n (collect lay c cnt L FR (fun r => map (fun q => (q, L q)) (N r)) cells (fun _ => red_min lt start)) (fun r => CS0 (fields r) (vv r)) S' /\
  forall r, (r < n)%nat -> k_field (S' r) = fields r /\
    results cnt (cells r) (k_out (S' r)) (fun _ k cell x => least lt (at_vertex c m k cell) x).
Proof.
  intros HT Hs D HW H. apply (collect_results V lay c cnt n L FR N cells _ fields vv m (fun _ _ k cell x => least lt (at_vertex c m k cell) x) D HW H).
  - intros r Hr i cell vals _ _. discriminate.
  - intros r i cell k Hr _ _ NE. destruct (min_ok lt HT start i cell (map (fun p => m k (home c cell p)) (in_order lay cell))) as (x & Ex & Hx).
    + apply some_vertex, NE.
    + intros v I. apply in_map_iff in I as (p & <- & _). apply Hs.
    + exists x. split; [exact Ex|]. destruct Hx as [A B]. split; [apply (at_vertex_In lay), A|]. intros y Y. apply B, (at_vertex_In lay), Y.
Qed.

Theorem collect_interp V D (mul : D -> D -> D) (acc : V -> D -> V -> V) zero junk coefs lay c cnt n L FR N cells fields vv m
    (w : nat -> Z -> tup Z -> D) :
  distributed c n L N cells ->
  (forall r cell, (r < n)%nat -> In cell (cells r) -> lay = ColMajor \/ whole c (L r) cell) ->
  (forall r, (r < n)%nat -> has_values lay cnt (L r) (FR r) (fields r) m /\ Z.of_nat (length (vv r)) = cnt * max_vertices (cells r)) ->
  (forall r i cell p, (r < n)%nat -> vread (cells r) i = Some cell -> pt_in cell p -> exists a b d,
     coefs r 0%nat (c0 p - c0 (rb cell)) i = Some a /\ coefs r 1%nat (c1 p - c1 (rb cell)) i = Some b /\
     coefs r 2%nat (c2 p - c2 (rb cell)) i = Some d /\ w r i p = mul (mul a b) d) ->
  exists S', computes n (collect lay c cnt L FR (fun r => map (fun q => (q, L q)) (N r)) cells (fun r => red_interp mul acc zero junk (coefs r) lay))
    (fun r => CS0 (fields r) (vv r)) S' /\
  forall r, (r < n)%nat -> k_field (S' r) = fields r /\
    results cnt (cells r) (k_out (S' r)) (fun i k cell x => x = fold_left (fun a p => acc a (w r i p) (m k (home c cell p))) (in_order lay cell) zero).
Proof.
  intros Ds HW H HC. assert (Hw : forall r i cell p, (r < n)%nat -> vread (cells r) i = Some cell -> pt_in cell p -> vertex_coef mul (coefs r) i cell p = Some (w r i p)).
  { intros r i cell p Hr Ei Hp. destruct (HC r i cell p Hr Ei Hp) as (a & b & d & E1 & E2 & E3 & ->). unfold vertex_coef. rewrite E1, E2, E3. reflexivity. }
  apply (collect_results V lay c cnt n L FR N cells _ fields vv m
    (fun r i k cell x => x = fold_left (fun a p => acc a (w r i p) (m k (home c cell p))) (in_order lay cell) zero) Ds HW H).
  - intros r Hr i cell vals Ei Lv. rewrite (interp_ok mul acc zero junk (coefs r) lay i cell (w r i)); [discriminate|intros; eapply Hw; eauto|exact Lv].
  - intros r i cell k Hr Ei _ _. eexists. split; [|reflexivity].
    rewrite (interp_ok mul acc zero junk (coefs r) lay i cell (w r i)); [rewrite interp_fold; reflexivity|intros; eapply Hw; eauto|].
    rewrite map_length. apply in_order_length.
Qed.

Theorem small_distributed c n L N cells : decomposed c n L -> stored_once c -> listed c n L cells ->
  (forall r cell, (r < n)%nat -> In cell (cells r) -> small cell) ->
  (forall r, (r < n)%nat -> NoDup (N r) /\ forall q, In q (N r) <-> adjacent c n L r q) -> distributed c n L N cells.
Proof.
  intros D SO HL Hs HN. split; [exact D|]. split; [|split; [exact HL|]].
  - intros r Hr. destruct (HN r Hr) as [A B]. split; [exact A|]. intros q Iq. apply B in Iq. unfold adjacent in Iq. tauto.
  - intros r q cell p Hr Hq Ic Hp Ho. destruct (small_reach c n L cells D SO HL Hs r q cell p Hr Hq Ic Hp Ho) as [E|I]; [auto|right].
    apply (HN r Hr). apply (neighbors_near c n L D r q SO Hr), I.
Qed.

(** ** Checks for examples *)

Lemma order_nth lay R p : pt_in R p -> nth_error (in_order lay R) (Z.to_nat (rindex lay R p)) = Some p.
Proof.
  intros Hp. pose proof (rindex_bounds lay R p Hp). pose proof (in_order_length lay R) as LO.
  destruct (nth_error (in_order lay R) (Z.to_nat (rindex lay R p))) as [q|] eqn:E; [|apply nth_error_None in E; lia].
  pose proof (rindex_order lay R) as RO. assert (Y : nth_error (map (rindex lay R) (in_order lay R)) (Z.to_nat (rindex lay R p)) = Some (rindex lay R q)) by (rewrite nth_error_map, E; reflexivity).
  rewrite RO, zseq_nth in Y by lia. injection Y as Y. apply nth_error_In in E. apply in_order_In in E. f_equal. symmetry. apply (rindex_inj lay R); auto. lia.
Qed.

Definition rows_of {V} (lay : layout) (cnt : Z) (R : range) (m : Z -> tup Z -> V) : list (list V) :=
  map (fun k => map (m k) (in_order lay R)) (zseq 0 (Z.to_nat cnt)).

Lemma rows_values {V} lay cnt loc fr (m : Z -> tup Z -> V) : 0 <= cnt -> pt_subset loc fr -> has_values lay cnt loc fr (rows_of lay cnt fr m) m.
Proof.
  intros Hc HS. unfold rows_of. split; [rewrite map_length, zseq_length; lia|]. split; [exact HS|]. intros k row p E Hp.
  pose proof (vread_lt _ _ _ E) as B. rewrite map_length, zseq_length in B. rewrite <- (Z2Nat.id k) in E by lia. rewrite vread_nth, nth_error_map, zseq_nth in E by lia. injection E as <-.
  apply HS in Hp. pose proof (rindex_bounds lay fr p Hp). rewrite <- (Z2Nat.id (rindex lay fr p)) by lia.
  rewrite vread_nth, nth_error_map, order_nth by exact Hp. cbn [option_map]. rewrite Z2Nat.id by lia. reflexivity.
Qed.

Definition touchb (c : cart) (r cell : range) : bool := existsb (rcontains r) (vs c cell).
Definition sameb (c : cart) (a b : range) : bool := forallb (fun u => memt u (vs c b)) (vs c a) && forallb (fun u => memt u (vs c a)) (vs c b).
Definition listedb (c : cart) (n : nat) (L : nat -> range) (cells : nat -> list range) : bool :=
  forallb (fun r => forallb (fun cell => forallb (rcontains (c_range c)) (vs c cell) && touchb c (L r) cell &&
    forallb (fun q => negb (touchb c (L q) cell) || existsb (sameb c cell) (cells q)) (seq 0 n)) (cells r)) (seq 0 n).
Definition reachb (c : cart) (n : nat) (L : nat -> range) (N : nat -> list nat) (cells : nat -> list range) : bool :=
  forallb (fun r => forallb (fun cell => forallb (fun q => negb (touchb c (L q) cell) || Nat.eqb q r || existsb (Nat.eqb q) (N r)) (seq 0 n)) (cells r)) (seq 0 n).

Lemma touchb_ok c r cell : touchb c r cell = true <-> touches c r cell.
Proof.
  unfold touchb. rewrite existsb_exists. split.
  - intros (u & Iu & H). apply rcontains_spec in H. apply vs_In in Iu as (p & Hp & <-). exists p. auto.
  - intros (p & Hp & H). exists (home c cell p). split; [apply vs_In; eauto|apply rcontains_spec, H].
Qed.

Lemma sameb_ok c a b : sameb c a b = true -> same_vertices c a b.
Proof.
  intros H. apply andb_prop in H as [A B]. rewrite forallb_forall in A, B. intros u. rewrite <- !vs_In. split; intros I; apply memt_In; auto.
Qed.

Lemma listedb_ok c n L cells : listedb c n L cells = true -> listed c n L cells.
Proof.
  unfold listedb. rewrite forallb_forall. intros H.
  assert (X : forall r cell, (r < n)%nat -> In cell (cells r) -> (forall u, In u (vs c cell) -> pt_in (c_range c) u) /\ touches c (L r) cell /\
    forall q, (q < n)%nat -> touches c (L q) cell -> exists cell', In cell' (cells q) /\ same_vertices c cell cell').
  { intros r cell Hr Ic. specialize (H r ltac:(apply in_seq; lia)). rewrite forallb_forall in H. specialize (H cell Ic).
    apply andb_prop in H as [H C]. apply andb_prop in H as [A B]. rewrite forallb_forall in A, C. split; [|split].
    - intros u Iu. apply rcontains_spec, A, Iu.
    - apply touchb_ok, B.
    - intros q Hq T. specialize (C q ltac:(apply in_seq; lia)). apply touchb_ok in T. rewrite T in C. cbn [negb orb] in C.
      apply existsb_exists in C as (cell' & Ic' & S). exists cell'. split; [exact Ic'|apply sameb_ok, S]. }
  split; [|split].
  - intros r cell p Hr Ic Hp. apply (X r cell Hr Ic). apply vs_In. eauto.
  - intros r cell Hr Ic. apply (X r cell Hr Ic).
  - intros r q cell Hr Hq Ic T. apply (X r cell Hr Ic); auto.
Qed.

Lemma reachb_ok c n L N cells : reachb c n L N cells = true -> in_reach c n L N cells.
Proof.
  unfold reachb. rewrite forallb_forall. intros H r q cell p Hr Hq Ic Hp Ho. specialize (H r ltac:(apply in_seq; lia)). rewrite forallb_forall in H.
  specialize (H cell Ic). rewrite forallb_forall in H. specialize (H q ltac:(apply in_seq; lia)).
  assert (T : touchb c (L q) cell = true) by (apply touchb_ok; exists p; auto). rewrite T in H. cbn [negb orb] in H.
  apply orb_prop in H as [H|H]; [left; apply Nat.eqb_eq, H|right]. apply existsb_exists in H as (x & Ix & Ex). apply Nat.eqb_eq in Ex. subst. exact Ix.
Qed.

Lemma Zltb_linear : linear Z.ltb.
Proof. split; [|split]; intros; rewrite ?Z.ltb_lt, ?Z.ltb_ge in *; try apply Z.ltb_irrefl; lia. Qed.

Theorem collect_max_int lo hi lay c cnt n L FR N cells fields vv m :
  (forall k p, lo <= m k p <= hi) -> distributed c n L N cells ->
  (forall r cell, (r < n)%nat -> In cell (cells r) -> lay = ColMajor \/ whole c (L r) cell) ->
  (forall r, (r < n)%nat -> has_values lay cnt (L r) (FR r) (fields r) m /\ Z.of_nat (length (vv r)) = cnt * max_vertices (cells r)) ->
  exists S', computes n (collect lay c cnt L FR (fun r => map (fun q => (q, L q)) (N r)) cells (fun _ => red_max Z.ltb lo)) (fun r => CS0 (fields r) (vv r)) S' /\
  forall r, (r < n)%nat -> k_field (S' r) = fields r /\
    results cnt (cells r) (k_out (S' r)) (fun _ k cell x => at_vertex c m k cell x /\ forall y, at_vertex c m k cell y -> y <= x).
Proof.
  intros B D HW H. destruct (collect_max Z Z.ltb lo lay c cnt n L FR N cells fields vv m Zltb_linear) as (S' & C & R); auto.
  { intros k p. apply Z.ltb_ge, B. }
  exists S'. split; [exact C|]. intros r Hr. destruct (R r Hr) as [F [A Q]]. split; [exact F|]. split; [exact A|].
  intros i cell Ei. destruct (Q i cell Ei) as (row & E1 & E2 & E3). exists row. split; [exact E1|]. split; [exact E2|]. intros k Hk.
  destruct (E3 k Hk) as (x & X1 & X2 & X3). exists x. split; [exact X1|]. split; [exact X2|]. intros y Y. apply Z.ltb_ge, X3, Y.
Qed.
