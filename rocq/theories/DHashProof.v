(** Proofs about distributed region hashes: construction. *)
From Coq Require Import List ZArith Bool Lia.
From Verif Require Import TupleModel RangeModel IndexerModel ArrayModel ContModel HashModel HashSpec DHashModel.
From Verif Require Import Base RangeProof IndexerProof ArrayProof HashProof HashGeoProof.
From Verif Require Import ContSpec ContProof MapProof OMap PairMap ProtoModel ProtoSpec NetModel NetSpec NetProof NetPhase HandProof NetTools.
Import ListNotations.
Local Open Scope nat_scope.
Local Arguments count : simpl never.
Local Arguments Nat.eqb : simpl never.
Local Arguments Nat.ltb : simpl never.

Lemma same_lengths_ok {A} (f : A -> list Z) l : same_lengths (map (fun a => Z.of_nat (length (f a))) l) (map f l) = true.
Proof. induction l as [|a l IH]; [reflexivity|]. cbn [map same_lengths]. rewrite Z.eqb_refl, IH. reflexivity. Qed.

Section Build.
Context {C X R : Type} (k : coords C X) (t : traits C X R) (nd n : nat).
Variable decomp : X -> Z -> tup Z.
Variable ratio : tup C -> list R -> option Z.
Variable L : nat -> list R.
Variable x0 : X.
Variable size : tup C.
Notation procs := (range_of (decomp x0 (Z.of_nat n))).
Notation xs := (fun r => hash_extents k t nd (L r)).
Hypothesis Hx : forall r, r < n -> reduce_ext k nd (map xs (seq 0 n)) (xs r) = x0.
Hypothesis Hsize : k_size k x0 (decomp x0 (Z.of_nat n)) = Some size.
Variable P : R -> list nat.
Hypothesis HP : forall r g, r < n -> In g (L r) ->
  region_procs k t nd x0 procs size g = Some (P g) /\ NoDup (P g) /\ (forall q, In q (P g) -> q < n).

(** The regions s sends to r, and all the regions r receives. *)
Definition sub (s r : nat) : list R := filter (fun g => memb r (P g)) (L s).
Definition data (r : nat) : list (R * nat) := flat_map (fun s => map (fun g => (g, s)) (sub s r)) (seq 0 n).

Variable M : nat -> Z.
Hypothesis HM : forall r, r < n ->
  match data r with [] => Some 1%Z | _ => let! z := ratio size (map fst (data r)) in Some (Z.max z 1) end = Some (M r).
Variable B : R -> nat -> list Z.
Hypothesis HB : forall s g q, s < n -> In g (L s) -> In q (P g) ->
  region_bins k t nd x0 procs size (map M (seq 0 n)) g q = Some (B g q) /\
  NoDup (B g q) /\ (forall b, In b (B g q) -> (0 <= b < rcount (proc_bins nd (M q)))%Z).

Let pl (r : nat) : plan C X R := Plan (L r) x0 procs size (map P (L r)).
Let from (r : nat) : list nat := filter (fun q => memb r (send_to (pl q))) (seq 0 n).
Let nums (r : nat) : list Z := map (fun s => Z.of_nat (length (sub s r))) (from r).
Let mults : list Z := map M (seq 0 n).

Lemma send_to_In s q : In q (send_to (pl s)) <-> exists g, In g (L s) /\ In q (P g).
Proof.
  unfold send_to. rewrite nset_In. cbn [p_over pl]. rewrite in_concat. split.
  - intros (l & H1 & H2). apply in_map_iff in H1 as (g & <- & Hg). eauto.
  - intros (g & H1 & H2). exists (P g). split; [apply in_map, H1|exact H2].
Qed.

Lemma send_to_lt s q : s < n -> In q (send_to (pl s)) -> q < n.
Proof. intros Hs H. apply send_to_In in H as (g & H1 & H2). eapply HP; eauto. Qed.

Lemma sub_nil s r : ~ In r (send_to (pl s)) -> sub s r = [].
Proof.
  intros H. unfold sub. destruct (filter _ (L s)) as [|g l] eqn:E; [reflexivity|].
  exfalso. apply H, send_to_In. exists g.
  assert (In g (filter (fun g => memb r (P g)) (L s))) as I by (rewrite E; left; reflexivity).
  apply filter_In in I as [I1 I2]. split; [exact I1|]. apply memb_In, I2.
Qed.

Lemma from_In r s : In s (from r) <-> s < n /\ In r (send_to (pl s)).
Proof.
  unfold from. rewrite filter_In, in_seq, memb_In. intuition; lia.
Qed.

Lemma from_NoDup r : NoDup (from r).
Proof. apply NoDup_filter, seq_NoDup. Qed.

Lemma from_flat {A} (f : nat -> list A) r : (forall s, sub s r = [] -> f s = []) ->
  flat_map f (from r) = flat_map f (seq 0 n).
Proof.
  intros H. apply flat_map_filter. intros s _ E. apply H, sub_nil. apply memb_false, E.
Qed.

Lemma senders_grouped r : senders (from r) (nums r) = flat_map (fun s => repeat s (length (sub s r))) (from r).
Proof.
  unfold senders, nums. rewrite combine_map_r, flat_map_concat_map, map_map, <- flat_map_concat_map.
  cbn [fst snd]. induction (from r) as [|s l IH]; [reflexivity|]. cbn. rewrite IH, Nat2Z.id. reflexivity.
Qed.

Lemma data_from r : data r = flat_map (fun s => map (fun g => (g, s)) (sub s r)) (from r).
Proof. unfold data. symmetry. apply from_flat. intros s E. rewrite E. reflexivity. Qed.

Lemma data_In r g s : In (g, s) (data r) <-> s < n /\ In g (L s) /\ In r (P g).
Proof.
  unfold data. rewrite in_flat_map. split.
  - intros (q & Hq & H). apply in_map_iff in H as (g' & E & Hg). injection E as -> ->.
    apply filter_In in Hg as [G1 G2]. apply memb_In in G2. apply in_seq in Hq. repeat split; auto; lia.
  - intros (H1 & H2 & H3). exists s. split; [apply in_seq; lia|]. apply in_map_iff. exists g. split; [reflexivity|].
    apply filter_In. split; [exact H2|]. apply memb_In, H3.
Qed.

(** ** The phases *)
Let S1 r : dst C X R := D1 (L r) (xs r).
Let S2 r : dst C X R := D2 (pl r).
Let S3 r : dst C X R := D3 (pl r) (from r).
Let S4 r : dst C X R := D4 (pl r) (from r) (nums r).
Let S5 r : dst C X R := D5 (pl r) (from r) (nums r) (data r).
Let S6 r : dst C X R := D6 (pl r) (from r) (nums r) (data r) mults.
Let over r : list (list (nat * list Z)) := map (fun g => map (fun q => (q, B g q)) (P g)) (L r).
Let nb r : list Z := map (fun d => Z.of_nat (length (B (fst d) r))) (data r).
Let bins r : list (list Z) := map (fun d => B (fst d) r) (data r).
Let S7 r : dst C X R := D7 (pl r) (from r) (nums r) (data r) mults (over r).
Let S8 r : dst C X R := D8 (pl r) (from r) (nums r) (data r) mults (over r) (nb r).
Let S9 r : dst C X R := D9 (pl r) (data r) mults (bins r).

Lemma ph2 : phase_ok n (Coll (dh_plan k t nd n decomp) : phase (dst C X R) (dmsg R)) S1 S2.
Proof.
  intros r Hr. unfold dh_plan.
  rewrite (omap_comp _ S1 xs) by reflexivity.
  rewrite nth_map_seq by exact Hr. unfold S1. cbn beta iota.
  rewrite Hx by exact Hr. rewrite Hsize.
  erewrite omap_map with (g := P); [reflexivity|].
  intros g Hg. apply (HP r g Hr Hg).
Qed.

Lemma ph3 : phase_ok n (Coll (dh_handshake n) : phase (dst C X R) (dmsg R)) S2 S3.
Proof.
  intros r Hr. unfold dh_handshake.
  rewrite (omap_comp _ S2 pl) by reflexivity. rewrite nth_map_seq by exact Hr.
  unfold S3. do 2 f_equal. unfold named, from. apply filter_ext_in'. intros q Hq.
  apply in_seq in Hq. rewrite nth_map_seq by lia. reflexivity.
Qed.

Lemma count_over s r : s < n -> count r (concat (p_over (pl s))) = length (sub s r).
Proof. intros Hs. cbn [p_over pl]. apply count_concat. intros g Hg. apply (HP s g Hs Hg). Qed.

Lemma msgs_num s r (g : nat -> dmsg R) : msgs_to r (map (fun d => (d, g d)) (send_to (pl s))) =
  if memb r (send_to (pl s)) then [g r] else [].
Proof. apply msgs_single. apply nset_NoDup. Qed.

Lemma ph4 : phase_ok n (dh_numbers : phase (dst C X R) (dmsg R)) S3 S4.
Proof.
  apply wait_all_ok with (senders := from).
  - intros r _. apply from_NoDup.
  - intros r s _ H. apply from_In in H. lia.
  - intros r Hr. cbn [S3].
    assert (G : forall l, (forall s, In s l -> In r (send_to (pl s))) ->
      l = flat_map (fun s => repeat s (length (msgs_to r (map (fun d => (d, MNum (Z.of_nat (count d (concat (p_over (pl s))))) : dmsg R)) (send_to (pl s)))))) l).
    { induction l as [|s l IH]; intros H; [reflexivity|]. cbn [flat_map].
      rewrite msgs_num. rewrite (proj2 (memb_In r (send_to (pl s)))) by (apply H; left; reflexivity).
      cbn [length repeat app]. f_equal. apply IH. intros; apply H; right; auto. }
    apply G. intros s Hs. apply from_In in Hs. tauto.
  - intros r d m Hr H. cbn [S3] in H. apply in_map_iff in H as (q & E & Hq). injection E as -> _.
    eapply send_to_lt; eauto.
  - intros r s Hr Hs H. cbn [S3]. rewrite msgs_num.
    destruct (memb r (send_to (pl s))) eqn:E; [|reflexivity]. exfalso. apply H, from_In.
    split; [exact Hs|]. apply memb_In, E.
  - intros r Hr. cbn [S3].
    assert (G : forall l, (forall s, In s l -> In s (from r)) ->
      omap get_num (flat_map (fun s => msgs_to r (map (fun d => (d, MNum (Z.of_nat (count d (concat (p_over (pl s))))) : dmsg R)) (send_to (pl s)))) l) =
      Some (map (fun s => Z.of_nat (length (sub s r))) l)).
    { induction l as [|s l IH]; intros H; [reflexivity|]. cbn [flat_map map].
      pose proof (H s (or_introl eq_refl)) as I. apply from_In in I as [I1 I2].
      rewrite msgs_num, (proj2 (memb_In r (send_to (pl s)))) by exact I2.
      cbn [app]. rewrite omap_cons. cbn [get_num]. rewrite IH by (intros; apply H; right; auto).
      rewrite count_over by exact I1. reflexivity. }
    rewrite G by auto. reflexivity.
Qed.

(** Phases in which a message about each region is sent. *)
Lemma region_phase recvs sends f (S S' : nat -> dst C X R) (g : R -> nat -> dmsg R) :
  (forall r, r < n -> recvs r (S r) = senders (from r) (nums r)) ->
  (forall r, r < n -> sends r (S r) = flat_map (fun a => map (fun d => (d, g a d)) (P a)) (L r)) ->
  (forall r, r < n -> f r (S r) (map (fun d => g (fst d) r) (data r)) = Some (S' r)) ->
  phase_ok n (wait_all recvs sends f : phase (dst C X R) (dmsg R)) S S'.
Proof.
  intros H1 H2 H3.
  assert (G : forall r s, s < n -> msgs_to r (sends s (S s)) = map (fun a => g a r) (sub s r)).
  { intros r s Hs. rewrite H2 by exact Hs. apply msgs_flat. intros a Ha. apply (HP s a Hs Ha). }
  apply wait_all_ok with (senders := from).
  - intros r _. apply from_NoDup.
  - intros r s _ H. apply from_In in H. lia.
  - intros r Hr. rewrite H1, senders_grouped by exact Hr. rewrite !flat_map_concat_map. f_equal.
    apply map_ext_in. intros s Hs. apply from_In in Hs as [Hs _]. rewrite G by exact Hs.
    rewrite map_length. reflexivity.
  - intros r d m Hr H. rewrite H2 in H by exact Hr. apply in_flat_map in H as (a & Ha & H).
    apply in_map_iff in H as (q & E & Hq). injection E as -> _. eapply HP; eauto.
  - intros r s Hr Hs H. rewrite G by exact Hs. rewrite sub_nil; [reflexivity|].
    intros I. apply H, from_In. auto.
  - intros r Hr. rewrite <- (H3 r Hr). f_equal. rewrite data_from, map_flat_map.
    rewrite !flat_map_concat_map. f_equal. apply map_ext_in. intros s Hs. apply from_In in Hs as [Hs _].
    rewrite G by exact Hs. rewrite map_map. reflexivity.
Qed.

Lemma flat_combine (g : R -> nat -> dmsg R) r :
  flat_map (fun x => map (fun d => (d, g (fst x) d)) (snd x)) (combine (L r) (map P (L r))) =
  flat_map (fun a => map (fun d => (d, g a d)) (P a)) (L r).
Proof. rewrite combine_map_r, flat_map_concat_map, map_map, <- flat_map_concat_map. reflexivity. Qed.

Lemma ph5 : phase_ok n (dh_regions : phase (dst C X R) (dmsg R)) S4 S5.
Proof.
  apply region_phase with (g := fun a _ => MReg a); [reflexivity| |].
  - intros r _. cbn [S4 p_regs p_over pl]. apply (flat_combine (fun a _ => MReg a)).
  - intros r Hr. cbn [S4]. rewrite (omap_comp _ (fun d => MReg (fst d)) fst) by reflexivity.
    unfold S5. do 2 f_equal. rewrite senders_grouped, data_from, map_flat_map.
    rewrite <- combine_grouped with (f := fun s => sub s r). f_equal.
    rewrite !flat_map_concat_map. f_equal. apply map_ext. intros s. rewrite map_map. cbn. apply map_id.
Qed.

Lemma ph6 : phase_ok n (Coll (dh_mults ratio) : phase (dst C X R) (dmsg R)) S5 S6.
Proof.
  intros r Hr. unfold dh_mults. rewrite (omap_comp _ S5 M).
  - rewrite nth_map_seq by exact Hr. reflexivity.
  - intros q Hq. apply in_seq in Hq. unfold S5. cbn [multiplier p_size pl]. apply HM. lia.
Qed.

Lemma ph7 : phase_ok n (Local (dh_local_bins k t nd) : phase (dst C X R) (dmsg R)) S6 S7.
Proof.
  intros r Hr. unfold dh_local_bins, S6. cbn [p_regs p_over p_ext p_procs p_size pl].
  rewrite combine_map_r. rewrite (omap_comp _ (fun g => (g, P g)) (fun g => map (fun q => (q, B g q)) (P g))).
  - reflexivity.
  - intros g Hg. cbn [fst snd]. apply omap_map. intros q Hq.
    unfold mults. rewrite (proj1 (HB r g q Hr Hg Hq)). reflexivity.
Qed.

Lemma flat_over (g : R -> nat -> dmsg R) (f : nat * list Z -> dmsg R) r :
  (forall a q, f (q, B a q) = g a q) ->
  flat_map (map (fun x => (fst x, f x))) (over r) = flat_map (fun a => map (fun d => (d, g a d)) (P a)) (L r).
Proof.
  intros E. unfold over. rewrite flat_map_concat_map, map_map, <- flat_map_concat_map.
  rewrite !flat_map_concat_map. f_equal. apply map_ext. intros a. rewrite map_map. apply map_ext. intros q.
  cbn [fst]. rewrite E. reflexivity.
Qed.

Lemma ph8 : phase_ok n (dh_bin_numbers : phase (dst C X R) (dmsg R)) S7 S8.
Proof.
  apply region_phase with (g := fun a q => MNum (Z.of_nat (length (B a q)))); [reflexivity| |].
  - intros r _. cbn [S7]. apply flat_over. reflexivity.
  - intros r Hr. cbn [S7]. rewrite (omap_comp _ _ (fun d => Z.of_nat (length (B (fst d) r)))) by reflexivity.
    reflexivity.
Qed.

Lemma ph9 : phase_ok n (dh_bins : phase (dst C X R) (dmsg R)) S8 S9.
Proof.
  apply region_phase with (g := fun a q => MInts (B a q)); [reflexivity| |].
  - intros r _. cbn [S8]. apply flat_over. reflexivity.
  - intros r Hr. cbn [S8]. rewrite (omap_comp _ _ (fun d => B (fst d) r)) by reflexivity.
    unfold nb. rewrite (same_lengths_ok (fun d => B (fst d) r)). reflexivity.
Qed.

(** The hash of rank r has the list of regions for each bin. *)
Definition hash_ok (r : nat) (h : dhash C X R) : Prop :=
  d_ext h = x0 /\ d_procs h = procs /\ d_psize h = size /\ d_mults h = mults /\ d_data h = data r /\
  (data r <> [] -> forall b, (0 <= b < rcount (proc_bins nd (M r)))%Z ->
     vread (d_count h) b = Some (Z.of_nat (length (holding b 0 (map (fun d => B (fst d) r) (data r))))) /\
     bin_regions h b = Some (holding b 0 (map (fun d => B (fst d) r) (data r)))).

Lemma ph10 : forall r, r < n -> exists h, dh_fill nd r (S9 r) = Some (DH h) /\ hash_ok r h.
Proof.
  intros r Hr. unfold dh_fill, S9. destruct (data r) as [|d0 rest] eqn:ED.
  - eexists. split; [reflexivity|]. unfold hash_ok. cbn [d_ext d_procs d_psize d_mults d_data p_ext p_procs p_size pl].
    rewrite ED. repeat split; auto; congruence.
  - rewrite <- ED. unfold mults. rewrite nth_map_seq by exact Hr. cbv zeta.
    set (br := proc_bins nd (M r)).
    assert (HV : forall v b, In v (bins r) -> In b v -> (0 <= b < rcount br)%Z).
    { intros v b H1 H2. unfold bins in H1. apply in_map_iff in H1 as ([g s] & <- & Hd). cbn [fst] in H2.
      apply data_In in Hd as (A1 & A2 & A3). apply (proj2 (proj2 (HB s g r A1 A2 A3))), H2. }
    assert (EV : omap (omap (fun b => let! tp := rtuple ColMajor br b in Some (rindex ColMajor br tp))) (bins r) = Some (bins r)).
    { rewrite <- (map_id (bins r)) at 2. apply omap_map. intros v Hv.
      rewrite <- (map_id v) at 2. apply omap_map. intros b Hb.
      destruct (rtuple_ok ColMajor br b (HV v b Hv Hb)) as (tp & E1 & _ & E2). rewrite E1, E2. reflexivity. }
    rewrite EV. pose proof (rcount_nonneg br) as HC.
    assert (HN : Z.of_nat (Z.to_nat (rcount br)) = rcount br) by lia.
    destruct (csr_correct (Z.to_nat (rcount br)) (bins r))
      as (counts & st & total & Ec & Lc & Rc & Hst & Ht & Hend & HS & Hf).
    { intros v b H1 H2. rewrite HN. eauto. }
    rewrite Ec, rindex_foreach.
    destruct (Hst (repeat 0%Z (Z.to_nat (rcount br)))) as (st' & E1 & L1 & R1); [rewrite repeat_length; lia|].
    rewrite E1. cbn [fst snd].
    assert (RS : forall b, (0 <= b < rcount br)%Z -> vread st' b = Some (st b)).
    { intros b Hb. rewrite R1. destruct (Z.leb_spec 0 b), (Z.ltb_spec b (Z.of_nat (Z.to_nat (rcount br)))); auto; lia. }
    destruct (Hf st') as (ind & E3 & R3); [intros; apply RS; lia|].
    rewrite E3. cbn [fst snd]. eexists. split; [reflexivity|].
    unfold hash_ok. cbn [d_ext d_procs d_psize d_mults d_data p_ext p_procs p_size pl d_count].
    repeat split; auto.
    + apply Rc. fold br in H0. lia.
    + unfold bin_regions. cbn [d_count d_starts d_ind]. fold br in H0. rewrite Rc by lia. rewrite RS by lia. apply R3. lia.
Qed.

Theorem build_ok : exists H, prog_ok n (dh_build k t nd n decomp ratio) (fun r => D0 (L r)) (fun r => DH (H r)) /\
  forall r, r < n -> hash_ok r (H r).
Proof.
  assert (E : exists H, forall r, r < n -> dh_fill nd r (S9 r) = Some (DH (H r)) /\ hash_ok r (H r)).
  { exists (fun r => match dh_fill nd r (S9 r) with Some (DH h) => h | _ => DHash x0 procs size [] [] [] [] [] end).
    intros r Hr. destruct (ph10 r Hr) as (h & -> & Hh). auto. }
  destruct E as (H & HH). exists H. split; [|intros; apply HH; auto].
  unfold dh_build.
  exists S1. split; [intros r Hr; reflexivity|]. exists S2. split; [exact ph2|].
  exists S3. split; [exact ph3|]. exists S4. split; [exact ph4|]. exists S5. split; [exact ph5|].
  exists S6. split; [exact ph6|]. exists S7. split; [exact ph7|]. exists S8. split; [exact ph8|].
  exists S9. split; [exact ph9|]. exists (fun r => DH (H r)). split; [intros r Hr; apply HH, Hr|].
  intros r Hr. reflexivity.
Qed.

End Build.
