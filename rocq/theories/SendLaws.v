(** The theorems about sending and receiving. *)
From Coq Require Import List ZArith Bool Lia Permutation Sorted.
From Verif Require Import TupleModel RangeModel Base RangeProof IndexerModel ArrayModel ArrayProof ContModel HashModel HashProof.
From Verif Require Import ProtoModel ProtoSpec NetModel NetSpec NetProof NetPhase NetTools SendModel SendSpec SendProof.
Import ListNotations.
Local Open Scope Z_scope.

Lemma combine_lookup {B} (dflt : B) (l : list nat) : forall bs : list B, NoDup l -> length bs = length l ->
  combine l bs = map (fun d => (d, match find (fun x => Nat.eqb (fst x) d) (combine l bs) with Some x => snd x | None => dflt end)) l.
Proof.
  induction l as [|a l IH]; intros [|b bs] ND E; try discriminate; [reflexivity|]. cbn [combine map find fst]. inversion ND; subst.
  rewrite Nat.eqb_refl. cbn [snd]. f_equal. rewrite (IH bs) at 1 by (auto; cbn in E; congruence). apply map_ext_in. intros d Hd.
  destruct (Nat.eqb_spec a d); [subst; contradiction|reflexivity].
Qed.

Lemma find_combine {B} (l : list nat) : forall (bs : list B) k d b, NoDup l -> nth_error l k = Some d -> nth_error bs k = Some b ->
  find (fun x => Nat.eqb (fst x) d) (combine l bs) = Some (d, b).
Proof.
  induction l as [|a l IH]; intros [|b' bs] [|k] d b ND Hd Hb; cbn [nth_error] in *; try discriminate; cbn [combine find fst].
  - injection Hd as ->. injection Hb as ->. rewrite Nat.eqb_refl. reflexivity.
  - inversion ND; subst. destruct (Nat.eqb_spec a d) as [->|]; [exfalso; apply H1; eapply nth_error_In; eauto|]. eapply IH; eauto.
Qed.

Lemma NoDup_to_nat l : NoDup l -> (forall x, In x l -> 0 <= x) -> NoDup (map Z.to_nat l).
Proof.
  induction 1 as [|a l N ND IH]; intros P; cbn [map]; constructor.
  - intros H. apply in_map_iff in H as (x & E & Hx). apply N. replace a with x; [exact Hx|]. pose proof (P a ltac:(left; reflexivity)). pose proof (P x ltac:(right; exact Hx)). lia.
  - apply IH. intros x Hx. apply P. right. exact Hx.
Qed.

(** An entry of the order has a number, and the number determines the entry. *)
Lemma numbered_sel ranks order q i k : NoDup order -> (numbered ranks order q i k <-> nth_error (sel ranks q order) k = Some i).
Proof.
  intros ND. split.
  - intros (Hi & l1 & l2 & -> & ->). fold (sel ranks q l1). change (i :: l2) with ([i] ++ l2). rewrite !sel_app, (sel_one _ _ _ _ Hi), Z.eqb_refl.
    rewrite nth_error_app2, Nat.sub_diag by lia. reflexivity.
  - intros H. revert k H. induction order as [|a order IH]; intros k H; [destruct k; discriminate|].
    inversion ND; subst. change (a :: order) with ([a] ++ order) in H. rewrite sel_app in H.
    assert (R : vread ranks i = Some q) by (rewrite <- sel_app in H; apply nth_error_In, sel_In in H; tauto).
    split; [exact R|]. destruct (match vread ranks a with Some x => x =? q | None => false end) eqn:Ea.
    + assert (Sa : sel ranks q [a] = [a]) by (unfold sel; cbn [filter]; rewrite Ea; reflexivity). rewrite Sa in H. cbn [app] in H.
      destruct k as [|k]; cbn [nth_error] in H.
      * injection H as <-. exists [], order. split; reflexivity.
      * destruct (IH H3 k H) as (_ & l1 & l2 & E & Ek). exists (a :: l1), l2. split; [cbn; congruence|]. cbn [filter]. rewrite Ea. cbn [length]. congruence.
    + assert (Sa : sel ranks q [a] = []) by (unfold sel; cbn [filter]; rewrite Ea; reflexivity). rewrite Sa in H. cbn [app] in H.
      destruct (IH H3 k H) as (_ & l1 & l2 & E & Ek). exists (a :: l1), l2. split; [cbn; congruence|]. cbn [filter]. rewrite Ea. exact Ek.
Qed.

Section Exchange.
Context {V : Type}.
Variables (cnt : Z) (junk : V) (n : nat) (dst sord src rord : nat -> list Z) (vals out : nat -> list (list V)).
Hypothesis HC : 0 <= cnt.
Hypothesis HP : paired n dst src.
Hypothesis HS : forall r, (r < n)%nat -> is_order (dst r) (sord r) /\ Z.of_nat (length (dst r)) <= 2 ^ 31 /\ shaped cnt (length (dst r)) (vals r).
Hypothesis HR : forall r, (r < n)%nat -> is_order (src r) (rord r) /\ Z.of_nat (length (src r)) <= 2 ^ 31 /\ shaped cnt (length (src r)) (out r).

Definition S0 (r : nat) : sst V := SS0 (vals r) (out r).
Definition S1 (r : nat) : sst V := match xch_pack cnt junk (dst r) (sord r) (src r) (rord r) (S0 r) with Some s => s | None => S0 r end.
Definition msg (s d : nat) : list V := match find (fun x => Nat.eqb (fst x) d) (xch_sends (S1 s)) with Some x => snd x | None => [] end.
Definition S2 (r : nat) : sst V := match xch_done cnt junk (S1 r) (map (fun s => msg s r) (xch_recvs (S1 r))) with Some s => s | None => S1 r end.

Lemma pack_at r : (r < n)%nat -> exists spr rpr, xch_pack cnt junk (dst r) (sord r) (src r) (rord r) (S0 r) = Some (S1 r) /\
  s_vals (S1 r) = vals r /\ s_out (S1 r) = out r /\
  map_of (dst r) (sord r) (s_smap (S1 r)) spr /\ map_of (src r) (rord r) (s_rmap (S1 r)) rpr /\
  bufs_ok (dst r) spr cnt (vals r) (sord r) (s_bufs (S1 r)).
Proof.
  intros Hr. destruct (HS r Hr) as (O1 & L1 & V1). destruct (make_map_ok (dst r) (sord r)) as (sm & spr & E1 & M1).
  destruct (make_map_ok (src r) (rord r)) as (rm & rpr & E2 & M2).
  destruct (pack_ok (dst r) (sord r) sm spr O1 M1 L1 cnt junk HC (vals r) V1) as (bufs & E3 & B).
  assert (E : xch_pack cnt junk (dst r) (sord r) (src r) (rord r) (S0 r) = Some (SS (vals r) (out r) sm rm bufs)).
  { unfold xch_pack. rewrite E1, E2. unfold S0, SS0. cbn [s_vals s_out]. rewrite E3. reflexivity. }
  exists spr, rpr. unfold S1. rewrite E. cbn [s_vals s_out s_smap s_rmap s_bufs]. auto 7.
Qed.

Lemma peers_nat ranks order m pr : map_of ranks order m pr -> map (fun p => Z.to_nat (fst p)) (x_peers m) = map Z.to_nat pr.
Proof. intros (_ & _ & E & _). rewrite E, map_map. reflexivity. Qed.

(** The ranks r sends to, and those it receives from. *)
Lemma sends_at r : (r < n)%nat -> xch_sends (S1 r) = map (fun d => (d, msg r d)) (map (fun p => Z.to_nat (fst p)) (x_peers (s_smap (S1 r)))).
Proof.
  intros Hr. destruct (pack_at r Hr) as (spr & rpr & _ & _ & _ & M & _ & LB & _). unfold msg, xch_sends. rewrite (peers_nat _ _ _ _ M).
  apply combine_lookup; [|rewrite map_length; exact LB]. apply NoDup_to_nat; [apply M|]. intros x Hx. apply M in Hx. tauto.
Qed.

Lemma msg_at s r : (s < n)%nat -> In (Z.of_nat r) (dst s) -> buf_ok (dst s) cnt (vals s) (sord s) (Z.of_nat r) (msg s r).
Proof.
  intros Hs Hi. destruct (pack_at s Hs) as (spr & rpr & _ & _ & _ & M & _ & LB & B).
  destruct (In_vread spr (Z.of_nat r)) as (k & Hk); [apply M; split; [lia|exact Hi]|]. destruct (B k _ Hk) as (b & Hb & G).
  unfold msg, xch_sends. rewrite (peers_nat _ _ _ _ M). pose proof (vread_lt _ _ _ Hk) as Bk.
  rewrite (find_combine _ _ (Z.to_nat k) r b); [exact G| | |].
  - apply NoDup_to_nat; [apply M|]. intros x Hx. apply M in Hx. tauto.
  - unfold vread in Hk. destruct (k <? 0); [discriminate|]. rewrite nth_error_map, Hk. cbn [option_map]. f_equal. lia.
  - unfold vread in Hb. destruct (k <? 0); [discriminate|]. exact Hb.
Qed.

Lemma occ_pos l q : In q l <-> 0 < occ l q.
Proof. unfold occ. rewrite (count_occ_In Z.eq_dec). lia. Qed.

Lemma recv_into_full (b g : list V) : length g = length b -> recv_into b g = Some g.
Proof. intros E. unfold recv_into. rewrite E, Nat.leb_refl. rewrite skipn_all2, app_nil_r by lia. reflexivity. Qed.

Lemma done_at r : (r < n)%nat -> exists rpr bufs, xch_done cnt junk (S1 r) (map (fun s => msg s r) (xch_recvs (S1 r))) = Some (S2 r) /\
  map_of (src r) (rord r) (s_rmap (S1 r)) rpr /\ bufs = map (fun q => msg (Z.to_nat q) r) rpr /\
  s_vals (S2 r) = vals r /\ out_ok (src r) rpr cnt bufs (out r) (rord r) (s_out (S2 r)).
Proof.
  intros Hr. destruct (pack_at r Hr) as (spr & rpr & _ & EV & EO & _ & M & _). pose proof HP as (_ & P2 & P3).
  destruct (HR r Hr) as (O2 & L2 & V2). set (bufs := map (fun q => msg (Z.to_nat q) r) rpr).
  assert (Len : forall q, In q rpr -> Z.of_nat (length (msg (Z.to_nat q) r)) = cnt * occ (src r) q).
  { intros q Hq. apply M in Hq as [Pq Hq]. pose proof (P2 r q Hr Hq) as Bq.
    assert (E : occ (dst (Z.to_nat q)) (Z.of_nat r) = occ (src r) q).
    { unfold occ. f_equal. replace q with (Z.of_nat (Z.to_nat q)) at 2 by lia. apply P3; lia. }
    rewrite <- E. apply msg_at; [lia|]. apply occ_pos. rewrite E. apply occ_pos, Hq. }
  assert (Eb : omap (fun bm => recv_into (fst bm) (snd bm)) (combine (new_bufs cnt junk (s_rmap (S1 r))) (map (fun s => msg s r) (xch_recvs (S1 r)))) = Some bufs).
  { unfold xch_recvs. rewrite (peers_nat _ _ _ _ M), map_map. unfold new_bufs. pose proof M as (_ & _ & EP & _). rewrite EP, map_map. cbn [snd].
    unfold bufs. clearbody bufs. clear EP. assert (Sub : forall q, In q rpr -> In q rpr) by auto. revert Sub. generalize rpr at 1 3 4 5. intros l Sub.
    induction l as [|q l IH]; [reflexivity|]. cbn [map combine]. rewrite omap_cons. cbn [fst snd].
    rewrite recv_into_full by (rewrite repeat_length; pose proof (Len q (Sub q ltac:(left; reflexivity))); lia).
    rewrite IH by (intros x Hx; apply Sub; right; exact Hx). reflexivity. }
  destruct (unpack_ok (src r) (rord r) (s_rmap (S1 r)) rpr O2 M L2 cnt bufs (out r) V2) as (o & Eo & Oo).
  { apply map_length. }
  { intros k q b Hk Hb. unfold bufs in Hb. rewrite vread_fmap, Hk in Hb. injection Hb as <-. apply Len, (vread_In _ _ _ Hk). }
  assert (E : xch_done cnt junk (S1 r) (map (fun s => msg s r) (xch_recvs (S1 r))) = Some (SS (vals r) o (s_smap (S1 r)) (s_rmap (S1 r)) (s_bufs (S1 r)))).
  { unfold xch_done. rewrite Eb, EO, Eo, EV. reflexivity. }
  exists rpr, bufs. unfold S2. rewrite E. cbn [s_vals s_out]. auto.
Qed.

Lemma send_recv_ok : prog_ok n (send_recv cnt junk dst sord src rord) S0 S2.
Proof.
  pose proof HP as (P1 & P2 & P3). cbn [prog_ok send_recv]. exists S1. split.
  { intros r Hr. destruct (pack_at r Hr) as (? & ? & E & _). exact E. }
  exists S2. split; [|cbn [prog_ok]; reflexivity].
  apply single_phase with (g := msg) (src := fun r => xch_recvs (S1 r)) (dst := fun r => map (fun p => Z.to_nat (fst p)) (x_peers (s_smap (S1 r)))).
  - intros r Hr. destruct (pack_at r Hr) as (spr0 & rpr & _ & _ & _ & _ & M & _). unfold xch_recvs. rewrite (peers_nat _ _ _ _ M). apply NoDup_to_nat; [apply M|]. intros x Hx. apply M in Hx. tauto.
  - intros r Hr. destruct (pack_at r Hr) as (spr & rpr0 & _ & _ & _ & M & _ & _). rewrite (peers_nat _ _ _ _ M). apply NoDup_to_nat; [apply M|]. intros x Hx. apply M in Hx. tauto.
  - intros r s Hr. destruct (pack_at r Hr) as (spr0 & rpr & _ & _ & _ & _ & M & _). unfold xch_recvs. rewrite (peers_nat _ _ _ _ M). intros H.
    apply in_map_iff in H as (q & <- & Hq). apply M in Hq as [A B]. pose proof (P2 r q Hr B). lia.
  - intros r s Hr. destruct (pack_at r Hr) as (spr & rpr0 & _ & _ & _ & M & _ & _). rewrite (peers_nat _ _ _ _ M). intros H.
    apply in_map_iff in H as (q & <- & Hq). apply M in Hq as [A B]. pose proof (P1 r q Hr B). lia.
  - intros r s Hr Hs. destruct (pack_at r Hr) as (spr0 & rpr & _ & _ & _ & _ & M & _). destruct (pack_at s Hs) as (spr & rpr0 & _ & _ & _ & M' & _ & _).
    unfold xch_recvs. rewrite (peers_nat _ _ _ _ M), (peers_nat _ _ _ _ M').
    assert (E : In (Z.of_nat s) (src r) <-> In (Z.of_nat r) (dst s)).
    { rewrite !occ_pos. unfold occ. rewrite (P3 s r Hs Hr). tauto. }
    assert (X : forall pr x, (forall q, In q pr -> 0 <= q) -> (In x (map Z.to_nat pr) <-> In (Z.of_nat x) pr)).
    { intros pr x Hp. rewrite in_map_iff. split; [intros (q & <- & Hq); rewrite Z2Nat.id; auto|]. intros Hx. exists (Z.of_nat x). split; [apply Nat2Z.id|exact Hx]. }
    rewrite !X by (intros q Hq; apply M in Hq || apply M' in Hq; tauto). destruct M as (_ & M & _). destruct M' as (_ & M' & _). rewrite M, M'. split; intros [? ?]; split; try lia; tauto.
  - reflexivity.
  - intros r Hr. apply sends_at, Hr.
  - intros r Hr. destruct (done_at r Hr) as (? & ? & E & _). exact E.
Qed.

Theorem exchange_prog : exists S' out',
  prog_ok n (send_recv cnt junk dst sord src rord) (fun r => SS0 (vals r) (out r)) S' /\
  (forall r, (r < n)%nat -> s_vals (S' r) = vals r /\ s_out (S' r) = out' r /\ shaped cnt (length (src r)) (out' r)) /\
  (forall s r i j k c, (s < n)%nat -> (r < n)%nat -> 0 <= c < cnt ->
     numbered (dst s) (sord s) (Z.of_nat r) i k -> numbered (src r) (rord r) (Z.of_nat s) j k ->
     vals_at (out' r) c j = vals_at (vals s) c i) /\
  (forall r j s, (r < n)%nat -> vread (src r) j = Some s -> 0 <= s ->
     exists k i, numbered (src r) (rord r) s j k /\ numbered (dst (Z.to_nat s)) (sord (Z.to_nat s)) (Z.of_nat r) i k) /\
  (forall r j q c, (r < n)%nat -> vread (src r) j = Some q -> q < 0 -> 0 <= c < cnt -> vals_at (out' r) c j = vals_at (out r) c j).
Proof.
  pose proof HP as (_ & P2 & P3).
  exists S2, (fun r => s_out (S2 r)). split; [apply send_recv_ok|]. split; [|split; [|split]].
  - intros r Hr. destruct (done_at r Hr) as (? & ? & _ & _ & _ & E & O & _). auto.
  - intros s r i j k c Hs Hr Hc Hi Hj. destruct (done_at r Hr) as (rpr & bufs & _ & M & -> & _ & _ & O & _).
    destruct (HS s Hs) as (OS & _). destruct (HR r Hr) as (OR & _).
    pose proof Hi as [Ri _]. pose proof Hj as [Rj _].
    apply numbered_sel in Hi; [|apply (order_NoDup _ _ OS)]. apply numbered_sel in Hj; [|apply (order_NoDup _ _ OR)].
    destruct (In_vread rpr (Z.of_nat s)) as (x & Hx). { apply M. split; [lia|]. eapply vread_In; eauto. }
    rewrite (O x (Z.of_nat s) (msg s r) c k j Hx); [| |exact Hc|exact Hj].
    + destruct (msg_at s r Hs) as [_ G]; [eapply vread_In; eauto|]. rewrite <- (G c k i Hc Hi). f_equal. f_equal. f_equal. unfold occ. f_equal. symmetry. apply P3; auto.
    + rewrite vread_fmap, Hx. cbn [option_map]. rewrite Nat2Z.id. reflexivity.
  - intros r j s Hr Hj Ps. destruct (HR r Hr) as (OR & _). pose proof (P2 r s Hr (vread_In _ _ _ Hj)) as Bs.
    destruct (HS (Z.to_nat s) ltac:(lia)) as (OS & _).
    assert (Hin : In j (sel (src r) s (rord r))) by (apply sel_In; split; [eapply order_In; eauto|exact Hj]).
    apply In_nth_error in Hin as (k & Hk). exists k.
    assert (Lk : (k < length (sel (dst (Z.to_nat s)) (Z.of_nat r) (sord (Z.to_nat s))))%nat).
    { assert (A : (k < length (sel (src r) s (rord r)))%nat) by (apply nth_error_Some; congruence).
      pose proof (sel_order _ _ OR s) as E1. pose proof (sel_order _ _ OS (Z.of_nat r)) as E2.
      assert (occ (dst (Z.to_nat s)) (Z.of_nat r) = occ (src r) s); [|lia].
      unfold occ. f_equal. replace s with (Z.of_nat (Z.to_nat s)) at 2 by lia. apply P3; lia. }
    destruct (nth_error (sel (dst (Z.to_nat s)) (Z.of_nat r) (sord (Z.to_nat s))) k) as [i|] eqn:Ei; [|apply nth_error_None in Ei; lia].
    exists i. split; apply numbered_sel; auto; [apply (order_NoDup _ _ OR)|apply (order_NoDup _ _ OS)].
  - intros r j q c Hr Hj Pq Hc. destruct (done_at r Hr) as (rpr & bufs & _ & M & _ & _ & _ & _ & O). apply O; eauto.
Qed.

Theorem exchange_ok : exists S' out',
  computes n (send_recv cnt junk dst sord src rord) (fun r => SS0 (vals r) (out r)) S' /\
  (forall r, (r < n)%nat -> s_vals (S' r) = vals r /\ s_out (S' r) = out' r /\ shaped cnt (length (src r)) (out' r)) /\
  (forall s r i j k c, (s < n)%nat -> (r < n)%nat -> 0 <= c < cnt ->
     numbered (dst s) (sord s) (Z.of_nat r) i k -> numbered (src r) (rord r) (Z.of_nat s) j k ->
     vals_at (out' r) c j = vals_at (vals s) c i) /\
  (forall r j s, (r < n)%nat -> vread (src r) j = Some s -> 0 <= s ->
     exists k i, numbered (src r) (rord r) s j k /\ numbered (dst (Z.to_nat s)) (sord (Z.to_nat s)) (Z.of_nat r) i k) /\
  (forall r j q c, (r < n)%nat -> vread (src r) j = Some q -> q < 0 -> 0 <= c < cnt -> vals_at (out' r) c j = vals_at (out r) c j).
Proof.
  destruct exchange_prog as (S' & out' & A & B). exists S', out'. split; [apply prog_computes, A|exact B].
Qed.
End Exchange.

(** ** The order of the receiving points *)

Lemma is_sorted_spec l : forall prev, is_sorted prev l = true ->
  (forall x, In x l -> prev <= x) /\ forall l1 x l2 y l3, l = l1 ++ x :: l2 ++ y :: l3 -> x <= y.
Proof.
  induction l as [|a l IH]; intros prev H; cbn [is_sorted] in H; [split; [intros x []|intros [|] ? ? ? ?; discriminate]|].
  apply andb_prop in H as [H1 H2]. apply negb_true_iff, Z.ltb_ge in H1. destruct (IH a H2) as [A B]. split.
  - intros x [<-|Hx]; [exact H1|]. specialize (A x Hx). lia.
  - intros [|b l1] x l2 y l3 E; cbn [app] in E.
    + injection E as <- ->. apply A, in_elt.
    + injection E as <- ->. apply (B l1 x l2 y l3 eq_refl).
Qed.

Lemma zseq_split a n l1 i l2 : zseq a n = l1 ++ i :: l2 -> i = a + Z.of_nat (length l1).
Proof.
  revert a n. induction l1 as [|b l1 IH]; intros a [|n] E; cbn [zseq app] in E; try discriminate; injection E as E1 E2.
  - cbn. lia.
  - apply IH in E2. cbn [length]. lia.
Qed.

Lemma order_sorted sort R pts : sorts sort -> Permutation (send_recv_order sort R pts) (zseq 0 (length pts)) /\
  forall l1 i l2 j l3 p q, send_recv_order sort R pts = l1 ++ i :: l2 ++ j :: l3 -> vread pts i = Some p -> vread pts j = Some q ->
    rindex ColMajor R p <= rindex ColMajor R q.
Proof.
  intros HS. unfold send_recv_order. set (keys := map (rindex ColMajor R) pts).
  assert (K : forall i p, vread pts i = Some p -> vread keys i = Some (rindex ColMajor R p)) by (intros i p H; unfold keys; rewrite vread_fmap, H; reflexivity).
  assert (L : length keys = length pts) by apply map_length. destruct (is_sorted 0 keys) eqn:E.
  - rewrite L. split; [reflexivity|]. intros l1 i l2 j l3 p q Ez Hi Hj. destruct (is_sorted_spec keys 0 E) as [_ G].
    pose proof (zseq_split _ _ _ _ _ Ez) as Ei. assert (Ez' : zseq 0 (length pts) = (l1 ++ i :: l2) ++ j :: l3) by (rewrite <- app_assoc; exact Ez).
    pose proof (zseq_split _ _ _ _ _ Ez') as Ej. rewrite app_length in Ej. cbn [length] in Ej.
    apply K in Hi. apply K in Hj. rewrite Ei, Z.add_0_l, vread_nth in Hi. rewrite Ej, Z.add_0_l, vread_nth in Hj.
    apply nth_error_split in Hj as (m1 & m2 & Ek & Lk). rewrite Ek in Hi. rewrite nth_error_app1 in Hi by lia. apply nth_error_split in Hi as (m3 & m4 & Ek' & Lk').
    apply (G m3 _ m4 _ m2). rewrite Ek, Ek', <- app_assoc. reflexivity.
  - destruct (HS keys) as [A B]. rewrite <- L. split; [exact A|]. intros l1 i l2 j l3 p q Ez Hi Hj. eapply B; eauto.
Qed.

Lemma NoDup_lt_sorted (l : list Z) : NoDup l -> (forall l1 x l2 y l3, l = l1 ++ x :: l2 ++ y :: l3 -> x <= y) -> StronglySorted Z.lt l.
Proof.
  induction l as [|a l IH]; intros ND H; constructor.
  - inversion ND; subst. apply IH; [assumption|]. intros l1 x l2 y l3 ->. apply (H (a :: l1) x l2 y l3). reflexivity.
  - apply Forall_forall. intros y Hy. apply in_split in Hy as (l1 & l2 & ->). pose proof (H [] a l1 y l2 eq_refl). inversion ND; subst.
    assert (a <> y); [|lia]. intros ->. apply H3, in_elt.
Qed.

Lemma sorted_unique (l1 : list Z) : forall l2, StronglySorted Z.lt l1 -> StronglySorted Z.lt l2 -> (forall x, In x l1 <-> In x l2) -> l1 = l2.
Proof.
  induction l1 as [|a l1 IH]; intros [|b l2] S1 S2 H; [reflexivity|exfalso; apply (proj2 (H b)); left; reflexivity|exfalso; apply (proj1 (H a)); left; reflexivity|].
  inversion S1; subst. inversion S2; subst. rewrite Forall_forall in *.
  assert (a = b).
  { destruct (proj1 (H a) ltac:(left; reflexivity)) as [E|E]; [congruence|]. destruct (proj2 (H b) ltac:(left; reflexivity)) as [E'|E']; [congruence|].
    specialize (H3 _ E'). specialize (H5 _ E). lia. }
  subst. f_equal. apply IH; auto. intros x. specialize (H x). split; intros Hx.
  - destruct (proj1 H ltac:(right; exact Hx)) as [<-|]; [|assumption]. specialize (H3 _ Hx). lia.
  - destruct (proj2 H ltac:(right; exact Hx)) as [<-|]; [|assumption]. specialize (H5 _ Hx). lia.
Qed.

Lemma filter_split {A} (f : A -> bool) l l1 x l2 : filter f l = l1 ++ x :: l2 -> exists m1 m2, l = m1 ++ x :: m2 /\ filter f m1 = l1 /\ filter f m2 = l2.
Proof.
  revert l1. induction l as [|a l IH]; intros l1 E; cbn [filter] in E; [destruct l1; discriminate|]. destruct (f a) eqn:F.
  - destruct l1 as [|b l1]; cbn [app] in E; injection E as E1 E2.
    + subst. exists [], l. auto.
    + subst. destruct (IH l1 E2) as (m1 & m2 & -> & A1 & A2). exists (b :: m1), m2. split; [reflexivity|]. split; [cbn [filter]; rewrite F; congruence|exact A2].
  - destruct (IH l1 E) as (m1 & m2 & -> & A1 & A2). exists (a :: m1), m2. split; [reflexivity|]. split; [cbn [filter]; rewrite F; exact A1|exact A2].
Qed.

(** The keys of the positions with rank q, in the order. *)
Definition keys_of (R : range) (pts : list (tup Z)) (l : list Z) : list Z :=
  map (fun i => match vread pts i with Some p => rindex ColMajor R p | None => -1 end) l.

Lemma keys_sorted sort R ranks pts q : sorts sort -> length pts = length ranks -> (forall p, In p pts -> pt_in R p) -> 0 <= q -> distinct ranks pts ->
  StronglySorted Z.lt (keys_of R pts (sel ranks q (send_recv_order sort R pts))).
Proof.
  intros HS L HR Pq D. destruct (order_sorted sort R pts HS) as [P G]. set (ord := send_recv_order sort R pts) in *.
  assert (Pos : forall i, In i (sel ranks q ord) -> exists p, vread pts i = Some p /\ vread ranks i = Some q /\ pt_in R p).
  { intros i Hi. apply sel_In in Hi as [_ Hi]. destruct (vread_ge pts i) as (p & Hp); [rewrite L; eapply vread_lt; eauto|]. exists p. split; [exact Hp|]. split; [exact Hi|]. apply HR. eapply vread_In; eauto. }
  apply NoDup_lt_sorted.
  - unfold keys_of. assert (ND : NoDup (sel ranks q ord)). { apply NoDup_filter, (Permutation_NoDup (Permutation_sym P)), zseq_NoDup. }
    revert Pos ND. generalize (sel ranks q ord). induction l as [|a l IH]; intros Pos ND; cbn [map]; constructor.
    + intros H. apply in_map_iff in H as (b & E & Hb). destruct (Pos a ltac:(left; reflexivity)) as (p & A1 & A2 & A3). destruct (Pos b ltac:(right; exact Hb)) as (p' & B1 & B2 & B3).
      rewrite A1, B1 in E. apply rindex_inj in E; auto. subst. inversion ND; subst. apply H1. replace a with b; [exact Hb|]. apply (D b a q p Pq); auto.
    + inversion ND; subst. apply IH; [intros i Hi; apply Pos; right; exact Hi|assumption].
  - intros l1 x l2 y l3 E. unfold keys_of in E. apply map_eq_app in E as (k1 & k2 & E1 & <- & E2). apply map_eq_cons in E2 as (i & k3 & -> & <- & E2).
    apply map_eq_app in E2 as (k4 & k5 & -> & <- & E2). apply map_eq_cons in E2 as (j & k6 & -> & <- & <-).
    destruct (Pos i) as (p & A1 & _); [rewrite E1; apply in_elt|]. destruct (Pos j) as (p' & B1 & _); [rewrite E1; apply in_or_app; right; right; apply in_elt|]. rewrite A1, B1.
    unfold sel in E1. apply filter_split in E1 as (m1 & m2 & Eo & _ & E1). apply filter_split in E1 as (m3 & m4 & -> & _ & _). eapply G; eauto.
Qed.

Section Points.
Context {V : Type}.
Variables (cnt : Z) (junk : V) (n : nat) (R : range) (ssort rsort : nat -> list Z -> list Z)
  (dst src : nat -> list Z) (spts rpts : nat -> list (tup Z)) (vals out : nat -> list (list V)).
Hypothesis HC : 0 <= cnt.
Hypothesis HD : forall r q, (r < n)%nat -> In q (dst r) -> q < Z.of_nat n.
Hypothesis HQ : forall r q, (r < n)%nat -> In q (src r) -> q < Z.of_nat n.
Hypothesis HA : agreed n dst src spts rpts.
Hypothesis HS : forall r, (r < n)%nat -> sorts (ssort r) /\ length (spts r) = length (dst r) /\ (forall p, In p (spts r) -> pt_in R p) /\
  distinct (dst r) (spts r) /\ Z.of_nat (length (dst r)) <= 2 ^ 31 /\ shaped cnt (length (dst r)) (vals r).
Hypothesis HR : forall r, (r < n)%nat -> sorts (rsort r) /\ length (rpts r) = length (src r) /\ (forall p, In p (rpts r) -> pt_in R p) /\
  distinct (src r) (rpts r) /\ Z.of_nat (length (src r)) <= 2 ^ 31 /\ shaped cnt (length (src r)) (out r).

Let sord r := send_recv_order (ssort r) R (spts r).
Let rord r := send_recv_order (rsort r) R (rpts r).

Lemma keys_mem ranks pts ord q x : is_order ranks ord -> length pts = length ranks ->
  (In x (keys_of R pts (sel ranks q ord)) <-> exists p, x = rindex ColMajor R p /\ exists i, vread ranks i = Some q /\ vread pts i = Some p).
Proof.
  intros O L. unfold keys_of. rewrite in_map_iff. split.
  - intros (i & <- & Hi). apply sel_In in Hi as [_ Hi]. destruct (vread_ge pts i) as (p & Hp); [rewrite L; eapply vread_lt; eauto|]. rewrite Hp. exists p. eauto.
  - intros (p & -> & i & Hi & Hp). exists i. rewrite Hp. split; [reflexivity|]. apply sel_In. split; [eapply order_In; eauto|exact Hi].
Qed.

Lemma orders r : (r < n)%nat -> is_order (dst r) (sord r) /\ is_order (src r) (rord r).
Proof.
  intros Hr. destruct (HS r Hr) as (A1 & A2 & _). destruct (HR r Hr) as (B1 & B2 & _). unfold is_order, sord, rord.
  rewrite <- A2, <- B2. split; apply order_sorted; assumption.
Qed.

Lemma same_keys s r : (s < n)%nat -> (r < n)%nat ->
  keys_of R (spts s) (sel (dst s) (Z.of_nat r) (sord s)) = keys_of R (rpts r) (sel (src r) (Z.of_nat s) (rord r)).
Proof.
  intros Hs Hr. destruct (HS s Hs) as (A1 & A2 & A3 & A4 & _). destruct (HR r Hr) as (B1 & B2 & B3 & B4 & _).
  destruct (orders s Hs) as [O1 _]. destruct (orders r Hr) as [_ O2]. apply sorted_unique.
  - apply keys_sorted; auto; lia.
  - apply keys_sorted; auto; lia.
  - intros x. rewrite (keys_mem _ _ _ _ _ O1 A2), (keys_mem _ _ _ _ _ O2 B2). split; intros (p & E & H); exists p; (split; [exact E|]); apply (HA s r p Hs Hr), H.
Qed.

Lemma points_paired : paired n dst src.
Proof.
  split; [exact HD|]. split; [exact HQ|]. intros s r Hs Hr. destruct (orders s Hs) as [O1 _]. destruct (orders r Hr) as [_ O2].
  pose proof (sel_order _ _ O1 (Z.of_nat r)) as E1. pose proof (sel_order _ _ O2 (Z.of_nat s)) as E2. pose proof (same_keys s r Hs Hr) as E.
  apply (f_equal (@length Z)) in E. unfold keys_of in E. rewrite !map_length in E. unfold occ in *. lia.
Qed.

Theorem points_prog : exists S' out',
  prog_ok n (send_recv cnt junk dst sord src rord) (fun r => SS0 (vals r) (out r)) S' /\
  (forall r, (r < n)%nat -> s_out (S' r) = out' r /\ shaped cnt (length (src r)) (out' r)) /\
  (forall s r i j p c, (s < n)%nat -> (r < n)%nat -> 0 <= c < cnt ->
     vread (dst s) i = Some (Z.of_nat r) -> vread (spts s) i = Some p ->
     vread (src r) j = Some (Z.of_nat s) -> vread (rpts r) j = Some p ->
     vals_at (out' r) c j = vals_at (vals s) c i) /\
  (forall r j q c, (r < n)%nat -> vread (src r) j = Some q -> q < 0 -> 0 <= c < cnt -> vals_at (out' r) c j = vals_at (out r) c j).
Proof.
  destruct (exchange_prog cnt junk n dst sord src rord vals out HC points_paired) as (S' & out' & A & B & C & _ & D).
  - intros r Hr. split; [apply orders, Hr|]. destruct (HS r Hr) as (_ & _ & _ & _ & E & F). auto.
  - intros r Hr. split; [apply orders, Hr|]. destruct (HR r Hr) as (_ & _ & _ & _ & E & F). auto.
  - exists S', out'. split; [exact A|]. split; [intros r Hr; destruct (B r Hr) as (_ & X & Y); auto|]. split; [|exact D].
    intros s r i j p c Hs Hr Hc Hi Hpi Hj Hpj. destruct (orders s Hs) as [O1 _]. destruct (orders r Hr) as [_ O2].
    destruct (HS s Hs) as (_ & A2 & A3 & A4 & _). destruct (HR r Hr) as (_ & B2 & B3 & B4 & _).
    assert (Ii : In i (sel (dst s) (Z.of_nat r) (sord s))) by (apply sel_In; split; [eapply order_In; eauto|exact Hi]).
    apply In_nth_error in Ii as (k & Hk).
    assert (Kr : nth_error (keys_of R (rpts r) (sel (src r) (Z.of_nat s) (rord r))) k = Some (rindex ColMajor R p)).
    { rewrite <- (same_keys s r Hs Hr). unfold keys_of. rewrite nth_error_map, Hk. cbn [option_map]. rewrite Hpi. reflexivity. }
    unfold keys_of in Kr. rewrite nth_error_map in Kr. destruct (nth_error (sel (src r) (Z.of_nat s) (rord r)) k) as [j'|] eqn:Ej; [|discriminate].
    cbn [option_map] in Kr. pose proof (nth_error_In _ _ Ej) as Ij. apply sel_In in Ij as [_ Ij].
    destruct (vread_ge (rpts r) j') as (p' & Hp'); [rewrite B2; eapply vread_lt; eauto|]. rewrite Hp' in Kr. injection Kr as Kr.
    apply rindex_inj in Kr; [|apply B3; eapply vread_In; eauto|apply B3; eapply vread_In; eauto]. subst p'.
    assert (j' = j) by (apply (B4 j' j (Z.of_nat s) p); auto; lia). subst j'.
    apply (C s r i j k c Hs Hr Hc); apply numbered_sel; auto; [apply (order_NoDup _ _ O1)|apply (order_NoDup _ _ O2)].
Qed.

Theorem points_ok : exists S' out',
  computes n (send_recv cnt junk dst sord src rord) (fun r => SS0 (vals r) (out r)) S' /\
  (forall r, (r < n)%nat -> s_out (S' r) = out' r /\ shaped cnt (length (src r)) (out' r)) /\
  (forall s r i j p c, (s < n)%nat -> (r < n)%nat -> 0 <= c < cnt ->
     vread (dst s) i = Some (Z.of_nat r) -> vread (spts s) i = Some p ->
     vread (src r) j = Some (Z.of_nat s) -> vread (rpts r) j = Some p ->
     vals_at (out' r) c j = vals_at (vals s) c i) /\
  (forall r j q c, (r < n)%nat -> vread (src r) j = Some q -> q < 0 -> 0 <= c < cnt -> vals_at (out' r) c j = vals_at (out r) c j).
Proof.
  destruct points_prog as (S' & out' & A & B). exists S', out'. split; [apply prog_computes, A|exact B].
Qed.
End Points.

(** ** More than 2^31 values *)

Lemma ofoldl_fails {A B} (f : B -> A -> option B) l a : In a l -> (forall s, f s a = None) -> forall s, ofoldl f l s = None.
Proof.
  induction l as [|b l IH]; intros Hi H s; [destruct Hi|]. cbn [ofoldl]. destruct Hi as [->|Hi]; [rewrite H; reflexivity|].
  destruct (f s b); [apply IH; auto|reflexivity].
Qed.

Lemma large_fails {V} cnt (vals bufs : list (list V)) ranks m : 2 ^ 31 < Z.of_nat (length ranks) ->
  make_map ranks (default_order ranks) = Some m -> pack cnt m vals bufs = None.
Proof.
  intros L E. destruct (make_map_ok ranks (default_order ranks)) as (m' & pr & E' & M). assert (m' = m) by congruence. subst m'.
  pose proof M as (_ & _ & _ & HX & _). unfold pack, pack_one. rewrite ofoldl_index, HX. unfold default_order.
  rewrite (ofoldl_fails _ _ (2 ^ 31)); [reflexivity|apply zseq_In; lia|]. intros s. cbv zeta.
  replace (to_int (2 ^ 31)) with (- 2 ^ 31) by reflexivity. reflexivity.
Qed.

Lemma large_exists : exists ranks, 2 ^ 31 < Z.of_nat (length ranks) /\ (forall q, In q ranks -> q = 0).
Proof.
  exists (repeat 0 (Z.to_nat (2 ^ 31 + 1))). split; [rewrite repeat_length; rewrite Z2Nat.id; lia|]. intros q H. apply repeat_spec in H. exact H.
Qed.

(** ** A sort, for the examples *)

Fixpoint ins (keys : list Z) (i : Z) (l : list Z) : list Z :=
  match l with
  | [] => [i]
  | j :: l => if match vread keys i, vread keys j with Some x, Some y => x <=? y | _, _ => true end then i :: j :: l else j :: ins keys i l
  end.
Definition isort (keys : list Z) : list Z := fold_right (ins keys) [] (zseq 0 (length keys)).

Lemma ins_perm keys i l : Permutation (ins keys i l) (i :: l).
Proof.
  induction l as [|j l IH]; cbn [ins]; [reflexivity|]. destruct (match vread keys i with Some x => _ | None => _ end); [reflexivity|].
  rewrite IH. apply perm_swap.
Qed.

Definition kle (keys : list Z) (i j : Z) : Prop := forall x y, vread keys i = Some x -> vread keys j = Some y -> x <= y.

Lemma ins_sorted keys i l : (exists x, vread keys i = Some x) -> (forall j, In j l -> exists y, vread keys j = Some y) -> StronglySorted (kle keys) l -> StronglySorted (kle keys) (ins keys i l).
Proof.
  intros (xi & Hi). induction l as [|j l IH]; intros V S; cbn [ins]; [constructor; constructor|]. inversion S; subst. rewrite Forall_forall in H2.
  destruct (V j ltac:(left; reflexivity)) as (y & Hy). rewrite Hi, Hy. destruct (Z.leb_spec xi y) as [Hl|Hl].
  - constructor; [exact S|]. apply Forall_forall. intros k [<-|Hk] a b Ha Hb; [assert (a = xi) by congruence; assert (b = y) by congruence; lia|].
    pose proof (H2 k Hk y b Hy Hb). assert (a = xi) by congruence. lia.
  - constructor; [apply IH; [intros k Hk; apply V; right; exact Hk|exact H1]|]. apply Forall_forall. intros k Hk.
    apply (Permutation_in _ (ins_perm keys i l)) in Hk as [<-|Hk]; [|apply H2, Hk]. intros a b Ha Hb. assert (a = y) by congruence. assert (b = xi) by congruence. lia.
Qed.

Lemma isort_sorts : sorts isort.
Proof.
  intros keys. unfold isort. split.
  - generalize (zseq 0 (length keys)). induction l as [|a l IH]; cbn [fold_right]; [reflexivity|]. rewrite ins_perm. constructor. exact IH.
  - assert (G : forall l, (forall j, In j l -> exists y, vread keys j = Some y) -> (forall j, In j (fold_right (ins keys) [] l) -> exists y, vread keys j = Some y) /\ StronglySorted (kle keys) (fold_right (ins keys) [] l)).
    { induction l as [|a l IH]; intros V; cbn [fold_right]; [split; [intros j []|constructor]|].
      destruct IH as [V' S]; [intros j Hj; apply V; right; exact Hj|]. split.
      - intros j Hj. apply (Permutation_in _ (ins_perm keys a _)) in Hj as [<-|Hj]; [apply V; left; reflexivity|apply V', Hj].
      - apply ins_sorted; [apply V; left; reflexivity|exact V'|exact S]. }
    intros l1 i l2 j l3 x y E Hx Hy. destruct (G (zseq 0 (length keys))) as [_ S].
    { intros k Hk. apply zseq_In in Hk. apply vread_ge. lia. }
    rewrite E in S. clear E G. induction l1 as [|a l1 IH]; cbn [app] in S; inversion S; subst; [|apply IH; assumption].
    rewrite Forall_forall in H2. apply (H2 j); [apply in_elt|exact Hx|exact Hy].
Qed.
