(** Proofs about sending lists of things to ranks. *)
From Coq Require Import List ZArith Bool Lia.
From Verif Require Import TupleModel RangeModel RangeProof Base IndexerModel ArrayModel ArrayProof ContModel ContSpec ContProof MapProof OMap.
From Verif Require Import HashModel HashProof ProtoModel ProtoSpec NetModel NetSpec NetProof NetPhase NetTools SendModel SendProof XchProof XinModel MatModel DistModel.
Import ListNotations.
Local Open Scope Z_scope.
Local Notation mok := (mok Z.ltb).
Local Notation mget := (mget Z.ltb).

Section Push.
Context {A : Type}.
Definition for_rank (q : Z) (l : list (nat * A)) : list A := map snd (filter (fun x => Z.of_nat (fst x) =? q) l).
Definition by_rank (l : list (nat * A)) (m : smap Z (list A)) : Prop :=
  mok m /\ forall q, mget m q = match for_rank q l with [] => None | x => Some x end.

Lemma for_rank_app q l1 l2 : for_rank q (l1 ++ l2) = for_rank q l1 ++ for_rank q l2.
Proof. unfold for_rank. now rewrite filter_app, map_app. Qed.
Lemma push_ok l m x : by_rank l m -> exists m', push m x = Some m' /\ by_rank (l ++ [x]) m'.
Proof.
  intros [M G]. unfold push. destruct x as [k a]. cbn [fst snd].
  destruct (map_fetch Z.ltb m (Z.of_nat k) []) as [m' i] eqn:F.
  destruct (fetch_entry m (Z.of_nat k) [] M) as (e & E1 & E2). rewrite F in E1. cbn [fst snd] in E1. rewrite E1.
  eexists. split; [reflexivity|]. destruct (fetch_write m (Z.of_nat k) [] (snd e ++ [a]) M) as [W1 W2]. rewrite F in W1, W2. cbn [fst snd] in W1, W2.
  split; [exact W1|]. intros q. rewrite W2, for_rank_app. unfold for_rank at 2. cbn [filter fst]. destruct (Z.eqb_spec q (Z.of_nat k)) as [->|N].
  - rewrite Z.eqb_refl, E2, G. cbn [map snd]. destruct (for_rank (Z.of_nat k) l); reflexivity.
  - destruct (Z.eqb_spec (Z.of_nat k) q); [congruence|]. cbn [map]. rewrite app_nil_r. apply G.
Qed.
Lemma pushes l2 : forall l1 m, by_rank l1 m -> exists m', ofoldl push l2 m = Some m' /\ by_rank (l1 ++ l2) m'.
Proof.
  induction l2 as [|x l2 IH]; intros l1 m G; cbn [ofoldl].
  - exists m. rewrite app_nil_r. auto.
  - destruct (push_ok l1 m x G) as (m1 & -> & G1). destruct (IH (l1 ++ [x]) m1 G1) as (m' & E & G'). exists m'. rewrite <- app_assoc in G'. auto.
Qed.
Lemma push_all l : exists m, ofoldl push l map_empty = Some m /\ by_rank l m.
Proof. apply (pushes l [] map_empty). split; [apply mok_empty|]. intros b. reflexivity. Qed.

Lemma for_rank_In q l a : In a (for_rank q l) <-> exists k, In (k, a) l /\ Z.of_nat k = q.
Proof.
  unfold for_rank. rewrite in_map_iff. split.
  - intros ((k & b) & <- & H). apply filter_In in H as [H E]. apply Z.eqb_eq in E. eauto.
  - intros (k & H & E). exists (k, a). split; [reflexivity|]. apply filter_In. split; [exact H|]. now apply Z.eqb_eq.
Qed.
Lemma by_rank_keys l m : by_rank l m -> forall q, In q (m_keys m) <-> exists x, In x l /\ Z.of_nat (fst x) = q.
Proof.
  intros [M G] q. rewrite (mkeys_In Z.ltb zltb_swo zEQ m q M), G. split.
  - destruct (for_rank q l) as [|a t] eqn:E; [congruence|]. intros _. assert (I : In a (for_rank q l)) by (rewrite E; left; reflexivity).
    apply for_rank_In in I as (k & I & J). exists (k, a). auto.
  - intros ((k & a) & I & J). destruct (for_rank q l) as [|b t] eqn:E; [|discriminate].
    assert (X : In a (for_rank q l)) by (apply for_rank_In; eauto). rewrite E in X. contradiction.
Qed.
Lemma by_rank_entries l m : by_rank l m -> m_entries m = map (fun q => (q, for_rank q l)) (m_keys m).
Proof.
  intros [M G]. rewrite (mkeys Z.ltb zEQ m M), map_map. rewrite <- (map_id (m_entries m)) at 1. apply map_ext_in. intros [q v] H.
  cbn [fst]. apply (mget_In Z.ltb zltb_swo zEQ m q v M) in H. rewrite G in H. destruct (for_rank q l); congruence.
Qed.

Section Ranks.
Context (n : nat) (l : nat -> list (nat * A)) (m : nat -> smap Z (list A)).
Hypothesis HM : forall r, (r < n)%nat -> by_rank (l r) (m r).
Hypothesis HL : forall r x, (r < n)%nat -> In x (l r) -> (fst x < n)%nat.
Definition bdst (r : nat) : list nat := map Z.to_nat (m_keys (m r)).
Definition bsrc (r : nat) : list nat := named n bdst r.
Definition given (s d : nat) : list A := for_rank (Z.of_nat d) (l s).

Lemma bkey r q : (r < n)%nat -> In q (m_keys (m r)) -> Z.of_nat (Z.to_nat q) = q /\ (Z.to_nat q < n)%nat.
Proof. intros Hr H. apply (by_rank_keys _ _ (HM r Hr)) in H as (x & I & E). pose proof (HL r x Hr I). lia. Qed.
Lemma bsrc_In r s : In s (bsrc r) <-> (s < n)%nat /\ In r (bdst s).
Proof. unfold bsrc, named. rewrite filter_In, in_seq. fold (memb r (bdst s)). rewrite memb_In. intuition lia. Qed.
Lemma bdst_NoDup r : (r < n)%nat -> NoDup (bdst r).
Proof.
  intros Hr. pose proof (mkeys_NoDup Z.ltb zltb_swo (m r) (proj1 (HM r Hr))) as N. unfold bdst.
  assert (H : forall b, In b (m_keys (m r)) -> Z.of_nat (Z.to_nat b) = b) by (intros b Hb; apply (bkey r b Hr Hb)).
  revert N H. generalize (m_keys (m r)). induction l0 as [|b k IH]; intros N H; cbn [map]; constructor; inversion N; subst.
  - intros X. apply in_map_iff in X as (b' & E & I). apply H2. rewrite <- (H b) by (cbn; auto). rewrite <- E, H by (cbn; auto). exact I.
  - apply IH; auto. intros; apply H; cbn; auto.
Qed.
Lemma blinks : linked n bsrc bdst.
Proof.
  split; [|split].
  - intros r Hr. split; [apply NoDup_filter, seq_NoDup|apply bdst_NoDup, Hr].
  - intros r s Hr [H|H]; [apply bsrc_In in H; apply H|]. apply in_map_iff in H as (b & <- & H). apply (bkey r b Hr H).
  - intros r s Hr Hs. rewrite bsrc_In. intuition.
Qed.
Lemma bentries {B} (h : list A -> B) r : (r < n)%nat -> map (fun e => (Z.to_nat (fst e), h (snd e))) (m_entries (m r)) = map (fun d => (d, h (given r d))) (bdst r).
Proof.
  intros Hr. rewrite (by_rank_entries _ _ (HM r Hr)). unfold bdst. rewrite !map_map. apply map_ext_in. intros b Hb. cbn [fst snd]. unfold given.
  destruct (bkey r b Hr Hb) as [-> _]. reflexivity.
Qed.
Lemma given_none s d : (s < n)%nat -> ~ In d (bdst s) -> given s d = [].
Proof.
  intros Hs N. unfold given. destruct (for_rank (Z.of_nat d) (l s)) as [|a t] eqn:E; [reflexivity|]. exfalso. apply N.
  assert (I : In a (for_rank (Z.of_nat d) (l s))) by (rewrite E; left; reflexivity). apply for_rank_In in I as (k & I & J).
  unfold bdst. apply in_map_iff. exists (Z.of_nat k). split; [lia|]. apply (by_rank_keys _ _ (HM s Hs)). exists (k, a). auto.
Qed.
Lemma brecv r : (r < n)%nat -> concat (map (fun s => given s r) (bsrc r)) = flat_map (fun s => given s r) (seq 0 n).
Proof.
  intros Hr. rewrite <- flat_map_concat_map. unfold bsrc, named.
  assert (X : forall k, (forall s, In s k -> (s < n)%nat) -> flat_map (fun s => given s r) (filter (fun s => existsb (Nat.eqb r) (bdst s)) k) = flat_map (fun s => given s r) k).
  { induction k as [|s k IH]; intros Hk; [reflexivity|]. cbn [filter flat_map]. destruct (existsb (Nat.eqb r) (bdst s)) eqn:E.
    - cbn [flat_map]. rewrite IH by (intros; apply Hk; now right). reflexivity.
    - rewrite IH by (intros; apply Hk; now right). rewrite given_none; [reflexivity|apply Hk; now left|]. now apply memb_false. }
  apply X. intros s Hs. apply in_seq in Hs. lia.
Qed.
End Ranks.
End Push.

(** Receiving donors and receivers at a time. *)
Lemma two_wait_ok n dsends rsends done (S S' : nat -> xst) sm dm gm sn dn gn :
  linked n sm dm -> linked n sn dn ->
  (forall r, (r < n)%nat -> bx_from (x_dbox (S r)) = sm r /\ bx_from (x_rbox (S r)) = sn r) ->
  (forall r, (r < n)%nat -> dsends (S r) = map (fun d => (d, gm r d)) (dm r) /\ rsends (S r) = map (fun d => (d, gn r d)) (dn r)) ->
  (forall r, (r < n)%nat -> done (S r) (map (fun s => gm s r) (sm r)) (map (fun s => gn s r) (sn r)) = Some (S' r)) ->
  phase_ok n (two_wait dsends rsends done) S S'.
Proof.
  intros (A1 & B1 & C1) (A2 & B2 & C2) HR HS HD. unfold two_wait, wait_all, phase_ok. split.
  - intros r Hr. cbn [p_recvs p_sends]. destruct (HR r Hr) as [-> ->]. split; [|split].
    + intros s Hs. apply in_app_or in Hs as [Hs|Hs]; eauto.
    + intros d m Hm. destruct (HS r Hr) as [E1 E2]. rewrite E1, E2 in Hm. apply in_app_or in Hm as [Hm|Hm];
        apply in_map_iff in Hm as (d' & E & Hd); injection E as -> _; eauto.
    + intros s Hs. destruct (HS s Hs) as [-> ->]. rewrite count_app, msgs_to_app, !count_memb by (apply A1 || apply A2; auto).
      rewrite !msgs_single by (apply A1 || apply A2; auto). rewrite app_length. f_equal.
      * destruct (memb s (sm r)) eqn:M1, (memb r (dm s)) eqn:M2; try reflexivity.
        -- apply memb_In in M1. apply memb_false in M2. exfalso. apply M2, C1; auto.
        -- apply memb_In in M2. apply memb_false in M1. exfalso. apply M1, C1; auto.
      * destruct (memb s (sn r)) eqn:M1, (memb r (dn s)) eqn:M2; try reflexivity.
        -- apply memb_In in M1. apply memb_false in M2. exfalso. apply M2, C2; auto.
        -- apply memb_In in M2. apply memb_false in M1. exfalso. apply M1, C2; auto.
  - intros r l Hr A. cbn [p_done]. destruct (HR r Hr) as [R1 R2]. pose proof (HD r Hr) as D1.
    erewrite buffers_arrival with (p := P2P (fun _ s => bx_from (x_dbox s) ++ bx_from (x_rbox s)) (fun _ s => dsends s ++ rsends s) _) (S := S) (r := r)
      (ms := map (fun s => gm s r) (sm r) ++ map (fun s => gn s r) (sn r)).
    + rewrite R1. rewrite firstn_app, skipn_app. rewrite !map_length, !Nat.sub_diag. cbn [firstn skipn]. rewrite app_nil_r.
      rewrite firstn_all2 by (rewrite map_length; lia). rewrite skipn_all2 by (rewrite map_length; lia). cbn [app]. exact D1.
    + exact A.
    + cbn [p_recvs]. rewrite R1, R2. rewrite !app_length, !map_length. reflexivity.
    + intros i Hi. unfold recv_msg. cbn [p_recvs p_sends]. rewrite R1, R2.
      destruct (Nat.lt_ge_cases i (length (sm r))) as [L|L].
      * rewrite nth_error_app1 by exact L. rewrite (nth_error_app1 (map _ _)) by (rewrite map_length; exact L).
        destruct (nth_error (sm r) i) as [s|] eqn:E; [|apply nth_error_None in E; lia].
        rewrite (map_nth_error _ _ _ E). assert (Is : In s (sm r)) by (apply nth_error_In in E; exact E). assert (Hs : (s < n)%nat) by eauto.
        destruct (HS s Hs) as [-> ->]. rewrite msgs_to_app, !msgs_single by (apply A1 || apply A2; auto).
        rewrite firstn_app. replace (i - length (sm r))%nat with 0%nat by lia. cbn [firstn]. rewrite app_nil_r.
        rewrite count_firstn by (try apply A1; auto). rewrite (proj2 (memb_In r (dm s)) (proj1 (C1 r s Hr Hs) Is)). reflexivity.
      * rewrite nth_error_app2 by exact L. rewrite (nth_error_app2 (map _ _)) by (rewrite map_length; exact L). rewrite map_length.
        rewrite !app_length, !map_length in Hi.
        destruct (nth_error (sn r) (i - length (sm r))) as [s|] eqn:E; [|apply nth_error_None in E; lia].
        rewrite (map_nth_error _ _ _ E). assert (Is : In s (sn r)) by (apply nth_error_In in E; exact E). assert (Hs : (s < n)%nat) by eauto.
        destruct (HS s Hs) as [-> ->]. rewrite msgs_to_app, !msgs_single by (apply A1 || apply A2; auto).
        rewrite firstn_app, firstn_all2 by exact L. rewrite count_app, (count_firstn _ (sn r)) by (try apply A2; auto). rewrite Nat.add_0_r.
        rewrite count_memb by (apply A1; auto). rewrite (proj2 (memb_In r (dn s)) (proj1 (C2 r s Hr Hs) Is)).
        destruct (memb s (sm r)) eqn:M1, (memb r (dm s)) eqn:M2; try reflexivity.
        -- apply memb_In in M1. apply memb_false in M2. exfalso. apply M2, C1; auto.
        -- apply memb_In in M2. apply memb_false in M1. exfalso. apply M1, C1; auto.
Qed.
