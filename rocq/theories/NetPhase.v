(** Phases that wait for all messages and receive them grouped by sender. *)
From Coq Require Import List Arith Bool Lia.
From Verif Require Import FRefModel ProtoModel ProtoSpec NetModel NetSpec NetProof.
Import ListNotations.
Local Open Scope nat_scope.
Local Arguments count : simpl never.

Section Phase.
Context {St Msg : Type}.

Lemma find_arrival (l : list (nat * Msg)) i m : NoDup (map fst l) -> In (i, m) l ->
  find (fun x => Nat.eqb (fst x) i) l = Some (i, m).
Proof.
  induction l as [|[j x] l IH]; intros N H; [contradiction|]. cbn in *. inversion N; subst.
  destruct (Nat.eqb_spec j i) as [->|Hj].
  - destruct H as [H|H]; [rewrite H; reflexivity|]. exfalso. apply H2. change i with (fst (i, m)). apply in_map, H.
  - destruct H as [H|H]; [congruence|]. apply IH; auto.
Qed.

(** A list of numbers below k without repetitions and of length k has them all. *)
Lemma arrival_all (p : p2p St Msg) S r l : arrival p S r l -> forall i, i < length (p_recvs p r (S r)) ->
  exists m, In (i, m) l /\ recv_msg p S r i = Some m.
Proof.
  intros (N & L & H) i Hi. set (k := length (p_recvs p r (S r))) in *.
  assert (I : incl (map fst l) (seq 0 k)).
  { intros j Hj. apply in_map_iff in Hj as ([j' m] & E & Hj). cbn in E. subst j'.
    apply H in Hj. unfold recv_msg in Hj. apply in_seq. split; [lia|].
    destruct (nth_error (p_recvs p r (S r)) j) eqn:E; [|discriminate].
    cbn. apply nth_error_Some. congruence. }
  assert (J : incl (seq 0 k) (map fst l)).
  { apply NoDup_length_incl; [exact N|rewrite seq_length, map_length; lia|exact I]. }
  assert (In i (map fst l)) as K by (apply J, in_seq; lia).
  apply in_map_iff in K as ([j m] & E & K). cbn in E. subst j. eauto.
Qed.

Lemma all_some_seq (f : nat -> option Msg) ms :
  (forall i, i < length ms -> f i = nth_error ms i) -> all_some (map f (seq 0 (length ms))) = Some ms.
Proof.
  intros H.
  assert (G : forall l l', ms = l' ++ l -> all_some (map f (seq (length l') (length l))) = Some l).
  { induction l as [|m l IH]; intros l' E; cbn; [reflexivity|].
    rewrite H by (rewrite E, app_length; cbn; lia).
    rewrite E, nth_error_app2, Nat.sub_diag by lia. cbn.
    replace (S (length l')) with (length (l' ++ [m])) by (rewrite app_length; cbn; lia).
    rewrite IH; [reflexivity|]. rewrite <- app_assoc. exact E. }
  apply (G ms []). reflexivity.
Qed.

Lemma buffers_arrival (p : p2p St Msg) S r l ms : arrival p S r l ->
  length ms = length (p_recvs p r (S r)) ->
  (forall i, i < length ms -> recv_msg p S r i = nth_error ms i) ->
  buffers (length (p_recvs p r (S r))) l = Some ms.
Proof.
  intros A L H. unfold buffers. rewrite <- L. apply all_some_seq. intros i Hi.
  destruct (arrival_all p S r l A i ltac:(lia)) as (m & I & R).
  rewrite (find_arrival l i m (proj1 A) I). cbn. rewrite <- H by exact Hi. symmetry. exact R.
Qed.

Lemma count_repeat s q k : count s (repeat q k) = if Nat.eqb s q then k else 0.
Proof.
  induction k as [|k IH]; cbn [repeat]; [destruct (Nat.eqb s q); reflexivity|].
  rewrite count_cons, IH. destruct (Nat.eqb s q); reflexivity.
Qed.

Lemma count_grouped (k : nat -> nat) s senders : NoDup senders ->
  count s (flat_map (fun q => repeat q (k q)) senders) = if in_dec Nat.eq_dec s senders then k s else 0.
Proof.
  induction senders as [|q l IH]; intros N; cbn [flat_map]; [reflexivity|]. inversion N; subst.
  rewrite count_app, count_repeat, IH by auto.
  destruct (Nat.eqb_spec s q) as [->|E].
  - destruct (in_dec Nat.eq_dec q l); [contradiction|].
    destruct (in_dec Nat.eq_dec q (q :: l)) as [|X]; [lia|]. exfalso. apply X. left. reflexivity.
  - destruct (in_dec Nat.eq_dec s l), (in_dec Nat.eq_dec s (q :: l)) as [Y|Y]; auto.
    + exfalso. apply Y. right. auto.
    + destruct Y; [congruence|contradiction].
Qed.

(** The messages received, in the order of the receives, when the receives are grouped by
    sender. *)
Lemma recv_grouped (msgs : nat -> list Msg) senders : NoDup senders ->
  forall i, i < length (flat_map (fun s => repeat s (length (msgs s))) senders) ->
  exists s, nth_error (flat_map (fun s => repeat s (length (msgs s))) senders) i = Some s /\
    nth_error (msgs s) (count s (firstn i (flat_map (fun s => repeat s (length (msgs s))) senders))) =
    nth_error (flat_map msgs senders) i.
Proof.
  induction senders as [|q l IH]; intros N i Hi; cbn [flat_map] in *; [cbn in Hi; lia|].
  inversion N as [|? ? Hq Nl]; subst. rewrite app_length, repeat_length in Hi.
  destruct (Nat.lt_ge_cases i (length (msgs q))) as [L|L].
  - exists q. rewrite nth_error_app1 by (rewrite repeat_length; exact L). split.
    + rewrite (nth_error_nth' _ q) by (rewrite repeat_length; exact L). f_equal.
      apply repeat_spec with (n := length (msgs q)). apply nth_In. rewrite repeat_length. exact L.
    + rewrite nth_error_app1 by exact L. rewrite firstn_app.
      replace (i - length (repeat q (length (msgs q)))) with 0 by (rewrite repeat_length; lia).
      cbn [firstn]. rewrite app_nil_r.
      replace (firstn i (repeat q (length (msgs q)))) with (repeat q i).
      * rewrite count_repeat, Nat.eqb_refl. reflexivity.
      * replace (length (msgs q)) with (i + (length (msgs q) - i)) by lia.
        rewrite repeat_app, firstn_app, repeat_length, Nat.sub_diag. cbn. rewrite app_nil_r.
        rewrite firstn_all2; [reflexivity|rewrite repeat_length; lia].
  - destruct (IH Nl (i - length (msgs q)) ltac:(lia)) as (s & E1 & E2).
    exists s. rewrite nth_error_app2 by (rewrite repeat_length; exact L). rewrite repeat_length.
    split; [exact E1|]. rewrite nth_error_app2 by exact L. rewrite <- E2. f_equal.
    rewrite firstn_app, repeat_length, count_app.
    assert (s <> q).
    { intros ->. apply nth_error_In in E1. apply in_flat_map in E1 as (x & X1 & X2).
      apply repeat_spec in X2. congruence. }
    rewrite firstn_all2 by (rewrite repeat_length; exact L). rewrite count_repeat.
    destruct (Nat.eqb_spec s q); [congruence|reflexivity].
Qed.

Theorem wait_all_ok n recvs sends f (S S' : nat -> St) (senders : nat -> list nat) :
  (forall r, r < n -> NoDup (senders r)) ->
  (forall r s, r < n -> In s (senders r) -> s < n) ->
  (forall r, r < n -> recvs r (S r) =
     flat_map (fun s => repeat s (length (msgs_to r (sends s (S s))))) (senders r)) ->
  (forall r d m, r < n -> In (d, m) (sends r (S r)) -> d < n) ->
  (forall r s, r < n -> s < n -> ~ In s (senders r) -> msgs_to r (sends s (S s)) = []) ->
  (forall r, r < n -> f r (S r) (flat_map (fun s => msgs_to r (sends s (S s))) (senders r)) = Some (S' r)) ->
  phase_ok n (wait_all recvs sends f : phase St Msg) S S'.
Proof.
  intros N B R D E F. unfold wait_all, phase_ok. split.
  - intros r Hr. cbn [p_recvs p_sends]. split; [|split].
    + intros s Hs. rewrite R in Hs by exact Hr. apply in_flat_map in Hs as (q & Q1 & Q2).
      apply repeat_spec in Q2. subst. eauto.
    + intros d m. apply D, Hr.
    + intros s Hs. rewrite R by exact Hr. rewrite count_grouped by auto.
      destruct (in_dec Nat.eq_dec s (senders r)); [reflexivity|]. rewrite E by auto. reflexivity.
  - intros r l Hr A. cbn [p_done].
    erewrite buffers_arrival with (p := P2P recvs sends _) (S := S) (r := r).
    + apply F, Hr.
    + exact A.
    + cbn [p_recvs]. rewrite R by exact Hr.
      induction (senders r) as [|s q IH]; cbn; [reflexivity|]. rewrite !app_length, repeat_length, IH. reflexivity.
    + cbn [p_recvs]. intros i Hi.
      assert (Hl : i < length (flat_map (fun s => repeat s (length (msgs_to r (sends s (S s))))) (senders r))).
      { clear -Hi. revert i Hi. generalize (senders r). intros q i Hi.
        replace (length (flat_map (fun s => repeat s (length (msgs_to r (sends s (S s))))) q))
          with (length (flat_map (fun s => msgs_to r (sends s (S s))) q)); [exact Hi|].
        induction q as [|s q IH]; cbn; [reflexivity|]. rewrite !app_length, repeat_length. f_equal.
        destruct (Nat.lt_ge_cases i (length (flat_map (fun s => msgs_to r (sends s (S s))) q))); [auto|].
        clear. induction q as [|s q IH]; cbn; [reflexivity|]. rewrite !app_length, repeat_length, IH. reflexivity. }
      destruct (recv_grouped (fun s => msgs_to r (sends s (S s))) (senders r) (N r Hr) i Hl) as (s & E1 & E2).
      unfold recv_msg. cbn [p_recvs p_sends]. rewrite R by exact Hr. rewrite E1. exact E2.
Qed.

Lemma prog_ok_app n (p1 p2 : list (phase St Msg)) S S' :
  (exists S1, prog_ok n p1 S S1 /\ prog_ok n p2 S1 S') -> prog_ok n (p1 ++ p2) S S'.
Proof.
  intros (S1 & H1 & H2). revert S H1. induction p1 as [|ph p1 IH]; intros S H1; cbn in *.
  - destruct p2 as [|ph p2]; cbn in *.
    + intros r Hr. rewrite H1 by exact Hr. auto.
    + destruct H2 as (S2 & A & B). exists S2. split; [|exact B].
      clear B. destruct ph as [f|p|f]; cbn in *.
      * intros r Hr. rewrite H1 by exact Hr. auto.
      * destruct A as [A1 A2]. split.
        -- intros r Hr. destruct (A1 r Hr) as (X & Y & Z). rewrite <- H1 in X, Y, Z by exact Hr.
           repeat split; auto. intros s Hs. rewrite Z by exact Hs. rewrite H1 by exact Hs. reflexivity.
        -- intros r l Hr A. rewrite H1 by exact Hr. apply A2; [exact Hr|].
           destruct A as (X & Y & Z). rewrite H1 in Y by exact Hr. repeat split; auto.
           intros i m I. apply Z in I. unfold recv_msg in *. rewrite H1 in I by exact Hr.
           destruct (nth_error (p_recvs p r (S1 r)) i) as [s|] eqn:Es; [|discriminate].
           rewrite H1 in I; [exact I|]. apply nth_error_In in Es. apply (proj1 (A1 r Hr)), Es.
      * intros r Hr. rewrite <- A by exact Hr. f_equal. apply map_ext_in. intros q Hq.
        apply in_seq in Hq. apply H1. lia.
  - destruct H1 as (S2 & A & B). exists S2. split; [exact A|]. apply IH, B.
Qed.

End Phase.
