(** The invariant of the transfer of fragments. *)
From Coq Require Import ZArith List Bool Arith Lia Permutation Sorting.Sorted.
From Verif Require Import FRefModel FtxModel FtxSpec FtxProof.
Import ListNotations.
Local Open Scope nat_scope.

Section Inv.
Context {V : Type}.
Variable J : job (V := V).
Hypothesis A : agreed J.

Definition ids (l : list (slot (V := V))) : list nat :=
  flat_map (fun s => match sl_recv s with Some i => [i] | None => [] end) l.

Lemma ids_app a b : ids (a ++ b) = ids a ++ ids b.
Proof. apply flat_map_app. Qed.
Definition rest (l : list (slot (V := V))) (t : nat) : list nat := ids (firstn t l) ++ ids (skipn (S t) l).
Lemma ids_split l t s : nth_error l t = Some s ->
  Permutation (ids l) (match sl_recv s with Some i => [i] | None => [] end ++ rest l t).
Proof.
  intros H. rewrite (split_nth l t s H) at 1. rewrite ids_app. cbn [ids flat_map]. fold (ids (skipn (S t) l)).
  unfold rest. apply Permutation_app_swap_app.
Qed.
Lemma ids_replace l t s : t < length l ->
  Permutation (ids (replace l t s)) (match sl_recv s with Some i => [i] | None => [] end ++ rest l t).
Proof.
  intros H. unfold replace. rewrite ids_app. cbn [ids flat_map]. fold (ids (skipn (S t) l)).
  unfold rest. apply Permutation_app_swap_app.
Qed.
Lemma remote_app a b : remote (V := V) (a ++ b) = remote a ++ remote b.
Proof. induction a as [|[i vs|i] a IH]; cbn; rewrite ?IH; reflexivity. Qed.
Lemma local_app a b : local (V := V) (a ++ b) = local a ++ local b.
Proof. induction a as [|[i vs|i] a IH]; cbn; rewrite ?IH; reflexivity. Qed.

(** A transfer in progress. *)
Definition slot_ok (q next : nat) (s : slot (V := V)) : Prop :=
  match sl_recv s with
  | None => forall x, In x (sl_parts s) -> finished x = true
  | Some i => i < next /\ length (sl_parts s) = 4 /\ exists e, nth_error (j_recvs J q) i = Some e /\
      forall d x, nth_error (sl_parts s) d = Some x ->
        match x with
        | PFree => False
        | PWait p c => p = e_rank e /\ c = 4 * before (j_recvs J q) i + d
        | PGot _ => True
        end
  end.

(** The receiving side of a process, apart from one transfer. *)
Record rinv (q : nat) (k : rank (V := V)) : Prop := {
  ri_next : k_next k <= length (j_recvs J q);
  ri_sent : forall p, k_sent k p = length (sub p (firstn (k_next k) (j_recvs J q)));
  ri_posted : forall p, k_posted k p = 4 * k_sent k p;
  ri_slots : forall t s, nth_error (k_slots k) t = Some s -> slot_ok q (k_next k) s }.

Record linv (q : nat) (k : rank (V := V)) : Prop := {
  li_r : rinv q k;
  li_perm : Permutation (map fst (remote (k_log k)) ++ ids (k_slots k)) (seq 0 (k_next k));
  li_some : k_slots k <> [];
  li_rd : k_rd k = true <-> forall s, In s (k_slots k) -> sl_recv s = None;
  li_free : forall s, In s (k_slots k) -> sl_recv s = None -> k_next k = length (j_recvs J q);
  li_nd : NoDup (k_sig k);
  li_lt : forall i, In i (k_sig k) -> i < length (j_sends J q);
  li_chan : forall r, k_chan k r = flat_map (arrays J q) (sent_to J q r (k_sig k));
  li_fnd : NoDup (k_fin k);
  li_fin : forall i d, In (i, d) (k_fin k) -> In i (k_sig k) /\ d < 4;
  li_sd : k_sd k = true <-> forall i d, i < length (j_sends J q) -> d < 4 -> In (i, d) (k_fin k);
  li_ld : k_ld k = Nat.eqb (k_loc k) (j_locals J q);
  li_loc : k_loc k <= j_locals J q;
  li_local : local (k_log k) = seq 0 (k_loc k) }.

Definition good (q : nat) (k : rank (V := V)) : Prop := k = blank J q \/ (k_pos k <> PInit /\ linv q k).

(** Values that have been received are those sent. *)
Definition fetched (g : nat -> rank (V := V)) (q : nat) : Prop :=
  forall t s i e d v, nth_error (k_slots (g q)) t = Some s -> sl_recv s = Some i ->
    nth_error (j_recvs J q) i = Some e -> nth_error (sl_parts s) d = Some (PGot v) ->
    nth_error (k_chan (g (e_rank e)) q) (4 * before (j_recvs J q) i + d) = Some v.

Record ginv (ord : bool) (g : nat -> rank (V := V)) : Prop := {
  gi_good : forall q, q < j_n J -> good q (g q);
  gi_fetched : forall q, q < j_n J -> fetched g q;
  gi_ord : ord = true -> forall p q, p < j_n J -> orderly J p q (k_sig (g p));
  gi_log : ord = true -> forall q, q < j_n J ->
    Forall (fun x => true_data J q (fst x) (snd x)) (remote (k_log (g q))) }.

(** * Posting *)

Lemma nth_repeat' {B} (x : B) n t y : nth_error (repeat x n) t = Some y -> y = x.
Proof. intros H. apply nth_error_In, repeat_spec in H. exact H. Qed.

Lemma post_ok q t k e : rinv q k -> nth_error (j_recvs J q) (k_next k) = Some e -> t < length (k_slots k) ->
  rinv q (post J q t k).
Proof.
  intros [N Se Po Sl] E L. unfold post, recvs. rewrite E.
  assert (Ln : k_next k < length (j_recvs J q)) by (apply nth_error_Some; congruence).
  assert (Ss : forall p, upd (k_sent k) (e_rank e) (S (k_sent k (e_rank e))) p =
               length (sub p (firstn (S (k_next k)) (j_recvs J q)))).
  { intros p. rewrite (firstn_S _ _ _ E), sub_app, app_length. unfold upd. cbn [sub filter].
    rewrite (Nat.eqb_sym (e_rank e) p).
    destruct (Nat.eqb_spec p (e_rank e)) as [->|Np]; cbn [length]; rewrite <- Se; lia. }
  constructor; cbn [k_next k_sent k_posted k_slots].
  - lia.
  - exact Ss.
  - intros p. unfold upd. destruct (Nat.eqb_spec p (e_rank e)) as [->|Np]; [|apply Po].
    rewrite Po. lia.
  - intros t' s H. apply replace_inv in H; [|exact L]. destruct H as [(-> & ->)|(_ & H)].
    + unfold slot_ok. cbn [sl_recv sl_parts]. split; [lia|]. split; [reflexivity|]. exists e. split; [exact E|].
      assert (B : k_posted k (e_rank e) = 4 * before (j_recvs J q) (k_next k)).
      { rewrite Po, Se, (before_sub _ _ _ E). reflexivity. }
      intros d x Hx. destruct d as [|[|[|[|d]]]]; cbn in Hx; try (injection Hx as <-; split; [reflexivity|lia]).
      destruct d; discriminate.
    + specialize (Sl t' s H). unfold slot_ok in *. destruct (sl_recv s) as [i|]; [|exact Sl].
      destruct Sl as (Li & Sl). split; [lia|exact Sl].
Qed.
Lemma post_fields q t k e : nth_error (j_recvs J q) (k_next k) = Some e ->
  k_log (post J q t k) = k_log k /\ k_next (post J q t k) = S (k_next k) /\
  (t < length (k_slots k) -> Permutation (ids (k_slots (post J q t k))) (k_next k :: rest (k_slots k) t)) /\
  k_sig (post J q t k) = k_sig k /\ k_fin (post J q t k) = k_fin k /\ k_chan (post J q t k) = k_chan k /\
  k_loc (post J q t k) = k_loc k /\ k_sd (post J q t k) = k_sd k /\ k_rd (post J q t k) = k_rd k /\
  k_ld (post J q t k) = k_ld k.
Proof.
  intros E. unfold post, recvs. rewrite E. cbn. repeat (split; [reflexivity|]). split; [|repeat split].
  intros L. apply (ids_replace (k_slots k) t (mkSl (Some (k_next k)) _) L).
Qed.
Lemma post_slots q t k e : nth_error (j_recvs J q) (k_next k) = Some e ->
  exists ps, k_slots (post J q t k) = replace (k_slots k) t (mkSl (Some (k_next k)) ps) /\
    forall x, In x ps -> exists p c, x = PWait p c.
Proof.
  intros E. unfold post, recvs. rewrite E. cbn [k_slots]. eexists. split; [reflexivity|].
  intros x H. cbn in H. destruct H as [<-|[<-|[<-|[<-|[]]]]]; eauto.
Qed.
Lemma post_none q t k : nth_error (j_recvs J q) (k_next k) = None -> post J q t k = k.
Proof. intros E. unfold post, recvs. rewrite E. reflexivity. Qed.

(** * The start of a process *)

Record sinv (q t : nat) (k : rank (V := V)) : Prop := {
  si_r : rinv q k;
  si_log : k_log k = []; si_len : length (k_slots k) = max_transfers;
  si_perm : Permutation (ids (k_slots k)) (seq 0 (k_next k));
  si_none : forall j s, t <= j -> nth_error (k_slots k) j = Some s -> sl_recv s = None;
  si_full : k_next k = t \/ k_next k = length (j_recvs J q);
  si_have : 0 < t -> 0 < length (j_recvs J q) -> exists s, In s (k_slots k) /\ sl_recv s <> None;
  si_wait : forall s x v, In s (k_slots k) -> In x (sl_parts s) -> x <> PGot v;
  si_sl : forall s i, In s (k_slots k) -> sl_recv s = Some i -> forall x, In x (sl_parts s) -> exists p c, x = PWait p c;
  si_rest : k_sig k = [] /\ k_fin k = [] /\ (forall r, k_chan k r = []) /\ k_loc k = 0 /\
            k_sd k = Nat.eqb (length (j_sends J q)) 0 /\ k_rd k = Nat.eqb (length (j_recvs J q)) 0 /\
            k_ld k = Nat.eqb (j_locals J q) 0;
  si_t : k_next k <= t;
  si_fill : forall j s, j < k_next k -> nth_error (k_slots k) j = Some s -> sl_recv s <> None }.

Lemma blank_s q : sinv q 0 (blank J q).
Proof.
  constructor; try (cbn; lia).
  - constructor; try (cbn; lia); try reflexivity. intros t s H. apply nth_repeat' in H. subst s. cbn.
    intros x Hx. intuition; subst; reflexivity.
  - reflexivity.
  - apply repeat_length.
  - cbn. constructor.
  - intros j s _ H. apply nth_repeat' in H. subst s. reflexivity.
  - intros s x v H Hx. apply repeat_spec in H. subst s. cbn in Hx. intuition; subst; discriminate.
  - intros s i H E. apply repeat_spec in H. subst s. discriminate.
  - repeat split.
Qed.
Lemma post_s q t k : t < max_transfers -> sinv q t k -> sinv q (S t) (post J q t k).
Proof.
  intros Lt [Ri Lo Le Pe No Fu Ha Wa Sl Re Ti Fi].
  destruct (nth_error (j_recvs J q) (k_next k)) as [e|] eqn:E.
  - assert (Ln : k_next k < length (j_recvs J q)) by (apply nth_error_Some; congruence).
    assert (Nt : k_next k = t) by lia.
    assert (Lk : t < length (k_slots k)) by lia.
    destruct (post_fields q t k e E) as (F1 & F2 & F3 & F4 & F5 & F6 & F7 & F8 & F9 & F10).
    destruct (post_slots q t k e E) as (ps & Es & Hps).
    assert (Ins : forall s, In s (k_slots (post J q t k)) -> s = mkSl (Some (k_next k)) ps \/ In s (k_slots k)).
    { intros s H. rewrite Es in H. apply In_nth_error in H. destruct H as (j & H). apply replace_inv in H; [|exact Lk].
      destruct H as [(_ & ->)|(_ & H)]; [left; reflexivity|right; eapply nth_error_In; eauto]. }
    constructor.
    + apply (post_ok q t k e Ri E Lk).
    + rewrite F1. exact Lo.
    + rewrite Es, replace_len by exact Lk. exact Le.
    + rewrite (F3 Lk), F2. rewrite seq_S, <- Permutation_cons_append. cbn [Nat.add]. constructor.
      rewrite <- Pe. destruct (nth_error (k_slots k) t) as [s|] eqn:Et; [|apply nth_error_None in Et; lia].
      pose proof (ids_split _ _ _ Et) as P. rewrite (No t s (Nat.le_refl t) Et) in P. symmetry. exact P.
    + intros j s Lj H. rewrite Es in H. apply replace_inv in H; [|exact Lk]. destruct H as [(-> & _)|(_ & H)]; [lia|].
      apply (No j s); [lia|exact H].
    + left. rewrite F2. lia.
    + intros _ _. exists (mkSl (Some (k_next k)) ps). split; [|discriminate]. rewrite Es.
      apply (nth_error_In _ t), replace_same, Lk.
    + intros s x v H Hx. destruct (Ins s H) as [->|H']; [|apply (Wa s x v H' Hx)]. cbn in Hx.
      destruct (Hps x Hx) as (p & c & ->). discriminate.
    + intros s i H Ei x Hx. destruct (Ins s H) as [->|H']; [cbn in Hx; apply Hps, Hx|apply (Sl s i H' Ei x Hx)].
    + rewrite F4, F5, F6, F7, F8, F9, F10. exact Re.
    + lia.
    + intros j s Lj H. rewrite Es in H. apply replace_inv in H; [|exact Lk]. destruct H as [(-> & ->)|(Nj & H)].
      * discriminate.
      * apply (Fi j s); [lia|exact H].
  - rewrite post_none by exact E. assert (En : k_next k = length (j_recvs J q)).
    { apply nth_error_None in E. destruct Ri. lia. }
    constructor; auto.
    + intros j s Lj H. apply (No j s); [lia|exact H].
    + intros _ Lr. apply Ha; [lia|exact Lr].
Qed.
Lemma init_fold q : forall m t k, t + m = max_transfers -> sinv q t k ->
  sinv q max_transfers (fold_left (fun k t => post J q t k) (seq t m) k).
Proof.
  induction m as [|m IH]; intros t k E S; cbn [seq fold_left].
  - replace max_transfers with t by lia. exact S.
  - apply IH; [lia|]. apply post_s; [lia|exact S].
Qed.
Lemma init_ok q : linv q (init J q) /\ (forall s x v, In s (k_slots (init J q)) -> In x (sl_parts s) -> x <> PGot v) /\
  k_log (init J q) = [] /\ k_sig (init J q) = [] /\ (forall r, k_chan (init J q) r = []) /\ k_pos (init J q) = PSignals.
Proof.
  pose proof (init_fold q max_transfers 0 (blank J q) eq_refl (blank_s q)) as S.
  unfold init. set (k := fold_left _ _ _) in *. destruct S as [Ri Lo Le Pe No Fu Ha Wa Sl Re Ti Fi].
  destruct Re as (R1 & R2 & R3 & R4 & R5 & R6 & R7).
  split; [|split; [exact Wa|split; [exact Lo|split; [exact R1|split; [exact R3|reflexivity]]]]].
  constructor; cbn [move k_log k_slots k_next k_rd k_sig k_chan k_fin k_sd k_ld k_loc].
  - destruct Ri. constructor; assumption.
  - rewrite Lo. exact Pe.
  - intros E. rewrite E in Le. discriminate.
  - rewrite R6. split.
    + intros H. apply Nat.eqb_eq in H. intros s Hs. apply In_nth_error in Hs. destruct Hs as (j & Hj).
      destruct (sl_recv s) as [i|] eqn:Es; [|reflexivity].
      destruct Ri as [_ _ _ Rs]. specialize (Rs j s Hj). unfold slot_ok in Rs. rewrite Es in Rs.
      destruct Rs as (_ & _ & e & Ee & _). assert (nth_error (j_recvs J q) i <> None) as X by congruence.
      apply nth_error_Some in X. lia.
    + intros H. apply Nat.eqb_eq. destruct (length (j_recvs J q)) as [|m] eqn:Er; [reflexivity|]. exfalso.
      destruct Ha as (s & Hs & Ns); [unfold max_transfers; lia|lia|]. apply Ns, H, Hs.
  - intros s Hs Es. apply In_nth_error in Hs. destruct Hs as (j & Hj).
    assert (Lj : j < length (k_slots k)) by (apply nth_error_Some; congruence).
    destruct Fu as [Fu|Fu]; [|exact Fu]. exfalso. apply (Fi j s); [lia|exact Hj|exact Es].
  - rewrite R1. constructor.
  - rewrite R1. intros i [].
  - intros r. rewrite R3, R1. reflexivity.
  - rewrite R2. constructor.
  - rewrite R2. intros i d [].
  - rewrite R5, R2. split.
    + intros H. apply Nat.eqb_eq in H. intros; lia.
    + intros H. apply Nat.eqb_eq. destruct (length (j_sends J q)); [reflexivity|]. elim (H 0 0 ltac:(lia) ltac:(lia)).
  - rewrite R7, R4. apply Nat.eqb_sym.
  - rewrite R4. lia.
  - rewrite Lo, R4. reflexivity.
Qed.

End Inv.
