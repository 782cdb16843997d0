(** The moves of the transfer of fragments keep its invariant. *)
From Coq Require Import ZArith List Bool Arith Lia Permutation Sorting.Sorted.
From Verif Require Import FRefModel FtxModel FtxSpec FtxProof FtxInv.
Import ListNotations.
Local Open Scope nat_scope.

Section Step.
Context {V : Type}.
Variable J : job (V := V).
Hypothesis A : agreed J.

Lemma move_linv q k x : linv J q k -> linv J q (move k x).
Proof. intros [[] ]. constructor; cbn; try assumption. constructor; assumption. Qed.

(** * Answers to signals *)

Definition keeps (k k' : rank (V := V)) : Prop :=
  k_slots k' = k_slots k /\ k_log k' = k_log k /\ k_pos k' = k_pos k /\ k_fin k' = k_fin k /\ k_next k' = k_next k /\
  k_loc k' = k_loc k /\ (forall r, exists x, k_chan k' r = k_chan k r ++ x).

Lemma answer_ok p k i e : linv J p k -> nth_error (j_sends J p) i = Some e -> ~ In i (k_sig k) ->
  linv J p (answer J p k i) /\ keeps k (answer J p k i) /\ k_sig (answer J p k i) = k_sig k ++ [i].
Proof.
  intros [[Rn Rs Rp Rsl] Pe So Rd Fr Nd Lt Ch Fnd Fi Sd Ld Lo Ll] E N. unfold answer, sends. rewrite E.
  split; [|split; [|reflexivity]].
  - constructor; cbn [k_slots k_log k_next k_rd k_sig k_chan k_fin k_sd k_ld k_loc]; try assumption.
    + constructor; assumption.
    + rewrite <- Permutation_cons_append. constructor; assumption.
    + intros x Hx. apply in_app_iff in Hx. destruct Hx as [Hx|[<-|[]]]; [apply Lt, Hx|]. apply nth_error_Some. congruence.
    + intros r. rewrite sent_to_app, flat_map_app, <- Ch. cbn [sent_to flat_map]. rewrite E. unfold upd.
      rewrite (Nat.eqb_sym (e_rank e) r). destruct (Nat.eqb_spec r (e_rank e)) as [->|Nr]; cbn [flat_map app]; rewrite ?app_nil_r; reflexivity.
    + intros x d Hx. destruct (Fi x d Hx) as (H1 & H2). split; [apply in_app_iff; left; exact H1|exact H2].
  - unfold keeps. cbn. repeat (split; [reflexivity|]). intros r. unfold upd.
    destruct (Nat.eqb_spec r (e_rank e)) as [->|Nr]; [eauto|]. exists []. rewrite app_nil_r. reflexivity.
Qed.
Lemma keeps_trans a b c : keeps a b -> keeps b c -> keeps a c.
Proof.
  intros (A1 & A2 & A3 & A4 & A5 & A6 & A7) (B1 & B2 & B3 & B4 & B5 & B6 & B7). unfold keeps.
  repeat (split; [congruence|]). intros r. destruct (A7 r) as (x & Hx). destruct (B7 r) as (y & Hy).
  exists (x ++ y). rewrite Hy, Hx, app_assoc. reflexivity.
Qed.
Lemma keeps_refl a : keeps a a.
Proof. unfold keeps. repeat (split; [reflexivity|]). intros r. exists []. rewrite app_nil_r. reflexivity. Qed.

Lemma answers_ok ord g p : p < j_n J -> forall out k, linv J p k -> signals_ok J ord g p (k_sig k) out = true ->
  linv J p (fold_left (answer J p) out k) /\ keeps k (fold_left (answer J p) out k) /\
  k_sig (fold_left (answer J p) out k) = k_sig k ++ out /\
  (ord = true -> (forall q, orderly J p q (k_sig k)) -> forall q, orderly J p q (k_sig k ++ out)).
Proof.
  intros Hp. induction out as [|i out IH]; intros k L H; cbn [fold_left signals_ok] in *.
  - rewrite app_nil_r. split; [exact L|]. split; [apply keeps_refl|]. split; [reflexivity|auto].
  - apply andb_true_iff in H. destruct H as (H & H4). apply andb_true_iff in H. destruct H as (H & H3).
    apply andb_true_iff in H. destruct H as (H1 & H2). apply negb_true_iff in H1.
    assert (N : ~ In i (k_sig k)) by (intros X; apply existsb_nat in X; congruence).
    unfold arrived, rank_at, sends in H2. destruct (nth_error (j_sends J p) i) as [e|] eqn:E; [|discriminate].
    destruct (answer_ok p k i e L E N) as (L1 & K1 & S1).
    rewrite <- S1 in H4. destruct (IH _ L1 H4) as (L2 & K2 & S2 & O2). rewrite S1 in *.
    split; [exact L2|]. split; [apply (keeps_trans _ _ _ K1 K2)|]. split; [rewrite S2, <- app_assoc; reflexivity|].
    intros Eo O q. replace (k_sig k ++ i :: out) with ((k_sig k ++ [i]) ++ out) by (rewrite <- app_assoc; reflexivity).
    apply O2; [exact Eo|]. intros q'. apply (orderly_add J A); eauto. rewrite Eo in H3. exact H3.
Qed.

(** * Completed sends *)

Lemma pair_eqb_eq a b : pair_eqb a b = true <-> a = b.
Proof.
  unfold pair_eqb. destruct a as [a1 a2], b as [b1 b2]. cbn. rewrite andb_true_iff, !Nat.eqb_eq.
  split; [intros (-> & ->); reflexivity|intros [= -> ->]; auto].
Qed.
Lemma existsb_pair x l : existsb (pair_eqb x) l = true <-> In x l.
Proof.
  rewrite existsb_exists. split; [intros (y & H & E); apply pair_eqb_eq in E; congruence|].
  intros H. exists x. split; [exact H|apply pair_eqb_eq; reflexivity].
Qed.
Lemma sends_ok_spec (k : rank (V := V)) : forall out fin, NoDup fin -> sends_ok k fin out = true ->
  NoDup (fin ++ out) /\ forall i d, In (i, d) out -> In i (k_sig k) /\ d < 4.
Proof.
  induction out as [|[i d] out IH]; intros fin N H; cbn [sends_ok] in H.
  - rewrite app_nil_r. split; [exact N|intros i d []].
  - rewrite !andb_true_iff in H. destruct H as (((H1 & H2) & H3) & H4). apply existsb_nat in H1. apply Nat.ltb_lt in H2.
    apply negb_true_iff in H3. assert (Ni : ~ In (i, d) fin) by (intros X; apply existsb_pair in X; congruence).
    destruct (IH (fin ++ [(i, d)])) as (N' & I').
    + rewrite <- Permutation_cons_append. constructor; assumption.
    + exact H4.
    + rewrite <- app_assoc in N'. split; [exact N'|]. intros x y [[= <- <-]|Hx]; [auto|apply I', Hx].
Qed.
Lemma all_sent_spec p fin : all_sent J p fin = true <-> forall i d, i < length (j_sends J p) -> d < 4 -> In (i, d) fin.
Proof.
  unfold all_sent, sends. rewrite forallb_forall. split.
  - intros H i d Hi Hd. specialize (H i ltac:(apply in_seq; lia)). rewrite forallb_forall in H.
    apply existsb_pair, H. destruct d as [|[|[|[|d]]]]; cbn; auto; lia.
  - intros H i Hi. apply in_seq in Hi. apply forallb_forall. intros d Hd. apply existsb_pair, H; [lia|].
    cbn in Hd. intuition; subst; lia.
Qed.
Lemma send_done_ok p k out : linv J p k -> sends_ok k (k_fin k) out = true -> linv J p (send_done J p k out).
Proof.
  intros [[Rn Rs Rp Rsl] Pe So Rd Fr Nd Lt Ch Fnd Fi Sd Ld Lo Ll] H. destruct (sends_ok_spec k out (k_fin k) Fnd H) as (N & I').
  constructor; cbn [send_done k_slots k_log k_next k_rd k_sig k_chan k_fin k_sd k_ld k_loc]; try assumption.
  - constructor; assumption.
  - intros i d Hi. apply in_app_iff in Hi. destruct Hi as [Hi|Hi]; [apply Fi, Hi|apply I', Hi].
  - destruct out as [|x out]; [rewrite app_nil_r; exact Sd|]. apply all_sent_spec.
Qed.

(** * Completed receives *)

Lemma map_replace {B C} (f : B -> C) l t (x y : B) : nth_error l t = Some y -> f x = f y -> map f (replace l t x) = map f l.
Proof.
  intros E F. rewrite (split_nth l t y E) at 2. unfold replace. rewrite !map_app. cbn [map]. rewrite F. reflexivity.
Qed.
Lemma ids_map (l l' : list (slot (V := V))) : map sl_recv l = map sl_recv l' -> ids l = ids l'.
Proof.
  revert l'. induction l as [|a l IH]; intros [|b l'] H; cbn in *; try discriminate; [reflexivity|].
  injection H as H1 H2. rewrite H1. f_equal. apply IH, H2.
Qed.

Definition slots_ok (g : nat -> rank (V := V)) (q next : nat) (sl : list (slot (V := V))) : Prop :=
  (forall t s, nth_error sl t = Some s -> slot_ok J q next s) /\
  forall t s i e d v, nth_error sl t = Some s -> sl_recv s = Some i ->
    nth_error (j_recvs J q) i = Some e -> nth_error (sl_parts s) d = Some (PGot v) ->
    nth_error (k_chan (g (e_rank e)) q) (4 * before (j_recvs J q) i + d) = Some v.

Lemma receive_ok g q next sl x sl' : slots_ok g q next sl ->
  receive g q sl x = Some sl' ->
  slots_ok g q next sl' /\ map sl_recv sl' = map sl_recv sl.
Proof.
  intros (S1 & S2) H. unfold receive in H. destruct x as [t d]. cbn [fst snd] in H.
  destruct (nth_error sl t) as [s|] eqn:Et; [|discriminate].
  destruct (nth_error (sl_parts s) d) as [[|p c|v]|] eqn:Ed; try discriminate.
  destruct (nth_error (k_chan (g p) q) c) as [v|] eqn:Ev; [|discriminate]. injection H as <-.
  assert (Lt : t < length sl) by (apply nth_error_Some; congruence).
  assert (Ld : d < length (sl_parts s)) by (apply nth_error_Some; congruence).
  assert (Sr : exists i, sl_recv s = Some i).
  { destruct (sl_recv s) as [i|] eqn:E; [eauto|]. exfalso. specialize (S1 t s Et). unfold slot_ok in S1. rewrite E in S1.
    specialize (S1 _ (nth_error_In _ _ Ed)). discriminate. }
  destruct Sr as (i & Ei). pose proof (S1 t s Et) as So. unfold slot_ok in So. rewrite Ei in So.
  destruct So as (Li & L4 & e & Ee & Hp). pose proof (Hp d _ Ed) as Hd. cbn in Hd. destruct Hd as (-> & ->).
  split; [split|].
  - intros t' s' H. apply replace_inv in H; [|exact Lt]. destruct H as [(-> & ->)|(_ & H)]; [|apply (S1 t' s' H)].
    unfold slot_ok. cbn [sl_recv sl_parts]. rewrite Ei. split; [exact Li|]. split; [rewrite replace_len by exact Ld; exact L4|].
    exists e. split; [exact Ee|]. intros d' x Hx. apply replace_inv in Hx; [|exact Ld].
    destruct Hx as [(_ & ->)|(_ & Hx)]; [exact I|apply (Hp d' x Hx)].
  - intros t' s' i' e' d' v' H. apply replace_inv in H; [|exact Lt].
    destruct H as [(-> & ->)|(_ & H)]; [|apply (S2 t' s' i' e' d' v' H)].
    cbn [sl_recv sl_parts]. rewrite Ei. intros [= <-] Ee' Hx. assert (e' = e) by congruence. subst e'.
    apply replace_inv in Hx; [|exact Ld]. destruct Hx as [(-> & [= ->])|(_ & Hx)]; [exact Ev|].
    apply (S2 t s i e d' v' Et Ei Ee Hx).
  - apply (map_replace sl_recv sl t _ s Et). reflexivity.
Qed.
Lemma receives_ok g q next : forall out sl sl', slots_ok g q next sl ->
  receives g q sl out = Some sl' ->
  slots_ok g q next sl' /\ map sl_recv sl' = map sl_recv sl.
Proof.
  induction out as [|x out IH]; intros sl sl' S H; cbn [receives] in H.
  - injection H as <-. auto.
  - destruct (receive g q sl x) as [sl1|] eqn:E; [|discriminate].
    destruct (receive_ok g q next sl x sl1 S E) as (S1 & M1).
    destruct (IH sl1 sl' S1 H) as (S2 & M2). split; [exact S2|congruence].
Qed.

(** * Handling *)

Lemma first_ready_spec : forall (sl : list (slot (V := V))) t0 t i vs, first_ready sl t0 = Some (t, i, vs) ->
  t0 <= t /\ exists s, nth_error sl (t - t0) = Some s /\ ready s = true /\ sl_recv s = Some i /\ vs = map value (sl_parts s).
Proof.
  induction sl as [|s sl IH]; intros t0 t i vs H; cbn [first_ready] in H; [discriminate|].
  destruct (ready s) eqn:R.
  - destruct (sl_recv s) as [i'|] eqn:E; [|discriminate]. injection H as <- <- <-. split; [lia|].
    exists s. rewrite Nat.sub_diag. auto.
  - destruct (IH _ _ _ _ H) as (L & s' & E & X). split; [lia|]. exists s'.
    replace (t - t0) with (S (t - S t0)) by lia. auto.
Qed.
Lemma first_ready_none : forall (sl : list (slot (V := V))) t0, first_ready sl t0 = None ->
  forall s, In s sl -> ready s = false.
Proof.
  induction sl as [|a sl IH]; intros t0 H s Hs; [destruct Hs|]. cbn [first_ready] in H.
  destruct (ready a) eqn:R.
  - unfold ready in R. destruct (sl_recv a); discriminate.
  - destruct Hs as [<-|Hs]; [exact R|apply (IH _ H s Hs)].
Qed.

Lemma flat_arrays p d v : d < 4 -> forall l j, nth_error (flat_map (arrays J p) l) (4 * j + d) = Some v ->
  exists e, nth_error l j = Some e /\ v = j_data J p (e_grid e) (e_frag e) d.
Proof.
  intros Hd. induction l as [|e l IH]; intros j H; cbn [flat_map] in H; [destruct (4 * j + d); discriminate|].
  destruct j as [|j].
  - exists e. split; [reflexivity|]. destruct d as [|[|[|[|d]]]]; cbn in H; try congruence. lia.
  - replace (4 * S j + d) with (S (S (S (S (4 * j + d))))) in H by lia. cbn in H. apply IH in H. exact H.
Qed.

(** A transfer that has finished has the right data. *)
Lemma ready_data g q t s i : ginv J true g -> q < j_n J -> linv J q (g q) -> nth_error (k_slots (g q)) t = Some s ->
  ready s = true -> sl_recv s = Some i -> true_data J q i (map value (sl_parts s)).
Proof.
  intros G Hq L Et R Ei. pose proof (ri_slots _ _ _ (li_r _ _ _ L) t s Et) as So. unfold slot_ok in So. rewrite Ei in So.
  destruct So as (_ & L4 & e & Ee & Hp). exists e. split; [exact Ee|].
  pose proof (recv_rank J A q i e Hq Ee) as Hr.
  unfold ready in R. rewrite Ei in R. rewrite forallb_forall in R.
  assert (X : forall d x, nth_error (sl_parts s) d = Some x -> d < 4 ->
              value x = Some (j_data J (e_rank e) (e_grid e) (e_frag e) d)).
  { intros d x Hx Hd. specialize (Hp d x Hx). specialize (R x (nth_error_In _ _ Hx)).
    destruct x as [|p c|v]; [destruct Hp|discriminate|]. cbn [value]. f_equal.
    pose proof (gi_fetched _ _ _ G q Hq t s i e d v Et Ei Ee Hx) as F.
    destruct (gi_good _ _ _ G (e_rank e) Hr) as [B|(_ & Lp)].
    { rewrite B in F. cbn in F. destruct (before (j_recvs J q) i); destruct d; discriminate. }
    rewrite (li_chan _ _ _ Lp) in F. apply flat_arrays in F; [|exact Hd]. destruct F as (e' & E' & ->).
    destruct (gi_ord _ _ _ G eq_refl (e_rank e) q Hr) as (m & Hm). rewrite Hm in E'.
    assert (Lm : before (j_recvs J q) i < length (firstn m (sub q (j_sends J (e_rank e))))) by (apply nth_error_Some; congruence).
    rewrite firstn_length in Lm. rewrite nth_firstn in E' by lia.
    destruct (partner J A q i e Hq Ee) as (e2 & E2 & G2 & _). assert (e2 = e') by congruence. subst e2.
    unfold gf in G2. injection G2 as -> ->. reflexivity. }
  destruct (sl_parts s) as [|x0 [|x1 [|x2 [|x3 [|x4 l]]]]]; cbn in L4; try lia.
  cbn [map]. rewrite (X 0 x0 eq_refl ltac:(lia)), (X 1 x1 eq_refl ltac:(lia)), (X 2 x2 eq_refl ltac:(lia)), (X 3 x3 eq_refl ltac:(lia)).
  reflexivity.
Qed.

Lemma handle_ok q k : linv J q k ->
  linv J q (handle J q k) /\ k_pos (handle J q k) = k_pos k /\ k_sig (handle J q k) = k_sig k /\
  k_chan (handle J q k) = k_chan k /\
  (forall t s d v, nth_error (k_slots (handle J q k)) t = Some s -> sl_recv s <> None ->
     nth_error (sl_parts s) d = Some (PGot v) -> nth_error (k_slots k) t = Some s) /\
  (remote (k_log (handle J q k)) = remote (k_log k) \/
   exists t s i, nth_error (k_slots k) t = Some s /\ ready s = true /\ sl_recv s = Some i /\
     remote (k_log (handle J q k)) = remote (k_log k) ++ [(i, map value (sl_parts s))]).
Proof.
  intros L. pose proof L as [[Rn Rs Rp Rsl] Pe So Rd Fr Nd Lt Ch Fnd Fi Sd Ld Lo Ll]. unfold handle.
  destruct (if k_rd k then None else first_ready (k_slots k) 0) as [[[t i] vs]|] eqn:E.
  - assert (Hr : k_rd k = false) by (destruct (k_rd k); [discriminate|reflexivity]). rewrite Hr in E.
    apply first_ready_spec in E. destruct E as (_ & s & Et & R & Ei & ->). rewrite Nat.sub_0_r in Et.
    assert (Lk : t < length (k_slots k)) by (apply nth_error_Some; congruence).
    set (k1 := logged k (ERemote i (map value (sl_parts s)))).
    assert (Rem : remote (k_log k1) = remote (k_log k) ++ [(i, map value (sl_parts s))]) by (unfold k1; cbn [logged k_log]; rewrite remote_app; reflexivity).
    assert (Loc : local (k_log k1) = local (k_log k)) by (unfold k1; cbn [logged k_log]; rewrite local_app; cbn [local]; apply app_nil_r).
    assert (P1 : Permutation (map fst (remote (k_log k1)) ++ rest (k_slots k) t) (seq 0 (k_next k))).
    { rewrite Rem, map_app, <- app_assoc. cbn [map fst]. rewrite <- Pe. apply Permutation_app_head.
      pose proof (ids_split _ _ _ Et) as P. rewrite Ei in P. symmetry. exact P. }
    destruct (Nat.ltb_spec (k_next k) (length (recvs J q))) as [Ln|Ln]; unfold recvs in Ln.
    + destruct (nth_error (j_recvs J q) (k_next k)) as [e|] eqn:Ee; [|apply nth_error_None in Ee; lia].
      assert (E1 : nth_error (j_recvs J q) (k_next k1) = Some e) by exact Ee.
      assert (L1 : t < length (k_slots k1)) by exact Lk.
      destruct (post_fields J q t k1 e E1) as (F1 & F2 & F3 & F4 & F5 & F6 & F7 & F8 & F9 & F10).
      destruct (post_slots J q t k1 e E1) as (ps & Es & Hps). specialize (F3 L1).
      assert (Ins : forall x, In x (k_slots (post J q t k1)) -> x = mkSl (Some (k_next k)) ps \/ In x (k_slots k)).
      { intros x H. rewrite Es in H. apply In_nth_error in H. destruct H as (j & H). apply replace_inv in H; [|exact L1].
        destruct H as [(_ & ->)|(_ & H)]; [left; reflexivity|right; eapply nth_error_In; eauto]. }
      split; [|split; [|split; [|split; [|split]]]].
      * constructor.
        -- apply (post_ok J q t k1 e); [constructor; assumption|exact E1|exact L1].
        -- rewrite F1, F2, F3, seq_S. rewrite <- Permutation_middle. rewrite <- Permutation_cons_append. constructor. exact P1.
        -- rewrite Es. intros X. apply (f_equal (@length _)) in X. rewrite replace_len in X by exact L1. cbn in X. cbn in L1. lia.
        -- rewrite F9. cbn [k1 logged k_rd]. rewrite Hr. split; [discriminate|]. intros H. exfalso.
           specialize (H (mkSl (Some (k_next k)) ps)). cbn in H. discriminate H. rewrite Es. apply (nth_error_In _ t), replace_same, L1.
        -- intros x Hx Ex. exfalso. destruct (Ins x Hx) as [->|Hx']; [discriminate|]. specialize (Fr x Hx' Ex). lia.
        -- rewrite F4. exact Nd.
        -- rewrite F4. exact Lt.
        -- rewrite F6, F4. exact Ch.
        -- rewrite F5. exact Fnd.
        -- rewrite F5, F4. exact Fi.
        -- rewrite F8, F5. exact Sd.
        -- rewrite F10, F7. exact Ld.
        -- rewrite F7. exact Lo.
        -- rewrite F1, F7, Loc. exact Ll.
      * unfold post, recvs. rewrite E1. reflexivity.
      * exact F4.
      * exact F6.
      * intros t' s' d v H Ns Hd. rewrite Es in H. apply replace_inv in H; [|exact L1].
        destruct H as [(_ & ->)|(_ & H)]; [|exact H]. cbn in Hd. apply nth_error_In in Hd.
        destruct (Hps _ Hd) as (p & c & X). discriminate.
      * right. exists t, s, i. rewrite F1. auto.
    + unfold release. cbn [k1 logged k_slots]. rewrite Et. set (sl := replace (k_slots k) t (mkSl None (sl_parts s))).
      assert (Ins : forall x, In x sl -> x = mkSl None (sl_parts s) \/ In x (k_slots k)).
      { intros x H. apply In_nth_error in H. destruct H as (j & H). apply replace_inv in H; [|exact Lk].
        destruct H as [(_ & ->)|(_ & H)]; [left; reflexivity|right; eapply nth_error_In; eauto]. }
      split; [|split; [reflexivity|split; [reflexivity|split; [reflexivity|split]]]].
      * constructor; cbn [k_slots k_log k_next k_rd k_sig k_chan k_fin k_sd k_ld k_loc logged]; try assumption.
        -- constructor; cbn [k_slots k_next k_sent k_posted]; try assumption.
           intros t' s' H. apply replace_inv in H; [|exact Lk]. destruct H as [(-> & ->)|(_ & H)]; [|apply (Rsl t' s' H)].
           unfold slot_ok. cbn. unfold ready in R. rewrite Ei in R. rewrite forallb_forall in R. exact R.
        -- change (k_log k ++ [ERemote i (map value (sl_parts s))]) with (k_log k1). unfold sl.
           rewrite (ids_replace (k_slots k) t _ Lk). exact P1.
        -- intros X. apply (f_equal (@length _)) in X. unfold sl in X. rewrite replace_len in X by exact Lk. cbn in X. lia.
        -- rewrite forallb_forall. split; intros H x Hx; specialize (H x Hx).
           ++ destruct (sl_recv x); [discriminate|reflexivity].
           ++ rewrite H. reflexivity.
        -- intros x Hx Ex. change (k_next k = length (j_recvs J q)). lia.
        -- change (k_log k ++ [ERemote i (map value (sl_parts s))]) with (k_log k1). rewrite Loc. exact Ll.
      * intros t' s' d v H Ns Hd. apply replace_inv in H; [|exact Lk]. destruct H as [(_ & ->)|(_ & H)]; [elim Ns; reflexivity|exact H].
      * right. exists t, s, i. cbn [k_log]. auto.
  - destruct (k_ld k) eqn:El.
    + split; [exact L|]. repeat (split; [reflexivity|]). split; [auto|]. left; reflexivity.
    + assert (Ne : k_loc k < j_locals J q).
      { symmetry in Ld. apply Nat.eqb_neq in Ld. lia. }
      split; [|repeat (split; [reflexivity|]); split; [auto|left; cbn; rewrite remote_app, app_nil_r; reflexivity]].
      constructor; cbn [k_slots k_log k_next k_rd k_sig k_chan k_fin k_sd k_ld k_loc]; try assumption.
      * constructor; assumption.
      * rewrite remote_app. cbn [remote]. rewrite app_nil_r. exact Pe.
      * reflexivity.
      * rewrite local_app, Ll. cbn [local]. rewrite seq_S. reflexivity.
Qed.

(** * One move *)

Lemma fetched_ext g g' q : k_slots (g' q) = k_slots (g q) -> (forall p, exists x, k_chan (g' p) q = k_chan (g p) q ++ x) ->
  fetched J g q -> fetched J g' q.
Proof.
  intros E C F t s i e d v H1 H2 H3 H4. rewrite E in H1. specialize (F t s i e d v H1 H2 H3 H4).
  destruct (C (e_rank e)) as (x & ->). rewrite nth_error_app1; [exact F|]. apply nth_error_Some. congruence.
Qed.
Lemma upd_same {B} (g : nat -> B) r k : upd g r k r = k.
Proof. unfold upd. rewrite Nat.eqb_refl. reflexivity. Qed.
Lemma upd_other {B} (g : nat -> B) r k x : x <> r -> upd g r k x = g x.
Proof. intros N. unfold upd. rewrite (proj2 (Nat.eqb_neq _ _) N). reflexivity. Qed.

(** A move of one process that changes its record as described. *)
Lemma change ord g r k' : ginv J ord g -> r < j_n J -> k_pos k' <> PInit -> linv J r k' ->
  (forall q, exists x, k_chan k' q = k_chan (g r) q ++ x) ->
  fetched J (upd g r k') r ->
  (ord = true -> forall q, orderly J r q (k_sig k')) ->
  (ord = true -> Forall (fun x => true_data J r (fst x) (snd x)) (remote (k_log k'))) ->
  ginv J ord (upd g r k').
Proof.
  intros [Gg Gf Go Gl] Hr P L C F O Lg.
  assert (Ce : forall q p, exists x, k_chan (upd g r k' p) q = k_chan (g p) q ++ x).
  { intros q p. destruct (Nat.eq_dec p r) as [->|N]; [rewrite upd_same; apply C|rewrite upd_other by exact N].
    exists []. rewrite app_nil_r. reflexivity. }
  constructor.
  - intros q Hq. destruct (Nat.eq_dec q r) as [->|N]; [rewrite upd_same; right; auto|rewrite upd_other by exact N; auto].
  - intros q Hq. destruct (Nat.eq_dec q r) as [->|N]; [exact F|].
    apply (fetched_ext g); [rewrite upd_other by exact N; reflexivity|apply Ce|auto].
  - intros E p q Hp. destruct (Nat.eq_dec p r) as [->|N]; [rewrite upd_same; auto|rewrite upd_other by exact N; auto].
  - intros E q Hq. destruct (Nat.eq_dec q r) as [->|N]; [rewrite upd_same; auto|rewrite upd_other by exact N; auto].
Qed.
Lemma chan_same (k : rank (V := V)) (k' : rank (V := V)) : k_chan k' = k_chan k -> forall q, exists x, k_chan k' q = k_chan k q ++ x.
Proof. intros E q. exists []. rewrite E, app_nil_r. reflexivity. Qed.

Lemma fetched_self g r k' : (forall q, exists x, k_chan k' q = k_chan (g r) q ++ x) ->
  (forall t s i e d v, nth_error (k_slots k') t = Some s -> sl_recv s = Some i ->
    nth_error (j_recvs J r) i = Some e -> nth_error (sl_parts s) d = Some (PGot v) ->
    nth_error (k_chan (g (e_rank e)) r) (4 * before (j_recvs J r) i + d) = Some v) -> fetched J (upd g r k') r.
Proof.
  intros C F t s i e d v H1 H2 H3 H4. rewrite upd_same in H1. specialize (F t s i e d v H1 H2 H3 H4).
  destruct (Nat.eq_dec (e_rank e) r) as [E|N]; [rewrite E, upd_same; rewrite E in F|rewrite upd_other by exact N; exact F].
  destruct (C r) as (x & ->). rewrite nth_error_app1; [exact F|]. apply nth_error_Some. congruence.
Qed.

Lemma step_ok ord g r a g' : ginv J ord g -> step J ord g r a = Some g' -> ginv J ord g'.
Proof.
  intros G H. unfold step in H. destruct (Nat.ltb_spec r (j_n J)) as [Hr|]; [|discriminate]. cbn [negb] in H.
  pose proof (gi_good _ _ _ G r Hr) as Gd. pose proof (gi_fetched _ _ _ G r Hr) as Gf.
  pose proof (fun E => gi_log _ _ _ G E r Hr) as Gl. pose proof (fun E q => gi_ord _ _ _ G E r q Hr) as Go.
  destruct (k_pos (g r)) eqn:Ep.
  - destruct a; try discriminate. injection H as <-.
    assert (B : g r = blank J r) by (destruct Gd as [B|(N & _)]; [exact B|congruence]).
    destruct (init_ok J r) as (L & W & Lo & Si & Ch & Po).
    apply change; auto.
    + rewrite Po. discriminate.
    + intros q. rewrite Ch, B. exists []. reflexivity.
    + intros t s i e d v H1 _ _ H4. rewrite upd_same in H1. elim (W s (PGot v) v (nth_error_In _ _ H1) (nth_error_In _ _ H4)). reflexivity.
    + intros _ q. rewrite Si. exists 0. reflexivity.
    + intros _. rewrite Lo. constructor.
  - destruct a as [|out| | |]; try discriminate.
    destruct Gd as [B|(_ & L)]; [rewrite B in Ep; discriminate|].
    destruct (done (g r)); [discriminate|]. destruct (k_sd (g r)) eqn:Esd.
    + destruct out; [|discriminate]. injection H as <-.
      apply change; auto; [discriminate|apply move_linv, L|apply (chan_same (g r)); reflexivity|].
      apply fetched_self; [apply (chan_same (g r)); reflexivity|exact Gf].
    + destruct (signals_ok J ord g r (k_sig (g r)) out) eqn:So; [|discriminate]. injection H as <-.
      destruct (answers_ok ord g r Hr out (g r) L So) as (L' & (K1 & K2 & _ & _ & _ & _ & K7) & S' & O').
      apply change; auto.
      * discriminate.
      * apply move_linv, L'.
      * apply fetched_self; [exact K7|]. cbn [move k_slots]. rewrite K1. exact Gf.
      * intros E q. cbn [move k_sig]. rewrite S'. apply O'; auto.
      * intros E. cbn [move k_log]. rewrite K2. auto.
  - destruct a as [| |out| |]; try discriminate.
    destruct Gd as [B|(_ & L)]; [rewrite B in Ep; discriminate|].
    destruct (sends_ok (g r) (k_fin (g r)) out) eqn:So; [|discriminate]. injection H as <-.
    apply change; auto; [discriminate|apply move_linv, send_done_ok; auto|apply (chan_same (g r)); reflexivity|].
    apply fetched_self; [apply (chan_same (g r)); reflexivity|exact Gf].
  - destruct a as [| | |out|]; try discriminate.
    destruct Gd as [B|(_ & L)]; [rewrite B in Ep; discriminate|].
    destruct (k_rd (g r)) eqn:Erd.
    + destruct out; [|discriminate]. injection H as <-.
      apply change; auto; [discriminate|apply move_linv, L|apply (chan_same (g r)); reflexivity|].
      apply fetched_self; [apply (chan_same (g r)); reflexivity|exact Gf].
    + destruct (receives g r (k_slots (g r)) out) as [sl|] eqn:Er; [|discriminate]. injection H as <-.
      pose proof L as [[Rn Rs Rp Rsl] Pe So Rd Fr Nd Lt Ch Fnd Fi Sd Ld Lo Ll].
      destruct (receives_ok g r (k_next (g r)) out (k_slots (g r)) sl (conj Rsl Gf) Er) as ((S1 & S2) & M).
      assert (Inm : forall s, In s sl -> exists s', In s' (k_slots (g r)) /\ sl_recv s' = sl_recv s).
      { intros s Hs. apply (in_map sl_recv) in Hs. rewrite M in Hs. apply in_map_iff in Hs. destruct Hs as (s' & E & Hs). eauto. }
      assert (Inm' : forall s, In s (k_slots (g r)) -> exists s', In s' sl /\ sl_recv s' = sl_recv s).
      { intros s Hs. apply (in_map sl_recv) in Hs. rewrite <- M in Hs. apply in_map_iff in Hs. destruct Hs as (s' & E & Hs). eauto. }
      apply change; auto; [discriminate| |apply (chan_same (g r)); reflexivity|apply fetched_self; [apply (chan_same (g r)); reflexivity|exact S2]].
      apply move_linv. constructor; cbn [with_slots k_slots k_log k_next k_rd k_sig k_chan k_fin k_sd k_ld k_loc]; try assumption.
      * constructor; assumption.
      * rewrite (ids_map _ _ M). exact Pe.
      * intros X. rewrite X in M. destruct (k_slots (g r)); [elim So; reflexivity|discriminate].
      * rewrite Rd. split; intros H s Hs.
        -- destruct (Inm s Hs) as (s' & Hs' & E). rewrite <- E. apply H, Hs'.
        -- destruct (Inm' s Hs) as (s' & Hs' & E). rewrite <- E. apply H, Hs'.
      * intros s Hs E. destruct (Inm s Hs) as (s' & Hs' & E'). apply (Fr s' Hs'). congruence.
  - destruct a; try discriminate. injection H as <-.
    destruct Gd as [B|(_ & L)]; [rewrite B in Ep; discriminate|].
    destruct (handle_ok r (g r) L) as (L' & _ & Si & Ch & Sl & Lg).
    apply change; auto.
    + discriminate.
    + apply move_linv, L'.
    + apply (chan_same (g r)). exact Ch.
    + apply fetched_self; [apply (chan_same (g r)); exact Ch|].
      intros t s i e d v H1 H2 H3 H4. apply (Gf t s i e d v); auto.
      apply (Sl t s d v); [exact H1|congruence|exact H4].
    + intros E q. cbn [move k_sig]. rewrite Si. auto.
    + intros E. cbn [move k_log]. destruct Lg as [->|(t & s & i & Et & R & Ei & ->)]; [auto|].
      apply Forall_app. split; [auto|]. constructor; [|constructor]. cbn [fst snd]. subst ord.
      apply (ready_data g r t s i G Hr L Et R Ei).
Qed.

Lemma start_ok ord : ginv J ord (start J).
Proof.
  constructor.
  - intros q _. left. reflexivity.
  - intros q _ t s i e d v H E. apply nth_repeat' in H. subst s. discriminate.
  - intros _ p q _. exists 0. reflexivity.
  - intros _ q _. constructor.
Qed.
Lemma exec_ok ord l : forall g g', ginv J ord g -> exec J ord g l = Some g' -> ginv J ord g'.
Proof.
  induction l as [|[r a] l IH]; intros g g' G H; cbn [exec] in H; [congruence|].
  destruct (step J ord g r a) as [g1|] eqn:E; [|discriminate]. apply (IH g1 g'); [apply (step_ok _ _ _ _ _ G E)|exact H].
Qed.

(** A process that is done has used all of its fragments. *)
Lemma done_right q g : ginv J true g -> q < j_n J -> done (g q) = true -> right J q (k_log (g q)).
Proof.
  intros G Hq D. pose proof (gi_log _ _ _ G eq_refl q Hq) as Lg. unfold done in D. rewrite !andb_true_iff in D. destruct D as ((D1 & D2) & D3).
  destruct (gi_good _ _ _ G q Hq) as [B|(_ & L)].
  - rewrite B in D2, D3. cbn in D2, D3. rewrite B. cbn. apply Nat.eqb_eq in D2, D3. unfold recvs in D2.
    split; [|split]; cbn; [rewrite D2; constructor|constructor|rewrite D3; reflexivity].
  - split; [|split; [exact Lg|]].
    + pose proof (li_perm _ _ _ L) as P. pose proof (proj1 (li_rd _ _ _ L) D2) as N.
      assert (X : ids (k_slots (g q)) = []).
      { clear - N. induction (k_slots (g q)) as [|s l IH]; [reflexivity|]. cbn [ids flat_map]. rewrite (N s (or_introl eq_refl)).
        apply IH. intros x Hx. apply N. right; exact Hx. }
      rewrite X, app_nil_r in P. rewrite P. destruct (k_slots (g q)) as [|s l] eqn:Es; [elim (li_some _ _ _ L); exact Es|].
      rewrite (li_free _ _ _ L s); [reflexivity|rewrite Es; left; reflexivity|apply N; left; reflexivity].
    + rewrite (li_local _ _ _ L). rewrite (li_ld _ _ _ L) in D3. apply Nat.eqb_eq in D3. rewrite D3. reflexivity.
Qed.

End Step.
