(** The transfer of fragments can always go on until all processes are done. *)
From Coq Require Import ZArith List Bool Arith Lia Permutation Sorting.Sorted.
From Verif Require Import FRefModel FtxModel FtxSpec FtxProof FtxInv FtxStep.
Import ListNotations.
Local Open Scope nat_scope.

Section Live.
Context {V : Type}.
Variable J : job (V := V).
Hypothesis A : agreed J.

(** * Work left *)

Definition waits (ps : list (part (V := V))) : nat := length (filter (fun x => negb (finished x)) ps).
Definition slot_work (s : slot (V := V)) : nat := match sl_recv s with Some _ => S (waits (sl_parts s)) | None => 0 end.
Definition slots_work (l : list (slot (V := V))) : nat := list_sum (map slot_work l).
Definition work (q : nat) (k : rank (V := V)) : nat :=
  (length (j_sends J q) - length (k_sig k)) + (4 * length (j_sends J q) - length (k_fin k)) +
  5 * (length (j_recvs J q) - k_next k) + slots_work (k_slots k) + (j_locals J q - k_loc k) +
  match k_pos k with PInit => 1 | _ => 0 end.

Lemma sum_replace {B} (f : B -> nat) l t x y : nth_error l t = Some y ->
  list_sum (map f (replace l t x)) + f y = list_sum (map f l) + f x.
Proof.
  intros E. rewrite (split_nth l t y E) at 2. unfold replace. rewrite !map_app, !list_sum_app. cbn [map list_sum fold_right].
  unfold list_sum. lia.
Qed.

Lemma sig_bound q k : linv J q k -> length (k_sig k) <= length (j_sends J q).
Proof.
  intros L. rewrite <- (seq_length (length (j_sends J q)) 0). apply NoDup_incl_length; [apply (li_nd _ _ _ L)|].
  intros i Hi. apply in_seq. pose proof (li_lt _ _ _ L i Hi). lia.
Qed.
Lemma fin_bound q k : linv J q k -> length (k_fin k) <= 4 * length (j_sends J q).
Proof.
  intros L. replace (4 * length (j_sends J q)) with (length (list_prod (seq 0 (length (j_sends J q))) (seq 0 4))).
  2: { rewrite prod_length, !seq_length. lia. }
  apply NoDup_incl_length; [apply (li_fnd _ _ _ L)|]. intros [i d] Hi. destruct (li_fin _ _ _ L i d Hi) as (H1 & H2).
  apply in_prod; apply in_seq; [pose proof (li_lt _ _ _ L i H1)|]; lia.
Qed.

Lemma waits_le ps : waits ps <= length ps.
Proof. unfold waits. induction ps as [|x ps IH]; cbn; [lia|]. destruct (negb (finished x)); cbn; lia. Qed.
Lemma waits_replace ps d p c v : nth_error ps d = Some (PWait p c) -> S (waits (replace ps d (PGot v))) = waits ps.
Proof.
  intros E. unfold waits. rewrite (split_nth ps d _ E) at 2. unfold replace.
  rewrite !filter_app, !app_length. cbn [filter finished negb length]. lia.
Qed.
Lemma receive_work g q next sl x sl' : slots_ok J g q next sl -> receive g q sl x = Some sl' ->
  S (slots_work sl') = slots_work sl.
Proof.
  intros (S1 & _) H. unfold receive in H. destruct x as [t d]. cbn [fst snd] in H.
  destruct (nth_error sl t) as [s|] eqn:Et; [|discriminate].
  destruct (nth_error (sl_parts s) d) as [[|p c|v]|] eqn:Ed; try discriminate.
  destruct (nth_error (k_chan (g p) q) c) as [v|] eqn:Ev; [|discriminate]. injection H as <-.
  pose proof (sum_replace slot_work sl t (mkSl (sl_recv s) (replace (sl_parts s) d (PGot v))) s Et) as X.
  unfold slots_work. specialize (S1 t s Et). unfold slot_ok in S1. unfold slot_work in X at 2 4. cbn [sl_recv sl_parts] in X.
  destruct (sl_recv s) as [i|].
  - pose proof (waits_replace (sl_parts s) d p c v Ed). lia.
  - specialize (S1 _ (nth_error_In _ _ Ed)). discriminate.
Qed.
Lemma receives_work g q next : forall out sl sl', slots_ok J g q next sl -> receives g q sl out = Some sl' ->
  slots_work sl' + length out = slots_work sl.
Proof.
  induction out as [|x out IH]; intros sl sl' S H; cbn [receives length] in *; [injection H as <-; lia|].
  destruct (receive g q sl x) as [sl1|] eqn:E; [|discriminate].
  destruct (receive_ok J g q next sl x sl1 S E) as (S1 & _).
  pose proof (receive_work _ _ _ _ _ _ S E). pose proof (IH _ _ S1 H). lia.
Qed.

Lemma post_work q t k e : nth_error (j_recvs J q) (k_next k) = Some e -> t < length (k_slots k) ->
  forall s, nth_error (k_slots k) t = Some s -> slots_work (k_slots (post J q t k)) + slot_work s = slots_work (k_slots k) + 5.
Proof.
  intros E L s Et. unfold post, recvs. rewrite E. cbn [k_slots]. unfold slots_work.
  rewrite (sum_replace slot_work (k_slots k) t _ s Et). reflexivity.
Qed.
Lemma post_log q t k : k_log (post J q t k) = k_log k.
Proof. unfold post. destruct (nth_error (recvs J q) (k_next k)); reflexivity. Qed.
Lemma init_work q : work q (init J q) < work q (blank J q).
Proof.
  assert (X : forall m t k, t + m = max_transfers -> sinv J q t k -> slots_work (k_slots k) = 5 * k_next k ->
              slots_work (k_slots (fold_left (fun k t => post J q t k) (seq t m) k)) =
              5 * k_next (fold_left (fun k t => post J q t k) (seq t m) k)).
  { induction m as [|m IH]; intros t k E S W; cbn [seq fold_left]; [exact W|].
    apply IH; [lia|apply post_s; [lia|exact S]|].
    destruct (nth_error (j_recvs J q) (k_next k)) as [e|] eqn:En; [|rewrite post_none by exact En; exact W].
    pose proof (si_len _ _ _ _ S) as Le. assert (Lk : t < length (k_slots k)) by lia.
    destruct (nth_error (k_slots k) t) as [s|] eqn:Et; [|apply nth_error_None in Et; lia].
    pose proof (post_work q t k e En Lk s Et) as P.
    unfold slot_work in P at 1. rewrite (si_none _ _ _ _ S t s (Nat.le_refl t) Et) in P.
    destruct (post_fields J q t k e En) as (_ & -> & _). lia. }
  pose proof (init_fold J q max_transfers 0 (blank J q) eq_refl (blank_s J q)) as S.
  specialize (X max_transfers 0 (blank J q) eq_refl (blank_s J q) eq_refl).
  unfold init. set (k := fold_left _ _ _) in *. destruct (si_rest _ _ _ _ S) as (R1 & R2 & _ & R4 & _).
  pose proof (ri_next _ _ _ (si_r _ _ _ _ S)) as N.
  unfold work. cbn [move k_pos k_sig k_fin k_next k_slots k_loc]. rewrite R1, R2, R4, X. cbn [blank k_pos k_sig k_fin k_next k_slots k_loc length].
  replace (slots_work (repeat (mkSl None [PFree; PFree; PFree; PFree]) max_transfers)) with 0 by reflexivity. lia.
Qed.

Lemma ready_waits s : ready (V := V) s = true -> slot_work s = 1.
Proof.
  unfold ready, slot_work, waits. destruct (sl_recv s); [|discriminate]. intros H. f_equal.
  rewrite forallb_forall in H. induction (sl_parts s) as [|x l IH]; [reflexivity|]. cbn [filter].
  rewrite (H x (or_introl eq_refl)). cbn. apply IH. intros y Hy. apply H. right; exact Hy.
Qed.
Lemma handle_work q k : linv J q k -> k_pos k <> PInit ->
  work q (handle J q k) + length (k_log (handle J q k)) = work q k + length (k_log k) /\
  (work q (handle J q k) = work q k -> handle J q k = k).
Proof.
  intros L Np. pose proof L as [[Rn Rs Rp Rsl] Pe So Rd Fr Nd Lt Ch Fnd Fi Sd Ld Lo Ll]. unfold handle.
  destruct (if k_rd k then None else first_ready (k_slots k) 0) as [[[t i] vs]|] eqn:E.
  - assert (Hr : k_rd k = false) by (destruct (k_rd k); [discriminate|reflexivity]). rewrite Hr in E.
    apply first_ready_spec in E. destruct E as (_ & s & Et & R & Ei & ->). rewrite Nat.sub_0_r in Et.
    assert (Lk : t < length (k_slots k)) by (apply nth_error_Some; congruence).
    pose proof (ready_waits s R) as W1.
    set (k1 := logged k (ERemote i (map value (sl_parts s)))).
    assert (Ll1 : length (k_log k1) = S (length (k_log k))) by (unfold k1; cbn [logged k_log]; rewrite app_length; cbn; lia).
    match goal with |- ?a + _ = ?b + _ /\ _ => assert (Y : S a = b) end.
    { destruct (Nat.ltb_spec (k_next k) (length (recvs J q))) as [Ln|Ln]; unfold recvs in Ln.
      + destruct (nth_error (j_recvs J q) (k_next k)) as [e|] eqn:Ee; [|apply nth_error_None in Ee; lia].
        destruct (post_fields J q t k1 e Ee) as (F1 & F2 & F3 & F4 & F5 & F6 & F7 & _).
        pose proof (post_work q t k1 e Ee Lk s Et) as W.
        assert (Pp : k_pos (post J q t k1) = k_pos k) by (unfold post, recvs; change (k_next k1) with (k_next k); rewrite Ee; reflexivity).
        unfold work. rewrite F2, F4, F5, F7, Pp.
        change (k_next k1) with (k_next k). change (k_sig k1) with (k_sig k). change (k_fin k1) with (k_fin k).
        change (k_loc k1) with (k_loc k). change (k_slots k1) with (k_slots k) in W. lia.
      + unfold release. change (k_slots k1) with (k_slots k). rewrite Et.
        unfold work. cbn [k_pos k_sig k_fin k_next k_slots k_loc].
        change (k_next k1) with (k_next k). change (k_sig k1) with (k_sig k). change (k_fin k1) with (k_fin k).
        change (k_loc k1) with (k_loc k). change (k_pos k1) with (k_pos k).
        pose proof (sum_replace slot_work (k_slots k) t (mkSl None (sl_parts s)) s Et) as X.
        replace (slot_work (mkSl None (sl_parts s))) with 0 in X by reflexivity.
        fold (slots_work (replace (k_slots k) t (mkSl None (sl_parts s)))) in X. fold (slots_work (k_slots k)) in X. lia. }
    assert (Lg : k_log (if k_next k <? length (recvs J q) then post J q t k1 else release k1 t) = k_log k1).
    { destruct (Nat.ltb_spec (k_next k) (length (recvs J q))) as [Ln|Ln]; [|reflexivity].
      destruct (nth_error (j_recvs J q) (k_next k)) as [e|] eqn:Ee; [|apply nth_error_None in Ee; unfold recvs in Ln; lia].
      apply (post_fields J q t k1 e Ee). }
    rewrite Lg, Ll1. split; lia.
  - destruct (k_ld k) eqn:El; [split; auto; lia|].
    assert (Ne : k_loc k < j_locals J q) by (symmetry in Ld; apply Nat.eqb_neq in Ld; lia).
    unfold work. cbn [k_pos k_sig k_fin k_next k_slots k_loc k_log]. rewrite app_length. cbn [length]. split; lia.
Qed.

Definition counted (a : act) : nat :=
  match a with ASignals o => length o | ASends o => length o | ARecvs o => length o | _ => 0 end.

(** Every report, and every fragment handled, is work done. *)
Lemma step_work ord g r a g' : ginv J ord g -> step J ord g r a = Some g' ->
  r < j_n J /\ (forall x, x <> r -> g' x = g x) /\
  work r (g' r) + counted a + length (k_log (g' r)) <= work r (g r) + length (k_log (g r)).
Proof.
  intros G H. pose proof (step_ok J A _ _ _ _ _ G H) as G'.
  unfold step in H. destruct (Nat.ltb_spec r (j_n J)) as [Hr|]; [|discriminate]. cbn [negb] in H. split; [exact Hr|].
  pose proof (gi_good _ _ _ G r Hr) as Gd. pose proof (gi_good _ _ _ G' r Hr) as Gd'.
  pose proof (gi_fetched _ _ _ G r Hr) as Gf.
  destruct (k_pos (g r)) eqn:Ep.
  - destruct a; try discriminate. injection H as <-. split; [intros x N; apply upd_other, N|]. rewrite upd_same.
    assert (B : g r = blank J r) by (destruct Gd as [B|(N & _)]; [exact B|congruence]).
    rewrite B. pose proof (init_work r). destruct (init_ok J r) as (_ & _ & -> & _). cbn [counted blank k_log]. lia.
  - destruct a as [|out| | |]; try discriminate.
    destruct Gd as [B|(_ & L)]; [rewrite B in Ep; discriminate|].
    destruct (done (g r)); [discriminate|]. destruct (k_sd (g r)) eqn:Esd.
    + destruct out; [|discriminate]. injection H as <-. split; [intros x N; apply upd_other, N|]. rewrite upd_same.
      unfold work. cbn [move k_pos k_sig k_fin k_next k_slots k_loc k_log counted length]. lia.
    + destruct (signals_ok J ord g r (k_sig (g r)) out) eqn:So; [|discriminate]. injection H as <-.
      split; [intros x N; apply upd_other, N|]. rewrite upd_same.
      destruct (answers_ok J A ord g r Hr out (g r) L So) as (L' & (K1 & K2 & K3 & K4 & K5 & K6 & K7) & S' & O').
      unfold work. cbn [move k_pos k_sig k_fin k_next k_slots k_loc k_log counted]. rewrite K1, K2, K4, K5, K6, S', app_length, Ep.
      pose proof (sig_bound _ _ L') as Bd. rewrite S', app_length in Bd. lia.
  - destruct a as [| |out| |]; try discriminate.
    destruct Gd as [B|(_ & L)]; [rewrite B in Ep; discriminate|].
    destruct (sends_ok (g r) (k_fin (g r)) out) eqn:So; [|discriminate]. injection H as <-.
    split; [intros x N; apply upd_other, N|]. rewrite upd_same.
    pose proof (fin_bound _ _ (send_done_ok J r (g r) out L So)) as Bd. cbn [send_done k_fin] in Bd. rewrite app_length in Bd.
    unfold work. cbn [move send_done k_pos k_sig k_fin k_next k_slots k_loc k_log counted]. rewrite app_length. lia.
  - destruct a as [| | |out|]; try discriminate.
    destruct Gd as [B|(_ & L)]; [rewrite B in Ep; discriminate|].
    destruct (k_rd (g r)) eqn:Erd.
    + destruct out; [|discriminate]. injection H as <-. split; [intros x N; apply upd_other, N|]. rewrite upd_same.
      unfold work. cbn [move k_pos k_sig k_fin k_next k_slots k_loc k_log counted length]. lia.
    + destruct (receives g r (k_slots (g r)) out) as [sl|] eqn:Er; [|discriminate]. injection H as <-.
      split; [intros x N; apply upd_other, N|]. rewrite upd_same.
      pose proof (receives_work g r (k_next (g r)) out (k_slots (g r)) sl (conj (ri_slots _ _ _ (li_r _ _ _ L)) Gf) Er) as X.
      unfold work. cbn [move with_slots k_pos k_sig k_fin k_next k_slots k_loc k_log counted]. lia.
  - destruct a; try discriminate. injection H as <-. split; [intros x N; apply upd_other, N|]. rewrite upd_same.
    destruct Gd as [B|(_ & L)]; [rewrite B in Ep; discriminate|].
    destruct (handle_work r (g r) L ltac:(congruence)) as (X & _). destruct (handle_ok J r (g r) L) as (_ & P & _).
    unfold work in *. cbn [move k_pos k_sig k_fin k_next k_slots k_loc k_log counted]. rewrite P, Ep in X. lia.
Qed.

Lemma exec_work ord l r : forall g g', ginv J ord g -> exec J ord g l = Some g' ->
  work r (g' r) + reports r l + length (k_log (g' r)) <= work r (g r) + length (k_log (g r)).
Proof.
  induction l as [|[x a] l IH]; intros g g' G H; cbn [exec reports] in *; [injection H as <-; lia|].
  destruct (step J ord g x a) as [g1|] eqn:E; [|discriminate].
  destruct (step_work _ _ _ _ _ G E) as (_ & Oth & W). specialize (IH g1 g' (step_ok J A _ _ _ _ _ G E) H).
  destruct (Nat.eqb_spec x r) as [->|N]; [|rewrite (Oth r) in IH by congruence; lia].
  unfold counted in W. lia.
Qed.
Lemma bounded ord l g r : exec J ord (start J) l = Some g ->
  reports r l + length (k_log (g r)) <= 5 * length (j_sends J r) + 5 * length (j_recvs J r) + j_locals J r + 1.
Proof.
  intros H. pose proof (exec_work ord l r _ _ (start_ok J ord) H) as X.
  assert (W : work r (start J r) = 5 * length (j_sends J r) + 5 * length (j_recvs J r) + j_locals J r + 1).
  { unfold work, start. cbn [blank k_pos k_sig k_fin k_next k_slots k_loc length].
    replace (slots_work (repeat (mkSl None [PFree; PFree; PFree; PFree]) max_transfers)) with 0 by reflexivity. lia. }
  rewrite W in X. cbn [start blank k_log length] in X. lia.
Qed.

(** * Going on *)

Definition total (g : nat -> rank (V := V)) : nat := list_sum (map (fun r => work r (g r)) (seq 0 (j_n J))).
Lemma sum_le_in {B} (f f' : B -> nat) l : (forall x, In x l -> f' x <= f x) -> list_sum (map f' l) <= list_sum (map f l).
Proof.
  induction l as [|a l IH]; intros H; [cbn; lia|]. change (f' a + list_sum (map f' l) <= f a + list_sum (map f l)).
  pose proof (H a (or_introl eq_refl)). specialize (IH (fun x Hx => H x (or_intror Hx))). lia.
Qed.
Lemma sum_lt_in {B} (f f' : B -> nat) x : forall l, (forall y, In y l -> f' y <= f y) -> In x l -> f' x < f x ->
  list_sum (map f' l) < list_sum (map f l).
Proof.
  induction l as [|a l IH]; intros H I L; [destruct I|].
  change (f' a + list_sum (map f' l) < f a + list_sum (map f l)).
  pose proof (H a (or_introl eq_refl)). destruct I as [->|I].
  - pose proof (sum_le_in f f' l (fun y Hy => H y (or_intror Hy))). lia.
  - specialize (IH (fun y Hy => H y (or_intror Hy)) I L). lia.
Qed.
Lemma total_lt g g' r : r < j_n J -> (forall x, x <> r -> g' x = g x) -> work r (g' r) < work r (g r) -> total g' < total g.
Proof.
  intros Hr O L. apply (sum_lt_in _ _ r); [|apply in_seq; lia|exact L].
  intros y _. destruct (Nat.eq_dec y r) as [->|N]; [lia|rewrite O by exact N; lia].
Qed.

Definition follow (sd : bool) (x : pos) : pos :=
  match x with PInit => PInit | PSignals => if sd then PRecvs else PSends | PSends => PRecvs | PRecvs => PHandle | PHandle => PSignals end.

(** A running process goes to its next position without anything having been reported,
    or handles something. *)
Lemma idle g r : ginv J true g -> r < j_n J -> k_pos (g r) <> PInit -> done (g r) = false ->
  exists a g', step J true g r a = Some g' /\ (forall x, x <> r -> g' x = g x) /\
    (work r (g' r) < work r (g r) \/ g' r = move (g r) (follow (k_sd (g r)) (k_pos (g r)))).
Proof.
  intros G Hr Np D.
  assert (X : exists a g', step J true g r a = Some g' /\
     (work r (g' r) < work r (g r) \/ g' r = move (g r) (follow (k_sd (g r)) (k_pos (g r))))).
  { unfold step. rewrite (proj2 (Nat.ltb_lt _ _) Hr). cbn [negb]. destruct (k_pos (g r)) eqn:Ep; [congruence| | | |].
    - exists (ASignals []). rewrite D. destruct (k_sd (g r)) eqn:Esd.
      + eexists. split; [reflexivity|]. right. rewrite upd_same. reflexivity.
      + cbn [signals_ok fold_left]. eexists. split; [reflexivity|]. right. rewrite upd_same. reflexivity.
    - exists (ASends []). cbn [sends_ok]. eexists. split; [reflexivity|]. right. rewrite upd_same.
      unfold move, send_done. cbn. rewrite app_nil_r. reflexivity.
    - exists (ARecvs []). destruct (k_rd (g r)) eqn:Erd.
      + eexists. split; [reflexivity|]. right. rewrite upd_same. reflexivity.
      + cbn [receives]. eexists. split; [reflexivity|]. right. rewrite upd_same. reflexivity.
    - exists AHandle. eexists. split; [reflexivity|]. rewrite upd_same.
      destruct (gi_good _ _ _ G r Hr) as [B|(_ & L)]; [rewrite B in Ep; discriminate|].
      destruct (handle_work r (g r) L ltac:(congruence)) as (W & Eq). destruct (handle_ok J r (g r) L) as (_ & P & _ & _ & _ & Lg).
      assert (Le : work r (handle J r (g r)) <= work r (g r)).
      { pose proof (handle_ok J r (g r) L) as _. assert (length (k_log (g r)) <= length (k_log (handle J r (g r)))); [|lia].
        unfold handle. destruct (if k_rd (g r) then None else first_ready (k_slots (g r)) 0) as [[[t i] vs]|].
        - assert (Z : forall k : rank (V := V), length (k_log (logged (g r) (ERemote i vs))) = length (k_log k) -> length (k_log (g r)) <= length (k_log k)).
          { intros k Hk. rewrite <- Hk. cbn [logged k_log]. rewrite app_length. lia. }
          apply Z. destruct (k_next (g r) <? length (recvs J r)); [|reflexivity]. rewrite post_log; reflexivity.
        - destruct (k_ld (g r)); [lia|]. cbn [k_log]. rewrite app_length. lia. }
      destruct (Nat.eq_dec (work r (handle J r (g r))) (work r (g r))) as [Ew|Nw].
      + right. rewrite (Eq Ew). reflexivity.
      + left. unfold work in *. cbn [move k_pos k_sig k_fin k_next k_slots k_loc]. rewrite P, Ep in *. lia. }
  destruct X as (a & g' & E & Y). exists a, g'. split; [exact E|]. split; [|exact Y].
  apply (step_work _ _ _ _ _ G E).
Qed.

Definition progress (g : nat -> rank (V := V)) : Prop :=
  exists l g', exec J true g l = Some g' /\ total g' < total g.

Lemma exec_app ord l1 : forall l2 g g1, exec J ord g l1 = Some g1 -> exec J ord g (l1 ++ l2) = exec J ord g1 l2.
Proof.
  induction l1 as [|[r a] l1 IH]; intros l2 g g1 H; cbn [exec app] in *; [congruence|].
  destruct (step J ord g r a); [|discriminate]. apply IH, H.
Qed.

Lemma iter_swap {B} (f : B -> B) m x : Nat.iter (S m) f x = Nat.iter m f (f x).
Proof. induction m as [|m IH]; [reflexivity|]. change (f (Nat.iter (S m) f x) = f (Nat.iter m f (f x))). rewrite IH. reflexivity. Qed.
Lemma done_move (k : rank (V := V)) x : done (move k x) = done k.
Proof. reflexivity. Qed.
Lemma walk r x : forall m g, ginv J true g -> r < j_n J -> k_pos (g r) <> PInit -> done (g r) = false ->
  Nat.iter m (follow (k_sd (g r))) (k_pos (g r)) = x ->
  progress g \/ exists l g', exec J true g l = Some g' /\ (forall y, y <> r -> g' y = g y) /\ g' r = move (g r) x.
Proof.
  induction m as [|m IH]; intros g G Hr Np D E.
  - right. exists [], g. split; [reflexivity|]. split; [reflexivity|]. cbn in E. subst x. destruct (g r); reflexivity.
  - destruct (idle g r G Hr Np D) as (a & g1 & S1 & O1 & [W|M1]).
    + left. exists [(r, a)], g1. cbn [exec]. rewrite S1. split; [reflexivity|]. apply (total_lt g g1 r Hr O1 W).
    + assert (G1 := step_ok J A _ _ _ _ _ G S1).
      assert (Np1 : k_pos (g1 r) <> PInit).
      { rewrite M1. cbn [move k_pos]. destruct (k_pos (g r)); [congruence| | | |]; try discriminate. cbn. destruct (k_sd (g r)); discriminate. }
      destruct (IH g1 G1 Hr Np1) as [(l & g2 & E2 & W2)|(l & g2 & E2 & O2 & M2)].
      * rewrite M1. exact D.
      * rewrite M1. cbn [move k_sd k_pos]. rewrite <- E. symmetry. apply iter_swap.
      * left. exists ((r, a) :: l), g2. cbn [exec]. rewrite S1. split; [exact E2|].
        assert (total g1 <= total g); [|lia]. unfold total. apply sum_le_in. intros y _.
        destruct (Nat.eq_dec y r) as [->|N]; [|rewrite O1 by exact N; lia]. rewrite M1. unfold work. cbn [move k_pos k_sig k_fin k_next k_slots k_loc].
        destruct (k_pos (g r)); try congruence; cbn; try lia. destruct (k_sd (g r)); lia.
      * right. exists ((r, a) :: l), g2. cbn [exec]. rewrite S1. split; [exact E2|]. split.
        -- intros y N. rewrite O2, O1 by exact N. reflexivity.
        -- rewrite M2, M1. reflexivity.
Qed.
Lemma reach r x g : ginv J true g -> r < j_n J -> k_pos (g r) <> PInit -> done (g r) = false -> x <> PInit ->
  (x = PSends -> k_sd (g r) = false) ->
  progress g \/ exists l g', exec J true g l = Some g' /\ (forall y, y <> r -> g' y = g y) /\ g' r = move (g r) x.
Proof.
  intros G Hr Np D Nx Sx.
  assert (M : exists m, Nat.iter m (follow (k_sd (g r))) (k_pos (g r)) = x).
  { destruct (k_sd (g r)) eqn:Es; destruct (k_pos (g r)); try congruence; destruct x; try congruence;
      try (exists 0; reflexivity); try (exists 1; reflexivity); try (exists 2; reflexivity); try (exists 3; reflexivity);
      exfalso; specialize (Sx eq_refl); discriminate. }
  destruct M as (m & M). apply (walk r x m g G Hr Np D M).
Qed.

(** After reaching a position, a report. *)
Lemma report r x g a : ginv J true g -> r < j_n J -> k_pos (g r) <> PInit -> done (g r) = false -> x <> PInit ->
  (x = PSends -> k_sd (g r) = false) ->
  (forall g1, (forall y, y <> r -> g1 y = g y) -> g1 r = move (g r) x ->
     exists g2, step J true g1 r a = Some g2 /\ work r (g2 r) < work r (g1 r)) -> progress g.
Proof.
  intros G Hr Np D Nx Sx F. destruct (reach r x g G Hr Np D Nx Sx) as [P|(l & g1 & E1 & O1 & M1)]; [exact P|].
  destruct (F g1 O1 M1) as (g2 & E2 & W). exists (l ++ [(r, a)]), g2. split.
  - rewrite (exec_app true l _ _ _ E1). cbn [exec]. rewrite E2. reflexivity.
  - assert (G1 := exec_ok J A _ _ _ _ G E1). destruct (step_work _ _ _ _ _ G1 E2) as (_ & O2 & _).
    apply (total_lt g g2 r Hr).
    + intros y N. rewrite O2, O1 by exact N. reflexivity.
    + assert (work r (g1 r) <= work r (g r)); [|lia]. rewrite M1. unfold work. cbn [move k_pos k_sig k_fin k_next k_slots k_loc].
      destruct x; try congruence; lia.
Qed.

(** A process whose signal has arrived can answer one. *)
Lemma first_signal g p : forall i e, nth_error (j_sends J p) i = Some e -> ~ In i (k_sig (g p)) ->
  before (j_sends J p) i < k_sent (g (e_rank e)) p -> exists i0, signals_ok J true g p (k_sig (g p)) [i0] = true.
Proof.
  induction i as [i IH] using lt_wf_ind. intros e E N B.
  destruct (in_turn J p (k_sig (g p)) i) eqn:T.
  - exists i. cbn [signals_ok implb]. rewrite T. unfold arrived, rank_at, sends. rewrite E. cbn [option_map].
    rewrite (proj2 (Nat.ltb_lt _ _) B). rewrite !andb_true_iff. repeat split.
    apply negb_true_iff. destruct (existsb (Nat.eqb i) (k_sig (g p))) eqn:X; [|reflexivity]. apply existsb_nat in X. contradiction.
  - unfold in_turn in T. assert (X : exists j, In j (seq 0 i) /\
      implb (same_rank (sends J p) i j) (existsb (Nat.eqb j) (k_sig (g p))) = false).
    { revert T. generalize (seq 0 i). induction l as [|a l IHl]; [discriminate|]. cbn [forallb]. intros T.
      apply andb_false_iff in T. destruct T as [T|T]; [exists a; split; [left; reflexivity|exact T]|].
      destruct (IHl T) as (j & H1 & H2). exists j. split; [right; exact H1|exact H2]. }
    destruct X as (j & Hj & X). apply in_seq in Hj. unfold same_rank, rank_at, sends in X. rewrite E in X.
    destruct (nth_error (j_sends J p) j) as [e'|] eqn:E'; [|discriminate]. cbn [option_map] in X.
    destruct (Nat.eqb_spec (e_rank e) (e_rank e')) as [R|]; [|discriminate]. cbn in X.
    apply (IH j ltac:(lia) e' E').
    + intros H. apply existsb_nat in H. congruence.
    + rewrite <- R. pose proof (before_mono _ j i e' e E' E (eq_sym R) ltac:(lia)). lia.
Qed.
Lemma answer_signal g p i e : ginv J true g -> p < j_n J -> k_pos (g p) <> PInit ->
  nth_error (j_sends J p) i = Some e -> ~ In i (k_sig (g p)) ->
  before (j_sends J p) i < k_sent (g (e_rank e)) p -> progress g.
Proof.
  intros G Hp Np E N B. destruct (first_signal g p i e E N B) as (i0 & S0).
  destruct (gi_good _ _ _ G p Hp) as [Bl|(_ & L)]; [rewrite Bl in Np; elim Np; reflexivity|].
  assert (Sd : k_sd (g p) = false).
  { destruct (k_sd (g p)) eqn:X; [|reflexivity]. exfalso.
    pose proof (proj1 (li_sd _ _ _ L) X i 0) as Y. apply N. apply (li_fin _ _ _ L i 0). apply Y; [|lia].
    apply nth_error_Some. congruence. }
  assert (D : done (g p) = false) by (unfold done; rewrite Sd; reflexivity).
  apply (report p PSignals g (ASignals [i0])); auto; try discriminate.
  intros g1 O1 M1.
  assert (S1 : signals_ok J true g1 p (k_sig (g1 p)) [i0] = true).
  { assert (Ar : arrived J g1 p i0 = arrived J g p i0).
    { unfold arrived. destruct (rank_at (sends J p) i0) as [q|]; [|reflexivity].
      destruct (Nat.eq_dec q p) as [->|Nq]; [rewrite M1; reflexivity|rewrite O1 by exact Nq; reflexivity]. }
    rewrite M1. cbn [move k_sig]. cbn [signals_ok] in S0 |- *. rewrite Ar. exact S0. }
  unfold step. rewrite (proj2 (Nat.ltb_lt _ _) Hp). cbn [negb].
  assert (Ep : k_pos (g1 p) = PSignals) by (rewrite M1; reflexivity). rewrite Ep.
  assert (D1 : done (g1 p) = false) by (rewrite M1; exact D). rewrite D1.
  assert (Sd1 : k_sd (g1 p) = false) by (rewrite M1; exact Sd). rewrite Sd1, S1. eexists. split; [reflexivity|]. rewrite upd_same.
  assert (L1 : linv J p (g1 p)) by (rewrite M1; apply move_linv, L).
  destruct (answers_ok J A true g1 p Hp [i0] (g1 p) L1 S1) as (L' & (K1 & K2 & K3 & K4 & K5 & K6 & K7) & S' & _).
  pose proof (sig_bound _ _ L') as Bd. rewrite S', app_length in Bd.
  unfold work. cbn [move k_pos k_sig k_fin k_next k_slots k_loc]. rewrite K1, K4, K5, K6, S', app_length, Ep. cbn [length] in *. lia.
Qed.

Lemma go_on g : ginv J true g -> (exists r, r < j_n J /\ done (g r) = false) -> progress g.
Proof.
  intros G (r0 & Hr0 & D0).
  assert (Dec : forall (P : nat -> bool), (exists r, r < j_n J /\ P r = true) \/ forall r, r < j_n J -> P r = false).
  { intros P. destruct (existsb P (seq 0 (j_n J))) eqn:E.
    - left. apply existsb_exists in E. destruct E as (r & Hr & E). apply in_seq in Hr. exists r. split; [lia|exact E].
    - right. intros r Hr. destruct (P r) eqn:X; [|reflexivity]. assert (existsb P (seq 0 (j_n J)) = true); [|congruence].
      apply existsb_exists. exists r. split; [apply in_seq; lia|exact X]. }
  destruct (Dec (fun r => match k_pos (g r) with PInit => true | _ => false end)) as [(r & Hr & E)|Run].
  { destruct (k_pos (g r)) eqn:Ep; try discriminate.
    destruct (gi_good _ _ _ G r Hr) as [B|(N & _)]; [|congruence].
    exists [(r, AInit)], (upd g r (init J r)). split.
    - cbn [exec]. unfold step. rewrite (proj2 (Nat.ltb_lt _ _) Hr), Ep. reflexivity.
    - apply (total_lt g _ r Hr); [intros x N; apply upd_other, N|]. rewrite upd_same, B. apply init_work. }
  assert (Np : forall r, r < j_n J -> k_pos (g r) <> PInit).
  { intros r Hr X. specialize (Run r Hr). rewrite X in Run. discriminate. }
  assert (Li : forall r, r < j_n J -> linv J r (g r)).
  { intros r Hr. destruct (gi_good _ _ _ G r Hr) as [B|(_ & L)]; [|exact L]. elim (Np r Hr). rewrite B. reflexivity. }
  destruct (Dec (fun r => negb (k_rd (g r)))) as [(q & Hq & E)|Rd].
  - apply negb_true_iff in E. pose proof (Li q Hq) as L.
    assert (Dq : done (g q) = false) by (unfold done; rewrite E, andb_false_r; reflexivity).
    assert (X : exists t s i, nth_error (k_slots (g q)) t = Some s /\ sl_recv s = Some i).
    { destruct (existsb (fun s => negb (is_none (sl_recv s))) (k_slots (g q))) eqn:X.
      - apply existsb_exists in X. destruct X as (s & Hs & X). apply In_nth_error in Hs. destruct Hs as (t & Ht).
        destruct (sl_recv s) as [i|] eqn:Es; [|discriminate]. eauto 6.
      - exfalso. assert (k_rd (g q) = true); [|congruence]. apply (li_rd _ _ _ L). intros s Hs.
        destruct (sl_recv s) as [i|] eqn:Es; [|reflexivity].
        assert (existsb (fun s => negb (is_none (sl_recv s))) (k_slots (g q)) = true); [|congruence].
        apply existsb_exists. exists s. rewrite Es. auto. }
    destruct X as (t & s & i & Et & Ei).
    pose proof (ri_slots _ _ _ (li_r _ _ _ L) t s Et) as So. unfold slot_ok in So. rewrite Ei in So.
    destruct So as (Ln & L4 & e & Ee & Hp). set (p := e_rank e) in *. pose proof (recv_rank J A q i e Hq Ee) as Hpn. fold p in Hpn.
    destruct (ready s) eqn:R.
    + (* something can be handled *)
      apply (report q PHandle g AHandle); auto; try discriminate. intros g1 O1 M1.
      unfold step. rewrite (proj2 (Nat.ltb_lt _ _) Hq). cbn [negb].
      assert (Ep : k_pos (g1 q) = PHandle) by (rewrite M1; reflexivity). rewrite Ep. eexists. split; [reflexivity|]. rewrite upd_same.
      assert (L1 : linv J q (g1 q)) by (rewrite M1; apply move_linv, L).
      assert (Np1 : k_pos (g1 q) <> PInit) by congruence.
      destruct (handle_work q (g1 q) L1 Np1) as (W & Eq). destruct (handle_ok J q (g1 q) L1) as (_ & P & _).
      assert (Lg : length (k_log (g1 q)) < length (k_log (handle J q (g1 q)))).
      { unfold handle. assert (Er : k_rd (g1 q) = false) by (rewrite M1; exact E). rewrite Er.
        destruct (first_ready (k_slots (g1 q)) 0) as [[[t1 i1] vs1]|] eqn:Ef.
        - assert (Z : forall k : rank (V := V), length (k_log (logged (g1 q) (ERemote i1 vs1))) = length (k_log k) -> length (k_log (g1 q)) < length (k_log k)).
          { intros k Hk. rewrite <- Hk. cbn [logged k_log]. rewrite app_length. cbn. lia. }
          apply Z. destruct (k_next (g1 q) <? length (recvs J q)); [|reflexivity]. rewrite post_log; reflexivity.
        - exfalso. pose proof (first_ready_none _ _ Ef s) as X. rewrite M1 in X. cbn [move k_slots] in X.
          rewrite X in R; [discriminate|]. eapply nth_error_In; eauto. }
      unfold work in *. cbn [move k_pos k_sig k_fin k_next k_slots k_loc]. rewrite P, Ep in *. lia.
    + (* a receive is pending *)
      unfold ready in R. rewrite Ei in R.
      assert (X : exists d p' c, nth_error (sl_parts s) d = Some (PWait p' c)).
      { clear - R. induction (sl_parts s) as [|x l IH]; [discriminate|]. cbn [forallb] in R. destruct x as [|p' c|v]; cbn in R.
        - destruct (IH R) as (d & p' & c & H). exists (S d), p', c. exact H.
        - exists 0, p', c. reflexivity.
        - destruct (IH R) as (d & p' & c & H). exists (S d), p', c. exact H. }
      destruct X as (d & p' & c & Ed). destruct (Hp d _ Ed) as (-> & ->).
      assert (Ld : d < 4) by (rewrite <- L4; apply nth_error_Some; congruence).
      destruct (nth_error (k_chan (g p) q) (4 * before (j_recvs J q) i + d)) as [v|] eqn:Ev.
      * (* the message is there *)
        apply (report q PRecvs g (ARecvs [(t, d)])); auto; try discriminate. intros g1 O1 M1.
        unfold step. rewrite (proj2 (Nat.ltb_lt _ _) Hq). cbn [negb].
        assert (Ep : k_pos (g1 q) = PRecvs) by (rewrite M1; reflexivity). rewrite Ep.
        assert (Er : k_rd (g1 q) = false) by (rewrite M1; exact E). rewrite Er.
        assert (Sl1 : k_slots (g1 q) = k_slots (g q)) by (rewrite M1; reflexivity).
        assert (Ch1 : k_chan (g1 p) q = k_chan (g p) q).
        { destruct (Nat.eq_dec p q) as [Epq|N]; [rewrite Epq, M1; reflexivity|rewrite O1 by exact N; reflexivity]. }
        cbn [receives]. unfold receive. cbn [fst snd]. rewrite Sl1, Et, Ed. fold p. rewrite Ch1, Ev.
        eexists. split; [reflexivity|]. rewrite upd_same. unfold work. cbn [move with_slots k_pos k_sig k_fin k_next k_slots k_loc].
        rewrite M1. cbn [move k_pos k_sig k_fin k_next k_slots k_loc].
        pose proof (sum_replace slot_work (k_slots (g q)) t (mkSl (sl_recv s) (replace (sl_parts s) d (PGot v))) s Et) as X.
        pose proof (waits_replace (sl_parts s) d p (4 * before (j_recvs J q) i + d) v Ed) as Y.
        unfold slot_work in X at 2 4. cbn [sl_recv sl_parts] in X. rewrite Ei in X.
        fold (slots_work (k_slots (g q))) in X. rewrite Ei. fold (slots_work (replace (k_slots (g q)) t (mkSl (Some i) (replace (sl_parts s) d (PGot v))))) in X. lia.
      * (* the signal has not been answered *)
        apply nth_error_None in Ev. rewrite (li_chan _ _ _ (Li p Hpn)) in Ev.
        assert (Lf : forall l, length (flat_map (arrays J p) l) = 4 * length l).
        { induction l as [|a l IH]; [reflexivity|]. cbn [flat_map]. rewrite app_length, IH. cbn [arrays map length]. lia. }
        rewrite Lf in Ev. destruct (partner J A q i e Hq Ee) as (e' & E' & Ge & Re). fold p in E'.
        destruct (sub_nth q (j_sends J p) _ e' E') as (i' & Ei' & _ & Bi').
        destruct (gi_ord _ _ _ G eq_refl p q Hpn) as (m & Hm).
        apply (answer_signal g p i' e' G Hpn (Np p Hpn) Ei').
        -- intros Hin. assert (In e' (sent_to J p q (k_sig (g p)))) as X by (apply sent_to_In; exists i'; auto).
           apply In_nth_error in X. destruct X as (j & Hj).
           assert (Lj : j < length (sent_to J p q (k_sig (g p)))) by (apply nth_error_Some; congruence).
           rewrite Hm in Hj, Lj. rewrite firstn_length in Lj. rewrite nth_firstn in Hj by lia.
           assert (NDs : NoDup (sub q (j_sends J p))) by (apply NoDup_filter, (sends_nodup J A p Hpn)).
           assert (j = before (j_recvs J q) i).
           { apply (proj1 (NoDup_nth_error _) NDs); [lia|congruence]. }
           subst j. rewrite Hm, firstn_length in Ev. lia.
        -- rewrite Bi', Re. rewrite (ri_sent _ _ _ (li_r _ _ _ L)).
           rewrite (before_sub _ _ _ Ee). destruct (firstn_prefix (j_recvs J q) (S i) (k_next (g q)) Ln) as (x & ->).
           rewrite (firstn_S _ _ _ Ee), !sub_app, !app_length. fold p. cbn [sub filter]. rewrite Nat.eqb_refl. cbn [length]. lia.
  - assert (Rdt : forall r, r < j_n J -> k_rd (g r) = true).
    { intros r Hr. specialize (Rd r Hr). apply negb_false_iff in Rd. exact Rd. }
    assert (Nx : forall r, r < j_n J -> k_next (g r) = length (j_recvs J r)).
    { intros r Hr. pose proof (Li r Hr) as L. pose proof (proj1 (li_rd _ _ _ L) (Rdt r Hr)) as N.
      destruct (k_slots (g r)) as [|s l] eqn:Es; [elim (li_some _ _ _ L); exact Es|].
      apply (li_free _ _ _ L s); [rewrite Es; left; reflexivity|apply N; left; reflexivity]. }
    destruct (k_sd (g r0)) eqn:Sd0.
    + (* a local fragment is left *)
      assert (Ld0 : k_ld (g r0) = false).
      { unfold done in D0. rewrite Sd0, (Rdt r0 Hr0) in D0. exact D0. }
      apply (report r0 PHandle g AHandle); auto; try discriminate. intros g1 O1 M1.
      unfold step. rewrite (proj2 (Nat.ltb_lt _ _) Hr0). cbn [negb].
      assert (Ep : k_pos (g1 r0) = PHandle) by (rewrite M1; reflexivity). rewrite Ep. eexists. split; [reflexivity|]. rewrite upd_same.
      unfold handle. assert (Er : k_rd (g1 r0) = true) by (rewrite M1; apply Rdt, Hr0). rewrite Er.
      assert (El : k_ld (g1 r0) = false) by (rewrite M1; exact Ld0). rewrite El.
      pose proof (li_ld _ _ _ (Li r0 Hr0)) as Ll. rewrite Ld0 in Ll. symmetry in Ll. apply Nat.eqb_neq in Ll.
      pose proof (li_loc _ _ _ (Li r0 Hr0)) as Lo.
      unfold work. cbn [move k_pos k_sig k_fin k_next k_slots k_loc]. rewrite Ep. rewrite M1. cbn [move k_sig k_fin k_next k_slots k_loc]. lia.
    + (* a send is left *)
      pose proof (Li r0 Hr0) as L.
      assert (X : exists i d, i < length (j_sends J r0) /\ d < 4 /\ ~ In (i, d) (k_fin (g r0))).
      { destruct (existsb (fun x => negb (existsb (pair_eqb x) (k_fin (g r0)))) (list_prod (seq 0 (length (j_sends J r0))) (seq 0 4))) eqn:X.
        - apply existsb_exists in X. destruct X as ([i d] & Hx & X). apply in_prod_iff in Hx. destruct Hx as (H1 & H2).
          apply in_seq in H1. apply in_seq in H2. exists i, d. split; [lia|]. split; [lia|]. intros Y. apply existsb_pair in Y.
          rewrite Y in X. discriminate.
        - exfalso. assert (k_sd (g r0) = true); [|congruence]. apply (li_sd _ _ _ L). intros i d Hi Hd.
          apply existsb_pair. destruct (existsb (pair_eqb (i, d)) (k_fin (g r0))) eqn:Y; [reflexivity|].
          assert (existsb (fun x => negb (existsb (pair_eqb x) (k_fin (g r0)))) (list_prod (seq 0 (length (j_sends J r0))) (seq 0 4)) = true); [|congruence].
          apply existsb_exists. exists (i, d). split; [apply in_prod; apply in_seq; lia|]. rewrite Y. reflexivity. }
      destruct X as (i & d & Hi & Hd & Nf).
      destruct (nth_error (j_sends J r0) i) as [e|] eqn:Ee; [|apply nth_error_None in Ee; lia].
      destruct (existsb (Nat.eqb i) (k_sig (g r0))) eqn:Si.
      * apply (report r0 PSends g (ASends [(i, d)])); auto; try discriminate. intros g1 O1 M1.
        unfold step. rewrite (proj2 (Nat.ltb_lt _ _) Hr0). cbn [negb].
        assert (Ep : k_pos (g1 r0) = PSends) by (rewrite M1; reflexivity). rewrite Ep.
        assert (L1 : linv J r0 (g1 r0)) by (rewrite M1; apply move_linv, L).
        assert (So : sends_ok (g1 r0) (k_fin (g1 r0)) [(i, d)] = true).
        { rewrite M1. cbn [sends_ok move k_sig k_fin fst snd]. rewrite Si, (proj2 (Nat.ltb_lt _ _) Hd).
          destruct (existsb (pair_eqb (i, d)) (k_fin (g r0))) eqn:Y; [|reflexivity]. apply existsb_pair in Y. contradiction. }
        rewrite So. eexists. split; [reflexivity|]. rewrite upd_same.
        pose proof (fin_bound _ _ (send_done_ok J r0 (g1 r0) [(i, d)] L1 So)) as Bd. cbn [send_done k_fin] in Bd. rewrite app_length in Bd.
        unfold work. cbn [move send_done k_pos k_sig k_fin k_next k_slots k_loc]. rewrite app_length, Ep. cbn [length] in *. lia.
      * apply (answer_signal g r0 i e G Hr0 (Np r0 Hr0) Ee).
        -- intros Y. apply existsb_nat in Y. congruence.
        -- pose proof (send_rank J A r0 i e Hr0 Ee) as Hq.
           rewrite (ri_sent _ _ _ (li_r _ _ _ (Li _ Hq))), (Nx _ Hq), firstn_all.
           rewrite <- (count_common J A r0 (e_rank e) Hr0 Hq). apply nth_error_Some. rewrite (nth_before _ _ _ Ee). discriminate.
Qed.

Lemma finishes : forall m g, total g <= m -> ginv J true g ->
  exists l g', exec J true g l = Some g' /\ forall r, r < j_n J -> done (g' r) = true.
Proof.
  induction m as [m IH] using lt_wf_ind. intros g Hm G.
  destruct (existsb (fun r => negb (done (g r))) (seq 0 (j_n J))) eqn:E.
  - apply existsb_exists in E. destruct E as (r & Hr & E). apply in_seq in Hr. apply negb_true_iff in E.
    destruct (go_on g G) as (l1 & g1 & E1 & W1); [exists r; split; [lia|exact E]|].
    destruct (IH (total g1) ltac:(lia) g1 (Nat.le_refl _) (exec_ok J A _ _ _ _ G E1)) as (l2 & g2 & E2 & D).
    exists (l1 ++ l2), g2. split; [rewrite (exec_app true l1 l2 _ _ E1); exact E2|exact D].
  - exists [], g. split; [reflexivity|]. intros r Hr. destruct (done (g r)) eqn:D; [reflexivity|].
    assert (existsb (fun r => negb (done (g r))) (seq 0 (j_n J)) = true); [|congruence].
    apply existsb_exists. exists r. split; [apply in_seq; lia|rewrite D; reflexivity].
Qed.
Lemma run_finishes l g : exec J true (start J) l = Some g ->
  exists l' g', exec J true g l' = Some g' /\ forall q, q < j_n J -> done (g' q) = true.
Proof. intros H. apply (finishes (total g) g (Nat.le_refl _)). apply (exec_ok J A _ _ _ _ (start_ok J true) H). Qed.
Lemma run_right l g q : exec J true (start J) l = Some g -> q < j_n J -> done (g q) = true -> right J q (k_log (g q)).
Proof. intros H Hq D. apply (done_right J); auto. apply (exec_ok J A _ _ _ _ (start_ok J true) H). Qed.
Lemma run_log l g q : exec J true (start J) l = Some g -> q < j_n J ->
  NoDup (map fst (remote (k_log (g q)))) /\ Forall (fun x => true_data J q (fst x) (snd x)) (remote (k_log (g q))).
Proof.
  intros H Hq. pose proof (exec_ok J A _ _ _ _ (start_ok J true) H) as G. split; [|apply (gi_log _ _ _ G eq_refl q Hq)].
  destruct (gi_good _ _ _ G q Hq) as [B|(_ & L)]; [rewrite B; constructor|].
  pose proof (li_perm _ _ _ L) as P. apply Permutation_sym in P. pose proof (Permutation_NoDup P (seq_NoDup _ _)) as N.
  clear - N. induction (map fst (remote (k_log (g q)))) as [|x l IH]; [constructor|]. cbn in N. inversion N; subst.
  constructor; [intros X; apply H1, in_app_iff; left; exact X|apply IH, H2].
Qed.

(** One fragment at most between two processes: the order of the reports is immaterial. *)
Lemma single_turn p sig i : single J -> rank_at (sends J p) i <> None -> in_turn J p sig i = true.
Proof.
  intros S N. unfold in_turn. apply forallb_forall. intros j Hj. apply in_seq in Hj.
  unfold same_rank, rank_at, sends in *. destruct (nth_error (j_sends J p) i) as [e|] eqn:E; [|elim N; reflexivity].
  destruct (nth_error (j_sends J p) j) as [e'|] eqn:E'; [|reflexivity]. cbn [option_map].
  destruct (Nat.eqb_spec (e_rank e) (e_rank e')) as [R|]; [|reflexivity]. specialize (S p i j e e' E E' R). lia.
Qed.
Lemma single_signals g p : single J -> forall out sig, signals_ok J false g p sig out = true -> signals_ok J true g p sig out = true.
Proof.
  intros S. induction out as [|i out IH]; intros sig H; cbn [signals_ok] in *; [reflexivity|].
  rewrite !andb_true_iff in *. destruct H as (((H1 & H2) & _) & H4). repeat split; auto.
  cbn [implb]. apply single_turn; [exact S|]. unfold arrived in H2. destruct (rank_at (sends J p) i); [discriminate|discriminate].
Qed.
Lemma single_step g r a g' : single J -> step J false g r a = Some g' -> step J true g r a = Some g'.
Proof.
  intros S. unfold step. destruct (negb (r <? j_n J)); [auto|]. destruct (k_pos (g r)); auto. destruct a as [|out| | |]; auto.
  destruct (done (g r)); [auto|]. destruct (k_sd (g r)); [auto|].
  destruct (signals_ok J false g r (k_sig (g r)) out) eqn:E; [|discriminate].
  rewrite (single_signals g r S out _ E). auto.
Qed.
Lemma single_exec l : single J -> forall g g', exec J false g l = Some g' -> exec J true g l = Some g'.
Proof.
  intros S. induction l as [|[r a] l IH]; intros g g' H; cbn [exec] in *; [exact H|].
  destruct (step J false g r a) as [g1|] eqn:E; [|discriminate]. rewrite (single_step _ _ _ _ S E). apply IH, H.
Qed.

End Live.
