From Coq Require Import List Bool Arith Lia Permutation.
From Verif Require Import ContModel ReqModel ReqSpec.
Import ListNotations.

(** * Lists *)

Lemma nth_error_nth_None {A} (a : list (option A)) j :
  nth j a None = match nth_error a j with Some x => x | None => None end.
Proof. revert j. induction a as [|x a IH]; intros [|j]; cbn; auto. Qed.

Lemma In_nonnull a i : In i (nonnull a) <-> exists h, nth_error a i = Some (Some h).
Proof.
  unfold nonnull. rewrite filter_In, in_seq, nth_error_nth_None. split.
  - intros [_ H]. destruct (nth_error a i) as [[h|]|]; try discriminate. eauto.
  - intros [h H]. rewrite H. split; [|reflexivity].
    assert (i < length a) by (apply nth_error_Some; congruence). lia.
Qed.

Lemma filter_length_le {A} (f : A -> bool) l : length (filter f l) <= length l.
Proof. induction l as [|x l IH]; cbn; [lia|]. destruct (f x); cbn; lia. Qed.

Lemma NoDup_nonnull a : NoDup (nonnull a).
Proof. apply NoDup_filter, seq_NoDup. Qed.

Lemma replace_at_length {A} (a : list A) j v : length (replace_at a j v) = length a.
Proof.
  unfold replace_at. rewrite app_length, firstn_length.
  pose proof (skipn_length j a) as H.
  destruct (skipn j a); cbn in *; lia.
Qed.

Lemma replace_at_nth {A} (a : list A) j v i : j < length a ->
  nth_error (replace_at a j v) i = if Nat.eqb i j then Some v else nth_error a i.
Proof.
  revert j i. unfold replace_at. induction a as [|x a IH]; intros j i Hj; cbn in Hj; [lia|].
  destruct j as [|j].
  - destruct i; reflexivity.
  - destruct i as [|i]; [reflexivity|]. cbn. apply IH. lia.
Qed.

Lemma nonnull_clear a j h : nth_error a j = Some (Some h) ->
  Permutation (nonnull a) (j :: nonnull (replace_at a j None)).
Proof.
  intros H. assert (L : j < length a) by (apply nth_error_Some; congruence).
  assert (N : ~ In j (nonnull (replace_at a j None))).
  { rewrite In_nonnull. intros [h' E]. rewrite replace_at_nth, Nat.eqb_refl in E by exact L.
    discriminate. }
  apply NoDup_Permutation.
  - apply NoDup_nonnull.
  - constructor; [exact N|apply NoDup_nonnull].
  - intros i. cbn. rewrite !In_nonnull, replace_at_nth by exact L.
    destruct (Nat.eqb_spec i j) as [->|Ne].
    + split; [auto|]. intros _. eauto.
    + split; [intros [h' E]; right; eauto|]. intros [E|[h' E]]; [congruence|eauto].
Qed.

Lemma nonnull_nil a : nonnull a = [] <-> forall j h, nth_error a j <> Some (Some h).
Proof.
  split.
  - intros E j h H. assert (In j (nonnull a)) by (apply In_nonnull; eauto).
    rewrite E in *. contradiction.
  - intros H. destruct (nonnull a) as [|j l] eqn:E; [reflexivity|].
    assert (I : In j (nonnull a)) by (rewrite E; left; reflexivity).
    apply In_nonnull in I. destruct I as [h I]. exfalso. eapply H, I.
Qed.

Lemma nonnull_clear_length a j h : nth_error a j = Some (Some h) ->
  length (nonnull a) = S (length (nonnull (replace_at a j None))).
Proof. intros H. rewrite (Permutation_length (nonnull_clear a j h H)). reflexivity. Qed.

Lemma In_remove_h h x l : In x (remove_h h l) <-> In x l /\ x <> h.
Proof.
  unfold remove_h. rewrite filter_In, negb_true_iff, Nat.eqb_neq. intuition.
Qed.

Lemma callbacks_app k a b : callbacks k (a ++ b) = callbacks k a ++ callbacks k b.
Proof. apply filter_app. Qed.

(** The same notions for arrays of handles. *)
Definition afinished (s : rst) (k : nat) (a : list (option nat)) : Prop :=
  exists l, Permutation l (nonnull a) /\ callbacks k (tr s) = map (EMsg k) l ++ [EDone k].
Definition aunderway (s : rst) (k : nat) (a : list (option nat)) : Prop :=
  exists l l', Permutation (l ++ l') (nonnull a) /\ callbacks k (tr s) = map (EMsg k) l.

(** * Elementary steps *)

(** Wait-time calls of operation [k]. *)
Definition wt (k : nat) (t : list ev) : list ev := filter (wait_timing k) t.

(** Same state but for timing calls and the schedule's position. *)
Record weq (s s' : rst) : Prop := {
  q_slots : forall m, slots s' m = slots s m; q_live : live s' = live s;
  q_tr : forall k, callbacks k (tr s') = callbacks k (tr s);
  q_ops : ops s' = ops s; q_nexth : nexth s' = nexth s }.
Definition ceq (s s' : rst) : Prop := weq s s' /\ forall k, wt k (tr s') = wt k (tr s).

Record msgstep (s s' : rst) (n : nat) (r : rq) (j h : nat) : Prop := {
  ms_slot : slots s n = Some r; ms_h : nth_error (rq_mpi r) j = Some (Some h);
  ms_slots : forall m, slots s' m = if Nat.eqb m n
     then Some (mkRq (rq_id r) (replace_at (rq_mpi r) j None)) else slots s m;
  ms_live : live s' = remove_h h (live s);
  ms_tr : forall k, callbacks k (tr s') =
    callbacks k (tr s) ++ if Nat.eqb k (rq_id r) then [EMsg k j] else [];
  ms_wt : forall k, wt k (tr s') = wt k (tr s);
  ms_ops : ops s' = ops s; ms_nexth : nexth s' = nexth s }.

Record finstep (s s' : rst) (n : nat) (r : rq) : Prop := {
  fs_slot : slots s n = Some r; fs_none : nonnull (rq_mpi r) = [];
  fs_slots : forall m, slots s' m = if Nat.eqb m n then None else slots s m;
  fs_live : live s' = live s;
  fs_tr : forall k, callbacks k (tr s') =
    callbacks k (tr s) ++ if Nat.eqb k (rq_id r) then [EDone k] else [];
  fs_wt : forall k, wt k (tr s') = wt k (tr s) ++ if Nat.eqb k (rq_id r) then [EWaitStop k] else [];
  fs_ops : ops s' = ops s; fs_nexth : nexth s' = nexth s }.

Inductive evolves : rst -> rst -> Prop :=
| e_refl s s' : ceq s s' -> evolves s s'
| e_msg s s1 s2 n r j h : msgstep s s1 n r j h -> evolves s1 s2 -> evolves s s2
| e_fin s s1 s2 n r : finstep s s1 n r -> evolves s1 s2 -> evolves s s2.

Lemma weq_refl s : weq s s.
Proof. split; auto. Qed.
Lemma ceq_refl s : ceq s s.
Proof. split; [apply weq_refl|auto]. Qed.

Lemma weq_trans a b c : weq a b -> weq b c -> weq a c.
Proof. intros [A1 A2 A3 A4 A5] [B1 B2 B3 B4 B5]. split; intros; congruence. Qed.
Lemma ceq_trans a b c : ceq a b -> ceq b c -> ceq a c.
Proof. intros [A1 A2] [B1 B2]. split; [eapply weq_trans; eauto|]. intros; congruence. Qed.

Lemma msgstep_ceq_l a b c n r j h : ceq a b -> msgstep b c n r j h -> msgstep a c n r j h.
Proof.
  intros [[A1 A2 A3 A4 A5] A6] [B1 B2 B3 B4 B5 B6 B7 B8].
  split; intros; rewrite <- ?A1, <- ?A2, <- ?A3, <- ?A4, <- ?A5, <- ?A6; auto.
Qed.

Lemma finstep_ceq_l a b c n r : ceq a b -> finstep b c n r -> finstep a c n r.
Proof.
  intros [[A1 A2 A3 A4 A5] A6] [B1 B2 B3 B4 B5 B6 B7 B8].
  split; intros; rewrite <- ?A1, <- ?A2, <- ?A3, <- ?A4, <- ?A5, <- ?A6; auto.
Qed.

Lemma evolves_ceq_l a b c : ceq a b -> evolves b c -> evolves a c.
Proof.
  intros H E. destruct E.
  - apply e_refl. eapply ceq_trans; eauto.
  - eapply e_msg; [eapply msgstep_ceq_l; eauto|assumption].
  - eapply e_fin; [eapply finstep_ceq_l; eauto|assumption].
Qed.

Lemma evolves_trans a b c : evolves a b -> evolves b c -> evolves a c.
Proof.
  induction 1; intros H2.
  - eapply evolves_ceq_l; eauto.
  - eapply e_msg; eauto.
  - eapply e_fin; eauto.
Qed.

Definition timing (e : ev) : Prop := forall k, of_op k e = false.
Definition mpi_timing (e : ev) : Prop := timing e /\ forall k, wait_timing k e = false.

Lemma callbacks_snoc k t e :
  callbacks k (t ++ [e]) = callbacks k t ++ if of_op k e then [e] else [].
Proof. rewrite callbacks_app. reflexivity. Qed.
Lemma wt_snoc k t e : wt k (t ++ [e]) = wt k t ++ if wait_timing k e then [e] else [].
Proof. unfold wt. rewrite filter_app. reflexivity. Qed.

Lemma emit_weq s e : timing e -> weq s (emit s e).
Proof.
  intros T. split; auto. intros k. unfold emit. cbn [tr]. rewrite callbacks_snoc, T. apply app_nil_r.
Qed.
Lemma emit_ceq s e : mpi_timing e -> ceq s (emit s e).
Proof.
  intros [T W]. split; [apply emit_weq, T|]. intros k. unfold emit. cbn [tr].
  rewrite wt_snoc, W. apply app_nil_r.
Qed.

Lemma emit_all_weq e ps s : (forall k, timing (e k)) -> weq s (emit_all e ps s).
Proof.
  intros T. unfold emit_all. revert s. induction ps as [|p ps IH]; intros s; cbn; [apply weq_refl|].
  eapply weq_trans; [|apply IH]. destruct (active s p); [apply emit_weq, T|apply weq_refl].
Qed.
Lemma emit_all_ceq e ps s : (forall k, mpi_timing (e k)) -> ceq s (emit_all e ps s).
Proof.
  intros T. unfold emit_all. revert s. induction ps as [|p ps IH]; intros s; cbn; [apply ceq_refl|].
  eapply ceq_trans; [|apply IH]. destruct (active s p); [apply emit_ceq, T|apply ceq_refl].
Qed.

(** * The invariant *)

Record inv (L : list nat) (s : rst) : Prop := {
  i_op : forall n r, slots s n = Some r -> exists a l,
    nth_error (ops s) (rq_id r) = Some a /\ length (rq_mpi r) = length a /\
    callbacks (rq_id r) (tr s) = map (EMsg (rq_id r)) l /\
    Permutation (l ++ nonnull (rq_mpi r)) (nonnull a);
  i_inj : forall n r n' r', slots s n = Some r -> slots s n' = Some r' -> rq_id r = rq_id r' -> n = n';
  i_live : forall n r j h, slots s n = Some r -> nth_error (rq_mpi r) j = Some (Some h) ->
    In h (live s);
  i_disj : forall n r j n' r' j' h, slots s n = Some r -> slots s n' = Some r' ->
    nth_error (rq_mpi r) j = Some (Some h) -> nth_error (rq_mpi r') j' = Some (Some h) ->
    n = n' /\ j = j';
  i_next : forall h, In h (live s) -> h < nexth s;
  i_done : forall k a, nth_error (ops s) k = Some a -> (forall n, ~ held s n k) -> ~ In k L ->
    afinished s k a;
  i_lost : forall k, In k L -> (forall n, ~ held s n k) /\
    exists a, nth_error (ops s) k = Some a /\ aunderway s k a;
  i_fresh : forall k, length (ops s) <= k -> callbacks k (tr s) = [];
  i_bound : exists B, forall n, B <= n -> slots s n = None }.

Section Inv.
Context (L : list nat).
Notation inv := (inv L).

Lemma inv_weq s s' : weq s s' -> inv s -> inv s'.
Proof.
  intros Q I. destruct Q as [Q1 Q2 Q3 Q4 Q5]. split.
  - intros n r. rewrite Q1, Q3, Q4. apply I.
  - intros n r n' r'. rewrite !Q1. apply I.
  - intros n r j h. rewrite Q1, Q2. apply I.
  - intros n r j n' r' j' h. rewrite !Q1. apply I.
  - rewrite Q2, Q5. apply I.
  - rewrite Q4. intros k a Ha Hn Hl. unfold afinished. rewrite Q3. apply (i_done L s I k a Ha); auto.
    intros n H. apply (Hn n). unfold held in *. rewrite Q1. exact H.
  - intros k Hk. destruct (i_lost L s I k Hk) as (A & a & B & C). split.
    + intros n. unfold held. rewrite Q1. apply A.
    + exists a. unfold aunderway. rewrite Q3, Q4. auto.
  - intros k. rewrite Q4, Q3. apply I.
  - destruct (i_bound L s I) as [B HB]. exists B. intros n Hn. rewrite Q1. auto.
Qed.
Lemma inv_ceq s s' : ceq s s' -> inv s -> inv s'.
Proof. intros [Q _]. apply inv_weq, Q. Qed.

Lemma inv_msg s s' n r j h : msgstep s s' n r j h -> inv s -> inv s'.
Proof.
  intros [M1 M2 M3 M4 M5 MW M6 M7] I.
  assert (Lj : j < length (rq_mpi r)) by (apply nth_error_Some; congruence).
  assert (Old : forall m x i g, slots s' m = Some x -> nth_error (rq_mpi x) i = Some (Some g) ->
    exists y, slots s m = Some y /\ nth_error (rq_mpi y) i = Some (Some g) /\ g <> h).
  { intros m x i g. rewrite M3. destruct (Nat.eqb_spec m n) as [->|Ne]; intros Hx Hg.
    - injection Hx as <-. cbn in Hg. rewrite replace_at_nth in Hg by exact Lj.
      destruct (Nat.eqb_spec i j) as [->|Nj]; [discriminate|].
      exists r. split; [auto|]. split; [auto|]. intros ->.
      destruct (i_disj L s I n r i n r j h M1 M1 Hg M2). congruence.
    - exists x. split; [auto|]. split; [auto|]. intros ->.
      destruct (i_disj L s I m x i n r j h Hx M1 Hg M2). congruence. }
  assert (Hid : forall m x, slots s' m = Some x -> exists y, slots s m = Some y /\ rq_id y = rq_id x).
  { intros m x. rewrite M3. destruct (Nat.eqb_spec m n) as [->|Ne]; intros Hx; [|eauto].
    injection Hx as <-. eauto. }
  split.
  - intros m x Hx. rewrite M3 in Hx. destruct (Nat.eqb_spec m n) as [->|Ne].
    + injection Hx as <-. cbn [rq_id rq_mpi].
      destruct (i_op L s I n r M1) as (a & l & A & B & C & D). exists a, (l ++ [j]).
      rewrite M6, replace_at_length, M5, Nat.eqb_refl, C, map_app. repeat split; auto.
      rewrite <- app_assoc. cbn. rewrite <- (nonnull_clear _ _ _ M2). exact D.
    + destruct (i_op L s I m x Hx) as (a & l & A & B & C & D). exists a, l.
      rewrite M6, M5. destruct (Nat.eqb_spec (rq_id x) (rq_id r)) as [E|_].
      * exfalso. apply Ne. apply (i_inj L s I m x n r Hx M1 E).
      * rewrite app_nil_r. auto.
  - intros m x m' x' Hx Hx' E. apply Hid in Hx. apply Hid in Hx'.
    destruct Hx as (y & Hy & Ey), Hx' as (y' & Hy' & Ey'). apply (i_inj L s I m y m' y'); congruence.
  - intros m x i g Hx Hg. destruct (Old m x i g Hx Hg) as (y & Hy & Hg' & Ne).
    rewrite M4. apply In_remove_h. split; [|exact Ne]. eapply i_live; eauto.
  - intros m x i m' x' i' g Hx Hx' Hg Hg'. destruct (Old m x i g Hx Hg) as (y & Hy & G & _).
    destruct (Old m' x' i' g Hx' Hg') as (y' & Hy' & G' & _). eapply (i_disj L s I); eauto.
  - intros g Hg. rewrite M4 in Hg. apply In_remove_h in Hg. rewrite M7. apply I, Hg.
  - intros k a Ha Hn Hl. rewrite M6 in Ha. unfold afinished. rewrite M5.
    destruct (Nat.eqb_spec k (rq_id r)) as [->|Ne].
    + exfalso. apply (Hn n). eexists. rewrite M3, Nat.eqb_refl. split; reflexivity.
    + rewrite app_nil_r. apply (i_done L s I k a Ha); [|exact Hl]. intros m (x & Hx & Ex). apply (Hn m).
      unfold held. rewrite M3. destruct (Nat.eqb_spec m n) as [->|Nm]; [|eauto].
      exfalso. apply Ne. congruence.
  - intros k Hk. destruct (i_lost L s I k Hk) as (A & a & B & C). split.
    + intros m (x & Hx & Ex). apply Hid in Hx. destruct Hx as (y & Hy & Ey).
      apply (A m). exists y. split; congruence.
    + exists a. rewrite M6. split; [exact B|]. unfold aunderway. rewrite M5.
      destruct (Nat.eqb_spec k (rq_id r)) as [->|Ne].
      * exfalso. apply (A n). exists r. auto.
      * rewrite app_nil_r. exact C.
  - intros k Hk. rewrite M6 in Hk. rewrite M5, (i_fresh L s I k Hk).
    destruct (Nat.eqb_spec k (rq_id r)) as [->|Ne]; [|reflexivity].
    destruct (i_op L s I n r M1) as (a & l & A & _).
    assert (rq_id r < length (ops s)) by (apply nth_error_Some; congruence). lia.
  - destruct (i_bound L s I) as [B HB]. exists (B + S n). intros m Hm. rewrite M3.
    destruct (Nat.eqb_spec m n) as [->|]; [lia|]. apply HB. lia.
Qed.

Lemma inv_fin s s' n r : finstep s s' n r -> inv s -> inv s'.
Proof.
  intros [M1 M2 M3 M4 M5 MW M6 M7] I.
  assert (Old : forall m x, slots s' m = Some x -> slots s m = Some x /\ m <> n).
  { intros m x. rewrite M3. destruct (Nat.eqb_spec m n); [discriminate|auto]. }
  split.
  - intros m x Hx. destruct (Old m x Hx) as [Hx' Ne].
    destruct (i_op L s I m x Hx') as (a & l & A & B & C & D). exists a, l. rewrite M6, M5.
    destruct (Nat.eqb_spec (rq_id x) (rq_id r)) as [E|_].
    + exfalso. apply Ne. apply (i_inj L s I m x n r Hx' M1 E).
    + rewrite app_nil_r. auto.
  - intros m x m' x' Hx Hx'. apply Old in Hx. apply Old in Hx'. apply (i_inj L s I); tauto.
  - intros m x i g Hx. apply Old in Hx. rewrite M4. apply (i_live L s I m x i g). tauto.
  - intros m x i m' x' i' g Hx Hx'. apply Old in Hx. apply Old in Hx'.
    apply (i_disj L s I m x i m' x' i' g); tauto.
  - rewrite M4, M7. apply I.
  - intros k a Ha Hn Hl. rewrite M6 in Ha. unfold afinished. rewrite M5.
    destruct (Nat.eqb_spec k (rq_id r)) as [->|Ne].
    + destruct (i_op L s I n r M1) as (a' & l & A & B & C & D). exists l. rewrite C.
      split; [|reflexivity]. rewrite M2, app_nil_r in D.
      assert (a' = a) by congruence. subst. exact D.
    + rewrite app_nil_r. apply (i_done L s I k a Ha); [|exact Hl]. intros m (x & Hx & Ex).
      apply (Hn m). exists x. rewrite M3. destruct (Nat.eqb_spec m n) as [->|Nm]; [|auto].
      exfalso. apply Ne. congruence.
  - intros k Hk. destruct (i_lost L s I k Hk) as (A & a & B & C). split.
    + intros m (x & Hx & Ex). apply Old in Hx. apply (A m). exists x. tauto.
    + exists a. rewrite M6. split; [exact B|]. unfold aunderway. rewrite M5.
      destruct (Nat.eqb_spec k (rq_id r)) as [->|Ne].
      * exfalso. apply (A n). exists r. auto.
      * rewrite app_nil_r. exact C.
  - intros k Hk. rewrite M6 in Hk. rewrite M5, (i_fresh L s I k Hk).
    destruct (Nat.eqb_spec k (rq_id r)) as [->|Ne]; [|reflexivity].
    destruct (i_op L s I n r M1) as (a & l & A & _).
    assert (rq_id r < length (ops s)) by (apply nth_error_Some; congruence). lia.
  - destruct (i_bound L s I) as [B HB]. exists (B + S n). intros m Hm. rewrite M3.
    destruct (Nat.eqb_spec m n) as [->|]; [lia|]. apply HB. lia.
Qed.

Lemma inv_evolves s s' : evolves s s' -> inv s -> inv s'.
Proof.
  induction 1; intros I; [eapply inv_ceq; eauto| |]; apply IHevolves;
    [eapply inv_msg; eauto|eapply inv_fin; eauto].
Qed.

(** * MPI_Waitany *)

Lemma waitany_spec sched s arr : (forall j h, nth_error arr j = Some (Some h) -> In h (live s)) ->
  exists s' arr' idx, waitany sched s (length arr) arr = Some (s', arr', idx) /\
    (forall m, slots s' m = slots s m) /\ tr s' = tr s /\ ops s' = ops s /\ nexth s' = nexth s /\
    match idx with
    | None => arr' = arr /\ nonnull arr = [] /\ live s' = live s
    | Some p => exists h, nth_error arr p = Some (Some h) /\ live s' = remove_h h (live s) /\
                          arr' = replace_at arr p None
    end.
Proof.
  intros H. unfold waitany. rewrite Nat.ltb_irrefl, firstn_all.
  assert (existsb (fun x => match x with Some h => negb (mem h (live s)) | None => false end) arr
          = false) as ->.
  { destruct (existsb _ arr) eqn:E; [|reflexivity]. apply existsb_exists in E.
    destruct E as ([h|] & Hin & Hm); [|discriminate]. apply In_nth_error in Hin.
    destruct Hin as [j Hj]. apply H in Hj. apply negb_true_iff in Hm.
    assert (mem h (live s) = true).
    { apply existsb_exists. exists h. rewrite Nat.eqb_refl. auto. }
    congruence. }
  destruct (nonnull arr) as [|q qs] eqn:E.
  - eexists. exists arr, None. split; [reflexivity|]. cbn. auto 10.
  - set (p := nth (sched (tick s) mod length (q :: qs)) (q :: qs) 0).
    assert (Hp : In p (nonnull arr)).
    { rewrite E. apply nth_In. apply Nat.mod_upper_bound. discriminate. }
    apply In_nonnull in Hp. destruct Hp as [h Hp].
    cbv zeta. rewrite nth_error_nth_None, Hp.
    eexists. eexists. exists (Some p). split; [reflexivity|]. cbn. repeat split; auto.
    exists h. auto.
Qed.

(** * Wait *)

Lemma wait_loop_spec sched : forall fuel n s r, inv s -> slots s n = Some r ->
  length (nonnull (rq_mpi r)) < fuel ->
  exists s' r', wait_loop sched fuel n s = Some s' /\ evolves s s' /\
    slots s' n = Some r' /\ rq_id r' = rq_id r /\ nonnull (rq_mpi r') = [] /\
    (forall m, m <> n -> slots s' m = slots s m).
Proof.
  induction fuel as [|f IH]; intros n s r I Hr Hf; [lia|]. cbn [wait_loop]. rewrite Hr.
  set (s1 := emit s (EMPIStart (rq_id r))).
  assert (Q1 : ceq s s1) by (apply emit_ceq; split; intros k; reflexivity).
  destruct Q1 as [Q1 QW].
  destruct (waitany_spec sched s1 (rq_mpi r)) as (s2 & arr & idx & -> & W1 & W2 & W3 & W4 & W5).
  { intros j h Hj. rewrite (q_live _ _ Q1). eapply i_live; eauto. }
  set (s3 := emit (set_slot s2 n (Some (mkRq (rq_id r) arr))) (EMPIStop (rq_id r))).
  destruct idx as [p|].
  - destruct W5 as (h & Hp & Hl & ->).
    set (r' := mkRq (rq_id r) (replace_at (rq_mpi r) p None)).
    set (s4 := emit s3 (EMsg (rq_id r) p)).
    assert (MS : msgstep s s4 n r p h).
    { split; try assumption.
      - intros m. cbn. rewrite W1. reflexivity.
      - intros k. unfold s4, s3. cbn [emit set_slot tr]. rewrite !callbacks_snoc. cbn [of_op].
        rewrite W2. cbn [emit s1 tr]. rewrite callbacks_snoc. cbn [of_op].
        rewrite !app_nil_r. destruct (Nat.eqb_spec k (rq_id r)) as [->|]; reflexivity.
      - intros k. unfold s4, s3. cbn [emit set_slot tr]. rewrite !wt_snoc. cbn [wait_timing].
        rewrite W2, !app_nil_r. apply QW. }
    assert (Hs4 : slots s4 n = Some r') by (rewrite (ms_slots _ _ _ _ _ _ MS), Nat.eqb_refl; reflexivity).
    destruct (IH n s4 r' (inv_msg _ _ _ _ _ _ MS I) Hs4) as (s' & r'' & E & Ev & A & B & C & D).
    { cbn [r' rq_mpi]. rewrite (nonnull_clear_length _ _ _ Hp) in Hf. lia. }
    exists s', r''. split; [exact E|]. split; [eapply e_msg; eauto|]. repeat split; auto.
    intros m Hm. rewrite D by exact Hm. rewrite (ms_slots _ _ _ _ _ _ MS).
    apply Nat.eqb_neq in Hm. rewrite Hm. reflexivity.
  - destruct W5 as (-> & Hn & Hl). exists s3, (mkRq (rq_id r) (rq_mpi r)).
    split; [reflexivity|]. split.
    + apply e_refl. split; [split; auto|].
      * intros m. cbn. destruct (Nat.eqb_spec m n) as [->|]; [rewrite Hr; destruct r; reflexivity|].
        rewrite W1. reflexivity.
      * intros k. unfold s3. cbn [emit set_slot tr]. rewrite callbacks_snoc. cbn [of_op].
        rewrite W2, app_nil_r. apply (q_tr _ _ Q1).
      * intros k. unfold s3. cbn [emit set_slot tr]. rewrite wt_snoc. cbn [wait_timing].
        rewrite W2, app_nil_r. apply QW.
    + split; [cbn; rewrite Nat.eqb_refl; reflexivity|]. repeat split; auto.
      intros m Hm. cbn. apply Nat.eqb_neq in Hm. rewrite Hm, W1. reflexivity.
Qed.

Lemma finish_finstep n r s : slots s n = Some r -> nonnull (rq_mpi r) = [] ->
  finstep s (finish n r s) n r.
Proof.
  intros H Hn. split; auto.
  - intros k. unfold finish. cbn [set_slot emit tr].
    rewrite !callbacks_snoc. cbn [of_op]. rewrite app_nil_r.
    destruct (Nat.eqb_spec k (rq_id r)) as [->|]; reflexivity.
  - intros k. unfold finish. cbn [set_slot emit tr]. rewrite !wt_snoc. cbn [wait_timing].
    rewrite app_nil_r. destruct (Nat.eqb_spec k (rq_id r)) as [->|]; reflexivity.
Qed.

Lemma wait_spec sched n s : inv s -> exists s', wait sched n s = Some s' /\
  evolves (match slots s n with Some r => emit s (EWaitStart (rq_id r)) | None => s end) s' /\
  slots s' n = None /\ forall m, m <> n -> slots s' m = slots s m.
Proof.
  intros I. unfold wait. destruct (slots s n) as [r|] eqn:Hr.
  2: { exists s. split; [reflexivity|]. split; [apply e_refl, ceq_refl|]. auto. }
  set (s1 := emit s (EWaitStart (rq_id r))).
  assert (Q1 : weq s s1) by (apply emit_weq; intros k; reflexivity).
  destruct (wait_loop_spec sched (S (length (rq_mpi r))) n s1 r (inv_weq _ _ Q1 I))
    as (s2 & r' & -> & Ev & A & B & C & D).
  { rewrite (q_slots _ _ Q1). exact Hr. }
  { assert (length (nonnull (rq_mpi r)) <= length (seq 0 (length (rq_mpi r))))
      by (unfold nonnull; apply filter_length_le).
    rewrite seq_length in *. lia. }
  eexists. split; [reflexivity|]. rewrite <- B. change (set_slot _ n None) with (finish n r' s2).
  split; [|split].
  - eapply evolves_trans; [exact Ev|].
    eapply e_fin; [apply finish_finstep; eauto|]. apply e_refl, ceq_refl.
  - cbn. rewrite Nat.eqb_refl. reflexivity.
  - intros m Hm. cbn. apply Nat.eqb_neq in Hm as Hb. rewrite Hb, D by exact Hm. apply Q1.
Qed.

(** * WaitAll and WaitAny *)

Record minv (ps : list (option nat)) (all : list (option nat)) (ix : list (nat * nat))
    (rem : list nat) (s : rst) : Prop := {
  m_ix : length ix = length all; m_len : length rem = length ps;
  m_fwd : forall p h, nth_error all p = Some (Some h) -> exists i j n r,
    nth_error ix p = Some (i, j) /\ nth_error ps i = Some (Some n) /\ slots s n = Some r /\
    nth_error (rq_mpi r) j = Some (Some h);
  m_bwd : forall i n r j h, nth_error ps i = Some (Some n) -> slots s n = Some r ->
    nth_error (rq_mpi r) j = Some (Some h) -> exists p,
    nth_error all p = Some (Some h) /\ nth_error ix p = Some (i, j);
  m_rem : forall i n r, nth_error ps i = Some (Some n) -> slots s n = Some r ->
    nth_error rem i = Some (length (nonnull (rq_mpi r))) /\ nonnull (rq_mpi r) <> [];
  m_nodup : forall p p' h, nth_error all p = Some (Some h) -> nth_error all p' = Some (Some h) ->
    p = p' }.

Definition distinct_ps (ps : list (option nat)) : Prop := forall i i' n,
  nth_error ps i = Some (Some n) -> nth_error ps i' = Some (Some n) -> i = i'.

Lemma minv_slots ps all ix rem s s' : (forall m, slots s' m = slots s m) ->
  minv ps all ix rem s -> minv ps all ix rem s'.
Proof.
  intros E [M1 M2 M3 M4 M5 M6]. split; auto.
  - intros p h H. destruct (M3 p h H) as (i & j & n & r & A & B & C & D).
    exists i, j, n, r. rewrite E. auto.
  - intros i n r j h. rewrite E. apply M4.
  - intros i n r. rewrite E. apply M5.
Qed.

Lemma minv_idle ps all ix rem s : minv ps all ix rem s -> nonnull all = [] ->
  forall i n, nth_error ps i = Some (Some n) -> slots s n = None.
Proof.
  intros M Hn i n Hi. destruct (slots s n) as [r|] eqn:Hr; [|reflexivity].
  destruct (m_rem _ _ _ _ _ M i n r Hi Hr) as [_ Ne].
  destruct (nonnull (rq_mpi r)) as [|j l] eqn:El; [contradiction|].
  assert (In j (nonnull (rq_mpi r))) as Hj by (rewrite El; left; reflexivity).
  apply In_nonnull in Hj. destruct Hj as [h Hj].
  destruct (m_bwd _ _ _ _ _ M i n r j h Hi Hr Hj) as (p & Hp & _).
  exfalso. apply (proj1 (nonnull_nil all) Hn p h Hp).
Qed.

Lemma wait_many_spec sched any ps : distinct_ps ps ->
  forall fuel all ix rem s, inv s -> minv ps all ix rem s -> length (nonnull all) < fuel ->
  exists s' res, wait_many_loop sched any fuel ps (length all) all ix rem s = Some (s', res) /\
    evolves s s' /\
    (forall m, (forall i, nth_error ps i <> Some (Some m)) -> slots s' m = slots s m) /\
    match res with
    | None => (forall i n, nth_error ps i = Some (Some n) -> slots s' n = None) /\
              (any = true -> forall i n, nth_error ps i = Some (Some n) -> slots s n = None)
    | Some i => any = true /\ exists n r, nth_error ps i = Some (Some n) /\
                  slots s n = Some r /\ slots s' n = None /\
                  (forall m, m <> n -> slots s m <> None -> slots s' m <> None)
    end.
Proof.
  intros Dp. induction fuel as [|f IH]; intros all ix rem s I M Hf; [lia|]. cbn [wait_many_loop].
  set (s1 := emit_all EMPIStart ps s).
  assert (Q1 : weq s s1) by (apply emit_all_weq; intros k k'; reflexivity).
  assert (QW1 : forall k, wt k (tr s1) = wt k (tr s))
    by (apply (emit_all_ceq EMPIStart ps s); intros k; split; intros k'; reflexivity).
  destruct (waitany_spec sched s1 all) as (s2 & all' & idx & -> & W1 & W2 & W3 & W4 & W5).
  { intros p h Hp. rewrite (q_live _ _ Q1).
    destruct (m_fwd _ _ _ _ _ M p h Hp) as (i & j & n & r & _ & _ & C & D). eapply i_live; eauto. }
  assert (Q3 : weq s2 (emit_all EMPIStop ps s2)) by (apply emit_all_weq; intros k k'; reflexivity).
  assert (QW3 : forall k, wt k (tr (emit_all EMPIStop ps s2)) = wt k (tr s2))
    by (apply (emit_all_ceq EMPIStop ps s2); intros k; split; intros k'; reflexivity).
  destruct idx as [c|].
  - destruct W5 as (h & Hc & Hl & ->).
    destruct (m_fwd _ _ _ _ _ M c h Hc) as (i & j & n & r & X1 & X2 & X3 & X4).
    rewrite X1, X2. set (s3 := emit_all EMPIStop ps s2) in *.
    assert (S3 : forall m, slots s3 m = slots s m).
    { intros m. rewrite (q_slots _ _ Q3), W1. apply (q_slots _ _ Q1). }
    rewrite S3, X3. destruct (m_rem _ _ _ _ _ M i n r X2 X3) as [Hrem Hne]. rewrite Hrem.
    assert (Lj : j < length (rq_mpi r)) by (apply nth_error_Some; congruence).
    assert (length (rq_mpi r) <=? j = false) as -> by (apply Nat.leb_gt; exact Lj).
    set (r' := mkRq (rq_id r) (replace_at (rq_mpi r) j None)).
    set (s4 := emit (set_slot s3 n (Some r')) (EMsg (rq_id r) j)).
    assert (MS : msgstep s s4 n r j h).
    { split; auto.
      - intros m. cbn. rewrite S3. reflexivity.
      - cbn. rewrite (q_live _ _ Q3), Hl, (q_live _ _ Q1). reflexivity.
      - intros k. unfold s4. cbn [emit set_slot tr]. rewrite callbacks_snoc. cbn [of_op].
        rewrite (q_tr _ _ Q3), W2, (q_tr _ _ Q1).
        destruct (Nat.eqb_spec k (rq_id r)) as [->|]; reflexivity.
      - intros k. unfold s4. cbn [emit set_slot tr]. rewrite wt_snoc. cbn [wait_timing].
        rewrite QW3, W2, app_nil_r. apply QW1.
      - cbn. rewrite (q_ops _ _ Q3), W3. apply (q_ops _ _ Q1).
      - cbn. rewrite (q_nexth _ _ Q3), W4. apply (q_nexth _ _ Q1). }
    pose proof (inv_msg _ _ _ _ _ _ MS I) as I4.
    assert (S4 : slots s4 n = Some r') by (rewrite (ms_slots _ _ _ _ _ _ MS), Nat.eqb_refl; reflexivity).
    assert (S4o : forall m, m <> n -> slots s4 m = slots s m).
    { intros m Hm. rewrite (ms_slots _ _ _ _ _ _ MS). apply Nat.eqb_neq in Hm. rewrite Hm. reflexivity. }
    rewrite (nonnull_clear_length _ _ _ X4) in Hrem |- *.
    change (replace_at (rq_mpi r) j None) with (rq_mpi r') in Hrem |- *.
    rewrite Nat.sub_succ, Nat.sub_0_r.
    set (rem' := replace_at rem i (length (nonnull (rq_mpi r')))).
    assert (Li : i < length rem) by (apply nth_error_Some; congruence).
    assert (Lc : c < length all) by (apply nth_error_Some; congruence).
    (* what is left of the pairing *)
    assert (Fwd : forall p g, nth_error (replace_at all c None) p = Some (Some g) ->
      exists i' j' n' x, nth_error ix p = Some (i', j') /\ nth_error ps i' = Some (Some n') /\
        slots s4 n' = Some x /\ nth_error (rq_mpi x) j' = Some (Some g)).
    { intros p g Hp. rewrite replace_at_nth in Hp by exact Lc.
      destruct (Nat.eqb_spec p c) as [->|Np]; [discriminate|].
      destruct (m_fwd _ _ _ _ _ M p g Hp) as (i' & j' & n' & x & Y1 & Y2 & Y3 & Y4).
      destruct (Nat.eq_dec n' n) as [->|Nn].
      - exists i', j', n, r'. assert (x = r) by congruence. subst x. repeat split; auto.
        cbn [r' rq_mpi]. rewrite replace_at_nth by exact Lj.
        destruct (Nat.eqb_spec j' j) as [->|]; [|exact Y4]. exfalso. apply Np.
        apply (m_nodup _ _ _ _ _ M p c h); [congruence|exact Hc].
      - exists i', j', n', x. rewrite S4o by exact Nn. auto. }
    assert (Bwd : forall i' n' x j' g, nth_error ps i' = Some (Some n') -> slots s4 n' = Some x ->
      nth_error (rq_mpi x) j' = Some (Some g) -> exists p,
      nth_error (replace_at all c None) p = Some (Some g) /\ nth_error ix p = Some (i', j')).
    { intros i' n' x j' g Y1 Y2 Y3. destruct (Nat.eq_dec n' n) as [->|Nn].
      - assert (x = r') by congruence. subst x. cbn [r' rq_mpi] in Y3.
        rewrite replace_at_nth in Y3 by exact Lj.
        destruct (Nat.eqb_spec j' j) as [->|Nj]; [discriminate|].
        destruct (m_bwd _ _ _ _ _ M i' n r j' g Y1 X3 Y3) as (p & P1 & P2).
        exists p. rewrite replace_at_nth by exact Lc.
        destruct (Nat.eqb_spec p c) as [->|]; [congruence|auto].
      - rewrite S4o in Y2 by exact Nn.
        destruct (m_bwd _ _ _ _ _ M i' n' x j' g Y1 Y2 Y3) as (p & P1 & P2).
        exists p. rewrite replace_at_nth by exact Lc.
        destruct (Nat.eqb_spec p c) as [->|]; [|auto]. congruence. }
    assert (Nd : forall p p' g, nth_error (replace_at all c None) p = Some (Some g) ->
      nth_error (replace_at all c None) p' = Some (Some g) -> p = p').
    { intros p p' g. rewrite !replace_at_nth by exact Lc.
      destruct (Nat.eqb p c), (Nat.eqb p' c); try discriminate. apply (m_nodup _ _ _ _ _ M). }
    assert (Lrem : length rem' = length ps)
      by (unfold rem'; rewrite replace_at_length; apply M).
    assert (Lix : length ix = length (replace_at all c None))
      by (rewrite replace_at_length; apply M).
    assert (Fuel : length (nonnull (replace_at all c None)) < f).
    { rewrite (nonnull_clear_length _ _ _ Hc) in Hf. lia. }
    assert (Rem : forall i' n' x, n' <> n -> nth_error ps i' = Some (Some n') -> slots s4 n' = Some x ->
      nth_error rem' i' = Some (length (nonnull (rq_mpi x))) /\ nonnull (rq_mpi x) <> []).
    { intros i' n' x Nn Y1 Y2. rewrite S4o in Y2 by exact Nn. unfold rem'.
      rewrite replace_at_nth by exact Li.
      destruct (Nat.eqb_spec i' i) as [->|]; [congruence|]. apply (m_rem _ _ _ _ _ M i' n' x Y1 Y2). }
    destruct (Nat.eqb_spec (length (nonnull (rq_mpi r'))) 0) as [E0|E0].
    + assert (N0 : nonnull (rq_mpi r') = []) by (destruct (nonnull (rq_mpi r')); [auto|discriminate]).
      pose proof (finish_finstep n r' s4 S4 N0) as FS.
      set (s5 := finish n r' s4) in *.
      assert (S5 : slots s5 n = None) by (rewrite (fs_slots _ _ _ _ FS), Nat.eqb_refl; reflexivity).
      assert (S5o : forall m, m <> n -> slots s5 m = slots s4 m).
      { intros m Hm. rewrite (fs_slots _ _ _ _ FS). apply Nat.eqb_neq in Hm. rewrite Hm. reflexivity. }
      destruct any.
      * exists s5, (Some i). split; [reflexivity|]. split.
        { eapply e_msg; [exact MS|]. eapply e_fin; [exact FS|]. apply e_refl, ceq_refl. }
        split.
        { intros m Hm. assert (m <> n) by (intros ->; eapply Hm; eauto).
          rewrite S5o, S4o by assumption. reflexivity. }
        split; [reflexivity|]. exists n, r. repeat split; auto.
        intros m Hm. rewrite S5o, S4o by assumption. auto.
      * assert (M5 : minv ps (replace_at all c None) ix rem' s5).
        { split; auto.
          - intros p g Hp. destruct (Fwd p g Hp) as (i' & j' & n' & x & Y1 & Y2 & Y3 & Y4).
            exists i', j', n', x. destruct (Nat.eq_dec n' n) as [->|Nn].
            + exfalso. assert (x = r') by congruence. subst x.
              apply (proj1 (nonnull_nil _) N0 j' g Y4).
            + rewrite S5o by exact Nn. auto.
          - intros i' n' x j' g Y1 Y2. assert (n' <> n) by congruence.
            rewrite S5o in Y2 by assumption. apply Bwd with (n' := n'); assumption.
          - intros i' n' x Y1 Y2. assert (n' <> n) by congruence.
            rewrite S5o in Y2 by assumption. apply Rem with (n' := n'); assumption. }
        destruct (IH _ ix rem' s5 (inv_fin _ _ _ _ FS I4) M5 Fuel) as (s' & res & E & Ev & Fr & R).
        rewrite replace_at_length in E. exists s', res. split; [exact E|]. split.
        { eapply e_msg; [exact MS|]. eapply e_fin; [exact FS|]. exact Ev. }
        split.
        { intros m Hm. assert (m <> n) by (intros ->; eapply Hm; eauto).
          rewrite Fr, S5o, S4o by assumption. reflexivity. }
        destruct res as [i'|].
        { destruct R as [R _]. discriminate. }
        { split; [apply R|discriminate]. }
    + assert (M4 : minv ps (replace_at all c None) ix rem' s4).
      { split; auto. intros i' n' x Y1 Y2. destruct (Nat.eq_dec n' n) as [->|Nn].
        - assert (i' = i) by (eapply Dp; eauto). subst i'. assert (x = r') by congruence. subst x.
          unfold rem'. rewrite replace_at_nth, Nat.eqb_refl by exact Li.
          split; [reflexivity|]. intros X. rewrite X in E0. apply E0. reflexivity.
        - apply Rem with (n' := n'); assumption. }
      destruct (IH _ ix rem' s4 I4 M4 Fuel) as (s' & res & E & Ev & Fr & R).
      rewrite replace_at_length in E. exists s', res. split; [exact E|].
      split; [eapply e_msg; eauto|]. split.
      { intros m Hm. assert (m <> n) by (intros ->; eapply Hm; eauto).
        rewrite Fr, S4o by assumption. reflexivity. }
      destruct res as [i'|].
      * destruct R as (R1 & n' & x & R2 & R3 & R4 & R5). split; [exact R1|]. exists n'.
        destruct (Nat.eq_dec n' n) as [->|Nn].
        -- exists r. repeat split; auto. intros m Hm. rewrite <- S4o by exact Hm. apply R5, Hm.
        -- exists x. rewrite S4o in R3 by exact Nn. repeat split; auto.
           intros m Hm Hs. apply R5; [exact Hm|]. destruct (Nat.eq_dec m n) as [->|Nm]; [congruence|].
           rewrite S4o by exact Nm. exact Hs.
      * destruct R as [R1 R2]. split; [exact R1|]. intros Ha i' n' Y. exfalso.
        pose proof (R2 Ha i n X2). congruence.
  - destruct W5 as (-> & Hn & Hl). eexists. exists None. split; [reflexivity|].
    assert (Q : ceq s (emit_all EMPIStop ps s2)).
    { split.
      - eapply weq_trans; [exact Q1|]. eapply weq_trans; [|exact Q3]. split; auto. intros k.
        rewrite W2. reflexivity.
      - intros k. rewrite QW3, W2. apply QW1. }
    split; [apply e_refl, Q|]. split; [intros m _; apply Q|].
    pose proof (minv_idle _ _ _ _ _ M Hn) as Id. split.
    + intros i n Hi. rewrite (q_slots _ _ (proj1 Q)). eapply Id, Hi.
    + intros _. exact Id.
Qed.

(** Gathering the handles. *)
Fixpoint triples (i : nat) (ps : list (option nat)) (s : rst) : list ((nat * nat) * option nat) :=
  match ps with
  | [] => []
  | p :: ps' =>
      match active s p with
      | Some r => map (fun j => ((i, j), nth j (rq_mpi r) None)) (nonnull (rq_mpi r))
      | None => []
      end ++ triples (S i) ps' s
  end.

Lemma gather_triples ps s : forall i,
  gather i ps s = (map snd (triples i ps s), map fst (triples i ps s)).
Proof.
  induction ps as [|p ps IH]; intros i; cbn; [reflexivity|]. rewrite IH.
  destruct (active s p) as [r|]; cbn; [|reflexivity].
  rewrite !map_app, !map_map. cbn. reflexivity.
Qed.

Lemma In_triples ps s : forall i0 i j x, In ((i, j), x) (triples i0 ps s) <->
  exists k n r h, i = i0 + k /\ nth_error ps k = Some (Some n) /\ slots s n = Some r /\
    nth_error (rq_mpi r) j = Some (Some h) /\ x = Some h.
Proof.
  induction ps as [|p ps IH]; intros i0 i j x; cbn.
  - split; [contradiction|]. intros (k & n & r & h & _ & E & _). destruct k; discriminate.
  - rewrite in_app_iff, IH. split.
    + intros [H|(k & n & r & h & E & H)].
      * destruct (active s p) as [r|] eqn:Ea; [|contradiction]. apply in_map_iff in H.
        destruct H as (j' & Ej & Hj). injection Ej as <- <- <-. apply In_nonnull in Hj.
        destruct Hj as [h Hj]. destruct p as [n|]; [|discriminate]. cbn in Ea.
        exists 0, n, r, h. rewrite nth_error_nth_None, Hj. repeat split; auto.
      * exists (S k), n, r, h. split; [lia|]. exact H.
    + intros (k & n & r & h & E & H1 & H2 & H3 & H4). destruct k as [|k].
      * left. cbn in H1. injection H1 as ->. cbn. rewrite H2. apply in_map_iff. exists j.
        rewrite nth_error_nth_None, H3, H4. split; [f_equal; f_equal; lia|]. apply In_nonnull. eauto.
      * right. exists k, n, r, h. split; [lia|]. auto.
Qed.

Lemma NoDup_triples ps s : forall i, NoDup (map fst (triples i ps s)).
Proof.
  induction ps as [|p ps IH]; intros i; cbn; [constructor|]. rewrite map_app.
  assert (Dis : forall ij, In ij (map fst (triples (S i) ps s)) -> S i <= fst ij).
  { intros ij H. apply in_map_iff in H. destruct H as ([[i' j] x] & <- & H).
    apply In_triples in H. destruct H as (k & _ & _ & _ & E & _). cbn. lia. }
  destruct (active s p) as [r|]; [|cbn; apply IH].
  rewrite map_map. cbn [fst].
  generalize (NoDup_nonnull (rq_mpi r)). generalize (nonnull (rq_mpi r)). intros l Hl.
  induction Hl as [|j l Hj _ IHl]; cbn; [apply IH|]. constructor; [|exact IHl].
  rewrite in_app_iff. intros [H|H].
  - apply in_map_iff in H. destruct H as (j' & E & H). injection E as ->. contradiction.
  - apply Dis in H. cbn in H. lia.
Qed.

Lemma triples_length ps s : forall i, length (triples i ps s) = sum (remaining ps s).
Proof.
  induction ps as [|p ps IH]; intros i; cbn; [reflexivity|]. rewrite app_length, IH.
  unfold sum, remaining. cbn. destruct (active s p); [rewrite map_length|]; reflexivity.
Qed.

Lemma gather_minv ps rem s : inv s -> distinct_ps ps -> length rem = length ps ->
  (forall i n r, nth_error ps i = Some (Some n) -> slots s n = Some r ->
    nth_error rem i = Some (length (nonnull (rq_mpi r))) /\ nonnull (rq_mpi r) <> []) ->
  minv ps (map snd (triples 0 ps s)) (map fst (triples 0 ps s)) rem s.
Proof.
  intros I Dp Lr Hr. split; auto.
  - rewrite !map_length. reflexivity.
  - intros p h Hp. rewrite nth_error_map in Hp.
    destruct (nth_error (triples 0 ps s) p) as [[[i j] x]|] eqn:E; [|discriminate].
    cbn in Hp. injection Hp as ->. pose proof (nth_error_In _ _ E) as Hin.
    apply In_triples in Hin. destruct Hin as (k & n & r & h' & Ei & A & B & C & D).
    injection D as <-. cbn in Ei. subst k. exists i, j, n, r. rewrite nth_error_map, E. auto.
  - intros i n r j h A B C.
    assert (Hin : In ((i, j), Some h) (triples 0 ps s)).
    { apply In_triples. exists i, n, r, h. auto. }
    apply In_nth_error in Hin. destruct Hin as [p Hp]. exists p. rewrite !nth_error_map, Hp. auto.
  - intros p p' h Hp Hp'. rewrite nth_error_map in Hp, Hp'.
    destruct (nth_error (triples 0 ps s) p) as [[[i j] x]|] eqn:E; [|discriminate].
    destruct (nth_error (triples 0 ps s) p') as [[[i' j'] x']|] eqn:E'; [|discriminate].
    cbn in Hp, Hp'. injection Hp as ->. injection Hp' as ->.
    pose proof (nth_error_In _ _ E) as Hin. apply In_triples in Hin.
    destruct Hin as (k & n & r & g & Ei & A & B & C & D). injection D as <-.
    pose proof (nth_error_In _ _ E') as Hin. apply In_triples in Hin.
    destruct Hin as (k' & n' & r' & g & Ei' & A' & B' & C' & D). injection D as <-.
    destruct (i_disj L s I n r j n' r' j' h B B' C C') as [<- <-].
    cbn in Ei, Ei'. subst k k'. pose proof (Dp i i' n A A') as <-.
    apply (proj1 (NoDup_nth_error (map fst (triples 0 ps s))) (NoDup_triples ps s 0)).
    + rewrite map_length. apply nth_error_Some. congruence.
    + rewrite !nth_error_map, E, E'. reflexivity.
Qed.

(** Completing the requests without messages. *)
Lemma finish_empty_spec ps : forall rem s, inv s -> length rem = length ps ->
  (forall i n r, nth_error ps i = Some (Some n) -> slots s n = Some r ->
    nth_error rem i = Some (length (nonnull (rq_mpi r)))) ->
  let s' := finish_empty ps rem s in
  evolves s s' /\
  (forall n r, slots s' n = Some r -> slots s n = Some r) /\
  (forall n r, slots s n = Some r -> slots s' n = Some r \/
     (slots s' n = None /\ nonnull (rq_mpi r) = [] /\ exists i, nth_error ps i = Some (Some n))) /\
  (forall i n r, nth_error ps i = Some (Some n) -> slots s' n = Some r -> nonnull (rq_mpi r) <> []).
Proof.
  induction ps as [|p ps IH]; intros rem s I Len H; cbn [finish_empty].
  - split; [apply e_refl, ceq_refl|]. split; [auto|]. split; [auto|].
    intros i n r E. destruct i; discriminate.
  - destruct rem as [|k rem]; [discriminate|]. cbn in Len. injection Len as Len.
    assert (Skip : forall s1, s1 = s -> (forall n r, p = Some n -> slots s n = Some r -> nonnull (rq_mpi r) <> []) ->
      let s' := finish_empty ps rem s1 in
      evolves s s' /\
      (forall n r, slots s' n = Some r -> slots s n = Some r) /\
      (forall n r, slots s n = Some r -> slots s' n = Some r \/
        (slots s' n = None /\ nonnull (rq_mpi r) = [] /\ exists i, nth_error (p :: ps) i = Some (Some n))) /\
      (forall i n r, nth_error (p :: ps) i = Some (Some n) -> slots s' n = Some r ->
        nonnull (rq_mpi r) <> [])).
    { intros s1 -> Hp. destruct (IH rem s I Len) as (A & B & C & D).
      { intros i n r Hi. apply (H (S i) n r Hi). }
      split; [exact A|]. split; [exact B|]. split.
      - intros n r Hn. destruct (C n r Hn) as [X|(X & Y & i & Z)]; [auto|right].
        split; [exact X|]. split; [exact Y|]. exists (S i). exact Z.
      - intros [|i] n r Hi Hn; [|eapply D; eauto]. cbn in Hi. injection Hi as ->.
        eapply Hp; eauto. }
    destruct p as [n|]; [|apply Skip; [reflexivity|discriminate]].
    destruct (slots s n) as [r|] eqn:Hr.
    2: { apply Skip; [reflexivity|]. intros n' r' E Hr'. congruence. }
    pose proof (H 0 n r eq_refl Hr) as Hk. cbn in Hk. injection Hk as ->.
    destruct (Nat.eqb_spec (length (nonnull (rq_mpi r))) 0) as [E0|E0].
    2: { apply Skip; [reflexivity|]. intros n' r' E Hr'. injection E as <-.
         assert (r' = r) by congruence. subst. intros X. rewrite X in E0. apply E0. reflexivity. }
    assert (N0 : nonnull (rq_mpi r) = []) by (destruct (nonnull (rq_mpi r)); [auto|discriminate]).
    pose proof (finish_finstep n r s Hr N0) as FS. set (s1 := finish n r s) in *.
    assert (S1 : slots s1 n = None) by (rewrite (fs_slots _ _ _ _ FS), Nat.eqb_refl; reflexivity).
    assert (S1o : forall m, m <> n -> slots s1 m = slots s m).
    { intros m Hm. rewrite (fs_slots _ _ _ _ FS). apply Nat.eqb_neq in Hm. rewrite Hm. reflexivity. }
    assert (Old : forall m x, slots s1 m = Some x -> slots s m = Some x /\ m <> n).
    { intros m x Hx. assert (m <> n) by congruence. rewrite S1o in Hx by assumption. auto. }
    destruct (IH rem s1 (inv_fin _ _ _ _ FS I) Len) as (A & B & C & D).
    { intros i m x Hi Hx. apply Old in Hx. apply (H (S i) m x Hi). tauto. }
    split; [eapply e_fin; eauto|]. split; [intros m x Hx; apply B, Old in Hx; tauto|]. split.
    + intros m x Hx. destruct (Nat.eq_dec m n) as [->|Nm].
      * right. split; [|split; [congruence|exists 0; reflexivity]].
        destruct (slots (finish_empty ps rem s1) n) as [y|] eqn:Ey; [|reflexivity].
        apply B in Ey. congruence.
      * rewrite <- S1o in Hx by exact Nm. destruct (C m x Hx) as [X|(X & Y & i & Z)]; [auto|right].
        split; [exact X|]. split; [exact Y|]. exists (S i). exact Z.
    + intros [|i] m x Hi Hx; [|eapply D; eauto]. cbn in Hi. injection Hi as <-.
      apply B in Hx. congruence.
Qed.

Lemma remaining_nth ps s i n r : nth_error ps i = Some (Some n) -> slots s n = Some r ->
  nth_error (remaining ps s) i = Some (length (nonnull (rq_mpi r))).
Proof.
  intros Hi Hr. unfold remaining. rewrite nth_error_map, Hi. cbn. rewrite Hr. reflexivity.
Qed.

Lemma wait_all_spec sched ps s : inv s -> distinct_ps ps ->
  exists s', wait_all sched ps s = Some s' /\ evolves (emit_all EWaitStart ps s) s' /\
    (forall i n, nth_error ps i = Some (Some n) -> slots s' n = None) /\
    (forall m, (forall i, nth_error ps i <> Some (Some m)) -> slots s' m = slots s m).
Proof.
  intros I Dp. unfold wait_all. set (s1 := emit_all EWaitStart ps s).
  assert (Q1 : weq s s1) by (apply emit_all_weq; intros k k'; reflexivity).
  pose proof (inv_weq _ _ Q1 I) as I1. set (rem := remaining ps s1).
  assert (Lr : length rem = length ps) by apply map_length.
  destruct (finish_empty_spec ps rem s1 I1 Lr) as (A & B & C & D).
  { intros i n r. apply remaining_nth. }
  set (s2 := finish_empty ps rem s1) in *. rewrite gather_triples.
  pose proof (inv_evolves _ _ A I1) as I2.
  assert (M : minv ps (map snd (triples 0 ps s2)) (map fst (triples 0 ps s2)) rem s2).
  { apply gather_minv; auto. intros i n r Hi Hr. split; [|eapply D; eauto].
    apply remaining_nth with (n := n); auto. }
  assert (Tot : sum rem = length (map snd (triples 0 ps s2))).
  { rewrite map_length, triples_length. f_equal. unfold rem, remaining. apply map_ext.
    intros [n|]; [|reflexivity]. cbn. destruct (slots s1 n) as [r|] eqn:Hr.
    - destruct (C n r Hr) as [X|(X & Y & _)]; rewrite X; [reflexivity|]. rewrite Y. reflexivity.
    - destruct (slots s2 n) as [r|] eqn:Hr2; [|reflexivity]. apply B in Hr2. congruence. }
  rewrite Tot.
  destruct (wait_many_spec sched false ps Dp (S (length (map snd (triples 0 ps s2)))) _ _ rem s2 I2 M)
    as (s' & res & -> & Ev & Fr & R).
  { unfold nonnull. eapply Nat.le_lt_trans; [apply filter_length_le|]. rewrite seq_length. lia. }
  exists s'. split; [reflexivity|]. split.
  { eapply evolves_trans; eauto. }
  split.
  - destruct res as [i|]; [destruct R; discriminate|]. apply R.
  - intros m Hm. rewrite Fr by exact Hm. rewrite <- (q_slots _ _ Q1).
    destruct (slots s1 m) as [r|] eqn:Hr.
    + destruct (C m r Hr) as [X|(_ & _ & i & X)]; [exact X|]. exfalso. eapply Hm, X.
    + destruct (slots s2 m) as [r|] eqn:Hr2; [|reflexivity]. apply B in Hr2. congruence.
Qed.

Lemma finish_first_spec ps : forall i0 rem s, length rem = length ps ->
  (forall i n r, nth_error ps i = Some (Some n) -> slots s n = Some r ->
    nth_error rem i = Some (length (nonnull (rq_mpi r)))) ->
  match finish_first i0 ps rem s with
  | Some (s', i) => exists k n r, i = i0 + k /\ nth_error ps k = Some (Some n) /\
      slots s n = Some r /\ nonnull (rq_mpi r) = [] /\ s' = finish n r s
  | None => forall i n r, nth_error ps i = Some (Some n) -> slots s n = Some r ->
      nonnull (rq_mpi r) <> []
  end.
Proof.
  induction ps as [|p ps IH]; intros i0 rem s Len H; cbn [finish_first].
  - intros i n r E. destruct i; discriminate.
  - destruct rem as [|k rem]; [discriminate|]. cbn in Len. injection Len as Len.
    assert (Skip : (forall n r, p = Some n -> slots s n = Some r -> nonnull (rq_mpi r) <> []) ->
      match finish_first (S i0) ps rem s with
      | Some (s', i) => exists k n r, i = i0 + k /\ nth_error (p :: ps) k = Some (Some n) /\
          slots s n = Some r /\ nonnull (rq_mpi r) = [] /\ s' = finish n r s
      | None => forall i n r, nth_error (p :: ps) i = Some (Some n) -> slots s n = Some r ->
          nonnull (rq_mpi r) <> []
      end).
    { intros Hp. specialize (IH (S i0) rem s Len).
      destruct (finish_first (S i0) ps rem s) as [[s' i]|].
      - destruct IH as (k' & n & r & E & X).
        { intros i' n r Hi. apply (H (S i') n r Hi). }
        exists (S k'), n, r. split; [lia|]. exact X.
      - intros [|i] n r Hi Hr; [cbn in Hi; injection Hi as ->; eauto|].
        eapply IH; eauto. intros i' n' r' Hi'. apply (H (S i') n' r' Hi'). }
    destruct p as [n|]; cbn [active].
    2: { apply Skip. discriminate. }
    destruct (slots s n) as [r|] eqn:Hr.
    2: { apply Skip. intros n' r' E Hr'. congruence. }
    pose proof (H 0 n r eq_refl Hr) as Hk. cbn in Hk. injection Hk as ->.
    destruct (Nat.eqb_spec (length (nonnull (rq_mpi r))) 0) as [E0|E0].
    + exists 0, n, r. split; [lia|]. split; [reflexivity|]. split; [exact Hr|].
      split; [|reflexivity]. destruct (nonnull (rq_mpi r)); [auto|discriminate].
    + apply Skip. intros n' r' E Hr'. injection E as <-.
      assert (r' = r) by congruence. subst. intros X. rewrite X in E0. apply E0. reflexivity.
Qed.

Lemma wait_any_spec sched ps s : inv s -> distinct_ps ps ->
  exists s' res, wait_any sched ps s = Some (s', res) /\ evolves (emit_all EWaitStart ps s) s' /\
    (forall m, (forall i, nth_error ps i <> Some (Some m)) -> slots s' m = slots s m) /\
    match res with
    | None => forall i n, nth_error ps i = Some (Some n) -> slots s n = None
    | Some i => exists n r, nth_error ps i = Some (Some n) /\ slots s n = Some r /\
                  slots s' n = None /\ (forall m, m <> n -> slots s m <> None -> slots s' m <> None)
    end.
Proof.
  intros I Dp. unfold wait_any. set (s1 := emit_all EWaitStart ps s).
  assert (Q1 : weq s s1) by (apply emit_all_weq; intros k k'; reflexivity).
  pose proof (inv_weq _ _ Q1 I) as I1. set (rem := remaining ps s1).
  assert (Lr : length rem = length ps) by apply map_length.
  pose proof (finish_first_spec ps 0 rem s1 Lr) as F.
  destruct (finish_first 0 ps rem s1) as [[s2 i]|].
  - destruct F as (k & n & r & Ei & A & B & C & ->).
    { intros i' n r. apply remaining_nth. }
    cbn in Ei. subst k. eexists. exists (Some i). split; [reflexivity|].
    pose proof (finish_finstep n r s1 B C) as FS. split; [|split].
    + eapply e_fin; [exact FS|]. apply e_refl, ceq_refl.
    + intros m Hm. rewrite (fs_slots _ _ _ _ FS).
      destruct (Nat.eqb_spec m n) as [->|]; [exfalso; eapply Hm, A|apply Q1].
    + exists n, r. rewrite <- (q_slots _ _ Q1). split; [exact A|]. split; [exact B|]. split.
      * rewrite (fs_slots _ _ _ _ FS), Nat.eqb_refl. reflexivity.
      * intros m Hm. rewrite (fs_slots _ _ _ _ FS), <- (q_slots _ _ Q1).
        apply Nat.eqb_neq in Hm. rewrite Hm. auto.
  - rewrite gather_triples.
    assert (M : minv ps (map snd (triples 0 ps s1)) (map fst (triples 0 ps s1)) rem s1).
    { apply gather_minv; auto. intros i n r Hi Hr. split.
      - apply remaining_nth with (n := n); auto.
      - eapply F; eauto. intros i' n' r'. apply remaining_nth. }
    assert (Tot : sum rem = length (map snd (triples 0 ps s1))).
    { rewrite map_length, triples_length. reflexivity. }
    rewrite Tot.
    destruct (wait_many_spec sched true ps Dp (S (length (map snd (triples 0 ps s1)))) _ _ rem s1 I1 M)
      as (s' & res & -> & Ev & Fr & R).
    { unfold nonnull. eapply Nat.le_lt_trans; [apply filter_length_le|]. rewrite seq_length. lia. }
    exists s', res. split; [reflexivity|]. split; [exact Ev|]. split.
    { intros m Hm. rewrite Fr by exact Hm. apply Q1. }
    destruct res as [i|].
    + destruct R as (_ & n & r & X1 & X2 & X3 & X4). exists n, r.
      rewrite <- (q_slots _ _ Q1). repeat split; auto. intros m Hm.
      rewrite <- (q_slots _ _ Q1). apply X4, Hm.
    + intros i n Hi. rewrite <- (q_slots _ _ Q1). apply (proj2 R eq_refl i n Hi).
Qed.

End Inv.

(** * Starting, moving and dropping operations *)

Lemma set_slot_same s n : slots s n = None -> weq s (set_slot s n None).
Proof.
  intros H. split; auto. intros m. cbn. destruct (Nat.eqb_spec m n) as [->|]; auto.
Qed.

Definition slot_ids (s : rst) (n : nat) : list nat :=
  match slots s n with Some r => [rq_id r] | None => [] end.

Lemma inv_drop L s n : inv L s -> inv (slot_ids s n ++ L) (set_slot s n None).
Proof.
  intros I.
  assert (Old : forall m x, slots (set_slot s n None) m = Some x -> slots s m = Some x /\ m <> n).
  { intros m x. cbn. destruct (Nat.eqb_spec m n); [discriminate|auto]. }
  assert (Hold : forall k, (forall m, ~ held (set_slot s n None) m k) -> ~ In k (slot_ids s n) ->
    forall m, ~ held s m k).
  { intros k H N m (x & Hx & Ex). destruct (Nat.eq_dec m n) as [->|Nm].
    - apply N. unfold slot_ids. rewrite Hx. left. exact Ex.
    - apply (H m). exists x. cbn. apply Nat.eqb_neq in Nm. rewrite Nm. auto. }
  split.
  - intros m x Hx. apply Old in Hx. apply (i_op L s I m x). tauto.
  - intros m x m' x' Hx Hx'. apply Old in Hx. apply Old in Hx'. apply (i_inj L s I); tauto.
  - intros m x i g Hx. apply Old in Hx. apply (i_live L s I m x i g). tauto.
  - intros m x i m' x' i' g Hx Hx'. apply Old in Hx. apply Old in Hx'.
    apply (i_disj L s I m x i m' x' i' g); tauto.
  - apply (i_next L s I).
  - intros k a Ha Hn Hl. rewrite in_app_iff in Hl. apply (i_done L s I k a Ha); [|tauto].
    apply Hold; tauto.
  - intros k Hk. apply in_app_iff in Hk. destruct Hk as [Hk|Hk].
    + unfold slot_ids in Hk. destruct (slots s n) as [r|] eqn:Hr; [|contradiction].
      destruct Hk as [<-|[]]. split.
      * intros m (x & Hx & Ex). apply Old in Hx. destruct Hx as [Hx Nm]. apply Nm.
        apply (i_inj L s I m x n r Hx Hr Ex).
      * destruct (i_op L s I n r Hr) as (a & l & A & B & C & D). exists a. split; [exact A|].
        exists l, (nonnull (rq_mpi r)). auto.
    + destruct (i_lost L s I k Hk) as (A & a & B & C). split; [|eauto].
      intros m (x & Hx & Ex). apply Old in Hx. apply (A m). exists x. tauto.
  - apply (i_fresh L s I).
  - destruct (i_bound L s I) as [B HB]. exists B. intros m Hm. cbn.
    destruct (Nat.eqb m n); auto.
Qed.

Lemma nth_fresh bs : forall h j g, nth_error (fresh_handles bs h) j = Some (Some g) ->
  h <= g < h + length (posted (fresh_handles bs h)).
Proof.
  induction bs as [|b bs IH]; intros h j g H; [destruct j; discriminate|].
  destruct b; cbn [fresh_handles posted flat_map app length] in *; fold (posted) in *.
  - change (flat_map _ (fresh_handles bs (S h))) with (posted (fresh_handles bs (S h))).
    destruct j as [|j]; cbn in H; [injection H as <-; lia|]. apply IH in H. lia.
  - change (flat_map _ (fresh_handles bs h)) with (posted (fresh_handles bs h)).
    destruct j as [|j]; cbn in H; [discriminate|]. apply IH in H. lia.
Qed.

Lemma fresh_inj bs : forall h j j' g, nth_error (fresh_handles bs h) j = Some (Some g) ->
  nth_error (fresh_handles bs h) j' = Some (Some g) -> j = j'.
Proof.
  induction bs as [|b bs IH]; intros h j j' g H H'; [destruct j; discriminate|].
  destruct b; cbn in *; destruct j as [|j], j' as [|j']; cbn in *; try discriminate; auto.
  - injection H as <-. apply nth_fresh in H'. lia.
  - injection H' as <-. apply nth_fresh in H. lia.
  - f_equal. eapply IH; eauto.
  - f_equal. eapply IH; eauto.
Qed.

Lemma In_posted a h : In h (posted a) <-> exists j, nth_error a j = Some (Some h).
Proof.
  unfold posted. rewrite in_flat_map. split.
  - intros ([g|] & Hin & Hg); [|contradiction]. destruct Hg as [<-|[]].
    apply In_nth_error in Hin. exact Hin.
  - intros [j Hj]. exists (Some h). split; [eapply nth_error_In; eauto|left; reflexivity].
Qed.

Lemma fresh_nonnull bs h : nonnull (fresh_handles bs h) = messages bs.
Proof.
  unfold nonnull, messages.
  assert (L : forall bs h, length (fresh_handles bs h) = length bs).
  { clear. induction bs as [|[] bs IH]; intros h; cbn; auto. }
  rewrite L. apply filter_ext. intros i. clear L. revert h i.
  induction bs as [|[] bs IH]; intros h [|i]; cbn; auto.
Qed.

Lemma inv_construct L s n bs : slots s n = None -> inv L s -> inv L (construct n bs s).
Proof.
  intros Hn I. unfold construct, start. set (a := fresh_handles bs (nexth s)).
  set (s' := set_slot _ _ _). set (k0 := length (ops s)) in *.
  assert (Sl : forall m, slots s' m = if Nat.eqb m n then Some (mkRq k0 a) else slots s m)
    by reflexivity.
  assert (Idl : forall m x, slots s m = Some x -> rq_id x < k0).
  { intros m x Hx. destruct (i_op L s I m x Hx) as (b & l & A & _). apply nth_error_Some. congruence. }
  assert (Ops : forall k b, nth_error (ops s) k = Some b -> nth_error (ops s') k = Some b).
  { intros k b H. cbn. rewrite nth_error_app1; [exact H|]. apply nth_error_Some. congruence. }
  assert (Lt : forall m x j g, slots s m = Some x -> nth_error (rq_mpi x) j = Some (Some g) -> g < nexth s).
  { intros m x j g Hx Hg. apply (i_next L s I). eapply i_live; eauto. }
  split.
  - intros m x. rewrite Sl. destruct (Nat.eqb_spec m n) as [->|Nm]; intros Hx.
    + injection Hx as <-. exists a, []. cbn. split.
      { rewrite nth_error_app2 by (unfold k0; lia). unfold k0. rewrite Nat.sub_diag. reflexivity. }
      split; [reflexivity|]. split; [apply (i_fresh L s I); unfold k0; lia|reflexivity].
    + destruct (i_op L s I m x Hx) as (b & l & A & B & C & D). exists b, l. auto.
  - intros m x m' x'. rewrite !Sl.
    destruct (Nat.eqb_spec m n) as [->|Nm], (Nat.eqb_spec m' n) as [->|Nm']; intros Hx Hx' E; auto.
    + injection Hx as <-. apply Idl in Hx'. cbn in E. lia.
    + injection Hx' as <-. apply Idl in Hx. cbn in E. lia.
    + apply (i_inj L s I m x m' x'); auto.
  - intros m x j g. rewrite Sl. cbn [s' set_slot live]. rewrite in_app_iff.
    destruct (Nat.eqb_spec m n) as [->|Nm]; intros Hx Hg.
    + right. injection Hx as <-. apply In_posted. exists j. exact Hg.
    + left. eapply i_live; eauto.
  - intros m x j m' x' j' g. rewrite !Sl.
    destruct (Nat.eqb_spec m n) as [->|Nm], (Nat.eqb_spec m' n) as [->|Nm']; intros Hx Hx' Hg Hg'.
    + injection Hx as <-. injection Hx' as <-. split; [reflexivity|]. eapply fresh_inj; eauto.
    + injection Hx as <-. apply (Lt m' x' j' g Hx') in Hg'. apply nth_fresh in Hg. lia.
    + injection Hx' as <-. apply (Lt m x j g Hx) in Hg. apply nth_fresh in Hg'. lia.
    + eapply (i_disj L s I); eauto.
  - intros g. cbn. rewrite in_app_iff. intros [H|H].
    + apply (i_next L s I) in H. lia.
    + apply In_posted in H. destruct H as [j H]. apply nth_fresh in H. fold a in H. lia.
  - intros k b Hb Hh Hl. cbn in Hb. destruct (Nat.lt_ge_cases k k0) as [Hk|Hk].
    + rewrite nth_error_app1 in Hb by exact Hk. apply (i_done L s I k b Hb); [|exact Hl].
      intros m (x & Hx & Ex). apply (Hh m). exists x. rewrite Sl.
      destruct (Nat.eqb_spec m n) as [->|]; [congruence|auto].
    + exfalso. rewrite nth_error_app2 in Hb by exact Hk. fold k0 in Hb.
      assert (k - k0 < length [a]) as X by (apply nth_error_Some; congruence). cbn in X.
      apply (Hh n). eexists. rewrite Sl, Nat.eqb_refl. split; [reflexivity|]. cbn. lia.
  - intros k Hk. destruct (i_lost L s I k Hk) as (A & b & B & C). split; [|eauto].
    intros m (x & Hx & Ex). rewrite Sl in Hx. destruct (Nat.eqb_spec m n) as [->|].
    + injection Hx as <-. cbn in Ex.
      assert (k < length (ops s)) by (apply nth_error_Some; congruence). unfold k0 in Ex. lia.
    + apply (A m). exists x. auto.
  - intros k. cbn. rewrite app_length. intros Hk. apply (i_fresh L s I). lia.
  - destruct (i_bound L s I) as [B HB]. exists (B + S n). intros m Hm. rewrite Sl.
    destruct (Nat.eqb_spec m n) as [->|]; [lia|]. apply HB. lia.
Qed.

Lemma inv_move L s n m : n <> m -> slots s n = None -> inv L s -> inv L (move_into n m s).
Proof.
  intros Nn Hn I. unfold move_into. rewrite (proj2 (Nat.eqb_neq n m) Nn).
  set (s' := set_slot _ _ _).
  set (back := fun x => if Nat.eqb x n then m else x).
  assert (Sl : forall p x, slots s' p = Some x -> slots s (back p) = Some x /\ p <> m).
  { intros p x. unfold back. cbn. destruct (Nat.eqb_spec p m) as [->|Np]; [discriminate|].
    destruct (Nat.eqb_spec p n); auto. }
  assert (Fw : forall p x, slots s p = Some x -> exists q, slots s' q = Some x).
  { intros p x Hx. destruct (Nat.eq_dec p m) as [->|Np].
    - exists n. cbn. rewrite (proj2 (Nat.eqb_neq n m) Nn), Nat.eqb_refl. exact Hx.
    - exists p. cbn. rewrite (proj2 (Nat.eqb_neq p m) Np).
      destruct (Nat.eqb_spec p n) as [->|]; [congruence|exact Hx]. }
  assert (Inj : forall p q, p <> m -> q <> m -> back p = back q -> p = q).
  { intros p q Hp Hq. unfold back. destruct (Nat.eqb_spec p n), (Nat.eqb_spec q n); congruence. }
  split.
  - intros p x Hx. apply Sl in Hx. apply (i_op L s I (back p)). tauto.
  - intros p x q y Hx Hy E. apply Sl in Hx. apply Sl in Hy. destruct Hx, Hy. apply Inj; auto.
    eapply (i_inj L s I); eauto.
  - intros p x j g Hx. apply Sl in Hx. apply (i_live L s I (back p)). tauto.
  - intros p x j q y j' g Hx Hy Hg Hg'. apply Sl in Hx. apply Sl in Hy. destruct Hx, Hy.
    destruct (i_disj L s I (back p) x j (back q) y j' g) as [E ->]; auto.
  - apply (i_next L s I).
  - intros k a Ha Hh. apply (i_done L s I k a Ha). intros p (x & Hx & Ex).
    destruct (Fw p x Hx) as [q Hq]. apply (Hh q). exists x. auto.
  - intros k Hk. destruct (i_lost L s I k Hk) as (A & a & B & C). split; [|eauto].
    intros p (x & Hx & Ex). apply Sl in Hx. apply (A (back p)). exists x. tauto.
  - apply (i_fresh L s I).
  - destruct (i_bound L s I) as [B HB]. exists (B + S n). intros p Hp. cbn.
    destruct (Nat.eqb p m); [auto|]. destruct (Nat.eqb_spec p n) as [->|]; [lia|]. apply HB. lia.
Qed.

(** * Histories *)

Lemma NoDup_tail {A} (a b : list A) : NoDup (a ++ b) -> NoDup b.
Proof. induction a as [|x a IH]; cbn; auto. intros H. inversion H; auto. Qed.

Lemma distinct_of_nodup ps :
  NoDup (flat_map (fun p : option nat => match p with Some n => [n] | None => [] end) ps) ->
  distinct_ps ps.
Proof.
  intros H. induction ps as [|p ps IH]; intros i i' n Hi Hi'; [destruct i; discriminate|].
  assert (Aux : forall q, nth_error ps q = Some (Some n) -> p = Some n -> False).
  { intros q Hq ->. cbn in H. inversion H as [|? ? N _]; subst. apply N. apply in_flat_map.
    exists (Some n). split; [eapply nth_error_In; eauto|left; reflexivity]. }
  destruct i as [|i], i' as [|i']; cbn in Hi, Hi'; auto.
  - exfalso. injection Hi as ->. eapply Aux; eauto.
  - exfalso. injection Hi' as ->. eapply Aux; eauto.
  - f_equal. apply (IH (NoDup_tail _ _ H) i i' n); auto.
Qed.

Definition starts_match (s : rst) (l : list (list bool)) : Prop :=
  Forall2 (fun a bs => exists h, a = fresh_handles bs h) (ops s) l.

Lemma evolves_ops s s' : evolves s s' -> ops s' = ops s.
Proof.
  induction 1 as [s s' [Q _]|s s1 s2 n r j h M _ IH|s s1 s2 n r M _ IH].
  - apply Q.
  - rewrite IH. apply M.
  - rewrite IH. apply M.
Qed.

Lemma starts_construct s l n bs : starts_match s l -> starts_match (construct n bs s) (l ++ [bs]).
Proof.
  intros H. unfold starts_match, construct, start. cbn. apply Forall2_app; [exact H|].
  constructor; [eauto|constructor].
Qed.

Lemma weq_construct s s' n bs : (forall m, m <> n -> slots s' m = slots s m) ->
  live s' = live s -> tr s' = tr s -> ops s' = ops s -> nexth s' = nexth s ->
  weq (construct n bs s) (construct n bs s').
Proof.
  intros A B C D E. unfold construct, start. split; cbn; rewrite ?B, ?C, ?D, ?E; auto.
  intros m. destruct (Nat.eqb_spec m n) as [->|Nm]; auto.
Qed.

Lemma weq_move s s' n m : n <> m -> (forall p, p <> n -> slots s' p = slots s p) ->
  live s' = live s -> tr s' = tr s -> ops s' = ops s -> nexth s' = nexth s ->
  weq (move_into n m s) (move_into n m s').
Proof.
  intros N A B C D E. unfold move_into. rewrite (proj2 (Nat.eqb_neq n m) N).
  split; cbn; rewrite ?C; auto.
  intros p. destruct (Nat.eqb_spec p m) as [->|Np]; auto.
  destruct (Nat.eqb_spec p n) as [->|Nn]; auto.
Qed.

Lemma rstep_spec sched L s l o : inv L s -> starts_match s l -> op_ok o ->
  exists s', rstep sched s o = Some s' /\ inv (dropped s o ++ L) s' /\
    starts_match s' (l ++ started [o]).
Proof.
  intros I M Ho. destruct o as [n bs|n m|n bs|n m|n|n|ps|ps]; cbn [rstep dropped app op_ok] in *.
  - destruct (wait_spec L sched n s I) as (s1 & -> & Ev & Hn & _). cbn [option_map].
    eexists. split; [reflexivity|]. 
    assert (I1 : inv L s1).
    { eapply inv_evolves; [exact Ev|]. destruct (slots s n); [|exact I].
      eapply inv_weq; [|exact I]. apply emit_weq. intros k. reflexivity. }
    split; [apply inv_construct; assumption|]. cbn. apply starts_construct.
    unfold starts_match. rewrite (evolves_ops _ _ Ev). destruct (slots s n); exact M.
  - rewrite (proj2 (Nat.eqb_neq n m) Ho).
    destruct (wait_spec L sched n s I) as (s1 & -> & Ev & Hn & _). cbn [option_map].
    eexists. split; [reflexivity|].
    assert (I1 : inv L s1).
    { eapply inv_evolves; [exact Ev|]. destruct (slots s n); [|exact I].
      eapply inv_weq; [|exact I]. apply emit_weq. intros k. reflexivity. }
    split; [apply inv_move; assumption|]. cbn. rewrite app_nil_r.
    unfold starts_match, move_into. rewrite (proj2 (Nat.eqb_neq n m) Ho). cbn.
    rewrite (evolves_ops _ _ Ev). destruct (slots s n); exact M.
  - eexists. split; [reflexivity|]. split; [|apply starts_construct, M].
    change (inv (slot_ids s n ++ L) (construct n bs s)).
    eapply inv_weq.
    2: { apply inv_construct; [|apply (inv_drop L s n I)]. cbn. rewrite Nat.eqb_refl. reflexivity. }
    apply weq_construct; auto. intros p Np. cbn. rewrite (proj2 (Nat.eqb_neq p n) Np). reflexivity.
  - eexists. split; [reflexivity|]. cbn. rewrite app_nil_r.
    destruct (Nat.eqb_spec n m) as [->|N].
    + unfold move_into. rewrite Nat.eqb_refl. auto.
    + split.
      2: { unfold starts_match, move_into. rewrite (proj2 (Nat.eqb_neq n m) N). exact M. }
      change (inv (slot_ids s n ++ L) (move_into n m s)).
      eapply inv_weq.
      2: { apply inv_move; [exact N| |apply (inv_drop L s n I)]. cbn. rewrite Nat.eqb_refl. reflexivity. }
      apply weq_move; auto. intros p Np. cbn. rewrite (proj2 (Nat.eqb_neq p n) Np). reflexivity.
  - destruct (wait_spec L sched n s I) as (s1 & -> & Ev & Hn & _). exists s1.
    split; [reflexivity|]. cbn. rewrite app_nil_r. split.
    + eapply inv_evolves; [exact Ev|]. destruct (slots s n); [|exact I].
      eapply inv_weq; [|exact I]. apply emit_weq. intros k. reflexivity.
    + unfold starts_match. rewrite (evolves_ops _ _ Ev). destruct (slots s n); exact M.
  - destruct (wait_spec L sched n s I) as (s1 & -> & Ev & Hn & _). exists s1.
    split; [reflexivity|]. cbn. rewrite app_nil_r. split.
    + eapply inv_evolves; [exact Ev|]. destruct (slots s n); [|exact I].
      eapply inv_weq; [|exact I]. apply emit_weq. intros k. reflexivity.
    + unfold starts_match. rewrite (evolves_ops _ _ Ev). destruct (slots s n); exact M.
  - assert (Q : weq s (emit_all EWaitStart ps s)) by (apply emit_all_weq; intros k k'; reflexivity).
    destruct (wait_all_spec L sched ps s I (distinct_of_nodup ps Ho)) as (s1 & -> & Ev & _).
    exists s1. split; [reflexivity|]. cbn. rewrite app_nil_r. split.
    + eapply inv_evolves; [exact Ev|]. eapply inv_weq; [exact Q|exact I].
    + unfold starts_match. rewrite (evolves_ops _ _ Ev), (q_ops _ _ Q). exact M.
  - assert (Q : weq s (emit_all EWaitStart ps s)) by (apply emit_all_weq; intros k k'; reflexivity).
    destruct (wait_any_spec L sched ps s I (distinct_of_nodup ps Ho)) as (s1 & res & -> & Ev & _).
    exists s1. split; [reflexivity|]. cbn. rewrite app_nil_r. split.
    + eapply inv_evolves; [exact Ev|]. eapply inv_weq; [exact Q|exact I].
    + unfold starts_match. rewrite (evolves_ops _ _ Ev), (q_ops _ _ Q). exact M.
Qed.

Lemma inv_perm L L' s : (forall k, In k L <-> In k L') -> inv L s -> inv L' s.
Proof.
  intros H I. split; try apply I.
  - intros k a Ha Hn Hl. apply (i_done L s I); auto. rewrite H. exact Hl.
  - intros k Hk. apply (i_lost L s I). apply H, Hk.
Qed.

Lemma rrun_spec sched l : Forall op_ok l -> forall L s b, inv L s -> starts_match s b ->
  exists s', rrun sched s l = Some s' /\ inv (lost sched s l ++ L) s' /\
    starts_match s' (b ++ started l).
Proof.
  induction 1 as [|o l Ho _ IH]; intros L s b I M; cbn [rrun lost].
  - exists s. cbn. rewrite app_nil_r. auto.
  - destruct (rstep_spec sched L s b o I M Ho) as (s1 & -> & I1 & M1).
    destruct (IH _ s1 _ I1 M1) as (s' & -> & I' & M'). exists s'. split; [reflexivity|]. split.
    + eapply inv_perm; [|exact I']. intros k. rewrite !in_app_iff. tauto.
    + change (started (o :: l)) with (started ([o] ++ l)). unfold started in *.
      rewrite flat_map_app, app_assoc. exact M'.
Qed.

Lemma inv0 : inv [] rst0.
Proof.
  split; cbn; try discriminate; try contradiction; auto.
  - intros k a H. destruct k; discriminate.
  - exists 0. auto.
Qed.

Lemma held_dec L s k : inv L s -> (exists n, held s n k) \/ (forall n, ~ held s n k).
Proof.
  intros I. destruct (i_bound L s I) as [B HB].
  assert (X : forall b, (exists n, n < b /\ held s n k) \/ (forall n, n < b -> ~ held s n k)).
  { induction b as [|b [IH|IH]].
    - right. intros n Hn. lia.
    - left. destruct IH as (n & Hn & H). exists n. split; [lia|exact H].
    - destruct (slots s b) as [r|] eqn:Hr.
      + destruct (Nat.eq_dec (rq_id r) k) as [E|E].
        * left. exists b. split; [lia|]. exists r. auto.
        * right. intros n Hn (r' & Hr' & Er'). destruct (Nat.eq_dec n b) as [->|]; [congruence|].
          apply (IH n); [lia|]. exists r'. auto.
      + right. intros n Hn (r' & Hr' & Er'). destruct (Nat.eq_dec n b) as [->|]; [congruence|].
        apply (IH n); [lia|]. exists r'. auto. }
  destruct (X B) as [(n & _ & H)|H]; [eauto|]. right. intros n Hn.
  destruct (Nat.lt_ge_cases n B) as [Hb|Hb]; [apply (H n Hb Hn)|].
  destruct Hn as (r & Hr & _). rewrite HB in Hr by exact Hb. discriminate.
Qed.

Lemma F2_nth {A B} (R : A -> B -> Prop) la lb : Forall2 R la lb -> forall k b,
  nth_error lb k = Some b -> exists a, nth_error la k = Some a /\ R a b.
Proof.
  induction 1 as [|x y la lb H _ IH]; intros [|k] b E; try discriminate; cbn in *; [|auto].
  injection E as <-. eauto.
Qed.

Lemma requests_correct sched l : Forall op_ok l ->
  exists s, rrun sched rst0 l = Some s /\
  forall k bs, nth_error (started l) k = Some bs ->
    (In k (lost sched rst0 l) -> underway s k bs /\ forall n, ~ held s n k) /\
    (~ In k (lost sched rst0 l) ->
       (finished s k bs /\ forall n, ~ held s n k) \/
       (underway s k bs /\ exists n, held s n k /\ forall n', held s n' k -> n' = n)).
Proof.
  intros H. destruct (rrun_spec sched l H [] rst0 [] inv0) as (s & E & I & M); [constructor|].
  rewrite app_nil_r in I. cbn in M. exists s. split; [exact E|]. intros k bs Hk.
  destruct (F2_nth _ _ _ M k bs Hk) as (a & Ha & h & ->).
  assert (U : aunderway s k (fresh_handles bs h) -> underway s k bs).
  { unfold aunderway, underway. rewrite fresh_nonnull. auto. }
  split.
  - intros Hl. destruct (i_lost _ s I k Hl) as (A & a & B & C).
    assert (a = fresh_handles bs h) by congruence. subst. auto.
  - intros Hl.
    destruct (held_dec _ s k I) as [[n (r & Hr & Er)]|Hn].
    + right. split.
      * apply U. destruct (i_op _ s I n r Hr) as (a & ll & A & B & C & D).
        rewrite Er in A, C. assert (a = fresh_handles bs h) by congruence. subst a.
        exists ll, (nonnull (rq_mpi r)). auto.
      * exists n. split; [exists r; auto|]. intros n' (r' & Hr' & Er').
        apply (i_inj _ s I n' r' n r Hr' Hr). congruence.
    + left. split; [|exact Hn]. pose proof (i_done _ s I k _ Ha Hn Hl) as F.
      unfold afinished in F. rewrite fresh_nonnull in F. exact F.
Qed.

Lemma lost_app sched l l' : forall s s1, rrun sched s l = Some s1 ->
  lost sched s (l ++ l') = lost sched s l ++ lost sched s1 l'.
Proof.
  induction l as [|o l IH]; intros s s1 H; cbn [app lost rrun] in *.
  - injection H as ->. reflexivity.
  - destruct (rstep sched s o) as [s2|]; [|discriminate]. rewrite (IH s2 s1 H), app_assoc.
    reflexivity.
Qed.

Lemma lost_careful sched l : forall s, careful sched s l -> lost sched s l = [].
Proof.
  induction l as [|o l IH]; intros s H; cbn [lost careful] in *; [reflexivity|].
  destruct H as [C H]. assert (dropped s o = []) as ->.
  { destruct o as [| |n bs|n m| | | |]; cbn in *; auto.
    - rewrite C. reflexivity.
    - destruct C as [->|C]; [rewrite Nat.eqb_refl; reflexivity|]. rewrite C.
      destruct (Nat.eqb n m); reflexivity. }
  destruct (rstep sched s o) as [s'|]; [|reflexivity]. apply IH, H. reflexivity.
Qed.

Lemma careful_no_assign sched l : Forall no_assign l -> forall s, careful sched s l.
Proof.
  induction 1 as [|o l H _ IH]; intros s; cbn; [exact I|].
  split; [|auto]. destruct o; cbn in *; auto; contradiction.
Qed.

Lemma underway_not_finished s k bs : underway s k bs -> ~ finished s k bs.
Proof.
  intros (l & l' & _ & E) (m & _ & F). rewrite E in F.
  assert (X : In (EDone k) (map (EMsg k) l)).
  { rewrite F. apply in_or_app. right. left. reflexivity. }
  apply in_map_iff in X. destruct X as (x & X & _). discriminate.
Qed.

(** * What the calls return *)

Lemma returns_correct sched l s : Forall op_ok l -> rrun sched rst0 l = Some s ->
  (forall n, exists s', wait sched n s = Some s' /\ slots s' n = None /\
     forall m, m <> n -> slots s' m = slots s m) /\
  (forall ps, op_ok (RWaitAll ps) -> exists s', wait_all sched ps s = Some s' /\
     (forall n, In (Some n) ps -> slots s' n = None) /\
     forall m, ~ In (Some m) ps -> slots s' m = slots s m) /\
  (forall ps, op_ok (RWaitAny ps) -> exists s' res, wait_any sched ps s = Some (s', res) /\
     (forall m, ~ In (Some m) ps -> slots s' m = slots s m) /\
     match res with
     | None => forall n, In (Some n) ps -> slots s n = None
     | Some i => exists n, nth_error ps i = Some (Some n) /\ slots s n <> None /\
                   slots s' n = None /\ forall m, m <> n -> slots s m <> None -> slots s' m <> None
     end).
Proof.
  intros H E. destruct (rrun_spec sched l H [] rst0 [] inv0) as (s0 & E0 & J & _); [constructor|].
  rewrite E in E0. injection E0 as <-. split; [|split].
  - intros n. destruct (wait_spec _ sched n s J) as (s' & A & _ & B & C). eauto.
  - intros ps Hp. destruct (wait_all_spec _ sched ps s J (distinct_of_nodup ps Hp))
      as (s' & A & _ & B & C). exists s'. split; [exact A|]. split.
    + intros n Hn. destruct (In_nth_error _ _ Hn) as [i Hi]. eauto.
    + intros m Hm. apply C. intros i Hi. apply Hm. eapply nth_error_In; eauto.
  - intros ps Hp. destruct (wait_any_spec _ sched ps s J (distinct_of_nodup ps Hp))
      as (s' & res & A & _ & B & C). exists s', res. split; [exact A|]. split.
    + intros m Hm. apply B. intros i Hi. apply Hm. eapply nth_error_In; eauto.
    + destruct res as [i|].
      * destruct C as (n & r & C1 & C2 & C3 & C4). exists n. rewrite C2.
        repeat split; auto. discriminate.
      * intros n Hn. destruct (In_nth_error _ _ Hn) as [i Hi]. eauto.
Qed.

(** * Wait-time accounting *)

Definition isdone (k : nat) (e : ev) : bool := match e with EDone k' => Nat.eqb k k' | _ => false end.
Definition nd (k : nat) (t : list ev) : nat := length (filter (isdone k) (callbacks k t)).

Lemma evolves_wt s s' : evolves s s' -> forall k,
  exists d, nd k (tr s') = nd k (tr s) + d /\ wt k (tr s') = wt k (tr s) ++ repeat (EWaitStop k) d.
Proof.
  induction 1 as [s s' [Q W]|s s1 s2 n r j h M _ IH|s s1 s2 n r M _ IH]; intros k.
  - exists 0. rewrite W. unfold nd. rewrite (q_tr _ _ Q). cbn. rewrite app_nil_r. split; lia || auto.
  - destruct (IH k) as (d & A & B). exists d. rewrite A, B, (ms_wt _ _ _ _ _ _ M). split; [|auto].
    unfold nd. rewrite (ms_tr _ _ _ _ _ _ M), filter_app, app_length.
    destruct (Nat.eqb k (rq_id r)); cbn; lia.
  - destruct (IH k) as (d & A & B). rewrite A, B, (fs_wt _ _ _ _ M). unfold nd.
    rewrite (fs_tr _ _ _ _ M), filter_app, app_length.
    destruct (Nat.eqb k (rq_id r)).
    + exists (S d). cbn. rewrite Nat.eqb_refl. cbn. split; [lia|]. rewrite <- app_assoc. reflexivity.
    + exists d. rewrite app_nil_r. cbn. split; [lia|auto].
Qed.

Lemma nd_msgs k l : length (filter (isdone k) (map (EMsg k) l)) = 0.
Proof. induction l; auto. Qed.

Lemma nd_cases L s k : inv L s ->
  (nd k (tr s) = 0 /\ (length (ops s) <= k \/ In k L \/ exists n, held s n k)) \/
  (nd k (tr s) = 1 /\ k < length (ops s) /\ ~ In k L /\ forall n, ~ held s n k).
Proof.
  intros J. destruct (Nat.lt_ge_cases k (length (ops s))) as [Hk|Hk].
  2: { left. unfold nd. rewrite (i_fresh L s J k Hk). auto. }
  destruct (in_dec Nat.eq_dec k L) as [Hl|Hl].
  - left. destruct (i_lost L s J k Hl) as (_ & a & _ & l & l' & _ & E). unfold nd.
    rewrite E, nd_msgs. auto.
  - destruct (held_dec L s k J) as [[n Hn]|Hn].
    + left. split; [|eauto]. destruct Hn as (r & Hr & Er).
      destruct (i_op L s J n r Hr) as (a & l & _ & _ & E & _). rewrite Er in E.
      unfold nd. rewrite E. apply nd_msgs.
    + right. apply nth_error_Some in Hk as Hk'. destruct (nth_error (ops s) k) as [a|] eqn:Ha; [|congruence].
      destruct (i_done L s J k a Ha Hn Hl) as (l & _ & E). unfold nd.
      rewrite E, filter_app, app_length, nd_msgs. cbn. rewrite Nat.eqb_refl. auto.
Qed.

(** The calls so far: none on an operation that is not complete, else one pair. *)
Definition balanced (s : rst) : Prop := forall k,
  wt k (tr s) = if Nat.eqb (nd k (tr s)) 0 then [] else [EWaitStart k; EWaitStop k].

Definition ids_inj (s : rst) : Prop := forall n n' k, held s n k -> held s n' k -> n = n'.
Definition names (ps : list (option nat)) : list nat :=
  flat_map (fun p : option nat => match p with Some n => [n] | None => [] end) ps.

Lemma names_In ps n : In n (names ps) <-> In (Some n) ps.
Proof.
  unfold names. rewrite in_flat_map. split.
  - intros ([m|] & A & B); cbn in B; [|contradiction]. destruct B as [->|[]]. exact A.
  - intros H. exists (Some n). split; [exact H|left; reflexivity].
Qed.

Lemma emit_all_wt_other ps k : forall s, (forall n, In n (names ps) -> ~ held s n k) ->
  wt k (tr (emit_all EWaitStart ps s)) = wt k (tr s).
Proof.
  unfold emit_all. induction ps as [|p ps IH]; intros s H; cbn; [reflexivity|].
  destruct p as [n|]; cbn [active].
  2: { apply IH. intros m Hm. apply H. exact Hm. }
  destruct (slots s n) as [r|] eqn:Hr.
  2: { apply IH. intros m Hm. apply H. right. exact Hm. }
  rewrite IH.
  - cbn [emit tr]. rewrite wt_snoc. cbn. destruct (Nat.eqb_spec k (rq_id r)) as [->|].
    + exfalso. apply (H n); [left; reflexivity|]. exists r. auto.
    + apply app_nil_r.
  - intros m Hm (x & Hx). apply (H m); [right; exact Hm|]. exists x. exact Hx.
Qed.

Lemma emit_all_wt_one ps k n : forall s, ids_inj s -> NoDup (names ps) -> In n (names ps) ->
  held s n k -> wt k (tr (emit_all EWaitStart ps s)) = wt k (tr s) ++ [EWaitStart k].
Proof.
  induction ps as [|p ps IH]; intros s J D Hn Hh; [destruct Hn|].
  change (emit_all EWaitStart (p :: ps) s) with
    (emit_all EWaitStart ps (match active s p with Some r => emit s (EWaitStart (rq_id r)) | None => s end)).
  destruct p as [m|]; cbn [active].
  2: { apply IH; auto. }
  cbn in D, Hn. inversion D as [|? ? Nm D']; subst. destruct Hn as [->|Hn].
  - destruct Hh as (r & Hr & Er). rewrite Hr, Er. rewrite emit_all_wt_other.
    + cbn [emit tr]. rewrite wt_snoc. cbn. rewrite Nat.eqb_refl. reflexivity.
    + intros q Hq Hhq. assert (q = n) as ->; [|exact (Nm Hq)].
      apply (J q n k); [exact Hhq|]. exists r. auto.
  - destruct (slots s m) as [r|] eqn:Hr; [|apply IH; auto].
    rewrite IH; auto. cbn [emit tr]. rewrite wt_snoc. cbn.
    destruct (Nat.eqb_spec k (rq_id r)) as [E|]; [|rewrite app_nil_r; reflexivity].
    exfalso. apply Nm. assert (m = n) as ->; [|exact Hn]. apply (J m n k); [|exact Hh].
    exists r. auto.
Qed.

(** A call that starts the timer of the operations in some variables and returns with
    exactly these variables emptied. *)
Lemma balanced_call L s s1 s' (vs : nat -> Prop) : inv L s -> inv L s' -> balanced s -> weq s s1 ->
  (forall n, {vs n} + {~ vs n}) ->
  (forall k n, vs n -> held s n k -> wt k (tr s1) = wt k (tr s) ++ [EWaitStart k]) ->
  (forall k, (forall n, vs n -> ~ held s n k) -> wt k (tr s1) = wt k (tr s)) ->
  evolves s1 s' -> (forall n, vs n -> slots s' n = None) ->
  (forall n, ~ vs n -> slots s' n = slots s n) -> balanced s'.
Proof.
  intros J J' Ba Q Dec H1 H2 Ev Z U k. destruct (evolves_wt s1 s' Ev k) as (d & A & B).
  rewrite B. assert (N : nd k (tr s1) = nd k (tr s)) by (unfold nd; rewrite (q_tr _ _ Q); reflexivity).
  rewrite N in A. assert (O : ops s' = ops s) by (rewrite (evolves_ops _ _ Ev); apply Q).
  pose proof (nd_cases L s k J) as C. pose proof (nd_cases L s' k J') as C'. rewrite O in C'.
  destruct (held_dec L s k J) as [[n Hn]|Hn].
  - assert (nd k (tr s) = 0) as Z0.
    { destruct C as [[C _]|(_ & _ & _ & C)]; [exact C|]. exfalso. apply (C n Hn). }
    assert (Hk : k < length (ops s)).
    { destruct Hn as (r & Hr & <-). destruct (i_op L s J n r Hr) as (a & l & E & _).
      apply nth_error_Some. congruence. }
    assert (Hl : ~ In k L).
    { intros Hl. destruct (i_lost L s J k Hl) as (X & _). apply (X n Hn). }
    assert (Uq : forall m, held s m k -> m = n).
    { intros m (r' & Hr' & Er'). destruct Hn as (r & Hr & Er). apply (i_inj L s J m r' n r); congruence. }
    rewrite Z0 in A. cbn in A.
    destruct (Dec n) as [V|V].
    + rewrite (H1 k n V Hn), (Ba k), Z0. cbn.
      assert (nd k (tr s') = 1) as E1.
      { destruct C' as [(_ & [X|[X|[m X]]])|(X & _)]; try lia; try contradiction; auto. exfalso.
        destruct (Dec m) as [Vm|Vm].
        - destruct X as (r & Hr & _). rewrite (Z m Vm) in Hr. discriminate.
        - apply Vm. rewrite (Uq m); [exact V|]. destruct X as (r & Hr & Er). exists r.
          rewrite (U m Vm) in Hr. auto. }
      rewrite E1 in *. subst d. reflexivity.
    + rewrite (H2 k), (Ba k), Z0.
      2: { intros m Vm Hm. apply V. rewrite <- (Uq m Hm). exact Vm. }
      assert (nd k (tr s') = 0) as E1.
      { destruct C' as [(X & _)|(_ & _ & _ & X)]; [exact X|]. exfalso. apply (X n).
        destruct Hn as (r & Hr & Er). exists r. rewrite (U n V). auto. }
      rewrite E1 in *. subst d. reflexivity.
  - rewrite (H2 k), (Ba k) by (intros m _; apply Hn).
    assert (nd k (tr s') = nd k (tr s)) as E1.
    { assert (Hn' : forall m, ~ held s' m k).
      { intros m (r & Hr & Er). destruct (Dec m) as [Vm|Vm].
        - rewrite (Z m Vm) in Hr. discriminate.
        - apply (Hn m). exists r. rewrite <- (U m Vm). auto. }
      destruct C as [(X & [Y|[Y|[m Y]]])|(X & X1 & X2 & _)],
               C' as [(X' & [Y'|[Y'|[m' Y']]])|(X' & X1' & X2' & _)];
        solve [lia | contradiction | exfalso; eapply Hn; eauto | exfalso; eapply Hn'; eauto]. }
    rewrite E1 in *. assert (d = 0) as -> by lia. cbn. apply app_nil_r.
Qed.

Lemma balanced_weq s s' : ceq s s' -> balanced s -> balanced s'.
Proof.
  intros [Q W] B k. rewrite W, (B k). unfold nd. rewrite (q_tr _ _ Q). reflexivity.
Qed.

Lemma balanced_tr s s' : tr s' = tr s -> balanced s -> balanced s'.
Proof. intros E B k. rewrite E. apply B. Qed.

Lemma ids_inj_inv L s : inv L s -> ids_inj s.
Proof.
  intros J n n' k (r & Hr & Er) (r' & Hr' & Er'). apply (i_inj L s J n r n' r'); congruence.
Qed.

Lemma wait_balanced sched L n s s' : inv L s -> balanced s -> wait sched n s = Some s' -> balanced s'.
Proof.
  intros J B E. destruct (wait_spec L sched n s J) as (s1 & E1 & Ev & Z & U). rewrite E in E1.
  injection E1 as <-. destruct (slots s n) as [r|] eqn:Hr.
  - assert (Q : weq s (emit s (EWaitStart (rq_id r)))) by (apply emit_weq; intros k; reflexivity).
    assert (J' : inv L s') by (eapply inv_evolves; [exact Ev|]; eapply inv_weq; eauto).
    eapply (balanced_call L s _ s' (fun m => m = n)); eauto.
    + intros m. apply Nat.eq_dec.
    + intros k m -> (r' & Hr' & Er'). cbn [emit tr]. rewrite wt_snoc. cbn.
      assert (k = rq_id r) as -> by congruence. rewrite Nat.eqb_refl. reflexivity.
    + intros k Hk. cbn [emit tr]. rewrite wt_snoc. cbn.
      destruct (Nat.eqb_spec k (rq_id r)) as [->|]; [|apply app_nil_r].
      exfalso. apply (Hk n); [reflexivity|]. exists r. auto.
    + intros m ->. exact Z.
  - assert (J' : inv L s') by (eapply inv_evolves; eauto).
    eapply (balanced_call L s s s' (fun _ => False)); eauto.
    + apply weq_refl.
    + intros k m [].
    + intros m [].
    + intros m _. destruct (Nat.eq_dec m n) as [->|Nm]; [|auto].  rewrite Z, Hr. reflexivity.
Qed.

Lemma wait_all_balanced sched L ps s s' : inv L s -> balanced s -> op_ok (RWaitAll ps) ->
  wait_all sched ps s = Some s' -> balanced s'.
Proof.
  intros J B Ho E.
  destruct (wait_all_spec L sched ps s J (distinct_of_nodup ps Ho)) as (s1 & E1 & Ev & Z & U).
  rewrite E in E1. injection E1 as <-.
  assert (Q : weq s (emit_all EWaitStart ps s)) by (apply emit_all_weq; intros k k'; reflexivity).
  assert (J' : inv L s') by (eapply inv_evolves; [exact Ev|]; eapply inv_weq; eauto).
  eapply (balanced_call L s _ s' (fun m => In m (names ps))); eauto.
  - intros m. apply in_dec, Nat.eq_dec.
  - intros k n Hn Hh. eapply emit_all_wt_one; eauto. eapply ids_inj_inv; eauto.
  - intros k Hk. apply emit_all_wt_other. exact Hk.
  - intros n Hn. apply names_In in Hn. destruct (In_nth_error _ _ Hn) as [i Hi]. eauto.
  - intros n Hn. apply U. intros i Hi. apply Hn, names_In. eapply nth_error_In; eauto.
Qed.

Lemma rrun_balanced sched l : Forall op_ok l -> Forall no_wait_any l ->
  forall L s s' b, inv L s -> starts_match s b -> balanced s -> rrun sched s l = Some s' -> balanced s'.
Proof.
  induction l as [|o l IH]; intros Ho Hn L s s' b J M B E; cbn [rrun] in E; [injection E as <-; exact B|].
  inversion Ho as [|? ? Ho1 Ho2]; subst. inversion Hn as [|? ? Hn1 Hn2]; subst.
  destruct (rstep_spec sched L s b o J M Ho1) as (s1 & E1 & J1 & M1). rewrite E1 in E.
  eapply (IH Ho2 Hn2 _ s1 s' _ J1 M1); [|exact E].
  destruct o as [n bs|n m|n bs|n m|n|n|ps|ps]; cbn [rstep] in E1.
  - destruct (wait sched n s) as [s2|] eqn:W; [|discriminate]. injection E1 as <-.
    apply (balanced_tr s2); [reflexivity|exact (wait_balanced sched L n s s2 J B W)].
  - destruct (Nat.eqb n m) eqn:Nm; [discriminate|].
    destruct (wait sched n s) as [s2|] eqn:W; [|discriminate]. injection E1 as <-.
    apply (balanced_tr s2); [|exact (wait_balanced sched L n s s2 J B W)].
    unfold move_into. rewrite Nm. reflexivity.
  - injection E1 as <-. eapply balanced_tr; [|exact B]. reflexivity.
  - injection E1 as <-. eapply balanced_tr; [|exact B]. unfold move_into. destruct (Nat.eqb n m); reflexivity.
  - exact (wait_balanced sched L n s s1 J B E1).
  - exact (wait_balanced sched L n s s1 J B E1).
  - exact (wait_all_balanced sched L ps s s1 J B Ho1 E1).
  - contradiction.
Qed.

Lemma wait_time_correct sched l s : Forall op_ok l -> Forall no_wait_any l ->
  rrun sched rst0 l = Some s ->
  forall k bs, nth_error (started l) k = Some bs ->
    (finished s k bs /\ wait_calls k (tr s) = [EWaitStart k; EWaitStop k]) \/
    (~ finished s k bs /\ wait_calls k (tr s) = []).
Proof.
  intros Ho Hn E k bs Hk.
  assert (B : balanced s).
  { eapply (rrun_balanced sched l Ho Hn [] rst0 s []); eauto.
    - apply inv0.
    - constructor.
    - intros i. reflexivity. }
  destruct (requests_correct sched l Ho) as (s0 & E0 & R). rewrite E in E0. injection E0 as <-.
  specialize (B k). change (wait_calls k (tr s)) with (wt k (tr s)). rewrite B. clear B.
  assert (F : finished s k bs -> nd k (tr s) = 1).
  { intros (m & _ & F'). unfold nd. rewrite F', filter_app, app_length, nd_msgs. cbn.
    rewrite Nat.eqb_refl. reflexivity. }
  assert (U : underway s k bs -> ~ finished s k bs /\ nd k (tr s) = 0).
  { intros U. split; [apply underway_not_finished, U|]. destruct U as (m & m' & _ & F'). unfold nd.
    rewrite F'. apply nd_msgs. }
  destruct (R k bs Hk) as [A B]. destruct (in_dec Nat.eq_dec k (lost sched rst0 l)) as [X|X].
  - right. destruct (A X) as [Y _]. destruct (U Y) as [P ->]. auto.
  - destruct (B X) as [[Y _]|[Y _]].
    + left. rewrite (F Y). auto.
    + right. destruct (U Y) as [P ->]. auto.
Qed.

(** * Overwriting *)

Lemma nth_error_app1_some {A} (a b : list A) k x : nth_error a k = Some x -> nth_error (a ++ b) k = Some x.
Proof. intros H. rewrite nth_error_app1; auto. apply nth_error_Some. congruence. Qed.

Lemma overwritten_lost sched l k bs : Forall op_ok l -> nth_error (started l) k = Some bs ->
  In k (lost sched rst0 l) -> forall l', Forall op_ok l' ->
  exists s, rrun sched rst0 (l ++ l') = Some s /\ ~ finished s k bs /\ forall n, ~ held s n k.
Proof.
  intros H Hk Hl l' H'. assert (Ha : Forall op_ok (l ++ l')) by (apply Forall_app; auto).
  destruct (requests_correct sched (l ++ l') Ha) as (s & E & R). exists s. split; [exact E|].
  destruct (R k bs) as [A _].
  - unfold started. rewrite flat_map_app. apply nth_error_app1_some, Hk.
  - destruct A as [A B]; [|split; [apply underway_not_finished, A|exact B]].
    destruct (requests_correct sched l H) as (s1 & E1 & _). rewrite (lost_app sched l l' _ s1 E1).
    apply in_or_app. auto.
Qed.

Lemma careful_complete sched l : Forall op_ok l -> careful sched rst0 l ->
  exists s, rrun sched rst0 l = Some s /\
  forall k bs, nth_error (started l) k = Some bs ->
    (finished s k bs /\ forall n, ~ held s n k) \/
    (underway s k bs /\ exists n, held s n k /\ forall n', held s n' k -> n' = n).
Proof.
  intros H C. destruct (requests_correct sched l H) as (s & E & R). exists s. split; [exact E|].
  intros k bs Hk. apply (R k bs Hk). rewrite (lost_careful sched l rst0 C). auto.
Qed.
