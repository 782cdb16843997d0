(** Phase programs compute their lock-step result under every schedule. *)
From Coq Require Import List Arith Bool Lia.
From Verif Require Import Base ContModel FRefModel FRefProof ProtoModel ProtoSpec ProtoProof SerProof NetModel NetSpec.
Import ListNotations.

Local Open Scope nat_scope.
Local Arguments count : simpl never.
Local Arguments Nat.ltb : simpl never.
Local Arguments Nat.leb : simpl never.
Local Arguments Nat.eqb : simpl never.
Local Arguments Nat.sub : simpl never.

Lemma count_nil s : count s [] = 0. Proof. reflexivity. Qed.
Lemma count_cons s x l : count s (x :: l) = (if Nat.eqb s x then 1 else 0) + count s l.
Proof. unfold count. cbn. destruct (Nat.eqb s x); reflexivity. Qed.
Lemma count_app s l1 l2 : count s (l1 ++ l2) = count s l1 + count s l2.
Proof. unfold count. now rewrite filter_app, app_length. Qed.

Lemma count_firstn_lt s l i : nth_error l i = Some s -> count s (firstn i l) < count s l.
Proof.
  revert i. induction l as [|x l IH]; intros [|i] H; cbn in H; try discriminate.
  - injection H as <-. cbn. rewrite count_nil, count_cons, Nat.eqb_refl. lia.
  - cbn. rewrite !count_cons. specialize (IH i H). lia.
Qed.

Lemma all_some_map {A B} (f : A -> option B) (g : A -> B) l :
  (forall x, In x l -> f x = Some (g x)) -> all_some (map f l) = Some (map g l).
Proof.
  induction l as [|x l IH]; intros H; cbn; [reflexivity|].
  rewrite (H x (or_introl eq_refl)), IH; [reflexivity|]. intros y Hy. apply H. now right.
Qed.

Lemma all_some_spec {A} (l : list (option A)) r : all_some l = Some r -> l = map Some r.
Proof.
  revert r. induction l as [|[a|] l IH]; intros r H; cbn in H; try discriminate.
  - injection H as <-. reflexivity.
  - destruct (all_some l) as [q|]; [|discriminate]. injection H as <-. cbn. now rewrite (IH q).
Qed.

Section Net.
Context {St Msg : Type} (n : nat) (prog : list (phase St Msg)).
Notation phase := (phase St Msg).
Notation net := (net St Msg).

Lemma prog_states : forall (pr : list phase) (S0 S' : nat -> St), prog_ok n pr S0 S' ->
  exists T : nat -> nat -> St, T 0 = S0 /\
    (forall t ph, nth_error pr t = Some ph -> phase_ok n ph (T t) (T (S t))) /\
    (forall r, r < n -> T (length pr) r = S' r).
Proof.
  induction pr as [|ph pr IH]; intros S0 S' H; cbn in H.
  - exists (fun _ => S0). split; [reflexivity|]. split; [intros [|t] ph E; discriminate|exact H].
  - destruct H as (S1 & P & H). destruct (IH S1 S' H) as (T & E0 & Ht & He).
    exists (fun t => match t with 0 => S0 | S t => T t end). split; [reflexivity|]. split; [|exact He].
    intros [|t] ph' E; cbn in E.
    + injection E as <-. now rewrite E0.
    + now apply Ht.
Qed.

Context (T : nat -> nat -> St).
Context (HT : forall t ph, nth_error prog t = Some ph -> phase_ok n ph (T t) (T (S t))).

Definition msgs (t s d : nat) : list Msg :=
  match nth_error prog t with Some (Exch p) => msgs_to d (p_sends p s (T t s)) | _ => [] end.
Definition recvs (t d : nat) : list nat :=
  match nth_error prog t with Some (Exch p) => p_recvs p d (T t d) | _ => [] end.

Fixpoint sent (k s d : nat) : list Msg :=
  match k with 0 => [] | S k => sent k s d ++ msgs k s d end.
Fixpoint pst (k d s : nat) : nat :=
  match k with 0 => 0 | S k => pst k d s + count s (recvs k d) end.

Lemma msgs_count t r s : r < n -> s < n -> count s (recvs t r) = length (msgs t s r).
Proof.
  intros Hr Hs. unfold recvs, msgs. destruct (nth_error prog t) as [[f|p|f]|] eqn:E; auto.
  destruct (HT t _ E) as [M _]. now apply (M r Hr).
Qed.

Lemma sent_len k r s : r < n -> s < n -> length (sent k s r) = pst k r s.
Proof.
  intros Hr Hs. induction k as [|k IH]; [reflexivity|].
  cbn. rewrite app_length, IH, msgs_count; auto.
Qed.

Lemma pst_mono k k' r s : k <= k' -> pst k r s <= pst k' r s.
Proof. induction 1; cbn; lia. Qed.

Lemma sent_prefix k k' s d : k <= k' -> exists l, sent k' s d = sent k s d ++ l.
Proof.
  induction 1 as [|k' Hk (l & E)]; [exists []; now rewrite app_nil_r|].
  exists (l ++ msgs k' s d). cbn. now rewrite E, app_assoc.
Qed.

(** How many phases' calls a rank has posted. *)
Definition hi (pc : nat) (inn : option (list (nat * Msg))) : nat :=
  match inn with None => pc | Some _ => S pc end.

Record rinv (r pc : nat) (st : St) (inn : option (list (nat * Msg))) (log : nat -> list Msg)
  (posted : nat -> nat) (arr : nat -> option St) : Prop := {
  ri_pc : pc <= length prog;
  ri_st : st = T pc r;
  ri_in : forall l, inn = Some l -> exists p, nth_error prog pc = Some (Exch p) /\
            NoDup (map fst l) /\ forall i m, In (i, m) l -> recv_msg p (T pc) r i = Some m;
  ri_log : forall d, d < n -> log d = sent (hi pc inn) r d;
  ri_posted : forall s, s < n -> posted s = pst (hi pc inn) r s;
  ri_arr1 : forall t f, t < pc -> nth_error prog t = Some (Coll f) -> arr t = Some (T t r);
  ri_arr2 : forall t a, arr t = Some a -> a = T t r /\ t <= pc }.

Definition ninv (c : net) : Prop := forall r, r < n ->
  rinv r (n_pc c r) (n_st c r) (n_in c r) (n_log c r) (n_posted c r) (fun t => n_arr c t r).

Lemma ninv0 : ninv (net0 (T 0)).
Proof.
  intros r Hr. split; cbn; unfold zero in *; auto; try lia; try discriminate.
Qed.

Definition own (c c' : net) (r : nat) : Prop :=
  n_pc c' r = n_pc c r /\ n_st c' r = n_st c r /\ n_in c' r = n_in c r /\
  (forall d, n_log c' r d = n_log c r d) /\ (forall s, n_posted c' r s = n_posted c r s) /\
  (forall t, n_arr c' t r = n_arr c t r).

Lemma step_frame sy c l c' q : nstep sy n prog c l = Some c' -> q <> nrank l -> own c c' q.
Proof.
  intros E Ne. unfold nstep in E. destruct (Nat.ltb (nrank l) n); [|discriminate].
  destruct (nth_error prog (n_pc c (nrank l))) as [ph|]; [|discriminate].
  destruct c as [pc st inn log posted arr]. unfold nstep1 in E. cbn in *.
  set (r := nrank l) in *. clearbody r.
  destruct ph as [f|p|f]; destruct l; try discriminate; cbn in *;
  repeat match type of E with
  | Some _ = Some _ => injection E as <-
  | (match ?x with _ => _ end) = _ => destruct x eqn:?; try discriminate
  end;
  unfold own; cbn; rewrite ?inc_other, ?upd_other by assumption; repeat split; intros; auto;
  try (destruct (Nat.eqb_spec q r); [congruence|]); auto;
  rewrite ?andb_false_r; auto.
Qed.

Lemma recv_msg_Some (p : p2p St Msg) (S : nat -> St) r i m : recv_msg p S r i = Some m -> i < length (p_recvs p r (S r)).
Proof.
  unfold recv_msg. destruct (nth_error (p_recvs p r (S r)) i) eqn:E; [|discriminate].
  intros _. apply nth_error_Some. congruence.
Qed.

(** What a receive gets. *)
Lemma recv_right (p : p2p St Msg) t r s i sl inn_pc m : r < n -> s < n -> nth_error prog t = Some (Exch p) ->
  nth_error (p_recvs p r (T t r)) i = Some s -> sl = sent inn_pc s r ->
  nth_error sl (pst (S t) r s - count s (p_recvs p r (T t r)) + count s (firstn i (p_recvs p r (T t r)))) = Some m ->
  recv_msg p (T t) r i = Some m.
Proof.
  intros Hr Hs Ep Ei -> En. cbn [pst] in En. unfold recvs in En. rewrite Ep in En.
  replace (pst t r s + count s (p_recvs p r (T t r)) - count s (p_recvs p r (T t r)) +
           count s (firstn i (p_recvs p r (T t r))))
    with (pst t r s + count s (firstn i (p_recvs p r (T t r)))) in En by lia.
  pose proof (count_firstn_lt _ _ _ Ei) as L.
  assert (Hn : nth_error (sent inn_pc s r) (pst t r s + count s (firstn i (p_recvs p r (T t r)))) <> None) by congruence.
  apply nth_error_Some in Hn. rewrite sent_len in Hn by assumption.
  assert (Ht : S t <= inn_pc).
  { destruct (Nat.le_gt_cases (S t) inn_pc) as [|G]; [assumption|].
    pose proof (pst_mono inn_pc t r s ltac:(lia)). lia. }
  destruct (sent_prefix (S t) inn_pc s r Ht) as (l & El). rewrite El in En. cbn [sent] in En.
  rewrite <- app_assoc in En. rewrite nth_error_app2 in En by (rewrite sent_len by assumption; lia).
  rewrite sent_len in En by assumption.
  replace (pst t r s + count s (firstn i (p_recvs p r (T t r))) - pst t r s)
    with (count s (firstn i (p_recvs p r (T t r)))) in En by lia.
  pose proof (msgs_count t r s Hr Hs) as C. unfold recvs in C. rewrite Ep in C.
  rewrite nth_error_app1 in En by lia.
  unfold recv_msg. rewrite Ei. unfold msgs in En. rewrite Ep in En. exact En.
Qed.

Lemma step_own sy c l c' : ninv c -> nstep sy n prog c l = Some c' -> nrank l < n ->
  rinv (nrank l) (n_pc c' (nrank l)) (n_st c' (nrank l)) (n_in c' (nrank l)) (n_log c' (nrank l))
    (n_posted c' (nrank l)) (fun t => n_arr c' t (nrank l)).
Proof.
  intros I E Hr. pose proof (I _ Hr) as R. unfold nstep in E.
  destruct (Nat.ltb (nrank l) n); [|discriminate].
  destruct (nth_error prog (n_pc c (nrank l))) as [ph|] eqn:Ep; [|discriminate].
  pose proof (HT _ _ Ep) as Ok.
  assert (Lt : n_pc c (nrank l) < length prog) by (apply nth_error_Some; congruence).
  destruct R as [R1 R2 R3 R4 R5 R6 R7].
  assert (Other : forall s, s < n -> exists k, n_log c s (nrank l) = sent k s (nrank l)).
  { intros s Hs. exists (hi (n_pc c s) (n_in c s)). now apply (ri_log _ _ _ _ _ _ _ (I s Hs)). }
  assert (Arr : forall q, q < n -> forall t a, n_arr c t q = Some a -> a = T t q /\ t <= n_pc c q).
  { intros q Hq. exact (ri_arr2 _ _ _ _ _ _ _ (I q Hq)). }
  clear I.
  destruct c as [pc st inn log posted arr]. unfold nstep1 in E. cbn in *.
  set (r := nrank l) in *. clearbody r.
  destruct ph as [f|p|f]; destruct l; try discriminate; cbn in Ok.
  - (* local *)
    rewrite R2, (Ok r Hr) in E. injection E as <-. cbn.
    assert (Hin : inn r = None).
    { destruct (inn r) as [l|] eqn:Ei; [|reflexivity].
      destruct (R3 l eq_refl) as (p & Ep' & _). congruence. }
    rewrite inc_same, upd_same. rewrite Hin in *. cbn in *.
    split; auto; try discriminate; cbn.
    + intros d Hd. rewrite R4 by assumption. unfold msgs. rewrite Ep. now rewrite app_nil_r.
    + intros s Hs. rewrite R5 by assumption. unfold recvs. rewrite Ep, count_nil. lia.
    + intros t g Ht Eg. apply (R6 t g); [|exact Eg].
      assert (t <> pc r) by (intros ->; congruence). lia.
    + intros t a Ea. destruct (R7 t a Ea). split; [assumption|lia].
  - (* post *)
    destruct (inn r) eqn:Ei; [discriminate|]. cbn in R4, R5.
    destruct (_ && _); [|discriminate]. injection E as <-. cbn.
    rewrite upd_same, Nat.eqb_refl. split; auto; cbn.
    + intros l' El. injection El as <-. exists p. split; [assumption|].
      split; [constructor|]. intros i m Hi. destruct Hi.
    + intros d Hd. rewrite R4 by assumption. unfold msgs. now rewrite Ep, R2.
    + intros s Hs. rewrite R5 by assumption. unfold recvs. now rewrite Ep, R2.
  - (* a receive completes *)
    destruct (inn r) as [done|] eqn:Ei; [|discriminate].
    destruct (R3 done eq_refl) as (p' & Ep' & Nd & Hm). assert (p' = p) by congruence. subst p'.
    destruct (nth_error (p_recvs p r (st r)) i) as [s|] eqn:Es; [|discriminate].
    destruct (existsb _ done) eqn:Ex; [discriminate|].
    destruct (nth_error (log s r) _) as [m|] eqn:Em; [|discriminate]. injection E as <-. cbn.
    destruct Ok as [Mt _]. destruct (Mt r Hr) as (Ms & _ & _). rewrite R2 in *.
    assert (Hs : s < n) by (apply Ms; eapply nth_error_In; exact Es).
    rewrite upd_same. split; auto; cbn.
    intros l' El. injection El as <-. exists p. split; [assumption|]. split.
    + rewrite map_app. cbn. apply NoDup_app_intro; [assumption|repeat constructor; auto|].
      intros x Hx [Hy|[]]. subst x. apply in_map_iff in Hx. destruct Hx as ((a, b) & Eq & Hin). cbn in Eq. subst a.
      assert (existsb (fun x => Nat.eqb (fst x) i) done = true); [|congruence].
      apply existsb_exists. exists (i, b). split; [assumption|]. apply Nat.eqb_refl.
    + intros j m' Hj. apply in_app_iff in Hj. destruct Hj as [Hj|[Hj|[]]]; [now apply Hm|].
      injection Hj as <- <-. destruct (Other s Hs) as (k & Ek).
      eapply (recv_right p (pc r) r s i _ k m Hr Hs Ep Es Ek).
      rewrite <- Em. f_equal. f_equal. f_equal. now rewrite (R5 s Hs).
  - (* wait *)
    destruct (inn r) as [done|] eqn:Ei; [|discriminate].
    destruct (R3 done eq_refl) as (p' & Ep' & Nd & Hm). assert (p' = p) by congruence. subst p'.
    destruct (Nat.eqb_spec (length done) (length (p_recvs p r (st r)))) as [Le|]; [|discriminate].
    destruct (true && _); [|discriminate]. rewrite R2 in *.
    destruct Ok as [_ Dn]. rewrite (Dn r done Hr) in E by (split; auto). injection E as <-. cbn.
    rewrite inc_same, !upd_same. split; auto; try discriminate; cbn.
    + intros t g Ht Eg. apply (R6 t g); [|exact Eg].
      assert (t <> pc r) by (intros ->; congruence). lia.
    + intros t a Ea. destruct (R7 t a Ea). split; [assumption|lia].
  - (* arrive *)
    destruct (arr (pc r) r) eqn:Ea; [discriminate|]. injection E as <-. cbn.
    split; auto; cbn.
    + intros t g Ht Eg. destruct (Nat.eqb_spec t (pc r)) as [|]; [lia|]. cbn. now apply (R6 t g).
    + intros t a. rewrite Nat.eqb_refl. destruct (Nat.eqb_spec t (pc r)) as [Et|]; cbn.
      * intros Eq. injection Eq as <-. rewrite Et, R2. split; [reflexivity|lia].
      * apply R7.
  - (* leave *)
    destruct (all_some _) as [l|] eqn:Ea; [|discriminate].
    assert (El : l = map (T (pc r)) (seq 0 n)).
    { apply all_some_spec in Ea. revert Ea.
      assert (F : forall q, In q (seq 0 n) -> forall a, arr (pc r) q = Some a -> a = T (pc r) q).
      { intros q Hq a Eq. apply in_seq in Hq. now apply (Arr q ltac:(lia)). }
      clear -F. revert l. induction (seq 0 n) as [|q qs IH]; intros [|a l] H; cbn in H; try discriminate; [reflexivity|].
      injection H as H1 H2. cbn. f_equal.
      - apply F; [now left|exact H1].
      - apply IH; [|exact H2]. intros; apply F; auto. now right. }
    subst l. rewrite (Ok r Hr) in E. injection E as <-. cbn.
    assert (Hin : inn r = None).
    { destruct (inn r) as [l|] eqn:Ei; [|reflexivity].
      destruct (R3 l eq_refl) as (p & Ep' & _). congruence. }
    rewrite inc_same, upd_same. rewrite Hin in *. cbn in *.
    assert (Own : arr (pc r) r = Some (T (pc r) r)).
    { apply all_some_spec in Ea. 
      destruct (arr (pc r) r) as [a|] eqn:Ar; [f_equal; now apply R7|].
      exfalso. assert (In None (map (arr (pc r)) (seq 0 n))).
      { rewrite <- Ar. apply in_map, in_seq. lia. }
      rewrite Ea in H. apply in_map_iff in H. destruct H as (x & Hx & _). discriminate. }
    split; auto; try discriminate; cbn.
    + intros d Hd. rewrite R4 by assumption. unfold msgs. rewrite Ep. now rewrite app_nil_r.
    + intros s Hs. rewrite R5 by assumption. unfold recvs. rewrite Ep, count_nil. lia.
    + intros t g Ht Eg. destruct (Nat.eq_dec t (pc r)) as [->|]; [exact Own|]. apply (R6 t g); [lia|exact Eg].
    + intros t a Ea'. destruct (R7 t a Ea'). split; [assumption|lia].
Qed.

Lemma rinv_ext r pc st inn log posted arr log' posted' arr' :
  (forall d, log' d = log d) -> (forall s, posted' s = posted s) -> (forall t, arr' t = arr t) ->
  rinv r pc st inn log posted arr -> rinv r pc st inn log' posted' arr'.
Proof.
  intros El Ep Ea [R1 R2 R3 R4 R5 R6 R7]. split; auto; intros;
  rewrite ?El, ?Ep, ?Ea in *; eauto.
Qed.

Lemma step_rank sy c l c' : nstep sy n prog c l = Some c' -> nrank l < n.
Proof. unfold nstep. destruct (Nat.ltb_spec (nrank l) n); [auto|discriminate]. Qed.

Lemma ninv_step sy c l c' : ninv c -> nstep sy n prog c l = Some c' -> ninv c'.
Proof.
  intros I E r Hr. destruct (Nat.eq_dec r (nrank l)) as [->|Ne].
  - eapply step_own; eauto.
  - destruct (step_frame sy c l c' r E Ne) as (-> & -> & -> & El & Ep & Ea).
    apply (rinv_ext r _ _ _ (n_log c r) (n_posted c r) (fun t => n_arr c t r)); auto.
Qed.

(** The work done by a rank. *)
Definition cost (r t : nat) : nat := 3 + length (recvs t r).
Definition work (c : net) (r : nat) : nat :=
  nsum (cost r) (seq 0 (n_pc c r)) +
  match n_in c r with Some l => 1 + length l | None => 0 end +
  match n_arr c (n_pc c r) r with Some _ => 1 | None => 0 end.

Lemma nsum_app f l1 l2 : nsum f (l1 ++ l2) = nsum f l1 + nsum f l2.
Proof. induction l1; cbn; lia. Qed.

Lemma nsum_seq_S f k : nsum f (seq 0 (S k)) = nsum f (seq 0 k) + f k.
Proof. rewrite seq_S, nsum_app. cbn. lia. Qed.

Lemma in_bound r pc st inn log posted arr l : rinv r pc st inn log posted arr -> inn = Some l ->
  length l <= length (recvs pc r).
Proof.
  intros R E. destruct (ri_in _ _ _ _ _ _ _ R l E) as (p & Ep & Nd & Hm).
  unfold recvs. rewrite Ep. rewrite <- (map_length fst l), <- (seq_length (length (p_recvs p r (T pc r))) 0).
  apply NoDup_incl_length; [exact Nd|intros i Hi]. apply in_map_iff in Hi.
  destruct Hi as ((j, m) & <- & Hi). apply Hm in Hi. apply recv_msg_Some in Hi. apply in_seq. cbn. lia.
Qed.

Lemma work_le c r : ninv c -> r < n -> work c r <= nsum (cost r) (seq 0 (S (length prog))).
Proof.
  intros I Hr. pose proof (I r Hr) as R.
  assert (M : nsum (cost r) (seq 0 (n_pc c r)) + cost r (n_pc c r) <= nsum (cost r) (seq 0 (S (length prog)))).
  { rewrite <- nsum_seq_S. pose proof (ri_pc _ _ _ _ _ _ _ R).
    replace (S (length prog)) with (S (n_pc c r) + (length prog - n_pc c r)) by lia.
    rewrite seq_app, nsum_app. lia. }
  unfold work. unfold cost in *.
  destruct (n_in c r) as [l|] eqn:Ei; destruct (n_arr c (n_pc c r) r) as [a|] eqn:Ea; try lia.
  - pose proof (in_bound _ _ _ _ _ _ _ l R eq_refl). lia.
  - pose proof (in_bound _ _ _ _ _ _ _ l R eq_refl). lia.
Qed.

Lemma work_frame c c' r : own c c' r -> work c' r = work c r.
Proof.
  intros (Ep & _ & Ei & _ & _ & Ea). unfold work. now rewrite Ep, Ei, Ea.
Qed.

Lemma work_step sy c l c' : ninv c -> nstep sy n prog c l = Some c' -> work c (nrank l) < work c' (nrank l).
Proof.
  intros I E. pose proof (step_rank _ _ _ _ E) as Hr. pose proof (I _ Hr) as R.
  pose proof (ninv_step _ _ _ _ I E _ Hr) as R'.
  unfold nstep in E. destruct (Nat.ltb (nrank l) n); [|discriminate].
  destruct (nth_error prog (n_pc c (nrank l))) as [ph|] eqn:Ep; [|discriminate].
  pose proof (ri_st _ _ _ _ _ _ _ R) as Est.
  pose proof (ri_arr2 _ _ _ _ _ _ _ R) as Harr.
  assert (Hin : forall x, n_in c (nrank l) = Some x -> exists p, ph = Exch p).
  { intros x Ex. destruct (ri_in _ _ _ _ _ _ _ R x Ex) as (p & Ep' & _). exists p. congruence. }
  clear R R'. unfold work.
  destruct c as [pc st inn log posted arr]. unfold nstep1 in E. cbn in *.
  set (r := nrank l) in *. clearbody r.
  destruct ph as [f|p|f]; destruct l; try discriminate.
  - destruct (f r (st r)) as [s|]; [|discriminate]. injection E as <-. cbn.
    rewrite inc_same, nsum_seq_S. pose proof (Nat.le_add_r 3 (length (recvs (pc r) r))) as Lc.
    change (3 + length (recvs (pc r) r)) with (cost r (pc r)) in Lc.
    destruct (inn r) as [x|] eqn:Ei; [destruct (Hin x eq_refl); discriminate|].
    destruct (arr (pc r) r), (arr (S (pc r)) r); lia.
  - destruct (inn r) eqn:Ei; [discriminate|]. destruct (_ && _); [|discriminate]. injection E as <-. cbn.
    rewrite upd_same. cbn. destruct (arr (pc r) r); lia.
  - destruct (inn r) as [x|] eqn:Ei; [|discriminate].
    destruct (nth_error (p_recvs p r (st r)) i) as [s|]; [|discriminate].
    destruct (existsb _ x); [discriminate|].
    destruct (nth_error (log s r) _); [|discriminate]. injection E as <-. cbn.
    rewrite upd_same, app_length. cbn. destruct (arr (pc r) r); lia.
  - destruct (inn r) as [x|] eqn:Ei; [|discriminate].
    destruct (Nat.eqb_spec (length x) (length (p_recvs p r (st r)))) as [Le|]; [|discriminate].
    destruct (true && _); [|discriminate]. destruct (p_done p r (st r) x); [|discriminate].
    injection E as <-. cbn. rewrite inc_same, upd_same, nsum_seq_S.
    assert (Ec : cost r (pc r) = 3 + length x).
    { unfold cost, recvs. now rewrite Ep, <- Est, Le. }
    rewrite Ec.
    destruct (arr (S (pc r)) r) as [a|] eqn:Ea.
    + apply Harr in Ea. lia.
    + destruct (arr (pc r) r); lia.
  - destruct (arr (pc r) r) eqn:Ea; [discriminate|]. injection E as <-. cbn.
    rewrite !Nat.eqb_refl. cbn. lia.
  - destruct (all_some _); [|discriminate]. destruct (f l r); [|discriminate]. injection E as <-. cbn.
    rewrite inc_same, nsum_seq_S. pose proof (Nat.le_add_r 3 (length (recvs (pc r) r))) as Lc.
    change (3 + length (recvs (pc r) r)) with (cost r (pc r)) in Lc.
    destruct (inn r) as [x|] eqn:Ei; [destruct (Hin x eq_refl); discriminate|].
    destruct (arr (pc r) r), (arr (S (pc r)) r); lia.
Qed.

(** Progress: the ranks that are furthest behind can go on. *)
Lemma least_rank (f : nat -> nat) k : 0 < k -> exists r, r < k /\ forall q, q < k -> f r <= f q.
Proof.
  induction k as [|k IH]; intros H; [lia|].
  destruct k as [|k]; [exists 0; split; [lia|intros q Hq; replace q with 0 by lia; lia]|].
  destruct IH as (r & Hr & M); [lia|].
  destruct (Nat.le_gt_cases (f r) (f (S k))).
  - exists r. split; [lia|]. intros q Hq. destruct (Nat.eq_dec q (S k)) as [->|]; [lia|apply M; lia].
  - exists (S k). split; [lia|]. intros q Hq. destruct (Nat.eq_dec q (S k)) as [->|]; [lia|].
    specialize (M q). lia.
Qed.

Lemma rank_dec (P : nat -> bool) : (exists r, r < n /\ P r = true) \/ (forall r, r < n -> P r = false).
Proof.
  destruct (existsb P (seq 0 n)) eqn:E.
  - left. apply existsb_exists in E. destruct E as (r & Hr & E). apply in_seq in Hr. exists r. split; [lia|exact E].
  - right. intros r Hr. destruct (P r) eqn:Er; [|reflexivity].
    assert (existsb P (seq 0 n) = true); [|congruence]. apply existsb_exists. exists r. split; [apply in_seq; lia|exact Er].
Qed.

Lemma list_missing (l : list nat) k : length l < k -> NoDup l -> exists i, i < k /\ ~ In i l.
Proof.
  intros L Nd. destruct (existsb (fun i => negb (existsb (Nat.eqb i) l)) (seq 0 k)) eqn:E.
  - apply existsb_exists in E. destruct E as (i & Hi & E). apply in_seq in Hi. exists i. split; [lia|].
    intros C. apply negb_true_iff in E. assert (existsb (Nat.eqb i) l = true); [|congruence].
    apply existsb_exists. exists i. split; [exact C|apply Nat.eqb_refl].
  - exfalso. assert (incl (seq 0 k) l).
    { intros i Hi. destruct (existsb (Nat.eqb i) l) eqn:Ei.
      - apply existsb_exists in Ei. destruct Ei as (j & Hj & Ej). apply Nat.eqb_eq in Ej. now subst.
      - assert (existsb (fun i => negb (existsb (Nat.eqb i) l)) (seq 0 k) = true); [|congruence].
        apply existsb_exists. exists i. split; [exact Hi|]. now rewrite Ei. }
    apply NoDup_incl_length in H; [|apply seq_NoDup]. rewrite seq_length in H. lia.
Qed.

Lemma progress sy c : ninv c -> (exists r, r < n /\ n_pc c r <> length prog) ->
  exists l c', nstep sy n prog c l = Some c'.
Proof.
  intros I (r0 & Hr0 & Ne0).
  destruct (least_rank (n_pc c) n ltac:(lia)) as (r & Hr & Mn).
  assert (Lt : n_pc c r < length prog).
  { pose proof (Mn r0 Hr0). pose proof (ri_pc _ _ _ _ _ _ _ (I r0 Hr0)). lia. }
  remember (n_pc c r) as t eqn:Et. symmetry in Et.
  destruct (nth_error prog t) as [ph|] eqn:Ep; [|apply nth_error_None in Ep; lia].
  pose proof (HT t ph Ep) as Ok.
  assert (Step : forall l, nrank l < n -> n_pc c (nrank l) = t -> nstep sy n prog c l = nstep1 sy n ph c l (nrank l)).
  { intros l Hl El. unfold nstep. destruct (Nat.ltb_spec (nrank l) n); [|lia]. now rewrite El, Ep. }
  destruct ph as [f|p|f]; cbn in Ok.
  - (* local *)
    exists (NLocal r). rewrite Step by auto. cbn. destruct c as [pc st inn log posted arr]. cbn in *.
    assert (Es : st r = T t r) by (rewrite <- Et; apply (ri_st _ _ _ _ _ _ _ (I r Hr))).
    rewrite Es, (Ok r Hr). eauto.
  - (* messages *)
    destruct Ok as [Mt Dn].
    destruct (rank_dec (fun q => Nat.eqb (n_pc c q) t && match n_in c q with None => true | _ => false end)) as [(q & Hq & Eq)|All].
    + (* somebody has not posted *)
      apply andb_prop in Eq. destruct Eq as [E1 E2]. apply Nat.eqb_eq in E1.
      exists (NPost q). rewrite Step by auto. cbn.
      pose proof (ri_st _ _ _ _ _ _ _ (I q Hq)) as Es. rewrite E1 in Es.
      destruct c as [pc st inn log posted arr]. cbn in *. destruct (inn q); [discriminate|].
      rewrite Es. destruct (Mt q Hq) as (M1 & M2 & _).
      assert (A1 : forallb (fun s => Nat.ltb s n) (p_recvs p q (T t q)) = true).
      { apply forallb_forall. intros s Hs. apply Nat.ltb_lt. auto. }
      assert (A2 : forallb (fun x => Nat.ltb (fst x) n) (p_sends p q (T t q)) = true).
      { apply forallb_forall. intros (d, m) Hs. apply Nat.ltb_lt. cbn. eauto. }
      rewrite A1, A2. cbn. eauto.
    + assert (Hi : forall q, q < n -> S t <= hi (n_pc c q) (n_in c q)).
      { intros q Hq. specialize (All q Hq). specialize (Mn q Hq). unfold hi.
        destruct (n_in c q); [lia|]. rewrite andb_true_r in All. apply Nat.eqb_neq in All. lia. }
      assert (In' : exists done, n_in c r = Some done).
      { specialize (Hi r Hr). destruct (n_in c r) as [x|]; [eauto|]. unfold hi in Hi. lia. }
      destruct In' as (done & Ei).
      pose proof (I r Hr) as R. destruct (ri_in _ _ _ _ _ _ _ R done Ei) as (p' & Ep' & Nd & Hm).
      rewrite Et in Ep', Hm. assert (p' = p) by congruence. subst p'.
      pose proof (in_bound _ _ _ _ _ _ _ done R Ei) as Lb. rewrite Et in Lb. unfold recvs in Lb. rewrite Ep in Lb.
      assert (Es : n_st c r = T t r) by (rewrite <- Et; apply (ri_st _ _ _ _ _ _ _ R)).
      assert (Eh : hi (n_pc c r) (n_in c r) = S t) by (rewrite Ei, Et; reflexivity).
      pose proof (ri_posted _ _ _ _ _ _ _ R) as Po. rewrite Eh in Po.
      pose proof (ri_log _ _ _ _ _ _ _ R) as Lo. rewrite Eh in Lo.
      destruct (Nat.eq_dec (length done) (length (p_recvs p r (T t r)))) as [Le|Nle].
      * (* all received *)
        exists (NWait r). rewrite Step by auto.
        assert (Sy : forallb (fun d => Nat.leb (length (n_log c r d)) (n_posted c d r)) (seq 0 n) = true).
        { apply forallb_forall. intros d Hd. apply in_seq in Hd. assert (Hd' : d < n) by lia. apply Nat.leb_le.
          rewrite (Lo d Hd'), (sent_len (S t) d r Hd' Hr).
          rewrite (ri_posted _ _ _ _ _ _ _ (I d Hd') r Hr). apply pst_mono. now apply Hi. }
        cbn [nrank]. destruct c as [pc st inn log posted arr]. unfold nstep1. cbn in Ei, Es, Sy |- *.
        rewrite Ei, Es, Le, Nat.eqb_refl, Sy, orb_true_r. cbn.
        rewrite (Dn r done Hr). { eauto. }
        split; [exact Nd|]. split; [exact Le|exact Hm].
      * (* a receive can complete *)
        destruct (list_missing (map fst done) (length (p_recvs p r (T t r)))) as (i & Hi' & Ni); [rewrite map_length; lia|exact Nd|].
        destruct (nth_error (p_recvs p r (T t r)) i) as [s|] eqn:Esi; [|apply nth_error_None in Esi; lia].
        exists (NRecv r i). rewrite Step by auto.
        destruct (Mt r Hr) as (M1 & _ & M3).
        assert (Hs : s < n) by (apply M1; eapply nth_error_In; exact Esi).
        assert (Lg : exists m, nth_error (n_log c s r) (n_posted c r s - count s (p_recvs p r (T t r)) + count s (firstn i (p_recvs p r (T t r)))) = Some m).
        { rewrite (ri_log _ _ _ _ _ _ _ (I s Hs) r Hr), (Po s Hs). cbn [pst]. unfold recvs. rewrite Ep.
          pose proof (count_firstn_lt _ _ _ Esi) as Lc.
          destruct (nth_error (sent (hi (n_pc c s) (n_in c s)) s r) _) as [m|] eqn:En; [eauto|]. exfalso.
          apply nth_error_None in En. rewrite sent_len in En by assumption.
          pose proof (pst_mono _ _ r s (Hi s Hs)) as Mo. cbn [pst] in Mo. unfold recvs in Mo. rewrite Ep in Mo. lia. }
        destruct Lg as (m & Em).
        assert (Ex : existsb (fun x => Nat.eqb (fst x) i) done = false).
        { destruct (existsb _ done) eqn:Ex; [|reflexivity]. exfalso. apply existsb_exists in Ex.
          destruct Ex as ((a, b) & Ha & Eb). apply Nat.eqb_eq in Eb. cbn in Eb. subst a. apply Ni.
          apply in_map_iff. exists (i, b). auto. }
        cbn [nrank]. destruct c as [pc st inn log posted arr]. unfold nstep1. cbn in Ei, Es, Em |- *.
        rewrite Ei, Es, Esi, Ex, Em. eauto.
  - (* collective *)
    destruct (rank_dec (fun q => Nat.eqb (n_pc c q) t && match n_arr c t q with None => true | _ => false end)) as [(q & Hq & Eq)|All].
    + apply andb_prop in Eq. destruct Eq as [E1 E2]. apply Nat.eqb_eq in E1.
      exists (NArrive q). rewrite Step by auto. cbn.
      destruct c as [pc st inn log posted arr]. cbn in *. rewrite E1. destruct (arr t q); [discriminate|]. eauto.
    + exists (NLeave r). rewrite Step by auto. cbn [nrank].
      assert (As : all_some (map (n_arr c t) (seq 0 n)) = Some (map (T t) (seq 0 n))).
      { apply all_some_map. intros q Hq. apply in_seq in Hq. assert (Hq' : q < n) by lia.
        specialize (All q Hq'). specialize (Mn q Hq'). pose proof (I q Hq') as R.
        destruct (Nat.eq_dec (n_pc c q) t) as [Eq|Nq].
        - rewrite Eq, Nat.eqb_refl in All. destruct (n_arr c t q) as [a|] eqn:Ea; [|discriminate].
          f_equal. exact (proj1 (ri_arr2 _ _ _ _ _ _ _ R t a Ea)).
        - apply (ri_arr1 _ _ _ _ _ _ _ R t f); [lia|exact Ep]. }
      destruct c as [pc st inn log posted arr]. unfold nstep1. cbn in As |- *.
      cbn in Et. rewrite Et, As, (Ok r Hr). eauto.
Qed.

Theorem net_computes S' : (forall r, r < n -> T (length prog) r = S' r) -> computes n prog (T 0) S'.
Proof.
  intros HE. exists (nsum (fun r => nsum (cost r) (seq 0 (S (length prog)))) (seq 0 n)).
  intros sy ls c R. pose proof (run_inv (nstep sy n prog) ninv (fun s l s' => ninv_step sy s l s') ls _ c ninv0 R) as I.
  split; [|split].
  - etransitivity; [eapply (run_bound (nstep sy n prog) ninv (fun c => nsum (work c) (seq 0 n))); [| |apply ninv0|exact R]|].
    + intros s l s' Is E. split; [eapply ninv_step; eauto|].
      pose proof (step_rank _ _ _ _ E) as Hl.
      apply (nsum_lt _ _ _ (nrank l)); [apply in_seq; lia|eapply work_step; eauto|].
      intros y _. destruct (Nat.eq_dec y (nrank l)) as [->|Ny].
      * apply Nat.lt_le_incl. eapply work_step; eauto.
      * rewrite (work_frame s s' y); [lia|]. eapply step_frame; eauto.
    + intros s Is. apply nsum_le. intros r Hr. apply in_seq in Hr. apply work_le; [exact Is|lia].
    + lia.
  - intros r Hr Er. rewrite (ri_st _ _ _ _ _ _ _ (I r Hr)), Er. now apply HE.
  - intros St' r Hr. destruct (Nat.eq_dec (n_pc c r) (length prog)) as [|Ne]; [assumption|].
    destruct (progress sy c I) as (l & c' & E); [eauto|]. rewrite St' in E. discriminate.
Qed.

End Net.

Theorem prog_computes {St Msg} n (prog : list (phase St Msg)) S S' :
  prog_ok n prog S S' -> computes n prog S S'.
Proof.
  intros H. destruct (prog_states n prog S S' H) as (T & <- & HT & HE).
  now apply net_computes.
Qed.
