(** Proofs about the communication protocols. *)
From Coq Require Import List Arith Bool Lia Sorting.Sorted Sorting.Permutation.
From Verif Require Import Base ContModel ContSpec ContProof MapProof OMap PairMap FRefModel
  ProtoModel ProtoSpec.
Import ListNotations.
Local Open Scope nat_scope.
Local Arguments Nat.ltb : simpl never.
Local Arguments Nat.leb : simpl never.
Local Arguments Nat.eqb : simpl never.
Local Arguments Nat.sub : simpl never.
Local Arguments Nat.mul : simpl never.

Lemma run_app {S L} (step : S -> L -> option S) ls1 : forall s ls2,
  run step s (ls1 ++ ls2) =
  match run step s ls1 with Some s' => run step s' ls2 | None => None end.
Proof.
  induction ls1 as [|l ls1 IH]; intros s ls2; cbn; [reflexivity|].
  destruct (step s l); [apply IH|reflexivity].
Qed.

Lemma run_inv {S L} (step : S -> L -> option S) (P : S -> Prop) :
  (forall s l s', P s -> step s l = Some s' -> P s') ->
  forall ls s s', P s -> run step s ls = Some s' -> P s'.
Proof.
  intros H ls. induction ls as [|l ls IH]; intros s s' Ps E; cbn in E.
  - congruence.
  - destruct (step s l) as [s1|] eqn:E1; [|discriminate]. exact (IH s1 s' (H s l s1 Ps E1) E).
Qed.

Lemma inc_same f r : inc f r r = S (f r).
Proof. unfold inc, upd. now rewrite Nat.eqb_refl. Qed.
Lemma inc_other f r q : q <> r -> inc f r q = f q.
Proof. intros H. unfold inc, upd. destruct (Nat.eqb_spec q r); congruence. Qed.
Lemma inc_ge f r q : f q <= inc f r q.
Proof. unfold inc, upd. destruct (Nat.eqb_spec q r); subst; lia. Qed.

(** Sums of functions over ranks. *)
Fixpoint nsum (f : nat -> nat) (l : list nat) : nat :=
  match l with [] => 0 | x :: l => f x + nsum f l end.

Lemma nsum_ext f g l : (forall x, In x l -> f x = g x) -> nsum f l = nsum g l.
Proof.
  induction l as [|x l IH]; intros H; cbn; [reflexivity|].
  rewrite (H x (or_introl eq_refl)), IH; [reflexivity|]. intros; apply H; now right.
Qed.
Lemma nsum_le f g l : (forall x, In x l -> f x <= g x) -> nsum f l <= nsum g l.
Proof.
  induction l as [|x l IH]; intros H; cbn; [lia|].
  pose proof (H x (or_introl eq_refl)). assert (nsum f l <= nsum g l) by (apply IH; intros; apply H; now right).
  lia.
Qed.
Lemma nsum_lt f g l x : In x l -> f x < g x -> (forall y, In y l -> f y <= g y) -> nsum f l < nsum g l.
Proof.
  induction l as [|y l IH]; intros Hi Hx H; [destruct Hi|]. cbn.
  assert (A : nsum f l <= nsum g l) by (apply nsum_le; intros; apply H; now right).
  pose proof (H y (or_introl eq_refl)).
  destruct Hi as [->|Hi]; [lia|].
  assert (nsum f l < nsum g l) by (apply IH; auto; intros; apply H; now right). lia.
Qed.
Lemma nsum_upd1 f r l : NoDup l -> In r l ->
  nsum (inc f r) l = S (nsum f l).
Proof.
  induction l as [|y l IH]; intros Hn Hi; [destruct Hi|]. cbn. inversion Hn; subst.
  destruct Hi as [->|Hi].
  - rewrite inc_same. rewrite (nsum_ext (inc f r) f l); [lia|].
    intros x Hx. apply inc_other. intros ->. contradiction.
  - rewrite IH by assumption. rewrite inc_other; [lia|]. intros ->. contradiction.
Qed.
Lemma nsum_const c l : nsum (fun _ => c) l = c * length l.
Proof. induction l; cbn; lia. Qed.
Lemma nsum_full f l : (forall x, In x l -> f x <= 1) -> length l <= nsum f l ->
  forall x, In x l -> f x = 1.
Proof.
  induction l as [|y l IH]; intros H Hs x Hx; [destruct Hx|]. cbn in Hs.
  pose proof (H y (or_introl eq_refl)).
  assert (A : nsum f l <= length l).
  { rewrite <- (Nat.mul_1_l (length l)), <- nsum_const. apply nsum_le. intros; apply H; now right. }
  destruct Hx as [->|Hx]; [lia|]. apply IH; auto; [intros; apply H; now right|lia].
Qed.
Lemma nsum_pos f l : 0 < nsum f l -> exists x, In x l /\ 0 < f x.
Proof.
  induction l as [|y l IH]; cbn; intros H; [lia|].
  destruct (f y) eqn:E.
  - destruct IH as (x & Hx & Hf); [lia|]. exists x. auto.
  - exists y. split; [auto|lia].
Qed.

(** * The signal *)

Definition others (n : nat) : list nat := seq 1 (n - 1).
Lemma others_In n r : In r (others n) <-> 0 < r < n.
Proof. unfold others. rewrite in_seq. lia. Qed.
Lemma others_NoDup n : NoDup (others n).
Proof. apply seq_NoDup. Qed.
Lemma others_length n : length (others n) = n - 1.
Proof. apply seq_length. Qed.

Definition taken (pc : rpc) (r : nat) : nat :=
  match pc with RTake i => if Nat.ltb r i then 1 else 0 | _ => 0 end.

Record sinv (n : nat) (s : sig) : Prop := {
  si_sent0 : forall r, 0 < r < n -> g_sent0 s r = g_started s r;
  si_sent1 : forall r, 0 < r < n -> g_sent1 s r = g_started s r;
  si_done : forall r, 0 < r < n -> g_done s r <= g_recv1 s r;
  si_use : forall r, g_done s r <= g_started s r <= S (g_done s r);
  si_recv0 : forall r, 0 < r < n -> g_done s 0 <= g_recv0 s r <= S (g_done s 0);
  si_recv0s : forall r, 0 < r < n -> g_recv0 s r <= g_started s r;
  si_nc : g_nc s = nsum (fun r => g_recv0 s r - g_done s 0) (others n);
  si_recv1 : forall r, 0 < r < n -> g_recv1 s r = g_done s 0 + taken (g_pc s) r;
  si_take : forall i, g_pc s = RTake i ->
    0 < i /\ i <= S (n - 1) /\ forall r, 0 < r < n -> g_recv0 s r = S (g_done s 0);
  si_root : g_pc s <> ROut -> g_started s 0 = S (g_done s 0) }.

Lemma sinv0 n : sinv n sig0.
Proof.
  split; cbn; unfold zero; intros; try lia; try discriminate.
  - induction (others n); cbn; lia.
  - now destruct H.
Qed.

Ltac bsplit := repeat match goal with
  | H : (_ && _)%bool = true |- _ => apply andb_prop in H; destruct H
  | H : Nat.ltb _ _ = true |- _ => apply Nat.ltb_lt in H
  | H : Nat.leb _ _ = true |- _ => apply Nat.leb_le in H
  | H : Nat.eqb _ _ = true |- _ => apply Nat.eqb_eq in H
  end.

(** Rewrites the updates away, splitting on whether the index is the updated one. *)
Ltac incs := unfold inc, upd in *; repeat match goal with
  | |- context [Nat.eqb ?a ?b] => destruct (Nat.eqb_spec a b); subst
  | H : context [Nat.eqb ?a ?b] |- _ => destruct (Nat.eqb_spec a b); subst
  end.

Lemma sinv_step n s l s' : sinv n s -> sstep n s l = Some s' -> sinv n s'.
Proof.
  intros [I1 I2 I3 I4 I5 I6 I7 I8 I9 I10].
  destruct s as [started done sent0 recv0 sent1 recv1 pc nc]. cbn in *.
  destruct l as [r|r| |q| | |]; cbn; intros E.
  - (* SStart *)
    destruct (Nat.ltb r n && Nat.eqb (started r) (done r)) eqn:C; [|discriminate]. bsplit.
    pose proof (I4 0) as U0. pose proof (I4 r) as Ur.
    destruct (Nat.eqb_spec r 0) as [->|Nz]; injection E as <-; split; cbn.
    + intros q Hq. specialize (I1 q Hq). incs; lia.
    + intros q Hq. specialize (I2 q Hq). incs; lia.
    + exact I3.
    + intros q. specialize (I4 q). incs; lia.
    + exact I5.
    + intros q Hq. specialize (I6 q Hq). incs; lia.
    + exact I7.
    + exact I8.
    + exact I9.
    + intros Hp. specialize (I10 Hp). lia.
    + intros q Hq. specialize (I1 q Hq). incs; lia.
    + intros q Hq. specialize (I2 q Hq). incs; lia.
    + exact I3.
    + intros q. specialize (I4 q). incs; lia.
    + exact I5.
    + intros q Hq. specialize (I6 q Hq). incs; lia.
    + exact I7.
    + exact I8.
    + exact I9.
    + intros Hp. specialize (I10 Hp). incs; lia.
  - (* STest *)
    match type of E with (if ?c then _ else _) = _ => destruct c eqn:C; [|discriminate] end. bsplit.
    injection E as <-.
    assert (D0 : inc done r 0 = done 0) by (apply inc_other; lia).
    split; cbn; rewrite ?D0; auto.
    + intros q Hq. specialize (I3 q Hq). specialize (I2 q Hq). incs; lia.
    + intros q. specialize (I4 q). incs; lia.
  - (* SCall *)
    destruct pc; try discriminate.
    match type of E with (if ?c then _ else _) = _ => destruct c eqn:C; [|discriminate] end. bsplit.
    injection E as <-. pose proof (I4 0). split; cbn in *; auto; try discriminate. intros; lia.
  - (* SProbe *)
    destruct pc; try discriminate.
    match type of E with (if ?c then _ else _) = _ => destruct c eqn:C; [|discriminate] end. bsplit.
    injection E as <-. split; cbn in *; auto; try discriminate.
    + intros r Hr. specialize (I5 r Hr). specialize (I6 r Hr). specialize (I1 r Hr).
      specialize (I8 r Hr). specialize (I3 r Hr). pose proof (I4 r). incs; lia.
    + intros r Hr. specialize (I6 r Hr). specialize (I1 r Hr). incs; lia.
    + rewrite I7. rewrite <- (nsum_upd1 (fun r => recv0 r - done 0) q (others n)).
      * apply nsum_ext. intros r Hr. apply others_In in Hr. pose proof (I5 r Hr). incs; lia.
      * apply others_NoDup.
      * apply others_In. lia.
  - (* SMiss *)
    destruct pc; try discriminate.
    match type of E with (if ?c then _ else _) = _ => destruct c eqn:C; [|discriminate] end. bsplit.
    injection E as <-. split; cbn in *; auto; try discriminate.
  - (* SAll *)
    destruct pc; try discriminate.
    match type of E with (if ?c then _ else _) = _ => destruct c eqn:C; [|discriminate] end. bsplit.
    injection E as <-. split; cbn in *; auto; try discriminate.
    + intros r Hr. specialize (I8 r Hr). destruct (Nat.ltb_spec r 1); lia.
    + intros i Hi. injection Hi as <-. split; [lia|]. split; [lia|]. intros r Hr.
      assert (A : forall x, In x (others n) -> recv0 x - done 0 = 1).
      { apply nsum_full.
        - intros x Hx. apply others_In in Hx. specialize (I5 x Hx). lia.
        - rewrite others_length. lia. }
      specialize (A r (proj2 (others_In n r) Hr)). lia.
    + intros _. apply I10. discriminate.
  - (* STake *)
    destruct pc as [| |i]; try discriminate.
    destruct (I9 i eq_refl) as (P1 & P2 & P3).
    destruct (Nat.ltb_spec i n) as [Hi|Hi].
    + match type of E with (if ?c then _ else _) = _ => destruct c eqn:C; [|discriminate] end. bsplit.
      injection E as <-. split; cbn in *; auto; try discriminate.
      * intros r Hr. specialize (I3 r Hr). incs; lia.
      * intros r Hr. specialize (I8 r Hr). destruct (Nat.ltb_spec r i), (Nat.ltb_spec r (S i)); incs; lia.
      * intros j Hj. injection Hj as <-. split; [lia|]. split; [lia|]. exact P3.
      * intros _. apply I10. discriminate.
    + injection E as <-. assert (R0 : started 0 = S (done 0)) by (apply I10; discriminate).
      assert (D0 : inc done 0 0 = S (done 0)) by apply inc_same.
      split; cbn in *; rewrite ?D0; auto; try discriminate.
      * intros r Hr. specialize (I3 r Hr). incs; lia.
      * intros r. specialize (I4 r). incs; lia.
      * intros r Hr. specialize (P3 r Hr). lia.
      * rewrite (nsum_ext _ (fun _ => 0)); [now rewrite nsum_const|].
        intros r Hr. apply others_In in Hr. specialize (P3 r Hr). lia.
      * intros r Hr. specialize (I8 r Hr). destruct (Nat.ltb_spec r i); lia.
      * intros C0. now destruct C0.
Qed.

Lemma sinv_run n ls s : run (sstep n) sig0 ls = Some s -> sinv n s.
Proof. apply (run_inv (sstep n) (sinv n)); [apply sinv_step|apply sinv0]. Qed.

Lemma sinv_safe n s r q : sinv n s -> r < n -> q < n -> g_done s r <= g_started s q.
Proof.
  intros [I1 I2 I3 I4 I5 I6 I7 I8 I9 I10] Hr Hq.
  pose proof (I4 0). pose proof (I4 q). pose proof (I4 r).
  (* how far the root is bounds everyone *)
  assert (A : g_done s r <= g_done s 0 \/
              (g_done s r <= S (g_done s 0) /\ g_started s 0 = S (g_done s 0) /\
               forall x, 0 < x < n -> g_recv0 s x = S (g_done s 0))).
  { destruct r as [|r]; [left; lia|].
    pose proof (I3 (S r) ltac:(lia)) as D. rewrite (I8 (S r) ltac:(lia)) in D.
    destruct (g_pc s) as [| |i] eqn:Epc; cbn in D; try (left; lia).
    destruct (Nat.ltb_spec (S r) i); [|left; lia]. right.
    destruct (I9 i eq_refl) as (_ & _ & P). split; [lia|]. split; [|exact P].
    apply I10. congruence. }
  destruct q as [|q].
  - destruct A as [A|(A & B & _)]; lia.
  - pose proof (I6 (S q) ltac:(lia)). pose proof (I5 (S q) ltac:(lia)).
    destruct A as [A|(A & B & C)]; [lia|]. specialize (C (S q) ltac:(lia)). lia.
Qed.

Theorem signal_safe n ls s r q : run (sstep n) sig0 ls = Some s -> r < n -> q < n ->
  g_done s r <= g_started s q.
Proof. intros H. apply sinv_safe. eapply sinv_run; eauto. Qed.

(** What is left to do, for the liveness argument. *)
Definition smu (n : nat) (s : sig) : nat :=
  nsum (fun r => g_started s r - g_done s r) (seq 0 n) * (3 * n + 10) +
  match g_pc s with
  | ROut => 2 * n + 5 - g_nc s
  | RPoll => 2 * n + 4 - g_nc s
  | RTake i => n + 1 - i
  end.

Definition progress_label (l : slabel) : bool :=
  match l with SStart _ | SMiss => false | _ => true end.

Lemma pending_dec n started done r :
  r < n -> done r < started r ->
  nsum (fun x => started x - inc done r x) (seq 0 n) <
  nsum (fun x => started x - done x) (seq 0 n).
Proof.
  intros Hr Hd. apply (nsum_lt _ _ _ r).
  - apply in_seq. lia.
  - rewrite inc_same. lia.
  - intros y _. pose proof (inc_ge done r y). lia.
Qed.

Lemma signal_live_step n s m : sinv n s -> (forall r, r < n -> m <= g_started s r) ->
  (exists r, r < n /\ g_done s r < m) ->
  exists l s', progress_label l = true /\ sstep n s l = Some s' /\ smu n s' < smu n s.
Proof.
  intros [I1 I2 I3 I4 I5 I6 I7 I8 I9 I10] Hm (r & Hr & Hd).
  assert (Hnc : g_nc s <= n - 1).
  { rewrite I7, <- others_length, <- (Nat.mul_1_l (length _)), <- nsum_const.
    apply nsum_le. intros x Hx. apply others_In in Hx. specialize (I5 x Hx). lia. }
  destruct s as [started done sent0 recv0 sent1 recv1 pc nc]. cbn in *.
  pose proof (I4 0) as U0. pose proof (Hm 0 ltac:(lia)) as M0.
  destruct (Nat.lt_ge_cases (done 0) m) as [H0|H0].
  - (* the root is behind *)
    assert (K : S (done 0) = m) by lia.
    destruct pc as [| |i].
    + exists SCall. eexists. split; [reflexivity|]. cbn.
      destruct (Nat.ltb_spec (done 0) (started 0)); [|lia].
      split; [reflexivity|]. unfold smu. cbn. lia.
    + destruct (Nat.lt_ge_cases nc (n - 1)) as [Hlt|Hge].
      * assert (Ex : exists q, 0 < q < n /\ recv0 q = done 0).
        { destruct (existsb (fun q => Nat.eqb (recv0 q) (done 0)) (others n)) eqn:E.
          - apply existsb_exists in E. destruct E as (q & Hq & Eq). apply others_In in Hq.
            exists q. split; [exact Hq|]. now apply Nat.eqb_eq.
          - exfalso. assert (n - 1 <= nc); [|lia].
            rewrite I7, <- others_length, <- (Nat.mul_1_l (length _)), <- nsum_const.
            apply nsum_le. intros x Hx. apply others_In in Hx as Hx'. specialize (I5 x Hx').
            assert (recv0 x <> done 0); [|lia]. intros C.
            assert (existsb (fun q => Nat.eqb (recv0 q) (done 0)) (others n) = true); [|congruence].
            apply existsb_exists. exists x. split; [exact Hx|]. now apply Nat.eqb_eq. }
        destruct Ex as (q & Hq & Eq).
        exists (SProbe q). eexists. split; [reflexivity|]. cbn.
        pose proof (Hm q ltac:(lia)). specialize (I1 q Hq).
        destruct (Nat.ltb_spec nc (n - 1)); [|lia].
        destruct q as [|q]; [lia|]. cbn.
        destruct (Nat.ltb_spec (S q) n); [|lia].
        destruct (Nat.ltb_spec (recv0 (S q)) (sent0 (S q))); [|lia].
        split; [reflexivity|]. unfold smu. cbn. lia.
      * exists SAll. eexists. split; [reflexivity|]. cbn.
        destruct (Nat.eqb_spec nc (n - 1)); [|lia].
        split; [reflexivity|]. unfold smu. cbn. lia.
    + destruct (I9 i eq_refl) as (P1 & P2 & P3).
      exists STake. destruct (Nat.lt_ge_cases i n) as [Hi|Hi].
      * eexists. split; [reflexivity|]. cbn.
        destruct (Nat.ltb_spec i n); [|lia].
        specialize (I8 i ltac:(lia)). cbn in I8. rewrite Nat.ltb_irrefl in I8.
        specialize (I2 i ltac:(lia)). specialize (P3 i ltac:(lia)). specialize (I6 i ltac:(lia)).
        destruct (Nat.ltb_spec (recv1 i) (sent1 i)); [|lia].
        split; [reflexivity|]. unfold smu. cbn. lia.
      * eexists. split; [reflexivity|]. cbn.
        destruct (Nat.ltb_spec i n); [lia|].
        split; [reflexivity|]. unfold smu. cbn [g_started g_done g_pc g_nc].
        pose proof (pending_dec n started done 0 ltac:(lia) ltac:(lia)) as PD.
        assert (forall a b, a < b -> a * (3 * n + 10) + (3 * n + 10) <= b * (3 * n + 10)) as Mul.
        { intros a b Hab. rewrite <- (Nat.mul_1_l (3 * n + 10)) at 2.
          rewrite <- Nat.mul_add_distr_r. apply Nat.mul_le_mono_r. lia. }
        specialize (Mul _ _ PD). lia.
  - (* some other rank has only to test *)
    destruct r as [|r]; [lia|].
    specialize (I8 (S r) ltac:(lia)). specialize (I2 (S r) ltac:(lia)).
    pose proof (I4 (S r)). pose proof (Hm (S r) Hr).
    exists (STest (S r)). eexists. split; [reflexivity|].
    cbn [sstep]. destruct (Nat.ltb_spec 0 (S r)); [|lia].
    destruct (Nat.ltb_spec (S r) n); [|lia].
    destruct (Nat.ltb_spec (done (S r)) (started (S r))); [|lia].
    destruct (Nat.leb_spec (sent1 (S r)) (recv1 (S r))); [|lia]. cbn [andb].
    split; [reflexivity|]. unfold smu. cbn [g_started g_done g_pc g_nc].
    pose proof (pending_dec n started done (S r) ltac:(lia) ltac:(lia)) as PD.
    assert (forall a b, a < b -> a * (3 * n + 10) + (3 * n + 10) <= b * (3 * n + 10)) as Mul.
    { intros a b Hab. rewrite <- (Nat.mul_1_l (3 * n + 10)) at 2.
      rewrite <- Nat.mul_add_distr_r. apply Nat.mul_le_mono_r. lia. }
    specialize (Mul _ _ PD). lia.
Qed.

Lemma progress_started n s l s' : progress_label l = true -> sstep n s l = Some s' ->
  forall r, g_started s' r = g_started s r.
Proof.
  destruct s as [started done sent0 recv0 sent1 recv1 pc nc].
  destruct l; cbn; intros P E r0; try discriminate;
  destruct pc; try discriminate;
  repeat match type of E with (if ?c then _ else _) = _ => destruct c; try discriminate end;
  injection E as <-; reflexivity.
Qed.

Lemma all_done_dec n s m : (forall r, r < n -> m <= g_done s r) \/ (exists r, r < n /\ g_done s r < m).
Proof.
  destruct (forallb (fun r => Nat.leb m (g_done s r)) (seq 0 n)) eqn:E.
  - left. intros r Hr. rewrite forallb_forall in E.
    apply Nat.leb_le, E, in_seq. lia.
  - right.
    assert (X : exists r, In r (seq 0 n) /\ Nat.leb m (g_done s r) = false).
    { clear -E. induction (seq 0 n) as [|x l IH]; cbn in E; [discriminate|].
      destruct (Nat.leb m (g_done s x)) eqn:Ex.
      - destruct (IH E) as (r & Hr & Er). exists r. split; [now right|exact Er].
      - exists x. split; [now left|exact Ex]. }
    destruct X as (r & Hr & Er). apply in_seq in Hr. apply Nat.leb_gt in Er. exists r. lia.
Qed.

Lemma signal_live_inv n m : forall k s, smu n s < k -> sinv n s ->
  (forall r, r < n -> m <= g_started s r) ->
  exists ls s', forallb progress_label ls = true /\ run (sstep n) s ls = Some s' /\
    forall r, r < n -> m <= g_done s' r.
Proof.
  induction k as [|k IH]; intros s Hk I Hm; [lia|].
  destruct (all_done_dec n s m) as [A|B].
  - exists [], s. auto.
  - destruct (signal_live_step n s m I Hm B) as (l & s1 & P & E & D).
    destruct (IH s1) as (ls & s' & Pl & R & F).
    + lia.
    + eapply sinv_step; eauto.
    + intros r Hr. rewrite (progress_started n s l s1 P E). auto.
    + exists (l :: ls), s'. cbn. rewrite P, Pl, E. auto.
Qed.

Theorem signal_live n ls s m : run (sstep n) sig0 ls = Some s ->
  (forall r, r < n -> m <= g_started s r) ->
  exists ls' s', existsb is_start ls' = false /\ run (sstep n) s ls' = Some s' /\
    forall r, r < n -> m <= g_done s' r.
Proof.
  intros R Hm. destruct (signal_live_inv n m (S (smu n s)) s) as (ls' & s' & P & E & F).
  - lia.
  - eapply sinv_run; eauto.
  - exact Hm.
  - exists ls', s'. split; [|auto]. clear -P. induction ls' as [|l ls' IH]; [reflexivity|].
    cbn in *. apply andb_prop in P. destruct P as [P1 P2]. rewrite IH by exact P2.
    destruct l; cbn in *; congruence.
Qed.
