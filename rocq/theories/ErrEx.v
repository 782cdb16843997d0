(** When failures of some grids end on all ranks. *)
From Coq Require Import List Arith Bool Lia.
From Verif Require Import ContModel FRefModel ProtoModel ProtoSpec ErrModel ErrSpec ErrProof.
Import ListNotations.

Section Nested.
Context (n G : nat) (mem : nat -> nat -> bool) (fails : nat -> bool).
Notation ST := (fate_before n mem fails).
Hypothesis Hn : forall g h q r, g < h -> h < G -> q < n -> r < n -> fails g = true -> mem g q = true -> mem h q = true -> mem h r = true -> mem g r = true.
Lemma nested_no_wait k : k <= G -> forall r h, r < n -> ST k r <> Waits h.
Proof.
  induction k as [|k IH]; intros Hk r h Hr; [discriminate|]. intros W. assert (Hk' : k <= G) by lia. destruct (ST k r) eqn:E.
  - destruct (mem k r) eqn:M; [|rewrite (fate_skip _ _ _ k r E M) in W; discriminate]. cbn [fate_before] in W. rewrite E, M in W. destruct (forallb _ (seq 0 n)) eqn:F; [destruct (fails k); discriminate|].
    assert (X : exists q, q < n /\ mem k q = true /\ ST k q <> Reads).
    { clear - F. assert (Y : existsb (fun q => negb (implb (mem k q) (reads (ST k q)))) (seq 0 n) = true).
      { revert F. generalize (seq 0 n). induction l as [|a l IH]; cbn; [discriminate|]. destruct (implb (mem k a) (reads (ST k a))); cbn; auto. }
      apply existsb_exists in Y as (q & Hq & Y). apply in_seq in Hq. exists q. split; [lia|]. destruct (mem k q); [|discriminate]. split; [reflexivity|]. destruct (ST k q); cbn in Y; congruence. }
    destruct X as (q & Hq & Mq & N). pose proof (fate_where n mem fails k q) as Z. destruct (ST k q) eqn:Eq; [congruence| |now apply (IH Hk' q g Hq)].
    destruct Z as (L & _ & Mg & Fg & A). assert (Mr : mem g r = true) by (apply (Hn g k q r); auto).
    assert (R : ST g r = Reads) by (apply (fate_reads _ _ _ g k r); auto; lia).
    pose proof (fate_go _ _ _ g r R Mr A) as B. rewrite Fg in B. rewrite (fate_keep _ _ _ (S g) k r) in E by (congruence || lia). congruence.
  - rewrite (fate_keep _ _ _ k (S k) r) in W by (congruence || lia). congruence.
  - now apply (IH Hk' r g Hr).
Qed.
Lemma nested_stopped : (exists q g, q < n /\ ST G q = Stopped g) <-> exists g r, g < G /\ r < n /\ mem g r = true /\ fails g = true.
Proof.
  split.
  - intros (q & g & Hq & E). pose proof (fate_where n mem fails G q) as F. rewrite E in F. exists g, q. tauto.
  - intros (g & r & Hg & Hr & M & F). exists r. destruct (ST G r) eqn:E.
    + assert (R : ST g r = Reads) by (apply (fate_reads _ _ _ g G r); auto; lia). assert (R' : ST (S g) r = Reads) by (apply (fate_reads _ _ _ (S g) G r); auto).
      destruct (fate_cases _ _ _ g r R M) as [[_ B]|B]; [rewrite F in B|]; congruence.
    + eauto.
    + now apply (nested_no_wait G (Nat.le_refl _) r g0 Hr) in E.
Qed.
End Nested.

Lemma finishes_iff n G mem fails P P' : (P <-> P') -> finishes n G mem fails P -> finishes n G mem fails P'.
Proof. intros HP [b H]. exists b. intros rs s E. destruct (H rs s E) as [L X]. split; [exact L|]. intros Q r Hr. destruct (X Q r Hr) as [Y Z]. tauto. Qed.

Theorem err_nested n G mem fails :
  (forall g h q r, g < h -> h < G -> q < n -> r < n -> fails g = true -> mem g q = true -> mem h q = true -> mem h r = true -> mem g r = true) ->
  finishes n G mem fails (exists g r, g < G /\ r < n /\ mem g r = true /\ fails g = true).
Proof.
  intros Hn. eapply finishes_iff; [apply (nested_stopped n G mem fails Hn)|]. apply err_finishes. intros q g Hq. apply (nested_no_wait n G mem fails Hn G); auto.
Qed.
Theorem err_single n G mem fails : (forall g h r, g < G -> h < G -> r < n -> mem g r = true -> mem h r = true -> g = h) ->
  finishes n G mem fails (exists g r, g < G /\ r < n /\ mem g r = true /\ fails g = true).
Proof. intros H. apply err_nested. intros g h q r L Hh Hq _ _ A B _. rewrite (H g h q) in L; auto; lia. Qed.
Theorem err_shared n G mem fails : (forall g r, g < G -> r < n -> mem g r = true) -> finishes n G mem fails (exists g r, g < G /\ r < n /\ mem g r = true /\ fails g = true).
Proof. intros H. apply err_nested. intros g h q r L Hh _ Hr _ _ _ _. apply H; lia. Qed.
Theorem err_none n G mem fails : (forall g, g < G -> fails g = false) -> finishes n G mem fails False.
Proof.
  intros H. eapply finishes_iff; [|apply err_nested].
  - split; [|tauto]. intros (g & r & Hg & _ & _ & F). rewrite (H g Hg) in F. discriminate.
  - intros g h q r L Hh _ _ F. rewrite H in F by lia. discriminate.
Qed.

(** Only one grid fails. *)
Lemma reads_before n mem fails g : (forall h, h < g -> fails h = false) -> forall r, fate_before n mem fails g r = Reads.
Proof.
  induction g as [|g IH]; intros H r; [reflexivity|]. assert (A : forall q, fate_before n mem fails g q = Reads) by (apply IH; auto). destruct (mem g r) eqn:M.
  - rewrite (fate_go n mem fails g r (A r) M) by auto. rewrite H by auto. reflexivity.
  - apply fate_skip; auto.
Qed.
Theorem err_one n G mem fails g : g < G -> fails g = true -> (forall h, h < G -> fails h = true -> h = g) ->
  (hangs n G mem fails <-> exists h q r, g < h /\ h < G /\ q < n /\ r < n /\ mem g q = true /\ mem h q = true /\ mem h r = true /\ mem g r = false).
Proof.
  intros Hg Fg H1. split.
  - intros HH. destruct (existsb (fun h => (g <? h) && existsb (fun q => mem g q && mem h q) (seq 0 n) && existsb (fun r => mem h r && negb (mem g r)) (seq 0 n)) (seq 0 G)) eqn:X.
    + apply existsb_exists in X as (h & Hh & X). apply andb_prop in X as [X X3]. apply andb_prop in X as [X1 X2]. apply in_seq in Hh. apply Nat.ltb_lt in X1.
      apply existsb_exists in X2 as (q & Hq & X2). apply existsb_exists in X3 as (r & Hr & X3). apply in_seq in Hq, Hr. apply andb_prop in X2 as [A B], X3 as [C D]. apply negb_true_iff in D.
      exists h, q, r. repeat split; auto; lia.
    + exfalso. apply (finishes_not_hangs n G mem fails _ (err_nested n G mem fails ltac:(
        intros g' h q r L Hh Hq Hr F A B C; assert (g' = g) as -> by (apply H1; auto; lia);
        destruct (mem g r) eqn:M; [reflexivity|]; exfalso;
        enough (Y : existsb (fun h => (g <? h) && existsb (fun q => mem g q && mem h q) (seq 0 n) && existsb (fun r => mem h r && negb (mem g r)) (seq 0 n)) (seq 0 G) = true) by congruence;
        apply existsb_exists; exists h; split; [apply in_seq; lia|]; apply andb_true_intro; split; [apply andb_true_intro; split; [now apply Nat.ltb_lt|]|];
        apply existsb_exists; [exists q; split; [apply in_seq; lia|now rewrite A, B]|exists r; split; [apply in_seq; lia|now rewrite C, M]])) HH).
  - intros (h & q & r & L & Hh & Hq & Hr & A & B & C & D). apply err_hangs.
    assert (R : forall t, fate_before n mem fails g t = Reads).
    { apply reads_before. intros k Hk. destruct (fails k) eqn:F; [|reflexivity]. assert (k = g) by (apply H1; auto; lia). lia. }
    assert (Q : fate_before n mem fails (S g) q = Stopped g) by (rewrite (fate_go n mem fails g q (R q) A) by auto; now rewrite Fg).
    pose proof (fate_where n mem fails h r) as F. destruct (fate_before n mem fails h r) eqn:E.
    + destruct (fate_cases n mem fails h r E C) as [[Al _]|W].
      * specialize (Al q Hq B). rewrite (fate_keep n mem fails (S g) h q) in Al by (congruence || lia). congruence.
      * exists r, h. split; [exact Hr|]. rewrite (fate_keep n mem fails (S h) G r) by (congruence || lia). exact W.
    + destruct F as (L' & _ & M & F & _). assert (g0 = g) as -> by (apply H1; auto; lia). congruence.
    + exists r, g0. split; [exact Hr|]. rewrite (fate_keep n mem fails h G r) by (congruence || lia). exact E.
Qed.

(** Two grids on three ranks, of which the second is on both; the first cannot be read. *)
Definition ex_mem (g r : nat) : bool := match g with 0 => r <? 2 | _ => 1 <=? r end.
Definition ex_fails (g : nat) : bool := g =? 0.
Lemma ex_hangs : exists n G mem fails, (forall r, r < n -> exists g, g < G /\ mem g r = true) /\ (forall g, g < G -> exists r, r < n /\ mem g r = true) /\ hangs n G mem fails.
Proof.
  exists 3, 2, ex_mem, ex_fails. split; [|split].
  - intros [|[|[|r]]] Hr; try lia; [exists 0|exists 0|exists 1]; split; auto.
  - intros [|[|g]] Hg; try lia; [exists 0|exists 1]; split; auto.
  - apply (err_one 3 2 ex_mem ex_fails 0); auto.
    + intros h Hh F. now apply Nat.eqb_eq in F.
    + exists 1, 1, 2. repeat split; auto.
Qed.
