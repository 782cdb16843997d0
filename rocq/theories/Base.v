(** Shared tactics and small facts used by the proof files. *)
From Coq Require Import List ZArith Bool Lia ZifyBool ZifyNat Permutation.
From Verif Require Import TupleModel RangeModel.
Import ListNotations.
Open Scope Z_scope.

(** Turns boolean comparisons in hypotheses and goal into propositions. *)
Ltac b2p :=
  repeat first
    [ rewrite andb_true_iff in * | rewrite andb_false_iff in *
    | rewrite orb_true_iff in * | rewrite orb_false_iff in *
    | rewrite negb_true_iff in * | rewrite negb_false_iff in *
    | rewrite Z.ltb_lt in * | rewrite Z.ltb_ge in *
    | rewrite Z.leb_le in * | rewrite Z.leb_gt in *
    | rewrite Z.eqb_eq in * | rewrite Z.eqb_neq in *
    | rewrite Nat.eqb_eq in * | rewrite Nat.eqb_neq in *
    | rewrite Nat.ltb_lt in * | rewrite Nat.ltb_ge in *
    | rewrite Nat.leb_le in * | rewrite Nat.leb_gt in * ].

Lemma tup_eq {A} (a b : tup A) :
  c0 a = c0 b -> c1 a = c1 b -> c2 a = c2 b -> a = b.
Proof. destruct a, b; cbn; congruence. Qed.

Lemma tget_tmake {A} (f : nat -> A) d : (d < 3)%nat -> tget (tmake f) d = f d.
Proof.
  intros Hd; destruct d as [|[|[|d]]]; try reflexivity; lia.
Qed.

Lemma tup_ext {A} (a b : tup A) :
  (forall d, (d < 3)%nat -> tget a d = tget b d) -> a = b.
Proof.
  intros H; apply tup_eq;
    [apply (H 0%nat) | apply (H 1%nat) | apply (H 2%nat)]; lia.
Qed.

Lemma tall_spec f : tall f = true <-> (forall d, (d < 3)%nat -> f d = true).
Proof.
  unfold tall; rewrite !andb_true_iff; split.
  - intros [[H0 H1] H2] d Hd.
    destruct d as [|[|[|d]]]; try assumption; lia.
  - intros H; repeat split; apply H; lia.
Qed.

Lemma tany_spec f : tany f = true <-> (exists d, (d < 3)%nat /\ f d = true).
Proof.
  unfold tany; rewrite !orb_true_iff; split.
  - intros [[H0|H1]|H2]; [exists 0%nat|exists 1%nat|exists 2%nat]; split; auto; lia.
  - intros [d [Hd Hf]]; destruct d as [|[|[|d]]]; auto; lia.
Qed.

Lemma teqb_eq a b : teqb a b = true <-> a = b.
Proof.
  unfold teqb; rewrite tall_spec; split.
  - intros H; apply tup_ext; intros d Hd; specialize (H d Hd); lia.
  - intros -> d Hd; lia.
Qed.

Lemma tbeqb_eq a b : tbeqb a b = true <-> a = b.
Proof.
  unfold tbeqb; rewrite tall_spec; split.
  - intros H; apply tup_ext; intros d Hd; specialize (H d Hd).
    apply eqb_prop in H; exact H.
  - intros -> d Hd; apply eqb_reflx.
Qed.

(** Truncating C++ division corrected by the sign of the remainder is floor division. *)
Lemma quot_floor a n : 0 < n ->
  Z.quot a n - (if Z.rem a n <? 0 then 1 else 0) = a / n.
Proof.
  intros Hn.
  pose proof (Z.quot_rem' a n) as H1.
  destruct (Z.ltb_spec (Z.rem a n) 0) as [Hr|Hr].
  - assert (Hb : Z.abs (Z.rem a n) < Z.abs n) by (apply Z.rem_bound_abs; lia).
    apply Z.div_unique with (r := Z.rem a n + n); [left; lia|lia].
  - assert (Hb : Z.abs (Z.rem a n) < Z.abs n) by (apply Z.rem_bound_abs; lia).
    apply Z.div_unique with (r := Z.rem a n); [left; lia|lia].
Qed.

Lemma rem_mod a n : 0 < n ->
  Z.rem a n + n * (if Z.rem a n <? 0 then 1 else 0) = a mod n.
Proof.
  intros Hn.
  pose proof (quot_floor a n Hn) as H.
  pose proof (Z.quot_rem' a n) as H1.
  pose proof (Z.div_mod a n ltac:(lia)) as H2.
  destruct (Z.rem a n <? 0); nia.
Qed.

Lemma zseq_length b n : length (zseq b n) = n.
Proof. revert b; induction n; intros b; cbn; auto. Qed.

Lemma zseq_In b n x : In x (zseq b n) <-> b <= x < b + Z.of_nat n.
Proof.
  revert b; induction n as [|n IH]; intros b; cbn [zseq In].
  - lia.
  - rewrite IH; lia.
Qed.

Lemma zseq_NoDup b n : NoDup (zseq b n).
Proof.
  revert b; induction n as [|n IH]; intros b; cbn; constructor; auto.
  rewrite zseq_In; lia.
Qed.

Lemma zrange_In b e x : In x (zrange b e) <-> b <= x < e.
Proof. unfold zrange; rewrite zseq_In; lia. Qed.

Lemma zrange_NoDup b e : NoDup (zrange b e).
Proof. apply zseq_NoDup. Qed.

Lemma zrange_length b e : length (zrange b e) = Z.to_nat (e - b).
Proof. apply zseq_length. Qed.

Lemma NoDup_app_intro {A} (l1 l2 : list A) :
  NoDup l1 -> NoDup l2 -> (forall x, In x l1 -> ~ In x l2) -> NoDup (l1 ++ l2).
Proof.
  induction l1 as [|a l1 IH]; intros H1 H2 Hd; cbn; auto.
  inversion H1; subst; constructor.
  - rewrite in_app_iff; intros [H|H]; [contradiction|].
    apply (Hd a); cbn; auto.
  - apply IH; auto; intros x Hx; apply Hd; cbn; auto.
Qed.

Lemma NoDup_flat_map {A B} (f : A -> list B) l :
  NoDup l -> (forall a, In a l -> NoDup (f a)) ->
  (forall a a' b, In a l -> In a' l -> In b (f a) -> In b (f a') -> a = a') ->
  NoDup (flat_map f l).
Proof.
  induction l as [|a l IH]; intros Hl Hf Hd; cbn; [constructor|].
  inversion Hl; subst.
  apply NoDup_app_intro.
  - apply Hf; cbn; auto.
  - apply IH; auto.
    + intros x Hx; apply Hf; cbn; auto.
    + intros x x' b Hx Hx'; apply Hd; cbn; auto.
  - intros b Hb Hb'.
    apply in_flat_map in Hb' as [a' [Ha' Hb']].
    assert (a = a') by (eapply Hd; cbn; eauto); subst; contradiction.
Qed.

Lemma NoDup_map_inj {A B} (f : A -> B) l :
  (forall x y, In x l -> In y l -> f x = f y -> x = y) -> NoDup l -> NoDup (map f l).
Proof.
  induction l as [|a l IH]; intros Hf Hl; cbn; [constructor|].
  inversion Hl; subst; constructor.
  - intros H; apply in_map_iff in H as [x [Hx Hin]].
    assert (x = a) by (apply Hf; cbn; auto); subst; contradiction.
  - apply IH; auto; intros x y Hx Hy; apply Hf; cbn; auto.
Qed.

Lemma flat_map_length_const {A B} (f : A -> list B) l n :
  (forall a, In a l -> length (f a) = n) -> length (flat_map f l) = (length l * n)%nat.
Proof.
  induction l as [|a l IH]; intros H; cbn; auto.
  rewrite app_length, (H a), IH; cbn; auto.
  intros x Hx; apply H; cbn; auto.
Qed.
