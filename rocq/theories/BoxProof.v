(** Proofs about boxes (C04). *)
From Coq Require Import List ZArith QArith Qminmax Qabs Bool Lia Lqa.
From Verif Require Import TupleModel BoxModel Base.
Import ListNotations.
Open Scope Q_scope.

(** Specification: a box is the set of points between its bounds, ends included. *)
Definition box_in (x : box) (p : tup Q) : Prop :=
  (c0 (bb x) <= c0 p <= c0 (be x)) /\ (c1 (bb x) <= c1 p <= c1 (be x)) /\
  (c2 (bb x) <= c2 p <= c2 (be x)).

Definition box_subset (x y : box) : Prop := forall p, box_in x p -> box_in y p.

Lemma qlt_true x y : qlt x y = true <-> x < y.
Proof.
  unfold qlt; rewrite negb_true_iff; split; intros H.
  - apply Qnot_le_lt; intros Hc; apply Qle_bool_iff in Hc; congruence.
  - destruct (Qle_bool y x) eqn:E; auto. apply Qle_bool_iff in E; lra.
Qed.

Lemma qlt_false x y : qlt x y = false <-> y <= x.
Proof.
  unfold qlt; rewrite negb_false_iff; apply Qle_bool_iff.
Qed.

Ltac qb := repeat first
  [ rewrite andb_true_iff in * | rewrite orb_true_iff in *
  | rewrite andb_false_iff in * | rewrite orb_false_iff in *
  | rewrite negb_true_iff in * | rewrite negb_false_iff in *
  | rewrite qlt_true in * | rewrite qlt_false in * | rewrite Qle_bool_iff in * ].

Ltac qmm := unfold qmin, qmax in *;
  repeat match goal with
  | |- context [if qlt ?x ?y then _ else _] =>
      let E := fresh "E" in destruct (qlt x y) eqn:E; [apply qlt_true in E|apply qlt_false in E]
  | H : context [if qlt ?x ?y then _ else _] |- _ =>
      let E := fresh "E" in destruct (qlt x y) eqn:E; [apply qlt_true in E|apply qlt_false in E]
  end.

Lemma bempty_true x : bempty x = true <-> forall p, ~ box_in x p.
Proof.
  destruct x as [[b0 b1 b2] [e0 e1 e2]]; unfold bempty, tany; cbn [tget c0 c1 c2 bb be]; qb; split.
  - intros H [p0 p1 p2] Hp; unfold box_in in Hp; cbn in Hp; destruct H as [[H|H]|H]; lra.
  - intros H. destruct (Qlt_le_dec e0 b0) as [|H0]; [auto|].
    destruct (Qlt_le_dec e1 b1) as [|H1]; [auto|].
    destruct (Qlt_le_dec e2 b2) as [|H2]; [auto|].
    exfalso; apply (H (T3 b0 b1 b2)); unfold box_in; cbn; lra.
Qed.

Lemma bempty_false x : bempty x = false <->
  c0 (bb x) <= c0 (be x) /\ c1 (bb x) <= c1 (be x) /\ c2 (bb x) <= c2 (be x).
Proof.
  destruct x as [[b0 b1 b2] [e0 e1 e2]]; unfold bempty, tany; cbn [tget c0 c1 c2 bb be]; qb; tauto.
Qed.

Lemma bcontains_spec x p : bcontains x p = true <-> box_in x p.
Proof.
  destruct x as [[b0 b1 b2] [e0 e1 e2]], p as [p0 p1 p2].
  unfold bcontains, tall, box_in; cbn [tget c0 c1 c2 bb be]; qb; tauto.
Qed.

Lemma box_corner_lo x : bempty x = false -> box_in x (bb x).
Proof. rewrite bempty_false; unfold box_in; lra. Qed.
Lemma box_corner_hi x : bempty x = false -> box_in x (be x).
Proof. rewrite bempty_false; unfold box_in; lra. Qed.

Lemma bincludes_spec x y : bincludes x y = true <-> box_subset y x.
Proof.
  unfold bincludes; rewrite orb_true_iff; destruct (bempty y) eqn:E.
  - split; auto; intros _ p Hp; apply bempty_true with (p := p) in E; contradiction.
  - pose proof (box_corner_lo y E) as Hlo; pose proof (box_corner_hi y E) as Hhi.
    destruct x as [[b0 b1 b2] [e0 e1 e2]], y as [[f0 f1 f2] [g0 g1 g2]].
    unfold tall; cbn [tget c0 c1 c2 bb be] in *; qb; split.
    + intros [H|H]; [discriminate|]. intros [p0 p1 p2]; unfold box_in; cbn; lra.
    + intros H; right. apply H in Hlo; apply H in Hhi; unfold box_in in *; cbn in *; lra.
Qed.

Lemma boverlap_spec x y : boxes_overlap x y = true <-> exists p, box_in x p /\ box_in y p.
Proof.
  unfold boxes_overlap; rewrite !andb_true_iff, !negb_true_iff, !bempty_false.
  destruct x as [[b0 b1 b2] [e0 e1 e2]], y as [[f0 f1 f2] [g0 g1 g2]].
  unfold tall; cbn [tget c0 c1 c2 bb be] in *; qb; split.
  - intros H. exists (T3 (qmax b0 f0) (qmax b1 f1) (qmax b2 f2)).
    unfold box_in; cbn [tget c0 c1 c2 bb be]; qmm; lra.
  - intros [[p0 p1 p2] H]; unfold box_in in H; cbn in H; lra.
Qed.

Lemma bintersect_spec x y p : box_in (intersect_boxes x y) p <-> box_in x p /\ box_in y p.
Proof.
  destruct x as [[b0 b1 b2] [e0 e1 e2]], y as [[f0 f1 f2] [g0 g1 g2]], p as [p0 p1 p2].
  unfold intersect_boxes, box_in, tmake; cbn [tget c0 c1 c2 bb be].
  split; intros H; qmm; lra.
Qed.

Lemma bunion_upper x y : box_subset x (union_boxes x y) /\ box_subset y (union_boxes x y).
Proof.
  unfold union_boxes; destruct (bempty x) eqn:Ex.
  { split; intros p Hp; auto; apply bempty_true with (p := p) in Ex; contradiction. }
  destruct (bempty y) eqn:Ey.
  { split; intros p Hp; auto; apply bempty_true with (p := p) in Ey; contradiction. }
  destruct x as [[b0 b1 b2] [e0 e1 e2]], y as [[f0 f1 f2] [g0 g1 g2]].
  split; intros [p0 p1 p2]; unfold box_in, tmake; cbn [tget c0 c1 c2 bb be]; intros H; qmm; lra.
Qed.

Lemma bunion_least x y z : box_subset x z -> box_subset y z -> box_subset (union_boxes x y) z.
Proof.
  intros Hx Hy; unfold union_boxes; destruct (bempty x) eqn:Ex; [auto|].
  destruct (bempty y) eqn:Ey; [auto|].
  pose proof (Hx _ (box_corner_lo x Ex)) as X1; pose proof (Hx _ (box_corner_hi x Ex)) as X2.
  pose proof (Hy _ (box_corner_lo y Ey)) as Y1; pose proof (Hy _ (box_corner_hi y Ey)) as Y2.
  clear Hx Hy Ex Ey.
  destruct x as [[b0 b1 b2] [e0 e1 e2]], y as [[f0 f1 f2] [g0 g1 g2]], z as [[h0 h1 h2] [i0 i1 i2]].
  intros [p0 p1 p2]; unfold box_in, tmake in *; cbn [tget c0 c1 c2 bb be] in *; intros H; qmm; lra.
Qed.

Lemma bextend_upper x p : box_subset x (extend_box x p) /\ box_in (extend_box x p) p.
Proof.
  unfold extend_box; destruct (bempty x) eqn:Ex; cbn [negb].
  - split; [intros q Hq; apply bempty_true with (p := q) in Ex; contradiction|].
    unfold box_in; cbn; lra.
  - clear Ex; destruct x as [[b0 b1 b2] [e0 e1 e2]], p as [p0 p1 p2].
    split; [intros [q0 q1 q2]|]; unfold box_in, tmake; cbn [tget c0 c1 c2 bb be]; intros; qmm; lra.
Qed.

Lemma bextend_least x p z : box_subset x z -> box_in z p -> box_subset (extend_box x p) z.
Proof.
  intros Hx Hp; unfold extend_box; destruct (bempty x) eqn:Ex; cbn [negb].
  - clear Hx Ex; destruct p as [p0 p1 p2], z as [[h0 h1 h2] [i0 i1 i2]].
    intros [q0 q1 q2]; unfold box_in in *; cbn [tget c0 c1 c2 bb be] in *; lra.
  - pose proof (Hx _ (box_corner_lo x Ex)) as X1; pose proof (Hx _ (box_corner_hi x Ex)) as X2.
    clear Hx Ex.
    destruct x as [[b0 b1 b2] [e0 e1 e2]], p as [p0 p1 p2], z as [[h0 h1 h2] [i0 i1 i2]].
    intros [q0 q1 q2]; unfold box_in, tmake in *; cbn [tget c0 c1 c2 bb be] in *; intros H; qmm; lra.
Qed.

Lemma make_empty_box_empty nd : (0 < nd)%nat -> forall p, ~ box_in (make_empty_box nd) p.
Proof.
  intros Hn p. unfold make_empty_box, box_in, tmake; cbn [c0 be bb].
  destruct (Nat.ltb_spec 0 nd); [|lia]. lra.
Qed.

(** Distance along one coordinate. *)
Definition qdist (a b : Q) : Q := Qabs (a - b).

Ltac qabs := unfold qdist in *;
  repeat match goal with
  | |- context [Qabs ?x] => apply (Qabs_case x); intros
  end.

Lemma bclamp_spec x p : bempty x = false ->
  box_in x (clamp_to_box x p) /\
  (box_in x p -> clamp_to_box x p = p) /\
  (forall q, box_in x q -> forall d, (d < 3)%nat ->
     qdist (tget (clamp_to_box x p) d) (tget p d) <= qdist (tget q d) (tget p d)).
Proof.
  intros E; apply bempty_false in E.
  destruct x as [[b0 b1 b2] [e0 e1 e2]], p as [p0 p1 p2].
  unfold clamp_to_box, box_in, tmake in *; cbn [tget c0 c1 c2 bb be] in *.
  split; [qmm; lra|]. split.
  - intros H; apply tup_eq; cbn [c0 c1 c2]; qmm; auto; lra.
  - intros [q0 q1 q2] Hq d Hd; cbn [c0 c1 c2] in Hq.
    destruct d as [|[|[|d]]]; [..|lia]; cbn [tget c0 c1 c2]; qmm; qabs; lra.
Qed.

Lemma bmove_spec x a p q :
  (forall d, (d < 3)%nat -> tget q d == tget p d + tget a d) ->
  (box_in (move_box x a) q <-> box_in x p).
Proof.
  intros H. pose proof (H 0%nat ltac:(lia)) as H0; pose proof (H 1%nat ltac:(lia)) as H1;
  pose proof (H 2%nat ltac:(lia)) as H2.
  destruct x as [[b0 b1 b2] [e0 e1 e2]], p as [p0 p1 p2], q as [q0 q1 q2], a as [a0 a1 a2].
  unfold move_box, box_in, tmake in *; cbn [tget c0 c1 c2 bb be] in *.
  split; intros; lra.
Qed.

Definition within (p q a : tup Q) : Prop :=
  forall d, (d < 3)%nat -> qdist (tget p d) (tget q d) <= tget a d.

Lemma qdist_le a b r : qdist a b <= r <-> (a - b <= r /\ b - a <= r).
Proof.
  unfold qdist; split; intros H.
  - revert H; apply (Qabs_case (a-b)); intros; lra.
  - apply (Qabs_case (a-b)); intros; lra.
Qed.

Lemma within_unfold p q a : within p q a <->
  (c0 p - c0 q <= c0 a /\ c0 q - c0 p <= c0 a) /\
  (c1 p - c1 q <= c1 a /\ c1 q - c1 p <= c1 a) /\
  (c2 p - c2 q <= c2 a /\ c2 q - c2 p <= c2 a).
Proof.
  unfold within; split.
  - intros H; pose proof (H 0%nat ltac:(lia)) as H0; pose proof (H 1%nat ltac:(lia)) as H1;
    pose proof (H 2%nat ltac:(lia)) as H2; rewrite qdist_le in *; cbn [tget] in *; auto.
  - intros H d Hd; rewrite qdist_le; destruct d as [|[|[|d]]]; [..|lia]; cbn [tget]; tauto.
Qed.

Lemma bgrow_spec x a q : (forall d, (d < 3)%nat -> 0 <= tget a d) ->
  (box_in (grow_box x a) q <-> exists p, box_in x p /\ within q p a).
Proof.
  intros H. pose proof (H 0%nat ltac:(lia)) as H0; pose proof (H 1%nat ltac:(lia)) as H1;
  pose proof (H 2%nat ltac:(lia)) as H2; clear H.
  unfold grow_box; destruct (bempty x) eqn:E.
  - split.
    + intros Hq; apply bempty_true with (p := q) in E; contradiction.
    + intros [p [Hp _]]; apply bempty_true with (p := p) in E; contradiction.
  - pose proof (bclamp_spec x q E) as (Hc & _ & _).
    split.
    + intros Hq; exists (clamp_to_box x q); split; [exact Hc|].
      rewrite within_unfold. apply bempty_false in E. clear Hc.
      destruct x as [[b0 b1 b2] [e0 e1 e2]], q as [q0 q1 q2], a as [a0 a1 a2].
      unfold clamp_to_box, box_in, tmake in *; cbn [tget c0 c1 c2 bb be] in *; qmm; lra.
    + intros [p [Hp Hw]]; rewrite within_unfold in Hw; clear Hc E.
      destruct x as [[b0 b1 b2] [e0 e1 e2]], q as [q0 q1 q2], a as [a0 a1 a2], p as [p0 p1 p2].
      unfold box_in, tmake in *; cbn [tget c0 c1 c2 bb be] in *; lra.
Qed.

Lemma qscale_half f a b q : 0 <= f ->
  ((1#2) * (a + b) - (1#2) * f * (b - a) <= q /\ q <= (1#2) * (a + b) + (1#2) * f * (b - a)) ->
  a <= b ->
  exists p, a <= p /\ p <= b /\ q == (1#2) * (a + b) + f * (p - (1#2) * (a + b)).
Proof.
  intros Hf Hq Hab. destruct (Qeq_dec f 0) as [Z|Z].
  - exists a. rewrite Z in *. split; [lra|]. split; [lra|]. lra.
  - exists ((1#2)*(a+b) + (q - (1#2)*(a+b)) / f).
    set (t := (q - (1#2)*(a+b)) / f).
    assert (Ht : f * t == q - (1#2)*(a+b)) by (unfold t; field; auto).
    assert (Fp : 0 < f) by (destruct (Qlt_le_dec 0 f); auto; exfalso; apply Z; lra).
    assert (- ((1#2) * (b - a)) <= t).
    { apply Qmult_le_l with (z := f); auto. rewrite Ht. nra. }
    assert (t <= (1#2) * (b - a)).
    { apply Qmult_le_l with (z := f); auto. rewrite Ht. nra. }
    split; [lra|]. split; [lra|]. nra.
Qed.

(** Scaling by non-negative factors moves every point of a non-empty box along
    the ray from the centre. *)
Definition scaled (x : box) (f p q : tup Q) : Prop :=
  forall d, (d < 3)%nat ->
    let m := (1#2) * (tget (bb x) d + tget (be x) d) in
    tget q d == m + tget f d * (tget p d - m).

Lemma bscale_spec x f q : bempty x = false -> (forall d, (d < 3)%nat -> 0 <= tget f d) ->
  (box_in (scale_box x f) q <-> exists p, box_in x p /\ scaled x f p q).
Proof.
  intros E H; apply bempty_false in E.
  pose proof (H 0%nat ltac:(lia)) as H0; pose proof (H 1%nat ltac:(lia)) as H1;
  pose proof (H 2%nat ltac:(lia)) as H2; clear H.
  destruct x as [[b0 b1 b2] [e0 e1 e2]], q as [q0 q1 q2], f as [f0 f1 f2].
  unfold scale_box, box_in, tmake, scaled in *; cbn [tget c0 c1 c2 bb be] in *.
  split.
  - intros (Q0 & Q1 & Q2).
    destruct (qscale_half f0 b0 e0 q0 H0 Q0 ltac:(lra)) as (p0 & P0).
    destruct (qscale_half f1 b1 e1 q1 H1 Q1 ltac:(lra)) as (p1 & P1).
    destruct (qscale_half f2 b2 e2 q2 H2 Q2 ltac:(lra)) as (p2 & P2).
    exists (T3 p0 p1 p2); cbn [c0 c1 c2]; split; [lra|].
    intros d Hd; destruct d as [|[|[|d]]]; [..|lia]; cbn [tget c0 c1 c2]; tauto.
  - intros [[p0 p1 p2] [Hp Hs]]; cbn [c0 c1 c2] in Hp.
    pose proof (Hs 0%nat ltac:(lia)) as S0; pose proof (Hs 1%nat ltac:(lia)) as S1;
    pose proof (Hs 2%nat ltac:(lia)) as S2; cbn [tget c0 c1 c2] in *.
    rewrite S0, S1, S2. repeat split; nra.
Qed.

Lemma box_algebra : forall x y,
  (forall p, bcontains x p = true <-> box_in x p) /\
  (bempty x = true <-> forall p, ~ box_in x p) /\
  (bincludes x y = true <-> box_subset y x) /\
  (boxes_overlap x y = true <-> exists p, box_in x p /\ box_in y p) /\
  (forall p, box_in (intersect_boxes x y) p <-> box_in x p /\ box_in y p) /\
  (box_subset x (union_boxes x y) /\ box_subset y (union_boxes x y) /\
   forall z, box_subset x z -> box_subset y z -> box_subset (union_boxes x y) z) /\
  (forall p, box_subset x (extend_box x p) /\ box_in (extend_box x p) p /\
   forall z, box_subset x z -> box_in z p -> box_subset (extend_box x p) z).
Proof.
  intros x y. split; [intros; apply bcontains_spec|]. split; [apply bempty_true|].
  split; [apply bincludes_spec|]. split; [apply boverlap_spec|].
  split; [intros; apply bintersect_spec|].
  pose proof (bunion_upper x y) as [U1 U2].
  split; [split; [exact U1|split; [exact U2|apply bunion_least]]|].
  intros p; pose proof (bextend_upper x p) as [V1 V2].
  split; [exact V1|split; [exact V2|apply bextend_least]].
Qed.

Lemma box_motion : forall x a,
  (forall p q, (forall d, (d < 3)%nat -> tget q d == tget p d + tget a d) ->
     (box_in (move_box x a) q <-> box_in x p)) /\
  ((forall d, (d < 3)%nat -> 0 <= tget a d) ->
     forall q, box_in (grow_box x a) q <-> exists p, box_in x p /\ within q p a) /\
  (bempty x = false -> (forall d, (d < 3)%nat -> 0 <= tget a d) ->
     forall q, box_in (scale_box x a) q <-> exists p, box_in x p /\ scaled x a p q).
Proof.
  intros x a; split; [intros; apply bmove_spec; auto|].
  split; intros; [apply bgrow_spec|apply bscale_spec]; auto.
Qed.
