(** Proofs about the numeric kernels (C52, C53). *)
From Coq Require Import Reals Lra Psatz.
From Verif Require Import TupleModel MathModel.
Open Scope R_scope.

(** Specification: evaluation of polynomials. *)
Definition poly1 (a b : R) (u : R) : R := a + b * u.
Definition poly3 (a b c d : R) (u : R) : R := a + b * u + c * u^2 + d * u^3.

Definition lin_comb2 (w : r2) (f : R -> R) : R := x0 w * f 0 + x1 w * f 1.
Definition cub_comb (w : r4) (f : R -> R) : R :=
  w0 w * f (-1) + w1 w * f 0 + w2 w * f 1 + w3 w * f 2.

Lemma interp_linear_props : forall u,
  x0 (interp_linear u) + x1 (interp_linear u) = 1 /\
  (forall a b, lin_comb2 (interp_linear u) (poly1 a b) = poly1 a b u) /\
  interp_linear 0 = R2 1 0 /\ interp_linear 1 = R2 0 1.
Proof.
  intros u; unfold interp_linear, lin_comb2, poly1; cbn [x0 x1].
  split; [ring|]. split; [intros; ring|]. split; f_equal; ring.
Qed.

Lemma interp_cubic_props : forall u,
  w0 (interp_cubic u) + w1 (interp_cubic u) + w2 (interp_cubic u) + w3 (interp_cubic u) = 1 /\
  (forall a b c d, cub_comb (interp_cubic u) (poly3 a b c d) = poly3 a b c d u) /\
  interp_cubic (-1) = R4 1 0 0 0 /\ interp_cubic 0 = R4 0 1 0 0 /\
  interp_cubic 1 = R4 0 0 1 0 /\ interp_cubic 2 = R4 0 0 0 1.
Proof.
  intros u; unfold interp_cubic, cub_comb, poly3; cbn [w0 w1 w2 w3].
  split; [field|]. split; [intros; field|].
  split; [f_equal; lra|]. split; [f_equal; lra|]. split; f_equal; lra.
Qed.

(** Closed forms of the derivative weights. *)
Lemma inv_sqrt3_sq : (1 / sqrt 3) * (1 / sqrt 3) = 1/3.
Proof.
  assert (H : sqrt 3 * sqrt 3 = 3) by (apply sqrt_sqrt; lra).
  assert (Hn : sqrt 3 <> 0) by (intros E; rewrite E in H; lra).
  apply Rmult_eq_reg_r with (sqrt 3 * sqrt 3); [|rewrite H; lra].
  rewrite H at 2. field_simplify; [lra|auto].
Qed.

Lemma interp_cubic_deriv_closed u : interp_cubic_deriv u =
  R4 (-(u^2 - 2*u + 2/3)/2) ((3*u^2 - 4*u - 1)/2) (-(3*u^2 - 2*u - 2)/2) ((u^2 - 1/3)/2).
Proof.
  pose proof inv_sqrt3_sq as H3.
  assert (H7 : sqrt 7 * sqrt 7 = 7) by (apply sqrt_sqrt; lra).
  unfold interp_cubic_deriv.
  assert (Hm : (-1) / sqrt 3 = - (1 / sqrt 3)).
  { unfold Rdiv. ring. }
  rewrite Hm. set (s := 1 / sqrt 3) in *. set (t := sqrt 7) in *. clearbody s t.
  f_equal; nra.
Qed.

Lemma interp_linear_deriv_is u :
  derivable_pt_lim (fun v => x0 (interp_linear v)) u (x0 (interp_linear_deriv u)) /\
  derivable_pt_lim (fun v => x1 (interp_linear v)) u (x1 (interp_linear_deriv u)).
Proof.
  split; unfold interp_linear, interp_linear_deriv; cbn [x0 x1].
  - replace (-1) with (0 - 1) by ring.
    apply (derivable_pt_lim_minus (fct_cte 1) id u 0 1);
      [apply derivable_pt_lim_const | apply derivable_pt_lim_id].
  - apply derivable_pt_lim_id.
Qed.

Lemma deriv_cubic_poly a b c d u :
  derivable_pt_lim (poly3 a b c d) u (b + 2 * c * u + 3 * d * u^2).
Proof.
  unfold poly3.
  assert (P1 : derivable_pt_lim (fun v => b * v) u (b * 1)).
  { apply (derivable_pt_lim_scal id b u 1). apply derivable_pt_lim_id. }
  assert (P2 : derivable_pt_lim (fun v => c * v^2) u (c * (INR 2 * u^1))).
  { apply (derivable_pt_lim_scal (fun v => v^2) c u). apply (derivable_pt_lim_pow u 2). }
  assert (P3 : derivable_pt_lim (fun v => d * v^3) u (d * (INR 3 * u^2))).
  { apply (derivable_pt_lim_scal (fun v => v^3) d u). apply (derivable_pt_lim_pow u 3). }
  assert (P0 : derivable_pt_lim (fun _ : R => a) u 0) by apply derivable_pt_lim_const.
  pose proof (derivable_pt_lim_plus _ _ _ _ _
    (derivable_pt_lim_plus _ _ _ _ _ (derivable_pt_lim_plus _ _ _ _ _ P0 P1) P2) P3) as P.
  replace (b + 2 * c * u + 3 * d * u^2)
    with (0 + b * 1 + c * (INR 2 * u ^ 1) + d * (INR 3 * u ^ 2)).
  - exact P.
  - cbn [INR]; ring.
Qed.

Lemma deriv_ext f g u l : (forall v, f v = g v) -> derivable_pt_lim f u l -> derivable_pt_lim g u l.
Proof.
  intros E H eps He. destruct (H eps He) as [del Hd]. exists del.
  intros h Hh1 Hh2. rewrite <- !E. auto.
Qed.

Lemma interp_cubic_deriv_is u :
  derivable_pt_lim (fun v => w0 (interp_cubic v)) u (w0 (interp_cubic_deriv u)) /\
  derivable_pt_lim (fun v => w1 (interp_cubic v)) u (w1 (interp_cubic_deriv u)) /\
  derivable_pt_lim (fun v => w2 (interp_cubic v)) u (w2 (interp_cubic_deriv u)) /\
  derivable_pt_lim (fun v => w3 (interp_cubic v)) u (w3 (interp_cubic_deriv u)).
Proof.
  rewrite interp_cubic_deriv_closed; cbn [w0 w1 w2 w3].
  split; [|split; [|split]].
  - replace (-(u^2 - 2*u + 2/3)/2) with (-(1/3) + 2 * (1/2) * u + 3 * (-(1/6)) * u^2) by field.
    apply deriv_ext with (poly3 0 (-(1/3)) (1/2) (-(1/6))); [|apply deriv_cubic_poly].
    intros v; unfold poly3, interp_cubic; cbn [w0]; field.
  - replace ((3*u^2 - 4*u - 1)/2) with (-(1/2) + 2 * (-1) * u + 3 * (1/2) * u^2) by field.
    apply deriv_ext with (poly3 1 (-(1/2)) (-1) (1/2)); [|apply deriv_cubic_poly].
    intros v; unfold poly3, interp_cubic; cbn [w1]; field.
  - replace (-(3*u^2 - 2*u - 2)/2) with (1 + 2 * (1/2) * u + 3 * (-(1/2)) * u^2) by field.
    apply deriv_ext with (poly3 0 1 (1/2) (-(1/2))); [|apply deriv_cubic_poly].
    intros v; unfold poly3, interp_cubic; cbn [w2]; field.
  - replace ((u^2 - 1/3)/2) with (-(1/6) + 2 * 0 * u + 3 * (1/6) * u^2) by field.
    apply deriv_ext with (poly3 0 (-(1/6)) 0 (1/6)); [|apply deriv_cubic_poly].
    intros v; unfold poly3, interp_cubic; cbn [w3]; field.
Qed.

(** Specification of the linear systems: columns AI, AJ (, AK). *)
Definition solves2 (ai aj b x : r2) : Prop :=
  x0 ai * x0 x + x0 aj * x1 x = x0 b /\ x1 ai * x0 x + x1 aj * x1 x = x1 b.

Definition solves3 (ai aj ak b x : tup R) : Prop :=
  c0 ai * c0 x + c0 aj * c1 x + c0 ak * c2 x = c0 b /\
  c1 ai * c0 x + c1 aj * c1 x + c1 ak * c2 x = c1 b /\
  c2 ai * c0 x + c2 aj * c1 x + c2 ak * c2 x = c2 b.

(** The system has at most one solution for every right-hand side. *)
Definition nonsingular2 (ai aj : r2) : Prop :=
  forall x, solves2 ai aj (R2 0 0) x -> x = R2 0 0.
Definition nonsingular3 (ai aj ak : tup R) : Prop :=
  forall x, solves3 ai aj ak (T3 0 0 0) x -> x = T3 0 0 0.

Lemma solve2_correct ai aj b : column_det2 ai aj <> 0 ->
  forall x, solves2 ai aj b x <-> x = column_solve2 ai aj b.
Proof.
  destruct ai as [p q], aj as [r s], b as [b0 b1]; intros Hd [y z].
  unfold column_solve2, solves2, column_det2 in *; cbn [x0 x1] in *.
  split.
  - intros [E1 E2]. f_equal.
    + apply Rmult_eq_reg_r with (p * s - q * r); auto. field_simplify; auto. rewrite <- E1, <- E2. ring.
    + apply Rmult_eq_reg_r with (p * s - q * r); auto. field_simplify; auto. rewrite <- E1, <- E2. ring.
  - intros E; injection E as -> ->. split; field; auto.
Qed.

Lemma solve3_correct ai aj ak b : column_det3 ai aj ak <> 0 ->
  forall x, solves3 ai aj ak b x <-> x = column_solve3 ai aj ak b.
Proof.
  destruct ai as [p q r], aj as [s t u], ak as [v w y], b as [b0 b1 b2]; intros Hd [z0 z1 z2].
  unfold column_solve3, solves3, column_det3 in *; cbn [c0 c1 c2] in *.
  split.
  - intros (E1 & E2 & E3).
    set (D := p * (t * y - u * w) + s * (w * r - y * q) + v * (q * u - r * t)) in *.
    f_equal; apply Rmult_eq_reg_r with D; auto; unfold Rdiv; rewrite Rmult_assoc, Rinv_l, Rmult_1_r;
      auto; rewrite <- E1, <- E2, <- E3; unfold D; ring.
  - intros E; injection E as -> -> ->. repeat split; field; auto.
Qed.

(** The determinant vanishes exactly on the singular systems. *)
Lemma det2_singular ai aj : column_det2 ai aj <> 0 <-> nonsingular2 ai aj.
Proof.
  split.
  - intros Hd x Hx. apply (solve2_correct ai aj (R2 0 0) Hd) in Hx; subst x.
    unfold column_solve2, column_det2; cbn [x0 x1]. unfold column_det2 in Hd.
    f_equal; field; auto.
  - intros H Hd. destruct ai as [p q], aj as [r s]; unfold column_det2 in Hd; cbn [x0 x1] in Hd.
    assert (A : R2 s (-q) = R2 0 0).
    { apply H; unfold solves2; cbn [x0 x1]; split; lra. }
    assert (B : R2 r (-p) = R2 0 0).
    { apply H; unfold solves2; cbn [x0 x1]; split; lra. }
    injection A as A1 A2; injection B as B1 B2.
    assert (C : R2 1 0 = R2 0 0).
    { apply H; unfold solves2; cbn [x0 x1]; split; lra. }
    injection C; lra.
Qed.


Lemma det3_singular ai aj ak : column_det3 ai aj ak <> 0 <-> nonsingular3 ai aj ak.
Proof.
  split.
  - intros Hd x Hx. apply (solve3_correct ai aj ak (T3 0 0 0) Hd) in Hx; subst x.
    unfold column_solve3, column_det3 in *; cbn [c0 c1 c2] in *.
    f_equal; field; auto.
  - intros H Hd. destruct ai as [p q r], aj as [s t u], ak as [v w y].
    unfold column_det3 in Hd; cbn [c0 c1 c2] in Hd.
    assert (A1 : T3 (t*y - u*w) (w*r - y*q) (q*u - r*t) = T3 0 0 0).
    { apply H; unfold solves3; cbn [c0 c1 c2]; repeat split; lra. }
    assert (A2 : T3 (u*v - s*y) (y*p - v*r) (r*s - p*u) = T3 0 0 0).
    { apply H; unfold solves3; cbn [c0 c1 c2]; repeat split; lra. }
    assert (A3 : T3 (s*w - t*v) (v*q - w*p) (p*t - q*s) = T3 0 0 0).
    { apply H; unfold solves3; cbn [c0 c1 c2]; repeat split; lra. }
    injection A1 as A11 A12 A13; injection A2 as A21 A22 A23; injection A3 as A31 A32 A33.
    assert (B1 : T3 s (-p) 0 = T3 0 0 0).
    { apply H; unfold solves3; cbn [c0 c1 c2]; repeat split; lra. }
    assert (B2 : T3 t (-q) 0 = T3 0 0 0).
    { apply H; unfold solves3; cbn [c0 c1 c2]; repeat split; lra. }
    assert (B3 : T3 u (-r) 0 = T3 0 0 0).
    { apply H; unfold solves3; cbn [c0 c1 c2]; repeat split; lra. }
    injection B1 as B11 B12; injection B2 as B21 B22; injection B3 as B31 B32.
    assert (C : T3 1 0 0 = T3 0 0 0).
    { apply H; unfold solves3; cbn [c0 c1 c2]; repeat split; lra. }
    injection C; lra.
Qed.
