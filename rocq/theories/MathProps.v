(** Property theorems C52 and C53. *)
From Coq Require Import Reals Lra.
From Verif Require Import TupleModel MathModel MathProof.
Open Scope R_scope.

(** C52. Linear weights: partition of unity, exact on polynomials of degree 1, nodal. *)
Theorem C52_interp_linear : forall u,
  x0 (interp_linear u) + x1 (interp_linear u) = 1 /\
  (forall a b, lin_comb2 (interp_linear u) (poly1 a b) = poly1 a b u) /\
  interp_linear 0 = R2 1 0 /\ interp_linear 1 = R2 0 1.
Proof. exact interp_linear_props. Qed.
Print Assumptions C52_interp_linear.

(** C52. Cubic weights: partition of unity, exact on polynomials of degree 3, nodal. *)
Theorem C52_interp_cubic : forall u,
  w0 (interp_cubic u) + w1 (interp_cubic u) + w2 (interp_cubic u) + w3 (interp_cubic u) = 1 /\
  (forall a b c d, cub_comb (interp_cubic u) (poly3 a b c d) = poly3 a b c d u) /\
  interp_cubic (-1) = R4 1 0 0 0 /\ interp_cubic 0 = R4 0 1 0 0 /\
  interp_cubic 1 = R4 0 0 1 0 /\ interp_cubic 2 = R4 0 0 0 1.
Proof. exact interp_cubic_props. Qed.
Print Assumptions C52_interp_cubic.

(** C52. The derivative weights are the derivatives of the weights. *)
Theorem C52_interp_linear_deriv : forall u,
  derivable_pt_lim (fun v => x0 (interp_linear v)) u (x0 (interp_linear_deriv u)) /\
  derivable_pt_lim (fun v => x1 (interp_linear v)) u (x1 (interp_linear_deriv u)).
Proof. exact interp_linear_deriv_is. Qed.
Print Assumptions C52_interp_linear_deriv.

Theorem C52_interp_cubic_deriv : forall u,
  derivable_pt_lim (fun v => w0 (interp_cubic v)) u (w0 (interp_cubic_deriv u)) /\
  derivable_pt_lim (fun v => w1 (interp_cubic v)) u (w1 (interp_cubic_deriv u)) /\
  derivable_pt_lim (fun v => w2 (interp_cubic v)) u (w2 (interp_cubic_deriv u)) /\
  derivable_pt_lim (fun v => w3 (interp_cubic v)) u (w3 (interp_cubic_deriv u)).
Proof. exact interp_cubic_deriv_is. Qed.
Print Assumptions C52_interp_cubic_deriv.

Example C52_example :
  cub_comb (interp_cubic (1/2)) (poly3 1 2 (-1) 4) = 9/4.
Proof. unfold cub_comb, interp_cubic, poly3; cbn [w0 w1 w2 w3]; lra. Qed.

(** C53. The solves return exactly the solutions, whenever the determinant is not zero. *)
Theorem C53_solve2 : forall ai aj b, column_det2 ai aj <> 0 ->
  forall x, solves2 ai aj b x <-> x = column_solve2 ai aj b.
Proof. exact solve2_correct. Qed.
Print Assumptions C53_solve2.

Theorem C53_solve3 : forall ai aj ak b, column_det3 ai aj ak <> 0 ->
  forall x, solves3 ai aj ak b x <-> x = column_solve3 ai aj ak b.
Proof. exact solve3_correct. Qed.
Print Assumptions C53_solve3.

(** C53. A non-zero determinant is the same as uniqueness of solutions. *)
Theorem C53_det2_nonsingular : forall ai aj, column_det2 ai aj <> 0 <-> nonsingular2 ai aj.
Proof. exact det2_singular. Qed.
Print Assumptions C53_det2_nonsingular.

Theorem C53_det3_nonsingular : forall ai aj ak,
  column_det3 ai aj ak <> 0 <-> nonsingular3 ai aj ak.
Proof. exact det3_singular. Qed.
Print Assumptions C53_det3_nonsingular.

Example C53_example :
  column_det3 (T3 1 0 2) (T3 0 3 1) (T3 4 1 1) <> 0 /\
  column_solve3 (T3 1 0 2) (T3 0 3 1) (T3 4 1 1) (T3 5 4 4) = T3 1 1 1.
Proof.
  unfold column_solve3, column_det3; cbn [c0 c1 c2].
  split; [lra|f_equal; lra].
Qed.
