(** Small numeric kernels: model of src/core/Math.inl.
    Simplification: doubles are real numbers and arithmetic is exact; the
    17-digit constants for the square roots of 3 and 7 (Math.inl 100-101) are
    the square roots.  Division by zero is left out by hypothesis in the theorems. *)
From Coq Require Import Reals.
From Verif Require Import TupleModel.
Open Scope R_scope.

(** elem<double,2> *)
Record r2 : Type := R2 { x0 : R; x1 : R }.

(** elem<double,4> *)
Record r4 : Type := R4 { w0 : R; w1 : R; w2 : R; w3 : R }.

(** Math.inl 30-34 *)
Definition column_det2 (ai aj : r2) : R := x0 ai * x1 aj - x1 ai * x0 aj.

(** Math.inl 36-44 *)
Definition column_det3 (ai aj ak : tup R) : R :=
  c0 ai * (c1 aj * c2 ak - c2 aj * c1 ak) +
  c0 aj * (c1 ak * c2 ai - c2 ak * c1 ai) +
  c0 ak * (c1 ai * c2 aj - c2 ai * c1 aj).

(** Math.inl 46-58 *)
Definition column_solve2 (ai aj b : r2) : r2 :=
  let det := column_det2 ai aj in
  R2 (column_det2 b aj / det) (column_det2 ai b / det).

(** Math.inl 60-73 *)
Definition column_solve3 (ai aj ak b : tup R) : tup R :=
  let det := column_det3 ai aj ak in
  T3 (column_det3 b aj ak / det) (column_det3 ai b ak / det) (column_det3 ai aj b / det).

(** Math.inl 75-79 *)
Definition interp_linear (u : R) : r2 := R2 (1 - u) u.

(** Math.inl 81-85 *)
Definition interp_linear_deriv (u : R) : r2 := R2 (-1) 1.

(** Math.inl 87-96 *)
Definition interp_cubic (u : R) : r4 :=
  R4 (- (u * (u - 1) * (u - 2)) / 6)
     (((u + 1) * (u - 1) * (u - 2)) / 2)
     (- ((u + 1) * u * (u - 2)) / 2)
     (((u + 1) * u * (u - 1)) / 6).

(** Math.inl 98-121 *)
Definition interp_cubic_deriv (u : R) : r4 :=
  let s3 := sqrt 3 in
  let s7 := sqrt 7 in
  R4 (- ((u - (1 + 1 / s3)) * (u - (1 - 1 / s3))) / 2)
     ((3 * (u - (2 + s7) / 3) * (u - (2 - s7) / 3)) / 2)
     (- (3 * (u - (1 + s7) / 3) * (u - (1 - s7) / 3)) / 2)
     (((u - 1 / s3) * (u - (-1) / s3)) / 2).
