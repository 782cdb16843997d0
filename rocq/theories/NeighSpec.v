(** Which ranks of a decomposed domain are neighbours. *)
From Coq Require Import List ZArith Bool.
From Verif Require Import TupleModel RangeModel RangeProof CartModel CartProof DecompModel DecompProof.
Import ListNotations.
Local Open Scope Z_scope.

(** A domain of dimension c_nd decomposed into the local ranges [L r] of n ranks, none of which is
    empty. *)
Definition decomposed (c : cart) (n : nat) (L : nat -> range) : Prop :=
  (1 <= c_nd c <= 3)%nat /\ (1 <= n)%nat /\ cart_ok c /\ dims_ok (c_nd c) (c_range c) /\
  (forall d, (c_nd c <= d < 3)%nat -> tget (c_per c) d = false) /\
  splits (c_range c) (map L (seq 0 n)) /\ (forall r, (r < n)%nat -> rempty (L r) = false).

(** A periodic image of u is at most one point away from p in every direction. *)
Definition near (c : cart) (p u : tup Z) : Prop :=
  exists v, is_image c u v /\ forall d, (d < 3)%nat -> Z.abs (tget p d - tget v d) <= 1.

(** No plane of points is stored twice. *)
Definition stored_once (c : cart) : Prop :=
  forall d, (d < 3)%nat -> per_len c d = tget (re (c_range c)) d - tget (rb (c_range c)) d.

(** The local ranges form a grid: in each dimension two of them have the same side or disjoint
    sides (as in the decompositions made by MPI_Dims_create), and no side is shorter than k. *)
Definition grid_of (nd n : nat) (L : nat -> range) (k : Z) : Prop :=
  (forall r q d, (r < n)%nat -> (q < n)%nat -> (d < 3)%nat ->
     (tget (rb (L r)) d = tget (rb (L q)) d /\ tget (re (L r)) d = tget (re (L q)) d) \/
     tget (re (L r)) d <= tget (rb (L q)) d \/ tget (re (L q)) d <= tget (rb (L r)) d) /\
  (forall r d, (r < n)%nat -> (d < nd)%nat -> k <= tget (re (L r)) d - tget (rb (L r)) d).

(** [e] contains [r] and reaches at most k points beyond it. *)
Definition grown (nd : nat) (k : Z) (r e : range) : Prop :=
  pt_subset r e /\
  forall d, (d < 3)%nat ->
    let a := if Nat.ltb d nd then k else 0 in
    tget (rb r) d - a <= tget (rb e) d /\ tget (re e) d <= tget (re r) d + a.
