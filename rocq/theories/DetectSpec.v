(** What detection of overlap is given (C77). *)
From Coq Require Import List ZArith Bool QArith.
From Verif Require Import TupleModel RangeModel RangeProof CartModel DecompModel GeomSpec.
Import ListNotations.
Local Open Scope Q_scope.

(** Coordinates in dimensions that are not used are 0. *)
Definition planar (nd : nat) (x : tup Q) : Prop := forall d, (nd <= d < 3)%nat -> tget x d == 0.

(** The matrix whose rows are the images of the unit vectors is the identity, or has an inverse (on the used dimensions, to
    which it is restricted). *)
Definition upright (A : tup (tup Q)) : Prop := A = T3 (T3 1 0 0) (T3 0 1 0) (T3 0 0 1).
Definition turning (nd : nat) (A : tup (tup Q)) : Prop :=
  match nd with
  | 2%nat => tget (tget A 0) 2 == 0 /\ tget (tget A 1) 2 == 0 /\ ~ signed_area (T3 0 0 0) (c0 A) (c1 A) == 0
  | _ => ~ signed_volume (T3 0 0 0) (c0 A) (c1 A) (c2 A) == 0
  end.

(** The grid with the cells [cells] has at least four points in every dimension that is not periodic, and its part f, if it is at
    the boundary, at least two cells. *)
Definition roomy (c : cart) (cells f : range) : Prop :=
  forall d, (d < c_nd c)%nat -> tget (c_per c) d = false ->
    (tget (rb cells) d + 3 <= tget (re cells) d)%Z /\
    (tget (rb f) d = tget (rb cells) d \/ tget (re f) d = tget (re cells) d -> tget (rb f) d + 2 <= tget (re f) d)%Z.

(** x is within the tolerance of the cell and has the coordinates u in it. *)
Definition in_reach_of (nd : nat) (X : tup Z -> tup Q) (tol : Q) (cell : tup Z) (x u : tup Q) : Prop :=
  within nd tol u /\ located nd X cell u x.

(** x is in one of the triangles or tetrahedra that make up the cell. *)
Definition in_parts (nd : nat) (X : tup Z -> tup Q) (cell : tup Z) (x : tup Q) : Prop :=
  exists part, In part (parts nd) /\ hull nd (at_corners X cell part) x.
