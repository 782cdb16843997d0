(** What the search of a cell in a fragment should find. *)
From Coq Require Import List ZArith QArith Bool.
From Verif Require Import TupleModel RangeModel RangeProof BoxModel BoxProof.
Import ListNotations.
Local Open Scope Z_scope.

(** The point x overlaps an active cell of R and has the coordinates u in it. *)
Definition overlapped (R : range) (mask : tup Z -> bool) (overlaps : tup Z -> tup Q -> bool) (coords : tup Z -> tup Q -> option (tup Q))
    (x : tup Q) (cell : tup Z) (u : tup Q) : Prop :=
  pt_in R cell /\ mask cell = true /\ overlaps cell x = true /\ coords cell x = Some u.

(** The boxes of the cells of R that x overlaps contain x. *)
Definition bounded (R : range) (mask : tup Z -> bool) (overlaps : tup Z -> tup Q -> bool) (coords : tup Z -> tup Q -> option (tup Q))
    (bounds : tup Z -> box) (x : tup Q) : Prop :=
  forall cell u, overlapped R mask overlaps coords x cell u -> box_in (bounds cell) x.

(** p comes before q in the order of the cells of a grid. *)
Definition before (p q : tup Z) : Prop :=
  c2 p < c2 q \/ c2 p = c2 q /\ (c1 p < c1 q \/ c1 p = c1 q /\ c0 p < c0 q).

(** A box that is not flat in any of the nd dimensions. *)
Definition solid (nd : nat) (b : box) : Prop := bempty b = false /\ forall d, (d < nd)%nat -> (tget (bb b) d < tget (be b) d)%Q.
