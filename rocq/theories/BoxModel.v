(** Bounding boxes: model of src/core/Box.inl and of the floating-point
    specialisation of interval (src/core/Interval.hpp 164-232).
    Simplification: coordinates are exact rationals.  Every finite double is a
    rational and comparison is exact, so the functions that only compare
    (all but Move, Grow, Scale) are modelled without loss on finite doubles;
    rounding in Move, Grow and Scale, and NaN and infinities, are not modelled. *)
From Coq Require Import List ZArith QArith Bool.
From Verif Require Import TupleModel.
Import ListNotations.
Open Scope Q_scope.

(** Interval.hpp: interval<double,3>, bounds Begin_ and End_. *)
Record box : Type := mkB { bb : tup Q; be : tup Q }.

(** operator< on doubles. *)
Definition qlt (x y : Q) : bool := negb (Qle_bool y x).

(** ScalarOps.hpp: Min = (Right < Left) ? Right : Left, Max = (Left < Right) ? Right : Left. *)
Definition qmin (l r : Q) : Q := if qlt r l then r else l.
Definition qmax (l r : Q) : Q := if qlt l r then r else l.

(** Interval.hpp 198-219: Empty, some End < Begin. *)
Definition bempty (x : box) : bool := tany (fun d => qlt (tget (be x) d) (tget (bb x) d)).

(** Interval.hpp 202-230: Contains, closed bounds. *)
Definition bcontains (x : box) (p : tup Q) : bool :=
  tall (fun d => Qle_bool (tget (bb x) d) (tget p d) && Qle_bool (tget p d) (tget (be x) d)).

(** Interval.hpp 206-208 with 80-91: Includes. *)
Definition bincludes (x y : box) : bool :=
  bempty y ||
  tall (fun d => Qle_bool (tget (bb x) d) (tget (bb y) d) &&
                 Qle_bool (tget (be y) d) (tget (be x) d)).

(** Box.inl 6-21. *)
Definition make_empty_box (nd : nat) : box :=
  mkB (tmake (fun _ => 0)) (tmake (fun d => if Nat.ltb d nd then -1 else 0)).

(** Box.inl 23-41. *)
Definition extend_box (x : box) (p : tup Q) : box :=
  if negb (bempty x)
  then mkB (tmake (fun d => qmin (tget (bb x) d) (tget p d)))
           (tmake (fun d => qmax (tget (be x) d) (tget p d)))
  else mkB p p.

(** Box.inl 43-50. *)
Definition boxes_overlap (l r : box) : bool :=
  negb (bempty l) && negb (bempty r) &&
  tall (fun d => Qle_bool (tget (bb l) d) (tget (be r) d) &&
                 Qle_bool (tget (bb r) d) (tget (be l) d)).

(** Box.inl 52-69. *)
Definition union_boxes (l r : box) : box :=
  if bempty l then r
  else if bempty r then l
  else mkB (tmake (fun d => qmin (tget (bb l) d) (tget (bb r) d)))
           (tmake (fun d => qmax (tget (be l) d) (tget (be r) d))).

(** Box.inl 71-82. *)
Definition intersect_boxes (l r : box) : box :=
  mkB (tmake (fun d => qmax (tget (bb l) d) (tget (bb r) d)))
      (tmake (fun d => qmin (tget (be l) d) (tget (be r) d))).

(** Box.inl 84-100. *)
Definition clamp_to_box (x : box) (p : tup Q) : tup Q :=
  tmake (fun d => if qlt (tget p d) (tget (bb x) d) then tget (bb x) d
                  else if qlt (tget (be x) d) (tget p d) then tget (be x) d
                  else tget p d).

(** Box.inl 102-113. *)
Definition move_box (x : box) (a : tup Q) : box :=
  mkB (tmake (fun d => tget (bb x) d + tget a d)) (tmake (fun d => tget (be x) d + tget a d)).

(** Box.inl 115-130. *)
Definition grow_box (x : box) (a : tup Q) : box :=
  if bempty x then x
  else mkB (tmake (fun d => tget (bb x) d - tget a d)) (tmake (fun d => tget (be x) d + tget a d)).

(** Box.inl 132-145. *)
Definition scale_box (x : box) (f : tup Q) : box :=
  let center d := (1#2) * (tget (bb x) d + tget (be x) d) in
  let half d := (1#2) * tget f d * (tget (be x) d - tget (bb x) d) in
  mkB (tmake (fun d => center d - half d)) (tmake (fun d => center d + half d)).
