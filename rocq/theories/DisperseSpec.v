(** The values addressed to a point. *)
From Coq Require Import List ZArith.
From Verif Require Import TupleModel RangeModel.
Import ListNotations.
Local Open Scope Z_scope.

(** The values for point p among the pairs of points and values. *)
Definition addressed {V} (p : tup Z) (pts : list (tup Z)) (row : list V) : list V :=
  map snd (filter (fun x => teqb (fst x) p) (combine pts row)).

(** Summation over the positions of p. *)
Definition sum_at (p : tup Z) (pts : list (tup Z)) (row : list Z) : Z := fold_right Z.add 0 (addressed p pts row).
