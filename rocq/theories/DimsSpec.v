(** What a process grid should be. *)
From Coq Require Import List ZArith.
From Verif Require Import TupleModel.
Import ListNotations.
Local Open Scope Z_scope.

Definition firsts (nd : nat) (t : tup Z) : list Z := firstn nd [c0 t; c1 t; c2 t].
Definition product (l : list Z) : Z := fold_right Z.mul 1 l.
Definition total (l : list Z) : Z := fold_right Z.add 0 l.

(** A grid for [size] processes that respects the dimensions given by the caller (those that
    are not 0) and leaves the entries beyond the dimensionality alone. *)
Definition good_dims (nd : nat) (size : Z) (input dims : tup Z) : Prop :=
  product (firsts nd dims) = size /\
  forall d, (d < 3)%nat ->
    ((d < nd)%nat -> 1 <= tget dims d) /\
    (tget input d <> 0 -> tget dims d = tget input d) /\
    ((nd <= d)%nat -> tget dims d = tget input d).

(** How uneven a grid is: the squared distances to the (rounded) mean. *)
Definition rounded_mean (l : list Z) : Z :=
  (2 * total l + Z.of_nat (length l)) / (2 * Z.of_nat (length l)).
Definition unevenness (l : list Z) : Z :=
  total (map (fun x => (x - rounded_mean l) ^ 2) l).

(** The dimensions left to the library do not increase. *)
Definition free_sorted (input r : tup Z) : Prop :=
  forall i j, (i < j)%nat -> (j < 3)%nat -> tget input i = 0 -> tget input j = 0 -> tget r j <= tget r i.
