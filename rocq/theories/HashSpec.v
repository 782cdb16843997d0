(** What region hashes are expected to do. *)
From Coq Require Import List ZArith QArith Bool.
From Verif Require Import TupleModel RangeModel BoxModel BoxProof.
Import ListNotations.
Local Open Scope Z_scope.

(** The numbers, counted from i, of the lists that contain b, in increasing order, each as
    many times as b occurs in it. *)
Fixpoint holding (b i : Z) (lists : list (list Z)) : list Z :=
  match lists with
  | [] => []
  | l :: r => map (fun _ => i) (filter (Z.eqb b) l) ++ holding b (i + 1) r
  end.

(** A way of rounding results to representable numbers: it does not change the order of
    numbers, nor the sign.  All rounding modes of IEEE 754 are of this kind. *)
Definition rounding (rnd : Q -> Q) : Prop :=
  (forall x y, x <= y -> rnd x <= rnd y)%Q /\ (rnd 0 == 0)%Q.

(** x is the smallest box that contains all points of the boxes [bs] ([box_in] is the
    point set of a box, BoxProof.v). *)
Definition bounding_box (bs : list box) (x : box) : Prop :=
  (forall b p, In b bs -> box_in b p -> box_in x p) /\
  (forall y, (forall b p, In b bs -> box_in b p -> box_in y p) -> forall p, box_in x p -> box_in y p).

(** All regions with their ranks, in the order of the ranks. *)
Definition contributions {R} (n : nat) (L : nat -> list R) : list (R * nat) :=
  flat_map (fun s => map (fun g => (g, s)) (L s)) (seq 0 n).

(** A range of nd dimensions that has points. *)
Definition grid_range (nd : nat) (g : range) : Prop :=
  (forall d, (d < 3)%nat -> tget (rb g) d < tget (re g) d) /\
  (forall d, (nd <= d < 3)%nat -> tget (rb g) d = 0 /\ tget (re g) d = 1).
