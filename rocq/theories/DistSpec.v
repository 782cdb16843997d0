(** What sending donors and receivers to ranks is for. *)
From Coq Require Import List ZArith Bool.
From Verif Require Import TupleModel RangeModel RangeProof CartModel Base CartProof XinModel MatModel DistModel.
Import ListNotations.
Local Open Scope Z_scope.

(** A rank with local range [own] has a point of cell [x]: if the cell is inside of the domain one of its points, else one of its points moved to the base period. *)
Definition reached (c : cart) (own x : range) : Prop :=
  (pt_subset x (c_range c) /\ exists p, pt_in x p /\ pt_in own p) \/
  (~ pt_subset x (c_range c) /\ exists p u, pt_in x p /\ is_image c p u /\ in_base c u /\ pt_in own u).

(** The cell of a donor leaves the domain only in periodic directions; it has as many coefficients as points in a direction, not more than [mx]. *)
Definition donor_fits (c : cart) (mx : Z) (v : dval) : Prop :=
  (forall p d, pt_in (extents v) p -> (d < 3)%nat -> tget (c_per c) d = false -> tget (rb (c_range c)) d <= tget p d < tget (re (c_range c)) d) /\
  (forall d, (d < 3)%nat -> 0 <= tget (e_end (fst v)) d - tget (e_begin (fst v)) d <= mx /\
     Z.of_nat (length (tget (e_coefs (fst v)) d)) = tget (e_end (fst v)) d - tget (e_begin (fst v)) d).

(** All donors (or receivers) that [f] holds of, in the order of the ranks that have them. *)
Definition all_of {A} (n : nat) (D : nat -> list A) (f : A -> bool) : list A := flat_map (fun s => filter f (D s)) (seq 0 n).
