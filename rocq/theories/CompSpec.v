(** Specification of connected components and flood fill, in terms of the whole domain. *)
From Coq Require Import List ZArith Bool Relations.
From Verif Require Import TupleModel RangeModel RangeProof CartModel CartProof DecompModel NeighSpec.
Import ListNotations.
Local Open Scope Z_scope.

(** Two points of the domain which are neighbours, also diagonally and across periodic boundaries, and
    have the same value. *)
Definition adjacent (c : cart) (m : tup Z -> bool) (u v : tup Z) : Prop :=
  pt_in (c_range c) u /\ pt_in (c_range c) v /\ near c u v /\ m u = m v.

(** There is a path of such steps. *)
Definition same_component (c : cart) (m : tup Z -> bool) : tup Z -> tup Z -> Prop :=
  clos_refl_trans _ (adjacent c m).

(** Two open neighbours: neither is a barrier point. *)
Definition open_step (c : cart) (barrier : tup Z -> bool) (u v : tup Z) : Prop :=
  pt_in (c_range c) u /\ pt_in (c_range c) v /\ near c u v /\ barrier u = false /\ barrier v = false.

(** u is reached from a seed point along open points. *)
Definition flooded (c : cart) (seed barrier : tup Z -> bool) (u : tup Z) : Prop :=
  exists s, pt_in (c_range c) s /\ seed s = true /\ barrier s = false /\ clos_refl_trans _ (open_step c barrier) s u.
