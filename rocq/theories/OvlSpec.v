(** What filling the overlap data is given, and what the two sides of an overlap are (C78), stated without the ranges, counts and
    messages. *)
From Coq Require Import List ZArith Bool.
From Verif Require Import TupleModel RangeModel RangeProof CartModel CartProof DecompModel DecompProof IndexerModel ArrayModel.
From Verif Require Import HashModel NeighSpec CellModel OvlModel.
Import ListNotations.
Local Open Scope Z_scope.

(** The cells of a grid. *)
Definition cells_of (c : cart) : range := c_range (cart_point_to_cell c).

(** Some vertex of some periodic image of the cell is in the range (a point stored twice counts at its first place). *)
Definition has_vertex (c : cart) (l : range) (cell : tup Z) : Prop :=
  exists u v, is_image c cell u /\ corner (c_nd c) u v /\ pt_in l v /\ in_base c v.

(** The M grid is on the ranks [mem] with the local ranges L; rank q of the N grid, whose range is R, has found the cells of
    [D q] for its points, and knows of the ranks [MG q] of the M grid, as these know of it (NG).  Among them are all ranks that
    have a vertex of a cell that was found. *)
Record overlap_input (c : cart) (n : nat) (mem : list nat) (L : nat -> range) (R : range) (D : nat -> list entry)
    (MG NG : nat -> list nat) : Prop := OverlapInput {
  oi_grid : decomposed c (length mem) L;
  oi_mem : NoDup mem /\ forall r, In r mem -> (r < n)%nat;
  oi_m : forall q, (q < n)%nat -> NoDup (MG q) /\ forall r, In r (MG q) -> In r mem;
  oi_n : forall r, (r < n)%nat -> NoDup (NG r) /\ forall q, In q (NG r) -> (q < n)%nat;
  oi_mutual : forall q r, (q < n)%nat -> (r < n)%nat -> (In r (MG q) <-> In q (NG r));
  oi_entries : forall q e, (q < n)%nat -> In e (D q) -> pt_in (cells_of c) (e_cell e) /\ pt_in R (e_point e);
  oi_points : forall q, (q < n)%nat -> NoDup (map e_point (D q));
  oi_ranks : forall q q' e e', (q < n)%nat -> (q' < n)%nat -> In e (D q) -> In e' (D q') -> e_point e = e_point e' -> q = q';
  oi_told : forall q e i r, (q < n)%nat -> In e (D q) -> nth_error mem i = Some r -> has_vertex c (L i) (e_cell e) -> In r (MG q) }.

(** The M side on a rank with the local range l: one row for each point for which a cell with a vertex on this rank was found, in
    the order of the points; the row has an image of the cell that is on this rank, and if the rank owns the cell, the cell
    itself and the rank of the point; otherwise no rank. *)
Definition m_side (c : cart) (n : nat) (l : range) (R : range) (D : nat -> list entry) (rows : list mrow) : Prop :=
  (forall i j a b, i < j -> vread rows i = Some a -> vread rows j = Some b -> rindex ColMajor R (mr_dest a) < rindex ColMajor R (mr_dest b)) /\
  (forall row, In row rows -> exists q e, (q < n)%nat /\ In e (D q) /\ mr_dest row = e_point e /\ mr_coords row = e_coords e /\
     is_image c (e_cell e) (mr_cell row) /\ (exists v, corner (c_nd c) (mr_cell row) v /\ pt_in l v) /\
     (pt_in l (e_cell e) /\ mr_cell row = e_cell e /\ mr_rank row = Z.of_nat q \/ ~ pt_in l (e_cell e) /\ mr_rank row = -1)) /\
  (forall q e, (q < n)%nat -> In e (D q) -> has_vertex c l (e_cell e) -> exists row, In row rows /\ mr_dest row = e_point e).

(** The N side on a rank that has found the cells D: a row for each point, in the same order, with the cell and the rank of the
    M grid that owns the cell. *)
Definition n_side (mem : list nat) (L : nat -> range) (D : list entry) (rows : list nrow) : Prop :=
  Forall2 (fun e row => nr_point row = e_point e /\ nr_source row = e_cell e /\
    exists i k, nth_error mem i = Some k /\ pt_in (L i) (e_cell e) /\ nr_rank row = Z.of_nat k) D rows.
