(** What filling a connectivity is given, and what its two sides are (C79), stated without messages and maps. *)
From Coq Require Import List ZArith QArith Bool Sorting.Sorted.
From Verif Require Import TupleModel RangeModel RangeProof CartModel CartProof DecompModel DecompProof IndexerModel ArrayModel HashModel.
From Verif Require Import NeighSpec CellModel CollectSpec OvlModel OvlSpec ConModel.
Import ListNotations.
Local Open Scope Z_scope.

(** The points and vertices of the cell with the lower corner u. *)
Definition cell_box (nd : nat) (u : tup Z) : range :=
  mkR (tmake (fun d => if Nat.ltb d nd then tget u d else 0)) (tmake (fun d => if Nat.ltb d nd then tget u d + 2 else 1)).

(** The data of those points of rank q whose donor grid is mg. *)
Definition chosen (D : nat -> list entry) (donor : nat -> tup Z -> Z) (mg : Z) (q : nat) : list entry :=
  filter (fun e => donor q (e_point e) =? mg) (D q).

(** The overlap of the pair, as it is after C78, the local ranges of the N grid, its points in order, and the donor grid of its points: it
    is this M grid only for receivers that overlap it (C71).  NB are the ranks next to each rank of the M grid. *)
Record conn_input (c : cart) (n : nat) (mem : list nat) (L : nat -> range) (R : range) (D : nat -> list entry) (MG NG : nat -> list nat)
    (NB : nat -> list nat) (M : nat -> list mrow) (N : nat -> list nrow) (NL : nat -> range) (donor : nat -> tup Z -> Z) (rm : nat -> tup Z -> bool)
    (mg : Z) : Prop := ConnInput {
  ci_overlap : overlap_input c n mem L R D MG NG;
  ci_m : forall i r, nth_error mem i = Some r -> m_side c n (L i) R D (M r);
  ci_out : forall r, (r < n)%nat -> ~ In r mem -> M r = [];
  ci_n : forall q, (q < n)%nat -> n_side mem L (D q) (N q);
  ci_next : forall i, (i < length mem)%nat -> NoDup (NB i) /\ forall j, In j (NB i) <-> adjacent c (length mem) L i j;
  ci_local : forall q, (q < n)%nat -> pt_subset (NL q) R /\ forall e, In e (D q) -> pt_in (NL q) (e_point e);
  ci_order : forall q, (q < n)%nat -> StronglySorted (fun p p' => rindex ColMajor (NL q) p < rindex ColMajor (NL q) p') (map e_point (D q));
  ci_donor : forall q p, (q < n)%nat -> pt_in (NL q) p -> donor q p = mg -> rm q p = true /\ In p (map e_point (D q));
  ci_many : forall r, (r < n)%nat -> Z.of_nat (length (M r)) <= 2 ^ 31 /\ Z.of_nat (length (N r)) <= 2 ^ 31 }.

(** The donors of a rank of the M grid with the local range l: one for each chosen point whose cell has a vertex on this
    rank, in the order of the points, with the cell or an image of it that is on this rank, the coordinates and the point. *)
Definition d_side (c : cart) (n : nat) (l : range) (R : range) (D : nat -> list entry) (rows : list drow) : Prop :=
  (forall i j a b, i < j -> vread rows i = Some a -> vread rows j = Some b -> rindex ColMajor R (dr_dest a) < rindex ColMajor R (dr_dest b)) /\
  (forall row, In row rows -> exists q e u, (q < n)%nat /\ In e (D q) /\ dr_dest row = e_point e /\ dr_coords row = e_coords e /\ dr_rank row = -1 /\
     is_image c (e_cell e) u /\ dr_ext row = cell_box (c_nd c) u /\ (exists v, corner (c_nd c) u v /\ pt_in l v) /\
     (pt_in l (e_cell e) -> u = e_cell e)) /\
  (forall q e, (q < n)%nat -> In e (D q) -> has_vertex c l (e_cell e) -> exists row, In row rows /\ dr_dest row = e_point e).
