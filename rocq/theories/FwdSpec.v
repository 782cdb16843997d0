(** Values sent over an overlap: what they should be. *)
From Coq Require Import List ZArith QArith Bool Sorting.Sorted.
From Verif Require Import TupleModel RangeModel RangeProof CartModel IndexerModel ArrayModel HashModel EmbedModel CellModel SendModel CollectModel CollectSpec NeighSpec SendSpec.
From Verif Require Import PipeSpec OvlModel OvlSpec ConSpec FwdModel.
Import ListNotations.
Local Open Scope Z_scope.

(** A pair of grids after its overlap was filled (C78), with the points of each rank in order (C78_order), on an M grid that
    stores each point once; [NB]: the neighbours of the ranks of the M grid. *)
Record overlapped (c : cart) (n : nat) (mem : list nat) (L : nat -> range) (NB : nat -> list nat) (R : range)
    (D : nat -> list entry) (M : nat -> list mrow) (N : nat -> list nrow) : Prop := Overlapped {
  fw_input : exists MG NG, overlap_input c n mem L R D MG NG;
  fw_m : forall i r, nth_error mem i = Some r -> m_side c n (L i) R D (M r);
  fw_none : forall r, (r < n)%nat -> ~ In r mem -> M r = [];
  fw_n : forall q, (q < n)%nat -> n_side mem L (D q) (N q);
  fw_order : forall q, (q < n)%nat -> StronglySorted (fun p p' => rindex ColMajor R p < rindex ColMajor R p') (map e_point (D q));
  fw_size : forall r, (r < n)%nat -> Z.of_nat (length (M r)) <= 2 ^ 31 /\ Z.of_nat (length (N r)) <= 2 ^ 31;
  fw_once : stored_once c;
  fw_neighbours : forall i, (i < length mem)%nat -> NoDup (NB i) /\ forall j, In j (NB i) <-> adjacent c (length mem) L i j }.

(** The start: the field of the M grid and the work array of the collect object on its ranks; the
    array for the received values and the field of the N grid. *)
Definition fwd0 {V} (mem : list nat) (fields : nat -> list (list V)) (vv : nat -> list V) (out nfields : nat -> list (list V)) (r : nat) : fwd V :=
  Fwd (CS0 (at_member mem fields r) (at_member mem vv r)) (SS0 [] (out r)) (nfields r).

(** What is needed of the arrays: [m] is the field of the M grid. *)
Definition fwd_arrays {V} (c : cart) (n : nat) (mem : list nat) (L FR : nat -> range) (M : nat -> list mrow) (N : nat -> list nrow) (NR : nat -> range)
    (red : nat -> Z -> range -> list V -> option V)
    (fields : nat -> list (list V)) (vv : nat -> list V) (m : Z -> tup Z -> V) (out nfields : nat -> list (list V)) : Prop :=
  (forall i, (i < length mem)%nat -> has_values ColMajor 1 (L i) (FR i) (fields i) m /\
     Z.of_nat (length (vv i)) = max_vertices (overlap_cells c mem M i) /\ reduces (red i) (overlap_cells c mem M i)) /\
  (forall r, (r < n)%nat -> shaped 1 (length (N r)) (out r) /\ shaped 1 (Z.to_nat (rcount (NR r))) (nfields r) /\
     (forall x, In x (N r) -> pt_in (NR r) (nr_point x))).

(** The vertices of the cell that was found for a point, as points of the M grid. *)
Definition vertices (c : cart) (e : entry) : list (tup Z) :=
  let cell := cell_box (c_nd c) (e_cell e) in map (home c cell) (foreach_col cell).

(** What rank r has received when [out] is its array: for each point one value [v] with [P e v] for the cell found for the point. *)
Definition values_for {V} (D : list entry) (out : list (list V)) (P : entry -> V -> Prop) : Prop :=
  shaped 1 (length D) out /\ forall j e, vread D j = Some e -> exists v, vals_at out 0 j = Some v /\ P e v.

(** The field [f] over the range NR after values for the points were written to [f0]. *)
Definition written {V} (NR : range) (D : list entry) (f0 f : list (list V)) (P : entry -> V -> Prop) : Prop :=
  shaped 1 (Z.to_nat (rcount NR)) f /\
  (forall e, In e D -> exists v, vals_at f 0 (rindex ColMajor NR (e_point e)) = Some v /\ P e v) /\
  (forall p, pt_in NR p -> ~ In p (map e_point D) -> vals_at f 0 (rindex ColMajor NR p) = vals_at f0 0 (rindex ColMajor NR p)).

(** The flags at the vertices. *)
Definition flag_value (op : flag_op) (c : cart) (m : tup Z -> bool) (e : entry) (v : bool) : Prop :=
  v = true <-> flagged op (fun b => b) (fun b => exists p, In p (vertices c e) /\ b = m p).

(** The weight of the vertex p of a cell for a point with the local coordinates u. *)
Definition weight (nd : nat) (cell : tup Z) (u : tup Q) (p : tup Z) : Q :=
  fold_right Qmult 1%Q (map (fun d => if tget p d =? tget cell d then 1 - tget u d else tget u d)%Q (seq 0 nd)).
(** Interpolation of the field [f], with values at the points of the grid. *)
Definition interpolated (c : cart) (f : tup Z -> Q) (e : entry) : Q :=
  let cell := cell_box (c_nd c) (e_cell e) in
  fold_right Qplus 0%Q (map (fun p => weight (c_nd c) (e_cell e) (e_coords e) p * f (home c cell p))%Q (foreach_col cell)).
