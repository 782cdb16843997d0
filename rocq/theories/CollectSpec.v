(** What collecting a field at cells is for, stated without the map and the buffers. *)
From Coq Require Import List ZArith Bool.
From Verif Require Import TupleModel RangeModel RangeProof CartModel CartProof IndexerModel ArrayModel HashModel NeighSpec FieldSpec.
Import ListNotations.
Local Open Scope Z_scope.

(** The point of the domain a vertex of a cell stands for: in a cell that reaches beyond the domain, the image in the
    base period. *)
Definition home (c : cart) (cell : range) (p : tup Z) : tup Z :=
  if rincludes (c_range c) cell then p else wrap c p.

(** Some vertex of the cell is in the range. *)
Definition touches (c : cart) (r cell : range) : Prop := exists p, pt_in cell p /\ pt_in r (home c cell p).

(** The same points (the cells may be periodic images of each other). *)
Definition same_vertices (c : cart) (a b : range) : Prop :=
  forall u, (exists p, pt_in a p /\ home c a p = u) <-> (exists p, pt_in b p /\ home c b p = u).

(** Every vertex is in the domain, and each cell is listed by the ranks that own a vertex of it, and by no others. *)
Definition listed (c : cart) (n : nat) (L : nat -> range) (cells : nat -> list range) : Prop :=
  (forall r cell p, (r < n)%nat -> In cell (cells r) -> pt_in cell p -> pt_in (c_range c) (home c cell p)) /\
  (forall r cell, (r < n)%nat -> In cell (cells r) -> touches c (L r) cell) /\
  (forall r q cell, (r < n)%nat -> (q < n)%nat -> In cell (cells r) -> touches c (L q) cell ->
     exists cell', In cell' (cells q) /\ same_vertices c cell cell').

(** The owners of the vertices of a rank's cells are the rank itself and its neighbours. *)
Definition in_reach (c : cart) (n : nat) (L : nat -> range) (N : nat -> list nat) (cells : nat -> list range) : Prop :=
  forall r q cell p, (r < n)%nat -> (q < n)%nat -> In cell (cells r) -> pt_in cell p -> pt_in (L q) (home c cell p) ->
    q = r \/ In q (N r).

(** [cnt] fields over the range [fr], with the values of [m] at the points of [loc]. *)
Definition has_values {V} (lay : layout) (cnt : Z) (loc fr : range) (field : list (list V)) (m : Z -> tup Z -> V) : Prop :=
  Z.of_nat (length field) = cnt /\ pt_subset loc fr /\
  forall k row p, vread field k = Some row -> pt_in loc p -> vread row (rindex lay fr p) = Some (m k p).

(** The vertices of a cell in the order of the layout. *)
Definition in_order (lay : layout) (cell : range) : list (tup Z) :=
  match lay with RowMajor => RangeModel.foreach_row cell | ColMajor => RangeModel.foreach_col cell end.

(** For each cell and each of the fields, the reduction of the values at the vertices. *)
Definition reduced {V} (lay : layout) (c : cart) (cnt : Z) (m : Z -> tup Z -> V) (red : Z -> range -> list V -> option V)
    (cells : list range) (out : list (list V)) : Prop :=
  length out = length cells /\
  forall i cell row, vread cells i = Some cell -> vread out i = Some row ->
    Z.of_nat (length row) = cnt /\
    forall k, 0 <= k < cnt -> vread row k = red i cell (map (fun p => m k (home c cell p)) (in_order lay cell)).

(** The reduction is defined for as many values as the cell has vertices. *)
Definition reduces {V} (red : Z -> range -> list V -> option V) (cells : list range) : Prop :=
  forall i cell vals, vread cells i = Some cell -> Z.of_nat (length vals) = rcount cell -> red i cell vals <> None.

(** All vertices are in the range. *)
Definition whole (c : cart) (r cell : range) : Prop := forall p, pt_in cell p -> pt_in r (home c cell p).

(** A cell with at most two points in each direction. *)
Definition small (cell : range) : Prop := forall d, (d < 3)%nat -> tget (re cell) d - tget (rb cell) d <= 2.

(** A linear order on the values; the greatest and the least of some values. *)
Definition linear {V} (lt : V -> V -> bool) : Prop :=
  (forall a b d, lt a b = true -> lt b d = true -> lt a d = true) /\ (forall a, lt a a = false) /\
  (forall a b, lt a b = false -> lt b a = false -> a = b).
Definition greatest {V} (lt : V -> V -> bool) (P : V -> Prop) (x : V) : Prop := P x /\ forall y, P y -> lt x y = false.
Definition least {V} (lt : V -> V -> bool) (P : V -> Prop) (x : V) : Prop := P x /\ forall y, P y -> lt y x = false.

(** One value with the property [P] for each cell and each of the [cnt] fields. *)
Definition results {V} (cnt : Z) (cells : list range) (out : list (list V)) (P : Z -> Z -> range -> V -> Prop) : Prop :=
  length out = length cells /\
  forall i cell, vread cells i = Some cell -> exists row, vread out i = Some row /\ Z.of_nat (length row) = cnt /\
    forall k, 0 <= k < cnt -> exists x, vread row k = Some x /\ P i k cell x.

(** The values of field k at the vertices of the cell. *)
Definition at_vertex {V} (c : cart) (m : Z -> tup Z -> V) (k : Z) (cell : range) (x : V) : Prop :=
  exists p, pt_in cell p /\ x = m k (home c cell p).

(** Which vertices are flagged. *)
Inductive flag_op := NoneOf | AnyOf | NotAllOf | AllOf.
Definition flagged {V} (op : flag_op) (truth : V -> bool) (P : V -> Prop) : Prop :=
  match op with
  | NoneOf => forall x, P x -> truth x = false
  | AnyOf => exists x, P x /\ truth x = true
  | NotAllOf => exists x, P x /\ truth x = false
  | AllOf => forall x, P x -> truth x = true
  end.

(** A decomposed domain, cells that the owners of their vertices list, and on each rank the neighbours it knows of,
    among which are the owners of the vertices of its cells. *)
Definition distributed (c : cart) (n : nat) (L : nat -> range) (N : nat -> list nat) (cells : nat -> list range) : Prop :=
  decomposed c n L /\ (forall r, (r < n)%nat -> NoDup (N r) /\ forall q, In q (N r) -> (q < n)%nat /\ q <> r) /\
  listed c n L cells /\ in_reach c n L N cells.

(** The ranks that own a point next to a point of rank r. *)
Definition adjacent (c : cart) (n : nat) (L : nat -> range) (r q : nat) : Prop :=
  (q < n)%nat /\ q <> r /\ exists p u, pt_in (L r) p /\ pt_in (L q) u /\ near c p u.
