(** Domain decomposition geometry: model of src/core/Decomp.cpp 104-212, of
    CreateSubregions in src/core/Partition.cpp 28-47 and of the range
    computations in the grid constructor (src/core/Grid.cpp). *)
From Coq Require Import List ZArith Bool.
From Verif Require Import TupleModel RangeModel CartModel.
Import ListNotations.
Open Scope Z_scope.

(** Replaces component [d] of a tuple ([Range.Begin(iDim) = v]). *)
Definition tset {A} (t : tup A) (d : nat) (v : A) : tup A :=
  tmake (fun d' => if Nat.eqb d' d then v else tget t d').

(** Partition.cpp 38-42: bounds of piece [i]; C++ Min(l,r) on integers is Z.min. *)
Definition subregion (r : range) (d : nat) (sub rem i : Z) : range :=
  mkR (tset (rb r) d (tget (rb r) d + sub * i + Z.min rem i))
      (tset (re r) d (tget (rb r) d + sub * (i + 1) + Z.min rem (i + 1))).

(** Partition.cpp 28-47: CreateSubregions.  None: division by zero, or a negative
    array size. *)
Definition create_subregions (nd : nat) (r : range) (n : Z) : option (list range) :=
  if n <=? 0 then None
  else
    let d := (nd - 1)%nat in
    let size := rsize1 r d in
    let sub := Z.quot size n in
    let rem := size - n * sub in
    Some (map (subregion r d sub rem) (zrange 0 n)).

(** Decomp.cpp 104-119: ExtendLocalRange.  (The loop of DetectNeighbors,
    Decomp.cpp 31-39, is the same with ExtendAmount 1.) *)
Definition extend_local_range (c : cart) (r : range) (amount : Z) : range :=
  mkR (tmake (fun d =>
         if Nat.ltb d (c_nd c) &&
            (negb (tget (rb r) d =? tget (rb (c_range c)) d) || tget (c_per c) d)
         then tget (rb r) d - amount else tget (rb r) d))
      (tmake (fun d =>
         if Nat.ltb d (c_nd c) &&
            (negb (tget (re r) d =? tget (re (c_range c)) d) || tget (c_per c) d)
         then tget (re r) d + amount else tget (re r) d)).

(** Overwrites the first NumDims dimensions of MakeEmptyRange(NumDims)
    (Decomp.cpp 143, 161, 174, 195; Cart.inl: cart(NumDims) starts from it too). *)
Definition dims_range (nd : nat) (b e : nat -> Z) : range :=
  mkR (tmake (fun d => if Nat.ltb d nd then b d else tget (rb (make_empty_range nd)) d))
      (tmake (fun d => if Nat.ltb d nd then e d else tget (re (make_empty_range nd)) d)).

(** Decomp.cpp 121-139: CartPointToCell. *)
Definition cart_point_to_cell (c : cart) : cart :=
  mkC (c_nd c)
    (dims_range (c_nd c)
       (fun d => tget (rb (c_range c)) d)
       (fun d => if tget (c_per c) d && stor_eqb (c_stor c) UNIQUE
                 then tget (re (c_range c)) d else tget (re (c_range c)) d - 1))
    (c_per c) UNIQUE.

(** Decomp.cpp 141-157: RangePointToCell. *)
Definition range_point_to_cell (c : cart) (r : range) : range :=
  dims_range (c_nd c)
    (fun d => tget (rb r) d)
    (fun d => if negb (tget (re r) d =? tget (re (c_range c)) d) ||
                 (tget (c_per c) d && stor_eqb (c_stor c) UNIQUE)
              then tget (re r) d else tget (re r) d - 1).

(** Decomp.cpp 159-170: RangeCellToPointAll. *)
Definition range_cell_to_point_all (c : cart) (cr : range) : range :=
  dims_range (c_nd c) (fun d => tget (rb cr) d) (fun d => tget (re cr) d + 1).

(** Decomp.cpp 172-191: CartIncludeExteriorPoint. *)
Definition cart_include_exterior (c : cart) : cart :=
  mkC (c_nd c)
    (dims_range (c_nd c)
       (fun d => if negb (tget (c_per c) d) then tget (rb (c_range c)) d - 1
                 else tget (rb (c_range c)) d)
       (fun d => if negb (tget (c_per c) d) then tget (re (c_range c)) d + 1
                 else tget (re (c_range c)) d))
    (c_per c) (c_stor c).

(** Decomp.cpp 193-212: RangeIncludeExteriorPoint. *)
Definition range_include_exterior (c : cart) (r : range) : range :=
  dims_range (c_nd c)
    (fun d => if negb (tget (c_per c) d) && (tget (rb r) d =? tget (rb (c_range c)) d)
              then tget (rb r) d - 1 else tget (rb r) d)
    (fun d => if negb (tget (c_per c) d) && (tget (re r) d =? tget (re (c_range c)) d)
              then tget (re r) d + 1 else tget (re r) d).

(** Grid.cpp, grid constructor: the extended ranges of a rank.
    CellExtendedRange = ExtendLocalRange(CellCart, CellLocalRange, 2) and
    ExtendedRange = RangeCellToPointAll(Cart, CellExtendedRange). *)
Definition grid_cell_extended (c : cart) (r : range) : range :=
  extend_local_range (cart_point_to_cell c) (range_point_to_cell c r) 2.
Definition grid_extended (c : cart) (r : range) : range :=
  range_cell_to_point_all c (grid_cell_extended c r).
