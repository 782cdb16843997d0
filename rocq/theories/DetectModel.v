(** Detection of the overlap of one grid (M) with the points that one rank has of another one (N): model of
    src/core/AssemblerAssembly.cpp 1217-1222 (data of fragments), 1294-1420 (points queried in a fragment), 1553-1612 (search in a
    fragment), 655-690 (generate_overlap_data) and 1748-1830, with the parts of FragModel (fragments), AccelModel
    (search tree), GeomModel (tests) and CellModel (choice of cells).
    Simplifications: those of the parts; one N grid at a time (the search tree of a fragment is built if this one has points for it,
    with any criteria and resolution); the data of a fragment that is not on the rank is what was sent (the protocol of
    the transfer, 1420-1645, is not modelled here). *)
From Coq Require Import List ZArith Bool QArith.
From Verif Require Import TupleModel RangeModel CartModel DecompModel IndexerModel ArrayModel HashModel.
From Verif Require BoxModel.
From Verif Require Import CellModel GeomModel AccelModel FragModel.
Import ListNotations.
Local Open Scope Z_scope.

Section Detect.
Variable rnd : Q -> Q.
(** The M grid and its decomposition, as in FragModel *)
Variables (g : geometry) (c : cart) (n : nat) (L : nat -> range) (stop : range -> bool) (depth : nat -> nat) (active : tup Z -> bool).
Variables (X : tup Z -> tup Q) (O : nat -> range -> tup (tup Q)) (maxtol : Q).
(** Criteria, resolution and depth of the trees, as in AccelModel *)
Variables (leaf : nat -> range -> list (Z * BoxModel.box) -> bool) (scale : nat -> range -> Q) (levels : nat -> range -> nat -> nat).
(** The local range of the N grid, its mask of active points, its coordinates, and the tolerance for the pair of grids *)
Variables (loc : range) (nactive : tup Z -> bool) (Y : tup Z -> tup Q) (tol : Q).

(** 1217-1222, 1238-1254 *)
Definition fragment_extents (f : range) : range := range_cell_to_point_all c (extend_local_range (cart_point_to_cell c) f 1).
Definition fragment_coords (r : nat) (f : range) (p : tup Z) : tup Q := oriented (O r f) (X p).

(** OverlapAccel.cpp 24-43, in the coordinates of the fragment *)
Definition fragment_bounds (r : nat) (f : range) (cell : tup Z) : BoxModel.box :=
  let b := scale_box (cell_bounds (c_nd c) X (O r f) cell) (scale_factor (c_nd c) maxtol) in
  BoxModel.mkB (bb b) (be b).

(** 1578-1588 *)
Definition fragment_accel (r : nat) (f : range) : option accel :=
  accel_build rnd (c_nd c) (leaf r f) (scale r f) (levels r f) f active (fragment_bounds r f).

(** 662-686 *)
Definition answer (r : nat) (f : range) (a : accel) (p : tup Z) : option query :=
  let x := oriented (O r f) (Y p) in
  let! res := find_cell rnd (c_nd c) f (overlaps_cell g (c_nd c) (fragment_coords r f) tol)
                (coords_in_cell g (c_nd c) (fragment_extents f) (fragment_coords r f)) a x in
  Some (match res with
        | Some (cell, u) => Query (rindex ColMajor loc p) (Some (rindex ColMajor (c_range (cart_point_to_cell c)) cell)) u
        | None => Query (rindex ColMajor loc p) None x
        end).

(** 1378-1415 *)
Definition query_points (r : nat) (f : range) : list (tup Z) :=
  filter (fun p => nactive p && fragment_contains c active X O maxtol r (Y p) f) (RangeModel.foreach_col loc).

Definition answers (r : nat) (f : range) : option (list query) :=
  match query_points r f with
  | [] => Some []
  | ps => let! a := fragment_accel r f in omap (answer r f a) ps
  end.

Definition all_fragments : list (nat * range) :=
  flat_map (fun r => map (pair r) (fragments c L stop depth active r)) (seq 0 n).

Definition detect : option (list entry) :=
  let! frs := omap (fun rf => answers (fst rf) (snd rf)) all_fragments in
  aggregate rnd (c_nd c) (c_range (cart_point_to_cell c)) loc frs.
End Detect.
