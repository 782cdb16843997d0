(** The fragments of a grid and the ranks that learn of an overlapping point: model of MakeCellCoverRange, subdivide and
    generate_fragments, src/core/AssemblerAssembly.cpp 229-365, 367-655, and of the search for overlapping ranks,
    824-885, with the boxes of src/core/Box.inl and CellBounds of src/core/GeometryOps.inl 902-940.

    Simplifications: coordinates are rationals; the tests on volumes in Subdivide_ (321-323) are any function of the
    range of cells; the orientation of a fragment is any matrix; the bounds of a cell are those of its vertices for all
    types of geometry (for UNIFORM and RECTILINEAR ones and in one dimension the code takes the first and the last
    vertex, which is the same if the coordinates ascend); every fragment that contains a point is found in its hash bin
    (property C23); all ranks see the same coordinates and cells (Geometry.cpp 213-225 and the halo exchange). *)
From Coq Require Import List ZArith Bool QArith.
From Verif Require Import TupleModel RangeModel CartModel DecompModel.
Import ListNotations.
Local Open Scope Z_scope.

(** AssemblerAssembly.cpp 229-247 *)
Definition cell_cover (c : cart) (r : range) : range :=
  dims_range (c_nd c)
    (fun d => if (tget (rb (c_range c)) d <? tget (rb r) d) || (tget (c_per c) d && negb (tget (re r) d =? tget (re (c_range c)) d))
              then tget (rb r) d - 1 else tget (rb r) d)
    (fun d => tget (re r) d).

(** The vertices of a cell: 577-585, and many other places. *)
Definition cell_range (nd : nat) (cell : tup Z) : range := dims_range nd (fun d => tget cell d) (fun d => tget cell d + 2).

(** Box.inl 7-20, 22-41, 61-80, 127-140; Interval.hpp 213-224 *)
Record box : Type := Box { bb : tup Q; be : tup Q }.
Definition empty_box (nd : nat) : box := Box (tmake (fun _ => 0%Q)) (tmake (fun d => if Nat.ltb d nd then (-1)%Q else 0%Q)).
Definition q_ltb (a b : Q) : bool := negb (Qle_bool b a).
Definition qmin (a b : Q) : Q := if q_ltb a b then a else b.
Definition qmax (a b : Q) : Q := if q_ltb b a then a else b.
Definition dims : list nat := [0; 1; 2]%nat.
Definition box_empty (b : box) : bool := existsb (fun d => q_ltb (tget (be b) d) (tget (bb b) d)) dims.
Definition box_contains (b : box) (x : tup Q) : bool :=
  forallb (fun d => Qle_bool (tget (bb b) d) (tget x d) && Qle_bool (tget x d) (tget (be b) d)) dims.
Definition extend_box (b : box) (x : tup Q) : box :=
  if box_empty b then Box x x
  else Box (tmake (fun d => qmin (tget (bb b) d) (tget x d))) (tmake (fun d => qmax (tget (be b) d) (tget x d))).
Definition union_boxes (a b : box) : box :=
  if box_empty a then b else if box_empty b then a
  else Box (tmake (fun d => qmin (tget (bb a) d) (tget (bb b) d))) (tmake (fun d => qmax (tget (be a) d) (tget (be b) d))).
Definition scale_box (b : box) (f : tup Q) : box :=
  let center d := ((1 # 2) * (tget (bb b) d + tget (be b) d))%Q in
  let half d := ((1 # 2) * tget f d * (tget (be b) d - tget (bb b) d))%Q in
  Box (tmake (fun d => center d - half d)%Q) (tmake (fun d => center d + half d)%Q).

(** 336-356: a leaf is kept if it has an active cell. *)
Definition leaf_ranges (active : tup Z -> bool) (r : range) : list range :=
  if existsb active (foreach_col r) then [r] else [].

(** 326-331 *)
Definition split_dim (nd : nat) (r : range) : nat :=
  fold_left (fun s d => if rsize1 r s <? rsize1 r d then d else s) (seq 0 nd) 0%nat.

(** 316-359, with [k] = MaxDepth - Depth and [stop] the second condition of 322. *)
Fixpoint subdivide (nd : nat) (stop : range -> bool) (active : tup Z -> bool) (k : nat) (r : range) : list range :=
  match k with
  | O => leaf_ranges active r
  | S k =>
      if stop r then leaf_ranges active r
      else
        let d := split_dim nd r in
        let m := Z.quot (tget (rb r) d + tget (re r) d) 2 in
        subdivide nd stop active k (mkR (rb r) (tset (re r) d m)) ++ subdivide nd stop active k (mkR (tset (rb r) d m) (re r))
  end.

(** 595-600, 858-862: Orientation(i)(d) is [tget (tget O i) d]. *)
Definition oriented (O : tup (tup Q)) (x : tup Q) : tup Q :=
  tmake (fun d => tget (tget O 0) d * tget x 0 + tget (tget O 1) d * tget x 1 + tget (tget O 2) d * tget x 2)%Q.

(** GeometryOps.inl 902-940, with transformed coordinates. *)
Definition cell_bounds (nd : nat) (X : tup Z -> tup Q) (O : tup (tup Q)) (cell : tup Z) : box :=
  fold_left (fun b v => extend_box b (oriented O (X v))) (foreach_col (cell_range nd cell)) (empty_box nd).

(** 573-612, 641-650, for the fragment with the cells [r]. *)
Definition fragment_box (cc : cart) (X : tup Z -> tup Q) (active : tup Z -> bool) (O : tup (tup Q)) (scale : tup Q) (r : range) : box :=
  fold_left (fun b cell => if active cell then union_boxes b (scale_box (cell_bounds (c_nd cc) X O cell) scale) else b)
    (foreach_col (cell_cover cc r)) (empty_box (c_nd cc)).

(** 375 *)
Definition scale_factor (nd : nat) (tol : Q) : tup Q := tmake (fun d => if Nat.ltb d nd then 1 + 2 * tol else 1)%Q.

(** The grid on n ranks with the local ranges L, the depth of the subdivision on each rank and the orientations of its
    fragments. *)
Section Search.
Variables (c : cart) (L : nat -> range) (stop : range -> bool) (depth : nat -> nat) (active : tup Z -> bool).
Variables (X : tup Z -> tup Q) (O : nat -> range -> tup (tup Q)) (tol : Q).

(** 716-760 *)
Definition fragments (r : nat) : list range := subdivide (c_nd c) stop active (depth r) (range_point_to_cell c (L r)).
Definition fragment_contains (r : nat) (x : tup Q) (f : range) : bool :=
  box_contains (fragment_box (cart_point_to_cell c) X active (O r f) (scale_factor (c_nd c) tol) f) (oriented (O r f) x).

(** 824-885: the ranks of the grid that overlap one of the points. *)
Definition overlapping_ranks (n : nat) (xs : list (tup Q)) : list nat :=
  filter (fun r => existsb (fun x => existsb (fragment_contains r x) (fragments r)) xs) (seq 0 n).
End Search.
