(** Multi-dimensional indexing of any rank: model of src/core/Indexer.hpp and
    src/core/ForEach.hpp.  A rank-n tuple is a list of n integers; extents are a
    list of (begin, end) pairs.  Simplification: index_type and
    tuple_element_type (both long long) are unbounded integers. *)
From Coq Require Import List ZArith Bool.
From Verif Require Import TupleModel RangeModel.
Import ListNotations.
Open Scope Z_scope.

(** Global.hpp: enum class array_layout *)
Inductive layout : Type := RowMajor | ColMajor.

(** Interval.hpp: interval<long long,N> as one (Begin, End) pair per dimension. *)
Definition extents : Type := list (Z * Z).

(** End[Dim] - Begin[Dim], Indexer.hpp 321, 333 (not clamped at zero). *)
Definition espan (x : Z * Z) : Z := snd x - fst x.

(** Interval.hpp 64-66: Size(Dim), clamped at zero. *)
Definition esize (x : Z * Z) : Z := Z.max (snd x - fst x) 0.

(** Interval.hpp 71-81, 117-119: Count(), product of sizes. *)
Fixpoint ecount (ext : extents) : Z :=
  match ext with [] => 1 | x :: r => esize x * ecount r end.

(** Indexer.hpp 318-340: MakeStrideElement_, the product over the dimensions
    passed by the recursion ([l] lists them in recursion order). *)
Fixpoint stride_elem (l : extents) : Z :=
  match l with [] => 1 | x :: r => espan x * stride_elem r end.

(** Indexer.hpp 342-346 with 318-328: strides, row-major (recursion runs upwards). *)
Fixpoint row_strides (ext : extents) : list Z :=
  match ext with [] => [] | x :: r => stride_elem r :: row_strides r end.

(** Indexer.hpp 342-346 with 330-340: strides, column-major (recursion runs
    downwards; [before] lists the lower dimensions, nearest first). *)
Fixpoint col_strides (before ext : extents) : list Z :=
  match ext with [] => [] | x :: r => stride_elem before :: col_strides (x :: before) r end.

Definition strides (lay : layout) (ext : extents) : list Z :=
  match lay with RowMajor => row_strides ext | ColMajor => col_strides [] ext end.

(** Indexer.hpp 271-285: an indexer holds Begin_ and Stride_; here one (begin,
    stride) pair per dimension. *)
Definition indexer (lay : layout) (ext : extents) : list (Z * Z) :=
  combine (map fst ext) (strides lay ext).

(** Indexer.hpp 28-246 (TupleToIndexHelper): sum of Stride(i)*(Tuple[i]-Begin(i)).
    Simplification: the rank-1 overloads leave out the stride, which is 1. *)
Fixpoint to_index (ix : list (Z * Z)) (t : list Z) : Z :=
  match ix, t with
  | (b, s) :: ix', i :: t' => s * (i - b) + to_index ix' t'
  | _, _ => 0
  end.

(** The loop body shared by Indexer.hpp 353-357 and 368-372; None is division by zero. *)
Fixpoint split_index (ix : list (Z * Z)) (red : Z) : option (list Z) :=
  match ix with
  | [] => Some []
  | (b, s) :: ix' =>
      if s =? 0 then None
      else let off := Z.quot red s in
           match split_index ix' (red - off * s) with
           | Some t => Some (b + off :: t)
           | None => None
           end
  end.

(** Indexer.hpp 348-361 (row-major, loop upwards) and 363-376 (column-major, loop downwards). *)
Definition to_tuple (lay : layout) (ix : list (Z * Z)) (i : Z) : option (list Z) :=
  match lay with
  | RowMajor => split_index ix i
  | ColMajor => option_map (@rev Z) (split_index (rev ix) i)
  end.

(** Indexer.hpp 412-416: operator==. *)
Fixpoint indexer_eqb (x y : list (Z * Z)) : bool :=
  match x, y with
  | [], [] => true
  | (b, s) :: x', (b', s') :: y' => (b =? b') && (s =? s') && indexer_eqb x' y'
  | _, _ => false
  end.

(** Interval.hpp 137-139: Contains. *)
Fixpoint econtains (ext : extents) (t : list Z) : bool :=
  match ext, t with
  | [], [] => true
  | (b, e) :: ext', i :: t' => (b <=? i) && (i <? e) && econtains ext' t'
  | _, _ => false
  end.

(** ForEach.hpp 33-41, 52-71: nested loops, dimension 0 outermost, appending indices. *)
Fixpoint foreach_rm (ext : extents) : list (list Z) :=
  match ext with
  | [] => [[]]
  | (b, e) :: r => flat_map (fun i => map (cons i) (foreach_rm r)) (zrange b e)
  end.

(** ForEach.hpp 42-50, 72-90: nested loops, last dimension outermost, prepending
    indices.  [rext] lists the dimensions from the last to the first. *)
Fixpoint foreach_cm (rext : extents) (inner : list Z) : list (list Z) :=
  match rext with
  | [] => [inner]
  | (b, e) :: r => flat_map (fun i => foreach_cm r (i :: inner)) (zrange b e)
  end.

Definition foreach (lay : layout) (ext : extents) : list (list Z) :=
  match lay with RowMajor => foreach_rm ext | ColMajor => foreach_cm (rev ext) [] end.
