(** Model of src/core/Interval.hpp (integral case, N = MAX_DIMS), src/core/Range.inl,
    src/core/ForEach.hpp and the integer MapToUniformGridCell of src/core/Math.inl. *)
From Coq Require Import List ZArith Bool.
From Verif Require Import TupleModel.
Import ListNotations.
Open Scope Z_scope.

(** Interval.hpp 19-48: interval<int,3> with Begin_ and End_ (Range.hpp: range). *)
Record range : Type := mkR { rb : tup Z; re : tup Z }.

(** Interval.hpp 63-65: Size(iDim). *)
Definition rsize1 (r : range) (d : nat) : Z := Z.max (tget (re r) d - tget (rb r) d) 0.

(** Interval.hpp 60-62: Size(). *)
Definition rsize (r : range) : tup Z := tmake (rsize1 r).

(** Interval.hpp 69-78, 118-120: Count(), product of the sizes. *)
Definition rcount (r : range) : Z := rsize1 r 0 * (rsize1 r 1 * rsize1 r 2).

(** Interval.hpp 129-131, 143-150: Empty(). *)
Definition rempty (r : range) : bool := tany (fun d => tget (re r) d <=? tget (rb r) d).

(** Interval.hpp 133-135, 152-161: Contains(Tuple). *)
Definition rcontains (r : range) (t : tup Z) : bool :=
  tall (fun d => (tget (rb r) d <=? tget t d) && (tget t d <? tget (re r) d)).

(** Interval.hpp 80-89, 137-139: Includes(Other). *)
Definition rincludes (r o : range) : bool :=
  rempty o ||
  tall (fun d => (tget (rb r) d <=? tget (rb o) d) && (tget (re o) d <=? tget (re r) d)).

(** Interval.hpp 271-274: operator==. *)
Definition reqb (a b : range) : bool := teqb (rb a) (rb b) && teqb (re a) (re b).

(** Range.inl 6-21: MakeEmptyRange. *)
Definition make_empty_range (nd : nat) : range :=
  mkR (tmake (fun _ => 0)) (tmake (fun d => if Nat.ltb d nd then 0 else 1)).

(** Range.inl 23-41: ExtendRange. *)
Definition extend_range (r : range) (p : tup Z) : range :=
  if negb (rempty r) then
    mkR (tmake (fun d => Z.min (tget (rb r) d) (tget p d)))
        (tmake (fun d => Z.max (tget (re r) d) (tget p d + 1)))
  else
    mkR (tmake (fun d => tget p d)) (tmake (fun d => tget p d + 1)).

(** Range.inl 43-50: RangesOverlap. *)
Definition ranges_overlap (l r : range) : bool :=
  negb (rempty l) && negb (rempty r) &&
  tall (fun d => (tget (rb l) d <? tget (re r) d) && (tget (rb r) d <? tget (re l) d)).

(** Range.inl 52-69: UnionRanges. *)
Definition union_ranges (l r : range) : range :=
  if rempty l then r
  else if rempty r then l
  else mkR (tmake (fun d => Z.min (tget (rb l) d) (tget (rb r) d)))
           (tmake (fun d => Z.max (tget (re l) d) (tget (re r) d))).

(** Range.inl 71-82: IntersectRanges. *)
Definition intersect_ranges (l r : range) : range :=
  mkR (tmake (fun d => Z.max (tget (rb l) d) (tget (rb r) d)))
      (tmake (fun d => Z.min (tget (re l) d) (tget (re r) d))).

(** Range.inl 84-100: ClampToRange. *)
Definition clamp_to_range (r : range) (p : tup Z) : tup Z :=
  tmake (fun d =>
    if tget p d <? tget (rb r) d then tget (rb r) d
    else if tget (re r) d <=? tget p d then tget (re r) d - 1
    else tget p d).

(** A counted loop [for (T i = b; i < e; ++i)] as the list of its index values. *)
Fixpoint zseq (b : Z) (n : nat) : list Z :=
  match n with O => [] | S k => b :: zseq (b + 1) k end.

(** Indices visited by [for (T i = b; i < e; ++i)]. *)
Definition zrange (b e : Z) : list Z := zseq b (Z.to_nat (e - b)).

(** ForEach.hpp 34-42, 53-69: row-major nested loops, last dimension fastest. *)
Definition foreach_row (r : range) : list (tup Z) :=
  flat_map (fun i => flat_map (fun j => map (fun k => T3 i j k)
    (zrange (c2 (rb r)) (c2 (re r)))) (zrange (c1 (rb r)) (c1 (re r))))
    (zrange (c0 (rb r)) (c0 (re r))).

(** ForEach.hpp 43-51, 70-86: column-major nested loops, first dimension fastest.
    The same order is written out by hand as k/j/i loops throughout src/core. *)
Definition foreach_col (r : range) : list (tup Z) :=
  flat_map (fun k => flat_map (fun j => map (fun i => T3 i j k)
    (zrange (c0 (rb r)) (c0 (re r)))) (zrange (c1 (rb r)) (c1 (re r))))
    (zrange (c2 (rb r)) (c2 (re r))).

(** Math.inl 123-136: MapToUniformGridCell (integer overload).  C++ division by
    zero is undefined: [None]. *)
Definition floor_cell (origin size p : Z) : option Z :=
  if size =? 0 then None
  else let off := p - origin in
       Some (Z.quot off size - (if Z.rem off size <? 0 then 1 else 0)).

(** Math.inl 123-136, all dimensions; dimensions from NumDims on give 0 and are
    not divided. *)
Definition map_to_uniform_grid_cell (nd : nat) (origin size p : tup Z) : option (tup Z) :=
  let f d := if Nat.ltb d nd
             then floor_cell (tget origin d) (tget size d) (tget p d)
             else Some 0 in
  match f 0%nat, f 1%nat, f 2%nat with
  | Some x, Some y, Some z => Some (T3 x y z)
  | _, _, _ => None
  end.
