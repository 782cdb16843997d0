(** Region hashes: model of src/core/RegionHash.inl, of the hashable_region_traits of ranges
    (Range.hpp 38-60) and boxes (Box.hpp 34-52), of MapToUniformGridCell (Math.inl 123-152), and
    of what src/core/DistributedRegionHash.inl shares with them.
    Simplifications: integers are unbounded; doubles are rationals, and the results of the
    arithmetic on doubles are rounded by a function [rnd] that is a parameter. *)
From Coq Require Import List ZArith QArith Qround Bool.
From Verif Require Import TupleModel RangeModel BoxModel IndexerModel ArrayModel ContModel.
Import ListNotations.
Local Open Scope Z_scope.

Notation "'let!' x := a 'in' b" := (match a with Some x => b | None => None end)
  (at level 200, x name, a at level 100, b at level 200).

Fixpoint ofoldl {S A} (f : S -> A -> option S) (l : list A) (s : S) : option S :=
  match l with [] => Some s | a :: r => let! s' := f s a in ofoldl f r s' end.

Definition omap {A B} (f : A -> option B) (l : list A) : option (list B) :=
  fold_right (fun a r => let! b := f a in let! bs := r in Some (b :: bs)) (Some []) l.

Definition tmake_opt {A} (f : nat -> option A) : option (tup A) :=
  let! x := f 0%nat in let! y := f 1%nat in let! z := f 2%nat in Some (T3 x y z).

(** range_indexer and field_indexer (Range.hpp 28-33, Field.hpp): indexers over a range. *)
Definition tlist (t : tup Z) : list Z := [c0 t; c1 t; c2 t].
Definition rexts (r : range) : extents :=
  [(c0 (rb r), c0 (re r)); (c1 (rb r), c1 (re r)); (c2 (rb r), c2 (re r))].
Definition rindex (lay : layout) (r : range) (t : tup Z) : Z :=
  to_index (indexer lay (rexts r)) (tlist t).
Definition rtuple (lay : layout) (r : range) (i : Z) : option (tup Z) :=
  match to_tuple lay (indexer lay (rexts r)) i with
  | Some [x; y; z] => Some (T3 x y z)
  | _ => None
  end.

(** Range.hpp: range({n0,n1,n2}), from the origin to n. *)
Definition range_of (n : tup Z) : range := mkR (T3 0 0 0) n.

(** The operations on coordinates of type C and extents of type X (interval<C,3>) that
    differ between int and double. *)
Record coords (C X : Type) : Type := Coords {
  k_mk : tup C -> tup C -> X; k_b : X -> tup C; k_e : X -> tup C;
  k_empty : nat -> X;                         (* MakeEmptyExtents_ *)
  k_union : X -> X -> X;                      (* UnionExtents_ *)
  k_contains : X -> tup C -> bool;            (* interval::Contains *)
  k_size : X -> tup Z -> option (tup C);      (* GetBinSize_ *)
  k_cell : C -> C -> C -> option Z;           (* one component of MapToUniformGridCell *)
  k_min : C -> C -> C; k_max : C -> C -> C;
  k_corner : C -> Z -> C -> C }.              (* Origin + coord_type(Loc)*Size *)
Arguments k_mk {C X}. Arguments k_b {C X}. Arguments k_e {C X}. Arguments k_empty {C X}.
Arguments k_union {C X}. Arguments k_contains {C X}. Arguments k_size {C X}. Arguments k_cell {C X}.
Arguments k_min {C X}. Arguments k_max {C X}. Arguments k_corner {C X}.

(** RegionHash.inl 209-219 (and DistributedRegionHash.inl 766-776): GetBinSize_ on int;
    division by zero is undefined. *)
Definition zbin_size (x : range) (n : tup Z) : option (tup Z) :=
  tmake_opt (fun d => if tget n d =? 0 then None
                      else Some (Z.quot (rsize1 x d + tget n d - 1) (tget n d))).

Definition zcoords : coords Z range :=
  Coords Z range mkR rb re make_empty_range union_ranges rcontains zbin_size floor_cell
         Z.min Z.max (fun o l s => o + l * s).

(** RegionHash.inl 221-231 (and DistributedRegionHash.inl 778-788): GetBinSize_ on double;
    Interval.hpp 63-65: Size. *)
Definition qbin_size (rnd : Q -> Q) (x : box) (n : tup Z) : option (tup Q) :=
  tmake_opt (fun d => if tget n d =? 0 then None
                      else Some (rnd (qmax (rnd (tget (be x) d - tget (bb x) d)) 0 /
                                      inject_Z (tget n d))%Q)).

(** Math.inl 138-151, one component; the conversion of infinities and NaN (from a cell size
    of zero) to int is undefined. *)
Definition qfloor_cell (rnd : Q -> Q) (o s p : Q) : option Z :=
  if Qeq_bool s 0 then None else Some (Qfloor (rnd (rnd (p - o) / s))%Q).

Definition qcoords (rnd : Q -> Q) : coords Q box :=
  Coords Q box mkB bb be make_empty_box union_boxes bcontains (qbin_size rnd) (qfloor_cell rnd)
         qmin qmax (fun o l s => rnd (o + rnd (inject_Z l * s)))%Q.

(** Math.inl 123-152: dimensions from NumDims on give 0 and are not divided. *)
Definition grid_cell {C} (cell : C -> C -> C -> option Z) (nd : nat) (o s p : tup C) : option (tup Z) :=
  tmake_opt (fun d => if Nat.ltb d nd then cell (tget o d) (tget s d) (tget p d) else Some 0).

(** The result of hashable_region_traits::MapToBins: a range of bins or a set of bin
    indices (RegionHash.hpp 17-26). *)
Inductive mapped : Type := MapRange (r : range) | MapSet (l : list Z).

(** hashable_region_traits: ComputeExtents(NumDims, Region) and MapToBins(NumDims, BinRange,
    BinIndexer, LowerCorner, BinSize, Region). *)
Record traits (C X R : Type) : Type := Traits {
  t_ext : nat -> R -> X;
  t_map : nat -> range -> (tup Z -> Z) -> tup C -> tup C -> R -> option mapped }.
Arguments t_ext {C X R}. Arguments t_map {C X R}.

(** Range.hpp 52-59 and Box.hpp 42-49: the bins between those of two corners. *)
Definition corner_bins {C} (cell : C -> C -> C -> option Z) (nd : nat) (bins : range) (o s lo up : tup C)
    : option mapped :=
  let! l := grid_cell cell nd o s lo in
  let! u := grid_cell cell nd o s up in
  Some (MapRange (extend_range (extend_range (make_empty_range nd) (clamp_to_range bins l))
                               (clamp_to_range bins u))).

(** Range.hpp 38-60. *)
Definition range_traits : traits Z range range :=
  Traits Z range range (fun _ r => r)
    (fun nd bins _ o s r =>
       corner_bins floor_cell nd bins o s (rb r) (tmake (fun d => tget (re r) d - 1))).

(** Box.hpp 34-52. *)
Definition box_traits (rnd : Q -> Q) : traits Q box box :=
  Traits Q box box (fun _ b => b)
    (fun nd bins _ o s b => corner_bins (qfloor_cell rnd) nd bins o s (bb b) (be b)).

(** ** Lists of regions by bin *)

(** ++Counts[i] *)
Definition bump (l : list Z) (i : Z) : option (list Z) :=
  let! x := vread l i in vwrite l i (x + 1).

(** RegionHash.inl 43-47, 111-132 (DistributedRegionHash.inl 252-259): the number of regions in
    each of n bins; [visits] lists the bins of each region in the order they are visited. *)
Definition csr_counts (n : nat) (visits : list (list Z)) : option (list Z) :=
  ofoldl bump (concat visits) (repeat 0 n).

(** RegionHash.inl 51-62 (DistributedRegionHash.inl 261-273): Starts(Bin) = the number of region
    indices in the bins before; [order] lists the bins as the loop visits them. *)
Definition csr_starts (order : list Z) (counts starts : list Z) : option (list Z * Z) :=
  ofoldl (fun s b => let! st := vwrite (fst s) b (snd s) in
                     let! c := vread counts b in
                     Some (st, snd s + c)) order (starts, 0).

(** RegionHash.inl 134-161 (DistributedRegionHash.inl 281-287): the region's index goes to the
    next free place of each of its bins.  [s]: the region indices and the numbers of
    regions added. *)
Definition csr_add (starts : list Z) (i : Z) (s : list Z * list Z) (b : Z) : option (list Z * list Z) :=
  let! st := vread starts b in
  let! k := vread (snd s) b in
  let! ind := vwrite (fst s) (st + k) i in
  let! added := bump (snd s) b in
  Some (ind, added).

Fixpoint csr_fill (starts : list Z) (i : Z) (visits : list (list Z)) (s : list Z * list Z)
    : option (list Z * list Z) :=
  match visits with
  | [] => Some s
  | v :: r => let! s' := ofoldl (csr_add starts i) v s in csr_fill starts (i + 1) r s'
  end.

(** A contiguous part of an array: array_view(Data(b), {0,n}). *)
Definition slice (l : list Z) (b n : Z) : option (list Z) :=
  omap (fun k => vread l (b + k)) (zrange 0 n).

(** ** region_hash *)

Record region_hash (C X : Type) : Type := Hash {
  h_nd : nat; h_bins : range; h_ext : X; h_size : tup C; h_starts : list Z; h_ind : list Z }.
Arguments Hash {C X}. Arguments h_nd {C X}. Arguments h_bins {C X}. Arguments h_ext {C X}.
Arguments h_size {C X}. Arguments h_starts {C X}. Arguments h_ind {C X}.

(** The bins visited by AccumulateBinRegionCounts_ and AddToBins_, 111-161. *)
Definition visits_of (bins : range) (m : mapped) : list Z :=
  match m with
  | MapRange r => map (rindex ColMajor bins) (foreach_col r)
  | MapSet l => l
  end.

(** 22-24: the extents of all regions. *)
Definition hash_extents {C X R} (k : coords C X) (t : traits C X R) (nd : nat) (regions : list R) : X :=
  fold_left (fun x r => k_union k x (t_ext t nd r)) regions (k_empty k nd).

(** 16-74: the constructor. *)
Definition hash_build {C X R} (k : coords C X) (t : traits C X R) (nd : nat) (n : tup Z) (regions : list R)
    : option (region_hash C X) :=
  let bins := range_of n in
  let x := hash_extents k t nd regions in
  let! size := k_size k x n in
  let! over := omap (t_map t nd bins (rindex ColMajor bins) (k_b k x) size) regions in
  let visits := map (visits_of bins) over in
  let! counts := csr_counts (Z.to_nat (rcount bins)) visits in
  let! st := csr_starts (map (rindex ColMajor bins) (foreach_col bins)) counts
                        (repeat 0 (Z.to_nat (rcount bins + 1))) in
  let! starts := vwrite (fst st) (rcount bins - 1 + 1) (snd st) in
  let! f := csr_fill starts 0 visits
                     (repeat 0 (Z.to_nat (snd st)), repeat 0 (Z.to_nat (rcount bins))) in
  Some (Hash nd bins x size starts (fst f)).

(** 76-89: MapToBin, -1 for points outside of the extents. *)
Definition hash_bin {C X} (k : coords C X) (h : region_hash C X) (p : tup C) : option Z :=
  if k_contains k (h_ext h) p then
    let! c := grid_cell (k_cell k) (h_nd h) (k_b k (h_ext h)) (h_size h) p in
    Some (rindex ColMajor (h_bins h) (clamp_to_range (h_bins h) c))
  else Some (-1).

(** 91-99: RetrieveBin. *)
Definition hash_retrieve {C X} (h : region_hash C X) (b : Z) : option (list Z) :=
  let! s := vread (h_starts h) b in
  let! e := vread (h_starts h) (b + 1) in
  slice (h_ind h) s (e - s).
