(** Operations on distributed fields: model of distributed_field::Fill over a range
    (src/core/DistributedField.hpp 125-150) and of CountDistributedMask, DetectEdge, DilateMask and
    ErodeMask (src/core/DistributedFieldOps.cpp 35-202).
    [L r] and [E r] are the local and extended range of rank r's partition, a field is the list of the
    values on the extended range in column-major order, together with the halo map of its partition.
    X.Exchange() returns a request whose destructor waits (Request.hpp 31-33), so the
    exchange is over when the statement is. *)
From Coq Require Import List ZArith Bool.
From Verif Require Import TupleModel RangeModel CartModel DecompModel IndexerModel ArrayModel ContModel HashModel.
From Verif Require Import NetModel LiftModel HaloModel PartModel.
Import ListNotations.
Local Open Scope Z_scope.

(** Field.hpp: operator()(Point); a point outside the range of the field is an error. *)
Definition fread {V} (e : range) (data : list V) (p : tup Z) : option V :=
  if rcontains e p then vread data (rindex ColMajor e p) else None.
Definition fwrite {V} (e : range) (data : list V) (p : tup Z) (v : V) : option (list V) :=
  if rcontains e p then vwrite data (rindex ColMajor e p) v else None.

(** ** CountDistributedMask, DistributedFieldOps.cpp 35-51 *)

Definition count_local (loc e : range) (data : list bool) : option Z :=
  ofoldl (fun k p => let! b := fread e data p in Some (k + if b : bool then 1 else 0))
         (RangeModel.foreach_col loc) 0.

Inductive cst : Type := CMask (data : list bool) | CCount (k : Z).

Definition count_sum (l : list cst) (r : nat) : option cst :=
  let! ks := omap (fun s => match s with CCount k => Some k | _ => None end) l in
  Some (CCount (fold_left Z.add ks 0)).

Definition count_mask (L E : nat -> range) : list (phase cst unit) :=
  [Local (fun r s => match s with
                     | CMask d => let! k := count_local (L r) (E r) d in Some (CCount k)
                     | _ => None
                     end);
   Coll count_sum].

(** ** distributed_field::Fill(Range, Value) *)

(** DistributedField.hpp 125-147.  Values_.Fill(IntersectRange, Value) sets the points of the
    intersection (ArrayProps.v: filling an interval). *)
Definition fill_point {V} (c : cart) (loc e : range) (v : V) (data : list V) (p : tup Z) : option (list V) :=
  if rcontains loc p then fwrite e data p v
  else let! u := periodic_adjust c p in
       if rcontains loc u then fwrite e data u v else Some data.

Definition fill_local {V} (c : cart) (loc e rng : range) (v : V) (data : list V) : option (list V) :=
  if rincludes (c_range c) rng
  then ofoldl (fun d p => fwrite e d p v) (RangeModel.foreach_col (intersect_ranges loc rng)) data
  else ofoldl (fill_point c loc e v) (RangeModel.foreach_col rng) data.

Definition fill_range {V} (c : cart) (L E : nat -> range) (rng : range) (v : V) : list (phase (hmap * list V) (list V)) :=
  [Local (fun r s => let! d := fill_local c (L r) (E r) rng v (snd s) in Some (fst s, d)); halo_exchange].

(** ** DetectEdge *)

(** DistributedFieldOps.hpp: enum class edge_type, enum class mask_bc. *)
Inductive edge_type := INNER | OUTER.
Inductive mask_bc := BC_TRUE | BC_FALSE | BC_MIRROR.

(** 86-91, 105-109: Point + Max(GlobalLowerCorner-Point, Zero) + Min(GlobalUpperCorner-Point, Zero); the
    corners are 0 in the dimensions the grid does not have. *)
Definition mirror_point (c : cart) (p : tup Z) : tup Z :=
  let lo := tmake (fun d => if Nat.ltb d (c_nd c) then tget (rb (c_range c)) d else 0) in
  let up := tmake (fun d => if Nat.ltb d (c_nd c) then tget (re (c_range c)) d - 1 else 0) in
  tmake (fun d => tget p d + Z.max (tget lo d - tget p d) 0 + Z.min (tget up d - tget p d) 0).

(** 93-118: GetMaskValue. *)
Definition mask_value (c : cart) (e : range) (bc : mask_bc) (data : list bool) (p : tup Z) : option bool :=
  if rcontains e p then fread e data p
  else match bc with
       | BC_TRUE => Some true
       | BC_FALSE => Some false
       | BC_MIRROR => fread e data (mirror_point c p)
       end.

(** 129-137: NeighborRange. *)
Definition neighbor_range (nd : nat) (p : tup Z) : range :=
  mkR (tmake (fun d => if Nat.ltb d nd then tget p d - 1 else 0))
      (tmake (fun d => if Nat.ltb d nd then tget p d + 2 else 1)).

(** 120: EdgeValue. *)
Definition edge_value (ty : edge_type) : bool := match ty with INNER => true | OUTER => false end.

(** 122-153, the body of the loop. *)
Definition edge_point (c : cart) (e : range) (bc : mask_bc) (ty : edge_type) (mask : list bool)
    (eext : range) (edge : list bool) (p : tup Z) : option (list bool) :=
  let! v := mask_value c e bc mask p in
  if Bool.eqb v (edge_value ty) then
    let! l := omap (mask_value c e bc mask) (RangeModel.foreach_col (neighbor_range (c_nd c) p)) in
    if existsb (fun w => negb (Bool.eqb w v)) l then fwrite eext edge p true else Some edge
  else Some edge.

(** 84, 120-153: EdgeMask is false on the extended range of the edge partition, then set in the loop
    over its local range. *)
Definition edge_local (c : cart) (e : range) (bc : mask_bc) (ty : edge_type) (eloc eext : range)
    (mask : list bool) : option (list bool) :=
  ofoldl (edge_point c e bc ty mask eext) (RangeModel.foreach_col eloc)
         (repeat false (Z.to_nat (rcount eext))).

(** Mask and EdgeMask on one partition (IncludeExteriorPoint false). *)
Record est : Type := ES { e_map : hmap; e_mask : list bool; e_edge : list bool }.

Definition e_get (s : est) : option (hmap * list bool) := Some (e_map s, e_edge s).
Definition e_put (s : est) (a : hmap * list bool) : est := ES (fst a) (e_mask s) (snd a).

(** 81-84, 120-155. *)
Definition detect_edge (c : cart) (L E : nat -> range) (bc : mask_bc) (ty : edge_type) : list (phase est (list bool)) :=
  Local (fun r s => let! d := edge_local c (E r) bc ty (L r) (E r) (e_mask s) in
                    Some (ES (e_map s) (e_mask s) d)) ::
  lift e_get e_put [halo_exchange].

(** 62-80 with IncludeExteriorPoint and no partition pool: the partition of the mask is given by its
    ranges and neighbour ranks; a partition of the domain with the exterior points is made with
    the same neighbours, the edge is computed, and exchanged on the new partition. *)
Definition exterior_start (c : cart) (r : nat) (s : pst bool) : option (pst bool) :=
  match s with
  | PInfo (I0 (loc, ext) ranks) data =>
      Some (PInfo (I0 (range_include_exterior c loc, range_include_exterior c ext) ranks) data)
  | _ => None
  end.

Definition detect_edge_exterior (c : cart) (n : nat) (L E : nat -> range) (bc : mask_bc) (ty : edge_type)
    : list (phase (pst bool) (pmsg bool)) :=
  [Local (exterior_start c)] ++
  lift p_info p_put_info (remsg MInfo m_info (retrieve_info n)) ++
  [Local (part_map (cart_include_exterior c));
   Local (fun r s => match s with
                     | PHalo (h, mask) =>
                         let! d := edge_local c (E r) bc ty (range_include_exterior c (L r))
                                     (range_include_exterior c (E r)) mask in
                         Some (PHalo (h, d))
                     | _ => None
                     end)] ++
  lift p_halo p_put_halo (remsg MData m_data [halo_exchange]).

(** ** DilateMask, ErodeMask, 157-202 *)

(** 193-197 *)
Definition apply_edge (fill : bool) (s : est) : option est :=
  let! d := omap (fun l => let! b := vread (e_edge s) l in let! v := vread (e_mask s) l in
                           Some (if b : bool then fill else v))
                 (zseq 0 (length (e_mask s))) in
  Some (ES (e_map s) d (e_edge s)).

(** 175-198 *)
Definition dilate_erode (c : cart) (L E : nat -> range) (bc : mask_bc) (amount : Z) : list (phase est (list bool)) :=
  let fill := 0 <? amount in
  concat (repeat (detect_edge c L E bc (if fill then OUTER else INNER) ++
                  [Local (fun _ s => apply_edge fill s)])
                 (Z.to_nat (Z.abs amount))).

(** 157-167 *)
Definition dilate_mask (c : cart) (L E : nat -> range) (bc : mask_bc) (amount : Z) := dilate_erode c L E bc amount.
Definition erode_mask (c : cart) (L E : nat -> range) (bc : mask_bc) (amount : Z) := dilate_erode c L E bc (- amount).

(** A partition on every rank, for the fields above: Grid.cpp 78-98 and Partition.cpp 50-64, as in
    PartModel.v but without exchanging a field. *)
Definition make_partition {V} (c : cart) (n : nat) (decomp : range -> Z -> tup Z)
    (ratio : tup Z -> list range -> option Z) : list (phase (pst V) (pmsg V)) :=
  [Local part_start] ++
  lift p_neigh p_put_neigh (remsg MHash m_hash (NeighModel.detect_neighbors c n decomp ratio)) ++
  [Local part_info] ++
  lift p_info p_put_info (remsg MInfo m_info (retrieve_info n)) ++
  [Local (part_map c)].
