(** Occluded points: model of src/core/AssemblerAssembly.cpp 3522-3986 (DetectOccluded_), for all grids of a domain.
    A mask of a grid is a function on its points.

    Simplifications: the masks are those of the whole grids.  That the processes with their parts of the masks
    compute the same is C14 for Exchange, C47 for dilating and eroding, and C85 for the values that are collected on one grid and
    dispersed on the other.  Volumes are rationals.  Counting and logging are left out. *)
From Coq Require Import List ZArith QArith Bool.
From Verif Require Import TupleModel RangeModel CartModel HaloModel HashModel ArrayModel.
Import ListNotations.
Local Open Scope Z_scope.

(** Assembler.h: ovk_occludes *)
Inductive occludes := O_NONE | O_ALL | O_COARSE.
Definition is_none (o : occludes) : bool := match o with O_NONE => true | _ => false end.
Definition is_coarse (o : occludes) : bool := match o with O_COARSE => true | _ => false end.

Definition mask := tup Z -> bool.

(** The grids of the domain; the overlaps (M,N) of the overlap component (2052-2111: those where a point of
    the N grid lies in the bounding box of a fragment of the M grid); for each of them and each point of the N
    grid the vertices of the cell found for it, if any, the overlap mask and the volumes interpolated on the M
    grid (only where there is a cell); volumes, outer fringe and active points of the grids; options. *)
Record odata : Type := OD {
  od_grids : list Z; od_cart : Z -> cart; od_pairs : list (Z * Z);
  od_vertices : Z * Z -> tup Z -> option (list (tup Z)); od_overlap : Z * Z -> mask; od_interp : Z * Z -> tup Z -> Q;
  od_volume : Z -> tup Z -> Q; od_fringe : Z -> mask; od_active : Z -> mask;
  od_occludes : Z * Z -> occludes; od_padding : Z * Z -> Z; od_smoothing : Z -> Z }.

(** elem_map: entries with their keys. *)
Definition pmap : Type := list ((Z * Z) * mask).
Definition pair_eqb (a b : Z * Z) : bool := (fst a =? fst b) && (snd a =? snd b).
(** Map.hpp 450-458: operator() with a key that is not in the map takes whatever entry comes next; here it fails. *)
Definition entry_of (m : pmap) (k : Z * Z) : option mask := option_map snd (find (fun e => pair_eqb (fst e) k) m).
Definition swap (k : Z * Z) : Z * Z := (snd k, fst k).

(** Misc.cpp (DilateMask, ErodeMask with MIRROR): the points at most k points, with periodic wrap, from a
    point of the mask.  [near_dim]: an image of v is at most k from u in direction d. *)
Definition near_dim (c : cart) (k : Z) (u v : tup Z) (d : nat) : bool :=
  if Nat.ltb d (c_nd c) then
    if tget (c_per c) d then ((tget u d - tget v d) mod period_size1 c d <=? k) || ((tget v d - tget u d) mod period_size1 c d <=? k)
    else Z.abs (tget u d - tget v d) <=? k
  else tget u d =? tget v d.
Definition near_pt (c : cart) (k : Z) (u v : tup Z) : bool := near_dim c k u v 0 && near_dim c k u v 1 && near_dim c k u v 2.
Definition dilate (c : cart) (k : Z) (m : mask) : mask :=
  if k =? 0 then m else fun u => existsb (fun v => if near_pt c k u v then m v else false) (foreach_col (c_range c)).
Definition erode (c : cart) (k : Z) (m : mask) : mask := fun u => negb (dilate c k (fun v => negb (m v)) u).

Section Occlusion.
Variable X : odata.
Notation occ := (od_occludes X).

(** 3552, the largest relative difference of volumes that are taken to be the same. *)
Definition TOLERANCE : Q := 1 # 10000000000.

(** 3554-3594.  For NONE the entry has no values; it is left out, since it is not read. *)
Definition pairwise0 (k : Z * Z) : mask :=
  match occ k with
  | O_COARSE => fun p => match od_vertices X k p with
                         | Some _ => od_overlap X k p && negb (Qle_bool (od_volume X (snd k) p) ((1 + TOLERANCE) * od_interp X k p))
                         | None => false
                         end
  | _ => od_overlap X k
  end.
Definition used : list (Z * Z) := filter (fun k => negb (is_none (occ k))) (od_pairs X).
Definition pairwise_all : pmap := map (fun k => (k, pairwise0 k)) used.

(** 3613-3616: MutuallyOccludes. *)
Definition mutual (k : Z * Z) : bool := is_coarse (occ k) && is_coarse (occ (swap k)).

(** CollectNone of a mask of the M grid (C85_flags); [other]: the value without a cell. *)
Definition none_of (k : Z * Z) (m other : mask) : mask :=
  fun p => match od_vertices X k p with Some vs => forallb (fun v => negb (m v)) vs | None => other p end.

(** One of the two rounds, 3648-3690 with NGridID > MGridID and 3692-3734 with NGridID < MGridID: all values are
    collected before any mask is written. *)
Definition exclude (higher : bool) (m : pmap) : option pmap :=
  omap (fun e =>
    let k := fst e in
    if mutual k && (if higher then negb (snd k <? fst k) else negb (fst k <? snd k))
    then let! o := entry_of m (swap k) in Some (k, none_of k o (snd e))
    else Some e) m.

(** 3775-3798: the points of the M grid that the points it occludes must be away from. *)
Definition disallow (m : pmap) (k : Z * Z) : option mask :=
  let! d := if is_none (occ (swap k)) then Some (od_fringe X (fst k))
            else let! o := entry_of m (swap k) in Some (fun p => od_fringe X (fst k) p || o p || negb (od_active X (fst k) p)) in
  Some (dilate (od_cart X (fst k)) (od_padding X k) d).

(** 3839-3855: the padding mask.  AllowMask has no values without a cell ([junk]). *)
Variable junk : mask.
Definition padding (m : pmap) (e : (Z * Z) * mask) : option ((Z * Z) * mask) :=
  let! d := disallow m (fst e) in
  let allow := none_of (fst e) d junk in
  Some (fst e, fun p => negb (allow p) && snd e p).

(** The masks of the pairs with the N grid g, together. *)
Definition any_for (g : Z) (m : pmap) : mask := fun p => existsb (fun e => (snd (fst e) =? g) && snd e p) m.

(** 3856-3863: BaseOcclusionMask and OcclusionMask; 3866-3877: smoothing. *)
Definition both (f : bool -> bool -> bool) (a b : pmap) : pmap := map (fun x => (fst (fst x), fun p => f (snd (fst x) p) (snd (snd x) p))) (combine a b).
Definition smoothed (g : Z) (occl base : mask) : mask :=
  let s := od_smoothing X g in
  if s =? 0 then occl else let c := od_cart X g in fun p => erode c s (dilate c s occl) p && base p.

(** 3773-3895: the final PairwiseOcclusionMasks. *)
Definition pairwise_masks : option pmap :=
  let! m1 := exclude true pairwise_all in
  let! m2 := exclude false m1 in
  let! pad := omap (padding m2) m2 in
  let unpadded := both (fun a b => a && negb b) m2 pad in
  let occl := map (fun g => (g, smoothed g (any_for g unpadded) (any_for g m2))) (od_grids X) in
  let of_grid := fun g p => existsb (fun e => (fst e =? g) && snd e p) occl in
  let pad' := map (fun e => (fst e, fun p => snd e p && negb (of_grid (snd (fst e)) p))) pad in
  Some (both (fun a b => a && negb b) m2 pad').
(** 3937-3952: the final OcclusionMask of each grid. *)
Definition detect_occluded : option (list (Z * mask)) :=
  let! final := pairwise_masks in Some (map (fun g => (g, any_for g final)) (od_grids X)).
End Occlusion.
