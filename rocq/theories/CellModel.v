(** Choosing the cells in which points lie, and the donors of receivers: model of src/core/AssemblerAssembly.cpp
    1651-1830 (overlap_data, BetterCell and the aggregation of the results of the fragments) and 4463-4575
    (choosing of donors, orphans).
    Simplifications: integers are unbounded; doubles are rationals, and in the choice of cells the results of the
    arithmetic are rounded by a function [rnd] that is a parameter; one pair of grids (choice of cells) or one grid (choice
    of donors) at a time; the three arrays of overlap_data are one list of entries; the fragments of all ranks are one list, in
    the order of the loops; not-a-number does not occur. *)
From Coq Require Import List ZArith QArith Qminmax Qabs Bool.
From Verif Require Import TupleModel RangeModel IndexerModel ArrayModel HashModel FieldModel.
Import ListNotations.
Local Open Scope Z_scope.

(** ** Choice of cells *)

(** fragment_overlap_data (1345-1350): for a query point, the index of the local point, the index of the cell (None for
    NO_CELL) and the coordinates in the cell. *)
Record query : Type := Query { q_point : Z; q_cell : option Z; q_coords : tup Q }.
(** overlap_data 1651-1663 *)
Record entry : Type := Entry { e_cell : tup Z; e_coords : tup Q; e_point : tup Z }.

Section Cells.
Variable rnd : Q -> Q.
Variable nd : nat.

Definition dims : list nat := seq 0 nd.

Definition q_lt (x y : Q) : bool := negb (Qle_bool y x).

(** 1674-1683: Inside *)
Definition inside (u : tup Q) : bool :=
  forallb (fun d => negb (q_lt (tget u d) 0 || q_lt 1 (tget u d))) dims.

(** 1692-1698: MaxCenterDistance *)
Definition center_distance (u : tup Q) : Q :=
  fold_left (fun a d => Qmax a (Qabs (rnd (tget u d - (1 # 2))%Q))) dims 0%Q.

(** 1714-1726: OutsideDistanceSq *)
Definition outside_distance (u : tup Q) : Q :=
  fold_left (fun a d => let o := if q_lt 1 (tget u d) then rnd (1 - tget u d)%Q
                                 else if q_lt (tget u d) 0 then rnd (- tget u d)%Q else 0%Q in
                        rnd (a + rnd (o * o))%Q) dims 0%Q.

(** 1669-1737: BetterCell *)
Definition better_cell (old new : tup Q) (iold inew : Z) : bool :=
  if inside old
  then if inside new
       then let a := center_distance old in let b := center_distance new in
            q_lt b a || (Qeq_bool b a && (inew <? iold))
       else false
  else if inside new then true
       else let a := outside_distance old in let b := outside_distance new in
            q_lt b a || (Qeq_bool b a && (inew <? iold)).

(** 1752-1765: OverlapMask *)
Definition mark (n : nat) (frags : list (list query)) : option (list bool) :=
  ofoldl (fun m fr => ofoldl (fun m q => let! b := vread m (q_point q) in
                                         match q_cell q with
                                         | Some _ => if b : bool then Some m else vwrite m (q_point q) true
                                         | None => Some m
                                         end) fr m) frags (repeat false n).

(** 1766-1773: NumOverlappingBefore (initially -1) and NumOverlapping *)
Definition number (mask : list bool) : list Z * Z :=
  fold_left (fun a b => if b : bool then (fst a ++ [snd a], snd a + 1) else (fst a ++ [-1], snd a)) mask ([], 0).

(** 1784-1827, for one query point *)
Definition put_entry (cellR loc : range) (before : list Z) (arr : list (option entry)) (q : query) : option (list (option entry)) :=
  match q_cell q with
  | None => Some arr
  | Some i =>
      let! k := vread before (q_point q) in
      let! p := rtuple ColMajor loc (q_point q) in
      let! cell := rtuple ColMajor cellR i in
      let! x := vread arr k in
      match x with
      | None => vwrite arr k (Some (Entry cell (q_coords q) p))
      | Some e => if better_cell (e_coords e) (q_coords q) (rindex ColMajor cellR (e_cell e)) i
                  then vwrite arr k (Some (Entry cell (q_coords q) (e_point e)))
                  else Some arr
      end
  end.

(** 1748-1830: the overlap data of the pair; an element that is not filled is undefined.  If there is none, nothing is
    inserted for the pair. *)
Definition aggregate (cellR loc : range) (frags : list (list query)) : option (list entry) :=
  let! mask := mark (Z.to_nat (rcount loc)) frags in
  let (before, n) := number mask in
  if n =? 0 then Some []
  else let! arr := ofoldl (fun a fr => ofoldl (put_entry cellR loc before) fr a) frags (repeat None (Z.to_nat n)) in
       omap (fun x => x) arr.
End Cells.

(** ** Choice of donors *)

(** Assembler.hpp: enum class occludes *)
Inductive occludes : Type := OCC_NONE | OCC_ALL | OCC_COARSE.

(** What is known of an overlap on one rank of the N grid: the ID of the M grid; ConnectionType is not NONE;
    DisjointConnections; EdgePadding; the mask of the overlap component, on the local range; the mask after the
    earlier stages, on the extended range; receiver distances and volumes, one per overlapping point. *)
Record overlap : Type := Overlap {
  o_m : Z; o_connects : bool; o_disjoint : bool; o_padding : Z;
  o_base : list bool; o_mask : list bool; o_distances : list Z; o_volumes : list Q }.

(** DonorGridIDs, DonorNormalizedDistances, DonorVolumes at a point *)
Record donor_state : Type := DS { s_id : Z; s_distance : Q; s_volume : Q }.

Section Donors.
Variables (occ : Z -> Z -> occludes) (loc ext : range).

(** 4475 *)
Definition TOLERANCE : Q := 1 # 1000000000000.

(** 4504-4506 *)
Definition normalized (dist padding : Z) : Q := Qmin (inject_Z dist / inject_Z (1 + padding))%Q 1%Q.

(** 4513-4534: BetterDonor *)
Definition better_donor (s : donor_state) (m : Z) (x v : Q) : bool :=
  if q_lt TOLERANCE (Qabs (x - s_distance s)%Q) then q_lt (s_distance s) x
  else match occ (s_id s) m with
       | OCC_ALL => false
       | OCC_NONE => true
       | OCC_COARSE => q_lt v (s_volume s)
       end.

(** 4507-4542, at a point *)
Definition donor_step (disjoint : bool) (m : Z) (x v : Q) (s : donor_state) : donor_state :=
  if s_id s <? 0
  then if negb disjoint || q_lt 0 x then DS m x v else s
  else if better_donor s m x v
       then if negb disjoint || q_lt 0 x then DS m x v else s
       else s.

(** 4497-4548, at a point; the number of overlapping points so far *)
Definition donor_point (receiver : list bool) (o : overlap) (st : list donor_state * Z) (p : tup Z) : option (list donor_state * Z) :=
  let! b := fread loc (o_base o) p in
  if b : bool
  then let! rcv := fread ext receiver p in
       let! ovl := (if rcv : bool then fread ext (o_mask o) p else Some false) in
       if ovl : bool
       then let! dist := vread (o_distances o) (snd st) in
            let! v := vread (o_volumes o) (snd st) in
            let! s := fread loc (fst st) p in
            let! l := fwrite loc (fst st) p (donor_step (o_disjoint o) (o_m o) (normalized dist (o_padding o)) v s) in
            Some (l, snd st + 1)
       else Some (fst st, snd st + 1)
  else Some st.

(** 4477-4550, the overlaps in the order of the IDs of the M grids *)
Definition donor_overlap (receiver : list bool) (l : list donor_state) (o : overlap) : option (list donor_state) :=
  if o_connects o
  then let! st := ofoldl (donor_point receiver o) (RangeModel.foreach_col loc) (l, 0) in Some (fst st)
  else Some l.

(** 4463-4473: the fields of distances and volumes are not initialised, but are read only where the
    ID is not negative. *)
Definition choose_donors (receiver : list bool) (overlaps : list overlap) : option (list donor_state) :=
  ofoldl (donor_overlap receiver) overlaps (repeat (DS (-1) 0%Q 0%Q) (Z.to_nat (rcount loc))).

(** 4551-4568: OrphanMask on the local range *)
Definition orphan_at (receiver : list bool) (donors : list donor_state) (p : tup Z) : option bool :=
  let! rcv := fread ext receiver p in
  if rcv : bool then let! s := fread loc donors p in Some (s_id s <? 0) else Some false.
End Donors.
