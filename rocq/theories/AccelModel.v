(** Search of the cell of a fragment that contains a point: model of src/core/OverlapAccel.cpp.
    Simplifications: integers are unbounded; doubles are rationals, and the results of the arithmetic are rounded by a
    function [rnd] that is a parameter; the bounds of the cells (24-43), the tests OverlapsCell and CoordsInCell and the
    criteria of a leaf (153-184: numbers and volumes of cells) are any functions; a cell index is kept together with the
    bounds of the cell; no distance is as great as numeric_limits<double>::max(). *)
From Coq Require Import List ZArith QArith Qround Bool.
From Verif Require Import TupleModel RangeModel BoxModel IndexerModel ArrayModel HashModel CellModel.
Import ListNotations.
Local Open Scope Z_scope.

(** OverlapAccel.hpp 41-49 *)
Inductive node : Type :=
| Leaf (cells : list Z) (hash : region_hash Q box)
| Fork (dim : nat) (split : Q) (left right : node).

Section Accel.
Variables (rnd : Q -> Q) (nd : nat).

(** Interval.hpp 63-65 *)
Definition bsize (b : box) (d : nat) : Q := qmax (rnd (tget (be b) d - tget (bb b) d)%Q) 0%Q.

(** 151-154 *)
Definition node_bounds (cs : list (Z * box)) : box :=
  fold_left (fun b ic => union_boxes b (snd ic)) cs (make_empty_box nd).

(** 192-197 *)
Definition fork_dim (b : box) : nat := fold_left (fun s d => if qlt (bsize b s) (bsize b d) then d else s) (seq 0 nd) 1%nat.

(** max(double(NumContainedCells), 1.) *)
Definition at_least_one (n : nat) : Q := qmax (inject_Z (Z.of_nat n)) 1.

(** 199-204 *)
Definition fork_at (cs : list (Z * box)) (d : nat) : Q :=
  rnd (fold_left (fun a ic => rnd (a + rnd ((1 # 2) * rnd (tget (bb (snd ic)) d + tget (be (snd ic)) d))))%Q cs 0%Q / at_least_one (length cs))%Q.

(** 218-225 *)
Definition left_cells (cs : list (Z * box)) (d : nat) (at_ : Q) : list (Z * box) := filter (fun ic => Qle_bool (tget (bb (snd ic)) d) at_) cs.
Definition right_cells (cs : list (Z * box)) (d : nat) (at_ : Q) : list (Z * box) := filter (fun ic => Qle_bool at_ (tget (be (snd ic)) d)) cs.

(** 236-257; the conversion of infinities and NaN to int is undefined. *)
Definition mean_size (cs : list (Z * box)) (d : nat) : Q :=
  rnd (fold_left (fun a ic => rnd (a + bsize (snd ic) d))%Q cs 0%Q / at_least_one (length cs))%Q.
Definition num_bins (scale : Q) (cs : list (Z * box)) : option (tup Z) :=
  if 1 <? Z.of_nat (length cs)
  then tmake_opt (fun d => if Nat.ltb d nd
                           then let desired := rnd (scale * mean_size cs d)%Q in
                                if Qeq_bool desired 0 then None
                                else Some (Z.max (Qceiling (rnd (bsize (node_bounds cs) d / desired))%Q) 1)
                           else Some 1)
  else Some (T3 1 1 1).

(** 144-278, with [k] = MaxDepth - Depth; [leaf]: 160-186. *)
Fixpoint create_node (leaf : list (Z * box) -> bool) (scale : Q) (k : nat) (cs : list (Z * box)) : option node :=
  let make_leaf :=
    let! n := num_bins scale cs in
    let! h := hash_build (qcoords rnd) (box_traits rnd) nd n (map snd cs) in
    Some (Leaf (map fst cs) h) in
  match k with
  | O => make_leaf
  | S k =>
      if leaf cs then make_leaf
      else
        let d := fork_dim (node_bounds cs) in
        let at_ := fork_at cs d in
        let! l := create_node leaf scale k (left_cells cs d at_) in
        let! r := create_node leaf scale k (right_cells cs d at_) in
        Some (Fork d at_ l r)
  end.

Record accel : Type := Accel { a_bounds : box; a_root : option node }.

(** 111-129 *)
Definition contained (R : range) (mask : tup Z -> bool) (bounds : tup Z -> box) : list (Z * box) :=
  map (fun cell => (rindex ColMajor R cell, bounds cell)) (filter mask (foreach_col R)).

(** 75-142; [depth]: MaxDepth, as a function of the number of cells (133-134) *)
Definition accel_build (leaf : list (Z * box) -> bool) (scale : Q) (depth : nat -> nat) (R : range) (mask : tup Z -> bool)
    (bounds : tup Z -> box) : option accel :=
  let b := fold_left (fun b cell => union_boxes b (if mask cell then bounds cell else make_empty_box nd)) (foreach_col R) (make_empty_box nd) in
  if bempty b then Some (Accel b None)
  else
    let cs := contained R mask bounds in
    let! root := create_node leaf scale (depth (length cs)) cs in
    Some (Accel b (Some root)).

(** The best cell so far: 298-300 *)
Record best : Type := Best { b_cell : option (tup Z * tup Q); b_inside : bool; b_center : option Q; b_outside : option Q }.

(** Comparison with a value that is initially the greatest (None). *)
Definition q_below (x : Q) (m : option Q) : bool := match m with Some y => q_lt x y | None => true end.

(** 302-366, with the result [probe] of OverlapsCell and CoordsInCell for the point *)
Definition consider (probe : tup Z -> option (tup Q)) (s : best) (cell : tup Z) : best :=
  match probe cell with
  | None => s
  | Some u =>
      if b_inside s
      then if inside nd u
           then let c := center_distance rnd nd u in
                if q_below c (b_center s) then Best (Some (cell, u)) true (Some c) (b_outside s) else s
           else s
      else if inside nd u
           then Best (Some (cell, u)) true (Some (center_distance rnd nd u)) (b_outside s)
           else let o := outside_distance rnd nd u in
                if q_below o (b_outside s) then Best (Some (cell, u)) (b_inside s) (b_center s) (Some o) else s
  end.

Definition best_in_bin (R : range) (probe : tup Z -> option (tup Q)) (cells : list Z) (bin : list Z) : option (option (tup Z * tup Q)) :=
  let! s := ofoldl (fun s i => let! c := vread cells i in
                               let! cell := rtuple ColMajor R c in
                               Some (consider probe s cell)) bin (Best None false None None) in
  Some (b_cell s).

(** 374-399 *)
Fixpoint find_in_node (R : range) (probe : tup Z -> option (tup Q)) (x : tup Q) (t : node) : option (option (tup Z * tup Q)) :=
  match t with
  | Fork d at_ l r => if Qle_bool (tget x d) at_ then find_in_node R probe x l else find_in_node R probe x r
  | Leaf cells h =>
      let! b := hash_bin (qcoords rnd) h x in
      if 0 <=? b
      then let! bin := hash_retrieve h b in best_in_bin R probe cells bin
      else Some None
  end.

(** 282-289: FindCell; dereferencing an empty Root_ is undefined.  307-311: [probe] *)
Definition find_cell (R : range) (overlaps : tup Z -> tup Q -> bool) (coords : tup Z -> tup Q -> option (tup Q)) (a : accel) (x : tup Q)
    : option (option (tup Z * tup Q)) :=
  if bcontains (a_bounds a) x
  then match a_root a with
       | None => None
       | Some t => find_in_node R (fun cell => if overlaps cell x then coords cell x else None) x t
       end
  else Some None.
End Accel.
