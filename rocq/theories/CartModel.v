(** Model of src/core/Cart.inl and src/core/Cart.hpp. *)
From Coq Require Import List ZArith Bool.
From Verif Require Import TupleModel RangeModel.
Import ListNotations.
Open Scope Z_scope.

(** Cart.hpp: enum periodic_storage. *)
Inductive pstorage := UNIQUE | DUPLICATED.

(** Cart.hpp: class cart (NumDims_, Range_, Periodic_, PeriodicStorage_). *)
Record cart : Type := mkC
  { c_nd : nat; c_range : range; c_per : tup bool; c_stor : pstorage }.

(** Equality of enum values. *)
Definition stor_eqb (a b : pstorage) : bool :=
  match a, b with UNIQUE, UNIQUE | DUPLICATED, DUPLICATED => true | _, _ => false end.

(** Cart.inl 163-171: operator==. *)
Definition cart_eqb (a b : cart) : bool :=
  Nat.eqb (c_nd a) (c_nd b) && reqb (c_range a) (c_range b) &&
  tbeqb (c_per a) (c_per b) && stor_eqb (c_stor a) (c_stor b).

(** Cart.inl 21-42: GetPeriodSize. *)
Definition period_size1 (c : cart) (d : nat) : Z :=
  match c_stor c with
  | UNIQUE => rsize1 (c_range c) d
  | DUPLICATED => rsize1 (c_range c) d - (if tget (c_per c) d then 1 else 0)
  end.
Definition period_size (c : cart) : tup Z := tmake (period_size1 c).

(** Cart.inl 44-61: one component of GetPeriod; division by a zero period is [None]. *)
Definition get_period1 (c : cart) (t : tup Z) (d : nat) : option Z :=
  if tget (c_per c) d then
    let n := period_size1 c d in
    if n =? 0 then None
    else let off := tget t d - tget (rb (c_range c)) d in
         Some (Z.quot off n - (if Z.rem off n <? 0 then 1 else 0))
  else Some 0.

(** All three components are computed or the whole loop is undefined. *)
Definition topt {A} (f : nat -> option A) : option (tup A) :=
  match f 0%nat, f 1%nat, f 2%nat with
  | Some x, Some y, Some z => Some (T3 x y z)
  | _, _, _ => None
  end.

(** Cart.inl 44-61: GetPeriod. *)
Definition get_period (c : cart) (t : tup Z) : option (tup Z) := topt (get_period1 c t).

(** Cart.inl 63-78: one component of PeriodicAdjust. *)
Definition periodic_adjust1 (c : cart) (t : tup Z) (d : nat) : option Z :=
  if tget (c_per c) d then
    let n := period_size1 c d in
    if n =? 0 then None
    else let m := Z.rem (tget t d - tget (rb (c_range c)) d) n in
         Some (tget (rb (c_range c)) d + m + n * (if m <? 0 then 1 else 0))
  else Some (tget t d).

(** Cart.inl 63-78: PeriodicAdjust. *)
Definition periodic_adjust (c : cart) (t : tup Z) : option (tup Z) :=
  topt (periodic_adjust1 c t).

(** Cart.inl 80-102: MapToRange for a tuple.  Outer [None] is undefined behaviour
    (zero period), inner [None] is the empty optional. *)
Definition map_tuple_to_range (c : cart) (r : range) (t : tup Z) : option (option (tup Z)) :=
  match get_period c (rb r), get_period c t with
  | Some bp, Some tp =>
      let m := tmake (fun d =>
        let v := tget t d + period_size1 c d * (tget bp d - tget tp d) in
        if v <? tget (rb r) d then v + period_size1 c d else v) in
      Some (if rcontains r m then Some m else None)
  | _, _ => None
  end.

(** Cart.inl 117-118, 126-130: the range of the size of [o] starting at [b]. *)
Definition range_at (b : tup Z) (o : range) : range := mkR b (tadd b (rsize o)).

(** Cart.inl 131-156: the search over period shifts; the last overlapping shift wins. *)
Definition map_range_search (c : cart) (ar ao : range) : option range :=
  let sr := mkR (tmake (fun d => if Nat.ltb d (c_nd c) then -1 else 0)) (tmake (fun _ => 1)) in
  fold_left (fun acc p =>
    let s := mkR (tmake (fun d => tget (rb ao) d + period_size1 c d * tget p d))
                 (tmake (fun d => tget (re ao) d + period_size1 c d * tget p d)) in
    if ranges_overlap ar s then Some s else acc) (foreach_col sr) None.

(** Cart.inl 104-161: MapToRange for a range.  Outer [None]: undefined behaviour
    (zero period, or dereference of an empty optional at lines 126 and 129). *)
Definition map_range_to_range (c : cart) (r o : range) : option (option range) :=
  if ranges_overlap r o then Some (Some o)
  else match map_tuple_to_range c r (rb o) with
       | None => None
       | Some (Some b) => Some (Some (range_at b o))
       | Some None =>
           match map_tuple_to_range c (c_range c) (rb r),
                 map_tuple_to_range c (c_range c) (rb o) with
           | Some (Some ab), Some (Some aob) =>
               Some (map_range_search c (range_at ab r) (range_at aob o))
           | _, _ => None
           end
       end.
