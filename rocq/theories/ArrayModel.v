(** Owning arrays: model of src/core/Array.hpp on top of src/core/Vector.hpp.
    Simplifications: values are copied where the code moves or swaps them and the
    moved-from value is not read again; capacity and addresses are not modelled. *)
From Coq Require Import List ZArith Bool.
From Verif Require Import TupleModel RangeModel IndexerModel.
Import ListNotations.
Open Scope Z_scope.

(** Array.hpp array_base_1: View_ (extents, and the indexer derived from them) and Values_. *)
Record array (V : Type) : Type := mkA { a_ext : extents; a_vals : list V }.
Arguments mkA {V} _ _.
Arguments a_ext {V} _.
Arguments a_vals {V} _.

(** Element access through a linear index; None is an out-of-bounds access. *)
Definition vread {V} (l : list V) (i : Z) : option V :=
  if i <? 0 then None else nth_error l (Z.to_nat i).

Fixpoint vset {V} (l : list V) (n : nat) (v : V) : option (list V) :=
  match l, n with
  | [], _ => None
  | _ :: r, O => Some (v :: r)
  | x :: r, S n' => option_map (cons x) (vset r n' v)
  end.

Definition vwrite {V} (l : list V) (i : Z) (v : V) : option (list V) :=
  if i <? 0 then None else vset l (Z.to_nat i) v.

(** std::vector::resize(n, v), Vector.hpp 168-174. *)
Definition vresize {V} (l : list V) (n : Z) (v : V) : list V :=
  firstn (Z.to_nat n) l ++ repeat v (Z.to_nat n - length l).

(** Array.hpp 243-248: operator()(Tuple). *)
Definition aget {V} (lay : layout) (a : array V) (t : list Z) : option V :=
  vread (a_vals a) (to_index (indexer lay (a_ext a)) t).

(** Array.hpp 68-71: constructor filling with a value. *)
Definition afill {V} (ext : extents) (v : V) : array V :=
  mkA ext (repeat v (Z.to_nat (ecount ext))).

(** Array.hpp 200-204, 225-229: the copying loop of Resize. *)
Definition copy_step {V} (lay : layout) (old_ix new_ix : list (Z * Z)) (ext : extents)
    (old : list V) (acc : option (list V)) (t : list Z) : option (list V) :=
  match acc with
  | None => None
  | Some vals =>
      if econtains ext t then
        match vread old (to_index old_ix t) with
        | Some x => vwrite vals (to_index new_ix t) x
        | None => None
        end
      else Some vals
  end.

(** Array.hpp 212-235: Resize(Extents, Value); with [v] a value-initialised
    element it is also Resize(Extents), 187-210. *)
Definition aresize {V} (lay : layout) (a : array V) (ext : extents) (v : V) : option (array V) :=
  let new_ix := indexer lay ext in
  let old_ix := indexer lay (a_ext a) in
  let n := ecount ext in
  if negb (indexer_eqb new_ix old_ix) then
    let n_old := ecount (a_ext a) in
    let old := firstn (Z.to_nat n_old) (a_vals a) in
    let swapped := repeat v (Z.to_nat n_old) ++ skipn (Z.to_nat n_old) (a_vals a) in
    option_map (mkA ext)
      (fold_left (copy_step lay old_ix new_ix ext old) (foreach lay (a_ext a))
         (Some (vresize swapped n v)))
  else Some (mkA ext (vresize (a_vals a) n v)).

(** ArrayView.hpp 147-153: Fill(Interval, Value). *)
Definition afill_interval {V} (lay : layout) (a : array V) (iv : extents) (v : V)
    : option (array V) :=
  option_map (mkA (a_ext a))
    (fold_left (fun acc t => match acc with
                             | None => None
                             | Some vals => vwrite vals (to_index (indexer lay (a_ext a)) t) v
                             end)
       (foreach lay iv) (Some (a_vals a))).

(** Array.hpp 125-129: Assign(Extents, Value). *)
Definition aassign_fill {V} (ext : extents) (v : V) : array V :=
  mkA ext (repeat v (Z.to_nat (ecount ext))).

(** Reads the next [n] elements of an iterator; None when it runs past the end
    of the underlying sequence. *)
Fixpoint take_exact {V} (n : nat) (src : list V) : option (list V * list V) :=
  match n with
  | O => Some ([], src)
  | S n' => match src with
            | [] => None
            | x :: r => match take_exact n' r with
                        | Some (l, rest) => Some (x :: l, rest)
                        | None => None
                        end
            end
  end.

(** Array.hpp 139-153: Assign(Extents, First), the overload every assignment
    from a view or another array type goes through (517-606).  The first loop
    overwrites the existing values, the second appends NumValues-NumValuesOld more. *)
Definition aassign_iter {V} (a : array V) (ext : extents) (src : list V) : option (array V) :=
  let n_old := ecount (a_ext a) in
  let n := ecount ext in
  match take_exact (length (a_vals a)) src with
  | None => None
  | Some (l1, rest) =>
      match take_exact (Z.to_nat (n - n_old)) rest with
      | None => None
      | Some (l2, _) => Some (mkA ext (l1 ++ l2))
      end
  end.

(** Array.hpp 155-159: Assign from an array of the same type. *)
Definition aassign_copy {V} (a other : array V) : array V := mkA (a_ext other) (a_vals other).

(** Array.hpp 167-172: move assignment; the source is left empty. *)
Definition aassign_move {V} (a other : array V) : array V * array V :=
  (mkA (a_ext other) (a_vals other), mkA (map (fun _ => (0, 0)) (a_ext other)) []).

(** Vector.hpp 67-88: AssignIterators for bool values (also AssignInitializerList, 50-60):
    overwrite existing values, then append the rest. *)
Definition vassign_bool {V} (old src : list V) : option (list V) :=
  match take_exact (length old) src with
  | None => None
  | Some (l1, rest) => Some (l1 ++ rest)
  end.

(** Array.hpp 290-308: Append, rank 1. *)
Definition aappend {V} (a : array V) (v : V) : array V :=
  mkA (map (fun x => (fst x, snd x + 1)) (a_ext a)) (a_vals a ++ [v]).

(** Array.hpp 310-328: Insert, rank 1; [i] counts from the start of storage
    (Vector.hpp 198-201).  None is an iterator past the end. *)
Definition ainsert {V} (a : array V) (i : Z) (v : V) : option (array V) :=
  if (i <? 0) || (Z.of_nat (length (a_vals a)) <? i) then None
  else Some (mkA (map (fun x => (fst x, snd x + 1)) (a_ext a))
               (firstn (Z.to_nat i) (a_vals a) ++ v :: skipn (Z.to_nat i) (a_vals a))).

(** Array.hpp 353-356: Erase, rank 1. *)
Definition aerase {V} (a : array V) (i : Z) : option (array V) :=
  if (i <? 0) || (Z.of_nat (length (a_vals a)) <=? i) then None
  else Some (mkA (map (fun x => (fst x, snd x - 1)) (a_ext a))
               (firstn (Z.to_nat i) (a_vals a) ++ skipn (S (Z.to_nat i)) (a_vals a))).
