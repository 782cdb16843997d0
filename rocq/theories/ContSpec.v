(** What a sorted set and a sorted map are supposed to compute, independently of
    how they are stored: functions from values (keys) to the stored representative. *)
From Coq Require Import List ZArith Bool.
From Verif Require Import ContModel.
Import ListNotations.

(** Strict weak order on the values satisfying [D] (ISO C++ [alg.sorting]). *)
Record swo_on {V} (D : V -> Prop) (lt : V -> V -> bool) : Prop := {
  swo_irrefl : forall a, D a -> lt a a = false;
  swo_trans : forall a b c, D a -> D b -> D c -> lt a b = true -> lt b c = true -> lt a c = true;
  swo_incomp : forall a b c, D a -> D b -> D c ->
    lt a b = false -> lt b a = false -> lt b c = false -> lt c b = false ->
    lt a c = false /\ lt c a = false }.

Definition swo {V} (lt : V -> V -> bool) : Prop := swo_on (fun _ => True) lt.

(** Equivalence of the order: neither is less. *)
Definition eqv {V} (lt : V -> V -> bool) (a b : V) : bool := negb (lt a b) && negb (lt b a).

(** Operations on a set.  [SInsertHint v] is Insert(LowerBound(v), v), [SEraseFound v]
    is "Iter = Find(v); if (Iter != End()) Erase(Iter)". *)
Inductive set_op (V : Type) : Type :=
| SInsert (v : V) | SInsertHint (v : V) | SErase (v : V) | SEraseFound (v : V)
| SEraseIf (p : V -> bool) | SAssign (vs : list V) | SClear.
Arguments SInsert {V}. Arguments SInsertHint {V}. Arguments SErase {V}.
Arguments SEraseFound {V}. Arguments SEraseIf {V}. Arguments SAssign {V}. Arguments SClear {V}.

Section SetRun.
Context {V : Type} (lt : V -> V -> bool).

Definition set_step (s : list V) (o : set_op V) : list V :=
  match o with
  | SInsert v => set_insert lt s v
  | SInsertHint v => set_insert_hint lt s (set_lower lt s v) v
  | SErase v => set_erase lt s v
  | SEraseFound v => if Nat.eqb (set_find lt s v) (length s) then s
                     else set_erase_at s (set_find lt s v)
  | SEraseIf p => set_erase_if p s
  | SAssign vs => set_assign lt vs
  | SClear => []
  end.
Definition set_run (ops : list (set_op V)) : list V := fold_left set_step ops [].

(** The mathematical set: which stored value (if any) is equivalent to [x]. *)
Definition fset := V -> option V.
Definition fadd (m : fset) (v : V) : fset :=
  fun x => if eqv lt x v then match m x with Some y => Some y | None => Some v end else m x.
Definition fdel (m : fset) (v : V) : fset := fun x => if eqv lt x v then None else m x.
Definition ffilter (p : V -> bool) (m : fset) : fset :=
  fun x => match m x with Some y => if p y then None else Some y | None => None end.
Definition fnone : fset := fun _ => None.

Definition fset_step (m : fset) (o : set_op V) : fset :=
  match o with
  | SInsert v | SInsertHint v => fadd m v
  | SErase v | SEraseFound v => fdel m v
  | SEraseIf p => ffilter p m
  | SAssign vs => fold_left fadd vs fnone
  | SClear => fnone
  end.
Definition fset_run (ops : list (set_op V)) : fset := fold_left fset_step ops fnone.

End SetRun.

(** Operations on a map.  [MFetchSet k v w] is "Fetch(k, v) = w", [MAtSet k w] is
    "if (Contains(k)) Map(k) = w". *)
Inductive map_op (K V : Type) : Type :=
| MInsert (k : K) (v : V) | MInsertHint (k : K) (v : V) | MFetch (k : K) (v : V)
| MFetchSet (k : K) (v w : V) | MAtSet (k : K) (w : V) | MErase (k : K) | MEraseFound (k : K)
| MEraseIf (p : K * V -> bool) | MEraseIfKey (p : K -> bool) | MClear.
Arguments MInsert {K V}. Arguments MInsertHint {K V}. Arguments MFetch {K V}.
Arguments MFetchSet {K V}. Arguments MAtSet {K V}. Arguments MErase {K V}.
Arguments MEraseFound {K V}. Arguments MEraseIf {K V}. Arguments MEraseIfKey {K V}.
Arguments MClear {K V}.

Section MapRun.
Context {K V : Type} (lt : K -> K -> bool).

Definition map_step (m : smap K V) (o : map_op K V) : smap K V :=
  match o with
  | MInsert k v => fst (map_insert lt m k v)
  | MInsertHint k v => fst (map_insert_hint lt m (set_lower lt (m_keys m) k) k v)
  | MFetch k v => fst (map_fetch lt m k v)
  | MFetchSet k v w => map_write (fst (map_fetch lt m k v)) (snd (map_fetch lt m k v)) w
  | MAtSet k w => if map_contains lt m k then map_write m (set_lower lt (m_keys m) k) w else m
  | MErase k => map_erase lt m k
  | MEraseFound k => if Nat.eqb (map_find lt m k) (length (m_entries m)) then m
                     else map_erase_at m (map_find lt m k)
  | MEraseIf p => map_erase_if p m
  | MEraseIfKey p => map_erase_if_key p m
  | MClear => map_empty
  end.
Definition map_run (ops : list (map_op K V)) : smap K V := fold_left map_step ops map_empty.

(** The finite map: the entry stored under the key [x]. *)
Definition fmap := K -> option (K * V).
Definition fput (m : fmap) (k : K) (v : V) : fmap :=
  fun x => if eqv lt x k then Some (k, v) else m x.
Definition fget_or_put (m : fmap) (k : K) (v : V) : fmap :=
  fun x => if eqv lt x k then match m x with Some e => Some e | None => Some (k, v) end else m x.
Definition fset_value (m : fmap) (k : K) (w : V) : fmap :=
  fun x => if eqv lt x k then match m x with Some (k', _) => Some (k', w) | None => None end
           else m x.
Definition fremove (m : fmap) (k : K) : fmap := fun x => if eqv lt x k then None else m x.
Definition fkeep (p : K * V -> bool) (m : fmap) : fmap :=
  fun x => match m x with Some e => if p e then None else Some e | None => None end.

Definition fmap_step (m : fmap) (o : map_op K V) : fmap :=
  match o with
  | MInsert k v | MInsertHint k v => fput m k v
  | MFetch k v => fget_or_put m k v
  | MFetchSet k v w => fset_value (fget_or_put m k v) k w
  | MAtSet k w => fset_value m k w
  | MErase k | MEraseFound k => fremove m k
  | MEraseIf p => fkeep p m
  | MEraseIfKey p => fkeep (fun e => p (fst e)) m
  | MClear => fun _ => None
  end.
Definition fmap_run (ops : list (map_op K V)) : fmap := fold_left fmap_step ops (fun _ => None).

(** Key predicates passed to EraseIf must not distinguish equivalent keys. *)
Definition map_op_ok (o : map_op K V) : Prop :=
  match o with
  | MEraseIfKey p => forall a b, eqv lt a b = true -> p a = p b
  | _ => True
  end.

End MapRun.
