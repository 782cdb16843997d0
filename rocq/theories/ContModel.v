(** Sorted containers: model of src/core/Set.hpp, src/core/Map.hpp, src/core/Elem.hpp
    (elem_less) and src/core/ID.hpp.
    Simplifications: iterators are positions (natural numbers), End() is the number
    of stored values; capacity and addresses are not modelled; the contiguous and
    non-contiguous entry layouts of map (Map.hpp 24-148) are not distinguished. *)
From Coq Require Import List ZArith Bool Arith.
Import ListNotations.

(** std::lower_bound and std::upper_bound as implemented by libstdc++
    (bits/stl_algobase.h __lower_bound, bits/stl_algo.h __upper_bound): bisection
    of [first, first+len) with the test [p] on the middle element; [p x] is
    "comp(x, value)" for lower_bound and "!comp(value, x)" for upper_bound. *)
Fixpoint bisect {V} (fuel : nat) (l : list V) (p : V -> bool) (first len : nat) : nat :=
  match fuel with
  | O => first
  | S f =>
      if len =? 0 then first
      else
        let half := len / 2 in
        let middle := first + half in
        match nth_error l middle with
        | None => first
        | Some x => if p x then bisect f l p (middle + 1) (len - half - 1)
                    else bisect f l p first half
        end
  end.

Definition partition_point {V} (l : list V) (p : V -> bool) : nat :=
  bisect (S (length l)) l p 0 (length l).

(** array::Insert(Pos, Value) and array::Erase(Pos) on a one-dimensional array. *)
Definition insert_at {V} (l : list V) (n : nat) (v : V) : list V := firstn n l ++ v :: skipn n l.
Definition erase_at {V} (l : list V) (n : nat) : list V := firstn n l ++ skipn (S n) l.
Definition replace_at {V} (l : list V) (n : nat) (v : V) : list V :=
  firstn n l ++ match skipn n l with [] => [] | _ :: r => v :: r end.

Section SetModel.
Context {V : Type} (lt : V -> V -> bool).

(** Set.hpp 196-202: LowerBound_. *)
Definition set_lower (s : list V) (v : V) : nat := partition_point s (fun x => lt x v).
(** Set.hpp 204-210: UpperBound_. *)
Definition set_upper (s : list V) (v : V) : nat := partition_point s (fun x => negb (lt v x)).

(** Set.hpp 111-117: Insert(LowerBoundIter, Value). *)
Definition set_insert_hint (s : list V) (n : nat) (v : V) : list V :=
  match nth_error s n with
  | None => insert_at s n v
  | Some x => if lt v x then insert_at s n v else s
  end.

(** Set.hpp 104-109: Insert(Value). *)
Definition set_insert (s : list V) (v : V) : list V := set_insert_hint s (set_lower s v) v.

(** Set.hpp 119-124: Erase(Value). *)
Definition set_erase (s : list V) (v : V) : list V :=
  let n := set_lower s v in
  match nth_error s n with
  | None => s
  | Some x => if negb (lt v x) then erase_at s n else s
  end.

(** Set.hpp 126-130: Erase(Pos). *)
Definition set_erase_at (s : list V) (n : nat) : list V := erase_at s n.

(** Set.hpp 132-142: EraseIf; [n] is the loop's iterator. *)
Fixpoint erase_if_loop {E} (fuel : nat) (p : E -> bool) (s : list E) (n : nat) : list E :=
  match fuel with
  | O => s
  | S f => match nth_error s n with
           | None => s
           | Some x => if p x then erase_if_loop f p (erase_at s n) n
                       else erase_if_loop f p s (S n)
           end
  end.
Definition set_erase_if (p : V -> bool) (s : list V) : list V := erase_if_loop (length s) p s 0.

(** Set.hpp 148-151: Contains. *)
Definition set_contains (s : list V) (v : V) : bool :=
  match nth_error s (set_lower s v) with
  | None => false
  | Some x => negb (lt v x)
  end.

(** Set.hpp 153-159: Find. *)
Definition set_find (s : list V) (v : V) : nat :=
  let n := set_lower s v in
  match nth_error s n with
  | None => n
  | Some x => if lt v x then length s else n
  end.

(** Set.hpp 77-98: Assign from a list of values. *)
Definition set_assign (vs : list V) : list V := fold_left set_insert vs [].

End SetModel.

(** Elem.hpp 371-399: elem_less, row-major; 401-429: column-major, the same
    comparison starting from the last component. *)
Fixpoint lex_less (a b : list Z) : bool :=
  match a, b with
  | x :: a', y :: b' =>
      match a' with
      | [] => Z.ltb x y
      | _ => Z.ltb x y || (Z.eqb x y && lex_less a' b')
      end
  | _, _ => false
  end.
Definition elem_less_r (a b : list Z) : bool := lex_less a b.
Definition elem_less_c (a b : list Z) : bool := lex_less (rev a) (rev b).
(** The row-major order on elem<int,2>, written as pairs. *)
Definition pair_less (a b : Z * Z) : bool := elem_less_r [fst a; snd a] [fst b; snd b].

(** Map.hpp 514-515: Keys_ and Entries_. *)
Record smap (K V : Type) : Type := mkM { m_keys : list K; m_entries : list (K * V) }.
Arguments mkM {K V} _ _.
Arguments m_keys {K V} _.
Arguments m_entries {K V} _.

Section MapModel.
Context {K V : Type} (lt : K -> K -> bool).

(** Map.hpp 314-325: Insert(LowerBoundIter, Key, Value); also returns the position
    of the entry, the reference or iterator the code returns. *)
Definition map_insert_hint (m : smap K V) (n : nat) (k : K) (v : V) : smap K V * nat :=
  let ins := (mkM (set_insert_hint lt (m_keys m) n k) (insert_at (m_entries m) n (k, v)), n) in
  match nth_error (m_keys m) n with
  | None => ins
  | Some x => if lt k x then ins
              else (mkM (m_keys m) (replace_at (m_entries m) n (k, v)), n)
  end.

(** Map.hpp 252-312: Insert(Key, Value) and the overloads taking an entry. *)
Definition map_insert (m : smap K V) (k : K) (v : V) : smap K V * nat :=
  map_insert_hint m (set_lower lt (m_keys m) k) k v.

(** Map.hpp 460-490: Fetch(Key, InsertValue); returns the position of the entry. *)
Definition map_fetch (m : smap K V) (k : K) (v : V) : smap K V * nat :=
  let n := set_lower lt (m_keys m) k in
  let ins := (mkM (set_insert_hint lt (m_keys m) n k) (insert_at (m_entries m) n (k, v)), n) in
  match nth_error (m_keys m) n with
  | None => ins
  | Some x => if lt k x then ins else (m, n)
  end.

(** Map.hpp 355-362: Erase(Key). *)
Definition map_erase (m : smap K V) (k : K) : smap K V :=
  let n := set_lower lt (m_keys m) k in
  match nth_error (m_keys m) n with
  | None => m
  | Some x => if negb (lt k x) then mkM (set_erase_at (m_keys m) n) (erase_at (m_entries m) n)
              else m
  end.

(** Map.hpp 364-369: Erase(Pos). *)
Definition map_erase_at (m : smap K V) (n : nat) : smap K V :=
  mkM (set_erase_at (m_keys m) n) (erase_at (m_entries m) n).

(** Map.hpp 371-384: EraseIf with a predicate on entries. *)
Fixpoint map_erase_if_loop (fuel : nat) (p : K * V -> bool) (m : smap K V) (n : nat) : smap K V :=
  match fuel with
  | O => m
  | S f => match nth_error (m_entries m) n with
           | None => m
           | Some x => if p x then map_erase_if_loop f p (map_erase_at m n) n
                       else map_erase_if_loop f p m (S n)
           end
  end.
Definition map_erase_if (p : K * V -> bool) (m : smap K V) : smap K V :=
  map_erase_if_loop (length (m_entries m)) p m 0.

(** Map.hpp 386-399: EraseIf with a predicate on keys. *)
Fixpoint map_erase_if_key_loop (fuel : nat) (p : K -> bool) (m : smap K V) (n : nat) : smap K V :=
  match fuel with
  | O => m
  | S f => match nth_error (m_keys m) n with
           | None => m
           | Some x => if p x then map_erase_if_key_loop f p (map_erase_at m n) n
                       else map_erase_if_key_loop f p m (S n)
           end
  end.
Definition map_erase_if_key (p : K -> bool) (m : smap K V) : smap K V :=
  map_erase_if_key_loop (length (m_keys m)) p m 0.

(** Map.hpp 411-422: Contains and Find. *)
Definition map_contains (m : smap K V) (k : K) : bool := set_contains lt (m_keys m) k.
Definition map_find (m : smap K V) (k : K) : nat := set_find lt (m_keys m) k.

(** Map.hpp 450-458: operator()(Key); None is an access beyond the entries. *)
Definition map_at (m : smap K V) (k : K) : option V :=
  option_map snd (nth_error (m_entries m) (set_lower lt (m_keys m) k)).

(** Assignment through the reference to the [n]-th entry's value. *)
Definition map_write (m : smap K V) (n : nat) (v : V) : smap K V :=
  match nth_error (m_entries m) n with
  | Some (k, _) => mkM (m_keys m) (replace_at (m_entries m) n (k, v))
  | None => m
  end.

Definition map_empty : smap K V := mkM [] [].

End MapModel.

(** ID.hpp 12-27: NextAvailableID; the loop over the sorted IDs. *)
Fixpoint next_id_loop (prev : Z) (ids : list Z) : Z :=
  match ids with
  | [] => prev
  | x :: r => if (x - prev >? 1)%Z then prev else next_id_loop x r
  end.
Definition next_available_id (ids : list Z) : Z := (next_id_loop (-1) ids + 1)%Z.
