(** Partition pool: model of class partition_pool, src/core/Partition.cpp 65-190.
    All operations are collective over the grid's communicator; the model describes
    all ranks at once: a partition carries one local range, one extended range and
    one subregion count per rank, and the MPI_Allreduce(..., MPI_LAND, ...) of the
    per-rank comparisons is the conjunction over the ranks.
    Simplifications: a shared_ptr is an identifier ([p_id]); a partition made by
    Fetch gets a new one.  The other members of a partition are not modelled here. *)
From Coq Require Import List ZArith Bool Arith.
From Verif Require Import TupleModel RangeModel CartModel ContModel.
Import ListNotations.
Open Scope Z_scope.

(** Partition.hpp 86-96 (the members the pool looks at). *)
Record desc : Type := mkD
  { d_cart : cart; d_local : list range; d_ext : list range; d_nsub : list Z }.
Record part : Type := mkP { p_id : nat; p_desc : desc }.

Fixpoint all2 {A} (f : A -> A -> bool) (a b : list A) : bool :=
  match a, b with
  | [], [] => true
  | x :: a', y :: b' => f x y && all2 f a' b'
  | _, _ => false
  end.

(** Partition.cpp 83-87, 111-115, 141-145: Matches, over all ranks.  The Cartesian
    description itself is not compared. *)
Definition p_matches (d : desc) (p : part) : bool :=
  all2 reqb (d_local (p_desc p)) (d_local d) && all2 reqb (d_ext (p_desc p)) (d_ext d) &&
  all2 Z.eqb (d_nsub (p_desc p)) (d_nsub d).

Definition stor_num (s : pstorage) : Z := match s with UNIQUE => 0 | DUPLICATED => 1 end.
Definition bool_num (b : bool) : Z := if b then 1 else 0.

(** Partition.cpp 159-188: CartLess_. *)
Definition cart_less (a b : cart) : bool :=
  Nat.ltb (c_nd a) (c_nd b) ||
  tany (fun d => tget (rb (c_range a)) d <? tget (rb (c_range b)) d) ||
  tany (fun d => tget (re (c_range a)) d <? tget (re (c_range b)) d) ||
  tany (fun d => bool_num (tget (c_per a) d) <? bool_num (tget (c_per b) d)) ||
  (stor_num (c_stor a) <? stor_num (c_stor b)).

(** Partition.hpp 139: Partitions_; [pl_next] is the next new identifier. *)
Record pool : Type := mkPool { pl_map : smap cart (list part); pl_next : nat }.

(** Partition.cpp 80-97: the loop of Insert over the list of one Cartesian description. *)
Fixpoint put_matching (p : part) (l : list part) : list part :=
  match l with
  | [] => [p]
  | q :: r => if p_matches (p_desc p) q then p :: r else q :: put_matching p r
  end.

(** Partition.cpp 75-101: Insert. *)
Definition pool_insert (pl : pool) (p : part) : pool :=
  let '(m, n) := map_fetch cart_less (pl_map pl) (d_cart (p_desc p)) [] in
  match nth_error (m_entries m) n with
  | Some (_, l) => mkPool (map_write m n (put_matching p l)) (pl_next pl)
  | None => pl
  end.

(** Partition.cpp 103-127: Fetch. *)
Definition pool_fetch (pl : pool) (d : desc) : option (pool * part) :=
  let '(m, n) := map_fetch cart_less (pl_map pl) (d_cart d) [] in
  match nth_error (m_entries m) n with
  | Some (_, l) =>
      match find (p_matches d) l with
      | Some p => Some (mkPool m (pl_next pl), p)
      | None => let p := mkP (pl_next pl) d in
                Some (mkPool (map_write m n (l ++ [p])) (S (pl_next pl)), p)
      end
  | None => None
  end.

(** Partition.cpp 138-151: the loop of Erase. *)
Fixpoint drop_matching (d : desc) (l : list part) : list part :=
  match l with
  | [] => []
  | q :: r => if p_matches d q then r else q :: drop_matching d r
  end.

(** Partition.cpp 129-157: Erase. *)
Definition pool_erase (pl : pool) (d : desc) : pool :=
  let n := map_find cart_less (pl_map pl) (d_cart d) in
  match nth_error (m_entries (pl_map pl)) n with
  | None => pl
  | Some (_, l) =>
      let m := map_write (pl_map pl) n (drop_matching d l) in
      mkPool (match drop_matching d l with [] => map_erase_at m n | _ => m end) (pl_next pl)
  end.

(** Histories; partitions passed to Insert were made elsewhere. *)
Inductive pool_op : Type := PInsert (p : part) | PFetch (d : desc) | PErase (d : desc).

Definition pool_step (acc : option pool) (o : pool_op) : option pool :=
  match acc with
  | None => None
  | Some pl =>
      match o with
      | PInsert p => Some (pool_insert pl p)
      | PFetch d => option_map fst (pool_fetch pl d)
      | PErase d => Some (pool_erase pl d)
      end
  end.
Definition pool_empty (first : nat) : pool := mkPool map_empty first.
Definition pool_run (first : nat) (ops : list pool_op) : option pool :=
  fold_left pool_step ops (Some (pool_empty first)).
