(** MPI datatypes of regions and messages made with them: model of src/core/MPISerializableTraits.hpp 41-152,
    src/core/DataTypeOps.hpp 20-62, src/core/Assembler.hpp 361-377 and of the messages of
    src/core/DistributedRegionHash.inl 100-122 and 450-488.

    Memory is a map from addresses to bytes, of any type; addresses and sizes are natural numbers.  Simplification:
    the extent MPI gives struct types (the largest end of their blocks) is without the padding MPI may add. *)
From Coq Require Import List Arith.
Import ListNotations.

(** Datatypes, as made by MPI_Type_contiguous, MPI_Type_create_struct and MPI_Type_create_resized (lower bound 0). *)
Inductive dty : Type :=
| DBasic (size : nat)
| DContig (count : nat) (t : dty)
| DStruct (blocks : list (nat * nat * dty))          (* offset, count, type *)
| DResized (size : nat) (t : dty).

(** The MPI standard, 4.1: extents and type maps (here: the bytes, in order). *)
Fixpoint extent (t : dty) : nat :=
  match t with
  | DBasic s => s
  | DContig n t => n * extent t
  | DStruct bs => fold_right Nat.max 0 (map (fun b => fst (fst b) + snd (fst b) * extent (snd b)) bs)
  | DResized s _ => s
  end.
Definition copies (e n : nat) (l : list nat) : list nat := flat_map (fun k => map (fun o => k * e + o) l) (seq 0 n).
Fixpoint bytes_of (t : dty) : list nat :=
  match t with
  | DBasic s => seq 0 s
  | DContig n t => copies (extent t) n (bytes_of t)
  | DStruct bs => flat_map (fun b => map (fun o => fst (fst b) + o) (copies (extent (snd b)) (snd (fst b)) (bytes_of (snd b)))) bs
  | DResized _ t => bytes_of t
  end.

(** The C++ types messages are made of: numbers, elem<T,N>, interval<T,N>. *)
Inductive cty : Type := CNum (size : nat) | CElem (n : nat) (t : cty) | CInterval (n : nat) (t : cty).

(** CreateMPIType: MPISerializableTraits.hpp 41-129, 131-140, 142-152. *)
Fixpoint mpi_type (t : cty) : dty :=
  match t with
  | CNum s => DBasic s
  | CElem n t => DContig n (mpi_type t)
  | CInterval n t => DContig 2 (DContig n (mpi_type t))
  end.

(** DataTypeOps.hpp 35-62: CreateMPIStructType. *)
Definition mpi_struct (size : nat) (blocks : list (nat * nat * dty)) : dty := DResized size (DStruct blocks).

(** Assembler.hpp 70-78: where the compiler puts the members of fragments. *)
Record flayout : Type := mkFL {
  fl_int : nat; fl_double : nat; fl_size : nat;
  fl_grid : nat; fl_id : nat; fl_range : nat; fl_orient : nat; fl_box : nat }.
Definition range_ty (L : flayout) : cty := CInterval 3 (CNum (fl_int L)).
Definition orient_ty (L : flayout) : cty := CElem 3 (CElem 3 (CNum (fl_double L))).
Definition box_ty (L : flayout) : cty := CInterval 3 (CNum (fl_double L)).
(** Assembler.hpp 361-377. *)
Definition fragment_type (L : flayout) : dty :=
  mpi_struct (fl_size L)
    [ (fl_grid L, 2, DBasic (fl_int L)); (fl_range L, 1, mpi_type (range_ty L));
      (fl_orient L, 1, mpi_type (orient_ty L)); (fl_box L, 1, mpi_type (box_ty L)) ].

(** A message: count items of a type, read from address p of the sender's memory and written to address q of the
    receiver's (the same type on both sides, DistributedRegionHash.inl 111 and 121, 466 and 486). *)
Definition message_bytes (count : nat) (t : dty) : list nat := copies (extent t) count (bytes_of t).
Definition write_byte {B} (m : nat -> B) (a : nat) (x : B) : nat -> B := fun b => if Nat.eqb b a then x else m b.
Fixpoint deliver {B} (m : nat -> B) (q : nat) (os : list nat) (xs : list B) : nat -> B :=
  match os, xs with
  | o :: os, x :: xs => deliver (write_byte m (q + o) x) q os xs
  | _, _ => m
  end.
Definition transfer {B} (src : nat -> B) (p : nat) (dst : nat -> B) (q count : nat) (t : dty) : nat -> B :=
  deliver dst q (message_bytes count t) (map (fun o => src (p + o)) (message_bytes count t)).
