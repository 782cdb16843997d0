(** Specification of values in memory, by the members of C++ types. *)
From Coq Require Import List Arith.
From Verif Require Import DtyModel.
Import ListNotations.

Fixpoint size_of (t : cty) : nat :=
  match t with CNum s => s | CElem n t => n * size_of t | CInterval n t => 2 * (n * size_of t) end.

(** [member t o s]: a value of type t has a number of s bytes at offset o. *)
Inductive member : cty -> nat -> nat -> Prop :=
| m_num s : member (CNum s) 0 s
| m_elem n t i o s : i < n -> member t o s -> member (CElem n t) (i * size_of t + o) s                    (* (i) *)
| m_begin n t i o s : i < n -> member t o s -> member (CInterval n t) (i * size_of t + o) s               (* Begin(i) *)
| m_end n t i o s : i < n -> member t o s -> member (CInterval n t) (n * size_of t + (i * size_of t + o)) s. (* End(i) *)

(** Layouts a compiler may choose: members in order, without overlap, inside; the two integers next to each other. *)
Definition layout_ok (L : flayout) : Prop :=
  fl_id L = fl_grid L + fl_int L /\ fl_id L + fl_int L <= fl_range L /\
  fl_range L + size_of (range_ty L) <= fl_orient L /\ fl_orient L + size_of (orient_ty L) <= fl_box L /\
  fl_box L + size_of (box_ty L) <= fl_size L.

Inductive fmember (L : flayout) : nat -> nat -> Prop :=
| f_grid : fmember L (fl_grid L) (fl_int L)
| f_id : fmember L (fl_id L) (fl_int L)
| f_range o s : member (range_ty L) o s -> fmember L (fl_range L + o) s
| f_orient o s : member (orient_ty L) o s -> fmember L (fl_orient L + o) s
| f_box o s : member (box_ty L) o s -> fmember L (fl_box L + o) s.

(** After a message of [count] items: the bytes of all numbers are those sent, and nothing else has changed. *)
Definition arrived {B} (mem : nat -> nat -> Prop) (size count : nat) (src : nat -> B) (p : nat) (dst : nat -> B) (q : nat) (m : nat -> B) : Prop :=
  (forall k o s j, k < count -> mem o s -> j < s -> m (q + (k * size + (o + j))) = src (p + (k * size + (o + j)))) /\
  (forall a, (forall k o s j, k < count -> mem o s -> j < s -> a <> q + (k * size + (o + j))) -> m a = dst a).
