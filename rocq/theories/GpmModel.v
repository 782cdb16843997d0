(** Parameters of grids: model of grid::params (src/core/Grid.hpp 48-84, src/core/Grid.cpp
    194-312) with the functions of the C interface that call it (src/core-c/Grid.cpp
    199-373).

    [dbg] is OVK_DEBUG: a failed assertion ends the program (None).  Indexing past
    MAX_DIMS is undefined behaviour (None).
    Simplifications: ranges and tuples are functions of the dimension, read below 3 only;
    communicators are numbers; periodic storage is the question whether it is UNIQUE. *)
From Coq Require Import List Bool Arith ZArith String.
Import ListNotations.
Local Open Scope Z_scope.

Definition rng : Type := nat -> Z * Z.

(** Cart.hpp: the members of cart. *)
Record gcart : Type := mkGC { g_dim : nat; g_rng : rng; g_per : nat -> bool; g_uniq : bool }.

Record gparams : Type := mkGP {
  p_name : string; p_dim : nat; p_comm : option nat; p_cart : gcart; p_loc : rng }.

(** Grid.hpp 75-79: the initial values. *)
Definition gp0 : gparams :=
  mkGP "Grid" 2 None (mkGC 2 (fun _ => (0, 1)) (fun _ => false) true) (fun _ => (0, 1)).

(** for (iDim = lo; iDim < hi; ++iDim) F(iDim) = G(iDim). *)
Definition loop_set {V} (lo hi : nat) (g f : nat -> V) : nat -> V :=
  fold_left (fun f d x => if Nat.eqb x d then g d else f x) (seq lo (hi - lo)) f.

Definition MAX_DIMS : nat := 3.

(** Range.inl 6-21, Tuple.hpp 14-27; the members start uninitialised ([junk]). *)
Definition make_empty_range (junk : rng) (n : nat) : rng :=
  loop_set n MAX_DIMS (fun _ => (0, 1)) (loop_set 0 n (fun _ => (0, 0)) junk).
Definition make_uniform {V} (junk : nat -> V) (n : nat) (v pad : V) : nat -> V :=
  loop_set n MAX_DIMS (fun _ => pad) (loop_set 0 n (fun _ => v) junk).

(** Range.hpp: Empty. *)
Definition range_empty (r : rng) : bool :=
  existsb (fun d => snd (r d) <=? fst (r d)) (seq 0 MAX_DIMS).

Definition assert_ (dbg c : bool) {A} (x : option A) : option A := if dbg && negb c then None else x.

Definition all_dims (lo : nat) (f : nat -> bool) : bool := forallb f (seq lo (MAX_DIMS - lo)).

(** Grid.cpp 202-224. *)
Definition set_dimension (dbg : bool) (junk : rng) (jb : nat -> bool) (n : nat) (p : gparams)
    : option gparams :=
  assert_ dbg (Nat.eqb n 2 || Nat.eqb n 3)
    (if (MAX_DIMS <? n)%nat then None
     else
       let c := p_cart p in
       let r := loop_set 0 n (g_rng c) (make_empty_range junk n) in
       let q := loop_set 0 n (g_per c) (make_uniform jb n false false) in
       Some (mkGP (p_name p) n (p_comm p) (mkGC n r q (g_uniq c))
               (loop_set n MAX_DIMS (fun _ => (0, 1)) (p_loc p)))).

(** Grid.cpp 226-234; None is MPI_COMM_NULL. *)
Definition set_comm (dbg : bool) (c : option nat) (p : gparams) : option gparams :=
  assert_ dbg (match c with Some _ => true | None => false end)
    (Some (mkGP (p_name p) (p_dim p) c (p_cart p) (p_loc p))).

(** Grid.cpp 236-255. *)
Definition set_cart (dbg : bool) (c : gcart) (p : gparams) : option gparams :=
  assert_ dbg (Nat.eqb (g_dim c) (p_dim p))
    (assert_ dbg (all_dims 0 (fun d => fst (g_rng c d) =? 0))
       (assert_ dbg (all_dims 0 (fun d => 0 <? snd (g_rng c d) - fst (g_rng c d)))
          (assert_ dbg (g_uniq c)
             (Some (mkGP (p_name p) (p_dim p) (p_comm p) c (p_loc p)))))).

(** Grid.cpp 257-271 and 273-287: the checks of a range. *)
Definition check_range (dbg : bool) (r : rng) (p : gparams) {A} (x : option A) : option A :=
  assert_ dbg (negb (range_empty r))
    (assert_ dbg (all_dims (p_dim p) (fun d => (fst (r d) =? 0) && (snd (r d) =? 1))) x).

Definition set_global (dbg : bool) (r : rng) (p : gparams) : option gparams :=
  let c := p_cart p in
  check_range dbg r p
    (Some (mkGP (p_name p) (p_dim p) (p_comm p) (mkGC (g_dim c) r (g_per c) (g_uniq c)) (p_loc p))).
Definition set_local (dbg : bool) (r : rng) (p : gparams) : option gparams :=
  check_range dbg r p (Some (mkGP (p_name p) (p_dim p) (p_comm p) (p_cart p) r)).

(** Grid.cpp 289-301. *)
Definition set_periodic (dbg : bool) (q : nat -> bool) (p : gparams) : option gparams :=
  let c := p_cart p in
  assert_ dbg (all_dims (p_dim p) (fun d => negb (q d)))
    (Some (mkGP (p_name p) (p_dim p) (p_comm p) (mkGC (g_dim c) (g_rng c) q (g_uniq c)) (p_loc p))).

(** Grid.cpp 303-312. *)
Definition set_storage (dbg : bool) (u : bool) (p : gparams) : option gparams :=
  let c := p_cart p in
  assert_ dbg u
    (Some (mkGP (p_name p) (p_dim p) (p_comm p) (mkGC (g_dim c) (g_rng c) (g_per c) u) (p_loc p))).

Inductive gop : Type :=
| GName (s : string) | GDim (junk : rng) (jb : nat -> bool) (n : nat) | GComm (c : option nat)
| GCart (c : gcart) | GGlobal (r : rng) | GLocal (r : rng) | GPer (q : nat -> bool)
| GStore (u : bool).

Definition gstep (dbg : bool) (p : gparams) (o : gop) : option gparams :=
  match o with
  | GName s => Some (mkGP s (p_dim p) (p_comm p) (p_cart p) (p_loc p))
  | GDim junk jb n => set_dimension dbg junk jb n p
  | GComm c => set_comm dbg c p
  | GCart c => set_cart dbg c p
  | GGlobal r => set_global dbg r p
  | GLocal r => set_local dbg r p
  | GPer q => set_periodic dbg q p
  | GStore u => set_storage dbg u p
  end.

Fixpoint grun (dbg : bool) (p : gparams) (l : list gop) : option gparams :=
  match l with
  | [] => Some p
  | o :: r => match gstep dbg p o with None => None | Some p' => grun dbg p' r end
  end.
