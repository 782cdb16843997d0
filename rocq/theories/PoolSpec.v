(** What the pool is supposed to be: a finite map from descriptions to partitions. *)
From Coq Require Import List ZArith Bool.
From Verif Require Import RangeModel CartModel PoolModel.
Import ListNotations.

(** Operations mention only Cartesian descriptions in [D]. *)
Definition pool_op_in (D : cart -> Prop) (o : pool_op) : Prop :=
  match o with
  | PInsert p => D (d_cart (p_desc p))
  | PFetch d | PErase d => D (d_cart d)
  end.

(** Equality of descriptions, over all ranks. *)
Definition desc_eqb (a b : desc) : bool :=
  cart_eqb (d_cart a) (d_cart b) && all2 reqb (d_local a) (d_local b) &&
  all2 reqb (d_ext a) (d_ext b) && all2 Z.eqb (d_nsub a) (d_nsub b).

(** State: the partition filed under each description, and the next new number. *)
Definition fpool : Type := ((desc -> option nat) * nat)%type.

Definition fpool_step (s : fpool) (o : pool_op) : fpool :=
  let '(f, n) := s in
  match o with
  | PInsert p => (fun d => if desc_eqb d (p_desc p) then Some (p_id p) else f d, n)
  | PFetch d => match f d with
                | Some _ => s
                | None => (fun d' => if desc_eqb d' d then Some n else f d', S n)
                end
  | PErase d => (fun d' => if desc_eqb d' d then None else f d', n)
  end.
Definition fpool_run (first : nat) (ops : list pool_op) : fpool :=
  fold_left fpool_step ops (fun _ => None, first).
