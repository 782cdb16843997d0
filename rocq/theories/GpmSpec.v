(** Words used by the properties of grid parameters. *)
From Coq Require Import List Bool Arith ZArith String.
From Verif Require Import GpmModel.
Import ListNotations.
Local Open Scope Z_scope.

(** [v] is what the last call that gives a value (by [f]) gave, or [v0] if there is none. *)
Definition last_given {V} (f : gop -> option V) (v0 : V) (l : list gop) (v : V) : Prop :=
  (exists l1 o l2, l = l1 ++ o :: l2 /\ f o = Some v /\ forall o', In o' l2 -> f o' = None) \/
  (v = v0 /\ forall o, In o l -> f o = None).

(** What a call says about the name, the dimension, the communicator and the storage. *)
Definition gives_name (o : gop) : option string := match o with GName s => Some s | _ => None end.
Definition gives_dim (o : gop) : option nat := match o with GDim _ _ n => Some n | _ => None end.
Definition gives_comm (o : gop) : option (option nat) :=
  match o with GComm c => Some c | _ => None end.
Definition gives_storage (o : gop) : option bool :=
  match o with GCart c => Some (g_uniq c) | GStore u => Some u | _ => None end.

(** About direction [d] of the ranges and of periodicity: choosing a smaller dimension
    makes the direction trivial. *)
Definition gives_global (d : nat) (o : gop) : option (Z * Z) :=
  match o with
  | GCart c => Some (g_rng c d) | GGlobal r => Some (r d)
  | GDim _ _ n => if (n <=? d)%nat then Some (0, 1) else None
  | _ => None
  end.
Definition gives_local (d : nat) (o : gop) : option (Z * Z) :=
  match o with
  | GLocal r => Some (r d)
  | GDim _ _ n => if (n <=? d)%nat then Some (0, 1) else None
  | _ => None
  end.
Definition gives_periodic (d : nat) (o : gop) : option bool :=
  match o with
  | GCart c => Some (g_per c d) | GPer q => Some (q d)
  | GDim _ _ n => if (n <=? d)%nat then Some false else None
  | _ => None
  end.

(** Calls that are allowed for parameters of dimension [n]. *)
Definition fits (n : nat) (r : rng) : Prop :=
  forall d, (d < 3)%nat -> fst (r d) < snd (r d) /\ ((n <= d)%nat -> r d = (0, 1)).
Definition legal (n : nat) (o : gop) : Prop :=
  match o with
  | GName _ => True
  | GDim _ _ m => m = 2%nat \/ m = 3%nat
  | GComm c => c <> None
  | GCart c => g_dim c = n /\ g_uniq c = true /\
      forall d, (d < 3)%nat -> fst (g_rng c d) = 0 /\ 0 < snd (g_rng c d)
  | GGlobal r | GLocal r => fits n r
  | GPer q => forall d, (d < 3)%nat -> (n <= d)%nat -> q d = false
  | GStore u => u = true
  end.

(** Carts whose unused directions are trivial. *)
Definition flat (o : gop) : Prop :=
  match o with
  | GCart c => forall d, (d < 3)%nat -> (g_dim c <= d)%nat -> g_rng c d = (0, 1) /\ g_per c d = false
  | _ => True
  end.

(** Parameters that make sense. *)
Definition valid (p : gparams) : Prop :=
  (p_dim p = 2%nat \/ p_dim p = 3%nat) /\ g_dim (p_cart p) = p_dim p /\ g_uniq (p_cart p) = true /\
  fits (p_dim p) (g_rng (p_cart p)) /\ fits (p_dim p) (p_loc p) /\
  forall d, (d < 3)%nat -> (p_dim p <= d)%nat -> g_per (p_cart p) d = false.
