(** What union-find is supposed to compute: the equivalence generated by the
    unions performed on elements that were present. *)
From Coq Require Import List ZArith Relations.
From Verif Require Import UFModel.
Import ListNotations.

Definition inserted (ops : list uf_op) (x : Z) : Prop := In (UInsert x) ops.

Definition linked (ops : list uf_op) (x y : Z) : Prop :=
  exists before after, ops = before ++ UUnion x y :: after /\
    inserted before x /\ inserted before y.

Definition connected (ops : list uf_op) : Z -> Z -> Prop := clos_refl_sym_trans Z (linked ops).
