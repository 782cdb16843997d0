(** Three processes that need fragments of each other. *)
From Coq Require Import List ZArith Bool Arith Lia.
From Verif Require Import TupleModel RangeModel ArrayModel NetModel FtxModel FcnModel FcnSpec.
Import ListNotations.
Local Open Scope nat_scope.

(** Grid 1 is on processes 0 and 1, grid 2 on processes 1 and 2. *)
Definition ex_local (r : nat) : list Z := match r with 0 => [1]%Z | 1 => [1; 2]%Z | _ => [2]%Z end.
(** Every process has two fragments of each of its grids. *)
Definition ex_frange (r : nat) (g f : Z) : option range :=
  if existsb (Z.eqb g) (ex_local r) && Z.leb 0 f && Z.leb f 1
  then Some (mkR (T3 (Z.of_nat r) g f) (T3 (Z.of_nat r + 1) (g + 1) (f + 1)))%Z else None.
Definition ex_need (r : nat) : list (Z * ent) :=
  match r with
  | 0 => [(1%Z, mkE 2 2 1); (1%Z, mkE 2 1 0)]
  | 1 => [(2%Z, mkE 1 1 1); (2%Z, mkE 1 0 0); (1%Z, mkE 2 2 1); (1%Z, mkE 2 2 0)]
  | _ => [(2%Z, mkE 1 0 0); (2%Z, mkE 1 0 1)]
  end.
Lemma ex_exist : exist_needs 3 ex_local ex_frange ex_need.
Proof.
  intros q N e Hq H. destruct q as [|[|[|q]]]; [| | |lia]; cbn in H;
    repeat (destruct H as [[= <- <-]|H]; [split; [cbn; lia|]; split; [cbn; auto|discriminate]|]); destruct H.
Qed.
