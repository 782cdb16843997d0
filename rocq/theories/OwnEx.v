(** Programs used as cases beside the theorems C103. *)
From Coq Require Import List ZArith Bool Arith.
From Verif Require Import OwnModel.
Import ListNotations.

(** Variables 0 to 3 and things 10 to 13: one is released, one replaced by an assignment, one reset, one moved twice. *)
Definition own_prog : list wop :=
  [WMake 0 10; WMake 1 11; WNew 2; WMoveAssign 2 0; WMake 3 12; WMoveAssign 3 1; WMoveNew 4 2; WReset 3; WMake 5 13;
   WRelease 5; WMake 6 14; WDestroy 4].
(** The same for guards. *)
Definition guard_prog : list wop :=
  [WMake 0 10; WMake 1 11; WMoveAssign 0 1; WMake 2 12; WRelease 2; WMoveNew 3 0; WDestroy 2; WDestroy 1; WMake 4 13;
   WDestroy 3].
(** Levels: increases by 2, 3 and -1. *)
Definition level_amt (t : nat) : Z := match t with 0 => 2%Z | 1 => 3%Z | _ => (-1)%Z end.
Definition level_prog : list wop := [WMake 0 0; WMake 1 1; WMoveAssign 0 1; WMake 2 2; WNew 3; WReset 1].
(** No variable that owns something is assigned to. *)
Definition handle_prog : list wop := [WMake 0 10; WNew 1; WMoveAssign 1 0; WMoveNew 2 1; WMake 3 11; WReset 3; WDestroy 0; WDestroy 2].
(** The same with an assignment to an owner. *)
Definition leak_prog : list wop := [WMake 0 5; WMake 1 6; WMoveAssign 0 1; WDestroy 1; WDestroy 0].
