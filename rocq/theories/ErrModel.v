(** Reading XINTOUT files when reading fails for some grids: src/extras/XINTOUT.cpp 399-458 with the Check of the errors of a grid at 955, 1290 and 1488.

    Ranks are the numbers below [n], grids those below [G] in the order of their IDs, in which every rank goes through its own grids. [mem g r]: rank r is one of those of grid g.
    [fails g]: reading grid g fails on some rank, which all ranks of the grid get to know by Check on the communicator of the grid (C95); then they leave the loop.
    Simplifications: everything that is done for a grid is one collective operation on its communicator, which ends on a rank once all ranks of the grid have entered it; which error it is
    is left out, the grid that failed is kept instead. *)
From Coq Require Import List Arith Bool.
From Verif Require Import ContModel FRefModel ProtoModel.
Import ListNotations.

(** [e_pc r]: the grid rank r is at, [G] behind the loop, [S G] at the end. [e_in g r]: rank r has entered the operation of grid g ([G]: the Check of 451). [e_threw r]: the grid whose error
    rank r has caught, 445-449. [e_fail r]: whether ReadXINTOUT ends with an error on rank r. *)
Record ers : Type := mkE { e_pc : nat -> nat; e_in : nat -> nat -> bool; e_threw : nat -> option nat; e_fail : nat -> bool }.
Definition ers0 : ers := mkE (fun _ => 0) (fun _ _ => false) (fun _ => None) (fun _ => false).

Definition in_loop (G : nat) (mem : nat -> nat -> bool) (g q : nat) : bool := if g <? G then mem g q else true.
(** All ranks of the communicator have entered. *)
Definition all_in (n G : nat) (mem : nat -> nat -> bool) (s : ers) (g : nat) : bool := forallb (fun q => implb (in_loop G mem g q) (e_in s g q)) (seq 0 n).
Definition enter (s : ers) (g r : nat) : ers := mkE (e_pc s) (upd (e_in s) g (upd (e_in s g) r true)) (e_threw s) (e_fail s).
(** The end of an iteration, 421-443, or the way to the handler, 445 *)
Definition leave (G : nat) (fails : nat -> bool) (s : ers) (g r : nat) : ers :=
  if fails g then mkE (upd (e_pc s) r G) (e_in s) (upd (e_threw s) r (Some g)) (e_fail s)
  else mkE (upd (e_pc s) r (S g)) (e_in s) (e_threw s) (e_fail s).
(** 451: an error if any rank has one *)
Definition finish (n G : nat) (s : ers) (r : nat) : ers :=
  mkE (upd (e_pc s) r (S G)) (e_in s) (e_threw s)
    (upd (e_fail s) r (existsb (fun q => match e_threw s q with Some _ => true | None => false end) (seq 0 n))).

(** Rank r goes on. *)
Definition estep (n G : nat) (mem : nat -> nat -> bool) (fails : nat -> bool) (s : ers) (r : nat) : option ers :=
  if r <? n then
    let g := e_pc s r in
    if g <? G then
      if mem g r then
        if e_in s g r then if all_in n G mem s g then Some (leave G fails s g r) else None
        else Some (enter s g r)
      else Some (mkE (upd (e_pc s) r (S g)) (e_in s) (e_threw s) (e_fail s))
    else if g =? G then
      if e_in s G r then if all_in n G mem s G then Some (finish n G s r) else None
      else Some (enter s G r)
    else None
  else None.
