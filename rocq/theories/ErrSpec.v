(** What becomes of the ranks when reading fails for some grids. *)
From Coq Require Import List Arith Bool.
From Verif Require Import ProtoModel ProtoSpec ErrModel.
Import ListNotations.

(** Before grid g a rank is still reading, has stopped because of a grid, or waits for one. *)
Inductive fate : Type := Reads | Stopped (g : nat) | Waits (g : nat).
Definition reads (f : fate) : bool := match f with Reads => true | _ => false end.
Fixpoint fate_before (n : nat) (mem : nat -> nat -> bool) (fails : nat -> bool) (g : nat) (r : nat) : fate :=
  match g with
  | 0 => Reads
  | S g =>
    match fate_before n mem fails g r with
    | Reads =>
      if mem g r then
        if forallb (fun q => implb (mem g q) (reads (fate_before n mem fails g q))) (seq 0 n) then if fails g then Stopped g else Reads
        else Waits g
      else Reads
    | f => f
    end
  end.

(** Every execution is finite, and in each that cannot go on all ranks have finished, with an error iff [failed]. *)
Definition finishes (n G : nat) (mem : nat -> nat -> bool) (fails : nat -> bool) (failed : Prop) : Prop :=
  exists bound, forall rs s, run (estep n G mem fails) ers0 rs = Some s ->
    length rs <= bound /\ (stuck (estep n G mem fails) s -> forall r, r < n -> e_pc s r = S G /\ (e_fail s r = true <-> failed)).

(** Some execution cannot go on with a rank at a grid or at the end of the loop. *)
Definition hangs (n G : nat) (mem : nat -> nat -> bool) (fails : nat -> bool) : Prop :=
  exists rs s r, run (estep n G mem fails) ers0 rs = Some s /\ stuck (estep n G mem fails) s /\ r < n /\ e_pc s r <= G.
