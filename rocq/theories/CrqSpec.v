(** Words used by the properties of C requests. *)
From Coq Require Import List Bool Arith.
From Verif Require Import ReqModel ReqSpec CrqModel.
Import ListNotations.

(** The operations a client starts, in order. *)
Definition sends (l : list cop) : list (list bool) :=
  flat_map (fun o => match o with CSend _ bs => [bs] | _ => [] end) l.

(** An array does not contain the same variable twice. *)
Definition cop_ok (o : cop) : Prop :=
  match o with CWaitAll vs | CWaitAny vs => NoDup vs | _ => True end.

(** The client writes new requests to null pointers only. *)
Fixpoint tidy (sched : nat -> nat) (s : cst) (l : list cop) : Prop :=
  match l with
  | [] => True
  | o :: r =>
      (match o with CSend v _ => cvar s v = None | _ => True end) /\
      forall s', cstep sched s o = Some s' -> tidy sched s' r
  end.
