(** Requests of the C interface: model of src/core-c/Request.cpp and of the two functions
    of src/core-c/Exchanger.cpp that make requests, over the model of requests.

    One process.  A C request is a pointer variable of the client, null (None) or the
    address of a C++ request object made by [new]; addresses are numbered in the order of
    allocation and the object at address a is request variable a of ReqModel.
    Dereferencing or deleting the address of an object that has been deleted is undefined
    behaviour (None).
    Simplifications: the client does not copy pointers between its variables; the
    operation returned by Send or Receive is any list of messages, as in ReqModel. *)
From Coq Require Import List Bool Arith.
From Verif Require Import ReqModel.
Import ListNotations.

Record cst : Type := mkCS {
  cs : rst;                      (* requests and MPI *)
  cnext : nat;                   (* objects allocated so far *)
  calive : nat -> bool;          (* not deleted *)
  cvar : nat -> option nat }.    (* pointer variables of the client *)

Definition cst0 : cst := mkCS rst0 0 (fun _ => false) (fun _ => None).

Definition set_cs (s : cst) (r : rst) : cst := mkCS r (cnext s) (calive s) (cvar s).
Definition set_cvar (s : cst) (v : nat) (p : option nat) : cst :=
  mkCS (cs s) (cnext s) (calive s) (fun w => if Nat.eqb w v then p else cvar s w).

(** Exchanger.cpp 247-260 and 301-314: a new object, assigned the request that Send or
    Receive returns; its address is written to the variable. *)
Definition c_send (v : nat) (bs : list bool) (s : cst) : cst :=
  let a := cnext s in
  set_cvar (mkCS (construct a bs (cs s)) (S a)
              (fun x => if Nat.eqb x a then true else calive s x) (cvar s)) v (Some a).

(** delete: nothing for a null pointer, else the destructor (Request.hpp: ~request
    waits) and the memory is released. *)
Definition c_delete (sched : nat -> nat) (p : option nat) (s : cst) : option cst :=
  match p with
  | None => Some s
  | Some a =>
      if calive s a then
        match wait sched a (cs s) with
        | None => None
        | Some r => Some (mkCS r (cnext s) (fun x => if Nat.eqb x a then false else calive s x)
                            (cvar s))
        end
      else None
  end.

(** Request.cpp 14-25: ovkWait. *)
Definition c_wait (sched : nat -> nat) (v : nat) (s : cst) : option cst :=
  match cvar s v with
  | None => Some s
  | Some a =>
      if calive s a then
        match wait sched a (cs s) with
        | None => None
        | Some r => match c_delete sched (Some a) (set_cs s r) with
                    | None => None
                    | Some s' => Some (set_cvar s' v None)
                    end
        end
      else None
  end.

Definition all_alive (s : cst) (ps : list (option nat)) : bool :=
  forallb (fun p => match p with Some a => calive s a | None => true end) ps.

(** Request.cpp 39-42: the deleting loop of ovkWaitAll. *)
Fixpoint delete_loop (sched : nat -> nat) (vs : list nat) (ps : list (option nat)) (s : cst)
    : option cst :=
  match vs, ps with
  | v :: vs', p :: ps' =>
      match c_delete sched p s with
      | None => None
      | Some s' => delete_loop sched vs' ps' (set_cvar s' v None)
      end
  | _, _ => Some s
  end.

(** Request.cpp 27-44: ovkWaitAll on the array of variables [vs]. *)
Definition c_wait_all (sched : nat -> nat) (vs : list nat) (s : cst) : option cst :=
  let ps := map (cvar s) vs in
  if all_alive s ps then
    match wait_all sched ps (cs s) with
    | None => None
    | Some r => delete_loop sched vs ps (set_cs s r)
    end
  else None.

(** Request.cpp 46-65: ovkWaitAny; the index is None for -1. *)
Definition c_wait_any (sched : nat -> nat) (vs : list nat) (s : cst) : option (cst * option nat) :=
  let ps := map (cvar s) vs in
  if all_alive s ps then
    match wait_any sched ps (cs s) with
    | None => None
    | Some (r, None) => Some (set_cs s r, None)
    | Some (r, Some i) =>
        match nth_error ps i, nth_error vs i with
        | Some p, Some v =>
            match c_delete sched p (set_cs s r) with
            | None => None
            | Some s' => Some (set_cvar s' v None, Some i)
            end
        | _, _ => None
        end
    end
  else None.

(** Clients. *)
Inductive cop : Type :=
| CSend (v : nat) (bs : list bool) | CWait (v : nat)
| CWaitAll (vs : list nat) | CWaitAny (vs : list nat).

Definition cstep (sched : nat -> nat) (s : cst) (o : cop) : option cst :=
  match o with
  | CSend v bs => Some (c_send v bs s)
  | CWait v => c_wait sched v s
  | CWaitAll vs => c_wait_all sched vs s
  | CWaitAny vs => option_map fst (c_wait_any sched vs s)
  end.

Fixpoint crun (sched : nat -> nat) (s : cst) (l : list cop) : option cst :=
  match l with
  | [] => Some s
  | o :: r => match cstep sched s o with None => None | Some s' => crun sched s' r end
  end.
