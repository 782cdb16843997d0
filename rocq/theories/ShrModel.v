(** Contexts of the C interface and what holds them: model of src/core-c/Context.cpp 17-117 and of the functions of
    src/core-c/Domain.cpp 36-100, Assembler.cpp 21-96 and Exchanger.cpp 22-97 that take or give contexts.

    Memory is a map from addresses, which are not reused, to contexts; a context has an identity (its communicator).
    [s_var]: the client's ovk_context pointers.  [s_hold]: its holders, that is, ovk_shared_context handles, domains,
    assemblers and exchangers: all of them are a std::shared_ptr in storage of its own.  Deleting or reading what is
    not there, or deleting what belongs to a std::shared_ptr, is undefined (None).  Simplifications: creation of
    contexts does not fail (C78); the client does not copy pointers of unshared contexts or of holders. *)
From Coq Require Import List Bool Arith.
From Verif Require Import FRefModel.
Import ListNotations.

(** A context made by new, or one inside a std::shared_ptr's block, with the number of shared_ptrs. *)
Inductive cobj : Type := CRaw (id : nat) | CShr (id n : nat).
Definition cid (o : cobj) : nat := match o with CRaw id | CShr id _ => id end.

Record sst : Type := mkS {
  s_next : nat; s_mem : nat -> option cobj; s_var : nat -> option nat; s_hold : nat -> option nat;
  s_gone : list nat;    (* contexts whose destructor has run (Context.cpp 39-47, 75-87), in order *)
  s_seen : list nat     (* contexts seen by functions that read one *) }.
Definition sst0 : sst := mkS 0 (fun _ => None) (fun _ => None) (fun _ => None) [] [].

(** [SCreate v id]: ovkCreateContext.  [SDestroy v]: ovkDestroyContext.  [SShare v h]: ovkShareContext.
    [SCopy h g]: ovkCreateDomain, -Assembler, -Exchanger from a shared context, ovkGetDomainSharedContext and the same
    of assemblers and exchangers.  [SDrop h]: ovkResetSharedContext, ovkDestroyDomain, -Assembler, -Exchanger.
    [SGet h v]: ovkGetContextFromShared, ovkGetDomainContext etc.  [SUse v]: functions that use a context. *)
Inductive sop : Type :=
| SCreate (v id : nat) | SDestroy (v : nat) | SShare (v h : nat) | SCopy (h g : nat) | SDrop (h : nat)
| SGet (h v : nat) | SUse (v : nat).

Definition sstep (s : sst) (o : sop) : option sst :=
  let n := s_next s in let m := s_mem s in
  match o with
  | SCreate v id =>                                                       (* Context.cpp 17-48 *)
      Some (mkS (S n) (upd m n (Some (CRaw id))) (upd (s_var s) v (Some n)) (s_hold s) (s_gone s) (s_seen s))
  | SDestroy v =>                                                         (* 50-61 *)
      match s_var s v with
      | None => None
      | Some a =>
          match m a with
          | Some (CRaw id) => Some (mkS n (upd m a None) (upd (s_var s) v None) (s_hold s) (s_gone s ++ [id]) (s_seen s))
          | _ => None
          end
      end
  | SShare v h =>                              (* 63-79: moved into a new block, the old one (Exists_ false) deleted *)
      match s_var s v with
      | None => None
      | Some a =>
          match m a with
          | Some (CRaw id) => Some (mkS (S n) (upd (upd m a None) n (Some (CShr id 1))) (upd (s_var s) v (Some n))
                                        (upd (s_hold s) h (Some n)) (s_gone s) (s_seen s))
          | _ => None
          end
      end
  | SCopy h g =>                                              (* Domain.cpp 43-46, 94-98; the others are the same *)
      match s_hold s g with
      | None => None
      | Some a =>
          match m a with
          | Some (CShr id k) => Some (mkS n (upd m a (Some (CShr id (S k)))) (s_var s) (upd (s_hold s) h (Some a))
                                          (s_gone s) (s_seen s))
          | _ => None
          end
      end
  | SDrop h =>                                                            (* Context.cpp 81-92, Domain.cpp 55-66 *)
      match s_hold s h with
      | None => None
      | Some a =>
          match m a with
          | Some (CShr id 1) => Some (mkS n (upd m a None) (s_var s) (upd (s_hold s) h None) (s_gone s ++ [id]) (s_seen s))
          | Some (CShr id (S k)) => Some (mkS n (upd m a (Some (CShr id k))) (s_var s) (upd (s_hold s) h None)
                                              (s_gone s) (s_seen s))
          | _ => None
          end
      end
  | SGet h v =>                                                           (* Context.cpp 95-117, Domain.cpp 68-86 *)
      match s_hold s h with
      | None => None
      | Some a => Some (mkS n m (upd (s_var s) v (Some a)) (s_hold s) (s_gone s) (s_seen s))
      end
  | SUse v =>                                                             (* Context.cpp 117-145 and others *)
      match s_var s v with
      | None => None
      | Some a =>
          match m a with
          | Some o => Some (mkS n m (s_var s) (s_hold s) (s_gone s) (s_seen s ++ [cid o]))
          | None => None
          end
      end
  end.

Fixpoint srun_ctx (s : sst) (ops : list sop) : option sst :=
  match ops with
  | [] => Some s
  | o :: r => match sstep s o with Some s' => srun_ctx s' r | None => None end
  end.
