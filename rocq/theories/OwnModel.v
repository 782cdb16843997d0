(** Owners of things that have to be given back: model of src/core/Handle.hpp and Handle.inl (datatypes of MPI),
    src/core/Comm.hpp and Comm.inl (class comm), src/core/ScopeGuard.inl and the handles of src/core/Logger.hpp.

    Objects are variables numbered by the program; None: not in scope.  Things are numbers; the log lists those that
    have been given back (deleter called, communicator freed, action run, level decreased), in order.  Using a
    variable that is not in scope, or defining one that is, is no program; it and undefined behaviour are None.
    Simplifications: deleters and actions do not use the owners; a callable that has been moved from is not called
    again, its value is kept here. *)
From Coq Require Import List ZArith Bool.
From Verif Require Import FRefModel.
Import ListNotations.

(** [WNew h]: default constructor.  [WMake h t]: made with thing t.  [WMoveNew h g]: X h(std::move(g)).
    [WMoveAssign h g]: h = std::move(g).  [WRelease h]: h.Release(), for guards h.Dismiss().  [WDestroy h]: end of scope. *)
Inductive wop : Type :=
| WNew (h : nat) | WMake (h t : nat) | WMoveNew (h g : nat) | WMoveAssign (h g : nat)
| WReset (h : nat) | WRelease (h : nat) | WDestroy (h : nat).

Record wst (O : Type) : Type := mkW { w_obj : nat -> option O; w_log : list nat }.
Arguments mkW {O} _ _.
Arguments w_obj {O} _ _.
Arguments w_log {O} _.
Definition wst0 {O} : wst O := mkW (fun _ => None) [].

Definition wset {O} (s : wst O) (h : nat) (o : option O) : wst O := mkW (upd (w_obj s) h o) (w_log s).
Definition wlog {O} (s : wst O) (l : list nat) : wst O := mkW (w_obj s) (w_log s ++ l).

Definition wrun {O} (step : wst O -> wop -> option (wst O)) (s : wst O) (ops : list wop) : option (wst O) :=
  fold_left (fun o x => match o with Some s => step s x | None => None end) ops (Some s).

Definition define {O} (s : wst O) (h : nat) (o : O) : option (wst O) :=
  match w_obj s h with None => Some (wset s h (Some o)) | Some _ => None end.

Definition opt_list (o : option nat) : list nat := match o with Some t => [t] | None => [] end.

(** ** Handle.hpp, Handle.inl *)

(** Handle.hpp 49-51: Handle_, Delete_ (given as the thing it deletes). *)
Definition hobj : Type := (option nat * option nat)%type.
(** Handle.inl 53-61: Reset. *)
Definition handle_reset (s : wst hobj) (h : nat) : option (wst hobj) :=
  match w_obj s h with
  | Some (Some t, Some d) => Some (wlog (wset s h (Some (None, None))) [d])
  | Some (Some t, None) => None
  | Some (None, d) => Some s
  | None => None
  end.
Definition handle_step (s : wst hobj) (o : wop) : option (wst hobj) :=
  match o with
  | WNew h => define s h (None, None)                                     (* Handle.hpp 23 *)
  | WMake h t => define s h (Some t, Some t)                              (* Handle.inl 7-17 *)
  | WMoveNew h g =>                                                       (* Handle.hpp 29; Optional.inl 26-34 *)
      match w_obj s g with
      | Some x => define (wset s g (Some (None, None))) h x
      | None => None
      end
  | WMoveAssign h g =>                                                    (* Handle.hpp 32; Optional.inl 67-82 *)
      if Nat.eqb h g then None else
      match w_obj s h, w_obj s g with
      | Some _, Some x => Some (wset (wset s g (Some (None, None))) h (Some x))
      | _, _ => None
      end
  | WReset h => handle_reset s h
  | WRelease h =>                                                         (* Handle.inl 63-69 *)
      match w_obj s h with
      | Some (Some t, _) => Some (wset s h (Some (None, None)))
      | _ => None
      end
  | WDestroy h =>                                                         (* Handle.inl 19-23 *)
      match handle_reset s h with Some s' => Some (wset s' h None) | None => None end
  end.

(** ** Comm.hpp, Comm.inl *)

(** Comm.hpp 83-84: Resource_ (the communicator it frees, if not null), View_. *)
Definition mobj : Type := (option nat * option nat)%type.
Definition comm_step (s : wst mobj) (o : wop) : option (wst mobj) :=
  match o with
  | WNew h => define s h (None, None)
  | WMake h t => define s h (Some t, Some t)                              (* Comm.inl 33-40 *)
  | WMoveNew h g =>                                                       (* 42-47 *)
      match w_obj s g with
      | Some x => define (wset s g (Some (None, None))) h x
      | None => None
      end
  | WMoveAssign h g =>                                                    (* 49-58: Other is moved from g, swap, ~Other *)
      match w_obj s g with
      | Some other =>
          let s1 := wset s g (Some (None, None)) in
          match w_obj s1 h with
          | Some old => Some (wlog (wset s1 h (Some other)) (opt_list (fst old)))
          | None => None
          end
      | None => None
      end
  | WReset h =>                                                           (* 60-65 *)
      match w_obj s h with
      | Some x => Some (wlog (wset s h (Some (None, None))) (opt_list (fst x)))
      | None => None
      end
  | WRelease h =>                                                         (* 67-77 *)
      match w_obj s h with
      | Some (Some t, _) => Some (wset s h (Some (None, None)))
      | _ => None
      end
  | WDestroy h =>                                                         (* the resource's destructor, Comm.hpp 76-80 *)
      match w_obj s h with
      | Some x => Some (wlog (wset s h None) (opt_list (fst x)))
      | None => None
      end
  end.

(** ** ScopeGuard.inl *)

(** ScopeGuard.hpp 34-35: ScopeExitFunc_, Dismissed_. *)
Definition gobj : Type := (nat * bool)%type.
Definition guard_end (x : gobj) : list nat := if snd x then [] else [fst x].
Definition guard_step (s : wst gobj) (o : wop) : option (wst gobj) :=
  match o with
  | WNew _ | WReset _ => None
  | WMake h t => define s h (t, false)                                    (* 7-10 *)
  | WMoveNew h g =>                                                       (* 12-17 *)
      match w_obj s g with
      | Some x => define (wset s g (Some (fst x, true))) h x
      | None => None
      end
  | WMoveAssign h g =>                                                    (* 27-39 *)
      match w_obj s h, w_obj s g with
      | Some x, Some y => Some (wlog (wset (wset s h (Some y)) g (Some (fst y, true))) (guard_end x))
      | _, _ => None
      end
  | WRelease h =>                                                         (* 41-47 *)
      match w_obj s h with
      | Some x => Some (wset s h (Some (fst x, true)))
      | None => None
      end
  | WDestroy h =>                                                         (* 19-25 *)
      match w_obj s h with
      | Some x => Some (wlog (wset s h None) (guard_end x))
      | None => None
      end
  end.

(** ** Logger.hpp *)

(** Logger.hpp 48-49: ValuePtr_ (here: whether it is set, and which increase it is).  The log lists the increases
    taken back; the level follows from it ([level_run]). *)
Definition lobj : Type := option nat.
Definition level_step (s : wst lobj) (o : wop) : option (wst lobj) :=
  match o with
  | WNew h => define s h None                                             (* Logger.hpp 24 *)
  | WMake h t => define s h (Some t)                                      (* Logger.inl 109-115 *)
  | WMoveNew h g =>                                                       (* Logger.hpp 26-32 *)
      match w_obj s g with
      | Some x => define (wset s g (Some None)) h x
      | None => None
      end
  | WMoveAssign h g =>                                                    (* 38-42: Other is moved from g, swap, ~Other *)
      match w_obj s g with
      | Some other =>
          let s1 := wset s g (Some None) in
          match w_obj s1 h with
          | Some old => Some (wlog (wset s1 h (Some other)) (opt_list old))
          | None => None
          end
      | None => None
      end
  | WReset h =>                                                           (* 43-46 *)
      match w_obj s h with
      | Some x => Some (wlog (wset s h (Some None)) (opt_list x))
      | None => None
      end
  | WRelease _ => None
  | WDestroy h =>                                                         (* 33-37 *)
      match w_obj s h with
      | Some x => Some (wlog (wset s h None) (opt_list x))
      | None => None
      end
  end.

(** StatusLevel_ (Logger.inl 109-115, Logger.hpp 33-37): 1 (Logger.hpp 131), increased when handles are made and
    decreased when they are given up; [amt t]: Amount_ of the t-th increase.  StatusIndent_ is the same from 0. *)
Definition level_change (amt : nat -> Z) (o : wop) : Z := match o with WMake _ t => amt t | _ => 0%Z end.
Fixpoint level_run (amt : nat -> Z) (s : wst lobj) (level : Z) (ops : list wop) : option (wst lobj * Z) :=
  match ops with
  | [] => Some (s, level)
  | o :: r =>
      match level_step s o with
      | Some s' =>
          let ended := skipn (length (w_log s)) (w_log s') in
          level_run amt s' (level + level_change amt o - fold_right Z.add 0%Z (map amt ended))%Z r
      | None => None
      end
  end.
