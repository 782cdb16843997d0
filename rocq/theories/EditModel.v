(** Edit handles: model of src/core/Editor.hpp and Editor.inl, and of the way every
    EditX function uses an editor (e.g. StateComponent.cpp 538-561,
    ConnectivityM.cpp 172-196).

    Editors are numbered; handles are variables.  A handle's reference to its editor is
    a floating reference, which follows the editor when it is moved (see FRefModel).
    The session number stands for the action passed to Activate.  Calling an empty
    DeactivateFunc_ is undefined behaviour (None).  Debug assertions are off.
    Simplifications: the end-of-edit action does not itself use the editor; the pointer
    to the edited object is left out. *)
From Coq Require Import ZArith List Bool Arith.
From Verif Require Import FRefModel.
Import ListNotations.

(** Editor.hpp 45-47 per editor: RefCount_, DeactivateFunc_; [e_sess]: actions activated
    so far.  Handles (Editor.hpp 83): None = not in scope, Some None = null.
    [e_log]: actions run, in order. *)
Record est : Type := mkE {
  e_cnt : nat -> Z; e_fun : nat -> option nat; e_sess : nat -> nat;
  e_hnd : nat -> option (option nat); e_log : list (nat * nat) }.

Definition est0 : est := mkE (fun _ => 0%Z) (fun _ => None) (fun _ => 0) (fun _ => None) [].

(** Editor.inl 25-30. *)
Definition activate (s : est) (e : nat) : est :=
  mkE (e_cnt s) (upd (e_fun s) e (Some (e_sess s e))) (upd (e_sess s) e (S (e_sess s e)))
      (e_hnd s) (e_log s).
(** Editor.inl 44-48. *)
Definition increment (s : est) (e : nat) : est :=
  mkE (upd (e_cnt s) e (e_cnt s e + 1)%Z) (e_fun s) (e_sess s) (e_hnd s) (e_log s).
(** Editor.inl 50-58. *)
Definition decrement (s : est) (e : nat) : option est :=
  let s1 := mkE (upd (e_cnt s) e (e_cnt s e - 1)%Z) (e_fun s) (e_sess s) (e_hnd s) (e_log s) in
  if Z.eqb (e_cnt s e - 1) 0 then
    match e_fun s e with
    | None => None
    | Some k => Some (mkE (e_cnt s1) (upd (e_fun s) e None) (e_sess s) (e_hnd s)
                          (e_log s ++ [(e, k)]))
    end
  else Some s1.

Definition set_hnd (s : est) (h : nat) (v : option (option nat)) : est :=
  mkE (e_cnt s) (e_fun s) (e_sess s) (upd (e_hnd s) h v) (e_log s).
Definition incr_opt (s : est) (v : option nat) : est :=
  match v with Some e => increment s e | None => s end.
Definition decr_opt (s : est) (v : option nat) : option est :=
  match v with Some e => decrement s e | None => Some s end.

(** [EdEdit h e]: "auto h = X.EditY();".  [EdRestore h]: h.Restore(). [EdRelease h]:
    h.Release(), whose share is given back by [EdEditorRestore e] (X.RestoreY()). *)
Inductive eop : Type :=
| EdNew (h : nat) | EdEdit (h e : nat) | EdCopyNew (h g : nat) | EdMoveNew (h g : nat)
| EdCopyAssign (h g : nat) | EdMoveAssign (h g : nat) | EdDestroy (h : nat)
| EdRestore (h : nat) | EdRelease (h : nat) | EdEditorRestore (e : nat).

Definition estep (s : est) (o : eop) : option est :=
  match o with
  | EdNew h => match e_hnd s h with None => Some (set_hnd s h (Some None)) | _ => None end
  | EdEdit h e =>
      match e_hnd s h with
      | Some _ => None
      | None =>
          let s1 := match e_fun s e with None => activate s e | Some _ => s end in
          Some (set_hnd (increment s1 e) h (Some (Some e)))       (* Editor.inl 32-36, 60-65 *)
      end
  | EdCopyNew h g =>                                              (* Editor.inl 67-74 *)
      match e_hnd s h, e_hnd s g with
      | None, Some v => Some (incr_opt (set_hnd s h (Some v)) v)
      | _, _ => None
      end
  | EdMoveNew h g =>                                              (* Editor.inl 76-81 *)
      match e_hnd s h, e_hnd s g with
      | None, Some v => Some (set_hnd (set_hnd s h (Some v)) g (Some None))
      | _, _ => None
      end
  | EdCopyAssign h g =>                                           (* Editor.inl 83-100 *)
      match e_hnd s h, e_hnd s g with
      | Some _, Some v =>
          let s1 := incr_opt s v in                 (* Other is copy-constructed from g *)
          match e_hnd s1 h with
          | Some old => decr_opt (set_hnd s1 h (Some v)) old   (* swap, then ~Other *)
          | None => None
          end
      | _, _ => None
      end
  | EdMoveAssign h g =>
      match e_hnd s h, e_hnd s g with
      | Some _, Some v =>
          let s1 := set_hnd s g (Some None) in      (* Other is move-constructed from g *)
          match e_hnd s1 h with
          | Some old => decr_opt (set_hnd s1 h (Some v)) old
          | None => None
          end
      | _, _ => None
      end
  | EdDestroy h =>                                                (* Editor.inl 94-100 *)
      match e_hnd s h with
      | Some v => match decr_opt s v with Some s1 => Some (set_hnd s1 h None) | None => None end
      | None => None
      end
  | EdRestore h =>                                                (* Editor.inl 126-132 *)
      match e_hnd s h with Some v => decr_opt s v | None => None end
  | EdRelease h =>                                                (* Editor.inl 134-145 *)
      match e_hnd s h with Some _ => Some (set_hnd s h (Some None)) | None => None end
  | EdEditorRestore e => decrement s e                            (* Editor.inl 38-42 *)
  end.

Fixpoint erun (s : est) (l : list eop) : option est :=
  match l with
  | [] => Some s
  | o :: r => match estep s o with None => None | Some s' => erun s' r end
  end.
