(** Where an object and the references to it are after a history, told from the history
    alone. *)
From Coq Require Import ZArith List Bool Arith.
From Verif Require Import FRefModel.
Import ListNotations.

(** The object in variable [n] before the operation is in variable [follow o n] after
    it, or no longer exists. *)
Definition follow (o : fop) (p : option nat) : option nat :=
  match p with
  | None => None
  | Some n =>
      match o with
      | FMoveNew a b => if Nat.eqb n b then Some a else Some n
      | FMoveAssign a b =>
          if Nat.eqb a b then Some n
          else if Nat.eqb n b then Some a else if Nat.eqb n a then None else Some n
      | FDestroy a => if Nat.eqb n a then None else Some n
      | _ => Some n
      end
  end.
Definition follows (l : list fop) (p : option nat) : option nat := fold_left (fun p o => follow o p) l p.

(** The reference variables that refer to it, given those that did before. *)
Definition refers (o : fop) (h : nat -> bool) : nat -> bool :=
  match o with
  | FGen r _ _ | FRefReset r => upd h r false
  | FRefCopy r q => upd h r (h q)
  | FRefMove r q => upd (upd h r (h q)) q false
  | _ => h
  end.
Definition all_refer (l : list fop) (h : nat -> bool) : nat -> bool :=
  fold_left (fun h o => refers o h) l h.

(** Which operations make sense: None = variable not in scope, Some false = moved from.
    Moved-from objects may be destroyed, copied from, and assigned to. *)
Definition fstatus (t : nat -> option bool) (o : fop) : option (nat -> option bool) :=
  match o with
  | FNew n => match t n with None => Some (upd t n (Some true)) | _ => None end
  | FCopyNew n m => match t n, t m with None, Some _ => Some (upd t n (Some true)) | _, _ => None end
  | FMoveNew n m => match t n, t m with
                    | None, Some true => Some (upd (upd t n (Some true)) m (Some false))
                    | _, _ => None
                    end
  | FCopyAssign n m => match t n, t m with Some _, Some _ => Some t | _, _ => None end
  | FMoveAssign n m => match t n, t m with
                       | Some _, Some true =>
                           Some (if Nat.eqb n m then t else upd (upd t n (Some true)) m (Some false))
                       | _, _ => None
                       end
  | FDestroy n => match t n with Some _ => Some (upd t n None) | None => None end
  | FGen _ n _ => match t n with Some true => Some t | _ => None end
  | FRefCopy _ _ | FRefMove _ _ | FRefReset _ => Some t
  end.
Fixpoint fstatus_run (t : nat -> option bool) (l : list fop) : option (nat -> option bool) :=
  match l with
  | [] => Some t
  | o :: r => match fstatus t o with None => None | Some t' => fstatus_run t' r end
  end.
Definition no_vars : nat -> option bool := fun _ => None.
