(** Optionals as users see them: variables holding nothing or one value. *)
From Coq Require Import List Bool Arith.
From Verif Require Import OptModel Assoc.
Import ListNotations.

(** Variables with their contents (Some None: a value that was moved from), and the values read. *)
Record pst : Type := mkP { p_h : list (nat * option (option nat)); p_out : list (option nat) }.
Definition pst0 : pst := mkP [] [].

Definition pstep (t : pst) (o : oop) : option pst :=
  let new h v := match aget (p_h t) h with None => Some (mkP ((h, v) :: p_h t) (p_out t)) | Some _ => None end in
  let put h v := match aget (p_h t) h with Some _ => Some (mkP (aput (p_h t) h v) (p_out t)) | None => None end in
  match o with
  | OpNew h => new h None
  | OpVal h v => new h (Some (Some v))
  | OpCopyNew h g => match aget (p_h t) g with Some v => new h v | None => None end
  | OpMoveNew h g =>
      match aget (p_h t) h, aget (p_h t) g with
      | None, Some v => Some (mkP ((h, v) :: aput (p_h t) g None) (p_out t))
      | _, _ => None end
  | OpCopyAssign h g => match aget (p_h t) g with Some v => put h v | None => None end
  | OpMoveAssign h g =>
      match aget (p_h t) h, aget (p_h t) g with
      | Some _, Some v => Some (mkP (aput (aput (p_h t) g None) h v) (p_out t))
      | _, _ => None end
  | OpAssign h v => put h (Some (Some v))
  | OpAssignCopyOf h g =>
      match aget (p_h t) g with Some (Some v) => put h (Some v) | _ => None end
  | OpAssignMoveOf h g =>
      match aget (p_h t) h, aget (p_h t) g with
      | Some _, Some (Some v) => Some (mkP (aput (aput (p_h t) g (Some None)) h (Some v)) (p_out t))
      | _, _ => None end
  | OpGet h =>
      match aget (p_h t) h with Some (Some v) => Some (mkP (p_h t) (p_out t ++ [v])) | _ => None end
  | OpRelease h =>
      match aget (p_h t) h with
      | Some (Some v) => Some (mkP (aput (p_h t) h None) (p_out t ++ [v])) | _ => None end
  | OpReset h => put h None
  | OpDestroy h => match aget (p_h t) h with Some _ => Some (mkP (adrop (p_h t) h) (p_out t)) | None => None end
  end.

Fixpoint prun (t : pst) (l : list oop) : option pst :=
  match l with
  | [] => Some t
  | o :: r => match pstep t o with Some t' => prun t' r | None => None end
  end.

(** An optional or its value is not moved into itself. *)
Definition not_self (o : oop) : Prop :=
  match o with OpMoveAssign h g | OpAssignMoveOf h g => h <> g | _ => True end.

(** Number of values present. *)
Definition values (t : pst) : nat :=
  length (filter (fun p => match snd p with Some _ => true | None => false end) (p_h t)).

(** Number of move-assignments from an optional that holds a value. *)
Fixpoint full_moves (t : pst) (l : list oop) : nat :=
  match l with
  | [] => 0
  | o :: r =>
      (match o with
       | OpMoveAssign h g => match aget (p_h t) g with Some (Some _) => 1 | _ => 0 end
       | _ => 0 end) +
      match pstep t o with Some t' => full_moves t' r | None => 0 end
  end.
