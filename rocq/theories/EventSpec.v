(** Events as users see them: a listener is attached as long as its handle has it. *)
From Coq Require Import List Bool Arith.
From Verif Require Import EventModel Assoc.
Import ListNotations.

(** Existing events, events that existed before, and the handles in scope with the event and function they attach. *)
Record lst : Type := mkL { l_ev : list nat; l_gone : list nat; l_h : list (nat * option (nat * nat));
                           l_log : list (nat * list nat) }.
Definition lst0 : lst := mkL [] [] [] [].

Definition exists_ev (t : lst) (e : nat) : bool := existsb (Nat.eqb e) (l_ev t).
(** The functions attached to event [e]. *)
Definition attached (t : lst) (e : nat) : list nat :=
  flat_map (fun p => match snd p with Some (e', f) => if Nat.eqb e' e then [f] else [] | None => [] end)
           (l_h t).

(** A listener may be detached only while its event exists. *)
Definition detachable (t : lst) (v : option (nat * nat)) : bool :=
  match v with Some (e, _) => exists_ev t e | None => true end.

Definition lstep (t : lst) (o : vop) : option lst :=
  match o with
  | VEvent e => if exists_ev t e || existsb (Nat.eqb e) (l_gone t) then None
                else Some (mkL (e :: l_ev t) (l_gone t) (l_h t) (l_log t))
  | VEventDestroy e =>
      if exists_ev t e
      then Some (mkL (filter (fun x => negb (Nat.eqb e x)) (l_ev t)) (e :: l_gone t) (l_h t) (l_log t))
      else None
  | VTrigger e =>
      if exists_ev t e then Some (mkL (l_ev t) (l_gone t) (l_h t) (l_log t ++ [(e, attached t e)])) else None
  | VAdd h e p =>
      match aget (l_h t) h with
      | None => if exists_ev t e then Some (mkL (l_ev t) (l_gone t) ((h, Some (e, p)) :: l_h t) (l_log t)) else None
      | Some _ => None
      end
  | VAddAssign h e p =>
      match aget (l_h t) h with
      | Some old => if exists_ev t e && detachable t old
                    then Some (mkL (l_ev t) (l_gone t) (aput (l_h t) h (Some (e, p))) (l_log t)) else None
      | None => None
      end
  | VNew h => match aget (l_h t) h with
              | None => Some (mkL (l_ev t) (l_gone t) ((h, None) :: l_h t) (l_log t)) | Some _ => None end
  | VMoveNew h g =>
      match aget (l_h t) h, aget (l_h t) g with
      | None, Some v => Some (mkL (l_ev t) (l_gone t) ((h, v) :: aput (l_h t) g None) (l_log t))
      | _, _ => None
      end
  | VMoveAssign h g =>
      match aget (l_h t) h, aget (l_h t) g with
      | Some old, Some v =>
          if Nat.eqb h g then Some t
          else if detachable t old
          then Some (mkL (l_ev t) (l_gone t) (aput (aput (l_h t) g None) h v) (l_log t)) else None
      | _, _ => None
      end
  | VReset h => match aget (l_h t) h with
                | Some old => if detachable t old
                              then Some (mkL (l_ev t) (l_gone t) (aput (l_h t) h None) (l_log t)) else None
                | None => None end
  | VDestroy h => match aget (l_h t) h with
                  | Some old => if detachable t old
                                then Some (mkL (l_ev t) (l_gone t) (adrop (l_h t) h) (l_log t)) else None
                  | None => None end
  end.

Fixpoint lrun (t : lst) (l : list vop) : option lst :=
  match l with
  | [] => Some t
  | o :: r => match lstep t o with None => None | Some t' => lrun t' r end
  end.
