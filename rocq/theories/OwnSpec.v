(** Specification of ownership: every variable in scope owns one thing or none; a thing given up by its owner is given
    back at that moment. *)
From Coq Require Import List ZArith Bool Arith.
From Verif Require Import FRefModel OwnModel.
Import ListNotations.

(** [p_vars]: the variables in scope, with what they own.  [p_ended]: things given back, in order.  [p_made],
    [p_freed]: things that have been given to owners, and those taken from them by Release or Dismiss. *)
Record pst : Type := mkP {
  p_vars : list (nat * option nat); p_ended : list nat; p_made : list nat; p_freed : list nat }.
Definition pst0 : pst := mkP [] [] [] [].

Fixpoint owner (l : list (nat * option nat)) (h : nat) : option (option nat) :=
  match l with [] => None | (k, x) :: l => if Nat.eqb k h then Some x else owner l h end.
Fixpoint without (l : list (nat * option nat)) (h : nat) : list (nat * option nat) :=
  match l with [] => [] | (k, x) :: l => if Nat.eqb k h then l else (k, x) :: without l h end.

(** The things owned. *)
Definition owned (s : pst) : list nat := flat_map (fun p => opt_list (snd p)) (p_vars s).

Definition pstep (s : pst) (o : wop) : option pst :=
  let v := p_vars s in
  match o with
  | WNew h => match owner v h with
              | None => Some (mkP ((h, None) :: v) (p_ended s) (p_made s) (p_freed s))
              | Some _ => None
              end
  | WMake h t => match owner v h with
                 | None => Some (mkP ((h, Some t) :: v) (p_ended s) (p_made s ++ [t]) (p_freed s))
                 | Some _ => None
                 end
  | WMoveNew h g => match owner v h, owner v g with
                    | None, Some x => Some (mkP ((h, x) :: (g, None) :: without v g) (p_ended s) (p_made s) (p_freed s))
                    | _, _ => None
                    end
  | WMoveAssign h g =>
      if Nat.eqb h g then None else
      match owner v h, owner v g with
      | Some old, Some x => Some (mkP ((h, x) :: (g, None) :: without (without v h) g) (p_ended s ++ opt_list old)
                                    (p_made s) (p_freed s))
      | _, _ => None
      end
  | WReset h => match owner v h with
                | Some x => Some (mkP ((h, None) :: without v h) (p_ended s ++ opt_list x) (p_made s) (p_freed s))
                | None => None
                end
  | WRelease h => match owner v h with
                  | Some (Some t) => Some (mkP ((h, None) :: without v h) (p_ended s) (p_made s) (p_freed s ++ [t]))
                  | _ => None
                  end
  | WDestroy h => match owner v h with
                  | Some x => Some (mkP (without v h) (p_ended s ++ opt_list x) (p_made s) (p_freed s))
                  | None => None
                  end
  end.

Fixpoint prun (s : pst) (ops : list wop) : option pst :=
  match ops with
  | [] => Some s
  | o :: r => match pstep s o with Some s' => prun s' r | None => None end
  end.

(** The functions guards and the handles of the logger have. *)
Definition guard_op (o : wop) : bool := match o with WNew _ | WReset _ => false | _ => true end.
Definition level_op (o : wop) : bool := match o with WRelease _ => false | _ => true end.

(** The things owned by variables at the time something else is assigned to them. *)
Definition overwritten (s : pst) (o : wop) : list nat :=
  match o with WMoveAssign h _ => match owner (p_vars s) h with Some x => opt_list x | None => [] end | _ => [] end.
Fixpoint lost (s : pst) (ops : list wop) : list nat :=
  match ops with
  | [] => []
  | o :: r => overwritten s o ++ match pstep s o with Some s' => lost s' r | None => [] end
  end.

Definition total (amt : nat -> Z) (l : list nat) : Z := fold_right Z.add 0%Z (map amt l).
