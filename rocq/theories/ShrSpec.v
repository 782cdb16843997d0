(** Specification of the lives of contexts, without memory: contexts are identities, every holder holds one of them. *)
From Coq Require Import List Bool Arith.
From Verif Require Import FRefModel ShrModel.
Import ListNotations.

(** [q_used]: identities that have been given to contexts.  [q_raw]: contexts that exist and are not shared.
    [q_var]: the context each variable of the client has been given.  [q_hold]: the holders, and what they hold. *)
Record qst : Type := mkQ {
  q_used : nat -> bool; q_raw : nat -> bool; q_var : nat -> option nat; q_hold : list (nat * nat);
  q_gone : list nat; q_seen : list nat }.
Definition qst0 : qst := mkQ (fun _ => false) (fun _ => false) (fun _ => None) [] [] [].

Fixpoint held (l : list (nat * nat)) (h : nat) : option nat :=
  match l with [] => None | (k, x) :: l => if Nat.eqb k h then Some x else held l h end.
Definition unheld (l : list (nat * nat)) (h : nat) : list (nat * nat) := filter (fun p => negb (Nat.eqb (fst p) h)) l.
Definition holders (l : list (nat * nat)) (id : nat) : list nat := map fst (filter (fun p => Nat.eqb (snd p) id) l).

(** A context exists as long as it is not shared and not destroyed, or some holder holds it. *)
Definition exists_now (q : qst) (id : nat) : bool :=
  q_raw q id || match holders (q_hold q) id with [] => false | _ => true end.

Definition qstep (q : qst) (o : sop) : option qst :=
  match o with
  | SCreate v id =>
      if q_used q id then None
      else Some (mkQ (upd (q_used q) id true) (upd (q_raw q) id true) (upd (q_var q) v (Some id)) (q_hold q) (q_gone q) (q_seen q))
  | SDestroy v =>
      match q_var q v with
      | Some id => if q_raw q id
                   then Some (mkQ (q_used q) (upd (q_raw q) id false) (upd (q_var q) v None) (q_hold q) (q_gone q ++ [id]) (q_seen q))
                   else None
      | None => None
      end
  | SShare v h =>
      match q_var q v, held (q_hold q) h with
      | Some id, None => if q_raw q id
                         then Some (mkQ (q_used q) (upd (q_raw q) id false) (q_var q) ((h, id) :: q_hold q) (q_gone q) (q_seen q))
                         else None
      | _, _ => None
      end
  | SCopy h g =>
      match held (q_hold q) g, held (q_hold q) h with
      | Some id, None => Some (mkQ (q_used q) (q_raw q) (q_var q) ((h, id) :: q_hold q) (q_gone q) (q_seen q))
      | _, _ => None
      end
  | SDrop h =>
      match held (q_hold q) h with
      | Some id =>
          let l := unheld (q_hold q) h in
          Some (mkQ (q_used q) (q_raw q) (q_var q) l
                    (q_gone q ++ match holders l id with [] => [id] | _ => [] end) (q_seen q))
      | None => None
      end
  | SGet h v =>
      match held (q_hold q) h with
      | Some id => Some (mkQ (q_used q) (q_raw q) (upd (q_var q) v (Some id)) (q_hold q) (q_gone q) (q_seen q))
      | None => None
      end
  | SUse v =>
      match q_var q v with
      | Some id => if exists_now q id
                   then Some (mkQ (q_used q) (q_raw q) (q_var q) (q_hold q) (q_gone q) (q_seen q ++ [id])) else None
      | None => None
      end
  end.

Fixpoint qrun (q : qst) (ops : list sop) : option qst :=
  match ops with
  | [] => Some q
  | o :: r => match qstep q o with Some q' => qrun q' r | None => None end
  end.
