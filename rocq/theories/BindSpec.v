(** What binding to the components of a domain means to a user: which objects are bound
    and to which components, with no listeners.  Destroying a component unbinds the
    objects bound to it, and them only. *)
From Coq Require Import ZArith List Bool Arith.
From Verif Require Import BindModel.
Import ListNotations.

Record ust : Type := mkU { u_on : nat -> option (list Z); u_comps : list Z }.
Definition ust0 : ust := mkU (fun _ => None) [].

Definition uses (u : ust) (o : nat) (c : Z) : bool :=
  match u_on u o with Some cs => existsb (Z.eqb c) cs | None => false end.

Definition ustep (u : ust) (op : bop) : option ust :=
  match op with
  | BCreate c => if existsb (Z.eqb c) (u_comps u) then None else Some (mkU (u_on u) (c :: u_comps u))
  | BDestroy c =>
      if existsb (Z.eqb c) (u_comps u) then
        Some (mkU (fun o => if uses u o c then None else u_on u o)
                  (filter (fun x => negb (Z.eqb c x)) (u_comps u)))
      else None
  | BBind o cs =>
      match u_on u o with
      | Some _ => None
      | None => if forallb (fun c => existsb (Z.eqb c) (u_comps u)) cs then
                  Some (mkU (fun x => if Nat.eqb x o then Some cs else u_on u x) (u_comps u))
                else None
      end
  | BUnbind o =>
      match u_on u o with
      | Some _ => Some (mkU (fun x => if Nat.eqb x o then None else u_on u x) (u_comps u))
      | None => None
      end
  end.
Fixpoint urun (u : ust) (l : list bop) : option ust :=
  match l with
  | [] => Some u
  | o :: l' => match ustep u o with Some u' => urun u' l' | None => None end
  end.

(** The program and the user agree on what is bound to what. *)
Definition agree (s : bst) (u : ust) : Prop :=
  (forall o, option_map snd (b_on s o) = u_on u o) /\ b_comps s = u_comps u.

(** When a component in use is destroyed, no other object is bound to the domain. *)
Definition alone_at (u : ust) (op : bop) : Prop :=
  match op with
  | BDestroy c => forall o o', uses u o c = true -> u_on u o' <> None -> o' = o
  | _ => True
  end.
Fixpoint alone (u : ust) (l : list bop) : Prop :=
  match l with
  | [] => True
  | op :: l' => alone_at u op /\ match ustep u op with Some u' => alone u' l' | None => True end
  end.

(** The ID of the listener of a bound object. *)
Definition slot (s : bst) (o : nat) : option Z := option_map fst (b_on s o).
