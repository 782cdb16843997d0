(** Objects bound to the components of a domain: model of the parts of
    src/core/Assembler.cpp (86-200, 325-345), Exchanger.cpp (102-165, 176-189) and
    Domain.cpp (388-404) that attach the objects (assemblers and exchangers) to the
    component event of the domain, and of the loop of event::Trigger (Event.inl 17-24)
    when the functions called remove listeners from the event being triggered.

    Objects are numbered.  An object holds the ID of its listener (Event.hpp 66) and the
    components it is bound to: one for an exchanger, four for an assembler.
    Simplifications: one domain, whose components are numbers; the other listeners of the
    objects (grid, geometry, state, overlap and connectivity events) are not represented,
    nor are the barriers; destroying a function while it is executing is not counted as
    undefined, since the functions here use none of their captures afterwards. *)
From Coq Require Import ZArith List Bool Arith.
From Verif Require Import ContModel FRefModel.
Import ListNotations.

(** [b_ls]: ComponentEvent_.Listeners_ (Domain.hpp 133, Event.hpp 42); [b_on o]: what
    object o holds, None when not bound (Domain_ empty); [b_comps]: the components. *)
Record bst : Type := mkB { b_ls : smap Z nat; b_on : nat -> option (Z * list Z); b_comps : list Z }.

Definition bst0 : bst := mkB map_empty (fun _ => None) [].

(** The listener's test of the component ID (Assembler.cpp 331-341, Exchanger.cpp 182-185)
    for a DESTROY event. *)
Definition bound_to (s : bst) (c : Z) (o : nat) : bool :=
  match b_on s o with Some (_, cs) => existsb (Z.eqb c) cs | None => false end.

(** Unbind (Assembler.cpp 167-199, Exchanger.cpp 144-165); None: not bound. *)
Definition unbind (s : bst) (o : nat) : option bst :=
  match b_on s o with
  | Some (h, _) => Some (mkB (map_erase Z.ltb (b_ls s) h) (upd (b_on s) o None) (b_comps s))
  | None => None
  end.

(** Event.inl 17-24: the range-based loop keeps the end it computed at the start, so it
    makes [k] more steps from position [i] whatever is removed meanwhile; None is an
    access to an entry beyond the remaining ones. *)
Fixpoint trigger_from (c : Z) (i k : nat) (s : bst) : option bst :=
  match k with
  | O => Some s
  | S k' =>
      match nth_error (m_entries (b_ls s)) i with
      | None => None
      | Some (_, o) =>
          match (if bound_to s c o then unbind s o else Some s) with
          | Some s' => trigger_from c (S i) k' s'
          | None => None
          end
      end
  end.

(** DestroyComponent (Domain.cpp 388-404). *)
Definition destroy (s : bst) (c : Z) : option bst :=
  if existsb (Z.eqb c) (b_comps s) then
    match trigger_from c 0 (length (m_entries (b_ls s))) s with
    | Some s' => Some (mkB (b_ls s') (b_on s') (filter (fun x => negb (Z.eqb c x)) (b_comps s')))
    | None => None
    end
  else None.

Inductive bop : Type := BCreate (c : Z) | BDestroy (c : Z) | BBind (o : nat) (cs : list Z) | BUnbind (o : nat).

(** CreateComponent (Domain.inl 8-24), Bind (Assembler.cpp 83-165, Exchanger.cpp 102-142);
    None: a precondition of the call does not hold, or undefined behaviour. *)
Definition bstep (s : bst) (op : bop) : option bst :=
  match op with
  | BCreate c => if existsb (Z.eqb c) (b_comps s) then None
                 else Some (mkB (b_ls s) (b_on s) (c :: b_comps s))
  | BDestroy c => destroy s c
  | BBind o cs =>
      match b_on s o with
      | Some _ => None
      | None =>
          if forallb (fun c => existsb (Z.eqb c) (b_comps s)) cs then
            let id := next_available_id (m_keys (b_ls s)) in
            Some (mkB (fst (map_insert Z.ltb (b_ls s) id o)) (upd (b_on s) o (Some (id, cs))) (b_comps s))
          else None
      end
  | BUnbind o => unbind s o
  end.

Fixpoint brun (s : bst) (l : list bop) : option bst :=
  match l with
  | [] => Some s
  | o :: l' => match bstep s o with Some s' => brun s' l' | None => None end
  end.
