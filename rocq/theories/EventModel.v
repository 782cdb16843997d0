(** Events: model of src/core/Event.hpp and Event.inl.

    Events are numbered (a handle's floating reference follows the event when it is
    moved, see FRefModel); listener functions are represented by numbers, and the log
    records for each Trigger the functions called.  Erasing from an event that no longer
    exists is undefined behaviour (None).
    Simplifications: listeners do not add or remove listeners, nor trigger events, while
    they are being called; the implicit copy operations of event are not modelled. *)
From Coq Require Import ZArith List Bool Arith.
From Verif Require Import ContModel FRefModel.
Import ListNotations.

(** [v_ev e]: Listeners_ (Event.hpp 42), None if event e does not exist; [v_gone e]: it
    was destroyed (its number is not used again).  [v_h h]: a handle (Event.hpp 66-68):
    None = not in scope, Some None = ID_ is -1. *)
Record vst : Type := mkV {
  v_ev : nat -> option (smap Z nat); v_gone : nat -> bool; v_h : nat -> option (option (nat * Z));
  v_log : list (nat * list nat) }.

Definition vst0 : vst := mkV (fun _ => None) (fun _ => false) (fun _ => None) [].

Inductive vop : Type :=
| VEvent (e : nat) | VEventDestroy (e : nat) | VTrigger (e : nat)
| VAdd (h e p : nat) | VAddAssign (h e p : nat) | VNew (h : nat)
| VMoveNew (h g : nat) | VMoveAssign (h g : nat) | VReset (h : nat) | VDestroy (h : nat).

Definition set_h (s : vst) (h : nat) (v : option (option (nat * Z))) : vst :=
  mkV (v_ev s) (v_gone s) (upd (v_h s) h v) (v_log s).

(** Event.inl 6-15. *)
Definition add_listener (s : vst) (e p : nat) : option (vst * (nat * Z)) :=
  match v_ev s e with
  | None => None
  | Some m =>
      let id := next_available_id (m_keys m) in
      Some (mkV (upd (v_ev s) e (Some (fst (map_insert Z.ltb m id p)))) (v_gone s) (v_h s) (v_log s), (e, id))
  end.

(** Event.inl 66-74 and 31-33: the removal a handle's Reset performs. *)
Definition remove (s : vst) (v : option (nat * Z)) : option vst :=
  match v with
  | None => Some s
  | Some (e, id) =>
      if Z.leb 0 id then
        match v_ev s e with
        | None => None
        | Some m => Some (mkV (upd (v_ev s) e (Some (map_erase Z.ltb m id))) (v_gone s) (v_h s) (v_log s))
        end
      else Some s
  end.

Definition vstep (s : vst) (o : vop) : option vst :=
  match o with
  | VEvent e => match v_ev s e, v_gone s e with
                | None, false =>
                    Some (mkV (upd (v_ev s) e (Some map_empty)) (v_gone s) (v_h s) (v_log s))
                | _, _ => None end
  | VEventDestroy e => match v_ev s e with
                       | Some _ => Some (mkV (upd (v_ev s) e None) (upd (v_gone s) e true)
                                             (v_h s) (v_log s))
                       | None => None end
  | VTrigger e =>                                                  (* Event.inl 17-24 *)
      match v_ev s e with
      | Some m => Some (mkV (v_ev s) (v_gone s) (v_h s) (v_log s ++ [(e, map snd (m_entries m))]))
      | None => None
      end
  | VAdd h e p =>
      match v_h s h, add_listener s e p with
      | None, Some (s1, v) => Some (set_h s1 h (Some (Some v)))
      | _, _ => None
      end
  | VAddAssign h e p =>       (* h = Event.AddListener(...): swap, then the old one is reset *)
      match v_h s h, add_listener s e p with
      | Some old, Some (s1, v) => remove (set_h s1 h (Some (Some v))) old
      | _, _ => None
      end
  | VNew h => match v_h s h with None => Some (set_h s h (Some None)) | Some _ => None end
  | VMoveNew h g =>                                                (* Event.inl 39-45 *)
      match v_h s h, v_h s g with
      | None, Some v => Some (set_h (set_h s h (Some v)) g (Some None))
      | _, _ => None
      end
  | VMoveAssign h g =>                                             (* Event.inl 47-57 *)
      match v_h s h, v_h s g with
      | Some _, Some v =>
          let s1 := set_h s g (Some None) in
          match v_h s1 h with
          | Some old => remove (set_h s1 h (Some v)) old
          | None => None
          end
      | _, _ => None
      end
  | VReset h =>                                                    (* Event.inl 66-74 *)
      match v_h s h with
      | Some v => option_map (fun s1 => set_h s1 h (Some None)) (remove s v)
      | None => None
      end
  | VDestroy h =>                                                  (* Event.inl 59-64 *)
      match v_h s h with
      | Some v => option_map (fun s1 => set_h s1 h None) (remove s v)
      | None => None
      end
  end.

Fixpoint vrun (s : vst) (l : list vop) : option vst :=
  match l with
  | [] => Some s
  | o :: r => match vstep s o with None => None | Some s' => vrun s' r end
  end.
