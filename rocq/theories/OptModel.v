(** Optionals: model of src/core/Optional.hpp and Optional.inl.

    Optionals are variables numbered by the user.  Every contained object gets a fresh
    number when it is constructed; [o_dead] lists the objects whose destructor ran.  A
    value is a number, or None once it has been moved from.  Destroying or reading
    storage that holds no live object is undefined behaviour (None).
    Simplifications: constructors of the value type do not throw; assigning from an
    argument that is not inside an optional does not count that argument (it belongs to
    the caller); a value is only read through the optional's accessors. *)
From Coq Require Import List Bool Arith.
From Verif Require Import FRefModel.
Import ListNotations.

(** Present_ and ValueStorage_ (Optional.hpp 78-79). *)
Definition cell : Type := (bool * option (nat * option nat))%type.
Record ost : Type := mkO {
  o_h : nat -> option cell; o_next : nat; o_dead : list nat; o_out : list (option nat) }.
Definition ost0 : ost := mkO (fun _ => None) 0 [] [].

Inductive oop : Type :=
| OpNew (h : nat) | OpVal (h v : nat) | OpCopyNew (h g : nat) | OpMoveNew (h g : nat)
| OpCopyAssign (h g : nat) | OpMoveAssign (h g : nat)
| OpAssign (h v : nat)            (* h.Assign(v) *)
| OpAssignCopyOf (h g : nat)      (* h.Assign(g.Get()) *)
| OpAssignMoveOf (h g : nat)      (* h.Assign(std::move(g.Get())) *)
| OpGet (h : nat) | OpRelease (h : nat) | OpReset (h : nat) | OpDestroy (h : nat).

Definition set_cell (s : ost) (h : nat) (c : option cell) : ost :=
  mkO (upd (o_h s) h c) (o_next s) (o_dead s) (o_out s).
Definition present (s : ost) (h : nat) : option bool := option_map fst (o_h s h).
Definition set_present (s : ost) (h : nat) (b : bool) : option ost :=
  match o_h s h with Some (_, x) => Some (set_cell s h (Some (b, x))) | None => None end.

(** Create, Optional.inl 204-209: placement new, whatever the storage held before. *)
Definition create (s : ost) (h : nat) (v : option nat) : option ost :=
  match o_h s h with
  | Some (p, _) => Some (mkO (upd (o_h s) h (Some (p, Some (o_next s, v)))) (S (o_next s)) (o_dead s) (o_out s))
  | None => None
  end.
(** Destroy, 211-216. *)
Definition destroy (s : ost) (h : nat) : option ost :=
  match o_h s h with
  | Some (p, Some (i, _)) => Some (mkO (upd (o_h s) h (Some (p, None))) (o_next s) (i :: o_dead s) (o_out s))
  | _ => None
  end.
(** Get, 218-228. *)
Definition get (s : ost) (h : nat) : option (option nat) :=
  match o_h s h with Some (_, Some (_, v)) => Some v | _ => None end.
(** Moving from the contained object leaves it alive without its value. *)
Definition take (s : ost) (h : nat) : option (ost * option nat) :=
  match o_h s h with
  | Some (p, Some (i, v)) => Some (set_cell s h (Some (p, Some (i, None))), v)
  | _ => None
  end.
(** A local object of the value type: constructed, and destroyed at the end of the scope. *)
Definition temp_begin (s : ost) : ost * nat := (mkO (o_h s) (S (o_next s)) (o_dead s) (o_out s), o_next s).
Definition temp_end (s : ost) (i : nat) : ost := mkO (o_h s) (o_next s) (i :: o_dead s) (o_out s).

Definition bind {A B} (x : option A) (f : A -> option B) : option B :=
  match x with Some a => f a | None => None end.
Notation "'do' x <- e ; r" := (bind e (fun x => r)) (at level 200, x pattern, e at level 100, r at level 200).

(** if (Present_) { ValueStorage_.Destroy(); } *)
Definition destroy_if (s : ost) (h : nat) : option ost :=
  do p <- present s h; if p then destroy s h else Some s.

(** Assign(const value_type &), 96-111, with the value the argument has;
    Assign(Args...), 127-144, constructs the temporary from its arguments. *)
Definition assign_value (s : ost) (h : nat) (v : option nat) : option ost :=
  let (s1, i) := temp_begin s in
  do s2 <- destroy_if s1 h;
  do s3 <- create s2 h v;
  do s4 <- set_present s3 h true;
  Some (temp_end s4 i).

Definition ostep (s : ost) (o : oop) : option ost :=
  match o with
  | OpNew h =>                                                            (* hpp 26, 79 *)
      match o_h s h with None => Some (set_cell s h (Some (false, None))) | Some _ => None end
  | OpVal h v =>                                                          (* 6-16 *)
      match o_h s h with
      | None => create (set_cell s h (Some (true, None))) h (Some v)
      | Some _ => None end
  | OpCopyNew h g =>                                                      (* 18-24 *)
      match o_h s h with
      | None =>
          do p <- present s g;
          let s1 := set_cell s h (Some (p, None)) in
          if p then do v <- get s1 g; create s1 h v else Some s1
      | Some _ => None end
  | OpMoveNew h g =>                                                      (* 26-34 *)
      match o_h s h with
      | None =>
          do p <- present s g;
          let s1 := set_cell s h (Some (p, None)) in
          do s2 <- (if p then do (s2, v) <- take s1 g; do s3 <- create s2 h v; destroy s3 g else Some s1);
          set_present s2 g false
      | Some _ => None end
  | OpCopyAssign h g =>                                                   (* 44-65 *)
      match o_h s h with
      | Some _ =>
          if Nat.eqb h g then Some s else
          do p <- present s g;
          if p then
            do v <- get s g;
            let (s1, i) := temp_begin s in
            do s2 <- destroy_if s1 h;
            do s3 <- create s2 h v;
            do s4 <- set_present (temp_end s3 i) h true; Some s4
          else do s1 <- destroy_if s h; set_present s1 h false
      | None => None end
  | OpMoveAssign h g =>                                                   (* 67-82 *)
      do s1 <- destroy_if s h;
      do p <- present s1 g;
      do s2 <- (if p then do (s2, v) <- take s1 g; create s2 h v else Some s1);
      do s3 <- set_present s2 h p;
      set_present s3 g false
  | OpAssign h v => assign_value s h (Some v)
  | OpAssignCopyOf h g => do v <- get s g; do p <- present s g; if p then assign_value s h v else None
  | OpAssignMoveOf h g =>                                                 (* 113-125 *)
      do p <- present s g;
      if p then
        do s1 <- destroy_if s h;
        do (s2, v) <- take s1 g;
        do s3 <- create s2 h v;
        set_present s3 h true
      else None
  | OpGet h =>
      do p <- present s h;
      if p then do v <- get s h; Some (mkO (o_h s) (o_next s) (o_dead s) (o_out s ++ [v])) else None
  | OpRelease h =>                                                        (* 182-192 *)
      do p <- present s h;
      if p then
        let (s1, i) := temp_begin s in
        do (s2, v) <- take s1 h;
        do s3 <- destroy s2 h;
        do s4 <- set_present s3 h false;
        let s5 := temp_end s4 i in
        Some (mkO (o_h s5) (o_next s5) (o_dead s5) (o_out s5 ++ [v]))
      else None
  | OpReset h => do s1 <- destroy_if s h; set_present s1 h false          (* 194-202 *)
  | OpDestroy h => do s1 <- destroy_if s h;                               (* 36-42 *)
                   match o_h s1 h with Some _ => Some (set_cell s1 h None) | None => None end
  end.

Fixpoint orun (s : ost) (l : list oop) : option ost :=
  match l with
  | [] => Some s
  | o :: r => do s' <- ostep s o; orun s' r
  end.
