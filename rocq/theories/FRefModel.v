(** Floating references: model of src/core/FloatingRef.hpp and FloatingRef.inl.

    Objects containing a floating_ref_generator are variables numbered by natural
    numbers; [addr n] is the address of the generator in variable n.  The generator
    holds a unique_ptr to a heap cell containing its own address; cells are numbered in
    order of allocation and freed cells are never reused, so that using one is visible
    as undefined behaviour (None).  References are variables too.
    Simplifications: conversions between references to base and derived classes and
    FloatingRefRebind are not modelled; copying or moving the object around the
    generator has no other effect. *)
From Coq Require Import ZArith List Bool Arith.
Import ListNotations.

Definition upd {A} (f : nat -> A) (n : nat) (v : A) : nat -> A :=
  fun m => if Nat.eqb m n then v else f m.

(** FloatingRef.hpp 38 and 83-84.  [f_gen n]: None = not in scope, Some None = empty
    unique_ptr.  [f_ref r]: ReferenceLoc_ and Offset_, None for a null reference. *)
Record fst_ : Type := mkF {
  f_gen : nat -> option (option nat); f_heap : nat -> option Z; f_next : nat;
  f_ref : nat -> option (nat * Z) }.

Definition fst0 : fst_ := mkF (fun _ => None) (fun _ => None) 0 (fun _ => None).

(** [FGen r n off] is "Ref = Generator.Generate(Target)" for a Target [off] bytes after
    the generator. *)
Inductive fop : Type :=
| FNew (n : nat) | FCopyNew (n m : nat) | FMoveNew (n m : nat)
| FCopyAssign (n m : nat) | FMoveAssign (n m : nat) | FDestroy (n : nat)
| FGen (r n : nat) (off : Z) | FRefCopy (r q : nat) | FRefMove (r q : nat) | FRefReset (r : nat).

Definition free (h : nat -> option Z) (l : option nat) : nat -> option Z :=
  match l with Some l => upd h l None | None => h end.

Section Addr.
Context (addr : nat -> Z).

(** FloatingRef.inl 6-12: new void *(this). *)
Definition gen_new (s : fst_) (n : nat) : option fst_ :=
  match f_gen s n with
  | Some _ => None
  | None => Some (mkF (upd (f_gen s) n (Some (Some (f_next s))))
                      (upd (f_heap s) (f_next s) (Some (addr n))) (S (f_next s)) (f_ref s))
  end.

(** FloatingRef.inl 14-18: takes the other's cell and writes this into it. *)
Definition gen_move_new (s : fst_) (n m : nat) : option fst_ :=
  match f_gen s n, f_gen s m with
  | None, Some (Some l) =>
      Some (mkF (upd (upd (f_gen s) n (Some (Some l))) m (Some None))
                (upd (f_heap s) l (Some (addr n))) (f_next s) (f_ref s))
  | _, _ => None
  end.

(** FloatingRef.inl 27-36; unique_ptr's move assignment is reset(Other.release()). *)
Definition gen_move_assign (s : fst_) (n m : nat) : option fst_ :=
  match f_gen s n, f_gen s m with
  | Some own, Some (Some l) =>
      if Nat.eqb n m then
        Some (mkF (f_gen s) (upd (f_heap s) l (Some (addr n))) (f_next s) (f_ref s))
      else
        Some (mkF (upd (upd (f_gen s) n (Some (Some l))) m (Some None))
                  (upd (free (f_heap s) own) l (Some (addr n))) (f_next s) (f_ref s))
  | _, _ => None
  end.

Definition fstep (s : fst_) (o : fop) : option fst_ :=
  match o with
  | FNew n => gen_new s n
  | FCopyNew n m => match f_gen s m with Some _ => gen_new s n | None => None end
  | FMoveNew n m => gen_move_new s n m
  | FCopyAssign n m =>            (* 20-25: nothing *)
      match f_gen s n, f_gen s m with Some _, Some _ => Some s | _, _ => None end
  | FMoveAssign n m => gen_move_assign s n m
  | FDestroy n =>
      match f_gen s n with
      | Some own => Some (mkF (upd (f_gen s) n None) (free (f_heap s) own) (f_next s) (f_ref s))
      | None => None
      end
  | FGen r n off =>               (* 38-48 *)
      match f_gen s n with
      | Some (Some l) =>
          match f_heap s l with
          | Some p => Some (mkF (f_gen s) (f_heap s) (f_next s)
                                (upd (f_ref s) r (Some (l, (addr n + off - p)%Z))))
          | None => None
          end
      | _ => None
      end
  | FRefCopy r q => Some (mkF (f_gen s) (f_heap s) (f_next s) (upd (f_ref s) r (f_ref s q)))
  | FRefMove r q =>               (* 64-82: the target first, then the source is nulled *)
      Some (mkF (f_gen s) (f_heap s) (f_next s) (upd (upd (f_ref s) r (f_ref s q)) q None))
  | FRefReset r => Some (mkF (f_gen s) (f_heap s) (f_next s) (upd (f_ref s) r None))
  end.

Fixpoint frun (s : fst_) (l : list fop) : option fst_ :=
  match l with
  | [] => Some s
  | o :: r => match fstep s o with None => None | Some s' => frun s' r end
  end.

(** FloatingRef.inl 84-100: the address of the target; None if the cell is gone. *)
Definition deref (s : fst_) (r : nat) : option Z :=
  match f_ref s r with
  | Some (l, off) => match f_heap s l with Some p => Some (p + off)%Z | None => None end
  | None => None
  end.

End Addr.
