(** What exchanges in progress at the same time must do: what exchanges one after the other do. *)
From Coq Require Import List ZArith Bool.
From Verif Require Import ArrayModel HashModel HaloModel NetModel NetSpec HexModel.
Import ListNotations.
Local Open Scope nat_scope.

Section Spec.
Context {V : Type}.
Notation cmd := (cmd V).

(** The fields that are exchanged, in order *)
Definition starts (p : list cmd) : list nat := flat_map (fun c => match c with Start f => [f] | _ => [] end) p.

(** A field is left alone while it is exchanged, and all exchanges are waited for.  [act]: the exchanges in progress, [k]: the number of the next *)
Fixpoint orderly (k : nat) (act : list (nat * nat)) (p : list cmd) : Prop :=
  match p with
  | [] => act = []
  | Start f :: p => ~ In f (map snd act) /\ orderly (S k) (act ++ [(k, f)]) p
  | Wait js :: p => orderly k (filter (fun x => negb (memb (fst x) js)) act) p
  | Comp f fs g :: p => ~ In f (map snd act) /\ (forall a, In a fs -> ~ In a (map snd act)) /\ orderly k act p
  end.

(** Until the next exchange; waiting is nothing *)
Fixpoint upto (p : list cmd) (F : nat -> list V) : (nat -> list V) * option (nat * list cmd) :=
  match p with
  | [] => (F, None)
  | Start f :: p => (F, Some (f, p))
  | Wait _ :: p => upto p F
  | Comp f fs g :: p => upto p (fset F f (g (map F fs)))
  end.

(** All ranks in lock step, each exchange done with when it starts *)
Inductive blocking (n : nat) (H : nat -> hmap) : (nat -> list cmd) -> (nat -> nat -> list V) -> (nat -> nat -> list V) -> Prop :=
  | BDone progs F F' : (forall r, r < n -> upto (progs r) (F r) = (F' r, None)) -> blocking n H progs F F'
  | BExchange progs F A f progs' X F' : (forall r, r < n -> upto (progs r) (F r) = (A r, Some (f, progs' r))) ->
      phase_ok n halo_exchange (fun r => (H r, A r f)) (fun r => (H r, X r)) ->
      blocking n H progs' (fun r => fset (A r) f (X r)) F' -> blocking n H progs F F'.

(** All ranks are at the end. *)
Definition all_done (n : nat) (s : hex V) : Prop := forall r, r < n -> k_prog (x_rank s r) = [].
End Spec.

Section Part.
Context {V : Type}.
(** The last thing done to a field: exchanged (true) or computed (false) *)
Fixpoint last_op (f : nat) (p : list (cmd V)) : option bool :=
  match p with
  | [] => None
  | c :: p => match last_op f p with
              | Some b => Some b
              | None => match c with
                        | Start f' => if Nat.eqb f' f then Some true else None
                        | Comp f' _ _ => if Nat.eqb f' f then Some false else None
                        | Wait _ => None
                        end
              end
  end.
(** Computed fields have the size of the fields they are computed from. *)
Definition keeps (k : nat) (p : list (cmd V)) : Prop :=
  forall f fs g, In (Comp f fs g) p -> forall ls, length ls = length fs -> (forall l, In l ls -> length l = k) -> length (g ls) = k.
End Part.
