(** What the protocols are expected to do, stated without their message exchanges. *)
From Coq Require Import List Arith Bool.
From Verif Require Import ProtoModel.
Import ListNotations.

(** The ranks below n that named r, in increasing order. *)
Definition named (n : nat) (ranks : nat -> list nat) (r : nat) : list nat :=
  filter (fun q => existsb (Nat.eqb r) (ranks q)) (seq 0 n).

(** The function is executed by one rank after the other, in the order of their ranks. *)
Definition serial (n : nat) : list zevent := flat_map (fun r => [ZB r; ZE r]) (seq 0 n).

(** Labels by which a rank begins a new use of a signal. *)
Definition is_start (l : slabel) : bool := match l with SStart _ => true | _ => false end.

(** Nothing can happen any more. *)
Definition stuck {S L} (step : S -> L -> option S) (s : S) : Prop := forall l, step s l = None.
