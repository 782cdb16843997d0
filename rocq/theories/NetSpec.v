(** The effect of a sequence of phases, stated as if all ranks moved in lock step. *)
From Coq Require Import List Arith Bool.
From Verif Require Import ProtoModel ProtoSpec NetModel.
Import ListNotations.

Section Net.
Context {St Msg : Type}.

(** The message the i-th receive of rank r gets. *)
Definition recv_msg (p : p2p St Msg) (S : nat -> St) (r i : nat) : option Msg :=
  match nth_error (p_recvs p r (S r)) i with
  | None => None
  | Some s => nth_error (msgs_to r (p_sends p s (S s))) (count s (firstn i (p_recvs p r (S r))))
  end.

(** Every message sent has its receive and every receive its message. *)
Definition matched (n : nat) (p : p2p St Msg) (S : nat -> St) : Prop :=
  forall r, r < n ->
    (forall s, In s (p_recvs p r (S r)) -> s < n) /\
    (forall d m, In (d, m) (p_sends p r (S r)) -> d < n) /\
    (forall s, s < n -> count s (p_recvs p r (S r)) = length (msgs_to r (p_sends p s (S s)))).

(** [l] holds each receive of rank r once, with its message, in some order. *)
Definition arrival (p : p2p St Msg) (S : nat -> St) (r : nat) (l : list (nat * Msg)) : Prop :=
  NoDup (map fst l) /\ length l = length (p_recvs p r (S r)) /\
  (forall i m, In (i, m) l -> recv_msg p S r i = Some m).

(** The phase takes the states S to the states S', in whatever order messages arrive. *)
Definition phase_ok (n : nat) (ph : phase St Msg) (S S' : nat -> St) : Prop :=
  match ph with
  | Local f => forall r, r < n -> f r (S r) = Some (S' r)
  | Exch p => matched n p S /\
      (forall r l, r < n -> arrival p S r l -> p_done p r (S r) l = Some (S' r))
  | Coll f => forall r, r < n -> f (map S (seq 0 n)) r = Some (S' r)
  end.

Fixpoint prog_ok (n : nat) (prog : list (phase St Msg)) (S S' : nat -> St) : Prop :=
  match prog with
  | [] => forall r, r < n -> S r = S' r
  | ph :: prog => exists S1, phase_ok n ph S S1 /\ prog_ok n prog S1 S'
  end.

(** Whatever the schedule, and whether or not sends wait for their receives, the program
    takes the states S to the states S': a rank that has finished has its state in S', an
    execution that cannot go on has all ranks finished, and there is no infinite one. *)
Definition computes (n : nat) (prog : list (phase St Msg)) (S S' : nat -> St) : Prop :=
  exists bound, forall sy ls c, run (nstep sy n prog) (net0 S) ls = Some c ->
    length ls <= bound /\
    (forall r, r < n -> n_pc c r = length prog -> n_st c r = S' r) /\
    (stuck (nstep sy n prog) c -> forall r, r < n -> n_pc c r = length prog).

End Net.
