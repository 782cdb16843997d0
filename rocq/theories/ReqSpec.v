(** What waiting on requests is supposed to do, in terms of the callbacks made. *)
From Coq Require Import List Bool Arith Permutation.
From Verif Require Import ReqModel.
Import ListNotations.

(** Message and completion callbacks of operation [k], in the order they were made. *)
Definition of_op (k : nat) (e : ev) : bool :=
  match e with EMsg k' _ | EDone k' => Nat.eqb k k' | _ => false end.
Definition callbacks (k : nat) (t : list ev) : list ev := filter (of_op k) t.

(** Timing calls on operation [k]: time spent waiting. *)
Definition wait_timing (k : nat) (e : ev) : bool :=
  match e with EWaitStart k' | EWaitStop k' => Nat.eqb k k' | _ => false end.

(** The operations started by a history, in order: the k-th has number k. *)
Definition started (l : list rop) : list (list bool) :=
  flat_map (fun o => match o with RNew _ bs | RAssign _ bs => [bs] | _ => [] end) l.

(** Indices of the messages an operation posts. *)
Definition messages (bs : list bool) : list nat :=
  filter (fun i => nth i bs false) (seq 0 (length bs)).

(** All messages called back once each, in some order, then completion, once. *)
Definition finished (s : rst) (k : nat) (bs : list bool) : Prop :=
  exists l, Permutation l (messages bs) /\ callbacks k (tr s) = map (EMsg k) l ++ [EDone k].

(** Some of the messages called back, each once, and no completion. *)
Definition underway (s : rst) (k : nat) (bs : list bool) : Prop :=
  exists l l', Permutation (l ++ l') (messages bs) /\ callbacks k (tr s) = map (EMsg k) l.

Definition held (s : rst) (n k : nat) : Prop := exists r, slots s n = Some r /\ rq_id r = k.

(** Calls a program may make: an object is not constructed from itself, and a request
    is not passed twice in one call (MPI forbids repeated handles). *)
Definition op_ok (o : rop) : Prop :=
  match o with
  | RMoveNew n m => n <> m
  | RWaitAll ps | RWaitAny ps =>
      NoDup (flat_map (fun p => match p with Some n => [n] | None => [] end) ps)
  | _ => True
  end.

(** No assignment to a request object. *)
Definition no_assign (o : rop) : Prop :=
  match o with RAssign _ _ | RMoveAssign _ _ => False | _ => True end.

Definition no_wait_any (o : rop) : Prop := match o with RWaitAny _ => False | _ => True end.

(** The operations whose request was assigned to while they were active. *)
Definition dropped (s : rst) (o : rop) : list nat :=
  match o with
  | RAssign n _ => match slots s n with Some r => [rq_id r] | None => [] end
  | RMoveAssign n m =>
      if Nat.eqb n m then [] else match slots s n with Some r => [rq_id r] | None => [] end
  | _ => []
  end.
Fixpoint lost (sched : nat -> nat) (s : rst) (l : list rop) : list nat :=
  match l with
  | [] => []
  | o :: r => dropped s o ++ match rstep sched s o with Some s' => lost sched s' r | None => [] end
  end.

(** No request is assigned to while it is active. *)
Definition careful1 (s : rst) (o : rop) : Prop :=
  match o with
  | RAssign n _ => slots s n = None
  | RMoveAssign n m => n = m \/ slots s n = None
  | _ => True
  end.
Fixpoint careful (sched : nat -> nat) (s : rst) (l : list rop) : Prop :=
  match l with
  | [] => True
  | o :: r => careful1 s o /\ forall s', rstep sched s o = Some s' -> careful sched s' r
  end.

(** The wait-time calls made on operation [k]. *)
Definition wait_calls (k : nat) (t : list ev) : list ev := filter (wait_timing k) t.
