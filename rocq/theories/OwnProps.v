(** Property theorems C103. *)
From Coq Require Import List ZArith Bool Arith Permutation.
From Verif Require Import OwnModel OwnSpec OwnProof OwnEx.
Import ListNotations.

(** C103. Communicators: in every program of any length that makes, moves, assigns, resets, releases and ends comm
    variables, nothing fails, communicators are freed when and in the order in which their owner gives them up, and
    those made are exactly those freed, released and still owned (each once); variables show the communicator they own. *)
Theorem C103_comm : forall ops a, prun pst0 ops = Some a ->
  exists w, wrun comm_step wst0 ops = Some w /\ w_log w = p_ended a /\
    Permutation (p_made a) (w_log w ++ p_freed a ++ owned a) /\
    forall h x, owner (p_vars a) h = Some x -> w_obj w h = Some (x, x).
Proof. exact comm_exact. Qed.
Print Assumptions C103_comm.

Example C103_comm_case :
  option_map (fun a => (p_ended a, p_made a, p_freed a, owned a)) (prun pst0 own_prog) =
    Some ([12; 11; 10], [10; 11; 12; 13; 14], [13], [14]) /\
  option_map (fun w => (w_log w, w_obj w 6)) (wrun comm_step wst0 own_prog) = Some ([12; 11; 10], Some (Some 14, Some 14)).
Proof. vm_compute; auto. Qed.

(** C103. When all variables have ended and none has been released, every communicator has been freed, and none twice. *)
Theorem C103_comm_all : forall ops a, prun pst0 ops = Some a -> p_vars a = [] -> p_freed a = [] ->
  exists w, wrun comm_step wst0 ops = Some w /\ Permutation (p_made a) (w_log w) /\ (NoDup (p_made a) -> NoDup (w_log w)).
Proof. exact comm_all. Qed.
Print Assumptions C103_comm_all.

Example C103_comm_all_case :
  option_map (fun a => (p_vars a, p_freed a, p_made a)) (prun pst0 leak_prog) = Some ([], [], [5; 6]) /\
  option_map w_log (wrun comm_step wst0 leak_prog) = Some [5; 6].
Proof. vm_compute; auto. Qed.

(** C103. Scope guards: the same; the action of every guard made is run once, when the last guard it has been moved to
    ends or is assigned to, unless that one has been dismissed. *)
Theorem C103_guard : forall ops a, forallb guard_op ops = true -> prun pst0 ops = Some a ->
  exists w, wrun guard_step wst0 ops = Some w /\ w_log w = p_ended a /\
    Permutation (p_made a) (w_log w ++ p_freed a ++ owned a).
Proof. exact guard_exact. Qed.
Print Assumptions C103_guard.

Example C103_guard_case : forallb guard_op guard_prog = true /\
  option_map (fun a => (p_ended a, p_freed a, owned a)) (prun pst0 guard_prog) = Some ([10; 11], [12], [13]) /\
  option_map w_log (wrun guard_step wst0 guard_prog) = Some [10; 11].
Proof. vm_compute; auto. Qed.

(** C103. Levels and indents of the logger: at every time they are what they were at first plus the amounts of the
    handles that own an increase. *)
Theorem C103_level : forall amt ops a n, forallb level_op ops = true -> prun pst0 ops = Some a ->
  exists w, level_run amt wst0 n ops = Some (w, (n + total amt (owned a))%Z).
Proof. exact level_exact. Qed.
Print Assumptions C103_level.

Example C103_level_case : forallb level_op level_prog = true /\
  option_map owned (prun pst0 level_prog) = Some [2; 1] /\
  option_map snd (level_run level_amt wst0 1%Z level_prog) = Some 3%Z.
Proof. vm_compute; auto. Qed.

(** C103. Handles (of MPI datatypes and others): nothing fails; the things whose deleter is called are those given up,
    without those owned by handles at the time another is assigned to them; if there are none, deleters are called when
    and in the order in which owners give things up. *)
Theorem C103_handle : forall ops a, prun pst0 ops = Some a ->
  exists w, wrun handle_step wst0 ops = Some w /\
    Permutation (p_ended a) (w_log w ++ lost pst0 ops) /\ (lost pst0 ops = [] -> w_log w = p_ended a) /\
    Permutation (p_made a) (w_log w ++ lost pst0 ops ++ p_freed a ++ owned a).
Proof. exact handle_leaks. Qed.
Print Assumptions C103_handle.

Example C103_handle_case :
  lost pst0 handle_prog = [] /\ option_map w_log (wrun handle_step wst0 handle_prog) = Some [11; 10] /\
  option_map p_ended (prun pst0 handle_prog) = Some [11; 10] /\
  lost pst0 leak_prog = [5] /\ option_map w_log (wrun handle_step wst0 leak_prog) = Some [6].
Proof. vm_compute; auto 6. Qed.

(** C103. That all things are given back is false of handles: the deleter of what a handle owns is never called when
    another is assigned to it. *)
Theorem C103_handle_refuted : exists ops a w t, prun pst0 ops = Some a /\ wrun handle_step wst0 ops = Some w /\
  p_vars a = [] /\ In t (p_made a) /\ ~ In t (p_freed a) /\ In t (p_ended a) /\ ~ In t (w_log w).
Proof. exact handle_refuted. Qed.
Print Assumptions C103_handle_refuted.
