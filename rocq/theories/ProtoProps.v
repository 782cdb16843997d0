(** Properties of the communication protocols. *)
From Coq Require Import List Arith Bool Lia.
From Verif Require Import ContModel ProtoModel ProtoSpec ProtoProof HandProof SerProof.
Import ListNotations.

(** C24. Whatever the schedule, the list DynamicHandshake returns on rank r holds exactly the
    ranks that named r, in increasing order. *)
Theorem C24_handshake_result : forall n ranks, (forall r q, In q (ranks r) -> q < n) ->
  forall ls s r, run (hstep n ranks) hst0 ls = Some s ->
  h_pc s r = HEnd -> h_matched s r = named n ranks r.
Proof. exact handshake_result. Qed.
Print Assumptions C24_handshake_result.

(** C24. Whatever has happened so far, the ranks can still all return: there is no deadlock. *)
Theorem C24_handshake_no_deadlock : forall n ranks, (forall r q, In q (ranks r) -> q < n) ->
  forall ls s, run (hstep n ranks) hst0 ls = Some s ->
  exists ls' s', run (hstep n ranks) s ls' = Some s' /\ forall r, r < n -> h_pc s' r = HEnd.
Proof. exact handshake_live. Qed.
Print Assumptions C24_handshake_no_deadlock.

(** Three ranks; rank 1 names ranks 0, 2 and itself, rank 2 names rank 0, rank 0 nobody. *)
Definition ex_ranks (r : nat) : list nat := match r with 1 => [2; 0; 1] | 2 => [0] | _ => [] end.
Definition ex_hand : list hlabel :=
  [HBegin 1; HBegin 0; HHit 0 1; HMiss 0; HTest 0 true; HBegin 2; HMiss 1; HTest 1 false;
   HHit 2 1; HHit 0 2; HMiss 2; HTest 2 true; HMiss 1; HTest 1 true;
   HMiss 0; HSig SCall; HSig (SProbe 2); HSig (SProbe 1); HSig SAll; HSig STake; HSig STake; HSig STake;
   HMiss 1; HSig (STest 1); HMiss 2; HFail 2; HMiss 2; HSig (STest 2)].
Example C24_example : (forall r q, In q (ex_ranks r) -> q < 3) /\
  match run (hstep 3 ex_ranks) hst0 ex_hand with
  | Some s => map (h_pc s) [0; 1; 2] = [HEnd; HEnd; HEnd] /\
              map (h_matched s) [0; 1; 2] = [[1; 2]; [1]; [1]]
  | None => False
  end.
Proof.
  split; [|vm_compute; split; reflexivity].
  intros [|[|[|r]]] q; cbn; intuition lia.
Qed.

(** C25. When Check has returned true for the k-th time on some rank, every rank has called Start
    at least k times. *)
Theorem C25_signal_safe : forall n ls s r q, run (sstep n) sig0 ls = Some s -> r < n -> q < n ->
  g_done s r <= g_started s q.
Proof. exact signal_safe. Qed.
Print Assumptions C25_signal_safe.

(** C25. When every rank has called Start m times, then without any further Start every rank can
    get to the point where Check has returned true m times. *)
Theorem C25_signal_live : forall n ls s m, run (sstep n) sig0 ls = Some s ->
  (forall r, r < n -> m <= g_started s r) ->
  exists ls' s', existsb is_start ls' = false /\ run (sstep n) s ls' = Some s' /\
    forall r, r < n -> m <= g_done s' r.
Proof. exact signal_live. Qed.
Print Assumptions C25_signal_live.

(** Rank 1 starts its second signal before the root has left the first. *)
Definition ex_sig : list slabel :=
  [SStart 1; SStart 0; SCall; SProbe 1; SMiss; SStart 2; SCall; SProbe 2; SAll; STake; STest 1; SStart 1;
   STake; STake; STest 2; SStart 0; SCall; SProbe 1; SMiss; SStart 2].
Example C25_example :
  match run (sstep 3) sig0 ex_sig with
  | Some s => map (g_started s) [0; 1; 2] = [2; 2; 2] /\ map (g_done s) [0; 1; 2] = [1; 1; 1]
  | None => False
  end.
Proof. vm_compute. split; reflexivity. Qed.

(** C26. At any time the executions of the function so far are a prefix of the serial execution in
    rank order: rank 0 enters and leaves, then rank 1, and so on. *)
Theorem C26_serial_order : forall n ls s, run (zstep n) zst0 ls = Some s ->
  exists rest, rev (z_log s) ++ rest = serial n.
Proof. exact serialize_order. Qed.
Print Assumptions C26_serial_order.

(** C26. Every schedule is finite, and one that cannot be continued has all ranks return. *)
Theorem C26_serial_complete : forall n ls s, run (zstep n) zst0 ls = Some s ->
  length ls <= n * (2 * n + 2) /\
  (stuck (zstep n) s ->
   (forall r, r < n -> z_ph s r = ZAfter /\ z_out s r = n) /\ rev (z_log s) = serial n).
Proof. exact (fun n ls s R => conj (serialize_bound n ls s R) (serialize_complete n ls s R)). Qed.
Print Assumptions C26_serial_complete.

Definition ex_ser : list zlabel :=
  [ZEnter 1; ZCall 0; ZEnter 2; ZReturn 0; ZEnter 0; ZLeave 1; ZCall 1; ZLeave 2; ZEnter 2].
Example C26_example :
  match run (zstep 3) zst0 ex_ser with
  | Some s => rev (z_log s) = [ZB 0; ZE 0; ZB 1] /\
              serial 3 = rev (z_log s) ++ [ZE 1; ZB 2; ZE 2]
  | None => False
  end.
Proof. vm_compute. split; reflexivity. Qed.

(** C27. If rank o alone declares itself the source, a rank that has returned holds the data of
    rank o; no schedule is longer than 2n calls and one that cannot be continued has all ranks
    return. *)
Theorem C27_broadcast : forall (A : Type) n o (src : nat -> bool), o < n ->
  (forall r, r < n -> (src r = true <-> r = o)) ->
  forall (val0 : nat -> A) ls s, run (bstep n) (bst0 val0 src) ls = Some s ->
  length ls <= 2 * n /\
  (forall r, r < n -> b_todo s r = [] -> b_val s r = val0 o) /\
  (stuck (bstep n) s -> forall r, r < n -> b_todo s r = []).
Proof. exact (fun A n o src => @broadcast_any A n src o). Qed.
Print Assumptions C27_broadcast.

(** C27. The same for strings, whose length only the source knows. *)
Theorem C27_broadcast_string : forall (A : Type) n o (src : nat -> bool), o < n ->
  (forall r, r < n -> (src r = true <-> r = o)) ->
  forall (str0 : nat -> list A) ls s, run (tstep n) (tst0 str0 src) ls = Some s ->
  length ls <= 4 * n /\
  (forall r, r < n -> t_todo s r = [] -> t_str s r = str0 o) /\
  (stuck (tstep n) s -> forall r, r < n -> t_todo s r = []).
Proof. exact (fun A n o src => @broadcast_string A n src o). Qed.
Print Assumptions C27_broadcast_string.

Definition ex_src (r : nat) : bool := Nat.eqb r 2.
Definition ex_str (r : nat) : list nat := match r with 0 => [1; 2; 3; 4] | 2 => [7; 8] | _ => [] end.
Example C27_example : 2 < 3 /\ (forall r, r < 3 -> (ex_src r = true <-> r = 2)) /\
  match run (tstep 3) (tst0 ex_str ex_src) [2; 0; 2; 0; 0; 2; 1; 0; 2; 1] with
  | Some s => map (t_todo s) [0; 1; 2] = [[]; []; []] /\ map (t_str s) [0; 1; 2] = [[7; 8]; [7; 8]; [7; 8]]
  | None => False
  end /\
  match run (bstep 3) (bst0 (fun r => r + 10) ex_src) [2; 0; 0; 2; 1] with
  | Some s => map (b_todo s) [0; 1; 2] = [[]; []; []] /\ map (b_val s) [0; 1; 2] = [12; 12; 12]
  | None => False
  end.
Proof.
  split; [lia|]. split; [|vm_compute; repeat split; reflexivity].
  intros r _. unfold ex_src. apply Nat.eqb_eq.
Qed.
