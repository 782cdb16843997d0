(** Properties of non-blocking requests. *)
From Coq Require Import List Bool Arith Permutation.
From Verif Require Import ReqModel ReqSpec ReqProof.
Import ListNotations.

(** C28. Whatever calls are made and whatever order MPI completes messages in: the
    calls terminate, and each started operation that was not overwritten has either
    had every message callback once, in some order, then its completion callback once,
    and is in no request; or it has had some of its message callbacks once each and no
    completion callback, and is in exactly one request. *)
Theorem C28_exactly_once : forall sched l, Forall op_ok l ->
  exists s, rrun sched rst0 l = Some s /\
  forall k bs, nth_error (started l) k = Some bs ->
    (In k (lost sched rst0 l) -> underway s k bs /\ forall n, ~ held s n k) /\
    (~ In k (lost sched rst0 l) ->
       (finished s k bs /\ forall n, ~ held s n k) \/
       (underway s k bs /\ exists n, held s n k /\ forall n', held s n' k -> n' = n)).
Proof. exact requests_correct. Qed.
Print Assumptions C28_exactly_once.

(** C28. After Wait the request is empty; after WaitAll all given requests are; WaitAny
    empties exactly one active request, whose index it returns, or returns -1 when none
    is active.  Requests not passed are untouched. *)
Theorem C28_returns : forall sched l s, Forall op_ok l -> rrun sched rst0 l = Some s ->
  (forall n, exists s', wait sched n s = Some s' /\ slots s' n = None /\
     forall m, m <> n -> slots s' m = slots s m) /\
  (forall ps, op_ok (RWaitAll ps) -> exists s', wait_all sched ps s = Some s' /\
     (forall n, In (Some n) ps -> slots s' n = None) /\
     forall m, ~ In (Some m) ps -> slots s' m = slots s m) /\
  (forall ps, op_ok (RWaitAny ps) -> exists s' res, wait_any sched ps s = Some (s', res) /\
     (forall m, ~ In (Some m) ps -> slots s' m = slots s m) /\
     match res with
     | None => forall n, In (Some n) ps -> slots s n = None
     | Some i => exists n, nth_error ps i = Some (Some n) /\ slots s n <> None /\
                   slots s' n = None /\ forall m, m <> n -> slots s m <> None -> slots s' m <> None
     end).
Proof. exact returns_correct. Qed.
Print Assumptions C28_returns.

(** Three operations with 2, 1 and 0 messages (one entry of the first is null from the
    start), waited for by WaitAny, then WaitAll, under two schedules. *)
Definition ex_l : list rop :=
  [RNew 0 [true; false; true]; RNew 1 [true]; RNew 2 []; RMoveNew 3 1;
   RWaitAny [Some 0; None; Some 3]; RWaitAll [Some 3; Some 0; Some 2]].
Example C28_example : Forall op_ok ex_l /\
  option_map (fun s => (callbacks 0 (tr s), callbacks 1 (tr s), callbacks 2 (tr s)))
    (rrun (fun _ => 0) rst0 ex_l) =
    Some ([EMsg 0 0; EMsg 0 2; EDone 0], [EMsg 1 0; EDone 1], [EDone 2]) /\
  option_map (fun s => filter (fun e => match e with EMsg _ _ | EDone _ => true | _ => false end) (tr s))
    (rrun (fun t => 2 - t) rst0 ex_l) =
    Some [EMsg 1 0; EDone 1; EDone 2; EMsg 0 2; EMsg 0 0; EDone 0].
Proof.
  split; [|split; vm_compute; reflexivity].
  unfold ex_l. repeat constructor; cbn; intuition discriminate.
Qed.

(** C29, full statement: an operation stops being in a request only by completing.
    This is false: assigning to an active request abandons its operation for ever,
    whatever is called afterwards. *)
Theorem C29_overwrite_refuted : exists l k bs, Forall op_ok l /\ nth_error (started l) k = Some bs /\
  messages bs <> [] /\
  forall sched l', Forall op_ok l' -> exists s, rrun sched rst0 (l ++ l') = Some s /\
    ~ finished s k bs /\ forall n, ~ held s n k.
Proof.
  exists [RNew 0 [true]; RNew 1 [true]; RMoveAssign 0 1], 0, [true].
  split; [repeat constructor|]. split; [reflexivity|]. split; [discriminate|].
  intros sched. apply overwritten_lost; [repeat constructor|reflexivity|left; reflexivity].
Qed.
Print Assumptions C29_overwrite_refuted.

(** C29 for programs that assign only to inactive requests: every started operation is
    either complete, or in exactly one request.  Missing: assignment to an active
    request, for which it is false. *)
Theorem C29_overwrite_partial : forall sched l, Forall op_ok l -> careful sched rst0 l ->
  exists s, rrun sched rst0 l = Some s /\
  forall k bs, nth_error (started l) k = Some bs ->
    (finished s k bs /\ forall n, ~ held s n k) \/
    (underway s k bs /\ exists n, held s n k /\ forall n', held s n' k -> n' = n).
Proof. exact careful_complete. Qed.
Print Assumptions C29_overwrite_partial.

(** Destroying and move-constructing over active requests, and assigning to a request
    that was waited for. *)
Example C29_example :
  let l := [RNew 0 [true; true]; RNew 1 [true]; RMoveNew 2 0; RMoveAssign 0 1; RNew 2 [true];
            RWait 2; RAssign 2 [true]; RDestroy 0] in
  Forall op_ok l /\ careful (fun t => t) rst0 l /\
  option_map (fun s => (map (fun k => callbacks k (tr s)) [0; 1; 2; 3],
                        map (fun n => option_map rq_id (slots s n)) [0; 1; 2]))
    (rrun (fun t => t) rst0 l) =
  Some ([[EMsg 0 0; EMsg 0 1; EDone 0]; [EMsg 1 0; EDone 1]; [EMsg 2 0; EDone 2]; []],
        [None; None; Some 3]).
Proof.
  cbv zeta. split; [repeat constructor; discriminate|].
  split; [|vm_compute; reflexivity].
  cbn [careful careful1].
  repeat (split; [try exact I|]; [..|intros s' E; vm_compute in E; injection E as <-]);
    try (right; reflexivity); try reflexivity; exact I.
Qed.

(** C58, full statement: when a waiting call returns, every wait timer it started is
    stopped.  This is false of WaitAny: the requests it leaves active keep running
    timers (Request.cpp 212-216). *)
Theorem C58_wait_time_refuted : exists sched l s k, Forall op_ok l /\
  rrun sched rst0 l = Some s /\ wait_calls k (tr s) = [EWaitStart k].
Proof.
  exists (fun _ => 0), [RNew 0 [true]; RNew 1 [true]; RWaitAny [Some 0; Some 1]]. eexists. exists 1.
  split; [|split; [vm_compute; reflexivity|vm_compute; reflexivity]].
  repeat constructor; cbn; intuition discriminate.
Qed.
Print Assumptions C58_wait_time_refuted.

(** C58 for programs that do not call WaitAny: one start and one stop for each
    completed operation, none for the others.  Missing: programs calling WaitAny, for
    which it is false. *)
Theorem C58_wait_time_partial : forall sched l s, Forall op_ok l -> Forall no_wait_any l ->
  rrun sched rst0 l = Some s ->
  forall k bs, nth_error (started l) k = Some bs ->
    (finished s k bs /\ wait_calls k (tr s) = [EWaitStart k; EWaitStop k]) \/
    (~ finished s k bs /\ wait_calls k (tr s) = []).
Proof. exact wait_time_correct. Qed.
Print Assumptions C58_wait_time_partial.

Example C58_example :
  let l := [RNew 0 [true; true]; RNew 1 []; RNew 2 [true]; RWaitAll [Some 1; None; Some 0]] in
  Forall op_ok l /\ Forall no_wait_any l /\
  option_map (fun s => map (fun k => wait_calls k (tr s)) [0; 1; 2]) (rrun (fun t => t) rst0 l) =
  Some [[EWaitStart 0; EWaitStop 0]; [EWaitStart 1; EWaitStop 1]; []].
Proof.
  cbv zeta. split; [repeat constructor; cbn; intuition discriminate|].
  split; [repeat constructor|vm_compute; reflexivity].
Qed.
