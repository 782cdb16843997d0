(** Properties of requests of the C interface. *)
From Coq Require Import List Bool Arith.
From Verif Require Import ReqModel ReqSpec CrqModel CrqSpec CrqProof.
Import ListNotations.

(** C106. Whatever a C client sends, receives and waits for, and whatever order MPI
    completes messages in: no deleted request is used or deleted again; every non-null
    pointer is the address of a live request, different for different variables; and a
    request is deleted exactly when its operation has had all its callbacks once. *)
Theorem C106_client : forall sched l, Forall cop_ok l ->
  exists s, crun sched cst0 l = Some s /\
  (forall v a, cvar s v = Some a -> a < length (sends l) /\ calive s a = true) /\
  (forall v v' a, cvar s v = Some a -> cvar s v' = Some a -> v = v') /\
  forall k bs, nth_error (sends l) k = Some bs ->
    (calive s k = true /\ underway (cs s) k bs) \/ (calive s k = false /\ finished (cs s) k bs).
Proof. exact client_correct. Qed.
Print Assumptions C106_client.

(** C106. ovkWait nulls its pointer and ovkWaitAll all of its pointers; ovkWaitAny
    returns -1 only when all of its pointers are null, and otherwise the index of a
    pointer whose operation is then complete, and nulls that one only. *)
Theorem C106_calls : forall sched l s, Forall cop_ok l -> crun sched cst0 l = Some s ->
  (forall v, exists s', c_wait sched v s = Some s' /\ cvar s' v = None /\
     forall w, w <> v -> cvar s' w = cvar s w) /\
  (forall vs, NoDup vs -> exists s', c_wait_all sched vs s = Some s' /\
     (forall v, In v vs -> cvar s' v = None) /\ forall w, ~ In w vs -> cvar s' w = cvar s w) /\
  (forall vs, NoDup vs -> exists s' res, c_wait_any sched vs s = Some (s', res) /\
     match res with
     | None => (forall v, In v vs -> cvar s v = None) /\ forall w, cvar s' w = cvar s w
     | Some i => exists v k bs, nth_error vs i = Some v /\ cvar s v = Some k /\
         nth_error (sends l) k = Some bs /\ finished (cs s') k bs /\ cvar s' v = None /\
         forall w, w <> v -> cvar s' w = cvar s w
     end).
Proof. exact calls_correct. Qed.
Print Assumptions C106_calls.

(** C106. A client that writes new requests to null pointers only leaks nothing: when
    all its pointers are null every request it made is complete and deleted. *)
Theorem C106_no_leak : forall sched l s, Forall cop_ok l -> tidy sched cst0 l ->
  crun sched cst0 l = Some s -> (forall v, cvar s v = None) ->
  forall k bs, nth_error (sends l) k = Some bs -> calive s k = false /\ finished (cs s) k bs.
Proof. exact tidy_no_leak. Qed.
Print Assumptions C106_no_leak.

(** Three requests, one without messages, and a null pointer: ovkWaitAny takes the one
    without messages, ovkWaitAll the others, a fourth request reuses a pointer. *)
Definition c106_l : list cop :=
  [CSend 0 [true; true]; CSend 1 [true]; CSend 2 [false]; CWaitAny [0; 3; 2; 1];
   CWaitAll [1; 2; 0]; CSend 2 [true]; CWait 2; CWait 2].
Example C106_case : Forall cop_ok c106_l /\ tidy (fun t => t) cst0 c106_l /\
  option_map (fun s => (map (calive s) [0; 1; 2; 3], map (cvar s) [0; 1; 2; 3],
                        map (fun k => callbacks k (tr (cs s))) [0; 1; 2; 3]))
    (crun (fun t => t) cst0 (firstn 4 c106_l)) =
  Some ([true; true; false; false], [Some 0; Some 1; None; None], [[]; []; [EDone 2]; []]) /\
  option_map (fun s => (map (calive s) [0; 1; 2; 3], map (cvar s) [0; 1; 2; 3],
                        map (fun k => callbacks k (tr (cs s))) [0; 1; 2; 3]))
    (crun (fun t => t) cst0 c106_l) =
  Some ([false; false; false; false], [None; None; None; None],
        [[EMsg 0 1; EMsg 0 0; EDone 0]; [EMsg 1 0; EDone 1]; [EDone 2]; [EMsg 3 0; EDone 3]]).
Proof.
  split; [|split; [|split; vm_compute; reflexivity]].
  - unfold c106_l. repeat constructor; cbn; intuition discriminate.
  - unfold c106_l. cbn [tidy].
    repeat (split; [first [reflexivity|exact I]|intros ? E; vm_compute in E; injection E as <-]).
    exact I.
Qed.
