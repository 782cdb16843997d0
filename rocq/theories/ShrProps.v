(** Property theorems C104. *)
From Coq Require Import List Bool Arith.
From Verif Require Import ShrModel ShrSpec ShrProof ShrEx.
Import ListNotations.

(** C104. Clients of the C interface that create, share, use and destroy contexts, in any order and number, take shared
    contexts into domains, assemblers and exchangers and out of them again, and destroy only contexts that they have not
    shared: nothing undefined happens; every use sees the context the pointer was given for, also after the context
    has been moved by sharing and the first handle has been reset; and contexts are destroyed when and in the order in
    which their last holder goes, so that those in memory are exactly those not yet shared or still held. *)
Theorem C104_lives : forall ops q, qrun qst0 ops = Some q ->
  exists s, srun_ctx sst0 ops = Some s /\ s_gone s = q_gone q /\ s_seen s = q_seen q /\
    forall id, exists_now q id = true <-> exists a o, s_mem s a = Some o /\ cid o = id.
Proof. exact lives. Qed.
Print Assumptions C104_lives.

Example C104_lives_case :
  option_map (fun q => (q_gone q, q_seen q, exists_now q 7, exists_now q 8)) (qrun qst0 ctx_prog) =
    Some ([8], [7; 7; 7; 7], true, false) /\
  option_map (fun q => q_gone q) (qrun qst0 (ctx_prog ++ [SDrop 3])) = Some [8; 7] /\
  option_map (fun s => (s_gone s, s_seen s)) (srun_ctx sst0 (ctx_prog ++ [SDrop 3])) = Some ([8; 7], [7; 7; 7; 7]).
Proof. vm_compute; auto. Qed.

(** C104. Every context is destroyed at most once, and those destroyed are those created that are no longer in memory. *)
Theorem C104_once : forall ops q, qrun qst0 ops = Some q ->
  exists s, srun_ctx sst0 ops = Some s /\ NoDup (s_gone s) /\
    forall id, In id (s_gone s) <-> (exists v, In (SCreate v id) ops) /\ forall a o, s_mem s a = Some o -> cid o <> id.
Proof. exact destroyed_once. Qed.
Print Assumptions C104_once.

Example C104_once_case :
  option_map (fun q => q_used q 8) (qrun qst0 ctx_prog) = Some true /\
  option_map (fun s => (s_gone s, map (s_mem s) [0; 1; 2; 3])) (srun_ctx sst0 ctx_prog) =
    Some ([8], [None; Some (CShr 7 1); None; None]).
Proof. vm_compute; auto. Qed.

(** C104. Destroying or sharing an existing context by its pointer is defined exactly if it has not been shared: the
    pointer that sharing leaves in the client's variable may be used, but deleting it is undefined. *)
Theorem C104_destroy : forall ops q v id h, qrun qst0 ops = Some q -> q_var q v = Some id -> exists_now q id = true ->
  (srun_ctx sst0 (ops ++ [SDestroy v]) <> None <-> q_raw q id = true) /\
  (srun_ctx sst0 (ops ++ [SShare v h]) <> None <-> q_raw q id = true).
Proof. exact destroy_iff. Qed.
Print Assumptions C104_destroy.

Example C104_destroy_case :
  option_map (fun q => (q_var q 0, exists_now q 7, q_raw q 7)) (qrun qst0 [SCreate 0 7; SShare 0 0; SCopy 1 0]) =
    Some (Some 7, true, false) /\
  srun_ctx sst0 ([SCreate 0 7; SShare 0 0; SCopy 1 0] ++ [SDestroy 0]) = None /\
  option_map s_gone (srun_ctx sst0 ([SCreate 0 7] ++ [SDestroy 0])) = Some [7].
Proof. vm_compute; auto. Qed.
