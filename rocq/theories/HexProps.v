(** Several halo exchanges in progress at the same time. *)
From Coq Require Import List ZArith Bool.
From Verif Require Import TupleModel RangeModel CartModel ArrayModel HashModel HaloModel HaloEx NetModel NetSpec NeighSpec FieldSpec FieldProps HexModel HexSpec HexRun HexPart HexEx HexEx2.
Import ListNotations.
Local Open Scope nat_scope.

(** Whatever the order in which messages arrive and ranks go on, and whether or not sends wait for their receives, exchanges in progress at the same time give what
    exchanges one after the other give; there is nothing undefined, no deadlock, and every execution ends. *)
Theorem C99_exact : forall V n (H : nat -> hmap) (progs : nat -> list (cmd V)) F F',
  (forall r, r < n -> NoDup (h_ranks (H r))) -> (forall r, r < n -> orderly 0 [] (progs r)) -> blocking n H progs F F' ->
  exists bound, forall eager ls o, xruns H eager n (hex0 progs F) ls = Some o ->
    length ls <= bound /\ exists s, o = Some s /\
      (forall r f, r < n -> k_prog (x_rank s r) = [] -> k_fields (x_rank s r) f = F' r f) /\
      ((forall l, xstep H eager n s l = None) -> all_done n s).
Proof. exact @exchanges_ok. Qed.
Print Assumptions C99_exact.

(** On a partition, if all ranks start the same exchanges in the same order: every field whose last operation is an exchange has the owners' values in all copies. *)
Theorem C99_partition : forall V (v : V) c n L E N H fs (progs : nat -> list (cmd V)) F, partitioned c n L E N H -> (forall r, r < n -> NoDup (h_ranks (H r))) ->
  (forall r, r < n -> starts (progs r) = fs) -> (forall r, r < n -> orderly 0 [] (progs r)) -> (forall r, r < n -> keeps (Z.to_nat (rcount (E r))) (progs r)) ->
  (forall r f, r < n -> Z.of_nat (length (F r f)) = rcount (E r)) ->
  exists bound F', (forall f, (forall r, r < n -> last_op f (progs r) = Some true) -> exists m, agrees c n L E N (fun r => F' r f) m) /\
    forall eager ls o, xruns H eager n (hex0 progs F) ls = Some o ->
      length ls <= bound /\ exists s, o = Some s /\
        (forall r f, r < n -> k_prog (x_rank s r) = [] -> k_fields (x_rank s r) f = F' r f) /\
        ((forall l, xstep H eager n s l = None) -> all_done n s).
Proof. intros V v c n L E N H fs progs F P. exact (partition_exchanges v c n L E N H P fs progs F). Qed.
Print Assumptions C99_partition.

(** Exchanges in progress have different exchangers, so different buffers. *)
Theorem C99_pool : forall es, NoDup (snd (pool_run es)).
Proof. exact pool_ok. Qed.
Print Assumptions C99_pool.

(** There are never more exchangers than there were exchanges in progress at some time. *)
Theorem C99_pool_size : forall es M, (forall k, length (snd (pool_run (firstn k es))) <= M) -> length (fst (pool_run es)) <= M.
Proof. exact pool_size. Qed.
Print Assumptions C99_pool_size.

(** Started in different orders on different ranks, exchanges end with values of one field in another. *)
Theorem C99_order_refuted : exists (progs : nat -> list (cmd nat)) F s ls, (forall r, r < 2 -> orderly 0 [] (progs r)) /\ xruns H2 false 2 (hex0 progs F) ls = Some (Some s) /\ all_done 2 s /\
  nth 2 (k_fields (x_rank s 0) 0) 0 = nth 1 (F 1 1) 0 /\ nth 1 (F 1 1) 0 <> nth 1 (F 1 0) 0.
Proof. exact mixed_up. Qed.
Print Assumptions C99_order_refuted.

(** A field that is exchanged again before the wait may end with old values in the copies. *)
Theorem C99_restart_refuted : exists (progs : nat -> list (cmd nat)) F F' s ls, (forall r q, r < 2 -> q < 2 -> progs r = progs q) /\ blocking 2 H2 progs F F' /\
  xruns H2 false 2 (hex0 progs F) ls = Some (Some s) /\ all_done 2 s /\ nth 2 (F' 0 0) 0 = nth 1 (F' 1 0) 0 /\
  nth 2 (k_fields (x_rank s 0) 0) 0 = nth 1 (F 1 0) 0 /\ nth 1 (k_fields (x_rank s 1) 0) 0 <> nth 1 (F 1 0) 0.
Proof. exact overwritten. Qed.
Print Assumptions C99_restart_refuted.

(** Two ranks, three fields, with the waits in different orders *)
Example C99_case : (forall r, r < 2 -> NoDup (h_ranks (H2 r))) /\ (forall r, r < 2 -> orderly 0 [] (progs2 r)) /\ blocking 2 H2 progs2 F2 res2.
Proof. exact progs2_ok. Qed.
Example C99_case_run : exists s, xruns H2 false 2 (hex0 progs2 F2) sched2 = Some (Some s) /\ all_done 2 s /\
  k_fields (x_rank s 0) 0 = [0; 1; 101] /\ k_fields (x_rank s 0) 2 = [20; 22; 222] /\ k_fields (x_rank s 1) 1 = [11; 111; 112].
Proof. exact sched2_ok. Qed.
Example C99_case_partition : exists N H, partitioned ex_c 4 ex_L fx_E N H /\ (forall r, r < 4 -> NoDup (h_ranks (H r))) /\
  (forall r, r < 4 -> starts (progs5 r) = [0; 1; 2]) /\ (forall r, r < 4 -> orderly 0 [] (progs5 r)) /\
  (forall r, r < 4 -> keeps (Z.to_nat (rcount (fx_E r))) (progs5 r)) /\
  (forall r f : nat, r < 4 -> Z.of_nat (length (repeat (10 * r + f) (Z.to_nat (rcount (fx_E r))))) = rcount (fx_E r)) /\
  (forall f, In f [0; 1; 2] -> forall r, r < 4 -> last_op f (progs5 r) = Some true).
Proof. exact ex_hex. Qed.
Example C99_case_pool : pool_run [None; None; None; Some 1; None; Some 0; Some 0] = ([false; true; false], [1]).
Proof. reflexivity. Qed.
