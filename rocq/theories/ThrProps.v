(** Properties of interpolation with threads: C98. *)
From Coq Require Import List ZArith Bool Lia Arith.
From Verif Require Import TupleModel RangeModel Base RangeProof CartModel IndexerModel ArrayModel HashModel SendModel NeighSpec HaloEx FieldSpec CollectModel CollectSpec CollectProof CollectLaws CollectProps.
From Verif Require Import DDecompProof ThrModel ThrSpec ThrGen ThrProof ThrLink ThrEx.
Import ListNotations.
Local Open Scope Z_scope.

(** C98. On any rank, with the values of [m] at the points and the messages of the other ranks: T threads, no more than when the object was created, to
    which the cells are shared out in whatever way, take turns in whatever order, with whatever in their arrays before.  They make no more than a bounded
    number of steps, no access is out of bounds, no two threads are ever about to access the same element with one of them changing it, some thread
    can go on unless all have finished, and then each cell has the value of C37. *)
Theorem C98_threads : forall V D (mul : D -> D -> D) (acc : V -> D -> V -> V) zero coefs lay c cnt n L FR N cells fields m M (w : Z -> tup Z -> D) r bufs alloc T work m0,
  distributed c n L N cells ->
  (forall r cell, (r < n)%nat -> In cell (cells r) -> lay = ColMajor \/ whole c (L r) cell) ->
  (forall r, (r < n)%nat -> has_values lay cnt (L r) (FR r) (fields r) m /\ collect_map c (L r) (map (fun q => (q, L q)) (N r)) (cells r) = Some (M r)) ->
  (r < n)%nat -> received lay cnt FR fields M r bufs ->
  (forall i cell p, vread (cells r) i = Some cell -> pt_in cell p -> exists a b d,
     coefs 0%nat (c0 p - c0 (rb cell)) i = Some a /\ coefs 1%nat (c1 p - c1 (rb cell)) i = Some b /\
     coefs 2%nat (c2 p - c2 (rb cell)) i = Some d /\ w i p = mul (mul a b) d) ->
  Z.of_nat T <= alloc -> shared_out T (items (M r)) work -> typed m0 ->
  let ok := valid cnt (M r) alloc (Z.of_nat (length (cells r))) in
  exists bound, forall ts o,
    truns ok T (start m0 (fun t => prog_thread lay c cnt (L r) (FR r) (fields r) (M r) bufs mul acc zero coefs (Z.of_nat t) (work t))) ts = Some o ->
    exists s, o = Some s /\ (length ts <= bound)%nat /\ ~ race T s /\ (finished T s \/ exists t, tstep ok T s t <> None) /\
    (finished T s -> forall k i cell, 0 <= k < cnt -> vread (cells r) i = Some cell ->
       t_mem s (LOut k i) = WV (fold_left (fun a p => acc a (w i p) (m k (home c cell p))) (in_order lay cell) zero)).
Proof. exact threads_interp. Qed.
Print Assumptions C98_threads.

(** The same for any map and messages, whether right or not: if the cells have values one by one, whatever the buffer holds before (without, the outcome
    depends on which cells the thread did before), then threads give what the loop without threads gives. *)
Theorem C98_same : forall V D lay c cnt lr fr (field : list (list V)) cm bufs (mul : D -> D -> D) acc zero junk coefs alloc,
  0 <= cnt -> 0 <= cm_max cm -> length (cm_remote cm) = length (cm_cells cm) -> (forall cell, In cell (cm_cells cm) -> rcount cell <= cm_max cm) -> has_coefs mul coefs (items cm) ->
  forall T work vv vv' rows m0, Z.of_nat T <= alloc -> shared_out T (items cm) work -> typed m0 ->
  (forall x, In x (items cm) -> exists row, cell_result lay c cnt (red_interp mul acc zero junk coefs lay) lr fr field cm bufs x row) ->
  Z.of_nat (length vv) = cnt * cm_max cm ->
  ofoldl (collect_cell lay c cnt (red_interp mul acc zero junk coefs lay) lr fr field cm bufs) (items cm) (vv, []) = Some (vv', rows) ->
  let ok := valid cnt cm alloc (Z.of_nat (length (cm_cells cm))) in
  exists bound, forall ts o, truns ok T (start m0 (fun t => prog_thread lay c cnt lr fr field cm bufs mul acc zero coefs (Z.of_nat t) (work t))) ts = Some o ->
    exists s, o = Some s /\ (length ts <= bound)%nat /\ ~ race T s /\ (finished T s \/ exists t, tstep ok T s t <> None) /\
    (finished T s -> forall k i, 0 <= k < cnt -> 0 <= i < Z.of_nat (length (cm_cells cm)) ->
       exists row v, vread rows i = Some row /\ vread row k = Some v /\ t_mem s (LOut k i) = WV v).
Proof. exact (@threads_same). Qed.
Print Assumptions C98_same.

(** With more threads than when the object was created, a thread without arrays that gets a cell with a vertex can go out of bounds. *)
Theorem C98_more_threads : forall V D lay c cnt lr fr (field : list (list V)) cm bufs (mul : D -> D -> D) acc zero coefs alloc T work m0 t x,
  (t < T)%nat -> alloc <= Z.of_nat t -> In x (work t) -> RangeModel.foreach_col (fst (snd x)) <> [] ->
  exists ts, truns (valid cnt cm alloc (Z.of_nat (length (cm_cells cm)))) T
    (start m0 (fun t => prog_thread lay c cnt lr fr field cm bufs mul acc zero coefs (Z.of_nat t) (work t))) ts = Some None.
Proof. exact (@threads_more). Qed.
Print Assumptions C98_more_threads.

(** Refuted: the conditions of C98_threads but for the number of threads when the object was created, which was one and is now two. *)
Theorem C98_more_threads_refuted : (forall r, (r < 4)%nat -> received ColMajor 2 ex_L cl_fields tx_M r (tx_bufs r)) /\ shared_out 2 (items (tx_M 0)) (tx_work 0) /\ typed tx_mem /\
  exists ts, truns (valid 2 (tx_M 0) 1 (Z.of_nat (length (cl_cells 0)))) 2 (start tx_mem (tx_prog 0)) ts = Some None.
Proof.
  split; [exact tx_received|]. split; [apply tx_shared; lia|]. split; [exact tx_typed|].
  apply (C98_more_threads Z Z ColMajor ex_c 2 (ex_L 0) (ex_L 0) (cl_fields 0) (tx_M 0) (tx_bufs 0) Z.mul tx_acc 0 tx_coefs 1 2 (tx_work 0) tx_mem 1 (hd (0, (cl_A, [])) (tx_work 0 1))); [lia|lia|vm_compute; auto|vm_compute; discriminate].
Qed.
Print Assumptions C98_more_threads_refuted.

(** Refuted: no two threads access the same element, one of them changing it.  They do when their number is determined: all threads store to the same
    variable, if the same value. *)
Theorem C98_count_refuted : forall V D n (m : mem V D), (2 <= n)%nat -> race n (start m (fun _ => prog_count (Z.of_nat n))).
Proof. exact (@count_race). Qed.
Print Assumptions C98_count_refuted.

(** The hypotheses of C98_threads on all of four ranks, with two threads. *)
Example C98_hypotheses : distributed ex_c 4 ex_L cl_N cl_cells /\
  (forall r, (r < 4)%nat -> has_values ColMajor 2 (ex_L r) (ex_L r) (cl_fields r) cl_m /\ collect_map ex_c (ex_L r) (map (fun q => (q, ex_L q)) (cl_N r)) (cl_cells r) = Some (tx_M r)) /\
  (forall r, (r < 4)%nat -> received ColMajor 2 ex_L cl_fields tx_M r (tx_bufs r) /\ shared_out 2 (items (tx_M r)) (tx_work r)) /\ typed tx_mem.
Proof.
  split; [apply C37_hypotheses|]. split; [|split; [|exact tx_typed]].
  - intros r Hr. split; [apply C37_hypotheses, Hr|apply tx_maps, Hr].
  - intros r Hr. split; [apply tx_received, Hr|apply tx_shared, Hr].
Qed.
(** Rank 0, threads taking turns; the values are those of the loop without threads. *)
Example C98_execution :
  let ok := valid 2 (tx_M 0) 2 2 in
  let (ts, s) := tx_turns ok 400 0 (start tx_mem (tx_prog 0)) in
  (length (t_prog s 0%nat) = 0%nat /\ length (t_prog s 1%nat) = 0%nat /\ firstn 6 ts = [0; 1; 0; 1; 0; 1]%nat) /\
  (map (fun ki => t_mem s (LOut (fst ki) (snd ki))) [(0, 0); (0, 1); (1, 0); (1, 1)]) =
  map (fun ki => match ofoldl (collect_cell ColMajor ex_c 2 (red_interp Z.mul tx_acc 0 0 tx_coefs ColMajor) (ex_L 0) (ex_L 0) (cl_fields 0) (tx_M 0) (tx_bufs 0)) (items (tx_M 0)) (repeat 5 8, []) with
                 | Some (_, rows) => match vread rows (snd ki) with Some row => match vread row (fst ki) with Some v => WV v | None => WZ 0 end | None => WZ 0 end
                 | None => WZ 0 end) [(0, 0); (0, 1); (1, 0); (1, 1)] /\
  t_mem s (LOut 1 0) = WV 4422.
Proof. vm_compute. repeat split; reflexivity. Qed.
