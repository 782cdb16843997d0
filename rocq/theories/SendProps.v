(** Properties of sending, receiving and dispersing: C35, C36. *)
From Coq Require Import List ZArith Bool Lia.
From Verif Require Import TupleModel RangeModel Base RangeProof IndexerModel ArrayModel ContModel HashModel ProtoModel ProtoSpec NetModel NetSpec DDecompProof.
From Verif Require Import SendModel SendSpec SendProof SendLaws DisperseModel DisperseSpec DisperseProof.
Import ListNotations.
Local Open Scope Z_scope.

(** C35. n ranks with values for each other, [cnt] values at each position, in whatever order the positions are
    listed: sending and receiving ends, in whatever order messages arrive.  The value at the position that is the k-th
    for rank r on rank s is afterwards at the position that is the k-th for s on r; each position of a
    receiver that names a sender has its counterpart; positions that name none are unchanged.  At most 2^31
    positions: the order is converted to int. *)
Theorem C35_pairing_partial : forall V cnt (junk : V) n dst sord src rord vals out,
  0 <= cnt -> paired n dst src ->
  (forall r, (r < n)%nat -> is_order (dst r) (sord r) /\ Z.of_nat (length (dst r)) <= 2 ^ 31 /\ shaped cnt (length (dst r)) (vals r)) ->
  (forall r, (r < n)%nat -> is_order (src r) (rord r) /\ Z.of_nat (length (src r)) <= 2 ^ 31 /\ shaped cnt (length (src r)) (out r)) ->
  exists S' out',
  computes n (send_recv cnt junk dst sord src rord) (fun r => SS0 (vals r) (out r)) S' /\
  (forall r, (r < n)%nat -> s_vals (S' r) = vals r /\ s_out (S' r) = out' r /\ shaped cnt (length (src r)) (out' r)) /\
  (forall s r i j k c, (s < n)%nat -> (r < n)%nat -> 0 <= c < cnt ->
     numbered (dst s) (sord s) (Z.of_nat r) i k -> numbered (src r) (rord r) (Z.of_nat s) j k ->
     vals_at (out' r) c j = vals_at (vals s) c i) /\
  (forall r j s, (r < n)%nat -> vread (src r) j = Some s -> 0 <= s ->
     exists k i, numbered (src r) (rord r) s j k /\ numbered (dst (Z.to_nat s)) (sord (Z.to_nat s)) (Z.of_nat r) i k) /\
  (forall r j q c, (r < n)%nat -> vread (src r) j = Some q -> q < 0 -> 0 <= c < cnt -> vals_at (out' r) c j = vals_at (out r) c j).
Proof. exact @exchange_ok. Qed.
Print Assumptions C35_pairing_partial.

(** C35, with the orders the exchanger makes from the receiving points (GetSendRecvOrder): the value for point p
    on rank s arrives at the position of p on the rank it is for, whatever std::sort does with equal keys and
    in whatever order the two sides list the points. *)
Theorem C35_points_partial : forall V cnt (junk : V) n R ssort rsort dst src spts rpts vals out,
  0 <= cnt ->
  (forall r q, (r < n)%nat -> In q (dst r) -> q < Z.of_nat n) ->
  (forall r q, (r < n)%nat -> In q (src r) -> q < Z.of_nat n) ->
  agreed n dst src spts rpts ->
  (forall r, (r < n)%nat -> sorts (ssort r) /\ length (spts r) = length (dst r) /\ (forall p, In p (spts r) -> pt_in R p) /\
     distinct (dst r) (spts r) /\ Z.of_nat (length (dst r)) <= 2 ^ 31 /\ shaped cnt (length (dst r)) (vals r)) ->
  (forall r, (r < n)%nat -> sorts (rsort r) /\ length (rpts r) = length (src r) /\ (forall p, In p (rpts r) -> pt_in R p) /\
     distinct (src r) (rpts r) /\ Z.of_nat (length (src r)) <= 2 ^ 31 /\ shaped cnt (length (src r)) (out r)) ->
  exists S' out',
  computes n (send_recv cnt junk dst (fun r => send_recv_order (ssort r) R (spts r)) src (fun r => send_recv_order (rsort r) R (rpts r)))
    (fun r => SS0 (vals r) (out r)) S' /\
  (forall r, (r < n)%nat -> s_out (S' r) = out' r /\ shaped cnt (length (src r)) (out' r)) /\
  (forall s r i j p c, (s < n)%nat -> (r < n)%nat -> 0 <= c < cnt ->
     vread (dst s) i = Some (Z.of_nat r) -> vread (spts s) i = Some p ->
     vread (src r) j = Some (Z.of_nat s) -> vread (rpts r) j = Some p ->
     vals_at (out' r) c j = vals_at (vals s) c i) /\
  (forall r j q c, (r < n)%nat -> vread (src r) j = Some q -> q < 0 -> 0 <= c < cnt -> vals_at (out' r) c j = vals_at (out r) c j).
Proof. exact @points_ok. Qed.
Print Assumptions C35_points_partial.

(** C35 fails for more than 2^31 positions: Send.cpp 121 and Recv.cpp 55 convert the order, an array<long long>, to
    an array<int>, and position 2^31 becomes a negative index. *)
Theorem C35_large_refuted : exists ranks m, (forall q, In q ranks -> q = 0) /\
  make_map ranks (default_order ranks) = Some m /\ forall cnt (vals bufs : list (list Z)), pack cnt m vals bufs = None.
Proof.
  destruct large_exists as (ranks & L & Z0). destruct (make_map_ok ranks (default_order ranks)) as (m & pr & E & _).
  exists ranks, m. split; [exact Z0|]. split; [exact E|]. intros. eapply large_fails; eauto.
Qed.
Print Assumptions C35_large_refuted.

(** Three ranks; rank 0 has values for ranks 1 and 2 and one for nobody, rank 1 has one for itself; rank 1 lists the
    points in another order and has a position that gets nothing. *)
Definition sx_R : range := mkR (T3 0 0 0) (T3 4 1 1).
Definition sx_pt (x : Z) : tup Z := T3 x 0 0.
Definition sx_dst (r : nat) : list Z := match r with 0%nat => [1; -1; 2; 1] | 1%nat => [1] | _ => [] end.
Definition sx_spts (r : nat) : list (tup Z) := map sx_pt (match r with 0%nat => [3; 0; 1; 2] | 1%nat => [0] | _ => [] end).
Definition sx_src (r : nat) : list Z := match r with 0%nat => [] | 1%nat => [1; 0; -1; 0] | _ => [0] end.
Definition sx_rpts (r : nat) : list (tup Z) := map sx_pt (match r with 0%nat => [] | 1%nat => [0; 2; 1; 3] | _ => [1] end).
Definition sx_vals (r : nat) : list (list Z) := match r with 0%nat => [[10; 11; 12; 13]; [110; 111; 112; 113]] | 1%nat => [[20]; [120]] | _ => [[]; []] end.
Definition sx_out (r : nat) : list (list Z) := match r with 0%nat => [[]; []] | 1%nat => [[0; 0; 7; 0]; [0; 0; 8; 0]] | _ => [[0]; [0]] end.

Example C35_points_hypotheses :
  agreed 3 sx_dst sx_src sx_spts sx_rpts /\
  (forall r, (r < 3)%nat -> sorts isort /\ length (sx_spts r) = length (sx_dst r) /\ (forall p, In p (sx_spts r) -> pt_in sx_R p) /\
     distinct (sx_dst r) (sx_spts r) /\ Z.of_nat (length (sx_dst r)) <= 2 ^ 31 /\ shaped 2 (length (sx_dst r)) (sx_vals r)) /\
  (forall r, (r < 3)%nat -> sorts isort /\ length (sx_rpts r) = length (sx_src r) /\ (forall p, In p (sx_rpts r) -> pt_in sx_R p) /\
     distinct (sx_src r) (sx_rpts r) /\ Z.of_nat (length (sx_src r)) <= 2 ^ 31 /\ shaped 2 (length (sx_src r)) (sx_out r)).
Proof.
  assert (B : forall A (l : list A) i x, vread l i = Some x -> In i (zseq 0 (length l))) by (intros A l i x H; apply vread_lt in H; apply zseq_In; lia).
  split; [|split].
  - intros s r p Hs Hr. destruct s as [|[|[|s]]]; [| | |lia]; (destruct r as [|[|[|r]]]; [| | |lia]); split; intros (i & Hi & Hp); pose proof (B _ _ _ _ Hi) as Bi; cbn in Bi;
      repeat (destruct Bi as [<-|Bi]; [cbn in Hi, Hp; try discriminate Hi; injection Hp as <-;
        first [exists 0; split; reflexivity|exists 1; split; reflexivity|exists 2; split; reflexivity|exists 3; split; reflexivity]|]); try contradiction.
  - intros r Hr. split; [apply isort_sorts|]. destruct r as [|[|[|r]]]; [| | |lia]; (split; [reflexivity|split; [|split; [|split; [cbn; lia|split; [reflexivity|cbn; intros row H; repeat (destruct H as [<-|H]; [reflexivity|]); contradiction]]]]]);
      try (intros p H; cbn in H; repeat (destruct H as [<-|H]; [vm_compute; intuition congruence|]); contradiction);
      intros i j q p Pq Hi Hj Hpi Hpj; pose proof (B _ _ _ _ Hi) as Bi; pose proof (B _ _ _ _ Hj) as Bj; cbn in Bi, Bj;
      repeat (destruct Bi as [<-|Bi]; [repeat (destruct Bj as [<-|Bj]; [first [reflexivity|exfalso; rewrite <- Hpi in Hpj; rewrite <- Hi in Hj; vm_compute in Hj, Hpj; congruence]|]); contradiction|]); contradiction.
  - intros r Hr. split; [apply isort_sorts|]. destruct r as [|[|[|r]]]; [| | |lia]; (split; [reflexivity|split; [|split; [|split; [cbn; lia|split; [reflexivity|cbn; intros row H; repeat (destruct H as [<-|H]; [reflexivity|]); contradiction]]]]]);
      try (intros p H; cbn in H; repeat (destruct H as [<-|H]; [vm_compute; intuition congruence|]); contradiction);
      intros i j q p Pq Hi Hj Hpi Hpj; pose proof (B _ _ _ _ Hi) as Bi; pose proof (B _ _ _ _ Hj) as Bj; cbn in Bi, Bj;
      repeat (destruct Bi as [<-|Bi]; [repeat (destruct Bj as [<-|Bj]; [first [reflexivity|exfalso; rewrite <- Hpi in Hpj; rewrite <- Hi in Hj; vm_compute in Hj, Hpj; congruence]|]); contradiction|]); contradiction.
Qed.

Example C35_execution :
  match final 3 (send_recv 2 0 sx_dst (fun r => send_recv_order isort sx_R (sx_spts r)) sx_src (fun r => send_recv_order isort sx_R (sx_rpts r))) 8 200
    (fun r => SS0 (sx_vals r) (sx_out r)) with
  | Some c => (s_out (n_st c 1%nat), s_out (n_st c 2%nat)) = ([[20; 13; 7; 10]; [120; 113; 8; 110]], [[12]; [112]])
  | None => False
  end.
Proof. vm_compute. reflexivity. Qed.

(** C36. Overwriting: each point gets the last of the values addressed to it, and a point to which none is
    addressed keeps its value. *)
Theorem C36_overwrite : forall V cnt lay R pts (packed fields : list (list V)), 0 <= cnt ->
  shaped cnt (length pts) packed -> shaped cnt (Z.to_nat (rcount R)) fields -> (forall p, In p pts -> pt_in R p) ->
  exists fields', disperse_overwrite cnt lay R pts packed fields = Some fields' /\ shaped cnt (Z.to_nat (rcount R)) fields' /\
    forall c p, 0 <= c < cnt -> pt_in R p ->
      (forall i, vread pts i = Some p -> (forall j, i < j -> vread pts j <> Some p) ->
         vals_at fields' c (rindex lay R p) = vals_at packed c i) /\
      (~ In p pts -> vals_at fields' c (rindex lay R p) = vals_at fields c (rindex lay R p)).
Proof. exact @overwrite_ok. Qed.
Print Assumptions C36_overwrite.

(** C36. Appending: the sum of the values addressed to a point is added to its value (integers, no overflow). *)
Theorem C36_append : forall cnt lay R pts (packed fields : list (list Z)), 0 <= cnt ->
  shaped cnt (length pts) packed -> shaped cnt (Z.to_nat (rcount R)) fields -> (forall p, In p pts -> pt_in R p) ->
  exists fields', disperse_append Z.add cnt lay R pts packed fields = Some fields' /\ shaped cnt (Z.to_nat (rcount R)) fields' /\
    forall c row p, vread packed c = Some row -> pt_in R p -> exists old,
      vals_at fields c (rindex lay R p) = Some old /\ vals_at fields' c (rindex lay R p) = Some (old + sum_at p pts row).
Proof. exact append_sum. Qed.
Print Assumptions C36_append.

(** C36, for any value type and addition (rounded, say): the values addressed to a point are added one after
    another, in the order of the list. *)
Theorem C36_append_ordered : forall V (add : V -> V -> V) cnt lay R pts packed fields, 0 <= cnt ->
  shaped cnt (length pts) packed -> shaped cnt (Z.to_nat (rcount R)) fields -> (forall p, In p pts -> pt_in R p) ->
  exists fields', disperse_append add cnt lay R pts packed fields = Some fields' /\ shaped cnt (Z.to_nat (rcount R)) fields' /\
    forall c row q, vread packed c = Some row -> pt_in R q -> exists old,
      vals_at fields c (rindex lay R q) = Some old /\
      vals_at fields' c (rindex lay R q) = Some (fold_left add (addressed q pts row) old).
Proof. exact @disperse_ok. Qed.
Print Assumptions C36_append_ordered.

Example C36_example :
  disperse_overwrite 1 ColMajor sx_R (map sx_pt [2; 0; 2]) [[5; 6; 7]] [[1; 2; 3; 4]] = Some [[6; 2; 7; 4]] /\
  disperse_append Z.add 1 ColMajor sx_R (map sx_pt [2; 0; 2]) [[5; 6; 7]] [[1; 2; 3; 4]] = Some [[7; 2; 15; 4]].
Proof. vm_compute. split; reflexivity. Qed.
