(** Properties of finding the ranks of an exchange: C68. *)
From Coq Require Import List ZArith Bool Lia.
From Verif Require Import TupleModel RangeModel RangeProof IndexerModel ArrayModel ContModel HashModel ProtoModel ProtoSpec NetModel NetSpec NetProof NetPhase DDecompProof.
From Verif Require Import SendModel SendSpec SendProof SendLaws XchModel XchSpec XchProof XchLaws XchMain.
Import ListNotations.
Local Open Scope Z_scope.

(** C68. n ranks with parts of any connectivities; the points whose ranks are to be found are points of the grids of
    the domain.  Finding the ranks ends, in whatever order messages arrive.  Each donor then has a rank: -1 if its cell
    begins on another rank; the given one if one was given; otherwise the highest rank that has the point as a receiver
    without a given rank, or -1 if there is none.  The same for each receiver. *)
Theorem C68_ranks : forall grids n ms ns, (0 < n)%nat -> 0 < total_points grids -> known_points grids n ms ns ->
  exists S', computes n (find_ranks grids n) (fun r => XS0 (ms r) (ns r)) S' /\
  forall r, (r < n)%nat ->
    ranks_found mc_donors (donor_rank n ns) (ms r) (sd_out (xm (S' r))) /\
    ranks_found nc_receivers (receiver_rank n ms) (ns r) (sd_out (xn (S' r))).
Proof. exact find_ranks_finds. Qed.
Print Assumptions C68_ranks.

(** C68. If the connectivities fit together, the ranks found for one of them are what sending and receiving need
    ([agreed] and the other hypotheses of C35): rank s has a donor for point p and rank r exactly if rank r has the
    receiver p with source s. *)
Theorem C68_agreed : forall n ms ns om on,
  fitting n ms ns ->
  (forall r, (r < n)%nat -> ranks_found mc_donors (donor_rank n ns) (ms r) (om r) /\ ranks_found nc_receivers (receiver_rank n ms) (ns r) (on r)) ->
  forall id,
  let dst := fun r => of_id m_id id (ms r) (om r) in let src := fun r => of_id n_id id (ns r) (on r) in
  let spts := fun r => m_points id (ms r) in let rpts := fun r => n_points id (ns r) in
  agreed n dst src spts rpts /\
  forall r, (r < n)%nat ->
    (forall q, In q (dst r) -> q < Z.of_nat n) /\ (forall q, In q (src r) -> 0 <= q < Z.of_nat n) /\
    length (spts r) = length (dst r) /\ length (rpts r) = length (src r) /\ distinct (dst r) (spts r) /\ distinct (src r) (rpts r).
Proof. intros n ms ns om on HF HO id. split; [exact (fitting_agreed n ms ns om on HF HO id)|exact (fitting_found n ms ns om on HF HO id)]. Qed.
Print Assumptions C68_agreed.

(** Three ranks; grid 1 on ranks 0 and 1, grid 2 on ranks 1 and 2, values in both directions.  Ranks 0 and 1 have some
    donors whose cells begin on the other. *)
Definition xx_pt (x : Z) : tup Z := T3 x 0 0.
Definition xx_line (b e : Z) : range := mkR (T3 b 0 0) (T3 e 1 1).
Definition xx_grids : list (Z * range) := [(1, xx_line 0 6); (2, xx_line 0 5)].
Definition xx_d (l p : Z) : donor := Donor (xx_pt l) (xx_pt p) (-1).
Definition xx_r (p : Z) : receiver := Recvr (xx_pt p) (-1).
Definition xx_ms (r : nat) : list mconn :=
  match r with
  | 0%nat => [MConn 1 2 (xx_line 0 3) [xx_d 1 0; xx_d 3 1; xx_d 2 4]]
  | 1%nat => [MConn 1 2 (xx_line 3 6) [xx_d 2 4; xx_d 3 1]; MConn 2 1 (xx_line 0 2) [xx_d 0 5]]
  | _ => [MConn 2 1 (xx_line 2 5) [xx_d 3 0]]
  end.
Definition xx_ns (r : nat) : list nconn :=
  match r with
  | 0%nat => [NConn 2 1 [xx_r 0]]
  | 1%nat => [NConn 1 2 [xx_r 1; xx_r 0]; NConn 2 1 [xx_r 5]]
  | _ => [NConn 1 2 [xx_r 4]]
  end.

Ltac xx_in H := cbn in H; repeat (destruct H as [H|H]; [subst|]); try contradiction.

Ltac xx_nd := repeat first [apply NoDup_nil|apply NoDup_cons; [vm_compute; intuition congruence|]].

Example C68_fitting : fitting 3 xx_ms xx_ns /\ known_points xx_grids 3 xx_ms xx_ns /\ 0 < total_points xx_grids.
Proof.
  split; [constructor|split; [split|reflexivity]].
  - intros r mc d Hr I J. destruct r as [|[|[|r]]]; [| | |lia]; xx_in I; xx_in J; reflexivity.
  - intros r mc d Hr I J. destruct r as [|[|[|r]]]; [| | |lia]; xx_in I; xx_in J; reflexivity.
  - intros r Hr. destruct r as [|[|[|r]]]; [| | |lia]; vm_compute; xx_nd.
  - intros r Hr. destruct r as [|[|[|r]]]; [| | |lia]; vm_compute; xx_nd.
  - intros id p; split; intros (r & mc & Hr & I & <- & P); (destruct r as [|[|[|r]]]; [| | |lia]); xx_in I; vm_compute in P;
      repeat (destruct P as [<-|P]; [first [exists 0%nat; eexists; split; [lia|]; split; [left; reflexivity|]; split; [reflexivity|]; vm_compute; tauto
        |exists 1%nat; eexists; split; [lia|]; split; [left; reflexivity|]; split; [reflexivity|]; vm_compute; tauto
        |exists 1%nat; eexists; split; [lia|]; split; [right; left; reflexivity|]; split; [reflexivity|]; vm_compute; tauto
        |exists 2%nat; eexists; split; [lia|]; split; [left; reflexivity|]; split; [reflexivity|]; vm_compute; tauto]|]); contradiction.
  - intros r r' mc mc' p Hr Hr' I I' G P P'. destruct r as [|[|[|r]]]; [| | |lia]; (destruct r' as [|[|[|r']]]; [| | |lia]); xx_in I; xx_in I'; cbn in G; try discriminate G;
      vm_compute in P, P'; (split; [|try reflexivity]); intuition congruence.
  - intros r r' mc mc' p Hr Hr' I I' G P P'. destruct r as [|[|[|r]]]; [| | |lia]; (destruct r' as [|[|[|r']]]; [| | |lia]); xx_in I; xx_in I'; cbn in G; try discriminate G;
      vm_compute in P, P'; (split; [|try reflexivity]); intuition congruence.
  - intros r mc Hr I. destruct r as [|[|[|r]]]; [| | |lia]; xx_in I; vm_compute; xx_nd.
  - intros r mc Hr I. destruct r as [|[|[|r]]]; [| | |lia]; xx_in I; vm_compute; xx_nd.
  - xx_nd.
  - intros r g p Hr H. destruct r as [|[|[|r]]]; [| | |lia]; (destruct H as [(mc & d & I & J & _ & _ & <- & <-)|(mc & d & I & J & _ & <- & <-)]); xx_in I; xx_in J;
      first [exists (xx_line 0 6); split; [left; reflexivity|vm_compute; intuition congruence]|exists (xx_line 0 5); split; [right; left; reflexivity|vm_compute; intuition congruence]].
Qed.

Example C68_execution :
  match final 3 (find_ranks xx_grids 3) 12 400 (fun r => XS0 (xx_ms r) (xx_ns r)) with
  | Some c => map (fun r => sd_out (xm (n_st c r))) [0%nat; 1%nat; 2%nat] = [[[1; -1; 2]]; [[-1; 1]; [1]]; [[0]]] /\
              map (fun r => sd_out (xn (n_st c r))) [0%nat; 1%nat; 2%nat] = [[[2]]; [[1; 0]; [1]]; [[0]]]
  | None => False
  end.
Proof. vm_compute. split; reflexivity. Qed.

(** C68 fails for a point that receives from two grids.  Rank 0 has a donor of grid 1, rank 1 a donor of grid 2, both
    for point 0 of grid 3, which is on rank 2.  The two connectivities share the tables of the ranks (Exchanger.cpp
    619-637), so both receivers get source rank 1; each of the two connectivities fits alone.  Exchanging
    connectivity (1, 3) with these ranks then never ends: rank 2 waits for a message from rank 1. *)
Definition td_grids : list (Z * range) := [(1, xx_line 0 3); (2, xx_line 0 3); (3, xx_line 0 2)].
Definition td_ms (r : nat) : list mconn :=
  match r with 0%nat => [MConn 1 3 (xx_line 0 3) [xx_d 1 0]] | 1%nat => [MConn 2 3 (xx_line 0 3) [xx_d 1 0]] | _ => [] end.
Definition td_ns (r : nat) : list nconn :=
  match r with 2%nat => [NConn 1 3 [xx_r 0]; NConn 2 3 [xx_r 0]] | _ => [] end.
Definition only_m (id : Z) (ms : nat -> list mconn) (r : nat) : list mconn := filter (fun mc => mc_from mc =? id) (ms r).
Definition only_n (id : Z) (ns : nat -> list nconn) (r : nat) : list nconn := filter (fun nc => nc_from nc =? id) (ns r).

Lemma td_known : known_points td_grids 3 td_ms td_ns.
Proof.
  split; [xx_nd|].
  intros r g p Hr H. destruct r as [|[|[|r]]]; [| | |lia]; (destruct H as [(mc & d & I & J & _ & _ & <- & <-)|(mc & d & I & J & _ & <- & <-)]); xx_in I; xx_in J;
    exists (xx_line 0 2); (split; [right; right; left; reflexivity|vm_compute; intuition congruence]).
Qed.

Lemma td_alone id : id = 1 \/ id = 2 -> fitting 3 (only_m id td_ms) (only_n id td_ns).
Proof.
  intros H. assert (B : id = 1 \/ id = 2) by exact H. clear H. constructor.
  1,2: intros r mc d Hr I J; destruct B as [-> | ->]; destruct r as [|[|[|r]]]; try lia; xx_in I; xx_in J; reflexivity.
  1,2: intros r Hr; destruct B as [-> | ->]; destruct r as [|[|[|r]]]; try lia; vm_compute; xx_nd.
  - intros i p; split; intros (r & mc & Hr & I & <- & P); destruct B as [-> | ->]; destruct r as [|[|[|r]]]; try lia; xx_in I; vm_compute in P;
      repeat (destruct P as [<-|P]; [first [exists 0%nat; eexists; split; [lia|]; split; [left; reflexivity|]; split; [reflexivity|]; vm_compute; tauto
        |exists 1%nat; eexists; split; [lia|]; split; [left; reflexivity|]; split; [reflexivity|]; vm_compute; tauto
        |exists 2%nat; eexists; split; [lia|]; split; [left; reflexivity|]; split; [reflexivity|]; vm_compute; tauto]|]); contradiction.
  - intros r r' mc mc' p Hr Hr' I I' G P P'. destruct B as [-> | ->]; destruct r as [|[|[|r]]]; try lia; destruct r' as [|[|[|r']]]; try lia; xx_in I; xx_in I'; split; reflexivity.
  - intros r r' mc mc' p Hr Hr' I I' G P P'. destruct B as [-> | ->]; destruct r as [|[|[|r]]]; try lia; destruct r' as [|[|[|r']]]; try lia; xx_in I; xx_in I'; split; reflexivity.
  - intros r mc Hr I. destruct B as [-> | ->]; destruct r as [|[|[|r]]]; try lia; xx_in I; vm_compute; xx_nd.
  - intros r mc Hr I. destruct B as [-> | ->]; destruct r as [|[|[|r]]]; try lia; xx_in I; vm_compute; xx_nd.
Qed.

Definition td_prog (dst src : nat -> list Z) : list (phase (sst Z) (list Z)) :=
  send_recv 1 0 dst (fun r => send_recv_order isort (xx_line 0 2) (m_points (1, 3) (td_ms r)))
    src (fun r => send_recv_order isort (xx_line 0 2) (n_points (1, 3) (td_ns r))).
Definition td_start (r : nat) : sst Z := match r with 0%nat => SS0 [[7]] [[]] | 2%nat => SS0 [[]] [[0]] | _ => SS0 [[]] [[]] end.

Theorem C68_two_donors_refuted :
  known_points td_grids 3 td_ms td_ns /\ (forall id, id = 1 \/ id = 2 -> fitting 3 (only_m id td_ms) (only_n id td_ns)) /\
  exists S', computes 3 (find_ranks td_grids 3) (fun r => XS0 (td_ms r) (td_ns r)) S' /\
    sd_out (xn (S' 2%nat)) = [[1]; [1]] /\
    let prog := td_prog (fun r => of_id m_id (1, 3) (td_ms r) (sd_out (xm (S' r)))) (fun r => of_id n_id (1, 3) (td_ns r) (sd_out (xn (S' r)))) in
    exists ls c, run (nstep true 3 prog) (net0 td_start) ls = Some c /\ stuck (nstep true 3 prog) c /\
      n_pc c 2%nat = 1%nat /\ length prog = 2%nat.
Proof.
  split; [exact td_known|]. split; [exact td_alone|].
  eexists. split; [apply prog_computes, (find_ranks_ok td_grids 3 ltac:(lia) ltac:(reflexivity) _ _ (HM td_grids 3 td_ms td_ns td_known) (HN td_grids 3 td_ms td_ns td_known))|].
  split; [vm_compute; reflexivity|]. intros prog.
  destruct (stuck_run 3 prog 8 200 td_start (fun c => Nat.eqb (n_pc c 2) 1)) as (ls & c & H1 & H2 & H3).
  - vm_compute. reflexivity.
  - exists ls, c. split; [exact H1|]. split; [exact H2|]. split; [apply Nat.eqb_eq, H3|reflexivity].
Qed.
Print Assumptions C68_two_donors_refuted.

(** C68 fails when the rank of one side of a connectivity is given and that of the other is not: the receiver of point
    0 has the right source rank, 0, but as it is not in the tables its donor gets destination rank -1. *)
Theorem C68_given_refuted : exists grids n ms ns S',
  known_points grids n ms ns /\
  computes n (find_ranks grids n) (fun r => XS0 (ms r) (ns r)) S' /\
  ms 0%nat = [MConn 1 2 (xx_line 0 3) [xx_d 1 0]] /\ ns 1%nat = [NConn 1 2 [Recvr (xx_pt 0) 0]] /\
  sd_out (xm (S' 0%nat)) = [[-1]] /\ sd_out (xn (S' 1%nat)) = [[0]].
Proof.
  pose (ms := fun r => match r with 0%nat => [MConn 1 2 (xx_line 0 3) [xx_d 1 0]] | _ => [] end).
  pose (ns := fun r => match r with 1%nat => [NConn 1 2 [Recvr (xx_pt 0) 0]] | _ => [] end).
  assert (K : known_points [(1, xx_line 0 3); (2, xx_line 0 2)] 2 ms ns).
  { split; [xx_nd|].
    intros r g p Hr H. destruct r as [|[|r]]; [| |lia]; (destruct H as [(mc & d & I & J & _ & _ & <- & <-)|(mc & d & I & J & _ & <- & <-)]); xx_in I; xx_in J;
      exists (xx_line 0 2); (split; [right; left; reflexivity|vm_compute; intuition congruence]). }
  exists [(1, xx_line 0 3); (2, xx_line 0 2)], 2%nat, ms, ns. eexists. split; [exact K|].
  split; [apply prog_computes, (find_ranks_ok [(1, xx_line 0 3); (2, xx_line 0 2)] 2 ltac:(lia) ltac:(reflexivity) _ _ (HM _ 2 ms ns K) (HN _ 2 ms ns K))|].
  split; [reflexivity|]. split; [reflexivity|]. split; vm_compute; reflexivity.
Qed.
Print Assumptions C68_given_refuted.
