(** C91: donors and receivers of XINTOUT files are matched by their connections. *)
From Coq Require Import List ZArith Bool Lia Permutation.
From Verif Require Import TupleModel Base ContModel ArrayModel HashModel ProtoModel ProtoSpec NetModel NetSpec DDecompProof XinModel XinSpec XinEx MatModel MatSpec MatMain MatFile MatEx.
Import ListNotations.
Local Open Scope Z_scope.

(** Whatever donors and receivers the ranks have, with IDs below the number of receivers, matching ends on all ranks; a donor gets the grid and point of the last receiver with its ID,
    in the order of the ranks; and if there is none, what its bin is created with ([junk], zeros in the code). The same for receivers. *)
Theorem C91_exact : forall n grids points receivers G D R junk, (0 < n)%nat -> known n grids points receivers G -> sum_of grids receivers <= sum_of grids points ->
  ids_below n (sum_of grids receivers) D -> ids_below n (sum_of grids receivers) R ->
  exists S', computes n (match_all grids n junk) (fun r => MS0 (G r) (D r) (R r)) S' /\ forall r, (r < n)%nat ->
    sd_out (ms_m (S' r)) = map (map (fun it => partner (all_items n R) (unread n grids points receivers junk it) (it_id it))) (D r) /\
    sd_out (ms_n (S' r)) = map (map (fun it => partner (all_items n D) (unread n grids points receivers junk it) (it_id it))) (R r).
Proof. intros n grids points receivers G D R junk H1 H2 H3 H4 H5. exact (match_result n grids points receivers G H2 D R junk H1 H3 H4 H5). Qed.
Print Assumptions C91_exact.

(** If the donors and the receivers have the same IDs, all get the grid and the point or cell of one with their ID. *)
Theorem C91_paired : forall n grids points receivers G D R junk, (0 < n)%nat -> known n grids points receivers G -> sum_of grids receivers <= sum_of grids points ->
  ids_below n (sum_of grids receivers) D -> ids_below n (sum_of grids receivers) R ->
  (forall k, In k (map it_id (all_items n D)) <-> In k (map it_id (all_items n R))) ->
  exists S', computes n (match_all grids n junk) (fun r => MS0 (G r) (D r) (R r)) S' /\ forall r, (r < n)%nat ->
    paired (D r) (all_items n R) (sd_out (ms_m (S' r))) /\ paired (R r) (all_items n D) (sd_out (ms_n (S' r))).
Proof. exact match_paired. Qed.
Print Assumptions C91_paired.

(** From the files on: if each number is the connection of one donor and of one receiver, then, whichever ranks have read the parts, matching ends on all ranks, and
    every donor has the grid and point of the receiver in the file that has its connection, every receiver the grid and cell of the donor. *)
Theorem C91_file : forall gs domain adjust L, matches gs domain -> readable gs domain adjust -> contents_read gs domain adjust L ->
  forall n hd hr G junk, (0 < n)%nat -> (forall i k, (hd i k < n)%nat) -> (forall i k, (hr i k < n)%nat) -> consistent gs ->
  known n (length gs) (points_of gs) (receivers_of gs) G -> len (file_receivers gs) <= sum_of (length gs) (points_of gs) ->
  exists S', computes n (match_all (length gs) n junk) (fun r => MS0 (G r) (donors_held hd L r) (receivers_held hr L r)) S' /\ forall r, (r < n)%nat ->
    paired (donors_held hd L r) (file_receivers gs) (sd_out (ms_m (S' r))) /\ paired (receivers_held hr L r) (file_donors gs) (sd_out (ms_n (S' r))).
Proof. exact match_file. Qed.
Print Assumptions C91_file.

(** There is one such result. *)
Theorem C91_unique : forall gs l o o', consistent gs -> paired l (file_receivers gs) o -> paired l (file_receivers gs) o' -> o = o'.
Proof. exact paired_unique. Qed.
Print Assumptions C91_unique.

(** That files in which donors and receivers do not match are noticed is false: a donor whose ID no receiver has gets what its bin is created with, which in the code is point 0 of grid 0. *)
Theorem C91_missing_refuted : exists n grids points receivers G D R, known n grids points receivers G /\ sum_of grids receivers <= sum_of grids points /\
  len (all_items n D) = len (all_items n R) /\
  forall junk, exists S', computes n (match_all grids n junk) (fun r => MS0 (G r) (D r) (R r)) S' /\ sd_out (ms_m (S' 0%nat)) = [[(1, mm_pt 9); junk 0%nat 1]].
Proof. exists 2%nat, 1%nat, (fun _ => 10), (fun _ => 2), (mm_G 10 2), mm_D, mm_R. split; [apply mm_known; lia|]. split; [cbn; lia|]. split; [reflexivity|]. exact mm_missing. Qed.
Print Assumptions C91_missing_refuted.

(** Donors without any receivers divide by zero: rank 0 does not get past the first loop. *)
Theorem C91_none_refuted : exists n grids points receivers G D R, known n grids points receivers G /\ all_items n R = [] /\ sum_of grids receivers = 0 /\
  forall junk, exists ls c, run (nstep true n (match_all grids n junk)) (net0 (fun r => MS0 (G r) (D r) (R r))) ls = Some c /\
  stuck (nstep true n (match_all grids n junk)) c /\ n_pc c 0%nat = 1%nat.
Proof.
  exists 2%nat, 1%nat, (fun _ => 10), (fun _ => 0), (mm_G 10 0), mm_D, mm_none. split; [apply mm_known; lia|]. split; [reflexivity|]. split; [reflexivity|]. intros junk.
  destruct (stuck_run 2 (match_all 1 2 junk) 8 200 (fun r => MS0 (mm_G 10 0 r) (mm_D r) (mm_none r)) (fun c => Nat.eqb (n_pc c 0) 1)) as (ls & c & H1 & H2 & H3).
  - vm_compute. reflexivity.
  - exists ls, c. split; [exact H1|]. split; [exact H2|]. apply Nat.eqb_eq, H3.
Qed.
Print Assumptions C91_none_refuted.

(** A connection that is not below the number of receivers goes to a rank without a bin, which writes outside its arrays (in phase 6); ... *)
Theorem C91_range_refuted : exists n grids points receivers G D R, known n grids points receivers G /\ sum_of grids receivers <= sum_of grids points /\
  map it_id (all_items n D) = map it_id (all_items n R) /\ NoDup (map it_id (all_items n D)) /\
  forall junk, exists ls c, run (nstep true n (match_all grids n junk)) (net0 (fun r => MS0 (G r) (D r) (R r))) ls = Some c /\
  stuck (nstep true n (match_all grids n junk)) c /\ n_pc c 1%nat = 6%nat.
Proof.
  exists 2%nat, 1%nat, (fun _ => 10), (fun _ => 2), (mm_G 10 2), mm_far, mm_far. split; [apply mm_known; lia|]. split; [cbn; lia|]. split; [reflexivity|].
  split; [repeat constructor; cbn; intuition lia|]. intros junk.
  destruct (stuck_run 2 (match_all 1 2 junk) 8 400 (fun r => MS0 (mm_G 10 2 r) (mm_far r) (mm_far r)) (fun c => Nat.eqb (n_pc c 1) 6)) as (ls & c & H1 & H2 & H3).
  - vm_compute. reflexivity.
  - exists ls, c. split; [exact H1|]. split; [exact H2|]. apply Nat.eqb_eq, H3.
Qed.
Print Assumptions C91_range_refuted.

(** ... and with more receivers than points there are connections for which there is no rank. *)
Theorem C91_points_refuted : exists n grids points receivers G D R, known n grids points receivers G /\ ids_below n (sum_of grids receivers) D /\ ids_below n (sum_of grids receivers) R /\
  map it_id (all_items n D) = map it_id (all_items n R) /\ NoDup (map it_id (all_items n D)) /\
  forall junk, exists ls c, run (nstep true n (match_all grids n junk)) (net0 (fun r => MS0 (G r) (D r) (R r))) ls = Some c /\
  stuck (nstep true n (match_all grids n junk)) c /\ n_pc c 0%nat <> length (match_all grids n junk).
Proof.
  exists 2%nat, 1%nat, (fun _ => 2), (fun _ => 3), (mm_G 2 3), mm_three, mm_three. split; [apply mm_known; lia|].
  assert (B : ids_below 2 (sum_of 1 (fun _ => 3)) mm_three) by (intros it; cbn; intros [<-|[<-|[<-|[]]]]; cbn; lia).
  split; [exact B|]. split; [exact B|]. split; [reflexivity|]. split; [repeat constructor; cbn; intuition lia|]. intros junk.
  destruct (stuck_run 2 (match_all 1 2 junk) 8 400 (fun r => MS0 (mm_G 2 3 r) (mm_three r) (mm_three r)) (fun c => Nat.ltb (n_pc c 0) 9)) as (ls & c & H1 & H2 & H3).
  - vm_compute. reflexivity.
  - exists ls, c. split; [exact H1|]. split; [exact H2|]. apply Nat.ltb_lt in H3. cbn. lia.
Qed.
Print Assumptions C91_points_refuted.

(** The files of C89 on three ranks, the parts on different ranks. *)
Example C91_example : matches ex_grids ex_domain /\ readable ex_grids ex_domain 0 /\ consistent ex_grids /\ known 3 2 (points_of ex_grids) (receivers_of ex_grids) mx_G /\
  len (file_receivers ex_grids) <= sum_of (length ex_grids) (points_of ex_grids).
Proof. split; [apply ex_matches|]. split; [apply ex_readable|]. split; [apply mx_consistent|]. split; [apply mx_known|apply mx_points]. Qed.
Example C91_example_result : paired [[Item 0 (1, T3 0 1 0); Item 2 (1, T3 3 1 0)]; [Item 3 (2, T3 0 1 0)]] (file_receivers ex_grids) [[(2, T3 2 0 0); (2, T3 2 2 0)]; [(1, T3 4 0 0)]].
Proof.
  unfold paired. repeat constructor; [exists (Item 0 (2, T3 2 0 0))|exists (Item 2 (2, T3 2 2 0))|exists (Item 3 (1, T3 4 0 0))]; cbn; auto 10.
Qed.
