(** Properties of distributed region hashes. *)
From Coq Require Import List ZArith QArith Bool Lia.
From Verif Require Import TupleModel RangeModel RangeProof ContModel HashModel HashSpec ProtoModel ProtoSpec.
From Verif Require Import NetModel NetSpec DHashModel DDecompProof.
Import ListNotations.
Local Open Scope Z_scope.

(** C23. Hashes over ranges, for any number of ranks and any contributions, in whatever order messages
    arrive: all ranks map points to the same (rank, bin), and every point of a region has one.
    Retrieving on all ranks any bins that points are mapped to, of ranks that some point of a region is
    mapped to, gives for each bin a part of the list of all contributions, each at most once and with
    its rank, and every region with a point in the bin is in it.
    [guess] is the unrounded number of processes in a dimension, which is at most the number to
    be distributed. *)
Theorem C23_distributed_hash_complete : forall guess rnd nd n (L : nat -> list range),
  (1 <= nd <= 3)%nat -> (1 <= n)%nat ->
  (forall l m, 1 <= m -> guess l m <= m) -> rounding rnd -> (rnd 1 == 1)%Q ->
  (forall r g, (r < n)%nat -> In g (L r) -> grid_range nd g) ->
  exists H,
  computes n (dh_build zcoords range_traits nd n (range_decomp guess nd) (range_ratio rnd nd))
    (fun r => D0 (L r)) (fun r => DH (H r)) /\
  (forall r r' p, (r < n)%nat -> (r' < n)%nat -> dh_map zcoords nd (H r) p = dh_map zcoords nd (H r') p) /\
  (forall r g s p, (r < n)%nat -> (s < n)%nat -> In g (L s) -> pt_in g p ->
     exists q b, dh_map zcoords nd (H r) p = Some (q, b)) /\
  forall ids,
    (forall r q b, (r < n)%nat -> In (q, b) (ids r) -> (exists p, dh_map zcoords nd (H r) p = Some (q, b)) /\
       exists g s p b', (s < n)%nat /\ In g (L s) /\ pt_in g p /\ dh_map zcoords nd (H r) p = Some (q, b')) ->
    exists res, computes n (dh_retrieve n) (fun r => R0 (H r) (ids r)) (fun r => RH (H r) (res r)) /\
      forall r q b, (r < n)%nat -> In (q, b) (ids r) ->
        exists f, retrieved (res r) q b = Some (filter f (contributions n L)) /\
          forall g s p, (s < n)%nat -> In g (L s) -> pt_in g p -> dh_map zcoords nd (H r) p = Some (q, b) ->
          f (g, s) = true.
Proof. exact range_dhash_computes. Qed.
Print Assumptions C23_distributed_hash_complete.

Definition r2 (x0 y0 x1 y1 : Z) : range := mkR (T3 x0 y0 0) (T3 x1 y1 1).
Definition ex_guess (l : list Q) (m : Z) : Z := Z.min 2 m.
Definition ex_build (nd n : nat) := dh_build zcoords range_traits nd n (range_decomp ex_guess nd) (range_ratio (fun x => x) nd).
Definition hash_in (c : option (net (dst Z range range) (dmsg range))) (r : nat) : option (dhash Z range range) :=
  match c with Some c => match n_st c r with DH h => Some h | _ => None end | None => None end.

(** Four ranks; rank 0 contributes two regions, rank 3 none. *)
Definition ex_L (r : nat) : list range :=
  match r with O => [r2 0 0 4 3; r2 4 2 7 4] | 1%nat => [r2 6 0 10 5] | 2%nat => [r2 3 3 5 10] | _ => [] end.
Definition ex_final := final 4 (ex_build 2 4) 4 300 (fun r => D0 (ex_L r)).
Definition ex_ids (r : nat) : list (nat * Z) := match r with O => [(0%nat, 3); (2%nat, 0)] | 3%nat => [(1%nat, 1)] | _ => [] end.
Definition ex_answer : option (net (rst Z range range) (dmsg range)) :=
  match hash_in ex_final 0, hash_in ex_final 1, hash_in ex_final 2, hash_in ex_final 3 with
  | Some h0, Some h1, Some h2, Some h3 =>
      final 4 (dh_retrieve 4) 4 300
        (fun r => R0 (match r with O => h0 | 1%nat => h1 | 2%nat => h2 | _ => h3 end) (ex_ids r))
  | _, _, _, _ => None
  end.

Example C23_example :
  (forall r g, (r < 4)%nat -> In g (ex_L r) -> grid_range 2 g) /\
  (match hash_in ex_final 0 with
   | Some h => dh_map zcoords 2 h (T3 4 3 0) = Some (0%nat, 3) /\ dh_map zcoords 2 h (T3 6 2 0) = Some (2%nat, 0) /\
               dh_map zcoords 2 h (T3 3 6 0) = Some (1%nat, 1)
   | None => False
   end) /\
  match ex_answer with
  | Some c =>
      match n_st c 0, n_st c 3 with
      | RH _ res0, RH _ res3 =>
          retrieved res0 0 3 = Some [(r2 4 2 7 4, 0%nat); (r2 3 3 5 10, 2%nat)] /\
          retrieved res0 2 0 = Some [(r2 4 2 7 4, 0%nat); (r2 6 0 10 5, 1%nat)] /\
          retrieved res3 1 1 = Some [(r2 3 3 5 10, 2%nat)]
      | _, _ => False
      end
  | None => False
  end.
Proof.
  split; [|split; vm_compute; repeat split; reflexivity].
  intros r g Hr Hg. destruct r as [|[|[|[|r]]]]; [| | | |lia]; cbn in Hg;
    repeat match goal with H : _ \/ _ |- _ => destruct H end; subst; try contradiction;
    split; intros d Hd; destruct d as [|[|[|d]]]; cbn; lia.
Qed.

(** C23. The condition on the ranks is needed.  The extents contain points that are mapped to a rank
    which holds no region; when such a bin is requested, that rank reads from an empty array, and
    the retrieval is undefined.  Here the contributions are those above and rank 0 requests the bin of
    the point (6,6). *)
Definition ex_bad (r : nat) : list (nat * Z) := match r with O => [(3%nat, 0)] | _ => [] end.
Definition ex_get (r : nat) : dhash Z range range :=
  match hash_in ex_final r with Some h => h | None => DHash (r2 0 0 0 0) (r2 0 0 0 0) (T3 0 0 0) [] [] [] [] [] end.
Theorem C23_empty_rank_refuted : exists nd n (L : nat -> list range) ls c ids ls' c',
  (1 <= nd <= 3)%nat /\ (1 <= n)%nat /\ (forall r g, (r < n)%nat -> In g (L r) -> grid_range nd g) /\
  run (nstep true n (ex_build nd n)) (net0 (fun r => D0 (L r))) ls = Some c /\
  (forall r, (r < n)%nat -> n_pc c r = 10%nat /\ n_st c r = DH (ex_get r)) /\
  (forall r q b, (r < n)%nat -> In (q, b) (ids r) ->
     exists p, pt_in (d_ext (ex_get r)) p /\ dh_map zcoords nd (ex_get r) p = Some (q, b)) /\
  run (nstep true n (dh_retrieve n)) (net0 (fun r => R0 (ex_get r) (ids r))) ls' = Some c' /\
  stuck (nstep true n (dh_retrieve n)) c' /\ n_pc c' 3 = 2%nat /\ nth_error (@dh_retrieve Z range range n) 2 = Some rt_bins.
Proof.
  exists 2%nat, 4%nat, ex_L.
  exists (schedule 4 (ex_build 2 4) 4 300 (net0 (fun r => D0 (ex_L r)))).
  destruct (run (nstep true 4 (ex_build 2 4)) (net0 (fun r => D0 (ex_L r)))
    (schedule 4 (ex_build 2 4) 4 300 (net0 (fun r => D0 (ex_L r))))) as [c|] eqn:E.
  2: { exfalso. refine (none_not_some _ _ E). vm_compute. reflexivity. }
  exists c, ex_bad.
  exists (schedule 4 (dh_retrieve 4) 4 300 (net0 (fun r => R0 (ex_get r) (ex_bad r)))).
  destruct (run (nstep true 4 (dh_retrieve 4)) (net0 (fun r => R0 (ex_get r) (ex_bad r)))
    (schedule 4 (dh_retrieve 4) 4 300 (net0 (fun r => R0 (ex_get r) (ex_bad r))))) as [c'|] eqn:E'.
  2: { exfalso. refine (none_not_some _ _ E'). vm_compute. reflexivity. }
  exists c'. split; [lia|]. split; [lia|]. split; [exact (proj1 C23_example)|]. split; [reflexivity|].
  split; [|split; [|split; [reflexivity|]]].
  - assert (F : match ex_final with Some c => forallb (fun r => Nat.eqb (n_pc c r) 10 && match n_st c r with DH _ => true | _ => false end) (seq 0 4) | None => false end = true)
      by (vm_compute; reflexivity).
    unfold ex_final, final in F. rewrite E in F. rewrite forallb_forall in F.
    intros r Hr. specialize (F r ltac:(apply in_seq; lia)). apply andb_prop in F as [F1 F2].
    split; [apply Nat.eqb_eq, F1|]. unfold ex_get, hash_in, ex_final, final. rewrite E.
    destruct (n_st c r); try discriminate F2. reflexivity.
  - intros r q b Hr Hq. destruct r as [|r]; [|destruct Hq]. destruct Hq as [[= <- <-]|[]].
    exists (T3 6 6 0). vm_compute. repeat split; try discriminate; reflexivity.
  - assert (F : match final 4 (dh_retrieve 4) 4 300 (fun r => R0 (ex_get r) (ex_bad r)) with
                | Some c => stuck_check 4 (dh_retrieve 4) 4 c && Nat.eqb (n_pc c 3) 2 | None => false end = true)
      by (vm_compute; reflexivity).
    unfold final in F. rewrite E' in F. apply andb_prop in F as [F1 F2].
    split; [exact (stuck_check_ok _ _ _ _ F1)|]. split; [apply Nat.eqb_eq, F2|reflexivity].
Qed.
Print Assumptions C23_empty_rank_refuted.

(** C23. MapToBin itself divides by zero for some points beyond the extents: with a region of 6
    points on 4 ranks, the last process begins where the extents end. *)
Theorem C23_outside_point_refuted : exists c h, final 4 (ex_build 1 4) 4 300 (fun _ => D0 [mkR (T3 0 0 0) (T3 6 1 1)]) = Some c /\
  n_st c 0 = DH h /\ (forall r, (r < 4)%nat -> n_pc c r = 10%nat) /\ dh_map zcoords 1 h (T3 6 0 0) = None.
Proof.
  destruct (final 4 (ex_build 1 4) 4 300 (fun _ => D0 [mkR (T3 0 0 0) (T3 6 1 1)])) as [c|] eqn:E.
  2: { exfalso. refine (none_not_some _ _ E). vm_compute. reflexivity. }
  assert (F : match final 4 (ex_build 1 4) 4 300 (fun _ => D0 [mkR (T3 0 0 0) (T3 6 1 1)]) with
              | Some c => forallb (fun r => Nat.eqb (n_pc c r) 10) (seq 0 4) &&
                          match n_st c 0 with
                          | DH h => match dh_map zcoords 1 h (T3 6 0 0) with None => true | _ => false end
                          | _ => false end
              | None => false end = true) by (vm_compute; reflexivity).
  rewrite E in F. apply andb_prop in F as [F1 F2]. rewrite forallb_forall in F1.
  destruct (n_st c 0) eqn:S; try discriminate F2. exists c, h. split; [reflexivity|]. split; [exact S|]. split.
  - intros r Hr. apply Nat.eqb_eq, F1, in_seq. lia.
  - destruct (dh_map zcoords 1 h (T3 6 0 0)); [discriminate F2|reflexivity].
Qed.
Print Assumptions C23_outside_point_refuted.
