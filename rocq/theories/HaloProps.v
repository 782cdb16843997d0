(** Properties of neighbour detection and halo exchange: C13, C14, C15. *)
From Coq Require Import List ZArith QArith_base Bool Lia Sorting.Sorted.
From Verif Require Import TupleModel RangeModel Base RangeProof CartModel CartProof DecompModel DecompProof IndexerModel ArrayModel.
From Verif Require Import ContModel HashModel HashSpec ProtoModel ProtoSpec NetModel NetSpec DHashModel DDecompProof.
From Verif Require Import NeighModel NeighSpec HaloModel PartModel HaloEx PartProof.
Import ListNotations.
Local Open Scope Z_scope.

(** C13. For any decomposition, number of ranks and order of messages, DetectNeighbors ends on every
    rank with an increasing list N r.  q is in it exactly when it is another rank that owns a periodic
    image of a point of the one-point ring around r's range; every point of the ring is an image of
    a point of a neighbour or of the rank itself.  If no points are stored twice, q is in it exactly
    when points of the two ranges are at most one point apart (with periodic wrap), and the relation
    is symmetric. *)
Theorem C13_neighbors : forall c n L guess rnd, decomposed c n L ->
  (forall l m, 1 <= m -> guess l m <= m) -> rounding rnd -> (rnd 1 == 1)%Q ->
  exists N,
  computes n (detect_neighbors c n (range_decomp guess (c_nd c)) (range_ratio rnd (c_nd c)))
    (fun r => N0 (L r)) (fun r => NDone (L r) (N r)) /\
  (forall r, (r < n)%nat -> StronglySorted lt (N r)) /\
  (forall r q, (r < n)%nat -> (In q (N r) <-> (q < n)%nat /\ q <> r /\
     exists p u, pt_in (extend_local_range c (L r) 1) p /\ ~ pt_in (L r) p /\
       is_image c p u /\ in_base c u /\ pt_in (L q) u)) /\
  (forall r p, (r < n)%nat -> pt_in (extend_local_range c (L r) 1) p -> ~ pt_in (L r) p ->
     exists q u, (q = r \/ In q (N r)) /\ is_image c p u /\ in_base c u /\ pt_in (L q) u) /\
  (stored_once c ->
     (forall r q, (r < n)%nat -> (In q (N r) <-> (q < n)%nat /\ q <> r /\
        exists p u, pt_in (L r) p /\ pt_in (L q) u /\ near c p u)) /\
     (forall r q, (r < n)%nat -> (q < n)%nat -> (In q (N r) <-> In r (N q)))).
Proof. exact neighbors_computes. Qed.
Print Assumptions C13_neighbors.

Example C13_example :
  decomposed ex_c 4 ex_L /\ stored_once ex_c /\ decomposed ex_line 3 (ex_L1 2 3) /\
  (forall l m, 1 <= m -> ex_guess l m <= m) /\ rounding (fun x => x) /\
  match final 3 (detect_neighbors ex_line 3 (range_decomp ex_guess 1) (range_ratio (fun x => x) 1)) 8 400
          (fun r => N0 (ex_L1 2 3 r)) with
  | Some c => match n_st c 0, n_st c 1, n_st c 2 with
              | NDone _ l0, NDone _ l1, NDone _ l2 => l0 = [1%nat] /\ l1 = [0%nat; 2%nat] /\ l2 = [1%nat]
              | _, _, _ => False
              end
  | None => False
  end.
Proof.
  split; [exact ex_decomposed|]. split; [exact ex_once|]. split; [apply ex_line_decomposed; lia|].
  split; [exact ex_guess_ok|]. split; [exact id_rounding|]. vm_compute. repeat split; reflexivity.
Qed.

(** C13, with points stored twice (periodic_storage::DUPLICATED): the relation need not be symmetric.
    Points [0,6) of a circle, point 5 being point 0 stored again, as [0,3), [3,5) and [5,6): the third
    rank finds the second, but the second finds only the first, because the ring is moved into
    the base period before its owner is looked up (Decomp.cpp 45-49). *)
Theorem C13_duplicated_refuted : exists c n L guess rnd N r q,
  decomposed c n L /\ (forall l m, 1 <= m -> guess l m <= m) /\ rounding rnd /\ (rnd 1 == 1)%Q /\
  computes n (detect_neighbors c n (range_decomp guess (c_nd c)) (range_ratio rnd (c_nd c)))
    (fun r => N0 (L r)) (fun r => NDone (L r) (N r)) /\
  (r < n)%nat /\ (q < n)%nat /\ In q (N r) /\ ~ In r (N q).
Proof. exact duplicated_asymmetric. Qed.
Print Assumptions C13_duplicated_refuted.

(** C14. A domain whose local ranges form a grid with sides of at least k points, and extended ranges
    that reach at most k points further: after the neighbours are found, the halo map is set up
    and a field is exchanged, in whatever order messages arrive, every point of an extended range that
    is an image of a point of the domain holds the value that the owner had there before (owned
    points are unchanged); every other point is unchanged. *)
Theorem C14_halo_exchange : forall (V : Type) c n L E (F : nat -> list V) k guess rnd,
  decomposed c n L -> stored_once c -> 1 <= k -> grid_of (c_nd c) n L k ->
  (forall r, (r < n)%nat -> grown (c_nd c) k (L r) (E r)) ->
  (forall r, (r < n)%nat -> Z.of_nat (length (F r)) = rcount (E r)) ->
  (forall l m, 1 <= m -> guess l m <= m) -> rounding rnd -> (rnd 1 == 1)%Q ->
  exists H F',
  computes n (setup_and_exchange c n (range_decomp guess (c_nd c)) (range_ratio rnd (c_nd c)))
    (fun r => P0 (L r) (E r) (F r)) (fun r => PHalo (H r, F' r)) /\
  (forall r, (r < n)%nat -> length (F' r) = length (F r)) /\
  (forall r p q u, (r < n)%nat -> (q < n)%nat -> pt_in (E r) p -> pt_in (L q) u -> is_image c p u ->
     vread (F' r) (rindex ColMajor (E r) p) = vread (F q) (rindex ColMajor (E q) u)) /\
  (forall r p, (r < n)%nat -> pt_in (E r) p -> (forall u, is_image c p u -> ~ pt_in (c_range c) u) ->
     vread (F' r) (rindex ColMajor (E r) p) = vread (F r) (rindex ColMajor (E r) p)).
Proof. exact @exchange_grid_computes. Qed.
Print Assumptions C14_halo_exchange.

(** C14. The same for arbitrary decompositions, when the extended ranges reach at most one point
    further on the sides where the domain continues; then every point has an owner. *)
Theorem C14_halo_exchange_ring : forall (V : Type) c n L E (F : nat -> list V) guess rnd,
  decomposed c n L -> stored_once c ->
  (forall r, (r < n)%nat -> pt_subset (L r) (E r) /\ pt_subset (E r) (extend_local_range c (L r) 1)) ->
  (forall r, (r < n)%nat -> Z.of_nat (length (F r)) = rcount (E r)) ->
  (forall l m, 1 <= m -> guess l m <= m) -> rounding rnd -> (rnd 1 == 1)%Q ->
  exists H F',
  computes n (setup_and_exchange c n (range_decomp guess (c_nd c)) (range_ratio rnd (c_nd c)))
    (fun r => P0 (L r) (E r) (F r)) (fun r => PHalo (H r, F' r)) /\
  (forall r, (r < n)%nat -> length (F' r) = length (F r)) /\
  (forall r p, (r < n)%nat -> pt_in (E r) p -> exists q u, (q < n)%nat /\ pt_in (L q) u /\ is_image c p u) /\
  (forall r p q u, (r < n)%nat -> (q < n)%nat -> pt_in (E r) p -> pt_in (L q) u -> is_image c p u ->
     vread (F' r) (rindex ColMajor (E r) p) = vread (F q) (rindex ColMajor (E q) u)).
Proof. exact @exchange_ring_computes. Qed.
Print Assumptions C14_halo_exchange_ring.

Definition ex_E (r : nat) : range := extend_local_range ex_c (ex_L r) 2.
Definition ex_data (r : nat) : list Z := map (fun i => 100 * Z.of_nat r + i) (zseq 0 (Z.to_nat (rcount (ex_E r)))).

(** Rank 0 owns [0,3) x [0,2) and extends to [-2,5) x [0,4).  Its point (-1,3) is (5,3) of rank 3. *)
Example C14_example :
  grid_of 2 4 ex_L 2 /\ (forall r, (r < 4)%nat -> grown 2 2 (ex_L r) (ex_E r)) /\
  (forall r, (r < 4)%nat -> Z.of_nat (length (ex_data r)) = rcount (ex_E r)) /\
  match final 4 (setup_and_exchange ex_c 4 (range_decomp ex_guess 2) (range_ratio (fun x => x) 2)) 12 2000
          (fun r => P0 (ex_L r) (ex_E r) (ex_data r)) with
  | Some c => match n_st c 0 with
              | PHalo (_, d) => vread d (rindex ColMajor (ex_E 0) (T3 (-1) 3 0)) =
                                vread (ex_data 3) (rindex ColMajor (ex_E 3) (T3 5 3 0)) /\
                                vread d (rindex ColMajor (ex_E 0) (T3 (-1) 3 0)) = Some 325 /\
                                vread d (rindex ColMajor (ex_E 0) (T3 1 1 0)) = Some 10
              | _ => False
              end
  | None => False
  end.
Proof.
  split; [split|split; [|split]].
  - intros r q d Hr Hq Hd. destruct r as [|[|[|[|r]]]]; [| | | |lia]; destruct q as [|[|[|[|q]]]]; [| | | |lia| | | | |lia| | | | |lia| | | | |lia];
      destruct d as [|[|[|d]]]; cbn; lia.
  - intros r d Hr Hd. destruct r as [|[|[|[|r]]]]; [| | | |lia]; destruct d as [|[|d]]; cbn; lia.
  - intros r Hr. destruct r as [|[|[|[|r]]]]; [| | | |lia]; (split; [intros p Hp; unfold pt_in in *; cbn in *; lia|]);
      intros d Hd; destruct d as [|[|[|d]]]; cbn; lia.
  - intros r Hr. destruct r as [|[|[|[|r]]]]; [| | | |lia]; reflexivity.
  - vm_compute. repeat split; reflexivity.
Qed.

(** C14, full statement for the extended ranges of a grid (two layers of cells, Grid.cpp 57-77): it is
    false when a local range is thinner than the halo.  Points [0,6) as [0,2), [2,3), [3,6): rank
    0's extended range contains point 3, but its neighbours are found from a ring of one point
    and do not include rank 2, so the value at point 3 is not updated. *)
Theorem C14_depth_refuted : exists c n L guess rnd H F' r p q,
  let E := fun r => grid_extended c (L r) in
  let F := ex_F E in
  decomposed c n L /\ stored_once c /\
  (forall r, (r < n)%nat -> pt_subset (L r) (E r) /\ Z.of_nat (length (F r)) = rcount (E r)) /\
  (forall l m, 1 <= m -> guess l m <= m) /\ rounding rnd /\ (rnd 1 == 1)%Q /\
  computes n (setup_and_exchange c n (range_decomp guess (c_nd c)) (range_ratio rnd (c_nd c)))
    (fun r => P0 (L r) (E r) (F r)) (fun r => PHalo (H r, F' r)) /\
  (r < n)%nat /\ (q < n)%nat /\ pt_in (E r) p /\ pt_in (L q) p /\
  vread (F' r) (rindex ColMajor (E r) p) <> vread (F q) (rindex ColMajor (E q) p).
Proof. exact depth_stale. Qed.
Print Assumptions C14_depth_refuted.

(** C14, with points stored twice: the exchange never finishes for the decomposition of
    [C13_duplicated_refuted], since one rank waits for a message the other does not send. *)
Definition dup_prog := @setup_and_exchange Z (ex_circle DUPLICATED) 3 (range_decomp ex_guess 1) (range_ratio (fun x => x) 1).
Definition dup_start (r : nat) : pst Z :=
  let e := extend_local_range (ex_circle DUPLICATED) (ex_L1 3 5 r) 1 in
  P0 (ex_L1 3 5 r) e (repeat 0 (Z.to_nat (rcount e))).
Theorem C14_duplicated_refuted : decomposed (ex_circle DUPLICATED) 3 (ex_L1 3 5) /\
  exists ls c, run (nstep true 3 dup_prog) (net0 dup_start) ls = Some c /\ stuck (nstep true 3 dup_prog) c /\
    Nat.eqb (n_pc c 2) 26 = true /\ length dup_prog = 27%nat.
Proof.
  split; [apply ex_circle_decomposed; lia|].
  destruct (stuck_run 3 dup_prog 8 1000 dup_start (fun c => Nat.eqb (n_pc c 2) 26)) as (ls & c & H1 & H2 & H3).
  - vm_compute. reflexivity.
  - exists ls, c. split; [exact H1|]. split; [exact H2|]. split; [exact H3|reflexivity].
Qed.
Print Assumptions C14_duplicated_refuted.

(** C15. For any two ranks a and b of any decomposition (ranges inside the domain, no point owned
    twice): there is one list of pairs of points (p, u) such that b sends to a the values at the points
    u, in this order, and a stores what it receives from b at the points p, in this order.  The pairs are
    exactly those where p is a point of a's extended range which a does not own, u is owned by b,
    and u is p or, if p is outside the domain, the image of p in the base period; no p occurs
    twice. *)
Theorem C15_halo_lists : forall c n L E a b, cart_ok c ->
  (forall r p, (r < n)%nat -> pt_in (L r) p -> pt_in (c_range c) p) ->
  (forall r s p, (r < n)%nat -> (s < n)%nat -> pt_in (L r) p -> pt_in (L s) p -> r = s) ->
  (a < n)%nat -> (b < n)%nat -> a <> b ->
  exists pts : list (tup Z * tup Z),
    send_indices c (L b) (E b) (L a, E a) = Some (map (fun x => rindex ColMajor (E b) (snd x)) pts) /\
    recv_indices c (L a) (E a) (L b, E b) = Some (map (fun x => rindex ColMajor (E a) (fst x)) pts) /\
    NoDup (map fst pts) /\
    forall p u, In (p, u) pts <-> pt_in (E a) p /\ ~ pt_in (L a) p /\ pt_in (L b) u /\
      (pt_in (c_range c) p -> u = p) /\ (~ pt_in (c_range c) p -> is_image c p u /\ in_base c u).
Proof. exact halo_lists. Qed.
Print Assumptions C15_halo_lists.

Example C15_example :
  cart_ok ex_c /\
  send_indices ex_c (ex_L 1) (ex_E 1) (ex_L 0, ex_E 0) = Some [3; 4; 2; 3; 10; 11; 9; 10] /\
  recv_indices ex_c (ex_L 0) (ex_E 0) (ex_L 1, ex_E 1) = Some [0; 1; 5; 6; 7; 8; 12; 13].
Proof.
  split; [intros d Hd; destruct d as [|[|[|d]]]; cbn; lia|]. vm_compute. split; reflexivity.
Qed.
