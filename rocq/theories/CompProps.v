(** Properties of connected components and flood fill: C48, C49. *)
From Coq Require Import List ZArith QArith_base Bool Lia Relations.
From Verif Require Import TupleModel RangeModel Base RangeProof CartModel CartProof DecompModel DecompProof IndexerModel ArrayModel.
From Verif Require Import ContModel UFModel HashModel ProtoModel ProtoSpec NetModel NetSpec DDecompProof NeighSpec NeighProof.
From Verif Require Import HaloModel HaloEx PartModel PartProof FieldModel FieldSpec FieldProof FieldLaws FieldProps CompModel CompSpec FloodProof CompLaws.
Import ListNotations.
Local Open Scope Z_scope.

(** C48. The mask m given by a field with up-to-date halos, on a partition in which each copy has its
    owner at hand: ConnectedComponents ends, in whatever order messages arrive, and all ranks
    get the same number of components.  Two points have the same label exactly if there is a path
    between them of neighbouring points of equal value.  The labels are 0, ..., num - 1, each occurs, and all
    copies are up to date. *)
Theorem C48_components_partial : forall c n L E N H F m,
  partitioned c n L E N H -> covered c n L E N -> agrees c n L E N F m ->
  exists S' F' lab num,
  computes n (connected_components (c_nd c) L E) (fun r => K0 (H r) (F r)) S' /\
  (forall r, (r < n)%nat -> k_lab (S' r) = F' r /\ k_num (S' r) = num) /\
  agrees c n L E N F' lab /\
  (forall u v, pt_in (c_range c) u -> pt_in (c_range c) v -> (lab u = lab v <-> same_component c m u v)) /\
  (forall u, pt_in (c_range c) u -> 0 <= lab u < num) /\
  (forall k, 0 <= k < num -> exists u, pt_in (c_range c) u /\ lab u = k).
Proof. exact components_compute. Qed.
Print Assumptions C48_components_partial.

(** The copies have their owners at hand if the extended ranges add one point at most ... *)
Theorem C48_covered_ring : forall c n L E N H, partitioned c n L E N H ->
  (forall r, (r < n)%nat -> pt_subset (E r) (extend_local_range c (L r) 1)) -> covered c n L E N.
Proof. exact covered_ring. Qed.
Print Assumptions C48_covered_ring.

(** ... or k points at most, if the local ranges form a grid and have k points or more in each
    direction. *)
Theorem C48_covered_grid : forall c n L E N H k, partitioned c n L E N H -> 1 <= k -> grid_of (c_nd c) n L k ->
  (forall r, (r < n)%nat -> grown (c_nd c) k (L r) (E r)) -> covered c n L E N.
Proof. exact covered_grid. Qed.
Print Assumptions C48_covered_grid.

(** C48 does not hold for all local ranges: if a grid is decomposed into [0,2), [2,3) and [3,6), the
    extended range of rank 0 contains point 3, whose owner is not a neighbour; its label stays -1, which
    is then used as an index: an execution stops at an access out of bounds. *)
Theorem C48_thin_refuted : exists c n L N H F m,
  let E := fun r => grid_extended c (L r) in
  partitioned c n L E N H /\ agrees c n L E N F m /\
  exists ls s, run (nstep true n (connected_components (c_nd c) L E)) (net0 (fun r => K0 (H r) (F r))) ls = Some s /\
    stuck (nstep true n (connected_components (c_nd c) L E)) s /\
    (n_pc s 0%nat <? length (connected_components (c_nd c) L E))%nat = true.
Proof. exact components_thin. Qed.
Print Assumptions C48_thin_refuted.

(** C49. Flooding: a point is set afterwards exactly if it was set before or is reached, along
    neighbouring points which are not barrier points, from a point that was set and is not a
    barrier point. *)
Theorem C49_flood_partial : forall c n L E N H M B mk b, partitioned c n L E N H -> covered c n L E N ->
  agrees c n L E N M mk -> agrees c n L E N B b ->
  exists S' F' m',
  computes n (flood_mask (c_nd c) L E) (fun r => FL0 (H r) (M r) (B r)) S' /\
  (forall r, (r < n)%nat -> f_mask (S' r) = F' r) /\ agrees c n L E N F' m' /\
  forall u, pt_in (c_range c) u -> (m' u = true <-> mk u = true \/ flooded c mk b u).
Proof. exact flood_computes. Qed.
Print Assumptions C49_flood_partial.

(** Example: 6 x 4 points, periodic in x, on 2 x 2 ranks; the columns x = 1 and x = 4 divide the others
    into x = 2, 3 and x = 5, 0. *)
Definition cx_b (p : tup Z) : bool := (c0 p =? 1) || (c0 p =? 4).
Definition cx_B (r : nat) : list bool := field_from ex_c (fx_E r) cx_b.
Definition zx_get (s : list Z) (r : nat) (p : tup Z) : option Z := vread s (rindex ColMajor (fx_E r) p).

Lemma cx_part : exists N H, partitioned ex_c 4 ex_L fx_E N H /\ covered ex_c 4 ex_L fx_E N /\
  agrees ex_c 4 ex_L fx_E N cx_B cx_b /\ agrees ex_c 4 ex_L fx_E N fx_F fx_m.
Proof.
  assert (X : forall r, (r < 4)%nat -> extended_ok ex_c (ex_L r) (fx_E r)).
  { intros r Hr. apply (extended_ranges_ok ex_c 4 ex_L r 1 ex_decomposed ex_once Hr ltac:(lia)). }
  pose proof (nb_partitioned ex_c 4 ex_L fx_E ex_decomposed ex_once X) as P.
  eexists _, _. split; [exact P|]. split; [apply (covered_ring _ _ _ _ _ _ P); intros r Hr p Hp; exact Hp|].
  split; (apply field_from_agrees; [exact ex_decomposed|exact ex_once|]; intros r Hr;
    apply (extended_sub ex_c 4 ex_L _ r ex_decomposed Hr (X r Hr))).
Qed.

Example C48_example :
  (exists N H, partitioned ex_c 4 ex_L fx_E N H /\ covered ex_c 4 ex_L fx_E N /\
    agrees ex_c 4 ex_L fx_E N cx_B cx_b /\ agrees ex_c 4 ex_L fx_E N fx_F fx_m) /\
  match final 4 (connected_components 2 ex_L fx_E) 12 4000 (fun r => K0 (fx_H r) (cx_B r)) with
  | Some s => map (fun r => k_num (n_st s r)) (seq 0 4) = [4; 4; 4; 4] /\
              zx_get (k_lab (n_st s 0%nat)) 0 (T3 0 0 0) = Some 0 /\ zx_get (k_lab (n_st s 3%nat)) 3 (T3 5 3 0) = Some 0 /\
              zx_get (k_lab (n_st s 1%nat)) 1 (T3 4 1 0) = Some 3 /\ zx_get (k_lab (n_st s 2%nat)) 2 (T3 2 3 0) = Some 2 /\
              zx_get (k_lab (n_st s 2%nat)) 2 (T3 (-1) 2 0) = Some 0
  | None => False
  end.
Proof. split; [exact cx_part|]. vm_compute. repeat split; reflexivity. Qed.

(** A larger extension, of 2 points, on a grid of local ranges of 2 points or more. *)
Example C48_covered_grid_example : grid_of 2 4 ex_L 2 /\
  forall r, (r < 4)%nat -> grown 2 2 (ex_L r) (extend_local_range ex_c (ex_L r) 2).
Proof.
  split; [split|].
  - intros r q d Hr Hq Hd. destruct r as [|[|[|[|r]]]]; [| | | |lia]; (destruct q as [|[|[|[|q]]]]; [| | | |lia]); (destruct d as [|[|[|d]]]; [| | |lia]); vm_compute; intuition congruence.
  - intros r d Hr Hd. destruct r as [|[|[|[|r]]]]; [| | | |lia]; (destruct d as [|[|d]]; [| |lia]); vm_compute; congruence.
  - intros r Hr. split.
    + intros p Hp. destruct r as [|[|[|[|r]]]]; [| | | |lia]; unfold pt_in in *; cbn in *; lia.
    + intros d Hd. destruct r as [|[|[|[|r]]]]; [| | | |lia]; (destruct d as [|[|[|d]]]; [| | |lia]); vm_compute; intuition congruence.
Qed.

(** Flooding from the point (0,1) with these columns as barrier. *)
Example C49_example :
  match final 4 (flood_mask 2 ex_L fx_E) 12 4000 (fun r => FL0 (fx_H r) (fx_F r) (cx_B r)) with
  | Some s => fx_get (f_mask (n_st s 0%nat)) 0 (T3 0 0 0) = Some true /\ fx_get (f_mask (n_st s 3%nat)) 3 (T3 5 3 0) = Some true /\
              fx_get (f_mask (n_st s 0%nat)) 0 (T3 1 1 0) = Some false /\ fx_get (f_mask (n_st s 1%nat)) 1 (T3 3 0 0) = Some false
  | None => False
  end.
Proof. vm_compute. repeat split; reflexivity. Qed.
