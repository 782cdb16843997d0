(** Connected components and flood fill: statements for all executions. *)
From Coq Require Import List ZArith Bool Lia Relations.
From Verif Require Import TupleModel RangeModel Base RangeProof CartModel CartProof DecompModel DecompProof IndexerModel ArrayModel.
From Verif Require Import ContModel UFModel HashModel ProtoModel ProtoSpec NetModel NetSpec NetProof DDecompProof NeighSpec NeighProof.
From Verif Require Import HaloModel HaloProof HaloEx PartModel PartProof FieldModel FieldSpec FieldProof CompModel CompSpec CompProof FloodProof.
Import ListNotations.
Local Open Scope Z_scope.

Theorem components_compute c n L E N H F m : partitioned c n L E N H -> covered c n L E N -> agrees c n L E N F m ->
  exists S' F' lab num,
  computes n (connected_components (c_nd c) L E) (fun r => K0 (H r) (F r)) S' /\
  (forall r, (r < n)%nat -> k_lab (S' r) = F' r /\ k_num (S' r) = num) /\
  agrees c n L E N F' lab /\
  (forall u v, pt_in (c_range c) u -> pt_in (c_range c) v -> (lab u = lab v <-> same_component c m u v)) /\
  (forall u, pt_in (c_range c) u -> 0 <= lab u < num) /\
  (forall k, 0 <= k < num -> exists u, pt_in (c_range c) u /\ lab u = k).
Proof.
  intros P C A. destruct (components_ok c n L E N H P C F m A) as (S' & F' & lb & num & Q & V & R). exists S', F', lb, num.
  split; [apply prog_computes, Q|]. split; [|exact R]. intros r Hr. apply (V r Hr).
Qed.

Theorem flood_computes c n L E N H M B mk b : partitioned c n L E N H -> covered c n L E N ->
  agrees c n L E N M mk -> agrees c n L E N B b ->
  exists S' F' m',
  computes n (flood_mask (c_nd c) L E) (fun r => FL0 (H r) (M r) (B r)) S' /\
  (forall r, (r < n)%nat -> f_mask (S' r) = F' r) /\ agrees c n L E N F' m' /\
  forall u, pt_in (c_range c) u -> (m' u = true <-> mk u = true \/ flooded c mk b u).
Proof.
  intros P C A1 A2. destruct (flood_ok c n L E N H P C M B mk b A1 A2) as (S' & F' & m' & Q & R). exists S', F', m'.
  split; [apply prog_computes, Q|exact R].
Qed.

(** Ranges of less than two points. *)
Definition th_E (r : nat) : range := grid_extended ex_line (ex_L1 2 3 r).
Definition th_H (r : nat) : hmap := hm ex_line (ex_L1 2 3) th_E (nb ex_line 3 (ex_L1 2 3)) r.
Definition th_F (r : nat) : list bool := field_from ex_line (th_E r) (fun _ => false).

Theorem components_thin : exists c n L N H F m,
  let E := fun r => grid_extended c (L r) in
  partitioned c n L E N H /\ agrees c n L E N F m /\
  exists ls s, run (nstep true n (connected_components (c_nd c) L E)) (net0 (fun r => K0 (H r) (F r))) ls = Some s /\
    stuck (nstep true n (connected_components (c_nd c) L E)) s /\
    (n_pc s 0%nat <? length (connected_components (c_nd c) L E))%nat = true.
Proof.
  assert (Dc : decomposed ex_line 3 (ex_L1 2 3)) by (apply ex_line_decomposed; lia).
  exists ex_line, 3%nat, (ex_L1 2 3), (nb ex_line 3 (ex_L1 2 3)), th_H, th_F, (fun _ => false). intros E. change E with th_E.
  assert (X : forall r, (r < 3)%nat -> extended_ok ex_line (ex_L1 2 3 r) (th_E r)).
  { intros r Hr. apply (grid_extended_ok ex_line 3 (ex_L1 2 3) r Dc ex_line_once Hr). }
  split; [exact (nb_partitioned ex_line 3 (ex_L1 2 3) th_E Dc ex_line_once X)|]. split.
  - apply field_from_agrees; [exact Dc|exact ex_line_once|]. intros r Hr. apply (extended_sub ex_line 3 (ex_L1 2 3) _ r Dc Hr (X r Hr)).
  - destruct (stuck_run 3 (connected_components (c_nd ex_line) (ex_L1 2 3) th_E) 8 1000 (fun r => K0 (th_H r) (th_F r))
      (fun s => (n_pc s 0%nat <? length (connected_components (c_nd ex_line) (ex_L1 2 3) th_E))%nat)) as (ls & s & H1 & H2 & H3).
    + vm_compute. reflexivity.
    + exists ls, s. auto.
Qed.
