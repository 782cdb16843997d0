(** Properties of operations on distributed fields: C46, C47, C50, C51. *)
From Coq Require Import List ZArith QArith_base Bool Lia.
From Verif Require Import TupleModel RangeModel Base RangeProof CartModel CartProof DecompModel DecompProof IndexerModel ArrayModel.
From Verif Require Import ContModel HashModel HashSpec ProtoModel ProtoSpec NetModel NetSpec DHashModel DDecompProof.
From Verif Require Import NeighModel NeighSpec HaloModel PartModel HaloEx PartProof FieldModel FieldSpec FieldProof EdgeProof ExtProof FieldLaws.
Import ListNotations.
Local Open Scope Z_scope.

(** The partitions to which the theorems of this file apply: those made by the library, for any
    extended ranges (FieldSpec.v: extended_ok). *)
Theorem C14_partition : forall (V : Type) c n L E (F : nat -> list V) guess rnd,
  decomposed c n L -> stored_once c -> (forall r, (r < n)%nat -> extended_ok c (L r) (E r)) ->
  (forall l m, 1 <= m -> guess l m <= m) -> rounding rnd -> (rnd 1 == 1)%Q ->
  exists N H,
  computes n (make_partition c n (range_decomp guess (c_nd c)) (range_ratio rnd (c_nd c)))
    (fun r => P0 (L r) (E r) (F r)) (fun r => PHalo (H r, F r)) /\
  partitioned c n L E N H.
Proof. exact @partition_computes. Qed.
Print Assumptions C14_partition.

(** The ranges made by ExtendLocalRange, and the extended ranges of a grid, are such ranges. *)
Theorem C14_extended_ranges : forall c n L r a, decomposed c n L -> stored_once c -> (r < n)%nat -> 1 <= a ->
  extended_ok c (L r) (extend_local_range c (L r) a) /\ extended_ok c (L r) (grid_extended c (L r)).
Proof. exact extended_ranges_ok. Qed.
Print Assumptions C14_extended_ranges.

(** C46. The mask m given by a field with up-to-date halos: DetectEdge ends, in whatever order
    messages arrive, with a field whose points and copies are true exactly at the edge points of m. *)
Theorem C46_edge : forall c n L E N H F G m bc ty, partitioned c n L E N H -> agrees c n L E N F m ->
  exists F' e,
  computes n (detect_edge c L E bc ty) (fun r => ES (H r) (F r) (G r)) (fun r => ES (H r) (F r) (F' r)) /\
  agrees c n L E N F' e /\
  forall u, pt_in (c_range c) u -> (e u = true <-> is_edge c bc m ty u).
Proof. exact edge_computes. Qed.
Print Assumptions C46_edge.

(** C46, with the layer of exterior points: the edge is a field on a partition of the larger domain,
    and is right at the exterior points too. *)
Theorem C46_edge_exterior : forall c n L E N H F m bc ty, partitioned c n L E N H -> agrees c n L E N F m ->
  let c' := cart_include_exterior c in
  let L' := fun r => range_include_exterior c (L r) in
  let E' := fun r => range_include_exterior c (E r) in
  exists H' F' e,
  computes n (detect_edge_exterior c n L E bc ty) (fun r => PInfo (I0 (L r, E r) (N r)) (F r)) (fun r => PHalo (H' r, F' r)) /\
  partitioned c' n L' E' N H' /\ agrees c' n L' E' N F' e /\
  forall u, pt_in (c_range c') u -> (e u = true <-> is_edge c bc m ty u).
Proof. exact edge_exterior_computes. Qed.
Print Assumptions C46_edge_exterior.

(** C47. Dilating (amount > 0) or eroding (amount < 0): a point becomes true (false) exactly if it is at
    most |amount| points, with periodic wrap, from a point which is, or from the outside if that is
    taken to be. *)
Theorem C47_dilate_erode : forall c n L E N H F G m bc amount, partitioned c n L E N H -> agrees c n L E N F m ->
  let b := 0 <? amount in
  exists F' G' m',
  computes n (dilate_erode c L E bc amount) (fun r => ES (H r) (F r) (G r)) (fun r => ES (H r) (F' r) (G' r)) /\
  agrees c n L E N F' m' /\
  forall u, pt_in (c_range c) u -> (m' u = b <-> reached c bc m b (Z.abs amount) u).
Proof. exact dilate_computes. Qed.
Print Assumptions C47_dilate_erode.

(** C47, by the two functions: dilating by a positive amount makes the points true that are at most so far from a
    true one, eroding makes the points false that are at most so far from a false one. *)
Theorem C47_dilate : forall c n L E N H F G m bc amount, partitioned c n L E N H -> agrees c n L E N F m -> 0 < amount ->
  exists F' G' m',
  computes n (dilate_mask c L E bc amount) (fun r => ES (H r) (F r) (G r)) (fun r => ES (H r) (F' r) (G' r)) /\
  agrees c n L E N F' m' /\
  forall u, pt_in (c_range c) u -> (m' u = true <-> reached c bc m true amount u).
Proof. exact dilate_positive. Qed.
Print Assumptions C47_dilate.
Theorem C47_erode : forall c n L E N H F G m bc amount, partitioned c n L E N H -> agrees c n L E N F m -> 0 < amount ->
  exists F' G' m',
  computes n (erode_mask c L E bc amount) (fun r => ES (H r) (F r) (G r)) (fun r => ES (H r) (F' r) (G' r)) /\
  agrees c n L E N F' m' /\
  forall u, pt_in (c_range c) u -> (m' u = false <-> reached c bc m false amount u).
Proof. exact erode_positive. Qed.
Print Assumptions C47_erode.

(** C50. The distributed count is the number of points of the domain where the mask is set (halos need
    not be up to date, and points may be stored twice). *)
Theorem C50_count : forall c n L E F m, decomposed c n L -> (forall r, (r < n)%nat -> pt_subset (L r) (E r)) ->
  holds n L E F m ->
  exists pts, NoDup pts /\ (forall p, In p pts <-> pt_in (c_range c) p /\ m p = true) /\
  computes n (count_mask L E) (fun r => CMask (F r)) (fun r => CCount (Z.of_nat (length pts))).
Proof. exact count_computes. Qed.
Print Assumptions C50_count.

(** C51. Filling a range with v: points which have an image in the range become v, all others
    keep their value, and all copies are up to date. *)
Theorem C51_fill : forall (V : Type) c n L E N H (F : nat -> list V) m rng v, partitioned c n L E N H -> holds n L E F m ->
  exists F' m',
  computes n (fill_range c L E rng v) (fun r => (H r, F r)) (fun r => (H r, F' r)) /\
  agrees c n L E N F' m' /\
  forall u, pt_in (c_range c) u ->
    ((exists p, pt_in rng p /\ is_image c p u) -> m' u = v) /\
    (~ (exists p, pt_in rng p /\ is_image c p u) -> m' u = m u).
Proof. exact @fill_computes. Qed.
Print Assumptions C51_fill.

(** C51 does not hold if points are stored twice: on the circle [0,6) whose point 5 is point 0 again,
    filling [0,1) leaves point 5 as it was. *)
Theorem C51_duplicated_refuted : exists c n L E H (F : nat -> list Z) rng v p u ls s,
  decomposed c n L /\ holds n L E F (fun _ => 0) /\
  halo_map c (L 0%nat, E 0%nat) map_empty = Some (H 0%nat) /\
  run (nstep true n (fill_range c L E rng v)) (net0 (fun r => (H r, F r))) ls = Some s /\
  stuck (nstep true n (fill_range c L E rng v)) s /\
  pt_in rng p /\ is_image c p u /\ pt_in (L 0%nat) u /\
  match vread (snd (n_st s 0%nat)) (rindex ColMajor (E 0%nat) u) with Some x => negb (x =? v) | None => false end = true.
Proof. exact fill_duplicated. Qed.
Print Assumptions C51_duplicated_refuted.

(** Example: 6 x 4 points, periodic in x, on 2 x 2 ranks, with partitions made by the library. *)
Definition fx_E (r : nat) : range := extend_local_range ex_c (ex_L r) 1.
Definition fx_part := Eval vm_compute in
  match final 4 (make_partition ex_c 4 (range_decomp ex_guess 2) (range_ratio (fun x => x) 2)) 12 2000
          (fun r => P0 (ex_L r) (fx_E r) ([] : list bool)) with
  | Some s => map (fun r => match n_st s r with PHalo (h, _) => Some h | _ => None end) (seq 0 4)
  | None => []
  end.
Definition fx_H (r : nat) : hmap := match nth_error fx_part r with Some (Some h) => h | _ => HMap [] [] [] [] end.

(** The mask: the point (0,1) only. *)
Definition fx_m (p : tup Z) : bool := teqb p (T3 0 1 0).
Definition fx_F (r : nat) : list bool := field_from ex_c (fx_E r) fx_m.

Definition fx_get (s : list bool) (r : nat) (p : tup Z) : option bool := vread s (rindex ColMajor (fx_E r) p).

Example C46_example :
  (forall r, (r < 4)%nat -> extended_ok ex_c (ex_L r) (fx_E r)) /\
  (exists N H, partitioned ex_c 4 ex_L fx_E N H /\ agrees ex_c 4 ex_L fx_E N fx_F fx_m) /\
  match final 4 (detect_edge ex_c ex_L fx_E BC_FALSE OUTER) 12 2000 (fun r => ES (fx_H r) (fx_F r) []) with
  | Some s => fx_get (e_edge (n_st s 1%nat)) 1 (T3 5 0 0) = Some true /\ fx_get (e_edge (n_st s 0%nat)) 0 (T3 (-1) 2 0) = Some true /\
              fx_get (e_edge (n_st s 0%nat)) 0 (T3 0 1 0) = Some false /\ fx_get (e_edge (n_st s 2%nat)) 2 (T3 2 2 0) = Some false
  | None => False
  end.
Proof.
  assert (X : forall r, (r < 4)%nat -> extended_ok ex_c (ex_L r) (fx_E r)).
  { intros r Hr. apply (extended_ranges_ok ex_c 4 ex_L r 1 ex_decomposed ex_once Hr ltac:(lia)). }
  split; [exact X|]. split; [|vm_compute; repeat split; reflexivity].
  eexists _, _. split; [exact (nb_partitioned ex_c 4 ex_L fx_E ex_decomposed ex_once X)|].
  apply field_from_agrees; [exact ex_decomposed|exact ex_once|]. intros r Hr.
  apply (extended_sub ex_c 4 ex_L _ r ex_decomposed Hr (X r Hr)).
Qed.

(** At distance 2 (across the periodic boundary) but not 3. *)
Example C47_example :
  match final 4 (dilate_mask ex_c ex_L fx_E BC_FALSE 2) 12 4000 (fun r => ES (fx_H r) (fx_F r) []) with
  | Some s => fx_get (e_mask (n_st s 3%nat)) 3 (T3 4 3 0) = Some true /\ fx_get (e_mask (n_st s 3%nat)) 3 (T3 3 3 0) = Some false
  | None => False
  end /\
  match final 4 (dilate_mask ex_c ex_L fx_E BC_FALSE 2 ++ erode_mask ex_c ex_L fx_E BC_TRUE 2) 12 4000 (fun r => ES (fx_H r) (fx_F r) []) with
  | Some s => fx_get (e_mask (n_st s 0%nat)) 0 (T3 0 1 0) = Some true /\ fx_get (e_mask (n_st s 0%nat)) 0 (T3 1 1 0) = Some false
  | None => False
  end /\
  reached ex_c BC_FALSE fx_m true 2 (T3 4 3 0) /\ ~ reached ex_c BC_FALSE fx_m true 2 (T3 3 3 0).
Proof.
  split; [vm_compute; repeat split; reflexivity|]. split; [vm_compute; repeat split; reflexivity|]. split.
  - left. exists (T3 0 1 0), (T3 6 1 0). split; [unfold pt_in; cbn; lia|]. split.
    + intros d Hd. destruct d as [|[|[|d]]]; cbn; (split; [intros; try discriminate; exists 1; lia|intros; try discriminate; reflexivity]).
    + split; [|reflexivity]. intros d Hd. destruct d as [|[|[|d]]]; [vm_compute; congruence|vm_compute; congruence|reflexivity|lia].
  - intros [(v & v' & Hv & I & A & M)|[C _]]; [|discriminate]. unfold fx_m in M. apply teqb_eq in M. subst v.
    destruct (I 0%nat ltac:(lia)) as [I1 _]. destruct (I1 eq_refl) as [k Hk]. cbn in Hk.
    pose proof (A 0%nat ltac:(lia)) as A0. cbn [tget c_nd ex_c Nat.ltb Nat.leb c0] in A0. cbn in Hk. lia.
Qed.

Example C50_example :
  match final 4 (count_mask ex_L fx_E) 4 200 (fun r => CMask (field_from ex_c (fx_E r) (fun p => negb (fx_m p)))) with
  | Some s => n_st s 2%nat = CCount 23
  | None => False
  end.
Proof. vm_compute. reflexivity. Qed.

(** A range across the periodic boundary and beyond the other one: [5,8) x [3,6). *)
Example C51_example :
  match final 4 (fill_range ex_c ex_L fx_E (mkR (T3 5 3 0) (T3 8 6 1)) true) 12 2000 (fun r => (fx_H r, fx_F r)) with
  | Some s => fx_get (snd (n_st s 2%nat)) 2 (T3 1 3 0) = Some true /\ fx_get (snd (n_st s 2%nat)) 2 (T3 2 3 0) = Some false /\
              fx_get (snd (n_st s 2%nat)) 2 (T3 (-1) 3 0) = Some true /\ fx_get (snd (n_st s 0%nat)) 0 (T3 0 1 0) = Some true
  | None => False
  end.
Proof. vm_compute. repeat split; reflexivity. Qed.
