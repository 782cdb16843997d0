(** Operations on distributed fields: statements for all executions. *)
From Coq Require Import List ZArith QArith_base Bool Lia.
From Verif Require Import TupleModel RangeModel Base RangeProof CartModel CartProof DecompModel DecompProof IndexerModel ArrayModel.
From Verif Require Import ContModel HashModel HashSpec ProtoModel ProtoSpec NetModel NetSpec NetProof DHashModel DDecompProof.
From Verif Require Import NeighModel NeighSpec NeighProof HaloModel HaloProof PartModel HaloEx PartProof FieldModel FieldSpec FieldProof EdgeProof ExtProof.
Import ListNotations.
Local Open Scope Z_scope.

Theorem partition_computes {V : Type} c n L E (F : nat -> list V) guess rnd :
  decomposed c n L -> stored_once c -> (forall r, (r < n)%nat -> extended_ok c (L r) (E r)) ->
  (forall l m, 1 <= m -> guess l m <= m) -> rounding rnd -> (rnd 1 == 1)%Q ->
  exists N H,
  computes n (make_partition c n (range_decomp guess (c_nd c)) (range_ratio rnd (c_nd c)))
    (fun r => P0 (L r) (E r) (F r)) (fun r => PHalo (H r, F r)) /\
  partitioned c n L E N H.
Proof.
  intros D SO X G HR R1. exists (nb c n L), (hm c L E (nb c n L)).
  split; [apply prog_computes, make_partition_ok; auto|apply nb_partitioned; auto].
Qed.

Theorem extended_ranges_ok c n L r a : decomposed c n L -> stored_once c -> (r < n)%nat -> 1 <= a ->
  extended_ok c (L r) (extend_local_range c (L r) a) /\ extended_ok c (L r) (grid_extended c (L r)).
Proof.
  intros D SO Hr Ha. split; [|apply (grid_extended_ok c n); auto]. apply extend_extended_ok; auto. apply (L_within c n L D r Hr).
Qed.

Theorem edge_computes c n L E N H F G m bc ty : partitioned c n L E N H -> agrees c n L E N F m ->
  exists F' e,
  computes n (detect_edge c L E bc ty) (fun r => ES (H r) (F r) (G r)) (fun r => ES (H r) (F r) (F' r)) /\
  agrees c n L E N F' e /\
  forall u, pt_in (c_range c) u -> (e u = true <-> is_edge c bc m ty u).
Proof.
  intros P Hm. destruct (detect_edge_ok c n L E N H P F m Hm bc ty G) as (F' & Q & A). exists F', (edgeb c m bc ty).
  split; [apply prog_computes, Q|]. split; [exact A|]. intros u Hu. apply edgeb_spec. intros d Hd.
  pose proof P as ((_ & _ & _ & HD & _) & _). destruct (HD d Hd). pose proof (proj1 (pt_in_tget _ _) Hu d ltac:(lia)). lia.
Qed.

Theorem edge_exterior_computes c n L E N H F m bc ty : partitioned c n L E N H -> agrees c n L E N F m ->
  let c' := cart_include_exterior c in
  let L' := fun r => range_include_exterior c (L r) in
  let E' := fun r => range_include_exterior c (E r) in
  exists H' F' e,
  computes n (detect_edge_exterior c n L E bc ty) (fun r => PInfo (I0 (L r, E r) (N r)) (F r)) (fun r => PHalo (H' r, F' r)) /\
  partitioned c' n L' E' N H' /\ agrees c' n L' E' N F' e /\
  forall u, pt_in (c_range c') u -> (e u = true <-> is_edge c bc m ty u).
Proof.
  intros P Hm c' L' E'. destruct (detect_edge_exterior_ok c n L E N H P F m Hm bc ty) as (F' & Q & A).
  exists (hm c' L' E' N), F', (edgeb c m bc ty). split; [apply prog_computes, Q|].
  split; [apply (exterior_partitioned c n L E N H P)|]. split; [exact A|]. intros u Hu. apply edgeb_spec. intros d Hd.
  pose proof (proj1 (pt_in_tget _ _) Hu d ltac:(lia)) as B. unfold c' in B.
  destruct (c'_get0 c d ltac:(lia) ltac:(lia)). lia.
Qed.

Theorem dilate_computes c n L E N H F G m bc amount : partitioned c n L E N H -> agrees c n L E N F m ->
  let b := 0 <? amount in
  exists F' G' m',
  computes n (dilate_erode c L E bc amount) (fun r => ES (H r) (F r) (G r)) (fun r => ES (H r) (F' r) (G' r)) /\
  agrees c n L E N F' m' /\
  forall u, pt_in (c_range c) u -> (m' u = b <-> reached c bc m b (Z.abs amount) u).
Proof.
  intros P Hm b. destruct (dilate_erode_ok c n L E N H bc amount F m G P Hm) as (F1 & G1 & m1 & Q & A & R).
  exists F1, G1, m1. split; [apply prog_computes, Q|]. auto.
Qed.

Theorem dilate_positive c n L E N H F G m bc amount : partitioned c n L E N H -> agrees c n L E N F m -> 0 < amount ->
  exists F' G' m',
  computes n (dilate_mask c L E bc amount) (fun r => ES (H r) (F r) (G r)) (fun r => ES (H r) (F' r) (G' r)) /\
  agrees c n L E N F' m' /\
  forall u, pt_in (c_range c) u -> (m' u = true <-> reached c bc m true amount u).
Proof.
  intros P A Ha. destruct (dilate_computes c n L E N H F G m bc amount P A) as (F' & G' & m' & H1 & H2 & H3). exists F', G', m'.
  split; [exact H1|]. split; [exact H2|]. intros u Hu. specialize (H3 u Hu). rewrite (proj2 (Z.ltb_lt 0 amount) Ha), Z.abs_eq in H3 by lia. exact H3.
Qed.
Theorem erode_positive c n L E N H F G m bc amount : partitioned c n L E N H -> agrees c n L E N F m -> 0 < amount ->
  exists F' G' m',
  computes n (erode_mask c L E bc amount) (fun r => ES (H r) (F r) (G r)) (fun r => ES (H r) (F' r) (G' r)) /\
  agrees c n L E N F' m' /\
  forall u, pt_in (c_range c) u -> (m' u = false <-> reached c bc m false amount u).
Proof.
  intros P A Ha. destruct (dilate_computes c n L E N H F G m bc (- amount) P A) as (F' & G' & m' & H1 & H2 & H3). exists F', G', m'.
  split; [exact H1|]. split; [exact H2|]. intros u Hu. specialize (H3 u Hu).
  replace (0 <? - amount) with false in H3 by (symmetry; apply Z.ltb_ge; lia). rewrite Z.abs_opp, Z.abs_eq in H3 by lia. exact H3.
Qed.

Theorem count_computes c n L E F m : decomposed c n L -> (forall r, (r < n)%nat -> pt_subset (L r) (E r)) ->
  holds n L E F m ->
  exists pts, NoDup pts /\ (forall p, In p pts <-> pt_in (c_range c) p /\ m p = true) /\
  computes n (count_mask L E) (fun r => CMask (F r)) (fun r => CCount (Z.of_nat (length pts))).
Proof.
  intros D X Hm. destruct (count_ok c n L E F m D X Hm) as (pts & N & I & Q). exists pts. split; [exact N|]. split; [exact I|].
  apply prog_computes, Q.
Qed.

Theorem fill_computes {V : Type} c n L E N H (F : nat -> list V) m rng v : partitioned c n L E N H -> holds n L E F m ->
  exists F' m',
  computes n (fill_range c L E rng v) (fun r => (H r, F r)) (fun r => (H r, F' r)) /\
  agrees c n L E N F' m' /\
  forall u, pt_in (c_range c) u ->
    ((exists p, pt_in rng p /\ is_image c p u) -> m' u = v) /\
    (~ (exists p, pt_in rng p /\ is_image c p u) -> m' u = m u).
Proof.
  intros P Hm. destruct (fill_ok c n L E N H P F m rng v Hm) as (F' & Q & A). exists F', (fun u => if filled c rng u then v else m u).
  split; [apply prog_computes, Q|]. split; [exact A|]. intros u Hu. pose proof (filled_spec c n L E N H P rng u Hu) as S.
  destruct (filled c rng u); split; intros X; auto.
  - exfalso. apply X, S. reflexivity.
  - apply S in X. discriminate.
Qed.

Definition dup_L (r : nat) : range := c_range (ex_circle DUPLICATED).
Theorem fill_duplicated : exists c n L E H (F : nat -> list Z) rng v p u ls s,
  decomposed c n L /\ holds n L E F (fun _ => 0) /\
  halo_map c (L 0%nat, E 0%nat) map_empty = Some (H 0%nat) /\
  run (nstep true n (fill_range c L E rng v)) (net0 (fun r => (H r, F r))) ls = Some s /\
  stuck (nstep true n (fill_range c L E rng v)) s /\
  pt_in rng p /\ is_image c p u /\ pt_in (L 0%nat) u /\
  match vread (snd (n_st s 0%nat)) (rindex ColMajor (E 0%nat) u) with Some x => negb (x =? v) | None => false end = true.
Proof.
  destruct (stuck_run 1 (fill_range (ex_circle DUPLICATED) dup_L dup_L (mkR (T3 0 0 0) (T3 1 1 1)) 7) 4 100
    (fun r => (HMap [] [] [] [], [0;0;0;0;0;0]))
    (fun s => match vread (snd (n_st s 0%nat)) (rindex ColMajor (dup_L 0%nat) (T3 5 0 0)) with Some x => negb (x =? 7) | None => false end))
    as (ls & s & H1 & H2 & H3).
  { vm_compute. reflexivity. }
  exists (ex_circle DUPLICATED), 1%nat, dup_L, dup_L, (fun _ => HMap [] [] [] []), (fun _ => [0;0;0;0;0;0]), (mkR (T3 0 0 0) (T3 1 1 1)), 7, (T3 0 0 0), (T3 5 0 0), ls, s.
  split; [|split; [|split; [vm_compute; reflexivity|split; [exact H1|split; [exact H2|split; [|split; [|split; [|exact H3]]]]]]]].
  - split; [cbn; lia|]. split; [lia|]. split; [intros d Hd; destruct d as [|[|[|d]]]; cbn; lia|].
    split; [intros d Hd; cbn in Hd; destruct d as [|[|[|d]]]; cbn; lia|].
    split; [intros d Hd; cbn in Hd; destruct d as [|[|[|d]]]; cbn; try lia; reflexivity|]. split.
    + split; [|split].
      * intros i s' Hi p Hp. destruct i as [|i]; [cbn in Hi; injection Hi as <-; exact Hp|]. destruct i; discriminate.
      * intros p Hp. exists 0%nat, (dup_L 0). split; [reflexivity|exact Hp].
      * intros i j a b p Ha Hb _ _. destruct i as [|i]; [|destruct i; discriminate]. destruct j as [|j]; [reflexivity|destruct j; discriminate].
    + intros r Hr. reflexivity.
  - intros r Hr. split; [reflexivity|]. intros p Hp.
    assert (Z0 : forall i, 0 <= i < 6 -> vread [0;0;0;0;0;0] i = Some 0).
    { intros i Hi. assert (i = 0 \/ i = 1 \/ i = 2 \/ i = 3 \/ i = 4 \/ i = 5) as X by lia.
      repeat (destruct X as [X|X]; [rewrite X; reflexivity|]); rewrite X; reflexivity. }
    apply Z0. pose proof (HashProof.rindex_bounds ColMajor (dup_L r) p Hp) as B. exact B.
  - unfold pt_in; cbn; lia.
  - intros d Hd. destruct d as [|[|[|d]]]; cbn; (split; [intros; try discriminate; exists 1; lia|intros; try discriminate; reflexivity]).
  - unfold pt_in; cbn; lia.
Qed.
