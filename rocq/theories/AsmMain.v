(** The properties of assemblies, and states in which they can start. *)
From Coq Require Import List ZArith Bool Lia.
From Verif Require Import TupleModel RangeModel Base RangeProof CartModel CartProof DecompModel DecompProof IndexerModel ArrayModel ArrayProof.
From Verif Require Import ContModel HashModel ProtoModel ProtoSpec NetModel NetSpec NetProof LiftModel NeighModel NeighSpec NeighProof HaloModel HaloProof PartModel.
From Verif Require Import FieldModel FieldSpec FieldProof FieldLaws EdgeProof ExtProof AsmModel AsmRep AsmSpec AsmGeom AsmProof AsmLaws.
Import ListNotations.
Local Open Scope Z_scope.

(** ** States *)

(** For all flags and all that is given there is a state to start in. *)
Definition ast_from (c : cart) (L E : nat -> range) (N : nat -> list nat) (H : nat -> hmap) (fl : tup Z -> Z) (v : given) (r : nat) : ast :=
  let f := field_from c (E r) (fun _ => false) in
  AS (H r) (N r) None [] (PInfo (I0 (L r, E r) (N r)) []) [CMask []; CMask []]
    [f; f; f; f; field_from c (E r) (v_occluded v); field_from c (E r) (v_minimize v); f; f; f; f; f;
     field_from c (E r) (v_overlap v); field_from c (E r) (v_hole v)]
    [[]; []; []] [field_from c (E r) fl; []]
    (field_from c (L r) (v_no_donor v) :: map (fun m : pmask => field_from c (L r) m) (v_overlaps v)).

Lemma field_from_length {V} c e (m : tup Z -> V) : Z.of_nat (length (field_from c e m)) = rcount e.
Proof. unfold field_from. rewrite map_length. pose proof (foreach_col_length e). assert (0 <= rcount e) by (unfold rcount, rsize1; nia). lia. Qed.

Lemma loaded_from c n L E N H fl v : partitioned c n L E N H ->
  loaded c n L E N H (1 + length (v_overlaps v)) (seq 1 (length (v_overlaps v))) 0 (ast_from c L E N H fl v) fl v.
Proof.
  intros P. pose proof P as (D & SO & X & _).
  assert (Hs : forall r, (r < n)%nat -> pt_subset (L r) (E r)) by (intros r Hr; apply (extended_sub c n L (E r) r D Hr (X r Hr))).
  assert (A : forall V (m : tup Z -> V), agrees c n L E N (fun r => field_from c (E r) m) m) by (intros V m; apply field_from_agrees; assumption).
  assert (B : forall m : tup Z -> bool, FieldSpec.holds n L L (fun r => field_from c (L r) m) m).
  { intros m. apply (field_from_agrees c n L L N m D SO). intros r Hr p Hp. exact Hp. }
  split; [|split; [|split; [|split; [|split; [|split; [|split; [|split; [|split]]]]]]]]; try (apply A; fail); try (apply B; fail).
  - intros r Hr. cbn [a_map a_ranks a_m a_x a_z a_o a_cnt ast_from length]. rewrite map_length.
    repeat (split; [reflexivity|]). intros k Hk. unfold mfield, NUM_M in *. cbn [a_m ast_from].
    do 13 (destruct k as [|k]; [cbn [nth]; apply field_from_length|]). lia.
  - constructor; [intros C; apply in_seq in C; lia|apply seq_NoDup].
  - intros k [<-|Hk]; [lia|apply in_seq in Hk; lia].
  - assert (G : forall (ms pre : list pmask) r, nth (length pre) (map (fun m : pmask => field_from c (L r) m) (pre ++ ms)) ([] : list bool) = nth 0 (map (fun m : pmask => field_from c (L r) m) ms) []).
    { intros ms pre r. rewrite map_app, app_nth2; rewrite map_length; [rewrite Nat.sub_diag; reflexivity|lia]. }
    assert (Y : forall ms pre : list pmask, v_overlaps v = pre ++ ms ->
      Forall2 (fun k m => FieldSpec.holds n L L (ofield (ast_from c L E N H fl v) k) m) (seq (1 + length pre) (length ms)) ms).
    { induction ms as [|m ms IH]; intros pre Q; cbn [length seq]; constructor.
      - replace (ofield (ast_from c L E N H fl v) (1 + length pre)) with (ofield (ast_from c L E N H fl v) (S (length pre))) by reflexivity.
        intros r Hr. unfold ofield. cbn [a_o ast_from nth]. rewrite Q, G. cbn [map nth]. apply (B m r Hr).
      - specialize (IH (pre ++ [m])). rewrite <- app_assoc in IH. cbn [app] in IH. specialize (IH Q).
        rewrite app_length in IH. cbn [length] in IH. replace (1 + (length pre + 1))%nat with (S (1 + length pre))%nat in IH by lia. exact IH. }
    apply (Y (v_overlaps v) [] eq_refl).
Qed.

Theorem loaded_exists c n L E N H fl v : partitioned c n L E N H -> exists ko overlaps o S, loaded c n L E N H ko overlaps o S fl v.
Proof. intros P. eexists _, _, _, _. exact (loaded_from c n L E N H fl v P). Qed.

(** ** Properties *)

Section Main.
Variables (c : cart) (n : nat) (L E : nat -> range) (N : nat -> list nat) (H : nat -> hmap) (ko : nat).
Variables (infer : bool) (overlaps : list nat) (fringe max : Z) (o : nat).
Hypothesis P : partitioned c n L E N H.
Hypothesis Hf : 0 <= fringe.
Hypothesis Hmax : 1 <= max.
Notation dom u := (pt_in (c_range c) u).

Lemma assemble_outcome S fl v : loaded c n L E N H ko overlaps o S fl v ->
  exists fl' dist, assembles c n L E N infer overlaps fringe max o S fl' dist /\ outcome c infer fringe fl v fl' max dist.
Proof.
  intros LD. destruct (assemble_ok c n L E N H P ko infer overlaps fringe max o S fl v LD Hf Hmax) as (S' & fl' & dist & Q & A1 & A2 & O).
  exists fl', dist. split; [|exact O]. exists S'. split; [apply prog_computes, Q|]. auto.
Qed.

Lemma assembles_values S fl1 d1 fl2 d2 : assembles c n L E N infer overlaps fringe max o S fl1 d1 ->
  (forall u, dom u -> fl1 u = fl2 u /\ d1 u = d2 u) -> assembles c n L E N infer overlaps fringe max o S fl2 d2.
Proof.
  intros (S' & C & A1 & A2) X. exists S'. split; [exact C|]. pose proof P as (D & _).
  split; [apply (agrees_values c n L E N _ fl1 fl2 D); [apply X|exact A1]|apply (agrees_values c n L E N _ d1 d2 D); [apply X|exact A2]].
Qed.
End Main.

(** The result does not depend on the decomposition. *)
Theorem assembly_decomposition c n1 L1 E1 N1 H1 ko1 overlaps1 o1 S1 n2 L2 E2 N2 H2 ko2 overlaps2 o2 S2 infer fringe max fl v :
  partitioned c n1 L1 E1 N1 H1 -> partitioned c n2 L2 E2 N2 H2 ->
  loaded c n1 L1 E1 N1 H1 ko1 overlaps1 o1 S1 fl v -> loaded c n2 L2 E2 N2 H2 ko2 overlaps2 o2 S2 fl v -> 0 <= fringe -> 1 <= max ->
  exists fl' dist, assembles c n1 L1 E1 N1 infer overlaps1 fringe max o1 S1 fl' dist /\
                   assembles c n2 L2 E2 N2 infer overlaps2 fringe max o2 S2 fl' dist.
Proof.
  intros P1 P2 LD1 LD2 Hf Hm.
  destruct (assemble_outcome c n1 L1 E1 N1 H1 ko1 infer overlaps1 fringe max o1 P1 Hf Hm S1 fl v LD1) as (f1 & d1 & A1 & Oc1).
  destruct (assemble_outcome c n2 L2 E2 N2 H2 ko2 infer overlaps2 fringe max o2 P2 Hf Hm S2 fl v LD2) as (f2 & d2 & A2 & Oc2).
  exists f1, d1. split; [exact A1|]. apply (assembles_values c n2 L2 E2 N2 H2 infer overlaps2 fringe max o2 P2 S2 f2 d2 f1 d1 A2).
  intros u Hu. split; [apply (same_flags c infer fringe max v fl fl f2 f1 d2 d1)|apply (same_distance c infer fringe max v fl fl f2 f1 d2 d1)]; auto.
Qed.

(** Assembling the result again changes nothing. *)
Theorem assembly_again c n L E N H ko overlaps o S infer fringe max fl v :
  partitioned c n L E N H -> loaded c n L E N H ko overlaps o S fl v -> 0 <= fringe -> 1 <= max ->
  (forall u, pt_in (c_range c) u -> v_hole v u = true \/ v_minimize v u = true -> was_active fl u = true) ->
  exists fl' dist, assembles c n L E N infer overlaps fringe max o S fl' dist /\
    forall S2, loaded c n L E N H ko overlaps o S2 fl' v -> assembles c n L E N infer overlaps fringe max o S2 fl' dist.
Proof.
  intros P LD Hf Hm X.
  destruct (assemble_outcome c n L E N H ko infer overlaps fringe max o P Hf Hm S fl v LD) as (f1 & d1 & A1 & O1).
  exists f1, d1. split; [exact A1|]. intros S2 LD2.
  destruct (assemble_outcome c n L E N H ko infer overlaps fringe max o P Hf Hm S2 f1 v LD2) as (f2 & d2 & A2 & O2).
  apply (assembles_values c n L E N H infer overlaps fringe max o P S2 f2 d2 f1 d1 A2). intros u Hu.
  apply (again c infer fringe max v fl f1 d1 O1 Hf); auto.
Qed.

Section Results.
Variables (c : cart) (n : nat) (L E : nat -> range) (N : nat -> list nat) (H : nat -> hmap) (ko : nat).
Variables (infer : bool) (overlaps : list nat) (fringe max : Z) (o : nat) (S : nat -> ast) (fl : tup Z -> Z) (v : given).
Hypothesis P : partitioned c n L E N H.
Hypothesis LD : loaded c n L E N H ko overlaps o S fl v.
Hypothesis Hf : 0 <= fringe.
Hypothesis Hmax : 1 <= max.
Notation dom u := (pt_in (c_range c) u).

Theorem assembly_flags : exists fl' dist, assembles c n L E N infer overlaps fringe max o S fl' dist /\
  others_kept c fl fl' /\ given_flags c v fl' /\ boundaries_inferred c infer fl v fl'.
Proof.
  destruct (assemble_outcome c n L E N H ko infer overlaps fringe max o P Hf Hmax S fl v LD) as (f1 & d1 & A1 & O1).
  exists f1, d1. destruct O1 as (K & G & B & _). auto.
Qed.

Theorem assembly_alone : infer = true ->
  (forall u, dom u -> Forall (fun m => m u = false) (v_overlaps v) /\ v_hole v u = false /\ v_occluded v u = false /\ v_minimize v u = false) ->
  exists fl' dist, assembles c n L E N infer overlaps fringe max o S fl' dist /\
  forall u, dom u -> flag RECEIVER fl' u = false /\ flag ORPHAN fl' u = false /\ flag FRINGE fl' u = false /\ flag ACTIVE fl' u = was_active fl u.
Proof.
  intros I X. destruct (assemble_outcome c n L E N H ko infer overlaps fringe max o P Hf Hmax S fl v LD) as (f1 & d1 & A1 & O1).
  exists f1, d1. split; [exact A1|]. apply (alone c n L E N H P infer fringe max v fl f1 d1 O1 Hf I X).
Qed.

Theorem assembly_outer : exists fl' dist, assembles c n L E N infer overlaps fringe max o S fl' dist /\ outer_fringe c fringe fl v fl'.
Proof.
  destruct (assemble_outcome c n L E N H ko infer overlaps fringe max o P Hf Hmax S fl v LD) as (f1 & d1 & A1 & O1).
  exists f1, d1. destruct O1 as (_ & _ & _ & F & _). auto.
Qed.

Theorem assembly_interior : exists fl' dist, assembles c n L E N infer overlaps fringe max o S fl' dist /\
  forall u, dom u -> flag ACTIVE fl' u = true -> flag RECEIVER fl' u = false ->
  (forall x, dom x -> within c fringe u x -> flag OVERLAP_MINIMIZED fl' x = false) /\
  (forall q w, apart (c_nd c) fringe u q -> continued c BC_FALSE (flag ACTIVE fl') q = false -> apart (c_nd c) 1 q w ->
     continued c BC_FALSE (fun x => flag ACTIVE fl' x && negb (boundary fl' x)) w = false).
Proof.
  destruct (assemble_outcome c n L E N H ko infer overlaps fringe max o P Hf Hmax S fl v LD) as (f1 & d1 & A1 & O1).
  exists f1, d1. split; [exact A1|]. apply (interior c n L E N H P infer fringe max v fl f1 d1 O1 Hf).
Qed.

Theorem assembly_minimized : exists fl' dist, assembles c n L E N infer overlaps fringe max o S fl' dist /\ overlap_minimized c fringe fl v fl' /\
  forall u, dom u -> flag INNER_FRINGE fl' u = true -> flag FRINGE fl' u = true /\ flag OCCLUDED fl' u = true.
Proof.
  destruct (assemble_outcome c n L E N H ko infer overlaps fringe max o P Hf Hmax S fl v LD) as (f1 & d1 & A1 & O1).
  exists f1, d1. split; [exact A1|]. split; [apply O1|]. intros u Hu Q.
  destruct (inner_active c n L E N H P infer fringe max v fl f1 d1 O1 Hf u Hu Q) as (_ & B & C & _). auto.
Qed.

Theorem assembly_receivers : (forall u, dom u -> v_minimize v u = true -> v_occluded v u = true) ->
  exists fl' dist, assembles c n L E N infer overlaps fringe max o S fl' dist /\ receivers c v fl' /\
  forall u, dom u ->
    (flag ORPHAN fl' u = true -> flag RECEIVER fl' u = true) /\ (flag RECEIVER fl' u = true -> flag ACTIVE fl' u = true) /\
    (flag OUTER_FRINGE fl' u = true \/ flag INNER_FRINGE fl' u = true -> flag RECEIVER fl' u = true /\ flag FRINGE fl' u = true) /\
    (flag BOUNDARY_HOLE fl' u = true -> flag ACTIVE fl' u = false) /\
    (flag OVERLAP_MINIMIZED fl' u = true -> flag ACTIVE fl' u = false /\ flag OCCLUDED fl' u = true).
Proof.
  intros X. destruct (assemble_outcome c n L E N H ko infer overlaps fringe max o P Hf Hmax S fl v LD) as (f1 & d1 & A1 & O1).
  exists f1, d1. split; [exact A1|]. split; [apply O1|]. intros u Hu.
  split; [apply (orphan_receiver c infer fringe max v fl f1 d1 O1 u Hu)|].
  split; [apply (receiver_active c infer fringe max v fl f1 d1 O1 u Hu)|]. split.
  - pose proof O1 as (_ & _ & _ & _ & _ & R & _). destruct (R u Hu) as [-> _]. intros [Q|Q].
    + destruct (outer_active c infer fringe max v fl f1 d1 O1 u Hu Q) as [-> B]. rewrite Q. auto.
    + destruct (inner_active c n L E N H P infer fringe max v fl f1 d1 O1 Hf u Hu Q) as (-> & B & _). rewrite Q, orb_true_r. auto.
  - split; [apply (hole_inactive c infer fringe max v fl f1 d1 O1 u Hu)|]. intros Q.
    split; [apply (minimized_inactive c infer fringe max v fl f1 d1 O1 u Hu Q)|].
    apply (minimized_occluded c infer fringe max v fl f1 d1 O1 Hf u Hu (X u Hu) Q).
Qed.

Theorem assembly_distances : exists fl' dist, assembles c n L E N infer overlaps fringe max o S fl' dist /\ distances c fl' max dist.
Proof.
  destruct (assemble_outcome c n L E N H ko infer overlaps fringe max o P Hf Hmax S fl v LD) as (f1 & d1 & A1 & O1).
  exists f1, d1. split; [exact A1|apply O1].
Qed.
End Results.
