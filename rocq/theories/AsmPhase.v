(** The phases of an assembly, run on all ranks of a grid: their effect on the flags and masks, as
    functions on the domain of the grid. *)
From Coq Require Import List ZArith Bool Lia.
From Verif Require Import TupleModel RangeModel Base RangeProof CartModel CartProof DecompModel DecompProof IndexerModel ArrayModel ArrayProof.
From Verif Require Import ContModel HashModel HashProof ProtoModel ProtoSpec NetModel NetSpec NetPhase LiftModel LiftProof.
From Verif Require Import NeighModel NeighSpec NeighProof HaloModel HaloProof PartModel FieldModel FieldSpec FieldProof EdgeProof ExtProof.
From Verif Require Import AsmModel AsmRep AsmOps AsmSpec AsmFlags AsmGeom.
Import ListNotations.
Local Open Scope Z_scope.

Section Phases.
Variables (c : cart) (n : nat) (L E : nat -> range) (N : nat -> list nat) (H : nat -> hmap).
Hypothesis P : partitioned c n L E N H.
Variables (KO : nat) (v : given) (go : nat -> option pmask).
Notation c' := (cart_include_exterior c).
Notation L' := (fun r => range_include_exterior c (L r)).
Notation E' := (fun r => range_include_exterior c (E r)).
Notation H' := (hm c' L' E' N).
Notation rep := (rep c n L E N H KO).
Notation dom u := (pt_in (c_range c) u).

Lemma rep_conv S g g' : rep S g ->
  (forall k m', g_m g' k = Some m' -> exists m, g_m g k = Some m /\ forall u, dom u -> m u = m' u) ->
  (forall k m', g_x g' k = Some m' -> g_x g k = Some m') ->
  (forall k m', g_z g' k = Some m' -> exists m, g_z g k = Some m /\ forall u, dom u -> m u = m' u) ->
  (forall k m', g_o g' k = Some m' -> g_o g k = Some m') ->
  (g_pool g' = true -> g_pool g = true) ->
  (forall k w, g_cnt g' k = Some w -> g_cnt g k = Some w) -> rep S g'.
Proof.
  intros [R1 R2 R3 R4 R5 R6 R7] X1 X2 X3 X4 X5 X6. split; auto.
  - intros k m' Q. destruct (X1 k m' Q) as (m & Qm & EQ). destruct (R2 k m Qm) as [K A]. split; [exact K|].
    apply (agrees_values c n L E N _ m m' (decomp c n L E N H P) EQ A).
  - intros k m' Q. destruct (X3 k m' Q) as (m & Qm & EQ). destruct (R4 k m Qm) as [K A]. split; [exact K|].
    apply (agrees_values c n L E N _ m m' (decomp c n L E N H P) EQ A).
Qed.

(** What is known between two phases. *)
Definition cenv (fl : ints) (mn out inner recv : option mask) (dist : option ints) : env :=
  Env (fun k => match k with
        | 0 => Some (fun u => active_of (fl u)) | 1 => Some (fun u => domain_boundary_of (fl u))
        | 2 => Some (fun u => internal_boundary_of (fl u)) | 3 => out | 4 => Some (v_occluded v) | 5 => mn | 6 => inner
        | 7 => recv | 11 => Some (v_overlap v) | 12 => Some (v_hole v) | _ => None end)%nat
      (fun _ => None) (fun k => match k with 0 => Some fl | 1 => dist | _ => None end)%nat go false (fun _ => None).

(** The canonical knowledge from the actual one: registers one by one. *)
Lemma rep_canon S g fl mn out inner recv dist fl0 act db ib ov hole occ : rep S g ->
  g_z g Z_FLAGS = Some fl0 -> (forall u, dom u -> fl0 u = fl u) ->
  g_m g R_ACTIVE = Some act -> (forall u, dom u -> act u = active_of (fl u)) ->
  g_m g R_DBND = Some db -> (forall u, dom u -> db u = domain_boundary_of (fl u)) ->
  g_m g R_IBND = Some ib -> (forall u, dom u -> ib u = internal_boundary_of (fl u)) ->
  g_m g R_OVERLAP = Some ov -> (forall u, dom u -> ov u = v_overlap v u) ->
  g_m g R_HOLE = Some hole -> (forall u, dom u -> hole u = v_hole v u) ->
  g_m g R_OCC = Some occ -> (forall u, dom u -> occ u = v_occluded v u) ->
  (forall m, mn = Some m -> exists m0, g_m g R_MIN = Some m0 /\ forall u, dom u -> m0 u = m u) ->
  (forall m, out = Some m -> exists m0, g_m g R_OUTER = Some m0 /\ forall u, dom u -> m0 u = m u) ->
  (forall m, inner = Some m -> exists m0, g_m g R_INNER = Some m0 /\ forall u, dom u -> m0 u = m u) ->
  (forall m, recv = Some m -> exists m0, g_m g R_RECV = Some m0 /\ forall u, dom u -> m0 u = m u) ->
  (forall m, dist = Some m -> exists m0, g_z g Z_DIST = Some m0 /\ forall u, dom u -> m0 u = m u) ->
  (forall k m, go k = Some m -> g_o g k = Some m) ->
  rep S (cenv fl mn out inner recv dist).
Proof.
  intros R Zf Ef Ma Ea Md Ed Mi Ei Mo Eo Mh Eh Mc Ec Xmn Xout Xin Xre Xd Xo. apply (rep_conv S g); auto.
  - intros k m'. do 13 (destruct k as [|k]; [cbn [g_m cenv]; first
      [ discriminate | intros Q; injection Q as <-; eauto | eauto ]|]). discriminate.
  - intros k m'. discriminate.
  - intros k m'. do 2 (destruct k as [|k]; [cbn [g_z cenv]; first [ discriminate | intros Q; injection Q as <-; eauto | eauto ]|]). discriminate.
  - discriminate.
  - intros k w. discriminate.
Qed.

Ltac spec X := match type of X with ?A -> _ => let Y := fresh in assert (Y : A); [|specialize (X Y); clear Y] end.
Ltac bits := repeat match goal with |- context [?a =? ?b] => let r := eval vm_compute in (a =? b) in change (a =? b) with r end; cbn [orb andb].
Ltac known := repeat first [apply Forall2_nil | apply Forall2_cons; [eassumption || reflexivity|]].

(** ** Beginning *)

Lemma init_ok S g fl : rep S g -> g_z g Z_FLAGS = Some fl -> g_m g R_OVERLAP = Some (v_overlap v) -> g_m g R_HOLE = Some (v_hole v) ->
  g_m g R_OCC = Some (v_occluded v) -> g_m g R_MIN = Some (v_minimize v) -> (forall k m, go k = Some m -> g_o g k = Some m) ->
  exists S', prog_ok n (initialize_assembly E) S S' /\
    rep S' (cenv (fun u => reset_flags (fl u)) (Some (v_minimize v)) None None None None).
Proof.
  intros R Hz Ho Hh Hc Hmn Xo. unfold initialize_assembly, generate_masks.
  destruct (int_from_rep c n L E N H P KO S g [] [Z_FLAGS] [] [fl] (fun _ y => reset_flags (arg 0 0 y)) Z_FLAGS R) as (S1 & Q1 & R1);
    [constructor|known|unfold Z_FLAGS, NUM_Z; lia|].
  destruct (mask_from_rep c n L E N H P KO S1 _ [] [Z_FLAGS] [] [fun u => reset_flags (fl u)] (fun _ y => active_of (arg 0 0 y)) R_ACTIVE R1) as (S2 & Q2 & R2);
    [constructor|known|unfold R_ACTIVE, NUM_M; lia|].
  destruct (mask_from_rep c n L E N H P KO S2 _ [] [Z_FLAGS] [] [fun u => reset_flags (fl u)] (fun _ y => domain_boundary_of (arg 0 0 y)) R_DBND R2) as (S3 & Q3 & R3);
    [constructor|known|unfold R_DBND, NUM_M; lia|].
  destruct (mask_from_rep c n L E N H P KO S3 _ [] [Z_FLAGS] [] [fun u => reset_flags (fl u)] (fun _ y => internal_boundary_of (arg 0 0 y)) R_IBND R3) as (S4 & Q4 & R4);
    [constructor|known|unfold R_IBND, NUM_M; lia|].
  exists S4. split.
  - apply (prog_ok_seq n _ _ S S1); [exact Q1|]. apply (prog_ok_seq n _ _ S1 S2); [exact Q2|]. apply (prog_ok_seq n _ _ S2 S3); [exact Q3|exact Q4].
  - apply (rep_canon S4 _ _ _ _ _ _ _ (fun u => reset_flags (fl u)) (fun u => active_of (reset_flags (fl u))) (fun u => domain_boundary_of (reset_flags (fl u)))
      (fun u => internal_boundary_of (reset_flags (fl u))) (v_overlap v) (v_hole v) (v_occluded v) R4); try reflexivity; auto; try discriminate.
    intros m Q. injection Q as <-. eauto.
Qed.

(** Flags that do not bear on the masks. *)
Lemma low_bits (fl fl' : ints) : (forall u k, 0 <= k < 3 -> Z.testbit (fl' u) k = Z.testbit (fl u) k) ->
  forall u, active_of (fl u) = active_of (fl' u) /\ domain_boundary_of (fl u) = domain_boundary_of (fl' u) /\
            internal_boundary_of (fl u) = internal_boundary_of (fl' u).
Proof.
  intros X u. rewrite !active_bit, !domain_bit, !internal_bit. unfold ACTIVE, DOMAIN_BOUNDARY, INTERNAL_BOUNDARY.
  rewrite !X by lia. auto.
Qed.

(** ** Overlap *)

Definition fl_overlapped (fl : ints) : ints := fun u => flag_overlapped (v_overlap v u) (fl u).

Lemma overlap_ok S fl mn : rep S (cenv fl mn None None None None) ->
  exists S', prog_ok n (apply_overlap E) S S' /\ rep S' (cenv (fl_overlapped fl) mn None None None None).
Proof.
  intros R.
  destruct (int_from_rep c n L E N H P KO S _ [R_OVERLAP] [Z_FLAGS] [v_overlap v] [fl] (fun x y => flag_overlapped (arg false 0 x) (arg 0 0 y)) Z_FLAGS R) as (S1 & Q1 & R1);
    [known|known|unfold Z_FLAGS, NUM_Z; lia|].
  assert (X := low_bits fl (fl_overlapped fl)). spec X.
  { intros u k Hk. unfold fl_overlapped. rewrite flag_overlapped_bit by lia. unfold OVERLAPPED. destruct (Z.eqb_spec 3 k); [lia|].
    rewrite andb_false_r, orb_false_r. reflexivity. }
  exists S1. split; [exact Q1|].
  apply (rep_canon S1 _ _ _ _ _ _ _ (fl_overlapped fl) (fun u => active_of (fl u)) (fun u => domain_boundary_of (fl u))
      (fun u => internal_boundary_of (fl u)) (v_overlap v) (v_hole v) (v_occluded v) R1); try reflexivity; auto; try discriminate;
    try (intros u _; apply X). intros m ->. exists m. split; [reflexivity|auto].
Qed.

(** ** Inferring boundaries *)

Definition inf (infer : bool) (fl : ints) : mask := fun u => infer && (
  edgeb c (fun x => active_of (fl x)) BC_FALSE INNER u && negb (domain_boundary_of (fl u)) && forallb (fun m => negb (m u)) (v_overlaps v)).
Definition fl_inferred (infer : bool) (fl : ints) : ints := fun u => flag_inferred (inf infer fl u) (fl u).

Lemma edge_in_mask m bc u : dom u -> edgeb c m bc INNER u = true -> m u = true.
Proof.
  intros Hu Q. unfold edgeb in Q. apply andb_true_iff in Q as [Q _]. rewrite (continued_in c n L E N H P) in Q by exact Hu.
  destruct (m u); [reflexivity|discriminate].
Qed.

Lemma updates_ok f overlaps : forall S g ovs m, rep S g -> g_m g R_TMP1 = None -> FieldSpec.holds n L E (mreg S R_TMP1) m ->
  Forall2 (fun k o => g_o g k = Some o) overlaps ovs ->
  exists S', prog_ok n (concat (map (update_local L E R_TMP1 f) overlaps)) S S' /\ rep S' g /\
    FieldSpec.holds n L E (mreg S' R_TMP1) (fun u => fold_left (fun b o => f b (o u)) ovs (m u)).
Proof.
  induction overlaps as [|o overlaps IH]; intros S g ovs m R Gn A F; inversion F as [|? mo ? ovs' Ho F']; subst.
  - exists S. split; [apply prog_ok_nil|]. split; [exact R|]. intros r Hr. apply A, Hr.
  - destruct (update_local_rep c n L E N H P KO S g R_TMP1 f o m mo R) as (S1 & Q1 & R1 & A1); [unfold R_TMP1, NUM_M; lia|exact A|exact Ho|].
    assert (R1' : rep S1 g).
    { apply (rep_conv S1 _ g R1); auto; intros k m' Q; exists m'; (split; [|reflexivity]); [|exact Q].
      cbn [g_m g_drop_m]. destruct (Nat.eqb_spec k R_TMP1) as [->|]; [congruence|exact Q]. }
    destruct (IH S1 g ovs' (fun u => f (m u) (mo u)) R1' Gn A1 F') as (S2 & Q2 & R2 & A2).
    exists S2. split; [cbn [map concat]; apply (prog_ok_seq n _ _ S S1); assumption|]. split; [exact R2|]. exact A2.
Qed.

Lemma fold_negb (ovs : list mask) u : forall b, fold_left (fun b o => b && negb (o u)) ovs b = b && forallb (fun m => negb (m u)) ovs.
Proof. induction ovs as [|o ovs IH]; intros b; cbn; [rewrite andb_true_r; reflexivity|]. rewrite IH, andb_assoc. reflexivity. Qed.

Lemma infer_ok1 S fl mn overlaps : rep S (cenv fl mn None None None None) -> Forall2 (fun k o => go k = Some o) overlaps (v_overlaps v) ->
  exists S', prog_ok n (infer_boundaries c L E overlaps) S S' /\ rep S' (cenv (fl_inferred true fl) mn None None None None).
Proof.
  intros R F. set (act := fun u => active_of (fl u)). set (db := fun u => domain_boundary_of (fl u)). unfold infer_boundaries.
  destruct (edge_rep c n L E N H P KO S _ R_ACTIVE R_TMP1 INNER BC_FALSE act R) as (S1 & Q1 & R1);
    [reflexivity|discriminate|unfold R_TMP1, NUM_M; lia|].
  destruct (mask_from_rep c n L E N H P KO S1 _ [R_TMP1; R_DBND] [] [edgeb c act BC_FALSE INNER; db] []
      (fun x _ => arg false 0 x && negb (arg false 1 x)) R_TMP1 R1) as (S2 & Q2 & R2); [known|known|unfold R_TMP1, NUM_M; lia|].
  set (m2 := fun u => edgeb c act BC_FALSE INNER u && negb (db u)).
  destruct (r_m _ _ _ _ _ _ _ S2 _ R2 R_TMP1 m2 eq_refl) as [_ A2].
  assert (R2' : rep S2 (cenv fl mn None None None None)).
  { apply (rep_conv S2 _ _ R2); auto.
    intros k m'. do 13 (destruct k as [|k]; [cbn [g_m cenv]; first [discriminate|intros Q; injection Q as <-; eexists; split; [reflexivity|auto]
      |intros ->; eexists; split; [reflexivity|auto]]|]). discriminate.
    intros k m'. do 2 (destruct k as [|k]; [cbn [g_z cenv]; first [discriminate|intros Q; injection Q as <-; eexists; split; [reflexivity|auto]]|]). discriminate. }
  destruct (updates_ok (fun i o => i && negb o) overlaps S2 _ (v_overlaps v) m2 R2' eq_refl (proj1 A2) F) as (S3 & Q3 & R3 & A3).
  destruct (exchange_rep c n L E N H P KO S3 _ R_TMP1 (inf true fl) R3) as (S4 & Q4 & R4); [unfold R_TMP1, NUM_M; lia| |].
  { intros r Hr. destruct (A3 r Hr) as [A4 A5]. split; [exact A4|]. intros p Hp. rewrite (A5 p Hp). f_equal. rewrite fold_negb. reflexivity. }
  destruct (int_from_rep c n L E N H P KO S4 _ [R_TMP1] [Z_FLAGS] [inf true fl] [fl] (fun x y => flag_inferred (arg false 0 x) (arg 0 0 y)) Z_FLAGS R4) as (S5 & Q5 & R5);
    [known|known|unfold Z_FLAGS, NUM_Z; lia|].
  destruct (mask_from_rep c n L E N H P KO S5 _ [R_DBND; R_TMP1] [] [db; inf true fl] [] (fun x _ => arg false 0 x || arg false 1 x) R_DBND R5) as (S6 & Q6 & R6);
    [known|known|unfold R_DBND, NUM_M; lia|].
  exists S6. split.
  - apply (prog_ok_seq n _ _ S S1); [exact Q1|]. apply (prog_ok_seq n _ _ S1 S2); [exact Q2|]. apply (prog_ok_seq n _ _ S2 S3); [exact Q3|].
    apply (prog_ok_seq n _ _ S3 S4); [exact Q4|]. apply (prog_ok_seq n _ _ S4 S5); [exact Q5|exact Q6].
  - assert (B : forall u k, 0 <= k -> Z.testbit (fl_inferred true fl u) k = Z.testbit (fl u) k || (inf true fl u && ((DOMAIN_BOUNDARY =? k) || (INFERRED_DOMAIN_BOUNDARY =? k)))).
    { intros u k Hk. apply flag_inferred_bit, Hk. }
    apply (rep_canon S6 _ _ _ _ _ _ _ (fl_inferred true fl) act (fun u => db u || inf true fl u)
      (fun u => internal_boundary_of (fl u)) (v_overlap v) (v_hole v) (v_occluded v) R6); try reflexivity; auto; try discriminate.
    + intros u Hu. unfold act. rewrite !active_bit, B by discriminate. bits. rewrite andb_false_r, orb_false_r. reflexivity.
    + intros u Hu. unfold db. rewrite !domain_bit, !B by discriminate. bits. rewrite andb_false_r, orb_false_r, andb_true_r.
      destruct (inf true fl u) eqn:Q; [|rewrite !orb_false_r; reflexivity]. unfold inf in Q. cbn [andb] in Q. apply andb_true_iff in Q as [Q _]. apply andb_true_iff in Q as [Q _].
      apply (edge_in_mask _ _ u Hu) in Q. cbn beta in Q. rewrite active_bit in Q.  rewrite Q, !orb_true_r. reflexivity.
    + intros u Hu. rewrite !internal_bit, !B by discriminate. bits. rewrite !andb_false_r, !orb_false_r. reflexivity.
    + intros m ->. exists m. split; [reflexivity|auto].
Qed.

Lemma infer_ok S fl mn (infer : bool) overlaps : rep S (cenv fl mn None None None None) -> Forall2 (fun k o => go k = Some o) overlaps (v_overlaps v) ->
  exists S', prog_ok n (if infer then infer_boundaries c L E overlaps else []) S S' /\ rep S' (cenv (fl_inferred infer fl) mn None None None None).
Proof.
  intros R F. destruct infer; [apply infer_ok1; assumption|]. exists S. split; [apply prog_ok_nil|exact R].
Qed.

(** ** Holes *)

Definition fl_hole (fl : ints) : ints := fun u => flag_hole (v_hole v u) (fl u).

Lemma regenerate_rep S g fl : rep S g -> g_z g Z_FLAGS = Some fl ->
  exists S', (forall r, (r < n)%nat -> regenerate E r (S r) = Some (S' r)) /\
    rep S' (g_set_m R_IBND (fun u => internal_boundary_of (fl u)) (g_set_m R_DBND (fun u => domain_boundary_of (fl u))
             (g_set_m R_ACTIVE (fun u => active_of (fl u)) g))).
Proof.
  intros R Hz.
  destruct (masks_of_rep c n L E N H P KO S g [] [Z_FLAGS] [] [fl] (fun _ y => active_of (arg 0 0 y)) R_ACTIVE R) as (S1 & Q1 & R1);
    [known|known|unfold R_ACTIVE, NUM_M; lia|].
  destruct (masks_of_rep c n L E N H P KO S1 _ [] [Z_FLAGS] [] [fl] (fun _ y => domain_boundary_of (arg 0 0 y)) R_DBND R1) as (S2 & Q2 & R2);
    [known|known|unfold R_DBND, NUM_M; lia|].
  destruct (masks_of_rep c n L E N H P KO S2 _ [] [Z_FLAGS] [] [fl] (fun _ y => internal_boundary_of (arg 0 0 y)) R_IBND R2) as (S3 & Q3 & R3);
    [known|known|unfold R_IBND, NUM_M; lia|].
  exists S3. split; [|exact R3]. intros r Hr. unfold regenerate. rewrite (Q1 r Hr), (Q2 r Hr). apply Q3, Hr.
Qed.

Lemma holes_ok S fl mn : rep S (cenv fl mn None None None None) ->
  exists S', prog_ok n (apply_holes L E) S S' /\ rep S' (cenv (fl_hole fl) mn None None None None).
Proof.
  intros R. unfold apply_holes.
  destruct (count_rep c n L E N H P KO S _ 0%nat R_HOLE (v_hole v) R eq_refl ltac:(lia)) as (S1 & w & Q1 & R1 & Hw & Z0 & _).
  destruct (ints_of_rep c n L E N H P KO S1 _ [R_HOLE] [Z_FLAGS] [v_hole v] [fl] (fun x y => flag_hole (arg false 0 x) (arg 0 0 y)) Z_FLAGS R1) as (S2 & Q2 & R2);
    [known|known|unfold Z_FLAGS, NUM_Z; lia|].
  destruct (regenerate_rep S2 _ (fl_hole fl) R2 eq_refl) as (S3 & Q3 & R3).
  destruct (when1_rep c n L E N H KO S1 _ 0%nat w (fun r s => let! s1 := ints_of E r Z_FLAGS [R_HOLE] [Z_FLAGS] (fun x y => flag_hole (arg false 0 x) (arg 0 0 y)) s in
                      regenerate E r s1) S3 (fun T => rep T (cenv (fl_hole fl) mn None None None None)) R1 eq_refl) as (S4 & Q4 & R4).
  - intros r Hr. rewrite (Q2 r Hr). apply Q3, Hr.
  - intros _. apply (rep_canon S3 _ _ _ _ _ _ _ (fl_hole fl) (fun u => active_of (fl_hole fl u)) (fun u => domain_boundary_of (fl_hole fl u))
      (fun u => internal_boundary_of (fl_hole fl u)) (v_overlap v) (v_hole v) (v_occluded v) R3); try reflexivity; auto; try discriminate.
    intros m ->. exists m. split; [reflexivity|auto].
  - intros W. assert (X : forall u, dom u -> fl u = fl_hole fl u) by (intros u Hu; unfold fl_hole; rewrite (proj1 Z0 W u Hu); reflexivity).
    apply (rep_canon S1 _ _ _ _ _ _ _ fl (fun u => active_of (fl u)) (fun u => domain_boundary_of (fl u))
      (fun u => internal_boundary_of (fl u)) (v_overlap v) (v_hole v) (v_occluded v) R1); try reflexivity; auto; try discriminate;
      try (intros u Hu; rewrite (X u Hu); reflexivity). intros m ->. exists m. split; [reflexivity|auto].
  - exists S4. split; [apply (prog_ok_seq n _ _ S S1); assumption|exact R4].
Qed.

(** ** Outer fringe *)

Definition fl_outer (out : mask) (fl : ints) : ints := fun u => flag_outer (out u) (fl u).
Definition bnd_of (fl : ints) : mask := fun u => domain_boundary_of (fl u) || internal_boundary_of (fl u).

Lemma bnd_active (fl : ints) u : bnd_of fl u = true -> active_of (fl u) = true.
Proof.
  unfold bnd_of. rewrite domain_bit, internal_bit, active_bit. destruct (Z.testbit (fl u) ACTIVE); [reflexivity|]. cbn. congruence.
Qed.

Lemma outer_low fl out u k : 0 <= k < 3 -> Z.testbit (fl_outer out fl u) k = Z.testbit (fl u) k.
Proof.
  intros Hk. unfold fl_outer. rewrite flag_outer_bit by lia. unfold FRINGE, OUTER_FRINGE.
  destruct (Z.eqb_spec 7 k); [lia|]. destruct (Z.eqb_spec 8 k); [lia|]. cbn [orb]. rewrite andb_false_r, orb_false_r. reflexivity.
Qed.

Lemma outer_ok S fl mn fringe : rep S (cenv fl mn None None None None) -> 0 <= fringe ->
  exists S' out, prog_ok n (locate_outer_fringe c n L E fringe) S S' /\ rep S' (cenv (fl_outer out fl) mn (Some out) None None None) /\
    forall u, dom u -> out u = true <->
      active_of (fl u) = true /\ exists q, apart (c_nd c) fringe u q /\ opening c (fun x => active_of (fl x)) (bnd_of fl) q.
Proof.
  intros R Hf. set (act := fun x => active_of (fl x)). unfold locate_outer_fringe.
  destruct (mask_from_rep c n L E N H P KO S _ [] [] [] [] (fun _ _ => false) R_OUTER R) as (S1 & Q1 & R1); [known|known|unfold R_OUTER, NUM_M; lia|].
  set (g1 := g_set_m R_OUTER (fun _ => false) (cenv fl mn None None None None)) in R1.
  change (rep S1 g1) in R1. destruct (Z.eqb_spec fringe 0) as [->|Nz].
  - destruct (count_rep c n L E N H P KO S1 g1 0%nat R_OUTER (fun _ => false) R1 eq_refl ltac:(lia)) as (S2 & w & Q2 & R2 & _).
    exists S2, (fun _ => false). split.
    + apply (prog_ok_seq n _ _ S S1); [exact Q1|]. cbn [app]. rewrite app_nil_r. exact Q2.
    + split.
      * apply (rep_canon S2 _ _ _ _ _ _ _ fl (fun u => active_of (fl u)) (fun u => domain_boundary_of (fl u))
          (fun u => internal_boundary_of (fl u)) (v_overlap v) (v_hole v) (v_occluded v) R2); try reflexivity; auto; try discriminate.
        -- intros m ->. exists m. split; [reflexivity|auto].
        -- intros m Q. injection Q as <-. eexists. split; [reflexivity|auto].
      * intros u Hu. split; [discriminate|]. intros [A (q & Aq & [C _])]. exfalso.
        assert (q = u). { apply tup_ext. intros d Hd. specialize (Aq d Hd). destruct (Nat.ltb d (c_nd c)); lia. } subst q.
        rewrite (continued_in c n L E N H P) in C by exact Hu. unfold act in *. cbn beta in *. congruence.
  - set (bnd := bnd_of fl).
    destruct (mask_from_rep c n L E N H P KO S1 g1 [R_DBND; R_IBND] [] [fun u => domain_boundary_of (fl u); fun u => internal_boundary_of (fl u)] []
      (fun x _ => arg false 0 x || arg false 1 x) R_TMP1 R1) as (S2 & Q2 & R2); [known|known|unfold R_TMP1, NUM_M; lia|].
    destruct (edge_ext_new_rep c n L E N H P KO S2 _ R_TMP1 X_BND OUTER BC_FALSE bnd R2 eq_refl) as (S3 & Q3 & R3); [unfold X_BND, NUM_X; lia|].
    destruct (mask_from_rep c n L E N H P KO S3 _ [R_ACTIVE; R_TMP1] [] [act; bnd] []
      (fun x _ => arg false 0 x && negb (arg false 1 x)) R_TMP2 R3) as (S4 & Q4 & R4); [known|known|unfold R_TMP2, NUM_M; lia|].
    destruct (edge_ext_rep c n L E N H P KO S4 _ R_TMP2 X_NONBND OUTER BC_FALSE (fun x => act x && negb (bnd x)) R4 eq_refl eq_refl) as (S5 & Q5 & R5);
      [unfold X_NONBND, NUM_X; lia|].
    destruct (edge_ext_rep c n L E N H P KO S5 _ R_ACTIVE X_COVER OUTER BC_FALSE act R5 eq_refl eq_refl) as (S6 & Q6 & R6); [unfold X_COVER, NUM_X; lia|].
    destruct (ext_from_rep c n L E N H P KO S6 _ [X_COVER; X_NONBND; X_BND]
      [edgeb c act BC_FALSE OUTER; edgeb c (fun x => act x && negb (bnd x)) BC_FALSE OUTER; edgeb c bnd BC_FALSE OUTER]
      (fun x => arg false 0 x && (arg false 1 x || negb (arg false 2 x))) X_COVER R6) as (S7 & Q7 & R7); [known|unfold X_COVER, NUM_X; lia|].
    destruct (dilate_ext_rep c n L E N H P KO S7 _ X_COVER fringe BC_FALSE (cover c act bnd) R7 eq_refl eq_refl ltac:(lia)) as (S8 & cov & Q8 & R8 & Xc).
    destruct (mask_and_ext_rep c n L E N H P KO S8 _ R_OUTER R_ACTIVE X_COVER (fun a v => a && v) act cov R8 eq_refl eq_refl) as (S9 & Q9 & R9);
      [unfold R_OUTER, NUM_M; lia|].
    set (out := fun u => act u && cov u).
    destruct (count_rep c n L E N H P KO S9 _ 0%nat R_OUTER out R9 eq_refl ltac:(lia)) as (S10 & w & Q10 & R10 & Hw & Z0 & _).
    destruct (ints_of_rep c n L E N H P KO S10 _ [R_OUTER] [Z_FLAGS] [out] [fl] (fun x y => flag_outer (arg false 0 x) (arg 0 0 y)) Z_FLAGS R10) as (S11 & Q11 & R11);
      [known|known|unfold Z_FLAGS, NUM_Z; lia|].
    assert (X := low_bits fl (fl_outer out fl) (fun u k => outer_low fl out u k)).
    destruct (when1_rep c n L E N H KO S10 _ 0%nat w (fun r => ints_of E r Z_FLAGS [R_OUTER] [Z_FLAGS] (fun x y => flag_outer (arg false 0 x) (arg 0 0 y))) S11
      (fun T => rep T (cenv (fl_outer out fl) mn (Some out) None None None)) R10 eq_refl Q11) as (S12 & Q12 & R12).
    + intros _. apply (rep_canon S11 _ _ _ _ _ _ _ (fl_outer out fl) (fun u => active_of (fl u)) (fun u => domain_boundary_of (fl u))
          (fun u => internal_boundary_of (fl u)) (v_overlap v) (v_hole v) (v_occluded v) R11); try reflexivity; auto; try discriminate; try (intros u _; apply X).
      * intros m ->. exists m. split; [reflexivity|auto].
      * intros m Q. injection Q as <-. eexists. split; [reflexivity|auto].
    + intros W. assert (X' : forall u, dom u -> fl u = fl_outer out fl u) by (intros u Hu; unfold fl_outer; rewrite (proj1 Z0 W u Hu); reflexivity).
      apply (rep_canon S10 _ _ _ _ _ _ _ fl (fun u => active_of (fl u)) (fun u => domain_boundary_of (fl u))
          (fun u => internal_boundary_of (fl u)) (v_overlap v) (v_hole v) (v_occluded v) R10); try reflexivity; auto; try discriminate; try (intros u _; apply X).
      * intros m ->. exists m. split; [reflexivity|auto].
      * intros m Q. injection Q as <-. eexists. split; [reflexivity|auto].
    + exists S12, out. split.
      * apply (prog_ok_seq n _ _ S S1); [exact Q1|].
        apply (prog_ok_seq n _ _ S1 S9).
        { apply (prog_ok_seq n _ _ S1 S2); [exact Q2|]. apply (prog_ok_seq n _ _ S2 S3); [exact Q3|]. apply (prog_ok_seq n _ _ S3 S4); [exact Q4|].
          apply (prog_ok_seq n _ _ S4 S5); [exact Q5|]. apply (prog_ok_seq n _ _ S5 S6); [exact Q6|]. apply (prog_ok_seq n _ _ S6 S7); [exact Q7|].
          apply (prog_ok_seq n _ _ S7 S8); [exact Q8|exact Q9]. }
        apply (prog_ok_seq n _ _ S9 S10); [exact Q10|exact Q12].
      * split; [exact R12|]. intros u Hu. unfold out. rewrite andb_true_iff.
        assert (Hu' : pt_in (c_range c') u).
        { apply pt_in_tget. intros d Hd. pose proof (range_dim c u d Hu Hd). destruct (le_lt_dec (c_nd c) d) as [Hn|Hn].
          - destruct (c'_get0 c d Hd Hn) as [-> ->]. destruct (C_dim0 c n L E N H P d Hd Hn) as (R0' & R1' & _). lia.
          - destruct (c'_get c d Hd Hn) as [(_ & -> & ->)|(_ & -> & ->)]; lia. }
        rewrite (Xc u Hu'), (cover_reached c n L E N H P act bnd (fun x _ => bnd_active fl x)). reflexivity.
Qed.

(** ** Occlusion *)

Definition fl_occluded (fl : ints) : ints := fun u => flag_occluded (v_occluded v u) (fl u).

Lemma occlusion_ok S fl mn out : rep S (cenv fl mn (Some out) None None None) ->
  exists S', prog_ok n (apply_occlusion L E) S S' /\ rep S' (cenv (fl_occluded fl) mn (Some out) None None None).
Proof.
  intros R. unfold apply_occlusion.
  destruct (count_rep c n L E N H P KO S _ 0%nat R_OCC (v_occluded v) R eq_refl ltac:(lia)) as (S1 & w & Q1 & R1 & Hw & Z0 & _).
  destruct (ints_of_rep c n L E N H P KO S1 _ [R_OCC] [Z_FLAGS] [v_occluded v] [fl] (fun x y => flag_occluded (arg false 0 x) (arg 0 0 y)) Z_FLAGS R1) as (S2 & Q2 & R2);
    [known|known|unfold Z_FLAGS, NUM_Z; lia|].
  assert (X := low_bits fl (fl_occluded fl)). spec X.
  { intros u k Hk. unfold fl_occluded. rewrite flag_occluded_bit by lia. unfold OCCLUDED. destruct (Z.eqb_spec 6 k); [lia|].
    rewrite andb_false_r, orb_false_r. reflexivity. }
  destruct (when1_rep c n L E N H KO S1 _ 0%nat w (fun r => ints_of E r Z_FLAGS [R_OCC] [Z_FLAGS] (fun x y => flag_occluded (arg false 0 x) (arg 0 0 y))) S2
    (fun T => rep T (cenv (fl_occluded fl) mn (Some out) None None None)) R1 eq_refl Q2) as (S4 & Q4 & R4).
  - intros _. apply (rep_canon S2 _ _ _ _ _ _ _ (fl_occluded fl) (fun u => active_of (fl u)) (fun u => domain_boundary_of (fl u))
      (fun u => internal_boundary_of (fl u)) (v_overlap v) (v_hole v) (v_occluded v) R2); try reflexivity; auto; try discriminate; try (intros u _; apply X);
      [intros m ->; exists m; split; [reflexivity|auto]|intros m Q; injection Q as <-; eexists; split; [reflexivity|auto]].
  - intros W. assert (X' : forall u, dom u -> fl u = fl_occluded fl u) by (intros u Hu; unfold fl_occluded; rewrite (proj1 Z0 W u Hu); reflexivity).
    apply (rep_canon S1 _ _ _ _ _ _ _ fl (fun u => active_of (fl u)) (fun u => domain_boundary_of (fl u))
      (fun u => internal_boundary_of (fl u)) (v_overlap v) (v_hole v) (v_occluded v) R1); try reflexivity; auto; try discriminate; try (intros u _; apply X);
      [intros m ->; exists m; split; [reflexivity|auto]|intros m Q; injection Q as <-; eexists; split; [reflexivity|auto]].
  - exists S4. split; [apply (prog_ok_seq n _ _ S S1); assumption|exact R4].
Qed.

(** ** Minimizing overlap *)

Definition fl_minimized (mn inner : mask) (fl : ints) : ints := fun u => flag_minimized (mn u) (inner u) (fl u).

Lemma minimized_active fl mn inner u : active_of (fl_minimized mn inner fl u) = active_of (fl u) && negb (mn u).
Proof.
  rewrite !active_bit. unfold fl_minimized. rewrite flag_minimized_bit by discriminate. bits. rewrite !andb_false_r, !orb_false_r, andb_true_r. reflexivity.
Qed.

Lemma minimize_masks_ok S fl out fringe : rep S (cenv fl (Some (v_minimize v)) (Some out) None None None) -> 0 <= fringe ->
  exists S' mn inner, prog_ok n (minimize_masks c L E fringe) S S' /\ rep S' (cenv fl (Some mn) (Some out) (Some inner) None None) /\
    forall u, dom u ->
      (0 < fringe -> (mn u = true <-> v_minimize v u = true /\ active_of (fl u) = true /\
         forall x, dom x -> within c fringe u x -> v_occluded v x = true \/ active_of (fl x) = false)) /\
      (fringe = 0 -> mn u = v_minimize v u) /\
      (inner u = true <-> active_of (fl u) = true /\ mn u = false /\ exists x, dom x /\ within c fringe u x /\ mn x = true).
Proof.
  intros R Hf. unfold minimize_masks. set (act := fun x => active_of (fl x)).
  destruct (mask_from_rep c n L E N H P KO S _ [] [] [] [] (fun _ _ => false) R_INNER R) as (S1 & Q1 & R1); [known|known|unfold R_INNER, NUM_M; lia|].
  destruct (Z.ltb_spec 0 fringe) as [Hp|Hp].
  - destruct (mask_from_rep c n L E N H P KO S1 _ [R_OCC; R_ACTIVE] [] [v_occluded v; act] []
      (fun x _ => arg false 0 x || negb (arg false 1 x)) R_TMP1 R1) as (S2 & Q2 & R2); [known|known|unfold R_TMP1, NUM_M; lia|].
    destruct (erode_rep c n L E N H P KO S2 _ R_TMP1 fringe BC_TRUE (fun u => v_occluded v u || negb (act u)) R2 eq_refl Hf) as (S3 & er & Q3 & R3 & X3).
    destruct (mask_from_rep c n L E N H P KO S3 _ [R_MIN; R_TMP1; R_ACTIVE] [] [v_minimize v; er; act] []
      (fun x _ => arg false 0 x && (arg false 1 x && arg false 2 x)) R_MIN R3) as (S4 & Q4 & R4); [known|known|unfold R_MIN, NUM_M; lia|].
    set (mn := fun u => v_minimize v u && (er u && act u)).
    destruct (mask_from_rep c n L E N H P KO S4 _ [R_MIN] [] [mn] [] (fun x _ => arg false 0 x) R_INNER R4) as (S5 & Q5 & R5); [known|known|unfold R_INNER, NUM_M; lia|].
    destruct (dilate_rep c n L E N H P KO S5 _ R_INNER fringe BC_FALSE mn R5 eq_refl Hp) as (S6 & di & Q6 & R6 & X6).
    destruct (mask_from_rep c n L E N H P KO S6 _ [R_INNER; R_ACTIVE; R_MIN] [] [di; act; mn] []
      (fun x _ => arg false 0 x && (arg false 1 x && negb (arg false 2 x))) R_INNER R6) as (S7 & Q7 & R7); [known|known|unfold R_INNER, NUM_M; lia|].
    set (inner := fun u => di u && (act u && negb (mn u))).
    exists S7, mn, inner. split.
    { apply (prog_ok_seq n _ _ S S1); [exact Q1|]. apply (prog_ok_seq n _ _ S1 S2); [exact Q2|]. apply (prog_ok_seq n _ _ S2 S3); [exact Q3|].
      apply (prog_ok_seq n _ _ S3 S4); [exact Q4|]. apply (prog_ok_seq n _ _ S4 S5); [exact Q5|]. apply (prog_ok_seq n _ _ S5 S6); [exact Q6|exact Q7]. }
    split.
    { apply (rep_canon S7 _ _ _ _ _ _ _ fl (fun u => active_of (fl u)) (fun u => domain_boundary_of (fl u))
        (fun u => internal_boundary_of (fl u)) (v_overlap v) (v_hole v) (v_occluded v) R7); try reflexivity; auto; try discriminate;
        intros m Q; injection Q as <-; eexists; (split; [reflexivity|auto]). }
    intros u Hu. split; [|split; [lia|]].
    + intros _. unfold mn. rewrite !andb_true_iff. specialize (X3 u Hu).
      assert (XE : er u = true <-> forall x, dom x -> within c fringe u x -> v_occluded v x = true \/ act x = false).
      { split.
        - intros Q x Hx W. destruct (v_occluded v x) eqn:O; [auto|]. destruct (act x) eqn:A; [|auto]. exfalso.
          assert (er u = false); [|congruence]. apply X3. apply (reached_within c BC_TRUE _ false); [reflexivity|]. exists x. rewrite O, A. auto.
        - intros Q. destruct (er u) eqn:Q'; [reflexivity|]. exfalso. pose proof (proj1 X3 eq_refl) as Q''.
          apply (reached_within c BC_TRUE _ false) in Q'' as (x & Hx & W & M); [|reflexivity].
          destruct (Q x Hx W) as [O|A]; [rewrite O in M|rewrite A, orb_true_r in M]; discriminate. }
      rewrite XE. split; [intros (A & B & C); auto|intros (A & B & C); auto].
    + unfold inner. rewrite !andb_true_iff, negb_true_iff, (X6 u Hu), (reached_within c BC_FALSE _ true) by reflexivity.
      split; [intros (A & B & C); auto|intros (A & B & C); auto].
  - assert (fringe = 0) by lia. subst fringe. exists S1, (v_minimize v), (fun _ => false). split; [rewrite app_nil_r; exact Q1|]. split.
    { apply (rep_canon S1 _ _ _ _ _ _ _ fl (fun u => active_of (fl u)) (fun u => domain_boundary_of (fl u))
        (fun u => internal_boundary_of (fl u)) (v_overlap v) (v_hole v) (v_occluded v) R1); try reflexivity; auto; try discriminate;
        intros m Q; injection Q as <-; eexists; (split; [reflexivity|auto]). }
    intros u Hu. split; [lia|]. split; [reflexivity|]. split; [discriminate|]. intros (_ & A & x & Hx & W & M).
    apply (within_zero c n L E N H P u x Hu Hx) in W. congruence.
Qed.

Lemma minimize_ok S fl out fringe : rep S (cenv fl (Some (v_minimize v)) (Some out) None None None) -> 0 <= fringe ->
  (forall u, dom u -> out u = true -> active_of (fl u) = true) ->
  exists S' mn inner, prog_ok n (minimize_overlap c L E fringe) S S' /\
    rep S' (cenv (fl_minimized mn inner fl) (Some mn) (Some (fun u => out u && negb (mn u))) (Some inner) None None) /\
    forall u, dom u ->
      (0 < fringe -> (mn u = true <-> v_minimize v u = true /\ active_of (fl u) = true /\
         forall x, dom x -> within c fringe u x -> v_occluded v x = true \/ active_of (fl x) = false)) /\
      (fringe = 0 -> mn u = v_minimize v u) /\
      (inner u = true <-> active_of (fl u) = true /\ mn u = false /\ exists x, dom x /\ within c fringe u x /\ mn x = true).
Proof.
  intros R Hf Oa. destruct (minimize_masks_ok S fl out fringe R Hf) as (S1 & mn & inner & Q1 & R1 & X). unfold minimize_overlap.
  destruct (count_rep c n L E N H P KO S1 _ 0%nat R_MIN mn R1 eq_refl ltac:(lia)) as (S2 & w1 & Q2 & R2 & _ & Z1 & _).
  destruct (count_rep c n L E N H P KO S2 _ 1%nat R_INNER inner R2 eq_refl ltac:(lia)) as (S3 & w2 & Q3 & R3 & _ & Z2 & _).
  set (g3 := g_set_cnt 1 w2 (g_set_cnt 0 w1 (cenv fl (Some mn) (Some out) (Some inner) None None))) in R3.
  change (rep S3 g3) in R3. set (fl' := fl_minimized mn inner fl).
  destruct (ints_of_rep c n L E N H P KO S3 g3 [R_MIN; R_INNER] [Z_FLAGS] [mn; inner] [fl]
    (fun x y => flag_minimized (arg false 0 x) (arg false 1 x) (arg 0 0 y)) Z_FLAGS R3) as (S4 & Q4 & R4); [known|known|unfold Z_FLAGS, NUM_Z; lia|].
  destruct (when2_rep c n L E N H KO S3 g3 0%nat 1%nat w1 w2 (fun r => ints_of E r Z_FLAGS [R_MIN; R_INNER] [Z_FLAGS]
                        (fun x y => flag_minimized (arg false 0 x) (arg false 1 x) (arg 0 0 y))) S4
     (fun T => rep T (g_set_z Z_FLAGS fl' g3)) R3 eq_refl eq_refl Q4) as (S5 & Q5 & R5).
  { intros _. exact R4. }
  { intros W1 W2. apply (rep_conv S3 g3 _ R3); auto; try (intros k m Qm; exists m; auto; fail).
    intros k m. cbn [g_z g_set_z]. unfold upd. destruct (Nat.eqb_spec k Z_FLAGS) as [->|].
    - intros Q. injection Q as <-. exists fl. split; [reflexivity|]. intros u Hu. unfold fl', fl_minimized.
      rewrite (proj1 Z1 W1 u Hu), (proj1 Z2 W2 u Hu). reflexivity.
    - intros Q. exists m. split; [exact Q|auto]. }
  destruct (regenerate_rep S5 _ fl' R5 eq_refl) as (S6 & Q6 & R6).
  destruct (masks_of_rep c n L E N H P KO S6 _ [R_OUTER] [Z_FLAGS] [out] [fl'] (fun x y => arg false 0 x && has_any (arg 0 0 y) F_ACTIVE) R_OUTER R6) as (S7 & Q7 & R7);
    [known|known|unfold R_OUTER, NUM_M; lia|].
  destruct (when1_rep c n L E N H KO S5 _ 0%nat w1 (fun r s =>
    let! s1 := regenerate E r s in
    masks_of E r R_OUTER [R_OUTER] [Z_FLAGS] (fun x y => arg false 0 x && has_any (arg 0 0 y) F_ACTIVE) s1) S7
    (fun T => rep T (cenv fl' (Some mn) (Some (fun u => out u && negb (mn u))) (Some inner) None None)) R5 eq_refl) as (S8 & Q8 & R8).
  - intros r Hr. rewrite (Q6 r Hr). apply Q7, Hr.
  - intros _. apply (rep_canon S7 _ _ _ _ _ _ _ fl' (fun u => active_of (fl' u)) (fun u => domain_boundary_of (fl' u))
        (fun u => internal_boundary_of (fl' u)) (v_overlap v) (v_hole v) (v_occluded v) R7); try reflexivity; auto; try discriminate;
        intros m Q; injection Q as <-; eexists; (split; [reflexivity|]); auto.
    intros u Hu. cbn. change (out u && active_of (fl' u) = out u && negb (mn u)). unfold fl'. rewrite minimized_active.
    destruct (out u) eqn:Qo; [|reflexivity]. rewrite (Oa u Hu Qo). reflexivity.
  - intros W. pose proof (proj1 Z1 W) as M0.
    assert (XB : forall u, dom u -> active_of (fl u) = active_of (fl' u) /\ domain_boundary_of (fl u) = domain_boundary_of (fl' u) /\
            internal_boundary_of (fl u) = internal_boundary_of (fl' u)).
    { intros u Hu. rewrite !domain_bit, !internal_bit, !active_bit. unfold fl', fl_minimized. rewrite !flag_minimized_bit, (M0 u Hu) by discriminate. bits.
      cbn [negb]. rewrite !andb_false_r, !orb_false_r, !andb_true_r. auto. }
    apply (rep_canon S5 _ _ _ _ _ _ _ fl' (fun u => active_of (fl u)) (fun u => domain_boundary_of (fl u))
        (fun u => internal_boundary_of (fl u)) (v_overlap v) (v_hole v) (v_occluded v) R5); try reflexivity; auto; try discriminate; try (intros u Hu; apply (XB u Hu));
        intros m Q; injection Q as <-; eexists; (split; [reflexivity|]); auto.
    intros u Hu. cbn beta. rewrite (M0 u Hu), andb_true_r. reflexivity.
  - exists S8, mn, inner. split; [|split; [exact R8|exact X]].
    apply (prog_ok_seq n _ _ S S1); [exact Q1|]. apply (prog_ok_seq n _ _ S1 S2); [exact Q2|]. apply (prog_ok_seq n _ _ S2 S3); [exact Q3|].
    apply (prog_ok_seq n _ _ S3 S5); [exact Q5|exact Q8].
Qed.

(** ** Receivers *)

Lemma receivers_ok S fl mn out inner : rep S (cenv fl (Some mn) (Some out) (Some inner) None None) ->
  exists S', prog_ok n (locate_receivers E) S S' /\
    rep S' (cenv fl (Some mn) (Some out) (Some inner) (Some (fun u => out u || inner u || (v_occluded v u && active_of (fl u)))) None).
Proof.
  intros R.
  destruct (mask_from_rep c n L E N H P KO S _ [R_OUTER; R_INNER; R_OCC; R_ACTIVE] [] [out; inner; v_occluded v; fun u => active_of (fl u)] []
    (fun x _ => arg false 0 x || arg false 1 x || (arg false 2 x && arg false 3 x)) R_RECV R) as (S1 & Q1 & R1); [known|known|unfold R_RECV, NUM_M; lia|].
  exists S1. split; [exact Q1|].
  apply (rep_canon S1 _ _ _ _ _ _ _ fl (fun u => active_of (fl u)) (fun u => domain_boundary_of (fl u))
        (fun u => internal_boundary_of (fl u)) (v_overlap v) (v_hole v) (v_occluded v) R1); try reflexivity; auto; try discriminate;
        intros m Q; injection Q as <-; eexists; (split; [reflexivity|auto]).
Qed.

(** The value at a point after the rounds below j. *)
Definition measured (max : Z) (recv e : mask) (j : Z) (dist : ints) : Prop := forall u, dom u ->
  (dist u = max /\ forall i, 0 <= i < j -> ~ reached c BC_FALSE e true i u) \/
  (exists i, 0 <= i < j /\ reached c BC_FALSE e true i u /\ (forall i', 0 <= i' < i -> ~ reached c BC_FALSE e true i' u) /\
             dist u = if recv u then - i else i).

Lemma rounds_ok max recv e g0 k : 1 <= max -> g_m g0 R_RECV = Some recv -> forall j S m dist, 0 <= j -> j + Z.of_nat k = max ->
  rep S (g_set_m R_TMP1 m (g_set_z Z_DIST dist g0)) ->
  (forall i u, 0 <= i -> dom u -> reached c BC_FALSE m true i u <-> reached c BC_FALSE e true (j + i) u) -> measured max recv e j dist ->
  exists S' m' dist', prog_ok n (concat (map (distance_round c L E max) (zseq j k))) S S' /\
    rep S' (g_set_m R_TMP1 m' (g_set_z Z_DIST dist' g0)) /\ measured max recv e max dist'.
Proof.
  intros Hmax Hrecv. induction k as [|k IH]; intros j S m dist Hj Hk R Xm Xd.
  - exists S, m, dist. split; [apply prog_ok_nil|]. split; [exact R|]. assert (j = max) by lia. subst j. exact Xd.
  - destruct (int_from_rep c n L E N H P KO S _ [R_TMP1; R_RECV] [Z_DIST] [m; recv] [dist]
      (fun x y => if (arg 0 0 y =? max) && arg false 0 x then (if arg false 1 x then - j else j) else arg 0 0 y) Z_DIST R) as (S1 & Q1 & R1);
      [known|known|unfold Z_DIST, NUM_Z; lia|].
    set (dist1 := fun u => if (dist u =? max) && m u then (if recv u then - j else j) else dist u).
    destruct (dilate_rep c n L E N H P KO S1 _ R_TMP1 1 BC_FALSE m R1 eq_refl ltac:(lia)) as (S2 & m2 & Q2 & R2 & X2).
    destruct (IH (j + 1) S2 m2 dist1) as (S3 & m3 & dist3 & Q3 & R3 & X3); [lia|lia| | | |].
    + apply (rep_conv S2 _ _ R2); auto; intros k' m' Q; exists m'; (split; [|reflexivity]); revert Q; cbn [g_m g_z g_set_m g_set_z]; unfold upd;
        [destruct (Nat.eqb_spec k' R_TMP1)|destruct (Nat.eqb_spec k' Z_DIST)]; auto.
    + intros i u Hi Hu. rewrite (reached_step c n L E N H P BC_FALSE true m m2 i u Hi X2 Hu). rewrite Xm by (lia || exact Hu).
      replace (j + (i + 1)) with (j + 1 + i) by lia. reflexivity.
    + intros u Hu. unfold dist1.
      assert (X0 : m u = true <-> reached c BC_FALSE e true j u).
      { rewrite <- (reached_zero c n L E N H P BC_FALSE true m u Hu), Xm, Z.add_0_r by (lia || exact Hu). reflexivity. }
      destruct (Xd u Hu) as [[D0 Nr]|(i & Hi & Ri & Fi & Di)].
      * rewrite D0, Z.eqb_refl. cbn [andb]. destruct (m u) eqn:Mu.
        -- right. exists j. split; [lia|]. split; [apply X0, eq_refl|]. split; [exact Nr|reflexivity].
        -- left. split; [reflexivity|]. intros i Hi Ri. destruct (Z.eq_dec i j) as [->|]; [|apply (Nr i); [lia|exact Ri]].
           apply X0 in Ri. discriminate.
      * right. exists i. split; [lia|]. split; [exact Ri|]. split; [exact Fi|].
        destruct (Z.eqb_spec (dist u) max) as [C|_]; [|exact Di]. exfalso. destruct (recv u); lia.
    + exists S3, m3, dist3. split; [|split; [exact R3|exact X3]]. cbn [zseq map concat]. apply (prog_ok_seq n _ _ S S2); [|exact Q3].
      apply (prog_ok_seq n _ _ S S1); assumption.
Qed.

Lemma distances_ok S fl mn out inner recv max : rep S (cenv fl (Some mn) (Some out) (Some inner) (Some recv) None) -> 1 <= max ->
  exists S' dist, prog_ok n (receiver_distances c L E max) S S' /\
    rep S' (cenv fl (Some mn) (Some out) (Some inner) (Some recv) (Some dist)) /\ measured max recv (edgeb c recv BC_FALSE INNER) max dist.
Proof.
  intros R Hmax. unfold receiver_distances. set (g0 := cenv fl (Some mn) (Some out) (Some inner) (Some recv) None) in R.
  destruct (int_from_rep c n L E N H P KO S g0 [] [] [] [] (fun _ _ => max) Z_DIST R) as (S1 & Q1 & R1); [known|known|unfold Z_DIST, NUM_Z; lia|].
  destruct (edge_rep c n L E N H P KO S1 _ R_RECV R_TMP1 INNER BC_FALSE recv R1 eq_refl) as (S2 & Q2 & R2); [discriminate|unfold R_TMP1, NUM_M; lia|].
  destruct (rounds_ok max recv (edgeb c recv BC_FALSE INNER) g0 (Z.to_nat max) Hmax eq_refl 0 S2 (edgeb c recv BC_FALSE INNER) (fun _ => max))
    as (S3 & m3 & dist & Q3 & R3 & X3); [lia|lia|exact R2| | |].
  - intros i u _ _. reflexivity.
  - intros u Hu. left. split; [reflexivity|lia].
  - exists S3, dist. split.
    { apply (prog_ok_seq n _ _ S S1); [exact Q1|]. apply (prog_ok_seq n _ _ S1 S2); [exact Q2|exact Q3]. }
    split; [|exact X3].
    apply (rep_canon S3 _ _ _ _ _ _ _ fl (fun u => active_of (fl u)) (fun u => domain_boundary_of (fl u))
        (fun u => internal_boundary_of (fl u)) (v_overlap v) (v_hole v) (v_occluded v) R3); try reflexivity; auto; try discriminate;
        intros m Q; injection Q as <-; eexists; (split; [reflexivity|auto]).
Qed.

Definition fl_receiver (recv : mask) (fl : ints) : ints := fun u => flag_receiver (recv u) (recv u && v_no_donor v u) (fl u).

Lemma flag_receivers_ok S fl mn out inner recv dist o : rep S (cenv fl (Some mn) (Some out) (Some inner) (Some recv) (Some dist)) ->
  go o = Some (v_no_donor v) ->
  exists S', prog_ok n (flag_receivers L E o) S S' /\
    rep S' (cenv (fl_receiver recv fl) (Some mn) (Some out) (Some inner) (Some recv) (Some dist)).
Proof.
  intros R Ho. unfold flag_receivers.
  destruct (count_rep c n L E N H P KO S _ 0%nat R_RECV recv R eq_refl ltac:(lia)) as (S1 & w1 & Q1 & R1 & _ & Z1 & _).
  destruct (orphan_local_rep c n L E N H P KO S1 _ o recv (v_no_donor v) R1 eq_refl Ho) as (S2 & Q2 & R2 & A2).
  destruct (exchange_rep c n L E N H P KO S2 _ R_ORPHAN (fun u => recv u && v_no_donor v u) R2) as (S3 & Q3 & R3); [unfold R_ORPHAN, NUM_M; lia|exact A2|].
  destruct (count_rep c n L E N H P KO S3 _ 1%nat R_ORPHAN (fun u => recv u && v_no_donor v u) R3 eq_refl ltac:(lia)) as (S4 & w2 & Q4 & R4 & _ & Z2 & _).
  destruct (ints_of_rep c n L E N H P KO S4 _ [R_RECV; R_ORPHAN] [Z_FLAGS] [recv; fun u => recv u && v_no_donor v u] [fl]
    (fun x y => flag_receiver (arg false 0 x) (arg false 1 x) (arg 0 0 y)) Z_FLAGS R4) as (S5 & Q5 & R5); [known|known|unfold Z_FLAGS, NUM_Z; lia|].
  assert (X := low_bits fl (fl_receiver recv fl)). spec X.
  { intros u k Hk. unfold fl_receiver. rewrite flag_receiver_bit by lia. unfold RECEIVER, ORPHAN. destruct (Z.eqb_spec 11 k); [lia|].
    destruct (Z.eqb_spec 12 k); [lia|]. rewrite !andb_false_r, !orb_false_r. reflexivity. }
  destruct (when2_rep c n L E N H KO S4 _ 0%nat 1%nat w1 w2 (fun r => ints_of E r Z_FLAGS [R_RECV; R_ORPHAN] [Z_FLAGS]
                        (fun x y => flag_receiver (arg false 0 x) (arg false 1 x) (arg 0 0 y))) S5
     (fun T => rep T (cenv (fl_receiver recv fl) (Some mn) (Some out) (Some inner) (Some recv) (Some dist))) R4 eq_refl eq_refl Q5) as (S6 & Q6 & R6).
  - intros _. apply (rep_canon S5 _ _ _ _ _ _ _ (fl_receiver recv fl) (fun u => active_of (fl u)) (fun u => domain_boundary_of (fl u))
        (fun u => internal_boundary_of (fl u)) (v_overlap v) (v_hole v) (v_occluded v) R5); try reflexivity; auto; try discriminate; try (intros u _; apply X);
        intros m Q; injection Q as <-; eexists; (split; [reflexivity|auto]).
  - intros W1 W2. apply (rep_canon S4 _ _ _ _ _ _ _ fl (fun u => active_of (fl u)) (fun u => domain_boundary_of (fl u))
        (fun u => internal_boundary_of (fl u)) (v_overlap v) (v_hole v) (v_occluded v) R4); try reflexivity; auto; try discriminate; try (intros u _; apply X);
        try (intros m Q; injection Q as <-; eexists; (split; [reflexivity|auto])).
    intros u Hu. unfold fl_receiver. pose proof (proj1 Z2 W2 u Hu) as Z2'. cbn beta in Z2'. rewrite Z2', (proj1 Z1 W1 u Hu). reflexivity.
  - exists S6. split; [|exact R6]. apply (prog_ok_seq n _ _ S S1); [exact Q1|]. apply (prog_ok_seq n _ _ S1 S2); [exact Q2|].
    apply (prog_ok_seq n _ _ S2 S3); [exact Q3|]. apply (prog_ok_seq n _ _ S3 S4); [exact Q4|exact Q6].
Qed.
End Phases.
