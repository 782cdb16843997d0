(** The state flags bit by bit. *)
From Coq Require Import List ZArith Bool Lia.
From Verif Require Import AsmModel AsmSpec.
Import ListNotations.
Local Open Scope Z_scope.

Lemma bit1 j k : 0 <= j -> Z.testbit (Z.shiftl 1 j) k = (j =? k).
Proof. intros Hj. rewrite Z.shiftl_1_l. apply Z.pow2_bits_eqb, Hj. Qed.

Lemma has_any_or f a b : has_any f (f_or a b) = has_any f a || has_any f b.
Proof.
  unfold has_any, f_and, f_or. rewrite Z.land_lor_distr_r.
  destruct (Z.eqb_spec (Z.lor (Z.land f a) (Z.land f b)) 0) as [Q|Q].
  - apply Z.lor_eq_0_iff in Q as [-> ->]. reflexivity.
  - destruct (Z.eqb_spec (Z.land f a) 0) as [Qa|]; [|reflexivity]. destruct (Z.eqb_spec (Z.land f b) 0) as [Qb|]; [|reflexivity].
    rewrite Qa, Qb in Q. exfalso. apply Q. reflexivity.
Qed.

Lemma land_bit f j : 0 <= j -> Z.land f (Z.shiftl 1 j) = if Z.testbit f j then Z.shiftl 1 j else 0.
Proof.
  intros Hj. apply Z.bits_inj'. intros k Hk. rewrite Z.land_spec, bit1 by exact Hj.
  destruct (Z.eqb_spec j k) as [->|Nk].
  - destruct (Z.testbit f k); [rewrite bit1, Z.eqb_refl by exact Hj; reflexivity|rewrite Z.bits_0; reflexivity].
  - rewrite andb_false_r. destruct (Z.testbit f j); [|rewrite Z.bits_0; reflexivity].
    rewrite bit1 by exact Hj. symmetry. apply Z.eqb_neq, Nk.
Qed.

Lemma bit_nz j : 0 <= j -> Z.shiftl 1 j <> 0.
Proof. intros Hj Q. pose proof (bit1 j j Hj) as B. rewrite Q, Z.bits_0, Z.eqb_refl in B. discriminate. Qed.

Lemma has_any_bit f j : 0 <= j -> has_any f (Z.shiftl 1 j) = Z.testbit f j.
Proof.
  intros Hj. unfold has_any, f_and. rewrite land_bit by exact Hj. destruct (Z.testbit f j); [|reflexivity].
  pose proof (bit_nz j Hj) as Nz. apply Z.eqb_neq in Nz. rewrite Nz. reflexivity.
Qed.

Lemma has_all_bits f i j : 0 <= i -> 0 <= j -> i <> j ->
  has_all f (f_or (Z.shiftl 1 i) (Z.shiftl 1 j)) = Z.testbit f i && Z.testbit f j.
Proof.
  intros Hi Hj Nij. unfold has_all, f_and, f_or. rewrite Z.land_lor_distr_r, !land_bit by assumption.
  apply Bool.eq_iff_eq_true. rewrite Z.eqb_eq, andb_true_iff. split.
  - intros Q. pose proof (f_equal (fun z => Z.testbit z i) Q) as Qi. pose proof (f_equal (fun z => Z.testbit z j) Q) as Qj. cbv beta in Qi, Qj.
    rewrite !Z.lor_spec, !bit1, Z.eqb_refl in Qi by assumption. rewrite !Z.lor_spec, !bit1, Z.eqb_refl in Qj by assumption.
    assert (Eij : (i =? j) = false) by (apply Z.eqb_neq; congruence). assert (Eji : (j =? i) = false) by (apply Z.eqb_neq; congruence).
    destruct (Z.testbit f i) eqn:Fi, (Z.testbit f j) eqn:Fj; auto; exfalso;
      rewrite ?bit1, ?Z.bits_0, ?Eij, ?Eji in Qi by assumption; rewrite ?bit1, ?Z.bits_0, ?Eij, ?Eji in Qj by assumption;
      cbn in Qi, Qj; discriminate.
  - intros [-> ->]. reflexivity.
Qed.

Lemma active_bit f : active_of f = Z.testbit f ACTIVE.
Proof. apply has_any_bit. discriminate. Qed.
Lemma domain_bit f : domain_boundary_of f = Z.testbit f ACTIVE && Z.testbit f DOMAIN_BOUNDARY.
Proof. apply has_all_bits; discriminate. Qed.
Lemma internal_bit f : internal_boundary_of f = Z.testbit f ACTIVE && Z.testbit f INTERNAL_BOUNDARY.
Proof. apply has_all_bits; discriminate. Qed.

(** ** The effect of each phase on the bits *)

Ltac bits := repeat (rewrite Z.lor_spec || rewrite Z.land_spec || (rewrite Z.lnot_spec by lia) || (rewrite bit1 by discriminate)).

Lemma flag_overlapped_bit b f k : 0 <= k -> Z.testbit (flag_overlapped b f) k = Z.testbit f k || (b && (OVERLAPPED =? k)).
Proof. intros Hk. unfold flag_overlapped, f_or, F_OVERLAPPED. destruct b; [bits; reflexivity|rewrite orb_false_r; reflexivity]. Qed.
Lemma flag_inferred_bit b f k : 0 <= k ->
  Z.testbit (flag_inferred b f) k = Z.testbit f k || (b && ((DOMAIN_BOUNDARY =? k) || (INFERRED_DOMAIN_BOUNDARY =? k))).
Proof. intros Hk. unfold flag_inferred, f_or, F_DOMAIN_BOUNDARY, F_INFERRED. destruct b; [bits; reflexivity|rewrite orb_false_r; reflexivity]. Qed.
Lemma flag_hole_bit b f k : 0 <= k ->
  Z.testbit (flag_hole b f) k = (Z.testbit f k && negb (b && (ACTIVE =? k))) || (b && (BOUNDARY_HOLE =? k)).
Proof.
  intros Hk. unfold flag_hole, f_or, f_and, f_not, F_ACTIVE, F_BOUNDARY_HOLE. destruct b; [bits; reflexivity|].
  cbn. rewrite orb_false_r, andb_true_r. reflexivity.
Qed.
Lemma flag_outer_bit b f k : 0 <= k -> Z.testbit (flag_outer b f) k = Z.testbit f k || (b && ((FRINGE =? k) || (OUTER_FRINGE =? k))).
Proof. intros Hk. unfold flag_outer, f_or, F_FRINGE, F_OUTER_FRINGE. destruct b; [bits; reflexivity|rewrite orb_false_r; reflexivity]. Qed.
Lemma flag_occluded_bit b f k : 0 <= k -> Z.testbit (flag_occluded b f) k = Z.testbit f k || (b && (OCCLUDED =? k)).
Proof. intros Hk. unfold flag_occluded, f_or, F_OCCLUDED. destruct b; [bits; reflexivity|rewrite orb_false_r; reflexivity]. Qed.
Lemma flag_minimized_bit b i f k : 0 <= k ->
  Z.testbit (flag_minimized b i f) k =
    (Z.testbit f k && negb (b && ((ACTIVE =? k) || (OUTER_FRINGE =? k)))) || (b && (OVERLAP_MINIMIZED =? k)) ||
    (negb b && i && ((FRINGE =? k) || (INNER_FRINGE =? k))).
Proof.
  intros Hk. unfold flag_minimized, f_or, f_and, f_not, F_ACTIVE, F_OUTER_FRINGE, F_MINIMIZED, F_FRINGE, F_INNER_FRINGE.
  destruct b; [bits; cbn [negb andb]; rewrite orb_false_r; reflexivity|].
  cbn [negb andb]. rewrite andb_true_r, orb_false_r. destruct i; [bits; reflexivity|rewrite orb_false_r; reflexivity].
Qed.
Lemma flag_receiver_bit b o f k : 0 <= k ->
  Z.testbit (flag_receiver b o f) k = Z.testbit f k || (b && (RECEIVER =? k)) || (o && (ORPHAN =? k)).
Proof.
  intros Hk. unfold flag_receiver, f_or, F_RECEIVER, F_ORPHAN.
  destruct b, o; bits; cbn [andb]; rewrite ?orb_false_r; reflexivity.
Qed.

Lemma reset_bit f k : 0 <= k -> Z.testbit (reset_flags f) k =
  if k =? ACTIVE then Z.testbit f ACTIVE || Z.testbit f BOUNDARY_HOLE || Z.testbit f OVERLAP_MINIMIZED
  else if k =? DOMAIN_BOUNDARY then Z.testbit f DOMAIN_BOUNDARY && negb (Z.testbit f INFERRED_DOMAIN_BOUNDARY)
  else if k =? INTERNAL_BOUNDARY then Z.testbit f INTERNAL_BOUNDARY
  else if ORPHAN <? k then Z.testbit f k else false.
Proof.
  intros Hk. unfold reset_flags.
  assert (A : has_any f (f_or F_BOUNDARY_HOLE F_MINIMIZED) = Z.testbit f BOUNDARY_HOLE || Z.testbit f OVERLAP_MINIMIZED).
  { rewrite has_any_or. unfold F_BOUNDARY_HOLE, F_MINIMIZED. rewrite !has_any_bit by discriminate. reflexivity. }
  rewrite A. set (f1 := if _ : bool then f_or f F_ACTIVE else f).
  assert (B1 : forall j, 0 <= j -> Z.testbit f1 j = Z.testbit f j || ((Z.testbit f BOUNDARY_HOLE || Z.testbit f OVERLAP_MINIMIZED) && (ACTIVE =? j))).
  { intros j Hj. unfold f1, f_or, F_ACTIVE. destruct (Z.testbit f BOUNDARY_HOLE || Z.testbit f OVERLAP_MINIMIZED); [bits; reflexivity|].
    rewrite orb_false_r. reflexivity. }
  unfold F_INFERRED. rewrite has_any_bit by discriminate. rewrite (B1 4) by lia. change (ACTIVE =? 4) with false. rewrite andb_false_r, orb_false_r.
  set (f2 := if _ : bool then f_and f1 (f_not F_DOMAIN_BOUNDARY) else f1).
  assert (B2 : forall j, 0 <= j -> Z.testbit f2 j = Z.testbit f1 j && negb (Z.testbit f 4 && (DOMAIN_BOUNDARY =? j))).
  { intros j Hj. unfold f2, f_and, f_not, F_DOMAIN_BOUNDARY. destruct (Z.testbit f 4); [bits; reflexivity|]. cbn. rewrite andb_true_r. reflexivity. }
  unfold f_and, f_not. rewrite Z.land_spec, Z.lnot_spec by exact Hk. rewrite B2, B1 by exact Hk.
  assert (C : Z.testbit ALL_ASSEMBLY k = (3 <=? k) && (k <=? 12)).
  { unfold ALL_ASSEMBLY, f_or, F_OVERLAPPED, F_INFERRED, F_BOUNDARY_HOLE, F_OCCLUDED, F_FRINGE, F_OUTER_FRINGE, F_INNER_FRINGE, F_MINIMIZED, F_RECEIVER, F_ORPHAN.
    bits. destruct (Z.leb_spec 3 k), (Z.leb_spec k 12); cbn [andb];
      repeat match goal with |- context [?a =? k] => destruct (Z.eqb_spec a k); [subst; try reflexivity; lia|] end; cbn; try reflexivity; lia. }
  rewrite C. unfold ACTIVE, DOMAIN_BOUNDARY, INTERNAL_BOUNDARY, ORPHAN, INFERRED_DOMAIN_BOUNDARY.
  destruct (Z.eqb_spec k 0) as [->|N0]; [cbn; rewrite andb_true_r; rewrite !andb_false_r; cbn; rewrite !andb_true_r, orb_assoc; reflexivity|].
  destruct (Z.eqb_spec k 1) as [->|N1]; [cbn; rewrite !andb_false_r, orb_false_r, !andb_true_r; reflexivity|].
  destruct (Z.eqb_spec k 2) as [->|N2]; [cbn; rewrite !andb_false_r, orb_false_r; cbn; rewrite !andb_true_r; reflexivity|].
  replace (0 =? k) with false by (symmetry; apply Z.eqb_neq; lia). replace (1 =? k) with false by (symmetry; apply Z.eqb_neq; lia).
  rewrite !andb_false_r, orb_false_r. cbn [negb]. rewrite andb_true_r.
  destruct (Z.ltb_spec 12 k), (Z.leb_spec 3 k), (Z.leb_spec k 12); cbn; try lia; rewrite ?andb_true_r, ?andb_false_r; reflexivity.
Qed.
