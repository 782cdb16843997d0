(** Consequences of the outcome of an assembly. *)
From Coq Require Import List ZArith Bool Lia.
From Verif Require Import TupleModel RangeModel Base RangeProof CartModel CartProof DecompModel DecompProof IndexerModel ArrayModel ArrayProof.
From Verif Require Import ContModel HashModel ProtoModel ProtoSpec NetModel NetSpec NetProof LiftModel NeighModel NeighSpec HaloModel PartModel.
From Verif Require Import FieldModel FieldSpec FieldProof EdgeProof ExtProof AsmModel AsmRep AsmSpec AsmGeom AsmProof.
Import ListNotations.
Local Open Scope Z_scope.

Section Laws.
Variables (c : cart) (n : nat) (L E : nat -> range) (N : nat -> list nat) (H : nat -> hmap).
Hypothesis P : partitioned c n L E N H.
Notation dom u := (pt_in (c_range c) u).
Notation nd := (c_nd c).

(** ** The flags are determined *)

Section Determined.
Variables (infer : bool) (fringe max : Z) (v : given) (f1 f2 f1' f2' d1 d2 : tup Z -> Z).
Hypothesis O1 : outcome c infer fringe f1 v f1' max d1.
Hypothesis O2 : outcome c infer fringe f2 v f2' max d2.
Hypothesis Hf : 0 <= fringe.
Hypothesis SA : forall u, dom u -> was_active f1 u = was_active f2 u.
Hypothesis SB : forall u, dom u -> was_boundary f1 u = was_boundary f2 u.
Hypothesis SK : forall u k, dom u -> k = INTERNAL_BOUNDARY \/ ORPHAN < k -> flag k f1 u = flag k f2 u.

Lemma kept_same u : dom u -> kept f1 v u = kept f2 v u.
Proof. intros Hu. unfold kept. rewrite (SA u Hu). reflexivity. Qed.

Lemma d_inferred u : dom u -> flag INFERRED_DOMAIN_BOUNDARY f1' u = flag INFERRED_DOMAIN_BOUNDARY f2' u.
Proof.
  intros Hu. destruct O1 as (_ & _ & B1 & _), O2 as (_ & _ & B2 & _). apply eq_iff_eq_true.
  rewrite (proj1 (B1 u Hu)), (proj1 (B2 u Hu)), (SA u Hu), (SB u Hu).
  assert (X : forall q, continued c BC_FALSE (was_active f1) q = continued c BC_FALSE (was_active f2) q) by (intros q; apply continued_ext, SA).
  split; intros (I & A & B & (q & Aq & Cq) & F); (split; [exact I|]); (split; [exact A|]); (split; [exact B|]); (split; [|exact F]); exists q;
    (split; [exact Aq|]); [rewrite <- X|rewrite X]; exact Cq.
Qed.
Lemma d_internal u : dom u -> flag INTERNAL_BOUNDARY f1' u = flag INTERNAL_BOUNDARY f2' u.
Proof.
  intros Hu. destruct O1 as (K1 & _), O2 as (K2 & _). rewrite (K1 u _ Hu (or_introl eq_refl)), (K2 u _ Hu (or_introl eq_refl)).
  apply SK; auto.
Qed.
Lemma d_domain u : dom u -> flag DOMAIN_BOUNDARY f1' u = flag DOMAIN_BOUNDARY f2' u.
Proof.
  intros Hu. destruct O1 as (_ & _ & B1 & _), O2 as (_ & _ & B2 & _). rewrite (proj2 (B1 u Hu)), (proj2 (B2 u Hu)), (SB u Hu), (d_inferred u Hu).
  reflexivity.
Qed.
Lemma d_outer u : dom u -> outer c fringe f1 v f1' u <-> outer c fringe f2 v f2' u.
Proof.
  intros Hu. unfold outer. rewrite (kept_same u Hu).
  assert (X : forall q, continued c BC_FALSE (kept f1 v) q = continued c BC_FALSE (kept f2 v) q) by (intros q; apply continued_ext, kept_same).
  assert (Y : forall q, continued c BC_FALSE (fun x => kept f1 v x && negb (boundary f1' x)) q = continued c BC_FALSE (fun x => kept f2 v x && negb (boundary f2' x)) q).
  { intros q. apply continued_ext. intros x Hx. unfold boundary. rewrite (kept_same x Hx), (d_domain x Hx), (d_internal x Hx). reflexivity. }
  split; intros (A & q & w & Aq & Aw & Cq & Cw); (split; [exact A|]); exists q, w; (split; [exact Aq|]); (split; [exact Aw|]);
    [rewrite <- X, <- Y|rewrite X, Y]; auto.
Qed.
Lemma d_minimized u : dom u -> flag OVERLAP_MINIMIZED f1' u = flag OVERLAP_MINIMIZED f2' u.
Proof.
  intros Hu. destruct O1 as (_ & _ & _ & _ & M1 & _), O2 as (_ & _ & _ & _ & M2 & _).
  destruct (M1 u Hu) as (P1 & Z1 & _), (M2 u Hu) as (P2 & Z2 & _). destruct (Z.eq_dec fringe 0) as [F0|F0]; [rewrite (Z1 F0), (Z2 F0); reflexivity|].
  apply eq_iff_eq_true. rewrite P1, P2 by lia. rewrite (kept_same u Hu).
  split; intros (A & B & C); (split; [exact A|]); (split; [exact B|]); intros x Hx W; specialize (C x Hx W);
    [rewrite <- (kept_same x Hx)|rewrite (kept_same x Hx)]; exact C.
Qed.
Lemma d_active u : dom u -> flag ACTIVE f1' u = flag ACTIVE f2' u.
Proof.
  intros Hu. pose proof (d_minimized u Hu) as DM. destruct O1 as (_ & _ & _ & _ & M1 & _), O2 as (_ & _ & _ & _ & M2 & _).
  destruct (M1 u Hu) as (_ & _ & A1 & _), (M2 u Hu) as (_ & _ & A2 & _). rewrite A1, A2, DM, (kept_same u Hu). reflexivity.
Qed.
Lemma d_inner u : dom u -> flag INNER_FRINGE f1' u = flag INNER_FRINGE f2' u.
Proof.
  intros Hu. pose proof (d_active u Hu) as DA. pose proof d_minimized as DM. destruct O1 as (_ & _ & _ & _ & M1 & _), O2 as (_ & _ & _ & _ & M2 & _).
  destruct (M1 u Hu) as (_ & _ & _ & I1), (M2 u Hu) as (_ & _ & _ & I2). apply eq_iff_eq_true. rewrite I1, I2, DA.
  split; intros (A & x & Hx & W & M); (split; [exact A|]); exists x; (split; [exact Hx|]); (split; [exact W|]);
    [rewrite <- (DM x Hx)|rewrite (DM x Hx)]; exact M.
Qed.
Lemma d_outer_flag u : dom u -> flag OUTER_FRINGE f1' u = flag OUTER_FRINGE f2' u /\ flag FRINGE f1' u = flag FRINGE f2' u.
Proof.
  intros Hu. pose proof (d_outer u Hu) as DO. pose proof (d_minimized u Hu) as DM. pose proof (d_inner u Hu) as DI.
  destruct O1 as (_ & _ & _ & F1 & _), O2 as (_ & _ & _ & F2 & _). destruct (F1 u Hu) as [A1 B1], (F2 u Hu) as [A2 B2].
  split; apply eq_iff_eq_true; [rewrite A1, A2, DO, DM|rewrite B1, B2, DO, DI]; reflexivity.
Qed.
Lemma d_given u : dom u -> flag OVERLAPPED f1' u = flag OVERLAPPED f2' u /\ flag BOUNDARY_HOLE f1' u = flag BOUNDARY_HOLE f2' u /\ flag OCCLUDED f1' u = flag OCCLUDED f2' u.
Proof.
  intros Hu. destruct O1 as (_ & G1 & _), O2 as (_ & G2 & _). destruct (G1 u Hu) as (-> & -> & ->), (G2 u Hu) as (-> & -> & ->). auto.
Qed.
Lemma d_receiver u : dom u -> flag RECEIVER f1' u = flag RECEIVER f2' u /\ flag ORPHAN f1' u = flag ORPHAN f2' u.
Proof.
  intros Hu. destruct (d_outer_flag u Hu) as [X1 _]. pose proof (d_inner u Hu) as X2. destruct (d_given u Hu) as (_ & _ & X3). pose proof (d_active u Hu) as X4.
  destruct O1 as (_ & _ & _ & _ & _ & R1 & _), O2 as (_ & _ & _ & _ & _ & R2 & _). destruct (R1 u Hu) as [A1 B1], (R2 u Hu) as [A2 B2].
  rewrite B1, B2, A1, A2, X1, X2, X3, X4. auto.
Qed.

Lemma same_flags u : dom u -> f1' u = f2' u.
Proof.
  intros Hu. apply Z.bits_inj'. intros k Hk. destruct (Z_lt_le_dec ORPHAN k) as [K|K].
  - destruct O1 as (K1 & _), O2 as (K2 & _). change (flag k f1' u = flag k f2' u). rewrite (K1 u k Hu (or_intror K)), (K2 u k Hu (or_intror K)).
    apply SK; auto.
  - unfold ORPHAN in K. assert (X : k = 0 \/ k = 1 \/ k = 2 \/ k = 3 \/ k = 4 \/ k = 5 \/ k = 6 \/ k = 7 \/ k = 8 \/ k = 9 \/ k = 10 \/ k = 11 \/ k = 12) by lia.
    destruct (d_outer_flag u Hu) as [X1 X1']. destruct (d_given u Hu) as (X3 & X3' & X3''). destruct (d_receiver u Hu) as (X4 & X4').
    destruct X as [->|[->|[->|[->|[->|[->|[->|[->|[->|[->|[->|[->| ->]]]]]]]]]]]];
      [apply d_active|apply d_domain|apply d_internal|exact X3|apply d_inferred|exact X3'|exact X3''|exact X1'|exact X1|apply d_inner|apply d_minimized|exact X4|exact X4']; exact Hu.
Qed.

Lemma d_edge_within k u : edge_within c f1' k u <-> edge_within c f2' k u.
Proof.
  unfold edge_within. split; intros (x & Hx & W & Q); exists x; (split; [exact Hx|]); (split; [exact W|]).
  - apply (is_edge_ext c (flag RECEIVER f1')); [intros y Hy; apply (d_receiver y Hy)|exact Q].
  - apply (is_edge_ext c (flag RECEIVER f2')); [intros y Hy; symmetry; apply (d_receiver y Hy)|exact Q].
Qed.

(** The first of the numbers below m with a property, if there is one. *)
Lemma least_dn (A : Z -> Prop) m : ~ ~ ((exists k, 0 <= k < Z.of_nat m /\ A k /\ forall j, 0 <= j < k -> ~ A j) \/ (forall k, 0 <= k < Z.of_nat m -> ~ A k)).
Proof.
  induction m as [|m IH]; intros C.
  - apply C. right. lia.
  - apply IH. intros [(k & Hk & Ak & Lk)|X].
    + apply C. left. exists k. split; [lia|auto].
    + apply C. right. intros k Hk Ak. destruct (Z.eq_dec k (Z.of_nat m)) as [->|]; [|apply (X k); [lia|exact Ak]].
      apply C. left. exists (Z.of_nat m). split; [lia|]. auto.
Qed.

Lemma same_distance u : dom u -> d1 u = d2 u.
Proof.
  intros Hu. pose proof (d_edge_within) as DE. pose proof (proj1 (d_receiver u Hu)) as DR.
  destruct O1 as (_ & _ & _ & _ & _ & _ & D1), O2 as (_ & _ & _ & _ & _ & _ & D2). destruct (D1 u Hu) as [A1 B1], (D2 u Hu) as [A2 B2].
  destruct (Z.eq_dec (d1 u) (d2 u)) as [Q|Q]; [exact Q|exfalso].
  apply (least_dn (fun k => edge_within c f1' k u) (Z.to_nat max)). intros X. apply Q. destruct X as [(k & Hk & Ak & Lk)|X].
  - rewrite (A1 k), (A2 k); [rewrite DR; reflexivity|lia|apply DE, Ak|intros j Hj C; apply (Lk j Hj), DE, C|lia|exact Ak|exact Lk].
  - rewrite B1, B2; [reflexivity|intros k Hk C; apply (X k); [lia|apply DE, C]|intros k Hk; apply X; lia].
Qed.
End Determined.

(** ** Assembling again *)

Section Again.
Variables (infer : bool) (fringe max : Z) (v : given) (fl fl' d : tup Z -> Z).
Hypothesis O : outcome c infer fringe fl v fl' max d.
Hypothesis Hf : 0 <= fringe.
Hypothesis Hhole : forall u, dom u -> v_hole v u = true -> was_active fl u = true.
Hypothesis Hmin : forall u, dom u -> v_minimize v u = true -> was_active fl u = true.

Lemma again_active u : dom u -> was_active fl' u = was_active fl u.
Proof.
  intros Hu. destruct O as (_ & G & _ & _ & M & _). destruct (G u Hu) as (_ & Gh & _). destruct (M u Hu) as (M1 & M2 & MA & _).
  unfold was_active at 1. rewrite Gh, MA. assert (X : flag OVERLAP_MINIMIZED fl' u = true -> was_active fl u = true).
  { intros Q. destruct (Z.eq_dec fringe 0) as [F0|F0]; [apply Hmin; [exact Hu|rewrite <- (M2 F0); exact Q]|].
    apply M1 in Q as (_ & K & _); [|lia]. unfold kept in K. apply andb_true_iff in K as [K _]. exact K. }
  pose proof (Hhole u Hu) as Y. unfold kept. destruct (flag OVERLAP_MINIMIZED fl' u); [rewrite (X eq_refl), !orb_true_r; reflexivity|].
  destruct (v_hole v u); [rewrite (Y eq_refl); reflexivity|]. rewrite !orb_false_r. cbn [negb]. rewrite !andb_true_r. reflexivity.
Qed.
Lemma again_boundary u : dom u -> was_boundary fl' u = was_boundary fl u.
Proof.
  intros Hu. destruct O as (_ & _ & B & _). destruct (B u Hu) as [BI BD]. unfold was_boundary at 1. rewrite BD.
  destruct (flag INFERRED_DOMAIN_BOUNDARY fl' u); [|rewrite orb_false_r, andb_true_r; reflexivity].
  destruct (proj1 BI eq_refl) as (_ & _ & -> & _). reflexivity.
Qed.

Lemma again fl'' d'' : outcome c infer fringe fl' v fl'' max d'' -> forall u, dom u -> fl'' u = fl' u /\ d'' u = d u.
Proof.
  intros O2 u Hu.
  assert (K : forall u k, dom u -> k = INTERNAL_BOUNDARY \/ ORPHAN < k -> flag k fl' u = flag k fl u) by (destruct O as (K & _); exact K).
  split; [apply (same_flags infer fringe max v fl' fl fl'' fl' d'' d)|apply (same_distance infer fringe max v fl' fl fl'' fl' d'' d)];
    auto using again_active, again_boundary.
Qed.
End Again.

(** ** Coherence of the flags *)

Section Coherent.
Variables (infer : bool) (fringe max : Z) (v : given) (fl fl' d : tup Z -> Z).
Hypothesis O : outcome c infer fringe fl v fl' max d.
Hypothesis Hf : 0 <= fringe.

Lemma minimized_inactive u : dom u -> flag OVERLAP_MINIMIZED fl' u = true -> flag ACTIVE fl' u = false.
Proof. intros Hu Q. destruct O as (_ & _ & _ & _ & M & _). destruct (M u Hu) as (_ & _ & -> & _). rewrite Q. apply andb_false_r. Qed.
Lemma hole_inactive u : dom u -> flag BOUNDARY_HOLE fl' u = true -> flag ACTIVE fl' u = false.
Proof.
  intros Hu Q. destruct O as (_ & G & _ & _ & M & _). destruct (M u Hu) as (_ & _ & -> & _). destruct (G u Hu) as (_ & G2 & _).
  rewrite G2 in Q. unfold kept. rewrite Q, andb_false_r. reflexivity.
Qed.
Lemma minimized_occluded u : dom u -> (v_minimize v u = true -> v_occluded v u = true) -> flag OVERLAP_MINIMIZED fl' u = true -> flag OCCLUDED fl' u = true.
Proof.
  intros Hu X Q. destruct O as (_ & G & _ & _ & M & _). destruct (M u Hu) as (M1 & M2 & _). destruct (G u Hu) as (_ & _ & ->).
  apply X. destruct (Z.eq_dec fringe 0) as [F0|F0]; [rewrite <- (M2 F0); exact Q|]. apply M1 in Q as (A & _); [exact A|lia].
Qed.
Lemma outer_active u : dom u -> flag OUTER_FRINGE fl' u = true -> flag ACTIVE fl' u = true /\ flag FRINGE fl' u = true.
Proof.
  intros Hu Q. destruct O as (_ & _ & _ & F & M & _). destruct (M u Hu) as (_ & _ & -> & _). destruct (F u Hu) as [F1 F2].
  apply F1 in Q as [Q1 Q2]. rewrite Q2, F2. pose proof Q1 as [-> _]. auto.
Qed.
Lemma inner_active u : dom u -> flag INNER_FRINGE fl' u = true ->
  flag ACTIVE fl' u = true /\ flag FRINGE fl' u = true /\ flag OCCLUDED fl' u = true /\ 0 < fringe.
Proof.
  intros Hu Q. destruct O as (_ & G & _ & F & M & _). destruct (M u Hu) as (_ & _ & A & I). destruct (F u Hu) as [_ F2].
  destruct (proj1 I Q) as (Qa & x & Hx & W & Mx). split; [exact Qa|]. split; [apply F2; auto|].
  destruct (Z.eq_dec fringe 0) as [F0|F0].
  - exfalso. rewrite F0 in W. apply (within_zero c n L E N H P u x Hu Hx) in W. subst x. rewrite (minimized_inactive u Hu Mx) in Qa. discriminate.
  - split; [|lia]. destruct (M x Hx) as (M1 & _). apply M1 in Mx as (_ & _ & X); [|lia]. destruct (G u Hu) as (_ & _ & ->).
    destruct (X u Hu (within_sym c fringe u x W)) as [Y|Y]; [exact Y|]. rewrite A, Y in Qa. discriminate.
Qed.
Lemma receiver_active u : dom u -> flag RECEIVER fl' u = true -> flag ACTIVE fl' u = true.
Proof. intros Hu Q. destruct O as (_ & _ & _ & _ & _ & R & _). destruct (R u Hu) as [A _]. rewrite A in Q. apply andb_true_iff in Q. tauto. Qed.
Lemma orphan_receiver u : dom u -> flag ORPHAN fl' u = true -> flag RECEIVER fl' u = true.
Proof. intros Hu Q. destruct O as (_ & _ & _ & _ & _ & R & _). destruct (R u Hu) as [_ A]. rewrite A in Q. apply andb_true_iff in Q. tauto. Qed.

(** A point whose values are computed by the scheme (active, not a receiver) has no removed point up to FringeSize
    away; and a place that is not active is that close only behind a boundary. *)
Lemma interior u : dom u -> flag ACTIVE fl' u = true -> flag RECEIVER fl' u = false ->
  (forall x, dom x -> within c fringe u x -> flag OVERLAP_MINIMIZED fl' x = false) /\
  (forall q w, apart nd fringe u q -> continued c BC_FALSE (flag ACTIVE fl') q = false -> apart nd 1 q w ->
     continued c BC_FALSE (fun x => flag ACTIVE fl' x && negb (boundary fl' x)) w = false).
Proof.
  intros Hu A R. destruct O as (_ & _ & _ & F & M & RR & _). destruct (RR u Hu) as [RU _]. rewrite R, A in RU. cbn [andb] in RU.
  symmetry in RU. apply orb_false_iff in RU as [RU _]. apply orb_false_iff in RU as [RO RI].
  assert (X : forall x, dom x -> within c fringe u x -> flag OVERLAP_MINIMIZED fl' x = false).
  { intros x Hx W. destruct (flag OVERLAP_MINIMIZED fl' x) eqn:Q; [|reflexivity]. exfalso. destruct (M u Hu) as (_ & _ & _ & I).
    assert (flag INNER_FRINGE fl' u = true); [|congruence]. apply I. split; [exact A|]. exists x. auto. }
  split; [exact X|]. intros q w Aq Cq Aw.
  destruct (continued c BC_FALSE (fun x => flag ACTIVE fl' x && negb (boundary fl' x)) w) eqn:Q; [exfalso|reflexivity].
  assert (flag OUTER_FRINGE fl' u = true); [|congruence]. apply (F u Hu).
  split; [|apply X; [exact Hu|apply within_self, Hf]]. destruct (M u Hu) as (_ & _ & AU & _). rewrite AU in A. apply andb_true_iff in A as [A _].
  split; [exact A|]. exists q, w. split; [exact Aq|]. split; [exact Aw|]. split.
  - destruct (continued c BC_FALSE (kept fl v) q) eqn:Kq; [exfalso|reflexivity].
    destruct (continued_true c n L E N H P _ q Kq) as (x & Hx & Ix & Kx). rewrite (continued_image_in c n L E N H P _ _ x q Hx Ix) in Cq.
    destruct (M x Hx) as (_ & _ & AX & _). rewrite AX, Kx, (X x Hx) in Cq; [discriminate|]. exists q. auto.
  - destruct (continued_true c n L E N H P _ w Q) as (x & Hx & Ix & Kx). rewrite (continued_image_in c n L E N H P _ _ x w Hx Ix).
    apply andb_true_iff in Kx as [Kx Bx]. rewrite Bx. destruct (M x Hx) as (_ & _ & AX & _). rewrite AX in Kx. apply andb_true_iff in Kx as [-> _]. reflexivity.
Qed.

(** A grid that no other grid touches has no receivers. *)
Lemma alone : infer = true -> (forall u, dom u -> Forall (fun m => m u = false) (v_overlaps v) /\ v_hole v u = false /\ v_occluded v u = false /\ v_minimize v u = false) ->
  forall u, dom u -> flag RECEIVER fl' u = false /\ flag ORPHAN fl' u = false /\ flag FRINGE fl' u = false /\ flag ACTIVE fl' u = was_active fl u.
Proof.
  intros Hi X u Hu. destruct (X u Hu) as (X1 & X2 & X3 & X4). pose proof (inner_active u Hu) as IA.
  destruct O as (_ & G & B & F & M & R & _). destruct (G u Hu) as (_ & _ & Go). rewrite X3 in Go.
  assert (KA : forall x, dom x -> kept fl v x = was_active fl x). { intros x Hx. unfold kept. destruct (X x Hx) as (_ & -> & _). apply andb_true_r. }
  assert (NM : flag OVERLAP_MINIMIZED fl' u = false).
  { destruct (flag OVERLAP_MINIMIZED fl' u) eqn:Q; [|reflexivity]. exfalso. destruct (M u Hu) as (M1 & M2 & _).
    destruct (Z.eq_dec fringe 0) as [F0|F0]; [specialize (M2 F0); congruence|]. apply M1 in Q as (Q & _); [congruence|lia]. }
  assert (NI : flag INNER_FRINGE fl' u = false).
  { destruct (flag INNER_FRINGE fl' u) eqn:Q; [|reflexivity]. exfalso. destruct (IA eq_refl) as (_ & _ & C & _). congruence. }
  assert (NO : ~ outer c fringe fl v fl' u).
  { intros (K & q & w & Aq & Aw & Cq & Cw). destruct (continued_true c n L E N H P _ w Cw) as (x & Hx & Ix & Kx).
    apply andb_true_iff in Kx as [Kx Bx]. apply negb_true_iff in Bx. unfold boundary in Bx. apply orb_false_iff in Bx as [Bd _].
    destruct (B x Hx) as [BI BD]. rewrite BD in Bd. apply orb_false_iff in Bd as [B1 B2].
    assert (flag INFERRED_DOMAIN_BOUNDARY fl' x = true); [|congruence]. apply BI. split; [exact Hi|]. split; [rewrite <- (KA x Hx); exact Kx|]. split; [exact B1|].
    split; [|apply (X x Hx)]. destruct (image_shift c 1 w x q (is_image_sym _ _ _ Ix) (apart_sym c 1 q w Aw)) as (q' & Iq & Aq').
    exists q'. split; [exact Aq'|]. rewrite <- Cq.
    rewrite <- (continued_image c n L E N H P BC_FALSE _ q q' ltac:(discriminate) Iq). apply continued_ext. intros y Hy. symmetry. apply KA, Hy. }
  destruct (F u Hu) as [F1 F2]. destruct (R u Hu) as [R1 R2].
  assert (FO : flag OUTER_FRINGE fl' u = false) by (destruct (flag OUTER_FRINGE fl' u); [exfalso; apply NO, F1, eq_refl|reflexivity]).
  assert (FR : flag RECEIVER fl' u = false) by (rewrite R1, FO, NI, Go; apply andb_false_r).
  split; [exact FR|]. split; [rewrite R2, FR; reflexivity|]. split.
  - destruct (flag FRINGE fl' u); [|reflexivity]. exfalso. destruct (proj1 F2 eq_refl) as [C|C]; [exact (NO C)|congruence].
  - destruct (M u Hu) as (_ & _ & -> & _). rewrite NM, (KA u Hu). apply andb_true_r.
Qed.
End Coherent.
End Laws.
