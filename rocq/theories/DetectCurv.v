(** Detection of overlap with curvilinear grids. *)
From Coq Require Import List ZArith Bool QArith Qabs Qminmax Lia Lqa Psatz Sorting.Sorted.
From Verif Require Import TupleModel RangeModel Base RangeProof CartModel CartProof DecompModel DecompProof IndexerModel ArrayModel HashModel HashProof HashSpec.
From Verif Require Import NeighSpec NeighProof CellModel CellSpec CellProof GeomModel GeomSpec GeomProof GeomVolume GeomNewton GeomLattice AccelModel AccelSpec AccelProof FragModel FragSpec FragProof DetectModel DetectSpec DetectProof DetectGeo DetectSame.
From Verif Require BoxModel BoxProof.
Import ListNotations.
Local Open Scope Q_scope.

(** ** Orientations *)
Lemma oriented_planar nd O x : (nd = 2 \/ nd = 3)%nat -> turning nd O -> planar nd x -> planar nd (oriented O x).
Proof.
  intros [->| ->] T P d Hd; [|lia]. assert (d = 2%nat) by lia. subst d. destruct T as (T0 & T1 & _). specialize (P 2%nat ltac:(lia)).
  rewrite oriented_get by lia. rewrite T0, T1, P. ring.
Qed.

Definition mean (ws : list Q) (vs : list (tup Q)) (d : nat) : Q := qtotal (map (fun wv => fst wv * tget (snd wv) d) (combine ws vs)).

Lemma mean_oriented O d : (d < 3)%nat -> forall vs ws, mean ws (map (oriented O) vs) d ==
  tget (tget O 0) d * mean ws vs 0 + tget (tget O 1) d * mean ws vs 1 + tget (tget O 2) d * mean ws vs 2.
Proof.
  intros Hd. unfold mean. induction vs as [|v vs IH]; intros [|w ws]; cbn [combine map]; try (change (qtotal []) with 0; ring).
  rewrite !qtotal_cons, IH. cbn [fst snd]. rewrite oriented_get by exact Hd. ring.
Qed.
Lemma mean_planar nd vs ws d : Forall (planar nd) vs -> (nd <= d < 3)%nat -> mean ws vs d == 0.
Proof.
  intros P Hd. unfold mean. revert ws. induction P as [|v vs Pv _ IH]; intros [|w ws]; cbn [combine map]; try reflexivity.
  rewrite qtotal_cons, IH. cbn [fst snd]. rewrite (Pv d Hd). ring.
Qed.

Lemma turning_zero nd O (y : nat -> Q) : (nd = 2 \/ nd = 3)%nat -> turning nd O -> (forall d, (nd <= d < 3)%nat -> y d == 0) ->
  (forall d, (d < nd)%nat -> tget (tget O 0) d * y 0%nat + tget (tget O 1) d * y 1%nat + tget (tget O 2) d * y 2%nat == 0) ->
  forall d, (d < nd)%nat -> y d == 0.
Proof.
  intros [->| ->] T P H d Hd.
  - destruct T as (_ & _ & T). pose proof (P 2%nat ltac:(lia)) as P2. pose proof (H 0%nat ltac:(lia)) as H0. pose proof (H 1%nat ltac:(lia)) as H1.
    destruct O as [[o00 o01 o02] [o10 o11 o12] [o20 o21 o22]]. unfold signed_area in T. cbn [tget c0 c1 c2] in *.
    assert (D : ~ (o00 * o11 - o01 * o10) == 0) by (intros D; apply T; transitivity (o00 * o11 - o01 * o10); [ring|exact D]).
    assert (E0 : (o00 * o11 - o01 * o10) * y 0%nat == 0).
    { setoid_replace ((o00 * o11 - o01 * o10) * y 0%nat) with (o11 * (o00 * y 0%nat + o10 * y 1%nat + o20 * y 2%nat) - o10 * (o01 * y 0%nat + o11 * y 1%nat + o21 * y 2%nat) + (o10 * o21 - o11 * o20) * y 2%nat) by ring.
      rewrite H0, H1, P2. ring. }
    assert (E1 : (o00 * o11 - o01 * o10) * y 1%nat == 0).
    { setoid_replace ((o00 * o11 - o01 * o10) * y 1%nat) with (o00 * (o01 * y 0%nat + o11 * y 1%nat + o21 * y 2%nat) - o01 * (o00 * y 0%nat + o10 * y 1%nat + o20 * y 2%nat) + (o01 * o20 - o00 * o21) * y 2%nat) by ring.
      rewrite H0, H1, P2. ring. }
    apply Qmult_integral in E0 as [E0|E0]; [contradiction|]. apply Qmult_integral in E1 as [E1|E1]; [contradiction|].
    destruct d as [|[|]]; [exact E0|exact E1|lia].
  - pose proof (H 0%nat ltac:(lia)) as H0. pose proof (H 1%nat ltac:(lia)) as H1. pose proof (H 2%nat ltac:(lia)) as H2. unfold turning in T.
    destruct O as [[o00 o01 o02] [o10 o11 o12] [o20 o21 o22]]. unfold signed_volume in T. cbn [tget c0 c1 c2] in *.
    pose (D := o00 * (o11 * o22 - o12 * o21) - o01 * (o10 * o22 - o12 * o20) + o02 * (o10 * o21 - o11 * o20)).
    assert (HDet : ~ D == 0) by (intros D0; apply T; transitivity D; [unfold D; ring|exact D0]).
    assert (E : D * y 0%nat == 0 /\ D * y 1%nat == 0 /\ D * y 2%nat == 0).
    { unfold D. generalize dependent (y 0%nat). intros u. generalize dependent (y 1%nat). intros v. generalize dependent (y 2%nat). intros w. intros. clear - H0 H1 H2.
      split; [|split].
      - setoid_replace ((o00 * (o11 * o22 - o12 * o21) - o01 * (o10 * o22 - o12 * o20) + o02 * (o10 * o21 - o11 * o20)) * u)
          with ((o11 * o22 - o12 * o21) * (o00 * u + o10 * v + o20 * w) - (o10 * o22 - o12 * o20) * (o01 * u + o11 * v + o21 * w) + (o10 * o21 - o11 * o20) * (o02 * u + o12 * v + o22 * w)) by ring.
        rewrite H0, H1, H2. ring.
      - setoid_replace ((o00 * (o11 * o22 - o12 * o21) - o01 * (o10 * o22 - o12 * o20) + o02 * (o10 * o21 - o11 * o20)) * v)
          with (- (o01 * o22 - o02 * o21) * (o00 * u + o10 * v + o20 * w) + (o00 * o22 - o02 * o20) * (o01 * u + o11 * v + o21 * w) - (o00 * o21 - o01 * o20) * (o02 * u + o12 * v + o22 * w)) by ring.
        rewrite H0, H1, H2. ring.
      - setoid_replace ((o00 * (o11 * o22 - o12 * o21) - o01 * (o10 * o22 - o12 * o20) + o02 * (o10 * o21 - o11 * o20)) * w)
          with ((o01 * o12 - o02 * o11) * (o00 * u + o10 * v + o20 * w) - (o00 * o12 - o02 * o10) * (o01 * u + o11 * v + o21 * w) + (o00 * o11 - o01 * o10) * (o02 * u + o12 * v + o22 * w)) by ring.
        rewrite H0, H1, H2. ring. }
    destruct E as (E0 & E1 & E2). apply Qmult_integral in E0 as [E0|E0]; [contradiction|]. apply Qmult_integral in E1 as [E1|E1]; [contradiction|].
    apply Qmult_integral in E2 as [E2|E2]; [contradiction|]. destruct d as [|[|[|]]]; [exact E0|exact E1|exact E2|lia].
Qed.

Lemma hull_oriented nd O vs x : (nd = 2 \/ nd = 3)%nat -> turning nd O -> Forall (planar nd) vs -> planar nd x ->
  hull nd (map (oriented O) vs) (oriented O x) <-> hull nd vs x.
Proof.
  intros Hnd T P Px. unfold hull. split; intros (ws & W1 & W2 & W3 & W4); exists ws; rewrite map_length in *; (split; [exact W1|split; [exact W2|split; [exact W3|]]]); intros d Hd.
  - pose (y e := tget x e - mean ws vs e). assert (Z : y d == 0).
    { apply (turning_zero nd O y); auto.
      - intros e He. unfold y. rewrite (Px e He), (mean_planar nd vs ws e P He). ring.
      - intros e He. pose proof (W4 e He) as W. fold (mean ws (map (oriented O) vs) e) in W. rewrite mean_oriented, oriented_get in W by lia. unfold y.
        generalize dependent (mean ws vs 0). intros m0. generalize dependent (mean ws vs 1). intros m1. generalize dependent (mean ws vs 2). intros m2. intros.
        setoid_replace (tget (tget O 0) e * (tget x 0 - m0) + tget (tget O 1) e * (tget x 1 - m1) + tget (tget O 2) e * (tget x 2 - m2))
          with ((tget (tget O 0) e * tget x 0 + tget (tget O 1) e * tget x 1 + tget (tget O 2) e * tget x 2) - (tget (tget O 0) e * m0 + tget (tget O 1) e * m1 + tget (tget O 2) e * m2)) by ring.
        rewrite W. ring. }
    unfold y in Z. fold (mean ws vs d). lra.
  - fold (mean ws (map (oriented O) vs) d). rewrite mean_oriented, oriented_get by lia.
    assert (K : forall e, (e < 3)%nat -> tget x e == mean ws vs e).
    { intros e He. destruct (Nat.ltb_spec e nd) as [L|L]; [apply W4, L|]. rewrite (Px e), (mean_planar nd vs ws e P) by lia. reflexivity. }
    rewrite (K 0%nat), (K 1%nat), (K 2%nat) by lia. reflexivity.
Qed.

Lemma corners_oriented O X cell os : at_corners (fun p => oriented O (X p)) cell os = map (oriented O) (at_corners X cell os).
Proof. unfold at_corners. rewrite map_map. reflexivity. Qed.

Lemma area_oriented O a b c : planar 2 a -> planar 2 b -> planar 2 c ->
  signed_area (oriented O a) (oriented O b) (oriented O c) == signed_area (T3 0 0 0) (c0 O) (c1 O) * signed_area a b c.
Proof.
  intros A B C. specialize (A 2%nat ltac:(lia)). specialize (B 2%nat ltac:(lia)). specialize (C 2%nat ltac:(lia)).
  destruct O as [[o00 o01 o02] [o10 o11 o12] [o20 o21 o22]], a as [a0 a1 a2], b as [b0 b1 b2], c as [d0 d1 d2].
  unfold signed_area, oriented, tmake. cbn [tget c0 c1 c2] in *. rewrite A, B, C. ring.
Qed.
Lemma volume_oriented O a b c d :
  signed_volume (oriented O a) (oriented O b) (oriented O c) (oriented O d) == signed_volume (T3 0 0 0) (c0 O) (c1 O) (c2 O) * signed_volume a b c d.
Proof.
  destruct O as [[o00 o01 o02] [o10 o11 o12] [o20 o21 o22]], a as [a0 a1 a2], b as [b0 b1 b2], c as [d0 d1 d2], d as [e0 e1 e2].
  unfold signed_volume, oriented, tmake. cbn [tget c0 c1 c2]. ring.
Qed.

Lemma proper_oriented nd O X cell : (nd = 2 \/ nd = 3)%nat -> turning nd O -> (forall p, planar nd (X p)) -> proper nd X cell ->
  proper nd (fun p => oriented O (X p)) cell.
Proof.
  intros Hnd T HX P part Hp. specialize (P part Hp). rewrite corners_oriented.
  destruct Hnd as [->| ->].
  - destruct T as (_ & _ & T). cbn [parts In] in Hp. destruct Hp as [<-|[<-|[]]]; unfold at_corners in *; cbn [map] in *;
      rewrite area_oriented by apply HX; intros E; apply Qmult_integral in E; tauto.
  - unfold turning in T. cbn [parts In] in Hp. repeat (destruct Hp as [<-|Hp]; [unfold at_corners in *; cbn [map] in *; rewrite volume_oriented; intros E; apply Qmult_integral in E; tauto|]). destruct Hp.
Qed.

Lemma proper_full nd X cell : (nd = 2 \/ nd = 3)%nat -> proper nd X cell -> full nd X cell.
Proof.
  intros [->| ->] P; specialize (P _ (or_introl eq_refl)); unfold at_corners in P; cbn [map] in P; rewrite tadd_zero in P; exact P.
Qed.

Section Curvilinear.
Variables (c : cart) (n : nat) (L : nat -> range) (stop : range -> bool) (depth : nat -> nat) (active : tup Z -> bool).
Variables (X : tup Z -> tup Q) (O : nat -> range -> tup (tup Q)) (maxtol : Q).
Variables (leaf : nat -> range -> list (Z * BoxModel.box) -> bool) (scale : nat -> range -> Q) (levels : nat -> range -> nat -> nat).
Variables (loc : range) (nactive : tup Z -> bool) (Y : tup Z -> tup Q).
Let nd := c_nd c.
Let cells := c_range (cart_point_to_cell c).
Hypothesis HN : (nd = 2 \/ nd = 3)%nat.
Hypothesis HD : decomposed c n L.
Hypothesis HT : 0 <= maxtol.
Hypothesis HS : forall r f, 0 < scale r f.
Hypothesis HX : forall p, planar nd (X p).
Hypothesis HY : forall p, nactive p = true -> planar nd (Y p).
Hypothesis HO : forall r f, turning nd (O r f).
Hypothesis HC : forall cell, pt_in cells cell -> active cell = true -> proper nd X cell.

Lemma parts_oriented r f cell p : pt_in cells cell -> active cell = true -> nactive p = true ->
  overlaps_cell CURVILINEAR nd (fragment_coords X O r f) 0 cell (oriented (O r f) (Y p)) = true <-> in_parts nd X cell (Y p).
Proof.
  intros C A Hp. pose proof (proper_oriented nd (O r f) X cell HN (HO r f) HX (HC cell C A)) as P.
  unfold fragment_coords. rewrite (overlaps_parts nd _ cell _ HN P). unfold in_parts.
  split; intros (part & Hpart & H); exists part; (split; [exact Hpart|]).
  - rewrite corners_oriented in H. apply hull_oriented in H; auto. apply Forall_forall. intros v Hv. apply in_map_iff in Hv as (o & <- & _). apply HX.
  - rewrite corners_oriented. apply hull_oriented; auto. apply Forall_forall. intros v Hv. apply in_map_iff in Hv as (o & <- & _). apply HX.
Qed.

Lemma curv_boxed r f p cell u : (r < n)%nat -> In f (fragments c L stop depth active r) -> pt_in f cell -> active cell = true -> pt_in loc p -> nactive p = true ->
  accepted CURVILINEAR c X O Y 0 r f p cell u -> BoxProof.box_in (fragment_bounds c X O maxtol r f cell) (oriented (O r f) (Y p)).
Proof.
  intros Hr Hf Hc A Hp Hn [T1 _]. pose proof (HNd c n L HD) as Hnd. destruct (frag_cells c n L stop depth active HD r f cell Hr Hf Hc) as [C _].
  apply overlaps_hull in T1; [|exact HN|apply (proper_oriented nd (O r f) X cell HN (HO r f) HX (HC cell C A))].
  unfold fragment_bounds. apply (proj2 (box_in_contains _ _)). apply (hull_box nd X (O r f) cell _ maxtol); auto.
  - apply cell_bounds_ok; [exact Hnd|]. apply cell_zero, C.
  - apply oriented_planar; auto.
  - apply oriented_planar; auto.
Qed.

Lemma curv_built rnd : rounding rnd -> (forall q, 0 < q -> 0 < rnd q) -> forall r f, (r < n)%nat -> In f (fragments c L stop depth active r) ->
  exists a, fragment_accel rnd c active X O maxtol leaf scale levels r f = Some a.
Proof.
  intros R1 R2. apply (built_thick c n L stop depth active X O maxtol leaf scale levels 0 HD (conj (Qle_refl 0) HT) HS); auto.
  intros r f cell Hr Hf Hc A. pose proof (HNd c n L HD) as Hnd. destruct (frag_cells c n L stop depth active HD r f cell Hr Hf Hc) as [C _].
  apply full_thick; [exact Hnd|]. apply proper_full; [exact HN|]. apply (proper_oriented nd (O r f) X cell HN (HO r f) HX (HC cell C A)).
Qed.

(** The coordinates found by the fragment with the cell *)
Definition coords_found (p cell : tup Z) (u : tup Q) : Prop :=
  exists r f, (r < n)%nat /\ In f (fragments c L stop depth active r) /\ pt_in f cell /\
    coords_in_cell CURVILINEAR nd (fragment_extents c f) (fragment_coords X O r f) cell (oriented (O r f) (Y p)) = Some u.

Lemma detect_curvilinear : forall rnd, rounding rnd -> (forall q, 0 < q -> 0 < rnd q) ->
  let hit p cell u := pt_in cells cell /\ active cell = true /\ in_parts nd X cell (Y p) /\ coords_found p cell u in
  exists es, detect rnd CURVILINEAR c n L stop depth active X O maxtol leaf scale levels loc nactive Y 0 = Some es /\
  StronglySorted (fun p q => (rindex ColMajor loc p < rindex ColMajor loc q)%Z) (map e_point es) /\
  (forall p, In p (map e_point es) <-> pt_in loc p /\ nactive p = true /\ exists cell u, hit p cell u) /\
  (forall e, In e es -> hit (e_point e) (e_cell e) (e_coords e)) /\
  (forall e cell u, In e es -> hit (e_point e) cell u ->
    better_cell rnd nd (e_coords e) u (rindex ColMajor cells (e_cell e)) (rindex ColMajor cells cell) = false).
Proof.
  intros rnd R1 R2 hit.
  destruct (detect_ok rnd CURVILINEAR c n L stop depth active X O maxtol leaf scale levels loc nactive Y 0 R1 HD (curv_built rnd R1 R2) curv_boxed) as (es & E & S & A1 & A2 & A3).
  assert (K1 : forall p cell u, nactive p = true -> cand CURVILINEAR c n L stop depth active X O Y 0 p cell u <-> hit p cell u).
  { intros p cell u Hp. split.
    - intros (A & r & f & Hr & Hf & Hc & T1 & T2). destruct (frag_cells c n L stop depth active HD r f cell Hr Hf Hc) as [C _].
      split; [exact C|]. split; [exact A|]. split; [apply (parts_oriented r f cell p C A Hp); exact T1|]. exists r, f. auto.
    - intros (C & A & P & r & f & Hr & Hf & Hc & T2). split; [exact A|]. exists r, f. split; [exact Hr|]. split; [exact Hf|]. split; [exact Hc|].
      split; [apply (parts_oriented r f cell p C A Hp); exact P|exact T2]. }
  assert (NA : forall e, In e es -> nactive (e_point e) = true) by (intros e He; apply A1; apply in_map; exact He).
  exists es. split; [exact E|]. split; [exact S|]. split; [|split].
  - intros p. rewrite A1. split; intros (P & N & cell & u & K); (split; [exact P|split; [exact N|]]); exists cell, u; apply K1; auto.
  - intros e He. apply K1; [apply NA, He|apply A2, He].
  - intros e cell u He K. apply A3; [exact He|apply K1; [apply NA, He|exact K]].
Qed.
End Curvilinear.

(** ** Curvilinear grids with the points of a lattice *)
Lemma upright_turning nd A : (nd = 2 \/ nd = 3)%nat -> upright A -> turning nd A.
Proof. intros [->| ->] U; unfold upright in U; subst A; unfold turning, signed_area, signed_volume; cbn [tget c0 c1 c2]; repeat split; try reflexivity; intros E; discriminate E. Qed.

Lemma lattice_corner nd E X A B cell o d : (nd = 2 \/ nd = 3)%nat -> lattice nd E X A B -> (forall o, In o (corners nd) -> in_extents nd E (tadd cell o)) ->
  In o (corners nd) -> (d < nd)%nat ->
  tget (X (tadd cell o)) d == at_lattice nd A B (tmake (fun e => inject_Z (tget cell e) + inject_Z (tget o e))) d.
Proof.
  intros Hnd HL HE Ho Hd. rewrite (HL _ (HE o Ho) d Hd). unfold at_lattice, tadd, tmake.
  destruct Hnd as [->| ->]; cbn [seq map tget c0 c1 c2]; rewrite !inject_Z_plus; reflexivity.
Qed.

Lemma lattice_parallel nd E X A B cell : (nd = 2 \/ nd = 3)%nat -> lattice nd E X A B -> (forall o, In o (corners nd) -> in_extents nd E (tadd cell o)) ->
  parallel nd X cell.
Proof.
  intros Hnd HL HE o Ho d Hd. rewrite (lattice_corner nd E X A B cell o d) by auto.
  assert (Z0 : In (T3 0 0 0)%Z (corners nd)) by (destruct Hnd as [->| ->]; cbn; tauto).
  pose proof (lattice_corner nd E X A B cell _ d Hnd HL HE Z0 Hd) as H0. rewrite tadd_zero in H0.
  assert (HU : forall e, (e < nd)%nat -> side X cell e d == tget (tget B e) d).
  { intros e He. unfold side. assert (U : In (unit_step e) (corners nd)) by (apply unit_corner; lia).
    rewrite (lattice_corner nd E X A B cell _ d Hnd HL HE U Hd), H0. unfold at_lattice, tmake.
    destruct Hnd as [->| ->]; destruct e as [|[|[|e]]]; try lia; unfold unit_step, tmake; cbn [seq map tget c0 c1 c2 Nat.eqb]; unfold qtotal; cbn [fold_right]; ring. }
  rewrite H0. rewrite (qtotal_ext _ (fun e => tget (tmake (fun e => inject_Z (tget o e))) e * side X cell e d) (fun e => tget (tmake (fun e => inject_Z (tget o e))) e * tget (tget B e) d)).
  2:{ intros e He. apply in_seq in He. rewrite HU by lia. reflexivity. }
  unfold at_lattice, tmake. destruct Hnd as [->| ->]; cbn [seq map tget c0 c1 c2]; unfold qtotal; cbn [fold_right]; ring.
Qed.

Lemma lattice_full nd E X A B cell : (nd = 2 \/ nd = 3)%nat -> lattice nd E X A B -> (forall o, In o (corners nd) -> in_extents nd E (tadd cell o)) ->
  solid_lattice nd B -> full nd X cell.
Proof.
  intros Hnd HL HE HB. assert (Z0 : In (T3 0 0 0)%Z (corners nd)) by (destruct Hnd as [->| ->]; cbn; tauto).
  assert (HU : forall e d, (e < nd)%nat -> (d < nd)%nat -> tget (X (tadd cell (unit_step e))) d - tget (X cell) d == tget (tget B e) d).
  { intros e d He Hd. pose proof (lattice_corner nd E X A B cell _ d Hnd HL HE Z0 Hd) as H0. rewrite tadd_zero in H0.
    assert (U : In (unit_step e) (corners nd)) by (apply unit_corner; lia).
    rewrite (lattice_corner nd E X A B cell _ d Hnd HL HE U Hd), H0. unfold at_lattice, tmake.
    destruct Hnd as [->| ->]; destruct e as [|[|[|e]]]; try lia; unfold unit_step, tmake; cbn [seq map tget c0 c1 c2 Nat.eqb]; unfold qtotal; cbn [fold_right]; ring. }
  destruct Hnd as [->| ->]; unfold full, solid_lattice in *; intros Z; apply HB; (etransitivity; [|exact Z]); symmetry.
  - pose proof (HU 0 0)%nat as U00. pose proof (HU 0 1)%nat as U01. pose proof (HU 1 0)%nat as U10. pose proof (HU 1 1)%nat as U11. cbn [tget] in *.
    unfold signed_area. rewrite U00, U01, U10, U11 by lia. cbn [c0 c1]. ring.
  - pose proof (HU 0 0)%nat as U00. pose proof (HU 0 1)%nat as U01. pose proof (HU 0 2)%nat as U02. pose proof (HU 1 0)%nat as U10. pose proof (HU 1 1)%nat as U11. pose proof (HU 1 2)%nat as U12.
    pose proof (HU 2 0)%nat as U20. pose proof (HU 2 1)%nat as U21. pose proof (HU 2 2)%nat as U22. cbn [tget] in *.
    unfold signed_volume. cbn [c0 c1 c2]. rewrite U00, U01, U02, U10, U11, U12, U20, U21, U22 by lia. ring.
Qed.

Lemma parallel_proper nd X cell : (nd = 2 \/ nd = 3)%nat -> parallel nd X cell -> full nd X cell -> proper nd X cell.
Proof.
  intros Hnd P F part Hp.
  assert (K : forall o, In o (corners nd) -> forall d, (d < nd)%nat -> tget (X (tadd cell o)) d == tget (X cell) d + qtotal (map (fun e => inject_Z (tget o e) * side X cell e d) (seq 0 nd))).
  { intros o Ho d Hd. rewrite (P o Ho d Hd). destruct Hnd as [->| ->]; reflexivity. }
  destruct Hnd as [->| ->].
  - assert (KK : forall i j, In (T3 i j 0%Z) (corners 2) -> c0 (X (tadd cell (T3 i j 0%Z))) == c0 (X cell) + (inject_Z i * side X cell 0 0 + inject_Z j * side X cell 1 0) /\
      c1 (X (tadd cell (T3 i j 0%Z))) == c1 (X cell) + (inject_Z i * side X cell 0 1 + inject_Z j * side X cell 1 1)).
    { intros i j H. pose proof (K _ H 0%nat ltac:(lia)) as K0. pose proof (K _ H 1%nat ltac:(lia)) as K1. cbn [tget c0 c1 seq map] in K0, K1. unfold qtotal in K0, K1. cbn [fold_right] in K0, K1.
      rewrite K0, K1. split; ring. }
    assert (D : ~ side X cell 0 0 * side X cell 1 1 - side X cell 0 1 * side X cell 1 0 == 0) by exact F.
    cut (match at_corners X cell part with [a; b; c] => signed_area a b c == side X cell 0 0 * side X cell 1 1 - side X cell 0 1 * side X cell 1 0 | _ => False end).
    { unfold at_corners. cbn [parts In] in Hp. destruct Hp as [<-|[<-|[]]]; cbn [map]; intros V Z; apply D; (etransitivity; [|exact Z]); symmetry; exact V. }
    set (a := side X cell 0 0) in *. set (b := side X cell 0 1) in *. set (e := side X cell 1 0) in *. set (f := side X cell 1 1) in *.
    cbn [parts In] in Hp. destruct Hp as [<-|[<-|[]]]; unfold at_corners; cbn [map]; unfold signed_area;
      repeat match goal with |- context [c0 (X (tadd cell (T3 ?i ?j 0%Z)))] => rewrite (proj1 (KK i j ltac:(cbn; tauto))) end;
      repeat match goal with |- context [c1 (X (tadd cell (T3 ?i ?j 0%Z)))] => rewrite (proj2 (KK i j ltac:(cbn; tauto))) end;
      change (inject_Z 0) with 0; change (inject_Z 1) with 1; ring.
  - assert (KK : forall i j k, In (T3 i j k) (corners 3) ->
      c0 (X (tadd cell (T3 i j k))) == c0 (X cell) + (inject_Z i * side X cell 0 0 + inject_Z j * side X cell 1 0 + inject_Z k * side X cell 2 0) /\
      c1 (X (tadd cell (T3 i j k))) == c1 (X cell) + (inject_Z i * side X cell 0 1 + inject_Z j * side X cell 1 1 + inject_Z k * side X cell 2 1) /\
      c2 (X (tadd cell (T3 i j k))) == c2 (X cell) + (inject_Z i * side X cell 0 2 + inject_Z j * side X cell 1 2 + inject_Z k * side X cell 2 2)).
    { intros i j k H. pose proof (K _ H 0%nat ltac:(lia)) as K0. pose proof (K _ H 1%nat ltac:(lia)) as K1. pose proof (K _ H 2%nat ltac:(lia)) as K2.
      cbn [tget c0 c1 c2 seq map] in K0, K1, K2. unfold qtotal in K0, K1, K2. cbn [fold_right] in K0, K1, K2.
      rewrite K0, K1, K2. repeat split; ring. }
    pose (V := side X cell 0 0 * (side X cell 1 1 * side X cell 2 2 - side X cell 1 2 * side X cell 2 1)
             - side X cell 0 1 * (side X cell 1 0 * side X cell 2 2 - side X cell 1 2 * side X cell 2 0)
             + side X cell 0 2 * (side X cell 1 0 * side X cell 2 1 - side X cell 1 1 * side X cell 2 0)).
    assert (D : ~ V == 0) by exact F.
    cut (match at_corners X cell part with [a; b; c; d] => signed_volume a b c d == V \/ signed_volume a b c d == - V | _ => False end).
    { unfold at_corners. cbn [parts In] in Hp. repeat (destruct Hp as [<-|Hp]; [cbn [map]; intros [W|W] Z; apply D; rewrite Z in W; clear - W; lra|]). destruct Hp. }
    unfold V. clear D V F K P.
    cbn [parts In] in Hp. repeat (destruct Hp as [<-|Hp]; [unfold at_corners; cbn [map]|]); [.. | destruct Hp]; unfold signed_volume; cbn [c0 c1 c2];
      repeat match goal with |- context [c0 (X (tadd cell (T3 ?i ?j ?k)))] => rewrite (proj1 (KK i j k ltac:(cbn; tauto))) end;
      repeat match goal with |- context [c1 (X (tadd cell (T3 ?i ?j ?k)))] => rewrite (proj1 (proj2 (KK i j k ltac:(cbn; tauto)))) end;
      repeat match goal with |- context [c2 (X (tadd cell (T3 ?i ?j ?k)))] => rewrite (proj2 (proj2 (KK i j k ltac:(cbn; tauto)))) end;
      change (inject_Z 0) with 0; change (inject_Z 1) with 1; first [left; ring | right; ring].
Qed.

Lemma lattice_sub nd E E' X A B : (forall d, (d < nd)%nat -> tget (rb E) d <= tget (rb E') d /\ tget (re E') d <= tget (re E) d)%Z ->
  lattice nd E X A B -> lattice nd E' X A B.
Proof.
  intros S HL p Hp. apply HL. intros d Hd. specialize (Hp d Hd). destruct (Nat.ltb d nd) eqn:LT; [|exact Hp]. apply Nat.ltb_lt in LT. specialize (S d LT). lia.
Qed.

Section Lattice.
Variables (c : cart) (n : nat) (L : nat -> range) (stop : range -> bool) (depth : nat -> nat) (active : tup Z -> bool).
Variables (X : tup Z -> tup Q) (O : nat -> range -> tup (tup Q)) (maxtol : Q).
Variables (leaf : nat -> range -> list (Z * BoxModel.box) -> bool) (scale : nat -> range -> Q) (levels : nat -> range -> nat -> nat).
Variables (loc : range) (nactive : tup Z -> bool) (Y : tup Z -> tup Q) (A : tup Q) (B : tup (tup Q)).
Let nd := c_nd c.
Let cells := c_range (cart_point_to_cell c).

Lemma detect_lattice : forall rnd, rounding rnd -> (forall q, 0 < q -> 0 < rnd q) ->
  (nd = 2 \/ nd = 3)%nat -> decomposed c n L -> 0 <= maxtol -> (forall r f, 0 < scale r f) ->
  (forall p, planar nd (X p)) -> (forall p, nactive p = true -> planar nd (Y p)) -> (forall r f, upright (O r f)) ->
  (forall r f, (r < n)%nat -> In f (fragments c L stop depth active r) -> roomy c cells f) ->
  lattice nd (full_extents c) X A B -> solid_lattice nd B ->
  let inside p cell := pt_in cells cell /\ active cell = true /\ hull nd (at_corners X cell (corners nd)) (Y p) in
  exists es, detect rnd CURVILINEAR c n L stop depth active X O maxtol leaf scale levels loc nactive Y 0 = Some es /\
  StronglySorted (fun p q => (rindex ColMajor loc p < rindex ColMajor loc q)%Z) (map e_point es) /\
  (forall p, In p (map e_point es) <-> pt_in loc p /\ nactive p = true /\ exists cell, inside p cell) /\
  (forall e, In e es -> inside (e_point e) (e_cell e) /\
    forall d, (d < nd)%nat -> Qabs (tget (Y (e_point e)) d - at_lattice nd A B (tmake (fun k => inject_Z (tget (e_cell e) k) + tget (e_coords e) k)) d) <= 1 # 1000000000000).
Proof.
  intros rnd R1 R2 HN HD HT HS HX HY HO HR HL HB inside.
  assert (Hnd : (1 <= nd <= 3)%nat) by lia.
  assert (PAR : forall r f cell, (r < n)%nat -> In f (fragments c L stop depth active r) -> pt_in f cell -> (parallel nd X cell /\ full nd X cell) /\ pt_in cells cell /\
    in_extents nd (fragment_extents c f) cell /\ (forall d, (d < nd)%nat -> tget (rb (fragment_extents c f)) d + 4 <= tget (re (fragment_extents c f)) d)%Z /\
    lattice nd (fragment_extents c f) X A B).
  { intros r f cell Hr Hf Hc. pose proof (fragment_stencil c n L stop depth active r f cell HD Hr Hf Hc (HR r f Hr Hf)) as SS.
    destruct (frag_cells c n L stop depth active HD r f cell Hr Hf Hc) as [C _]. change (c_nd c) with nd in SS.
    split; [|split; [exact C|split; [|split]]].
    - assert (CE : forall o, In o (corners nd) -> in_extents nd (full_extents c) (tadd cell o)); [|split; [apply (lattice_parallel nd (full_extents c) X A B)|apply (lattice_full nd (full_extents c) X A B)]; auto].
      intros o Ho d Hd. specialize (SS d Hd).
      assert (0 <= tget o d <= 1 /\ ((nd <= d)%nat -> tget o d = 0))%Z.
      { destruct HN as [E|E]; rewrite E in *; cbn [corners In] in Ho; repeat (destruct Ho as [<-|Ho]; [destruct d as [|[|[|]]]; cbn [tget c0 c1 c2]; lia|]); destruct Ho. }
      unfold tadd. rewrite tget_tmake by exact Hd. destruct (Nat.ltb_spec d nd); lia.
    - intros d Hd. specialize (SS d Hd). destruct (Nat.ltb_spec d nd); lia.
    - intros d Hd. specialize (SS d ltac:(lia)). destruct (Nat.ltb_spec d nd); lia.
    - apply (lattice_sub nd (full_extents c)); auto. intros d Hd. specialize (SS d ltac:(lia)). destruct (Nat.ltb_spec d nd); lia. }
  assert (OWN : forall cell, pt_in cells cell -> active cell = true -> exists r f, (r < n)%nat /\ In f (fragments c L stop depth active r) /\ pt_in f cell).
  { intros cell C Ac. pose proof (cell_cart_subset c (Hdims c n L HD) cell C) as Hgr. destruct (L_owner c n L HD cell Hgr) as (r & Hr & Hl).
    destruct (fragments_ok c n L stop depth active HD r Hr) as (_ & F2 & _). destruct (F2 cell) as (f & If & Hf); [apply (own_cells c n L HD r cell Hr); auto|auto|]. eauto. }
  assert (HC : forall cell, pt_in cells cell -> active cell = true -> proper nd X cell).
  { intros cell C Ac. destruct (OWN cell C Ac) as (r & f & Hr & Hf & Hc). destruct (PAR r f cell Hr Hf Hc) as ((P & F) & _). apply parallel_proper; auto. }
  assert (HU : forall cell x, pt_in cells cell -> active cell = true -> in_parts nd X cell x <-> hull nd (at_corners X cell (corners nd)) x).
  { intros cell x C Ac. destruct (OWN cell C Ac) as (r & f & Hr & Hf & Hc). destruct (PAR r f cell Hr Hf Hc) as ((P & F) & _). unfold in_parts.
    rewrite <- (overlaps_parts nd X cell x HN (HC cell C Ac)), <- (parallel_hull nd X cell x Hnd P).
    destruct HN as [E|E]; rewrite E in *.
    - destruct (curvilinear_parallel2 X 0 cell x P F (Qle_refl 0)) as [Q1 Q2]. split; [|exact Q1]. intros T. destruct (Q2 T) as (u & W & Lo). exists u. split; [|exact Lo].
      intros d Hd. specialize (W d Hd). lra.
    - destruct (curvilinear_parallel3 X 0 cell x P F (Qle_refl 0)) as [Q1 Q2]. split; [|exact Q1]. intros T. destruct (Q2 T) as (u & W & Lo). exists u. split; [|exact Lo].
      intros d Hd. specialize (W d Hd). lra. }
  assert (HL' : forall r f cell, (r < n)%nat -> In f (fragments c L stop depth active r) -> pt_in f cell -> lattice nd (fragment_extents c f) (fragment_coords X O r f) A B).
  { intros r f cell Hr Hf Hc p Hp d Hd. unfold fragment_coords. rewrite upright_get by (auto; lia). apply (PAR r f cell Hr Hf Hc); auto. }
  assert (HT' : forall r f, turning nd (O r f)) by (intros; apply upright_turning; auto).
  destruct (detect_curvilinear c n L stop depth active X O maxtol leaf scale levels loc nactive Y HN HD HT HS HX HY HT' HC rnd R1 R2) as (es & E & S & A1 & A2 & A3).
  exists es. split; [exact E|]. split; [exact S|]. split.
  - intros p. rewrite A1. split; intros (P & N & cell & K); (split; [exact P|split; [exact N|exists cell]]).
    + destruct K as (u & C & Ac & IP & _). split; [exact C|]. split; [exact Ac|]. apply HU; auto.
    + destruct K as (C & Ac & H). destruct (OWN cell C Ac) as (r & f & Hr & Hf & Hc). destruct (PAR r f cell Hr Hf Hc) as (_ & _ & P1 & P2 & _).
      destruct (coords_lattice CURVILINEAR nd (fragment_extents c f) (fragment_coords X O r f) A B cell (oriented (O r f) (Y p))) as (u & CU & _); auto.
      { right. right. reflexivity. } { lia. } { apply (HL' r f cell Hr Hf Hc). }
      exists u. split; [exact C|]. split; [exact Ac|]. split; [apply HU; auto|]. exists r, f. auto.
  - intros e He. destruct (A2 e He) as (C & Ac & IP & r & f & Hr & Hf & Hc & CU). split; [split; [exact C|split; [exact Ac|apply HU; auto]]|].
    destruct (PAR r f (e_cell e) Hr Hf Hc) as (_ & _ & P1 & P2 & _).
    destruct (coords_lattice CURVILINEAR nd (fragment_extents c f) (fragment_coords X O r f) A B (e_cell e) (oriented (O r f) (Y (e_point e)))) as (u & CU' & EU); auto.
    { right. right. reflexivity. } { lia. } { apply (HL' r f (e_cell e) Hr Hf Hc). }
    assert (u = e_coords e) by (pose proof (eq_trans (eq_sym CU) CU') as EE; injection EE; auto). subst u. intros d Hd. specialize (EU d Hd). rewrite upright_get in EU by (auto; lia). exact EU.
Qed.
End Lattice.
