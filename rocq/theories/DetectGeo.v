(** The conditions of DetectProof for the types of geometry. *)
From Coq Require Import List ZArith Bool QArith Qabs Qminmax Lia Lqa Psatz Sorting.Sorted.
From Verif Require Import TupleModel RangeModel Base RangeProof CartModel CartProof DecompModel DecompProof IndexerModel ArrayModel HashModel HashProof HashSpec.
From Verif Require Import NeighSpec NeighProof CellModel CellSpec CellProof GeomModel GeomSpec GeomProof GeomVolume GeomLattice AccelModel AccelSpec AccelProof FragModel FragSpec FragProof DetectModel DetectSpec DetectProof.
From Verif Require BoxModel BoxProof.
Import ListNotations.
Local Open Scope Q_scope.

Lemma oriented_get O x d : (d < 3)%nat ->
  tget (oriented O x) d = tget (tget O 0) d * tget x 0 + tget (tget O 1) d * tget x 1 + tget (tget O 2) d * tget x 2.
Proof. intros Hd. unfold oriented. rewrite tget_tmake by exact Hd. reflexivity. Qed.

Lemma upright_get O x d : upright O -> (d < 3)%nat -> tget (oriented O x) d == tget x d.
Proof.
  intros -> Hd. rewrite oriented_get by exact Hd. destruct d as [|[|[|]]]; try lia; cbn [tget c0 c1 c2]; ring.
Qed.

(** *** The boxes of cells *)

Definition bounds_ok (nd : nat) (X : tup Z -> tup Q) (O : tup (tup Q)) (cell : tup Z) (b : box) : Prop :=
  forall o, In o (corners nd) -> forall d, (d < 3)%nat -> tget (bb b) d <= tget (oriented O (X (tadd cell o))) d <= tget (be b) d.

Lemma corner_In nd cell o : (1 <= nd <= 3)%nat -> corner_zero nd cell -> In o (corners nd) -> In (tadd cell o) (foreach_col (cell_range nd cell)).
Proof.
  intros Hnd C Ho. apply foreach_col_In. apply cell_range_spec; [intros d Hd Hn; apply C; lia|]. intros d Hd.
  assert (E : tget (tadd cell o) d = (tget cell d + tget o d)%Z) by (unfold tadd; rewrite tget_tmake by exact Hd; reflexivity). rewrite E.
  assert (B : if Nat.ltb d nd then (0 <= tget o d <= 1)%Z else tget o d = 0%Z).
  { destruct nd as [|[|[|[|]]]]; try lia; cbn [corners In] in Ho;
      repeat (destruct Ho as [<-|Ho]; [destruct d as [|[|[|]]]; try lia; cbn; lia|]); contradiction. }
  destruct (Nat.ltb_spec d nd); lia.
Qed.

Lemma cell_bounds_ok nd X O cell : (1 <= nd <= 3)%nat -> corner_zero nd cell -> bounds_ok nd X O cell (cell_bounds nd X O cell).
Proof.
  intros Hnd C o Ho d Hd. unfold cell_bounds.
  assert (B : box_contains (fold_left (fun b v => extend_box b (oriented O (X v))) (foreach_col (cell_range nd cell)) (empty_box nd)) (oriented O (X (tadd cell o))) = true).
  { apply bounds_vertices. left. apply (in_map (fun v => oriented O (X v))). apply corner_In; assumption. }
  rewrite contains_spec in B. apply B. exact Hd.
Qed.

Definition lin (os ss : list Q) : Q := qtotal (map (fun p => fst p * snd p) (combine os ss)).
Lemma lin_cons o os s ss : lin (o :: os) (s :: ss) = o * s + lin os ss.
Proof. reflexivity. Qed.

(** Between the extreme choices of 0 and 1. *)
Lemma extremes tol : 0 <= tol -> forall us ss, length us = length ss -> Forall (fun u => - tol <= u <= 1 + tol) us ->
  exists a b, length a = length ss /\ length b = length ss /\ Forall (fun o => o = 0 \/ o = 1) a /\ Forall (fun o => o = 0 \/ o = 1) b /\
    lin a ss <= lin b ss /\ lin a ss - tol * (lin b ss - lin a ss) <= lin us ss <= lin b ss + tol * (lin b ss - lin a ss).
Proof.
  intros T. induction us as [|u us IH]; intros [|s ss] HL F; try discriminate HL.
  - exists [], []. repeat split; auto; unfold lin; cbn; lra.
  - inversion F as [|? ? F1 F2]; subst. destruct (IH ss ltac:(cbn in HL; lia) F2) as (a & b & La & Lb & Fa & Fb & AB & B1 & B2).
    destruct (Qlt_le_dec s 0) as [S|S].
    + exists (1 :: a), (0 :: b). cbn [length]. rewrite !lin_cons. repeat split; auto; try lra; nra.
    + exists (0 :: a), (1 :: b). cbn [length]. rewrite !lin_cons. repeat split; auto; try lra; nra.
Qed.

Lemma choice_corner nd os : (1 <= nd <= 3)%nat -> length os = nd -> Forall (fun o => o = 0 \/ o = 1) os ->
  exists o, In o (corners nd) /\ os = map (fun e => inject_Z (tget o e)) (seq 0 nd).
Proof.
  intros Hnd HL F. destruct nd as [|[|[|[|]]]]; try lia.
  - destruct os as [|a [|]]; try discriminate HL. inversion F as [|? ? A _]; subst.
    destruct A as [-> | ->]; [exists (T3 0 0 0)%Z|exists (T3 1 0 0)%Z]; (split; [cbn; tauto|reflexivity]).
  - destruct os as [|a [|b [|]]]; try discriminate HL. inversion F as [|? ? A F1]; subst. inversion F1 as [|? ? B _]; subst.
    destruct A as [-> | ->], B as [-> | ->]; [exists (T3 0 0 0)%Z|exists (T3 0 1 0)%Z|exists (T3 1 0 0)%Z|exists (T3 1 1 0)%Z]; (split; [cbn; tauto|reflexivity]).
  - destruct os as [|a [|b [|e [|]]]]; try discriminate HL. inversion F as [|? ? A F1]; subst. inversion F1 as [|? ? B F2]; subst. inversion F2 as [|? ? D _]; subst.
    destruct A as [-> | ->], B as [-> | ->], D as [-> | ->];
      [exists (T3 0 0 0)%Z|exists (T3 0 0 1)%Z|exists (T3 0 1 0)%Z|exists (T3 0 1 1)%Z|exists (T3 1 0 0)%Z|exists (T3 1 0 1)%Z|exists (T3 1 1 0)%Z|exists (T3 1 1 1)%Z];
      (split; [cbn; tauto|reflexivity]).
Qed.

Lemma lin_located nd X cell u d : (1 <= nd <= 3)%nat ->
  qtotal (map (fun e => tget u e * side X cell e d) (seq 0 nd)) = lin (map (fun e => tget u e) (seq 0 nd)) (map (fun e => side X cell e d) (seq 0 nd)).
Proof. intros Hnd. unfold lin. destruct nd as [|[|[|[|]]]]; try lia; reflexivity. Qed.

Lemma scale_get b nd tol d : (d < 3)%nat -> let k := if Nat.ltb d nd then tol else 0 in
  tget (bb (scale_box b (scale_factor nd tol))) d == tget (bb b) d - k * (tget (be b) d - tget (bb b) d) /\
  tget (be (scale_box b (scale_factor nd tol))) d == tget (be b) d + k * (tget (be b) d - tget (bb b) d).
Proof.
  intros Hd. unfold scale_box. cbn [bb be]. rewrite !tget_tmake by exact Hd. unfold scale_factor. rewrite tget_tmake by exact Hd.
  destruct (Nat.ltb d nd); cbn zeta; split; ring.
Qed.

(** A point near a cell with parallel edges is in the scaled box of the cell. *)
Lemma reach_box nd X O cell b tol maxtol u x : (1 <= nd <= 3)%nat -> 0 <= tol <= maxtol ->
  let X' := fun p => oriented O (X p) in
  bounds_ok nd X O cell b -> parallel nd X' cell -> within nd tol u -> located nd X' cell u x ->
  planar nd x -> planar nd (X' (tadd cell (T3 0 0 0)%Z)) -> box_contains (scale_box b (scale_factor nd maxtol)) x = true.
Proof.
  intros Hnd HT X' B P W Lo Px PX. apply contains_spec. intros d Hd. destruct (scale_get b nd maxtol d Hd) as [E1 E2]. rewrite E1, E2. clear E1 E2.
  destruct (Nat.ltb_spec d nd) as [Hn|Hn].
  - rewrite (Lo d Hn), lin_located by exact Hnd. set (ss := map (fun e => side X' cell e d) (seq 0 nd)).
    destruct (extremes tol ltac:(lra) (map (fun e => tget u e) (seq 0 nd)) ss) as (a & c & La & Lc & Fa & Fc & AC & K1 & K2).
    { unfold ss. rewrite !map_length. reflexivity. }
    { apply Forall_forall. intros v Hv. apply in_map_iff in Hv as (e & <- & He). apply in_seq in He. apply W. lia. }
    assert (Ls : length ss = nd) by (unfold ss; rewrite map_length, seq_length; reflexivity).
    assert (V : forall os, length os = nd -> Forall (fun o => o = 0 \/ o = 1) os -> tget (bb b) d <= tget (X' cell) d + lin os ss <= tget (be b) d).
    { intros os H1 H2. destruct (choice_corner nd os Hnd H1 H2) as (o & Ho & Eo). specialize (B o Ho d Hd). specialize (P o Ho d Hn).
      rewrite lin_located in P by exact Hnd. fold ss in P.
      assert (EE : map (fun e => tget (tmake (fun e0 => inject_Z (tget o e0))) e) (seq 0 nd) = os).
      { rewrite Eo. apply map_ext_in. intros e He. apply in_seq in He. rewrite tget_tmake by lia. reflexivity. }
      rewrite EE in P. unfold X' in P at 1. rewrite <- P. exact B. }
    pose proof (V a ltac:(lia) Fa) as Va. pose proof (V c ltac:(lia) Fc) as Vc.
    set (A := lin a ss) in *. set (C := lin c ss) in *. set (U := lin _ ss) in *. set (x0 := tget (X' cell) d) in *. set (lo := tget (bb b) d) in *. set (hi := tget (be b) d) in *.
    clearbody A C U x0 lo hi. clear - HT AC K1 K2 Va Vc. assert (M : tol * (C - A) <= maxtol * (hi - lo)) by nra. lra.
  - assert (C0 : In (T3 0 0 0)%Z (corners nd)) by (destruct nd as [|[|[|[|]]]]; try lia; cbn; tauto).
    specialize (B _ C0 d Hd). specialize (PX d ltac:(lia)). specialize (Px d ltac:(lia)). unfold X' in PX. rewrite PX in B. rewrite Px. lra.
Qed.

(** A point between the vertices is in the box. *)
Lemma hull_box nd X O cell b maxtol x : (1 <= nd <= 3)%nat -> 0 <= maxtol ->
  let X' := fun p => oriented O (X p) in
  bounds_ok nd X O cell b -> hull nd (at_corners X' cell (corners nd)) x ->
  planar nd x -> planar nd (X' (tadd cell (T3 0 0 0)%Z)) -> box_contains (scale_box b (scale_factor nd maxtol)) x = true.
Proof.
  intros Hnd HT X' B H Px PX. apply scale_contains; [apply scale_ge; exact HT|]. apply contains_spec. intros d Hd.
  destruct (Nat.ltb_spec d nd) as [Hn|Hn].
  - apply (hull_bounds nd _ x d _ _ H Hn). intros v Hv. unfold at_corners in Hv. apply in_map_iff in Hv as (o & <- & Ho). apply (B o Ho d Hd).
  - assert (C0 : In (T3 0 0 0)%Z (corners nd)) by (destruct nd as [|[|[|[|]]]]; try lia; cbn; tauto).
    specialize (B _ C0 d Hd). specialize (PX d ltac:(lia)). specialize (Px d ltac:(lia)). unfold X' in PX. rewrite PX in B. rewrite Px. lra.
Qed.

(** A cell is not flat. *)
Definition thick (nd : nat) (X : tup Z -> tup Q) (cell : tup Z) : Prop :=
  forall d, (d < nd)%nat -> exists o o', In o (corners nd) /\ In o' (corners nd) /\ tget (X (tadd cell o)) d < tget (X (tadd cell o')) d.

Lemma thick_solid nd X O cell b maxtol : (1 <= nd <= 3)%nat -> 0 <= maxtol -> bounds_ok nd X O cell b -> thick nd (fun p => oriented O (X p)) cell ->
  let b' := scale_box b (scale_factor nd maxtol) in solid nd (BoxModel.mkB (bb b') (be b')).
Proof.
  intros Hnd HT B T b'.
  assert (C0 : In (T3 0 0 0)%Z (corners nd)) by (destruct nd as [|[|[|[|]]]]; try lia; cbn; tauto).
  split.
  - apply BoxProof.bempty_false. cbn [BoxModel.bb BoxModel.be].
    assert (G : forall d, (d < 3)%nat -> tget (bb b') d <= tget (be b') d).
    { intros d Hd. destruct (scale_get b nd maxtol d Hd) as [E1 E2]. unfold b'. rewrite E1, E2. pose proof (B _ C0 d Hd). destruct (Nat.ltb d nd); nra. }
    split; [exact (G 0%nat ltac:(lia))|]. split; [exact (G 1%nat ltac:(lia))|exact (G 2%nat ltac:(lia))].
  - intros d Hd. cbn [BoxModel.bb BoxModel.be]. destruct (scale_get b nd maxtol d ltac:(lia)) as [E1 E2]. unfold b'. rewrite E1, E2.
    destruct (T d Hd) as (o & o' & Ho & Ho' & Q). pose proof (B o Ho d ltac:(lia)). pose proof (B o' Ho' d ltac:(lia)). destruct (Nat.ltb d nd); nra.
Qed.

Lemma tadd_origin cell : tadd cell (T3 0 0 0)%Z = cell.
Proof. destruct cell as [a b e]. unfold tadd, tmake. cbn [tget c0 c1 c2]. rewrite !Z.add_0_r. reflexivity. Qed.

Lemma unit_corner nd e : (1 <= nd <= 3)%nat -> (e < nd)%nat -> In (unit_step e) (corners nd).
Proof. intros Hnd He. destruct nd as [|[|[|[|]]]]; try lia; destruct e as [|[|[|]]]; try lia; cbn; tauto. Qed.

Lemma sides_thick nd X cell : (1 <= nd <= 3)%nat -> (forall d, (d < nd)%nat -> exists e, (e < nd)%nat /\ ~ side X cell e d == 0) -> thick nd X cell.
Proof.
  intros Hnd H d Hd. destruct (H d Hd) as (e & He & S). unfold side in S.
  assert (C0 : In (T3 0 0 0)%Z (corners nd)) by (destruct nd as [|[|[|[|]]]]; try lia; cbn; tauto).
  destruct (Qlt_le_dec (tget (X cell) d) (tget (X (tadd cell (unit_step e))) d)) as [G|G].
  - exists (T3 0 0 0)%Z, (unit_step e). split; [exact C0|]. split; [apply unit_corner; assumption|]. rewrite tadd_origin. exact G.
  - exists (unit_step e), (T3 0 0 0)%Z. split; [apply unit_corner; assumption|]. split; [exact C0|]. rewrite tadd_origin.
    destruct (Qlt_le_dec (tget (X (tadd cell (unit_step e))) d) (tget (X cell) d)) as [K|K]; [exact K|]. exfalso. apply S. lra.
Qed.

Lemma some_side nd X cell d : (1 <= nd <= 3)%nat -> ~ (forall e, (e < nd)%nat -> side X cell e d == 0) -> exists e, (e < nd)%nat /\ ~ side X cell e d == 0.
Proof.
  intros Hnd H.
  assert (G : forall k, (k <= nd)%nat -> (forall e, (e < k)%nat -> side X cell e d == 0) \/ exists e, (e < nd)%nat /\ ~ side X cell e d == 0).
  { induction k as [|k IH]; intros Hk; [left; intros e He; lia|]. destruct (IH ltac:(lia)) as [I|I]; [|right; exact I].
    destruct (Qeq_dec (side X cell k d) 0) as [Z0|Z0]; [left|right; exists k; split; [lia|exact Z0]].
    intros e He. destruct (Nat.eq_dec e k) as [->|N]; [exact Z0|apply I; lia]. }
  destruct (G nd ltac:(lia)) as [I|I]; [contradiction|exact I].
Qed.

Lemma along_thick nd X cell : (1 <= nd <= 3)%nat -> along_axes nd X cell -> thick nd X cell.
Proof. intros Hnd [_ A]. apply sides_thick; [exact Hnd|]. intros d Hd. exists d. split; [exact Hd|apply A; exact Hd]. Qed.

Lemma full_thick nd X cell : (1 <= nd <= 3)%nat -> full nd X cell -> thick nd X cell.
Proof.
  intros Hnd F. apply sides_thick; [exact Hnd|]. intros d Hd. apply some_side; [exact Hnd|]. intros H.
  destruct nd as [|[|[|[|]]]]; try lia.
  - destruct d as [|d]; [|lia]. exact (F (H 0%nat ltac:(lia))).
  - pose proof (H 0%nat ltac:(lia)) as H0. pose proof (H 1%nat ltac:(lia)) as H1. apply F. unfold signed_area. unfold side in H0, H1.
    set (a := X cell) in *. set (b := X (tadd cell (unit_step 0))) in *. set (e := X (tadd cell (unit_step 1))) in *. clearbody a b e.
    destruct d as [|[|d]]; [| |lia]; cbn [tget] in H0, H1; rewrite H0, H1; ring.
  - pose proof (H 0%nat ltac:(lia)) as H0. pose proof (H 1%nat ltac:(lia)) as H1. pose proof (H 2%nat ltac:(lia)) as H2. apply F. unfold signed_volume. unfold side in H0, H1, H2.
    set (a := X cell) in *. set (b := X (tadd cell (unit_step 0))) in *. set (e := X (tadd cell (unit_step 1))) in *. set (f := X (tadd cell (unit_step 2))) in *. clearbody a b e f.
    cbn [c0 c1 c2]. destruct d as [|[|[|d]]]; [| | |lia]; cbn [tget] in H0, H1, H2; rewrite H0, H1, H2; ring.
Qed.

Lemma perpendicular_thick nd X cell : (1 <= nd <= 3)%nat -> perpendicular nd X cell -> thick nd X cell.
Proof.
  intros Hnd [P1 P2]. apply sides_thick; [exact Hnd|]. intros d Hd. apply some_side; [exact Hnd|]. intros H.
  destruct nd as [|[|[|[|]]]]; try lia.
  - destruct d as [|d]; [|lia]. apply (P1 0%nat ltac:(lia)). unfold inner. cbn [seq map qtotal fold_right]. rewrite (H 0%nat ltac:(lia)). ring.
  - pose proof (H 0%nat ltac:(lia)) as H0. pose proof (H 1%nat ltac:(lia)) as H1.
    pose proof (P1 0%nat ltac:(lia)) as A. pose proof (P1 1%nat ltac:(lia)) as B. pose proof (P2 0%nat 1%nat ltac:(lia) ltac:(lia) ltac:(lia)) as C.
    unfold inner in *. cbn [seq map qtotal fold_right] in *.
    destruct d as [|[|d]]; [| |lia].
    + rewrite H0, H1 in C. assert (E : side X cell 0 1 * side X cell 1 1 == 0) by lra. apply Qmult_integral in E as [E|E]; [apply A; rewrite E, H0|apply B; rewrite E, H1]; ring.
    + rewrite H0, H1 in C. assert (E : side X cell 0 0 * side X cell 1 0 == 0) by lra. apply Qmult_integral in E as [E|E]; [apply A; rewrite E, H0|apply B; rewrite E, H1]; ring.
  - pose proof (H 0%nat ltac:(lia)) as H0. pose proof (H 1%nat ltac:(lia)) as H1. pose proof (H 2%nat ltac:(lia)) as H2.
    pose proof (P1 0%nat ltac:(lia)) as A. pose proof (P1 1%nat ltac:(lia)) as B. pose proof (P1 2%nat ltac:(lia)) as C.
    pose proof (P2 0%nat 1%nat ltac:(lia) ltac:(lia) ltac:(lia)) as AB. pose proof (P2 0%nat 2%nat ltac:(lia) ltac:(lia) ltac:(lia)) as AC. pose proof (P2 1%nat 2%nat ltac:(lia) ltac:(lia) ltac:(lia)) as BC.
    unfold inner in *. cbn [seq map qtotal fold_right] in *.
    set (na := (side X cell 0 0) * (side X cell 0 0) + ((side X cell 0 1) * (side X cell 0 1) + ((side X cell 0 2) * (side X cell 0 2) + 0))) in *. set (nb := (side X cell 1 0) * (side X cell 1 0) + ((side X cell 1 1) * (side X cell 1 1) + ((side X cell 1 2) * (side X cell 1 2) + 0))) in *. set (ne := (side X cell 2 0) * (side X cell 2 0) + ((side X cell 2 1) * (side X cell 2 1) + ((side X cell 2 2) * (side X cell 2 2) + 0))) in *.
    set (ab := (side X cell 0 0) * (side X cell 1 0) + ((side X cell 0 1) * (side X cell 1 1) + ((side X cell 0 2) * (side X cell 1 2) + 0))) in *. set (ae := (side X cell 0 0) * (side X cell 2 0) + ((side X cell 0 1) * (side X cell 2 1) + ((side X cell 0 2) * (side X cell 2 2) + 0))) in *. set (be := (side X cell 1 0) * (side X cell 2 0) + ((side X cell 1 1) * (side X cell 2 1) + ((side X cell 1 2) * (side X cell 2 2) + 0))) in *.
    set (D := (side X cell 0 0) * ((side X cell 1 1) * (side X cell 2 2) - (side X cell 1 2) * (side X cell 2 1)) - (side X cell 0 1) * ((side X cell 1 0) * (side X cell 2 2) - (side X cell 1 2) * (side X cell 2 0)) + (side X cell 0 2) * ((side X cell 1 0) * (side X cell 2 1) - (side X cell 1 1) * (side X cell 2 0))).
    assert (G : D * D == na * (nb * ne - be * be) - ab * (ab * ne - be * ae) + ae * (ab * be - nb * ae)) by (unfold D, na, nb, ne, ab, ae, be; ring).
    assert (D0 : D == 0). { unfold D. destruct d as [|[|[|d]]]; [| | |lia]; rewrite H0, H1, H2; ring. }
    rewrite D0, AB, AC, BC in G.
    assert (E : na * (nb * ne) == 0) by lra. apply Qmult_integral in E as [E|E]; [exact (A E)|]. apply Qmult_integral in E as [E|E]; auto.
Qed.

Lemma regular_thick g nd X cell : (1 <= nd <= 3)%nat -> regular g nd X cell -> thick nd X cell.
Proof.
  intros Hnd R. destruct g; cbn [regular] in R; try (apply along_thick; tauto); apply perpendicular_thick; assumption.
Qed.

(** *** Coordinates that are equal as numbers *)
Section Same.
Variables (nd : nat) (X X' : tup Z -> tup Q).
Hypothesis Hnd : (1 <= nd <= 3)%nat.
Hypothesis HX : forall p d, (d < 3)%nat -> tget (X' p) d == tget (X p) d.

Lemma side_same cell e d : (d < 3)%nat -> side X' cell e d == side X cell e d.
Proof. intros Hd. unfold side. rewrite !HX by exact Hd. reflexivity. Qed.

Lemma located_same cell u x x' : (forall d, (d < nd)%nat -> tget x' d == tget x d) -> located nd X cell u x -> located nd X' cell u x'.
Proof.
  intros E H d Hd. rewrite (E d Hd), (H d Hd), HX by lia.
  assert (G : qtotal (map (fun e => tget u e * side X cell e d) (seq 0 nd)) == qtotal (map (fun e => tget u e * side X' cell e d) (seq 0 nd))).
  { apply GeomNewton.qtotal_ext. intros e _. rewrite side_same by lia. reflexivity. }
  rewrite G. reflexivity.
Qed.

Lemma parallel_same cell : parallel nd X cell -> parallel nd X' cell.
Proof. intros P o Ho. apply (located_same cell _ (X (tadd cell o))); [intros d Hd; apply HX; lia|apply P; exact Ho]. Qed.

Lemma inner_same cell e e' : inner nd (side X' cell e) (side X' cell e') == inner nd (side X cell e) (side X cell e').
Proof. unfold inner. apply GeomNewton.qtotal_ext. intros d Hd. apply in_seq in Hd. rewrite !side_same by lia. reflexivity. Qed.

Lemma regular_same g cell : regular g nd X cell -> regular g nd X' cell.
Proof.
  assert (A : along_axes nd X cell -> along_axes nd X' cell).
  { intros [A1 A2]. split; [intros e d He Hd N; rewrite side_same by lia; auto|intros d Hd; rewrite side_same by lia; auto]. }
  assert (P : perpendicular nd X cell -> perpendicular nd X' cell).
  { intros [A1 A2]. split; [intros e He; rewrite inner_same; auto|intros e e' He He' N; rewrite inner_same; auto]. }
  destruct g; cbn [regular]; tauto.
Qed.
End Same.

Lemma beyond_same x y : x == y -> (beyond x == beyond y)%Q.
Proof. intros E. unfold beyond. assert (M : Qmax 0 (Qmin x 1) == Qmax 0 (Qmin y 1)) by (rewrite E; reflexivity). rewrite M, E. reflexivity. Qed.

Lemma excess_same nd u v : (forall d, (d < nd)%nat -> tget u d == tget v d) -> excess nd u == excess nd v.
Proof.
  intros E. unfold excess. change (fold_right Qplus 0) with qtotal. apply GeomNewton.qtotal_ext. intros d Hd. apply in_seq in Hd. rewrite (beyond_same _ _ (E d ltac:(lia))). reflexivity.
Qed.

Lemma as_good_same nd u i v j v' : (forall d, (d < nd)%nat -> tget v d == tget v' d) -> as_good nd u i v j -> as_good nd u i v' j.
Proof.
  intros E H. pose proof (excess_same nd v v' E) as X. unfold as_good in *.
  assert (N1 : no_farther nd u v -> no_farther nd u v').
  { intros N d Hd. destruct (N d Hd) as (e & He & Q). exists e. split; [exact He|]. rewrite <- (E e He). exact Q. }
  assert (N2 : no_farther nd v' u -> no_farther nd v u).
  { intros N d Hd. destruct (N d Hd) as (e & He & Q). exists e. split; [exact He|]. rewrite (E d Hd). exact Q. }
  destruct H as [H|[(H1 & H2 & H3)|(H1 & H2 & H3 & H4)]]; [left; lra|right; left; repeat split; auto; lra|right; right; repeat split; auto; lra].
Qed.

Lemma cell_zero c cell : pt_in (c_range (cart_point_to_cell c)) cell -> corner_zero (c_nd c) cell.
Proof.
  intros H d Hd. rewrite pt_in_tget in H. specialize (H d ltac:(lia)). unfold cart_point_to_cell in H. cbn [c_range] in H.
  match type of H with context [dims_range ?m ?b ?e] => destruct (dims_range_get m b e d ltac:(lia)) as [G1 G2] end. rewrite G1, G2 in H.
  destruct (Nat.ltb_spec d (c_nd c)); lia.
Qed.

(** ** Uniform grids *)
Section Uniform.
Variables (g : geometry) (c : cart) (n : nat) (L : nat -> range) (stop : range -> bool) (depth : nat -> nat) (active : tup Z -> bool).
Variables (X : tup Z -> tup Q) (O : nat -> range -> tup (tup Q)) (maxtol : Q).
Variables (leaf : nat -> range -> list (Z * BoxModel.box) -> bool) (scale : nat -> range -> Q) (levels : nat -> range -> nat -> nat).
Variables (loc : range) (nactive : tup Z -> bool) (Y : tup Z -> tup Q) (tol : Q).
Let nd := c_nd c.
Let cells := c_range (cart_point_to_cell c).
Hypothesis HD : decomposed c n L.
Hypothesis HT : 0 <= tol <= maxtol.
Hypothesis HS : forall r f, 0 < scale r f.
Hypothesis HX : forall p, planar nd (X p).
Hypothesis HY : forall p, pt_in loc p -> nactive p = true -> planar nd (Y p).

Lemma built_thick rnd : rounding rnd -> (forall q, 0 < q -> 0 < rnd q) ->
  (forall r f cell, (r < n)%nat -> In f (fragments c L stop depth active r) -> pt_in f cell -> active cell = true -> thick nd (fragment_coords X O r f) cell) ->
  forall r f, (r < n)%nat -> In f (fragments c L stop depth active r) -> exists a, fragment_accel rnd c active X O maxtol leaf scale levels r f = Some a.
Proof.
  intros R1 R2 T r f Hr Hf. unfold fragment_accel. apply accel_built; [exact R1|exact R2|apply HD|apply HS|]. intros cell Hc A. unfold fragment_bounds.
  pose proof (HNd c n L HD) as Hnd. apply (thick_solid nd X (O r f) cell); [exact Hnd|lra| |apply (T r f cell Hr Hf Hc A)].
  apply cell_bounds_ok; [exact Hnd|]. apply cell_zero. apply (frag_cells c n L stop depth active HD r f cell Hr Hf Hc).
Qed.

Hypothesis HO : forall r f, upright (O r f).
Hypothesis HC : forall cell, pt_in cells cell -> active cell = true -> regular g nd X cell /\ parallel nd X cell.

Lemma up_planar r f x : planar nd x -> planar nd (oriented (O r f) x).
Proof. intros P d Hd. rewrite upright_get by (auto; lia). apply P, Hd. Qed.
Lemma up_coords r f p d : (d < 3)%nat -> tget (fragment_coords X O r f p) d == tget (X p) d.
Proof. intros Hd. apply upright_get; auto. Qed.

Lemma regular_boxed r f p cell u : (r < n)%nat -> In f (fragments c L stop depth active r) -> pt_in f cell -> active cell = true -> pt_in loc p -> nactive p = true ->
  accepted g c X O Y tol r f p cell u -> BoxProof.box_in (fragment_bounds c X O maxtol r f cell) (oriented (O r f) (Y p)).
Proof.
  intros Hr Hf Hc A Hp Hn [T1 _]. pose proof (HNd c n L HD) as Hnd. destruct (frag_cells c n L stop depth active HD r f cell Hr Hf Hc) as [C _].
  destruct (HC cell C A) as [R P].
  apply (regular_overlaps g (c_nd c)) in T1; [|exact Hnd|apply (regular_same _ X _ Hnd (up_coords r f)); exact R|apply (parallel_same _ X _ Hnd (up_coords r f)); exact P].
  destruct T1 as (v & W & Lo). unfold fragment_bounds. apply (proj2 (box_in_contains _ _)).
  apply (reach_box nd X (O r f) cell _ tol maxtol v); auto.
  - apply cell_bounds_ok; [exact Hnd|]. apply cell_zero, C.
  - apply (parallel_same _ X _ Hnd (up_coords r f)); exact P.
  - apply up_planar, HY; auto.
  - apply up_planar, HX.
Qed.

Lemma regular_built rnd : rounding rnd -> (forall q, 0 < q -> 0 < rnd q) -> forall r f, (r < n)%nat -> In f (fragments c L stop depth active r) ->
  exists a, fragment_accel rnd c active X O maxtol leaf scale levels r f = Some a.
Proof.
  intros R1 R2. apply built_thick; auto. intros r f cell Hr Hf Hc A. pose proof (HNd c n L HD) as Hnd. destruct (frag_cells c n L stop depth active HD r f cell Hr Hf Hc) as [C _].
  destruct (HC cell C A) as [R P]. apply (regular_thick g); [exact Hnd|]. apply (regular_same _ X _ Hnd (up_coords r f)); exact R.
Qed.

(** The cell that a point is in. *)
Definition reached (p cell : tup Z) (u : tup Q) : Prop := pt_in cells cell /\ active cell = true /\ in_reach_of nd X tol cell (Y p) u.

Lemma id_rounding : rounding (fun q => q). Proof. split; [auto|reflexivity]. Qed.

Lemma detect_uniform : g = UNIFORM \/ g = ORIENTED_UNIFORM ->
  exists es, detect (fun q => q) g c n L stop depth active X O maxtol leaf scale levels loc nactive Y tol = Some es /\
  StronglySorted (fun p q => (rindex ColMajor loc p < rindex ColMajor loc q)%Z) (map e_point es) /\
  (forall p, In p (map e_point es) <-> pt_in loc p /\ nactive p = true /\ exists cell u, reached p cell u) /\
  (forall e, In e es -> reached (e_point e) (e_cell e) (e_coords e)) /\
  (forall e cell u, In e es -> reached (e_point e) cell u ->
    as_good nd (e_coords e) (rindex ColMajor cells (e_cell e)) u (rindex ColMajor cells cell)).
Proof.
  intros Hg. pose proof (HNd c n L HD) as Hnd.
  destruct (detect_ok (fun q => q) g c n L stop depth active X O maxtol leaf scale levels loc nactive Y tol id_rounding HD
    (regular_built _ id_rounding ltac:(auto)) regular_boxed) as (es & E & S & A1 & A2 & A3).
  assert (K1 : forall p cell u, cand g c n L stop depth active X O Y tol p cell u -> reached p cell u).
  { intros p cell u (A & r & f & Hr & Hf & Hc & T1 & T2). destruct (frag_cells c n L stop depth active HD r f cell Hr Hf Hc) as [C _].
    split; [exact C|]. split; [exact A|]. destruct (HC cell C A) as [R P].
    apply (regular_overlaps g (c_nd c)) in T1; [|exact Hnd|apply (regular_same _ X _ Hnd (up_coords r f)); exact R|apply (parallel_same _ X _ Hnd (up_coords r f)); exact P].
    destruct (regular_coords g (c_nd c) (fragment_extents c f) (fragment_coords X O r f) cell (oriented (O r f) (Y p)) Hnd Hg
      ltac:(apply (regular_same _ X _ Hnd (up_coords r f)); exact R) ltac:(apply (parallel_same _ X _ Hnd (up_coords r f)); exact P)) as (u' & E' & Lo & U).
    assert (u' = u) by congruence. subst u'. destruct T1 as (v & W & Lv). split.
    - intros d Hd. rewrite <- (U v Lv d Hd). apply W, Hd.
    - apply (located_same nd (fragment_coords X O r f) X) with (x := oriented (O r f) (Y p)); auto.
      + intros q d Hd. rewrite up_coords by exact Hd. reflexivity.
      + intros d Hd. rewrite upright_get by (auto; unfold nd in Hd; lia). reflexivity. }
  assert (K2 : forall p cell u, reached p cell u -> exists v, cand g c n L stop depth active X O Y tol p cell v /\ forall d, (d < nd)%nat -> tget v d == tget u d).
  { intros p cell u (C & A & W & Lo). destruct (HC cell C A) as [R P].
    pose proof (cell_cart_subset c (Hdims c n L HD) cell C) as Hgr. destruct (L_owner c n L HD cell Hgr) as (r & Hr & Hl).
    destruct (fragments_ok c n L stop depth active HD r Hr) as (_ & F2 & _). destruct (F2 cell) as (f & If & Hf); [apply (own_cells c n L HD r cell Hr); auto|auto|].
    destruct (regular_coords g (c_nd c) (fragment_extents c f) (fragment_coords X O r f) cell (oriented (O r f) (Y p)) Hnd Hg
      ltac:(apply (regular_same _ X _ Hnd (up_coords r f)); exact R) ltac:(apply (parallel_same _ X _ Hnd (up_coords r f)); exact P)) as (v & E' & Lv & U).
    assert (Lu : located nd (fragment_coords X O r f) cell u (oriented (O r f) (Y p))).
    { apply (located_same nd X) with (x := Y p); auto; [apply (up_coords r f)|]. intros d Hd. apply upright_get; [auto|unfold nd in Hd; lia]. }
    exists v. split; [|intros d Hd; symmetry; apply U; auto]. split; [exact A|]. exists r, f. split; [exact Hr|]. split; [exact If|]. split; [exact Hf|]. split; [|exact E'].
    apply regular_overlaps; [exact Hnd|apply (regular_same _ X _ Hnd (up_coords r f)); exact R|apply (parallel_same _ X _ Hnd (up_coords r f)); exact P|].
    exists u. split; [exact W|exact Lu]. }
  exists es. split; [exact E|]. split; [exact S|]. split; [|split].
  - intros p. rewrite A1. split; intros (H1 & H2 & cell & u & K); (split; [exact H1|]); (split; [exact H2|]).
    + exists cell, u. apply K1, K.
    + destruct (K2 p cell u K) as (v & V & _). eauto.
  - intros e He. apply K1, A2, He.
  - intros e cell u He K. destruct (K2 _ _ _ K) as (v & V & EV). apply (as_good_same nd _ _ v _ u EV).
    apply better_exact. apply (A3 e cell v He V).
Qed.
End Uniform.
