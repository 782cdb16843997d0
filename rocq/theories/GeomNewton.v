(** Proofs about the coordinates of points in cells. *)
From Coq Require Import List ZArith QArith Qabs Qfield Bool Lia Lqa Psatz Setoid.
From Verif Require Import Base TupleModel RangeModel CartModel DecompModel ArrayModel HashModel GeomModel GeomSpec GeomProof.
Import ListNotations.
Local Open Scope Q_scope.

Lemma vsum_total : forall l, vsum l == qtotal l.
Proof.
  assert (G : forall l a, fold_left Qplus l a == a + qtotal l).
  { induction l as [|y l IH]; intros a; [cbn; ring|]. cbn [fold_left]. rewrite IH, qtotal_cons. ring. }
  intros l. unfold vsum. rewrite G. ring.
Qed.

Lemma zrange4 : forall s, zrange (s - 1) (s + 3) = [s + -1; s + 0; s + 1; s + 2]%Z.
Proof.
  intros s. unfold zrange. replace (Z.to_nat (s + 3 - (s - 1))) with 4%nat by lia. cbn [zseq].
  replace (s - 1 + 1)%Z with (s + 0)%Z by lia. replace (s + 0 + 1)%Z with (s + 1)%Z by lia. replace (s + 1 + 1)%Z with (s + 2)%Z by lia. reflexivity.
Qed.
Lemma zrange01 : zrange 0 1 = [0%Z]. Proof. reflexivity. Qed.

Lemma cubic_lagrange : forall u, exists a b c d, cubic u = [a; b; c; d] /\
  a == lagrange (-1) u /\ b == lagrange 0 u /\ c == lagrange 1 u /\ d == lagrange 2 u.
Proof.
  intros u. do 4 eexists. split; [reflexivity|]. unfold lagrange. cbn [fold_right Z.eqb].
  repeat split; cbn [Pos.eqb Z.sub Z.add Z.opp Z.pos_sub Z.double Pos.pred_double Pos.add Pos.succ inject_Z]; unfold inject_Z; field.
Qed.

(** Interpolation with the weights of the code is the interpolating cubic. *)
Lemma iso_cubic : forall nd X s u d, (1 <= nd <= 3)%nat -> corner_zero nd s -> (d < nd)%nat ->
  tget (iso nd cubic (stencil nd X s) u) d == cubic_map nd X s u d.
Proof.
  intros nd X s u d Hnd Z0 Hd. unfold iso, weighted. rewrite tget_tmake by lia.
  replace (Nat.ltb d nd) with true by (symmetry; apply Nat.ltb_lt; exact Hd).
  rewrite vsum_total. unfold cubic_map, stencil, foreach_col, weights, shapes.
  destruct s as [s0 s1 s2]. destruct u as [u0 u1 u2].
  destruct (cubic_lagrange u0) as [a0 [a1 [a2 [a3 [A [A0 [A1 [A2 A3]]]]]]]].
  destruct (cubic_lagrange u1) as [b0 [b1 [b2 [b3 [B [B0 [B1 [B2 B3]]]]]]]].
  destruct (cubic_lagrange u2) as [k0 [k1 [k2 [k3 [K [K0 [K1 [K2 K3]]]]]]]].
  destruct nd as [|[|[|[|]]]]; try lia; cbn [Nat.ltb Nat.leb rb re tmake c0 c1 c2 tget].
  - assert (E1 : s1 = 0%Z) by (apply (Z0 1%nat); lia). assert (E2 : s2 = 0%Z) by (apply (Z0 2%nat); lia). subst s1 s2.
    rewrite zrange4, zrange01, A. cbn [flat_map map app combine]. rewrite !qtotal_cons. change (qtotal []) with 0. cbn [fst snd].
    unfold tadd, tmake. cbn [tget c0 c1 c2]. rewrite <- A0, <- A1, <- A2, <- A3. change (0 + 0)%Z with 0%Z. ring.
  - assert (E2 : s2 = 0%Z) by (apply (Z0 2%nat); lia). subst s2.
    rewrite !zrange4, zrange01, A, B. cbn [flat_map map app combine]. rewrite !qtotal_cons. change (qtotal []) with 0. cbn [fst snd].
    unfold tadd, tmake. cbn [tget c0 c1 c2]. rewrite <- A0, <- A1, <- A2, <- A3, <- B0, <- B1, <- B2, <- B3. change (0 + 0)%Z with 0%Z. ring.
  - rewrite !zrange4, A, B, K. cbn [flat_map map app combine]. rewrite !qtotal_cons. change (qtotal []) with 0. cbn [fst snd].
    unfold tadd, tmake. cbn [tget c0 c1 c2]. rewrite <- A0, <- A1, <- A2, <- A3, <- B0, <- B1, <- B2, <- B3, <- K0, <- K1, <- K2, <- K3. ring.
Qed.

Lemma newton_sound : forall nd f f' p x tol steps u0 u, newton nd f f' p x tol steps u0 = Some u ->
  forall d, (d < nd)%nat -> (d < 3)%nat -> Qabs (tget x d - tget (iso nd f p u) d) <= tol.
Proof.
  assert (G : forall nd tol (x y : tup Q), small nd tol (vsub x y) = true -> forall d, (d < nd)%nat -> (d < 3)%nat -> Qabs (tget x d - tget y d) <= tol).
  { intros nd tol x y S d Hd Hd3. unfold small in S. rewrite forallb_forall in S. specialize (S d ltac:(apply in_seq; lia)). apply Qle_bool_iff in S.
    unfold vsub in S. rewrite tget_tmake in S by assumption. exact S. }
  induction steps as [|k IH]; intros u0 u H; cbn [newton] in H; destruct (small nd tol (vsub x (iso nd f p u0))) eqn:S.
  - injection H as <-. apply G, S.
  - discriminate.
  - injection H as <-. apply G, S.
  - destruct (omap finite _) as [du|]; [|discriminate]. cbn in H. exact (IH _ _ H).
Qed.

Lemma lagrange_comp : forall i u v, u == v -> lagrange i u == lagrange i v.
Proof.
  intros i u v E. unfold lagrange. induction [-1; 0; 1; 2]%Z as [|j l IH]; [reflexivity|]. cbn [fold_right]. destruct (Z.eqb i j); [exact IH|]. rewrite IH, E. reflexivity.
Qed.
Lemma qtotal_ext : forall A (f g : A -> Q) l, (forall a, In a l -> f a == g a) -> qtotal (map f l) == qtotal (map g l).
Proof.
  intros A f g. induction l as [|a l IH]; intros H; [reflexivity|]. cbn [map]. rewrite !qtotal_cons, (H a) by (left; reflexivity). rewrite IH; [reflexivity|]. intros b Hb. apply H. right. exact Hb.
Qed.
Lemma cubic_map_ext : forall nd X s u v d, (forall e, (e < nd)%nat -> tget u e == tget v e) -> cubic_map nd X s u d == cubic_map nd X s v d.
Proof.
  intros nd X s u v d H. unfold cubic_map. do 3 (apply qtotal_ext; intros ? _).
  assert (G : forall e i, (if Nat.ltb e nd then lagrange i (tget u e) else 1) == (if Nat.ltb e nd then lagrange i (tget v e) else 1)).
  { intros e i. destruct (Nat.ltb e nd) eqn:L; [|reflexivity]. apply Nat.ltb_lt in L. apply lagrange_comp, H, L. }
  rewrite !G. reflexivity.
Qed.

Lemma fits_spec : forall nd E cell, (2 <= nd <= 3)%nat -> stencil_fits nd E cell = true <-> centered nd E cell (shifted nd E cell).
Proof.
  intros nd E cell Hnd. unfold stencil_fits. replace (Nat.eqb nd 1) with false by (symmetry; apply Nat.eqb_neq; lia). rewrite forallb_forall. split.
  - intros H d Hd. unfold shifted. rewrite tget_tmake by exact Hd. destruct (Nat.ltb d nd) eqn:L; [|reflexivity]. apply Nat.ltb_lt in L.
    specialize (H d ltac:(apply in_seq; lia)). unfold shifted in H. rewrite tget_tmake in H by exact Hd. apply Nat.ltb_lt in L. rewrite L in H.
    apply negb_true_iff, orb_false_iff in H. destruct H as [A B]. lia.
  - intros C d Hd. apply in_seq in Hd. specialize (C d ltac:(lia)). replace (Nat.ltb d nd) with true in C by (symmetry; apply Nat.ltb_lt; lia).
    apply negb_true_iff, orb_false_iff. lia.
Qed.
Lemma coords_cubic : forall g nd E X cell x, cubic_geometry g -> coords_in_cell g nd E X cell x =
  if stencil_fits nd E cell
      then let s := shifted nd E cell in
           let! u := newton nd cubic cubic_deriv (stencil nd X s) x NEWTON_TOL NEWTON_STEPS (halves nd) in
           Some (tmake (fun d => if Nat.ltb d nd then tget u d + inject_Z (tget s d - tget cell d) else 0))
      else None.
Proof. intros g nd E X cell x [->|[->| ->]]; reflexivity. Qed.

Lemma coords_sound : forall g nd E X cell x u, cubic_geometry g -> (2 <= nd <= 3)%nat -> corner_zero nd cell ->
  coords_in_cell g nd E X cell x = Some u ->
  exists s, centered nd E cell s /\ forall d, (d < nd)%nat ->
    Qabs (tget x d - cubic_map nd X s (tmake (fun e => tget u e - inject_Z (tget s e - tget cell e))) d) <= 1 # 1000000000000.
Proof.
  intros g nd E X cell x u Hg Hnd Z0 H. rewrite coords_cubic in H by exact Hg. destruct (stencil_fits nd E cell) eqn:F; [|discriminate].
  apply fits_spec in F; [|exact Hnd]. cbn zeta in H. set (s := shifted nd E cell) in *. exists s. split; [exact F|].
  destruct (newton _ _ _ _ _ _ _ _) as [v|] eqn:N; [|discriminate]. injection H as <-.
  assert (Zs : corner_zero nd s).
  { intros d Hd. specialize (F d ltac:(lia)). replace (Nat.ltb d nd) with false in F by (symmetry; apply Nat.ltb_ge; lia). rewrite F. apply Z0, Hd. }
  intros d Hd. pose proof (newton_sound _ _ _ _ _ _ _ _ _ N d Hd ltac:(lia)) as B. rewrite iso_cubic in B by (auto; lia).
  rewrite (cubic_map_ext nd X s _ v); [exact B|]. intros e He. rewrite tget_tmake by lia. cbn beta. rewrite tget_tmake by lia. replace (Nat.ltb e nd) with true by (symmetry; apply Nat.ltb_lt; exact He). cbv iota. ring.
Qed.

Lemma coords_line : forall g E X cell x, cubic_geometry g -> coords_in_cell g 1 E X cell x = None.
Proof.
  intros g E X cell x Hg. rewrite coords_cubic by exact Hg. unfold stencil_fits. cbn [Nat.eqb].
  assert (F : ((c0 (shifted 1 E cell) - 1 <? c0 (rb E)) && (c0 (re E) <=? c0 (shifted 1 E cell) + 2))%Z = false).
  { unfold shifted. cbn [tmake Nat.ltb Nat.leb c0 tget].
    destruct ((_ <? _)%Z) eqn:A; [|reflexivity]. destruct ((_ <=? _)%Z) eqn:B; [|reflexivity]. exfalso. apply Z.ltb_lt in A. apply Z.leb_le in B. lia. }
  rewrite F. reflexivity.
Qed.
