(** Proofs about the coordinates of points in cells: what they depend on, and points of lattices. *)
From Coq Require Import List ZArith QArith Qabs Qfield Bool Lia Lqa Psatz Setoid.
From Verif Require Import Base TupleModel RangeModel CartModel DecompModel ArrayModel HashModel RangeProof HashProof GeomModel GeomSpec GeomProof GeomNewton.
Import ListNotations.
Local Open Scope Q_scope.

(** ** The points used *)
Lemma stencil_points : forall nd E s p, (1 <= nd <= 3)%nat -> (forall d, (d < nd)%nat -> tget (rb E) d + 1 <= tget s d <= tget (re E) d - 3)%Z ->
  In p (foreach_col (mkR (tmake (fun d => if Nat.ltb d nd then tget s d - 1 else 0)%Z) (tmake (fun d => if Nat.ltb d nd then tget s d + 3 else 1)%Z))) ->
  in_extents nd E p.
Proof.
  intros nd E s p Hnd H Hp. apply foreach_col_In in Hp. intros d Hd.
  assert (B : (tget (tmake (fun d => if Nat.ltb d nd then tget s d - 1 else 0)) d <= tget p d < tget (tmake (fun d => if Nat.ltb d nd then tget s d + 3 else 1)) d)%Z).
  { destruct Hp as [B0 [B1 B2]]. destruct d as [|[|[|]]]; try lia; assumption. }
  rewrite !tget_tmake in B by exact Hd. destruct (Nat.ltb d nd) eqn:L; [|lia]. apply Nat.ltb_lt in L. specialize (H d L). lia.
Qed.
Lemma stencil_same : forall nd E X X' s, (1 <= nd <= 3)%nat -> (forall d, (d < nd)%nat -> tget (rb E) d + 1 <= tget s d <= tget (re E) d - 3)%Z ->
  (forall p, in_extents nd E p -> X' p = X p) -> stencil nd X' s = stencil nd X s.
Proof. intros nd E X X' s Hnd H HX. unfold stencil. apply map_ext_in. intros p Hp. apply HX. exact (stencil_points nd E s p Hnd H Hp). Qed.

Lemma node_same : forall nd E X X' cell i, (1 <= nd <= 3)%nat -> (i <= upper nd)%nat ->
  (forall d, (d < 3)%nat -> if Nat.ltb d nd then (tget (rb E) d <= tget cell d /\ tget cell d + 2 <= tget (re E) d)%Z else tget cell d = 0%Z) ->
  (forall p, in_extents nd E p -> X' p = X p) -> node X' cell i = node X cell i.
Proof.
  intros nd E X X' cell i Hnd Hi HE HX. unfold node. apply HX. intros d Hd. specialize (HE d Hd). unfold tadd. rewrite tget_tmake by exact Hd.
  assert (O : if Nat.ltb d nd then (0 <= tget (offset i) d <= 1)%Z else tget (offset i) d = 0%Z).
  { destruct nd as [|[|[|[|]]]]; try lia; cbn [upper] in Hi; do 8 (destruct i as [|i]; [try lia; destruct d as [|[|[|]]]; try lia; cbn; try lia; reflexivity|]); lia. }
  destruct (Nat.ltb d nd); lia.
Qed.

Lemma coords_same : forall g nd E E' X X' cell x, (1 <= nd <= 3)%nat -> same_stencil nd E E' cell ->
  (forall p, in_extents nd E' p -> X' p = X p) -> coords_in_cell g nd E' X' cell x = coords_in_cell g nd E X cell x.
Proof.
  intros g nd E E' X X' cell x Hnd S HX.
  assert (N : forall i, (i <= upper nd)%nat -> node X' cell i = node X cell i).
  { intros i Hi. apply (node_same nd E'); auto. intros d Hd. specialize (S d Hd). destruct (Nat.ltb d nd); [lia|exact S]. }
  assert (SS : shifted nd E' cell = shifted nd E cell).
  { unfold shifted. assert (G : forall d, (d < 3)%nat -> (if Nat.ltb d nd then Z.min (Z.max (tget cell d) (tget (rb E') d + 1)) (tget (re E') d - 3) else tget cell d)%Z = (if Nat.ltb d nd then Z.min (Z.max (tget cell d) (tget (rb E) d + 1)) (tget (re E) d - 3) else tget cell d)%Z).
    { intros d Hd. specialize (S d Hd). destruct (Nat.ltb d nd); [lia|reflexivity]. }
    unfold tmake. rewrite (G 0%nat), (G 1%nat), (G 2%nat) by lia. reflexivity. }
  assert (U : uniform_inverse nd (node X' cell 0) (node X' cell (upper nd)) x = uniform_inverse nd (node X cell 0) (node X cell (upper nd)) x).
  { rewrite !N by lia. reflexivity. }
  assert (O : oriented_inverse nd (node X' cell) x = oriented_inverse nd (node X cell) x).
  { unfold oriented_inverse. apply map_ext_in. intros d Hd. apply in_seq in Hd. unfold edge.
    rewrite !N; [reflexivity| |lia]. destruct nd as [|[|[|[|]]]]; try lia; destruct d as [|[|[|]]]; cbn; lia. }
  destruct (Nat.eq_dec nd 1) as [->|N1].
  { destruct g; try (unfold coords_in_cell; rewrite ?U; reflexivity);
    rewrite !coords_line by (unfold cubic_geometry; tauto); reflexivity. }
  assert (C : cubic_geometry g -> coords_in_cell g nd E' X' cell x = coords_in_cell g nd E X cell x).
  { intros Hg. rewrite !coords_cubic by exact Hg. cbn zeta.
    assert (F' : stencil_fits nd E' cell = true).
    { apply fits_spec; [lia|]. intros d Hd. unfold shifted. rewrite tget_tmake by exact Hd. specialize (S d Hd). destruct (Nat.ltb d nd); [lia|reflexivity]. }
    assert (F : stencil_fits nd E cell = true).
    { apply fits_spec; [lia|]. intros d Hd. unfold shifted. rewrite tget_tmake by exact Hd. specialize (S d Hd). destruct (Nat.ltb d nd); [lia|reflexivity]. }
    rewrite F, F', SS. rewrite (stencil_same nd E' X X' (shifted nd E cell)); [reflexivity|lia| |exact HX].
    intros d Hd. rewrite <- SS. apply fits_spec in F'; [|lia]. specialize (F' d ltac:(lia)). replace (Nat.ltb d nd) with true in F' by (symmetry; apply Nat.ltb_lt; exact Hd). lia. }
  destruct g; try (apply C; unfold cubic_geometry; tauto); unfold coords_in_cell.
  - rewrite U. reflexivity.
  - replace (Nat.eqb nd 1) with false by (symmetry; apply Nat.eqb_neq; exact N1). rewrite O. reflexivity.
Qed.

(** ** Lattices *)
Definition total4 (l : list Q) : Q := qtotal l.
Definition moment4 (l : list Q) : Q := qtotal (map (fun ai => fst ai * snd ai) (combine l [-1; 0; 1; 2])).

Lemma weighted_points : forall nd ws (X : tup Z -> tup Q) pts d, (d < nd)%nat -> (d < 3)%nat ->
  tget (weighted nd ws (map X pts)) d == qtotal (map (fun wp => fst wp * tget (X (snd wp)) d) (combine ws pts)).
Proof.
  intros nd ws X pts d Hd H3. unfold weighted. rewrite tget_tmake by exact H3. replace (Nat.ltb d nd) with true by (symmetry; apply Nat.ltb_lt; exact Hd).
  rewrite vsum_total. revert pts. induction ws as [|w ws IH]; intros [|p pts]; try reflexivity. cbn [combine map]. rewrite !qtotal_cons, IH. reflexivity.
Qed.

(** A weighted sum over the points around s of a linear function. *)
Lemma weighted2 : forall X E A B a b s d, lattice 2 E X A B -> length a = 4%nat -> length b = 4%nat ->
  (forall d, (d < 2)%nat -> tget (rb E) d + 1 <= tget s d <= tget (re E) d - 3)%Z -> (d < 2)%nat ->
  tget (weighted 2 (weights (T3 a b [1])) (stencil 2 X s)) d ==
  total4 a * total4 b * at_lattice 2 A B (tmake (fun e => inject_Z (tget s e))) d
  + moment4 a * total4 b * tget (c0 B) d + total4 a * moment4 b * tget (c1 B) d.
Proof.
  intros X E A B a b s d L La Lb Hs Hd. unfold stencil. rewrite weighted_points by lia.
  rewrite (qtotal_ext _ _ (fun wp : Q * tup Z => fst wp * (tget A d + inject_Z (c0 (snd wp)) * tget (c0 B) d + inject_Z (c1 (snd wp)) * tget (c1 B) d))).
  2:{ intros [w p] Hp. cbn [fst snd]. apply in_combine_r in Hp. rewrite (L p (stencil_points 2 E s p ltac:(lia) Hs Hp) d Hd). cbn [seq map].
      rewrite !qtotal_cons. change (qtotal []) with 0. cbn [tget]. ring. }
  destruct a as [|a0 [|a1 [|a2 [|a3 [|]]]]]; try discriminate La. destruct b as [|b0 [|b1 [|b2 [|b3 [|]]]]]; try discriminate Lb.
  unfold foreach_col. cbn [rb re tmake c0 c1 c2 Nat.ltb Nat.leb]. rewrite !zrange4, zrange01.
  unfold weights, total4, moment4, at_lattice. cbn [c0 c1 c2 flat_map map app combine seq fst snd]. rewrite !qtotal_cons. change (qtotal []) with 0.
  cbn [tget tmake c0 c1 c2]. rewrite !inject_Z_plus. change (inject_Z 0) with 0. change (inject_Z 1) with 1. change (inject_Z 2) with 2. change (inject_Z (-1)) with (-1). ring.
Qed.
Lemma weighted3 : forall X E A B a b c s d, lattice 3 E X A B -> length a = 4%nat -> length b = 4%nat -> length c = 4%nat ->
  (forall d, (d < 3)%nat -> tget (rb E) d + 1 <= tget s d <= tget (re E) d - 3)%Z -> (d < 3)%nat ->
  tget (weighted 3 (weights (T3 a b c)) (stencil 3 X s)) d ==
  total4 a * total4 b * total4 c * at_lattice 3 A B (tmake (fun e => inject_Z (tget s e))) d
  + moment4 a * total4 b * total4 c * tget (c0 B) d + total4 a * moment4 b * total4 c * tget (c1 B) d + total4 a * total4 b * moment4 c * tget (c2 B) d.
Proof.
  intros X E A B a b c s d L La Lb Lc Hs Hd. unfold stencil. rewrite weighted_points by lia.
  rewrite (qtotal_ext _ _ (fun wp : Q * tup Z => fst wp * (tget A d + inject_Z (c0 (snd wp)) * tget (c0 B) d + inject_Z (c1 (snd wp)) * tget (c1 B) d + inject_Z (c2 (snd wp)) * tget (c2 B) d))).
  2:{ intros [w p] Hp. cbn [fst snd]. apply in_combine_r in Hp. rewrite (L p (stencil_points 3 E s p ltac:(lia) Hs Hp) d Hd). cbn [seq map].
      rewrite !qtotal_cons. change (qtotal []) with 0. cbn [tget]. ring. }
  destruct a as [|a0 [|a1 [|a2 [|a3 [|]]]]]; try discriminate La. destruct b as [|b0 [|b1 [|b2 [|b3 [|]]]]]; try discriminate Lb.
  destruct c as [|k0 [|k1 [|k2 [|k3 [|]]]]]; try discriminate Lc.
  unfold foreach_col. cbn [rb re tmake c0 c1 c2 Nat.ltb Nat.leb]. rewrite !zrange4.
  unfold weights, total4, moment4, at_lattice. cbn [c0 c1 c2 flat_map map app combine seq fst snd]. rewrite !qtotal_cons. change (qtotal []) with 0.
  cbn [tget tmake c0 c1 c2]. rewrite !inject_Z_plus. change (inject_Z 0) with 0. change (inject_Z 1) with 1. change (inject_Z 2) with 2. change (inject_Z (-1)) with (-1).
  generalize (inject_Z (c0 s)) (inject_Z (c1 s)) (inject_Z (c2 s)) (tget (c0 B) d) (tget (c1 B) d) (tget (c2 B) d) (tget A d). intros. ring.
Qed.
Lemma cubic_sums : forall u, total4 (cubic u) == 1 /\ moment4 (cubic u) == u.
Proof. intros u. unfold total4, moment4, cubic. cbn [map combine fst snd]. rewrite !qtotal_cons. change (qtotal []) with 0. split; field. Qed.
Lemma cubic_deriv_sums : forall u, total4 (cubic_deriv u) == 0 /\ moment4 (cubic_deriv u) == 1.
Proof. intros u. unfold total4, moment4, cubic_deriv. cbn [map combine fst snd]. rewrite !qtotal_cons. change (qtotal []) with 0. split; field. Qed.

Definition plus_lattice (nd : nat) (B : tup (tup Q)) (u : tup Q) (d : nat) : Q := qtotal (map (fun e => tget u e * tget (tget B e) d) (seq 0 nd)).

Lemma iso_lattice : forall nd X E A B s u d, (2 <= nd <= 3)%nat -> lattice nd E X A B ->
  (forall d, (d < nd)%nat -> tget (rb E) d + 1 <= tget s d <= tget (re E) d - 3)%Z -> (d < nd)%nat ->
  tget (iso nd cubic (stencil nd X s) u) d == at_lattice nd A B (tmake (fun e => inject_Z (tget s e))) d + plus_lattice nd B u d.
Proof.
  intros nd X E A B s u d Hnd L Hs Hd. unfold iso, shapes, plus_lattice.
  destruct (cubic_sums (c0 u)) as [T0 M0]. destruct (cubic_sums (c1 u)) as [T1 M1]. destruct (cubic_sums (c2 u)) as [T2 M2].
  destruct nd as [|[|[|[|]]]]; try lia; unfold tmake; cbn [Nat.ltb Nat.leb tget seq map].
  - rewrite (weighted2 X E A B) by (auto; reflexivity). rewrite T0, T1, M0, M1, !qtotal_cons. change (qtotal []) with 0. unfold at_lattice, tmake. cbn [tget]. ring.
  - rewrite (weighted3 X E A B) by (auto; reflexivity). rewrite T0, T1, T2, M0, M1, M2, !qtotal_cons. change (qtotal []) with 0. unfold at_lattice, tmake. cbn [tget]. ring.
Qed.
Lemma jacobian_lattice : forall nd X E A B s u d e, (2 <= nd <= 3)%nat -> lattice nd E X A B ->
  (forall d, (d < nd)%nat -> tget (rb E) d + 1 <= tget s d <= tget (re E) d - 3)%Z -> (d < nd)%nat -> (e < nd)%nat ->
  tget (tget (jacobian nd cubic cubic_deriv (stencil nd X s) u) e) d == tget (tget B e) d.
Proof.
  intros nd X E A B s u d e Hnd L Hs Hd He. unfold jacobian. rewrite tget_tmake by lia.
  destruct (cubic_sums (c0 u)) as [T0 M0]. destruct (cubic_sums (c1 u)) as [T1 M1]. destruct (cubic_sums (c2 u)) as [T2 M2].
  destruct (cubic_deriv_sums (c0 u)) as [DT0 DM0]. destruct (cubic_deriv_sums (c1 u)) as [DT1 DM1]. destruct (cubic_deriv_sums (c2 u)) as [DT2 DM2].
  destruct nd as [|[|[|[|]]]]; try lia; unfold tmake; cbn [Nat.ltb Nat.leb tget seq map].
  - destruct e as [|[|]]; try lia; cbn [Nat.eqb]; rewrite (weighted2 X E A B) by (auto; reflexivity); rewrite ?T0, ?T1, ?M0, ?M1, ?DT0, ?DT1, ?DM0, ?DM1; cbn [tget]; ring.
  - destruct e as [|[|[|]]]; try lia; cbn [Nat.eqb]; rewrite (weighted3 X E A B) by (auto; reflexivity); rewrite ?T0, ?T1, ?T2, ?M0, ?M1, ?M2, ?DT0, ?DT1, ?DT2, ?DM0, ?DM1, ?DM2; cbn [tget]; ring.
Qed.

Lemma omap_finite : forall f l, omap finite (map (fun e : nat => Fin (f e)) l) = Some (map f l).
Proof. intros f. induction l as [|a l IH]; [reflexivity|]. cbn [map]. rewrite omap_cons. cbn [finite]. rewrite IH. reflexivity. Qed.

Lemma newton_lattice : forall nd X E A B s x tol k u0, (2 <= nd <= 3)%nat -> lattice nd E X A B -> solid_lattice nd B -> 0 <= tol ->
  (forall d, (d < nd)%nat -> tget (rb E) d + 1 <= tget s d <= tget (re E) d - 3)%Z ->
  exists u, newton nd cubic cubic_deriv (stencil nd X s) x tol (S k) u0 = Some u.
Proof.
  intros nd X E A B s x tol k u0 Hnd L F T Hs. cbn [newton].
  destruct (small nd tol (vsub x (iso nd cubic (stencil nd X s) u0))) eqn:S0; [eexists; reflexivity|].
  set (J := jacobian nd cubic cubic_deriv (stencil nd X s) u0).
  assert (JE : forall e d, (e < nd)%nat -> (d < nd)%nat -> tget (tget J e) d == tget (tget B e) d).
  { intros e d He Hd. exact (jacobian_lattice nd X E A B s u0 d e Hnd L Hs Hd He). }
  pose proof (fun u d Hd => iso_lattice nd X E A B s u d Hnd L Hs Hd) as I.
  clearbody J. set (r := vsub x (iso nd cubic (stencil nd X s) u0)).
  assert (D : ~ det nd J == 0).
  { intros E0. destruct nd as [|[|[|[|]]]]; try lia; cbn [solid_lattice] in F; apply F; (etransitivity; [|exact E0]).
    - pose proof (JE 0 0 ltac:(lia) ltac:(lia))%nat as J00. pose proof (JE 0 1 ltac:(lia) ltac:(lia))%nat as J01.
      pose proof (JE 1 0 ltac:(lia) ltac:(lia))%nat as J10. pose proof (JE 1 1 ltac:(lia) ltac:(lia))%nat as J11. cbn [tget] in *.
      unfold det, signed_area. rewrite J00, J01, J10, J11. cbn [c0 c1 c2]. ring.
    - pose proof (JE 0 0 ltac:(lia) ltac:(lia))%nat as J00. pose proof (JE 0 1 ltac:(lia) ltac:(lia))%nat as J01. pose proof (JE 0 2 ltac:(lia) ltac:(lia))%nat as J02.
      pose proof (JE 1 0 ltac:(lia) ltac:(lia))%nat as J10. pose proof (JE 1 1 ltac:(lia) ltac:(lia))%nat as J11. pose proof (JE 1 2 ltac:(lia) ltac:(lia))%nat as J12.
      pose proof (JE 2 0 ltac:(lia) ltac:(lia))%nat as J20. pose proof (JE 2 1 ltac:(lia) ltac:(lia))%nat as J21. pose proof (JE 2 2 ltac:(lia) ltac:(lia))%nat as J22. cbn [tget] in *.
      unfold det, signed_volume. rewrite J00, J01, J02, J10, J11, J12, J20, J21, J22. cbn [c0 c1 c2]. ring. }
  rewrite (solve_fin nd J r D). rewrite omap_finite.
  set (du := tmake (fun d => nth d (map (fun e => cramer_at nd J r e) (seq 0 nd)) 0)). set (u1 := vadd u0 du).
  assert (Z : forall d, (d < nd)%nat -> tget x d == tget (iso nd cubic (stencil nd X s) u1) d).
  { intros d Hd. assert (R : tget r d == tget x d - tget (iso nd cubic (stencil nd X s) u0) d) by (unfold r, vsub; rewrite tget_tmake by lia; reflexivity).
    assert (P : plus_lattice nd B u1 d == plus_lattice nd B u0 d + tget r d).
    { unfold plus_lattice. clearbody r. destruct nd as [|[|[|[|]]]]; try lia; cbn [seq map]; rewrite !qtotal_cons; change (qtotal []) with 0.
      - destruct (cramer2 J r D) as [C0 C1]. set (q0 := cramer_at 2 J r 0) in *. set (q1 := cramer_at 2 J r 1) in *.
        assert (U : forall e, (e < 2)%nat -> tget u1 e == tget u0 e + nth e [q0; q1] 0) by (intros e He; unfold u1, vadd; rewrite tget_tmake by lia; destruct e as [|[|]]; try lia; reflexivity).
        rewrite (U 0%nat), (U 1%nat) by lia. cbn [nth]. clearbody q0 q1.
        rewrite <- (JE 0%nat d), <- (JE 1%nat d) by lia.
        destruct d as [|[|]]; try lia; cbn [tget]; [rewrite C0|rewrite C1]; ring.
      - destruct (cramer3 J r D) as [C0 [C1 C2]]. set (q0 := cramer_at 3 J r 0) in *. set (q1 := cramer_at 3 J r 1) in *. set (q2 := cramer_at 3 J r 2) in *.
        assert (U : forall e, (e < 3)%nat -> tget u1 e == tget u0 e + nth e [q0; q1; q2] 0) by (intros e He; unfold u1, vadd; rewrite tget_tmake by lia; destruct e as [|[|[|]]]; try lia; reflexivity).
        rewrite (U 0%nat), (U 1%nat), (U 2%nat) by lia. cbn [nth]. clearbody q0 q1 q2.
        rewrite <- (JE 0%nat d), <- (JE 1%nat d), <- (JE 2%nat d) by lia.
        destruct d as [|[|[|]]]; try lia; cbn [tget]; [rewrite C0|rewrite C1|rewrite C2]; ring. }
    rewrite (I u1 d Hd), P. pose proof (I u0 d Hd) as I0. rewrite R, I0. ring. }
  exists u1. fold du. fold u1.
  assert (SM : small nd tol (vsub x (iso nd cubic (stencil nd X s) u1)) = true).
  { unfold small. apply forallb_forall. intros d Hd. apply in_seq in Hd. apply Qle_bool_iff. unfold vsub. rewrite tget_tmake by lia.
    rewrite (Z d) by lia. setoid_replace (tget (iso nd cubic (stencil nd X s) u1) d - tget (iso nd cubic (stencil nd X s) u1) d) with 0 by ring. exact T. }
  destruct k; cbn [newton]; rewrite SM; reflexivity.
Qed.

Lemma coords_lattice : forall g nd E X A B cell x, cubic_geometry g -> (2 <= nd <= 3)%nat ->
  lattice nd E X A B -> solid_lattice nd B -> in_extents nd E cell ->
  (forall d, (d < nd)%nat -> tget (rb E) d + 4 <= tget (re E) d)%Z ->
  exists u, coords_in_cell g nd E X cell x = Some u /\
    forall d, (d < nd)%nat -> Qabs (tget x d - at_lattice nd A B (tmake (fun e => inject_Z (tget cell e) + tget u e)) d) <= 1 # 1000000000000.
Proof.
  intros g nd E X A B cell x Hg Hnd L F HE H4. rewrite coords_cubic by exact Hg.
  assert (FF : stencil_fits nd E cell = true).
  { apply fits_spec; [lia|]. intros d Hd. unfold shifted. rewrite tget_tmake by exact Hd. specialize (HE d Hd). destruct (Nat.ltb d nd) eqn:LT; [|reflexivity].
    apply Nat.ltb_lt in LT. specialize (H4 d LT). lia. }
  rewrite FF. cbn zeta. apply fits_spec in FF; [|lia]. set (s := shifted nd E cell) in *.
  assert (Hs : forall d, (d < nd)%nat -> (tget (rb E) d + 1 <= tget s d <= tget (re E) d - 3)%Z).
  { intros d Hd. specialize (FF d ltac:(lia)). replace (Nat.ltb d nd) with true in FF by (symmetry; apply Nat.ltb_lt; exact Hd). lia. }
  destruct (newton_lattice nd X E A B s x NEWTON_TOL 99 (halves nd) Hnd L F ltac:(unfold NEWTON_TOL; discriminate) Hs) as [v N].
  change (S 99) with NEWTON_STEPS in N. rewrite N. eexists. split; [reflexivity|].
  intros d Hd. pose proof (newton_sound _ _ _ _ _ _ _ _ _ N d Hd ltac:(lia)) as Bd. rewrite (iso_lattice nd X E A B s v d Hnd L Hs Hd) in Bd.
  assert (E0 : at_lattice nd A B (tmake (fun e => inject_Z (tget cell e) + tget (tmake (fun d => if Nat.ltb d nd then tget v d + inject_Z (tget s d - tget cell d) else 0)) e)) d ==
    at_lattice nd A B (tmake (fun e => inject_Z (tget s e))) d + plus_lattice nd B v d).
  { unfold at_lattice, plus_lattice. unfold Z.sub. destruct nd as [|[|[|[|]]]]; try lia; unfold tmake; cbn [seq map Nat.ltb Nat.leb tget c0 c1 c2];
    rewrite !qtotal_cons; change (qtotal []) with 0; rewrite !inject_Z_plus, !inject_Z_opp; ring. }
  rewrite E0. exact Bd.
Qed.
