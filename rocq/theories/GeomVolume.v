(** Proofs about uniform coordinates, volumes and bounds of cells. *)
From Coq Require Import List ZArith QArith Qabs Qfield Bool Lia Lqa Psatz Setoid.
From Verif Require Import Base TupleModel RangeModel CartModel DecompModel ArrayModel HashModel RangeProof HashProof GeomModel GeomSpec GeomProof GeomNewton GeomLattice.
Import ListNotations.
Local Open Scope Q_scope.

(** ** Coordinates in cells with parallel edges *)
Lemma some_of_map : forall nd f g, (1 <= nd <= 3)%nat -> (forall d, (d < nd)%nat -> f d = Fin (g d)) ->
  exists u, (let! l := omap finite (map f (seq 0 nd)) in Some (tmake (fun d => nth d l 0))) = Some u /\ forall d, (d < nd)%nat -> tget u d = g d.
Proof.
  intros nd f g Hnd H. assert (E : map f (seq 0 nd) = map (fun d => Fin (g d)) (seq 0 nd)) by (apply map_ext_in; intros d Hd; apply in_seq in Hd; apply H; lia).
  rewrite E, omap_finite. eexists. split; [reflexivity|]. intros d Hd. rewrite tget_tmake by lia.
  rewrite (nth_indep _ 0 (g 0%nat)) by (rewrite map_length, seq_length; exact Hd). rewrite map_nth, seq_nth by exact Hd. reflexivity.
Qed.
Lemma uniform_coords : forall nd X cell x, (1 <= nd <= 3)%nat -> along_axes nd X cell -> parallel nd X cell ->
  exists u, (let! l := omap finite (uniform_inverse nd (node X cell 0) (node X cell (upper nd)) x) in Some (tmake (fun d => nth d l 0))) = Some u /\
    located nd X cell u x /\ forall u', located nd X cell u' x -> forall d, (d < nd)%nat -> tget u' d == tget u d.
Proof.
  intros nd X cell x Hnd A P. pose proof (along_upper nd X cell Hnd A P) as U.
  assert (N : forall d, (d < nd)%nat -> ~ tget (node X cell (upper nd)) d - tget (node X cell 0) d == 0) by (intros d Hd; rewrite (U d Hd); apply A, Hd).
  destruct (some_of_map nd _ _ Hnd (fun d Hd => ndiv_fin (tget x d - tget (node X cell 0) d) _ (N d Hd))) as [u [E G]].
  exists u. split; [exact E|]. split.
  - apply along_located; auto. intros d Hd. rewrite (G d Hd), <- (U d Hd), node0. field. rewrite <- (node0 X cell). apply N, Hd.
  - intros u' L d Hd. rewrite along_located in L by assumption. rewrite (G d Hd), (U d Hd), (L d Hd), node0. field. apply A, Hd.
Qed.
Lemma oriented_coords : forall nd X cell x, (2 <= nd <= 3)%nat -> perpendicular nd X cell ->
  exists u, (let! l := omap finite (oriented_inverse nd (node X cell) x) in Some (tmake (fun d => nth d l 0))) = Some u /\
    located nd X cell u x /\ forall u', located nd X cell u' x -> forall d, (d < nd)%nat -> tget u' d == tget u d.
Proof.
  intros nd X cell x Hnd P.
  assert (V : forall e, (e < nd)%nat -> vdot nd (vsub x (node X cell 0)) (edge (node X cell) e) == inner nd (fun d => tget x d - tget (node X cell 0) d) (side X cell e)).
  { intros e He. rewrite vdot_edge by lia. destruct nd as [|[|[|[|]]]]; try lia; rewrite ?inner2, ?inner3; unfold vsub; cbn [tget tmake c0 c1 c2]; reflexivity. }
  assert (W : forall e, (e < nd)%nat -> vdot nd (edge (node X cell) e) (edge (node X cell) e) == inner nd (side X cell e) (side X cell e)).
  { intros e He. rewrite vdot_edge by lia. destruct nd as [|[|[|[|]]]]; try lia; rewrite ?inner2, ?inner3; rewrite !edge_side by lia; reflexivity. }
  assert (N : forall e, (e < nd)%nat -> ~ vdot nd (edge (node X cell) e) (edge (node X cell) e) == 0) by (intros e He; rewrite (W e He); apply P, He).
  destruct (some_of_map nd _ _ ltac:(lia) (fun d Hd => ndiv_fin (vdot nd (vsub x (node X cell 0)) (edge (node X cell) d)) _ (N d Hd))) as [u [E G]].
  exists u. split; [exact E|]. split.
  - apply perpendicular_located; auto. intros e He. rewrite (G e He), (V e He), (W e He). field. apply P, He.
  - intros u' L d Hd. rewrite perpendicular_located in L by assumption. rewrite (G d Hd), (V d Hd), (W d Hd), (L d Hd). field. apply P, Hd.
Qed.

(** ** Volumes *)
Lemma vsum_nonneg : forall l, Forall (fun a => 0 <= a) l -> 0 <= vsum l.
Proof. intros l F. rewrite vsum_total. induction F; [apply Qle_refl|]. rewrite qtotal_cons. lra. Qed.
Lemma volume_nonneg : forall g nd X cell, (2 <= nd)%nat -> g <> UNIFORM -> g <> RECTILINEAR -> 0 <= cell_volume g nd X cell.
Proof.
  intros g nd X cell Hnd G1 G2. unfold cell_volume. replace (Nat.eqb nd 1) with false by (symmetry; apply Nat.eqb_neq; lia).
  destruct g; try contradiction; try apply Qabs_nonneg.
  unfold volume_simplices. apply vsum_nonneg, Forall_forall. intros a Ha. apply in_map_iff in Ha. destruct Ha as [s [<- _]].
  apply Qle_shift_div_l; [destruct nd as [|[|[|]]]; reflexivity|]. rewrite Qmult_0_l. apply Qabs_nonneg.
Qed.
Lemma abs_same : forall a b, a == b \/ a == - b -> Qabs a == Qabs b.
Proof. intros a b [H|H]; rewrite H; [reflexivity|apply Qabs_opp]. Qed.

Lemma volume_parallel : forall g nd X cell, (2 <= nd <= 3)%nat -> g <> UNIFORM -> g <> RECTILINEAR -> parallel nd X cell ->
  cell_volume g nd X cell == measure nd X cell.
Proof.
  intros g nd X cell Hnd G1 G2 P. unfold cell_volume. replace (Nat.eqb nd 1) with false by (symmetry; apply Nat.eqb_neq; lia).
  set (p := node X cell). destruct nd as [|[|[|[|]]]]; try lia; cbn [measure].
  - change (X (tadd cell (unit_step 0))) with (p 1%nat). change (X (tadd cell (unit_step 1))) with (p 2%nat). rewrite <- node0. fold p.
    pose proof (parallel2 X cell P) as P3. fold p in P3. setoid_rewrite (side_node X cell) in P3; try lia. cbn [axis_node] in P3. fold p in P3.
    pose proof (P3 0%nat ltac:(lia)) as P30. pose proof (P3 1%nat ltac:(lia)) as P31. cbn [tget] in P30, P31.
    destruct g; try contradiction.
    1, 2: apply abs_same; left; unfold det, edge, vsub, signed_area; cbn [tmake tget c0 c1 c2]; ring.
    unfold volume_simplices, simplices. cbn [map]. rewrite vsum_total, !qtotal_cons. change (qtotal []) with 0.
    assert (D1 : Qabs (det 2 (spans p [0; 1; 2]%nat)) == Qabs (signed_area (p 0%nat) (p 1%nat) (p 2%nat))).
    { apply abs_same. left. unfold det, spans, vsub, signed_area. cbn [tmake tget c0 c1 c2 nth]. ring. }
    assert (D2 : Qabs (det 2 (spans p [3; 2; 1]%nat)) == Qabs (signed_area (p 0%nat) (p 1%nat) (p 2%nat))).
    { apply abs_same. left. unfold det, spans, vsub, signed_area. cbn [tmake tget c0 c1 c2 nth]. rewrite P30, P31. ring. }
    rewrite D1, D2. field.
  - change (X (tadd cell (unit_step 0))) with (p 1%nat). change (X (tadd cell (unit_step 1))) with (p 2%nat). change (X (tadd cell (unit_step 2))) with (p 4%nat). rewrite <- node0. fold p.
    pose proof (parallel3 X cell P) as PP. fold p in PP.
    assert (S0 : forall d, side X cell 0 d = tget (p 1%nat) d - tget (p 0%nat) d) by (intros; apply side_node; lia).
    assert (S1 : forall d, side X cell 1 d = tget (p 2%nat) d - tget (p 0%nat) d) by (intros; apply side_node; lia).
    assert (S2 : forall d, side X cell 2 d = tget (p 4%nat) d - tget (p 0%nat) d) by (intros; apply side_node; lia).
    pose proof (PP 0%nat ltac:(lia)) as [P30 [P50 [P60 P70]]]. pose proof (PP 1%nat ltac:(lia)) as [P31 [P51 [P61 P71]]]. pose proof (PP 2%nat ltac:(lia)) as [P32 [P52 [P62 P72]]].
    rewrite S0 in P30, P50, P70, P31, P51, P71, P32, P52, P72. rewrite S1 in P30, P60, P70, P31, P61, P71, P32, P62, P72. rewrite S2 in P50, P60, P70, P51, P61, P71, P52, P62, P72.
    cbn [tget] in *. clear PP S0 S1 S2.
    destruct g; try contradiction.
    1, 2: apply abs_same; left; unfold det, edge, vsub, signed_volume; cbn [tmake tget c0 c1 c2]; ring.
    unfold volume_simplices.
    assert (D : forall s, In s (simplices 3) -> Qabs (det 3 (spans p s)) == Qabs (signed_volume (p 0%nat) (p 1%nat) (p 2%nat) (p 4%nat))).
    { intros s Hs. cbn [simplices] in Hs. apply abs_same.
      repeat (destruct Hs as [<-|Hs]; [unfold det, spans, vsub, signed_volume; cbn [tget tmake nth c0 c1 c2];
        rewrite ?P30, ?P50, ?P60, ?P70, ?P31, ?P51, ?P61, ?P71, ?P32, ?P52, ?P62, ?P72; (left; ring) || (right; ring)|]).
      contradiction. }
    rewrite vsum_total. rewrite (qtotal_ext _ _ (fun _ => Qabs (signed_volume (p 0%nat) (p 1%nat) (p 2%nat) (p 4%nat)) / 6)) by (intros s Hs; rewrite (D s Hs); reflexivity).
    cbn [simplices map]. rewrite !qtotal_cons. change (qtotal []) with 0. field.
Qed.

Lemma volume_ascending : forall g nd X cell, (1 <= nd <= 3)%nat -> (nd = 1%nat \/ g = UNIFORM \/ g = RECTILINEAR) -> parallel nd X cell -> ascending nd X cell ->
  cell_volume g nd X cell == measure nd X cell /\ 0 < cell_volume g nd X cell.
Proof.
  intros g nd X cell Hnd Hg P [A S]. pose proof (along_upper nd X cell Hnd A P) as U.
  assert (V : cell_volume g nd X cell = fold_left (fun v d => v * (tget (node X cell (upper nd)) d - tget (node X cell 0) d)) (seq 0 nd) 1).
  { unfold cell_volume. destruct (Nat.eqb nd 1) eqn:E; [reflexivity|]. apply Nat.eqb_neq in E. destruct Hg as [Hg|[->| ->]]; [contradiction|reflexivity|reflexivity]. }
  rewrite V. clear V Hg. destruct nd as [|[|[|[|]]]]; try lia; cbn [seq fold_left measure].
  - pose proof (S 0%nat ltac:(lia)) as S0. rewrite (U 0%nat) by lia. rewrite Qabs_pos by lra. split; [ring|lra].
  - pose proof (S 0%nat ltac:(lia)) as S0. pose proof (S 1%nat ltac:(lia)) as S1. rewrite (U 0%nat), (U 1%nat) by lia.
    assert (E : signed_area (X cell) (X (tadd cell (unit_step 0))) (X (tadd cell (unit_step 1))) == side X cell 0 0 * side X cell 1 1).
    { destruct A as [A _]. pose proof (A 0 1 ltac:(lia) ltac:(lia) ltac:(lia))%nat as A01. pose proof (A 1 0 ltac:(lia) ltac:(lia) ltac:(lia))%nat as A10.
      unfold signed_area. unfold side in *. cbn [tget] in *. rewrite A01. ring. }
    rewrite E, Qabs_pos by nra. split; [ring|nra].
  - pose proof (S 0%nat ltac:(lia)) as S0. pose proof (S 1%nat ltac:(lia)) as S1. pose proof (S 2%nat ltac:(lia)) as S2. rewrite (U 0%nat), (U 1%nat), (U 2%nat) by lia.
    assert (E : signed_volume (X cell) (X (tadd cell (unit_step 0))) (X (tadd cell (unit_step 1))) (X (tadd cell (unit_step 2))) == side X cell 0 0 * side X cell 1 1 * side X cell 2 2).
    { destruct A as [A _]. pose proof (A 0 1 ltac:(lia) ltac:(lia) ltac:(lia))%nat as A01. pose proof (A 1 0 ltac:(lia) ltac:(lia) ltac:(lia))%nat as A10.
      pose proof (A 0 2 ltac:(lia) ltac:(lia) ltac:(lia))%nat as A02. pose proof (A 2 0 ltac:(lia) ltac:(lia) ltac:(lia))%nat as A20.
      pose proof (A 1 2 ltac:(lia) ltac:(lia) ltac:(lia))%nat as A12. pose proof (A 2 1 ltac:(lia) ltac:(lia) ltac:(lia))%nat as A21.
      unfold signed_volume. unfold side in *. cbn [tget c0 c1 c2] in *. rewrite A01, A02, A12. ring. }
    assert (Q1 : 0 < side X cell 0 0 * side X cell 1 1) by nra. assert (Q2 : 0 < side X cell 0 0 * side X cell 1 1 * side X cell 2 2) by nra.
    rewrite E, Qabs_pos by lra. split; [ring|lra].
Qed.

Lemma volume_convex : forall X cell, convex X cell -> cell_volume CURVILINEAR 2 X cell == quad_area X cell.
Proof.
  intros X cell C. unfold cell_volume. cbn [Nat.eqb]. unfold volume_simplices, quad_area. cbn zeta.
  change (X (tadd cell (T3 0 0 0)%Z)) with (node X cell 0). change (X (tadd cell (T3 1 0 0)%Z)) with (node X cell 1).
  change (X (tadd cell (T3 0 1 0)%Z)) with (node X cell 2). change (X (tadd cell (T3 1 1 0)%Z)) with (node X cell 3).
  unfold convex in C. cbn zeta in C.
  change (X (tadd cell (T3 0 0 0)%Z)) with (node X cell 0) in C. change (X (tadd cell (T3 1 0 0)%Z)) with (node X cell 1) in C.
  change (X (tadd cell (T3 0 1 0)%Z)) with (node X cell 2) in C. change (X (tadd cell (T3 1 1 0)%Z)) with (node X cell 3) in C.
  set (p := node X cell) in *.
  assert (D1 : det 2 (spans p [0; 1; 2]%nat) == signed_area (p 0%nat) (p 1%nat) (p 2%nat)) by (unfold det, spans, vsub, signed_area; cbn [tmake tget c0 c1 c2 nth]; ring).
  assert (D2 : det 2 (spans p [3; 2; 1]%nat) == signed_area (p 3%nat) (p 2%nat) (p 1%nat)) by (unfold det, spans, vsub, signed_area; cbn [tmake tget c0 c1 c2 nth]; ring).
  cbn [simplices map]. rewrite vsum_total, !qtotal_cons. change (qtotal []) with 0. rewrite D1, D2.
  set (T := c0 (p 0%nat) * c1 (p 1%nat) - c1 (p 0%nat) * c0 (p 1%nat) + (c0 (p 1%nat) * c1 (p 3%nat) - c1 (p 1%nat) * c0 (p 3%nat)) + (c0 (p 3%nat) * c1 (p 2%nat) - c1 (p 3%nat) * c0 (p 2%nat)) + (c0 (p 2%nat) * c1 (p 0%nat) - c1 (p 2%nat) * c0 (p 0%nat))).
  assert (E : T == signed_area (p 0%nat) (p 1%nat) (p 2%nat) + signed_area (p 3%nat) (p 2%nat) (p 1%nat)) by (unfold T, signed_area; ring).
  rewrite E. destruct C as [F|F]; inversion F as [|? ? F1 G]; subst; inversion G as [|? ? F2 G']; subst; inversion G' as [|? ? F3 _]; subst.
  - rewrite !Qabs_pos by lra. field.
  - rewrite !Qabs_neg by lra. field.
Qed.

(** ** Bounds *)
Lemma extend_fold : forall l lo hi, exists lo' hi', fold_left extend l (Some (lo, hi)) = Some (lo', hi') /\
  forall d, (d < 3)%nat -> tget lo' d <= tget lo d /\ tget hi d <= tget hi' d /\
    (forall x, In x l -> tget lo' d <= tget x d <= tget hi' d) /\
    (tget lo' d = tget lo d \/ exists x, In x l /\ tget lo' d = tget x d) /\ (tget hi' d = tget hi d \/ exists x, In x l /\ tget hi' d = tget x d).
Proof.
  induction l as [|x l IH]; intros lo hi.
  - exists lo, hi. split; [reflexivity|]. intros d Hd. split; [lra|]. split; [lra|]. split; [intros x []|]. auto.
  - cbn [fold_left extend].
    destruct (IH (tmake (fun d => if q_lt (tget lo d) (tget x d) then tget lo d else tget x d)) (tmake (fun d => if q_lt (tget x d) (tget hi d) then tget hi d else tget x d))) as [lo' [hi' [E H]]].
    exists lo', hi'. split; [exact E|]. intros d Hd. specialize (H d Hd). rewrite !tget_tmake in H by exact Hd. cbn beta in H. destruct H as [A [B [C [D F]]]].
    assert (A' : tget lo' d <= tget lo d /\ tget lo' d <= tget x d).
    { destruct (q_lt (tget lo d) (tget x d)) eqn:Q0; [apply lt_spec in Q0|apply lt_false in Q0]; lra. }
    assert (B' : tget hi d <= tget hi' d /\ tget x d <= tget hi' d).
    { destruct (q_lt (tget x d) (tget hi d)) eqn:Q0; [apply lt_spec in Q0|apply lt_false in Q0]; lra. }
    split; [tauto|]. split; [tauto|]. split.
    { intros y [<-|Hy]; [tauto|apply C, Hy]. }
    split.
    + destruct D as [D|[y [Hy D]]]; [|right; exists y; split; [right; exact Hy|exact D]].
      destruct (q_lt (tget lo d) (tget x d)); [left; exact D|right; exists x; split; [left; reflexivity|exact D]].
    + destruct F as [F|[y [Hy F]]]; [|right; exists y; split; [right; exact Hy|exact F]].
      destruct (q_lt (tget x d) (tget hi d)); [left; exact F|right; exists x; split; [left; reflexivity|exact F]].
Qed.
Lemma hull_bounds : forall nd vs x d lo hi, hull nd vs x -> (d < nd)%nat -> (forall v, In v vs -> lo <= tget v d <= hi) -> lo <= tget x d <= hi.
Proof.
  intros nd vs x d lo hi [ws [L [F [T H]]]] Hd B. rewrite (H d Hd).
  assert (G : forall ws (vs : list (tup Q)), length ws = length vs -> Forall (fun w => 0 <= w) ws -> (forall v, In v vs -> lo <= tget v d <= hi) ->
    qtotal ws * lo <= qtotal (map (fun wv => fst wv * tget (snd wv) d) (combine ws vs)) <= qtotal ws * hi).
  { clear. induction ws as [|w ws IH]; intros [|v vs] L F B; try discriminate L; [cbn; lra|]. inversion F as [|? ? F1 F2]; subst.
    cbn [combine map]. rewrite !qtotal_cons. cbn [fst snd]. specialize (IH vs ltac:(cbn in L; lia) F2 (fun v Hv => B v (or_intror Hv))).
    specialize (B v (or_introl eq_refl)). nra. }
  specialize (G ws vs L F B). rewrite T in G. lra.
Qed.

Lemma corners_nodes : forall nd, (1 <= nd <= 3)%nat -> corners nd = map offset (seq 0 (S (upper nd))).
Proof. intros nd H. destruct nd as [|[|[|[|]]]]; try lia; reflexivity. Qed.

Lemma bounds_tight : forall g nd X cell, (2 <= nd <= 3)%nat -> g <> UNIFORM -> g <> RECTILINEAR ->
  tight_box nd (at_corners X cell (corners nd)) (geometry_bounds g nd X cell).
Proof.
  intros g nd X cell Hnd G1 G2.
  set (flat := fun x : tup Q => tmake (fun d => if Nat.ltb d nd then tget x d else 0)).
  assert (M : geometry_bounds g nd X cell = match fold_left extend (map (fun i => flat (node X cell i)) (seq 0 (S (upper nd)))) None with
              | Some (lo, hi) => (tmake (fun d => Some (tget lo d)), tmake (fun d => Some (tget hi d)))
              | None => (tmake (fun _ => None), tmake (fun _ => None))
              end).
  { unfold geometry_bounds. replace (Nat.eqb nd 1) with false by (symmetry; apply Nat.eqb_neq; lia). destruct g; congruence || reflexivity. }
  rewrite M. clear M. cbn [seq map fold_left extend].
  destruct (extend_fold (map (fun i => flat (node X cell i)) (seq 1 (upper nd))) (flat (node X cell 0)) (flat (node X cell 0))) as [lo [hi [E H]]].
  rewrite E. exists lo, hi. split; [reflexivity|]. intros d Hd. specialize (H d Hd). destruct H as [A [B [C [D F]]]].
  assert (FL : forall i, tget (flat (node X cell i)) d = if Nat.ltb d nd then tget (node X cell i) d else 0) by (intros; unfold flat; rewrite tget_tmake by exact Hd; reflexivity).
  assert (IN : forall v, In v (at_corners X cell (corners nd)) <-> exists i, In i (seq 0 (S (upper nd))) /\ v = node X cell i).
  { intros v. rewrite corners_nodes by lia. rewrite at_nodes. rewrite in_map_iff. split; intros [i [P Q]]; exists i; split; auto. }
  assert (ALL : forall i, In i (seq 0 (S (upper nd))) -> tget lo d <= tget (flat (node X cell i)) d <= tget hi d).
  { intros i Hi. cbn [seq] in Hi. destruct Hi as [<-|Hi]; [lra|]. apply C. apply (in_map (fun i => flat (node X cell i))), Hi. }
  destruct (Nat.ltb d nd) eqn:L.
  - apply Nat.ltb_lt in L. split.
    + intros x Hx. apply (hull_bounds nd _ x d _ _ Hx L). intros v Hv. apply IN in Hv. destruct Hv as [i [Hi ->]]. specialize (ALL i Hi). rewrite FL in ALL. exact ALL.
    + split.
      * destruct D as [D|[y [Hy D]]]; [exists (node X cell 0); split; [apply IN; exists 0%nat; split; [left; reflexivity|reflexivity]|rewrite D, FL; reflexivity]|].
        apply in_map_iff in Hy. destruct Hy as [i [<- Hi]]. exists (node X cell i). split; [apply IN; exists i; split; [right; exact Hi|reflexivity]|rewrite D, FL; reflexivity].
      * destruct F as [F|[y [Hy F]]]; [exists (node X cell 0); split; [apply IN; exists 0%nat; split; [left; reflexivity|reflexivity]|rewrite F, FL; reflexivity]|].
        apply in_map_iff in Hy. destruct Hy as [i [<- Hi]]. exists (node X cell i). split; [apply IN; exists i; split; [right; exact Hi|reflexivity]|rewrite F, FL; reflexivity].
  - split.
    + destruct D as [D|[y [Hy D]]]; [rewrite D, FL; reflexivity|]. apply in_map_iff in Hy. destruct Hy as [i [<- Hi]]. rewrite D, FL. reflexivity.
    + destruct F as [F|[y [Hy F]]]; [rewrite F, FL; reflexivity|]. apply in_map_iff in Hy. destruct Hy as [i [<- Hi]]. rewrite F, FL. reflexivity.
Qed.
Lemma bounds_ascending : forall g nd X cell, (2 <= nd <= 3)%nat -> (g = UNIFORM \/ g = RECTILINEAR) -> parallel nd X cell -> ascending nd X cell ->
  tight_box nd (at_corners X cell (corners nd)) (geometry_bounds g nd X cell).
Proof.
  intros g nd X cell Hnd Hg P [A S]. pose proof (along_upper nd X cell ltac:(lia) A P) as U.
  unfold geometry_bounds. replace (Nat.eqb nd 1) with false by (symmetry; apply Nat.eqb_neq; lia).
  set (flat := fun x : tup Q => tmake (fun d => if Nat.ltb d nd then tget x d else 0)).
  exists (flat (node X cell 0)), (flat (node X cell (upper nd))). split; [destruct Hg; subst g; reflexivity|].
  intros d Hd. unfold flat. rewrite !tget_tmake by exact Hd. destruct (Nat.ltb d nd) eqn:L; [|auto]. apply Nat.ltb_lt in L. split; [|split].
  - intros x Hx. apply parallel_hull in Hx; [|lia|exact P]. destruct Hx as [u [W Lo]]. rewrite along_located in Lo by (auto; lia). specialize (W d L). specialize (S d L).
    specialize (U d L). rewrite node0 in *. rewrite (Lo d L). nra.
  - exists (node X cell 0). split; [|reflexivity]. rewrite corners_nodes, at_nodes by lia. apply in_map. left. reflexivity.
  - exists (node X cell (upper nd)). split; [|reflexivity]. rewrite corners_nodes, at_nodes by lia. apply in_map. apply in_seq. lia.
Qed.

(** ** Together *)
Lemma along_perpendicular : forall X cell, perpendicular 1 X cell -> along_axes 1 X cell.
Proof.
  intros X cell [N _]. split; [intros; lia|]. intros d Hd E. replace d with 0%nat in E by lia. apply (N 0%nat ltac:(lia)). rewrite inner1, E. ring.
Qed.
Lemma regular_overlaps : forall g nd X tol cell x, (1 <= nd <= 3)%nat -> regular g nd X cell -> parallel nd X cell ->
  overlaps_cell g nd X tol cell x = true <-> exists u, within nd tol u /\ located nd X cell u x.
Proof.
  intros g nd X tol cell x Hnd R P. unfold overlaps_cell. destruct (Nat.eqb nd 1) eqn:E.
  - apply Nat.eqb_eq in E. subst nd. apply uniform_overlaps; auto. destruct g; cbn [regular] in R; try apply R; apply along_perpendicular, R.
  - apply Nat.eqb_neq in E. destruct g; cbn [regular] in R; try (apply uniform_overlaps; assumption); try (apply oriented_overlaps; [lia|assumption]). lia.
Qed.
Lemma curvilinear_parallel : forall nd X tol cell x, (2 <= nd <= 3)%nat -> parallel nd X cell -> full nd X cell -> 0 <= tol ->
  ((exists u, within nd tol u /\ located nd X cell u x) -> overlaps_cell CURVILINEAR nd X tol cell x = true) /\
  (overlaps_cell CURVILINEAR nd X tol cell x = true -> exists u, within nd (inject_Z (Z.of_nat nd) * tol) u /\ located nd X cell u x).
Proof.
  intros nd X tol cell x Hnd P F T. destruct nd as [|[|[|[|]]]]; try lia; [apply curvilinear_parallel2|apply curvilinear_parallel3]; assumption.
Qed.
Lemma curvilinear_parallel_hull : forall nd X cell x, (2 <= nd <= 3)%nat -> parallel nd X cell -> full nd X cell ->
  overlaps_cell CURVILINEAR nd X 0 cell x = true <-> hull nd (at_corners X cell (corners nd)) x.
Proof.
  intros nd X cell x Hnd P F. rewrite <- parallel_hull by (auto; lia). destruct (curvilinear_parallel nd X 0 cell x Hnd P F (Qle_refl 0)) as [A B].
  split; [|exact A]. intros H. destruct (B H) as [u [W L]]. exists u. split; [|exact L]. intros d Hd. specialize (W d Hd). rewrite Qmult_0_r in W. exact W.
Qed.
Lemma regular_coords : forall g nd E X cell x, (1 <= nd <= 3)%nat -> g = UNIFORM \/ g = ORIENTED_UNIFORM -> regular g nd X cell -> parallel nd X cell ->
  exists u, coords_in_cell g nd E X cell x = Some u /\ located nd X cell u x /\ forall u', located nd X cell u' x -> forall d, (d < nd)%nat -> tget u' d == tget u d.
Proof.
  intros g nd E X cell x Hnd [->| ->] R P; unfold coords_in_cell; cbn [regular] in R.
  - apply uniform_coords; assumption.
  - destruct (Nat.eqb nd 1) eqn:E1.
    + apply Nat.eqb_eq in E1. subst nd. apply uniform_coords; auto. apply along_perpendicular, R.
    + apply Nat.eqb_neq in E1. apply oriented_coords; [lia|assumption].
Qed.
