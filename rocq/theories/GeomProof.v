(** Proofs about cells and points. *)
From Coq Require Import List ZArith QArith Qabs Qfield Bool Lia Lqa Psatz Setoid.
From Verif Require Import Base TupleModel RangeModel CartModel DecompModel ArrayModel HashModel GeomModel GeomSpec.
Import ListNotations.
Local Open Scope Q_scope.

Lemma lt_spec : forall x y, q_lt x y = true <-> x < y.
Proof.
  intros x y. unfold q_lt. destruct (Qle_bool y x) eqn:E; cbn.
  - apply Qle_bool_iff in E. split; [discriminate|lra].
  - split; [intros _|reflexivity]. apply Qnot_le_lt. intros H. apply Qle_bool_iff in H. congruence.
Qed.
Lemma lt_false : forall x y, q_lt x y = false <-> y <= x.
Proof.
  intros x y. destruct (q_lt x y) eqn:E.
  - apply lt_spec in E. split; [discriminate|lra].
  - split; [intros _|reflexivity]. destruct (Qlt_le_dec x y) as [H|H]; [apply lt_spec in H; congruence|exact H].
Qed.
Lemma ndiv_fin : forall a b, ~ b == 0 -> ndiv a b = Fin (a / b).
Proof. intros a b H. unfold ndiv. destruct (Qeq_bool b 0) eqn:E; [apply Qeq_bool_iff in E; contradiction|reflexivity]. Qed.

(** ** Cramer's rule *)
Definition cramer_at (nd : nat) (a : tup (tup Q)) (b : tup Q) (e : nat) : Q := det nd (tset a e b) / det nd a.

Lemma solve_fin : forall nd a b, ~ det nd a == 0 -> solve nd a b = map (fun e => Fin (cramer_at nd a b e)) (seq 0 nd).
Proof. intros nd a b H. unfold solve. apply map_ext. intros e. apply ndiv_fin, H. Qed.

Lemma cramer2 : forall a b, ~ det 2 a == 0 ->
  c0 b == cramer_at 2 a b 0 * c0 (c0 a) + cramer_at 2 a b 1 * c0 (c1 a) /\
  c1 b == cramer_at 2 a b 0 * c1 (c0 a) + cramer_at 2 a b 1 * c1 (c1 a).
Proof.
  intros [[i0 i1 i2] [j0 j1 j2] [k0 k1 k2]] [x y z]. unfold cramer_at, det, tset. cbn. intros H. split; field; exact H.
Qed.
Lemma cramer2_unique : forall a b l m, ~ det 2 a == 0 ->
  c0 b == l * c0 (c0 a) + m * c0 (c1 a) -> c1 b == l * c1 (c0 a) + m * c1 (c1 a) ->
  cramer_at 2 a b 0 == l /\ cramer_at 2 a b 1 == m.
Proof.
  intros [[i0 i1 i2] [j0 j1 j2] [k0 k1 k2]] [x y z] l m. unfold cramer_at, det, tset. cbn. intros H Hx Hy.
  rewrite Hx, Hy. split; field; exact H.
Qed.
Lemma cramer3 : forall a b, ~ det 3 a == 0 ->
  c0 b == cramer_at 3 a b 0 * c0 (c0 a) + cramer_at 3 a b 1 * c0 (c1 a) + cramer_at 3 a b 2 * c0 (c2 a) /\
  c1 b == cramer_at 3 a b 0 * c1 (c0 a) + cramer_at 3 a b 1 * c1 (c1 a) + cramer_at 3 a b 2 * c1 (c2 a) /\
  c2 b == cramer_at 3 a b 0 * c2 (c0 a) + cramer_at 3 a b 1 * c2 (c1 a) + cramer_at 3 a b 2 * c2 (c2 a).
Proof.
  intros [[i0 i1 i2] [j0 j1 j2] [k0 k1 k2]] [x y z]. unfold cramer_at, det, tset. cbn. intros H. repeat split; field; exact H.
Qed.
Lemma cramer3_unique : forall a b l m n, ~ det 3 a == 0 ->
  c0 b == l * c0 (c0 a) + m * c0 (c1 a) + n * c0 (c2 a) -> c1 b == l * c1 (c0 a) + m * c1 (c1 a) + n * c1 (c2 a) ->
  c2 b == l * c2 (c0 a) + m * c2 (c1 a) + n * c2 (c2 a) ->
  cramer_at 3 a b 0 == l /\ cramer_at 3 a b 1 == m /\ cramer_at 3 a b 2 == n.
Proof.
  intros [[i0 i1 i2] [j0 j1 j2] [k0 k1 k2]] [x y z] l m n. unfold cramer_at, det, tset. cbn. intros H Hx Hy Hz.
  rewrite Hx, Hy, Hz. repeat split; field; exact H.
Qed.

(** ** Simplices *)
Lemma in_simplex_cons : forall tol s a l,
  in_simplex tol (Fin s) (Fin a :: l) = true <-> - tol <= a /\ s + a <= 1 + tol /\ in_simplex tol (Fin (s + a)) l = true.
Proof.
  intros tol s a l. cbn [in_simplex nadd nlt]. destruct (q_lt a (- tol)) eqn:A; cbn [orb].
  - apply lt_spec in A. split; [discriminate|intros [H _]; exfalso; lra].
  - apply lt_false in A. destruct (q_lt (1 + tol) (s + a)) eqn:B.
    + apply lt_spec in B. split; [discriminate|intros [_ [H _]]; exfalso; lra].
    + apply lt_false in B. tauto.
Qed.
Lemma simplex2 : forall tol p s x, ~ det 2 (spans p s) == 0 ->
  let v i := p (nth i s 0%nat) in
  in_simplex tol (Fin 0) (solve 2 (spans p s) (vsub x (v 0%nat))) = true <->
  exists a b, - tol <= a /\ a <= 1 + tol /\ - tol <= b /\ a + b <= 1 + tol /\
    forall d, (d < 2)%nat -> tget x d == tget (v 0%nat) d + a * (tget (v 1%nat) d - tget (v 0%nat) d) + b * (tget (v 2%nat) d - tget (v 0%nat) d).
Proof.
  intros tol p s x D v. rewrite solve_fin by exact D. cbn [seq map]. rewrite !in_simplex_cons.
  destruct (cramer2 (spans p s) (vsub x (v 0%nat)) D) as [E0 E1].
  split.
  -
    set (A0 := cramer_at 2 (spans p s) (vsub x (v 0%nat)) 0) in *. clearbody A0.
    set (A1 := cramer_at 2 (spans p s) (vsub x (v 0%nat)) 1) in *. clearbody A1.
    intros [H1 [H2 [H3 [H4 _]]]]. eexists; eexists. split; [exact H1|]. split; [lra|]. split; [exact H3|]. split; [lra|].
    intros d Hd. unfold spans, vsub, v in E0, E1. cbn [tget tmake c0 c1 c2] in E0, E1.
    destruct d as [|[|]]; [|  |lia]; cbn [tget]; fold v; unfold v in *; lra.
  - intros [a [b [H1 [H2 [H3 [H4 H]]]]]]. pose proof (H 0%nat ltac:(lia)) as X0. pose proof (H 1%nat ltac:(lia)) as X1. cbn [tget] in X0, X1.
    destruct (cramer2_unique (spans p s) (vsub x (v 0%nat)) a b D) as [U0 U1].
    + unfold spans, vsub, v in *. cbn [tget tmake c0 c1 c2]. lra.
    + unfold spans, vsub, v in *. cbn [tget tmake c0 c1 c2]. lra.
    + revert U0 U1. generalize (cramer_at 2 (spans p s) (vsub x (v 0%nat)) 0) (cramer_at 2 (spans p s) (vsub x (v 0%nat)) 1).
      intros A0 A1 U0 U1. split; [lra|]. split; [lra|]. split; [lra|]. split; [lra|reflexivity].
Qed.
Lemma simplex3 : forall tol p s x, ~ det 3 (spans p s) == 0 ->
  let v i := p (nth i s 0%nat) in
  in_simplex tol (Fin 0) (solve 3 (spans p s) (vsub x (v 0%nat))) = true <->
  exists a b c, - tol <= a /\ a <= 1 + tol /\ - tol <= b /\ a + b <= 1 + tol /\ - tol <= c /\ a + b + c <= 1 + tol /\
    forall d, (d < 3)%nat -> tget x d == tget (v 0%nat) d + a * (tget (v 1%nat) d - tget (v 0%nat) d)
      + b * (tget (v 2%nat) d - tget (v 0%nat) d) + c * (tget (v 3%nat) d - tget (v 0%nat) d).
Proof.
  intros tol p s x D v. rewrite solve_fin by exact D. cbn [seq map]. rewrite !in_simplex_cons.
  destruct (cramer3 (spans p s) (vsub x (v 0%nat)) D) as [E0 [E1 E2]].
  split.
  -
    set (A0 := cramer_at 3 (spans p s) (vsub x (v 0%nat)) 0) in *. clearbody A0.
    set (A1 := cramer_at 3 (spans p s) (vsub x (v 0%nat)) 1) in *. clearbody A1.
    set (A2 := cramer_at 3 (spans p s) (vsub x (v 0%nat)) 2) in *. clearbody A2.
    intros [H1 [H2 [H3 [H4 [H5 [H6 _]]]]]]. eexists; eexists; eexists. split; [exact H1|]. split; [lra|]. split; [exact H3|]. split; [lra|].
    split; [exact H5|]. split; [lra|].
    intros d Hd. unfold spans, vsub, v in E0, E1, E2. cbn [tget tmake c0 c1 c2] in E0, E1, E2.
    destruct d as [|[|[|]]]; [| | |lia]; cbn [tget]; unfold v in *; lra.
  - intros [a [b [c [H1 [H2 [H3 [H4 [H5 [H6 H]]]]]]]]].
    pose proof (H 0%nat ltac:(lia)) as X0. pose proof (H 1%nat ltac:(lia)) as X1. pose proof (H 2%nat ltac:(lia)) as X2. cbn [tget] in X0, X1, X2.
    destruct (cramer3_unique (spans p s) (vsub x (v 0%nat)) a b c D) as [U0 [U1 U2]].
    + unfold spans, vsub, v in *. cbn [tget tmake c0 c1 c2]. lra.
    + unfold spans, vsub, v in *. cbn [tget tmake c0 c1 c2]. lra.
    + unfold spans, vsub, v in *. cbn [tget tmake c0 c1 c2]. lra.
    + revert U0 U1 U2. generalize (cramer_at 3 (spans p s) (vsub x (v 0%nat)) 0) (cramer_at 3 (spans p s) (vsub x (v 0%nat)) 1) (cramer_at 3 (spans p s) (vsub x (v 0%nat)) 2).
      intros A0 A1 A2 U0 U1 U2. split; [lra|]. split; [lra|]. split; [lra|]. split; [lra|]. split; [lra|]. split; [lra|reflexivity].
Qed.

Lemma hull2 : forall nd a b x, hull nd [a; b] x <->
  exists l, 0 <= l <= 1 /\ forall d, (d < nd)%nat -> tget x d == tget a d + l * (tget b d - tget a d).
Proof.
  intros nd a b x. split.
  - intros [[|w0 [|w1 [|]]] [L [P [T H]]]]; try discriminate L. inversion P as [|? ? P0 P']; subst. inversion P' as [|? ? P1 _]; subst.
    cbn in T. exists w1. split; [lra|]. intros d Hd. specialize (H d Hd). cbn in H. assert (E : w0 == 1 - w1) by lra. rewrite H, E. ring.
  - intros [l [R H]]. exists [1 - l; l]. split; [reflexivity|]. split; [repeat constructor; lra|]. split; [cbn; ring|].
    intros d Hd. rewrite (H d Hd). cbn. ring.
Qed.
Lemma hull3 : forall nd a b c x, hull nd [a; b; c] x <->
  exists l m, 0 <= l /\ 0 <= m /\ l + m <= 1 /\
    forall d, (d < nd)%nat -> tget x d == tget a d + l * (tget b d - tget a d) + m * (tget c d - tget a d).
Proof.
  intros nd a b c x. split.
  - intros [[|w0 [|w1 [|w2 [|]]]] [L [P [T H]]]]; try discriminate L.
    inversion P as [|? ? P0 P']; subst. inversion P' as [|? ? P1 P'']; subst. inversion P'' as [|? ? P2 _]; subst.
    cbn in T. exists w1, w2. split; [lra|]. split; [lra|]. split; [lra|].
    intros d Hd. specialize (H d Hd). cbn in H. assert (E : w0 == 1 - w1 - w2) by lra. rewrite H, E. ring.
  - intros [l [m [P [Q [R H]]]]]. exists [1 - l - m; l; m]. split; [reflexivity|]. split; [repeat constructor; lra|]. split; [cbn; ring|].
    intros d Hd. rewrite (H d Hd). cbn. ring.
Qed.
Lemma hull4 : forall nd a b c e x, hull nd [a; b; c; e] x <->
  exists l m n, 0 <= l /\ 0 <= m /\ 0 <= n /\ l + m + n <= 1 /\
    forall d, (d < nd)%nat -> tget x d == tget a d + l * (tget b d - tget a d) + m * (tget c d - tget a d) + n * (tget e d - tget a d).
Proof.
  intros nd a b c e x. split.
  - intros [[|w0 [|w1 [|w2 [|w3 [|]]]]] [L [P [T H]]]]; try discriminate L.
    inversion P as [|? ? P0 P']; subst. inversion P' as [|? ? P1 P'']; subst. inversion P'' as [|? ? P2 P3']; subst. inversion P3' as [|? ? P3 _]; subst.
    cbn in T. exists w1, w2, w3. split; [lra|]. split; [lra|]. split; [lra|]. split; [lra|].
    intros d Hd. specialize (H d Hd). cbn in H. assert (E : w0 == 1 - w1 - w2 - w3) by lra. rewrite H, E. ring.
  - intros [l [m [n [P [Q [R [S H]]]]]]]. exists [1 - l - m - n; l; m; n]. split; [reflexivity|]. split; [repeat constructor; lra|]. split; [cbn; ring|].
    intros d Hd. rewrite (H d Hd). cbn. ring.
Qed.

Lemma qtotal_cons : forall a l, qtotal (a :: l) = a + qtotal l. Proof. reflexivity. Qed.
Lemma qtotal_app : forall a b, qtotal (a ++ b) == qtotal a + qtotal b.
Proof. induction a as [|y a IHa]; intros b; [change (qtotal b == 0 + qtotal b); ring|]. cbn [app]. rewrite !qtotal_cons, IHa. ring. Qed.
Lemma qtotal_zero : forall A (l : list A), qtotal (map (fun _ => 0) l) == 0.
Proof. induction l as [|y l IHl]; [reflexivity|]. cbn [map]. rewrite qtotal_cons, IHl. ring. Qed.
Lemma qtotal_zeros : forall d (k : list (tup Q)), qtotal (map (fun wv => fst wv * tget (snd wv) d) (combine (map (fun _ => 0) k) k)) == 0.
Proof. intros d. induction k as [|y k IHk]; [reflexivity|]. cbn [map combine]. rewrite qtotal_cons, IHk. cbn [fst]. ring. Qed.

(** A vertex is in the hull. *)
Lemma hull_in : forall nd vs v, In v vs -> hull nd vs v.
Proof.
  intros nd vs v H. apply in_split in H. destruct H as [l [r E]]. subst.
  exists (map (fun _ => 0) l ++ 1 :: map (fun _ => 0) r).
  split; [rewrite !app_length; cbn; rewrite !map_length; reflexivity|]. split.
  { apply Forall_app. split; [apply Forall_forall; intros w Hw; apply in_map_iff in Hw; destruct Hw as [? [<- _]]; lra|].
    constructor; [lra|]. apply Forall_forall; intros w Hw; apply in_map_iff in Hw; destruct Hw as [? [<- _]]; lra. }
  split; [rewrite qtotal_app, qtotal_cons, !qtotal_zero; ring|].
  intros d _.
  assert (C : forall a (l : list (tup Q)) b r, length a = length l -> combine (a ++ b) (l ++ r) = @combine Q (tup Q) a l ++ combine b r).
  { induction a as [|y0 a IHa]; intros [|y l0] b r0 HL; cbn in HL; try discriminate; [reflexivity|]. cbn. rewrite IHa by lia. reflexivity. }
  rewrite C by (rewrite map_length; reflexivity). rewrite map_app, qtotal_app. cbn [combine map]. rewrite qtotal_cons, !qtotal_zeros. cbn [fst snd]. ring.
Qed.

Lemma total_mix : forall t (l m : list Q), length l = length m ->
  qtotal (map (fun p => (1 - t) * fst p + t * snd p) (combine l m)) == (1 - t) * qtotal l + t * qtotal m.
Proof. induction l; intros [|b m] H; cbn in H; try discriminate; cbn [map combine]; [cbn; ring|]. rewrite !qtotal_cons, IHl by lia. cbn [fst snd]. ring. Qed.
Lemma hull_mix : forall nd vs x y t z, hull nd vs x -> hull nd vs y -> 0 <= t <= 1 ->
  (forall d, (d < nd)%nat -> tget z d == tget x d + t * (tget y d - tget x d)) -> hull nd vs z.
Proof.
  intros nd vs x y t z [ws [L [P [T H]]]] [ws' [L' [P' [T' H']]]] Ht Hz.
  exists (map (fun p => (1 - t) * fst p + t * snd p) (combine ws ws')).
  split; [rewrite map_length, combine_length; lia|]. split.
  { apply Forall_forall. intros w Hw. apply in_map_iff in Hw. destruct Hw as [[a b] [<- Hab]]. cbn.
    pose proof (in_combine_l _ _ _ _ Hab) as A. pose proof (in_combine_r _ _ _ _ Hab) as B.
    rewrite Forall_forall in P, P'. specialize (P a A). specialize (P' b B). cbn in P, P'. nra. }
  split; [rewrite total_mix, T, T' by lia; ring|].
  intros d Hd. rewrite (Hz d Hd), (H d Hd), (H' d Hd). clear -L L'.
  assert (G : forall (vs : list (tup Q)) ws ws', length ws = length vs -> length ws' = length vs ->
    qtotal (map (fun wv => fst wv * tget (snd wv) d) (combine (map (fun p => (1 - t) * fst p + t * snd p) (combine ws ws')) vs)) ==
    (1 - t) * qtotal (map (fun wv => fst wv * tget (snd wv) d) (combine ws vs)) + t * qtotal (map (fun wv => fst wv * tget (snd wv) d) (combine ws' vs))).
  { clear. induction vs; intros [|a0 ws] [|b0 ws'] H H'; cbn in H, H'; try discriminate; cbn [map combine]; [cbn; ring|]. rewrite !qtotal_cons, IHvs by lia. cbn [fst snd]. ring. }
  rewrite G by assumption. ring.
Qed.
(** Cells within cells of a finer description: convex combinations of points in the hull are in the hull. *)
Lemma hull_trans : forall nd us vs x, (nd <= 3)%nat -> (forall u, In u us -> hull nd vs u) -> hull nd us x -> hull nd vs x.
Proof.
  intros nd us vs x N3 Hu [ws [L [P [T H]]]]. revert us x Hu L H. revert T. 
  assert (G : forall ws us x s, Forall (fun w => 0 <= w) ws -> (forall u, In u us -> hull nd vs u) -> length ws = length us ->
     qtotal ws == s -> 0 < s -> (forall d, (d < nd)%nat -> s * tget x d == qtotal (map (fun wv => fst wv * tget (snd wv) d) (combine ws us))) -> hull nd vs x).
  { clear -N3. induction ws as [|w ws IH]; intros us x s P Hu L T Hs H; destruct us as [|u us]; cbn in L; try discriminate.
    - cbn in T. lra.
    - inversion P as [|? ? Pw P']; subst. rewrite qtotal_cons in T. cbn [map combine fst snd] in H. setoid_rewrite qtotal_cons in H. cbn [fst snd] in H.
      destruct (Qlt_le_dec 0 (qtotal ws)) as [G|G].
      + set (r := qtotal ws) in *.
        set (y := tmake (fun d => qtotal (map (fun wv => fst wv * tget (snd wv) d) (combine ws us)) / r)).
        assert (Y : hull nd vs y).
        { apply (IH us y r P'); [intros v Hv; apply Hu; right; exact Hv|lia|reflexivity|exact G|].
          intros d Hd. unfold y. rewrite tget_tmake by lia. field. lra. }
        apply (hull_mix nd vs u y (r / s) x); [apply Hu; left; reflexivity|exact Y| |].
        * split; [apply Qle_shift_div_l; lra|apply Qle_shift_div_r; lra].
        * intros d Hd. specialize (H d Hd). unfold y. rewrite tget_tmake by lia.
          set (Q0 := qtotal (map (fun wv : Q * tup Q => fst wv * tget (snd wv) d) (combine ws us))) in *. clearbody Q0.
          assert (X : tget x d == (w * tget u d + Q0) / s) by (rewrite <- H; field; lra).
          rewrite X. assert (Ew : w == s - r) by lra. rewrite Ew. field. split; lra.
      + assert (N : forall l, Forall (fun w => 0 <= w) l -> 0 <= qtotal l) by (induction l as [|a l IHl]; intros F; [apply Qle_refl|]; inversion F as [|? ? F1 F2]; subst; specialize (IHl F2); rewrite qtotal_cons; lra).
        assert (Z : forall l (vs : list (tup Q)) d, Forall (fun w => 0 <= w) l -> qtotal l <= 0 -> qtotal (map (fun wv => fst wv * tget (snd wv) d) (combine l vs)) == 0).
        { induction l as [|a l IHl]; intros vs0 d F Hl; [reflexivity|]. destruct vs0 as [|v0 vs0]; [reflexivity|]. inversion F as [|? ? F1 F2]; subst. rewrite qtotal_cons in Hl. cbn [map combine]. rewrite qtotal_cons.
          pose proof (N l F2) as N0. assert (A0 : a == 0) by lra. rewrite IHl by (auto; lra). cbn [fst snd]. rewrite A0. ring. }
        assert (Ew : w == s) by (pose proof (N ws P'); lra).
        apply (hull_mix nd vs u u 0 x); [apply Hu; left; reflexivity|apply Hu; left; reflexivity|lra|].
        intros d Hd. specialize (H d Hd). rewrite (Z ws us d P' G), Ew in H.
        assert (s * (tget x d - tget u d) == 0) by lra. apply Qmult_integral in H0. lra. }
  intros T us x Hu L H. apply (G ws us x 1); auto; try lra. intros d Hd. rewrite <- (H d Hd). ring.
Qed.

(** ** The test of curvilinear cells *)
Lemma part2 : forall p i j k x, ~ signed_area (p i) (p j) (p k) == 0 ->
  in_simplex 0 (Fin 0) (solve 2 (spans p [i; j; k]) (vsub x (p i))) = true <-> hull 2 [p i; p j; p k] x.
Proof.
  intros p i j k x D. rewrite hull3.
  assert (D' : ~ det 2 (spans p [i; j; k]) == 0).
  { intros H. apply D. rewrite <- H. unfold signed_area, det, spans, vsub. cbn [tget tmake nth c0 c1 c2]. ring. }
  pose proof (simplex2 0 p [i; j; k] x D') as S. cbn [nth] in S. rewrite S. clear.
  split.
  - intros [a [b [H1 [H2 [H3 [H4 H]]]]]]. exists a, b. repeat split; try lra. exact H.
  - intros [a [b [H1 [H2 [H3 H]]]]]. exists a, b. repeat split; try lra. exact H.
Qed.
Lemma part3 : forall p i j k l x, ~ signed_volume (p i) (p j) (p k) (p l) == 0 ->
  in_simplex 0 (Fin 0) (solve 3 (spans p [i; j; k; l]) (vsub x (p i))) = true <-> hull 3 [p i; p j; p k; p l] x.
Proof.
  intros p i j k l x D. rewrite hull4.
  assert (D' : ~ det 3 (spans p [i; j; k; l]) == 0).
  { intros H. apply D. rewrite <- H. unfold signed_volume, det, spans, vsub. cbn [tget tmake nth c0 c1 c2]. ring. }
  pose proof (simplex3 0 p [i; j; k; l] x D') as S. cbn [nth] in S. rewrite S. clear.
  split.
  - intros [a [b [c [H1 [H2 [H3 [H4 [H5 [H6 H]]]]]]]]]. exists a, b, c. repeat split; try lra. exact H.
  - intros [a [b [c [H1 [H2 [H3 [H4 H]]]]]]]. exists a, b, c. repeat split; try lra. exact H.
Qed.

Lemma simplices_parts : forall nd, map (map offset) (simplices nd) = parts nd.
Proof. intros [|[|[|[|]]]]; reflexivity. Qed.
Lemma at_nodes : forall X cell s, at_corners X cell (map offset s) = map (node X cell) s.
Proof. intros. unfold at_corners. rewrite map_map. reflexivity. Qed.

Lemma overlaps_parts : forall nd X cell x, (nd = 2 \/ nd = 3)%nat -> proper nd X cell ->
  overlaps_cell CURVILINEAR nd X 0 cell x = true <-> exists part, In part (parts nd) /\ hull nd (at_corners X cell part) x.
Proof.
  intros nd X cell x Hnd P. unfold overlaps_cell.
  replace (Nat.eqb nd 1) with false by (destruct Hnd; subst; reflexivity). unfold overlaps_simplices. rewrite existsb_exists.
  assert (G : forall s, In s (simplices nd) ->
    in_simplex 0 (Fin 0) (solve nd (spans (node X cell) s) (vsub x (node X cell (nth 0 s 0%nat)))) = true <-> hull nd (at_corners X cell (map offset s)) x).
  { intros s Hs. assert (Ps : In (map offset s) (parts nd)) by (rewrite <- simplices_parts; apply in_map, Hs).
    specialize (P _ Ps). rewrite at_nodes in *. 
    assert (L : length s = S nd).
    { destruct Hnd; subst nd; cbn in Hs; repeat (destruct Hs as [<-|Hs]; [reflexivity|]); contradiction. }
    destruct Hnd; subst nd.
    - destruct s as [|i [|j [|k [|]]]]; try discriminate L. cbn [map] in P. cbn [nth map]. apply part2, P.
    - destruct s as [|i [|j [|k [|l [|]]]]]; try discriminate L. cbn [map] in P. cbn [nth map]. apply part3, P. }
  split.
  - intros [s [Hs H]]. exists (map offset s). split; [rewrite <- simplices_parts; apply in_map, Hs|apply G; assumption].
  - intros [part [Hp H]]. rewrite <- simplices_parts in Hp. apply in_map_iff in Hp. destruct Hp as [s [<- Hs]].
    exists s. split; [exact Hs|]. apply G; assumption.
Qed.

Lemma parts_corners : forall nd part o, (nd = 2 \/ nd = 3)%nat -> In part (parts nd) -> In o part -> In o (corners nd).
Proof.
  intros nd part o [->| ->] Hp Ho; cbn in Hp; repeat (destruct Hp as [<-|Hp]; [cbn in Ho |- *; tauto|]); contradiction.
Qed.
Lemma overlaps_hull : forall nd X cell x, (nd = 2 \/ nd = 3)%nat -> proper nd X cell ->
  overlaps_cell CURVILINEAR nd X 0 cell x = true -> hull nd (at_corners X cell (corners nd)) x.
Proof.
  intros nd X cell x Hnd P H. apply overlaps_parts in H; auto. destruct H as [part [Hp H]].
  apply (hull_trans nd (at_corners X cell part)); [lia| |exact H].
  intros u Hu. unfold at_corners in Hu. apply in_map_iff in Hu. destruct Hu as [o [<- Ho]]. apply hull_in.
  unfold at_corners. apply (in_map (fun o => X (tadd cell o))). exact (parts_corners nd part o Hnd Hp Ho).
Qed.

(** The lower face of a cell is the upper face of the cell before it, divided in the same way. *)
Definition subsetb (a b : list (tup Z)) : bool :=
  forallb (fun o => existsb (fun o' => (Z.eqb (c0 o) (c0 o') && Z.eqb (c1 o) (c1 o') && Z.eqb (c2 o) (c2 o'))) b) a.
Lemma subsetb_In : forall a b, subsetb a b = true -> forall o, In o a -> In o b.
Proof.
  intros a b H o Ho. unfold subsetb in H. rewrite forallb_forall in H. specialize (H o Ho). apply existsb_exists in H.
  destruct H as [o' [I E]]. apply andb_prop in E. destruct E as [E E2]. apply andb_prop in E. destruct E as [E0 E1].
  apply Z.eqb_eq in E0, E1, E2. destruct o, o'. cbn in *. subst. exact I.
Qed.
Lemma face_parts : forall nd d face, (nd = 2 \/ nd = 3)%nat -> (d < nd)%nat -> In face (lower_face nd d) ->
  (exists part, In part (parts nd) /\ forall o, In o face -> In o part) /\
  (exists part, In part (parts nd) /\ forall o, In o face -> In (tadd o (unit_step d)) part).
Proof.
  assert (K : forall nd d, forallb (fun face => existsb (fun part => subsetb face part) (parts nd) &&
     existsb (fun part => subsetb (map (fun o => tadd o (unit_step d)) face) part) (parts nd)) (lower_face nd d) = true ->
     forall face, In face (lower_face nd d) -> (exists part, In part (parts nd) /\ forall o, In o face -> In o part) /\
  (exists part, In part (parts nd) /\ forall o, In o face -> In (tadd o (unit_step d)) part)).
  { intros nd d H face Hf. rewrite forallb_forall in H. specialize (H face Hf). apply andb_prop in H. destruct H as [A B].
    apply existsb_exists in A, B. destruct A as [q [Q1 Q2]], B as [r [R1 R2]]. split.
    - exists q. split; [exact Q1|]. apply subsetb_In, Q2.
    - exists r. split; [exact R1|]. intros o Ho. apply (subsetb_In _ _ R2). apply (in_map (fun o => tadd o (unit_step d))), Ho. }
  intros nd d face [->| ->] Hd; apply K; destruct d as [|[|[|]]]; try lia; vm_compute; reflexivity.
Qed.
Lemma tadd_assoc : forall a b c : tup Z, tadd (tadd a b) c = tadd a (tadd b c).
Proof. intros [x0 x1 x2] [y0 y1 y2] [z0 z1 z2]. unfold tadd, tmake. cbn [tget c0 c1 c2]. rewrite ?Z.add_assoc. reflexivity. Qed.
Lemma tadd_comm : forall a b : tup Z, tadd a b = tadd b a.
Proof. intros [x0 x1 x2] [y0 y1 y2]. unfold tadd, tmake. cbn [tget c0 c1 c2]. rewrite (Z.add_comm x0), (Z.add_comm x1), (Z.add_comm x2). reflexivity. Qed.
Lemma hull_incl : forall nd us vs x, (nd <= 3)%nat -> (forall u, In u us -> In u vs) -> hull nd us x -> hull nd vs x.
Proof. intros nd us vs x N H. apply hull_trans; [exact N|]. intros u Hu. apply hull_in, H, Hu. Qed.

Lemma no_gap : forall nd d face X cell x, (nd = 2 \/ nd = 3)%nat -> (d < nd)%nat -> In face (lower_face nd d) ->
  let next := tadd cell (unit_step d) in
  proper nd X cell -> proper nd X next -> hull nd (at_corners X next face) x ->
  overlaps_cell CURVILINEAR nd X 0 cell x = true /\ overlaps_cell CURVILINEAR nd X 0 next x = true.
Proof.
  intros nd d face X cell x Hnd Hd Hf next P P' H. destruct (face_parts nd d face Hnd Hd Hf) as [[q [Q1 Q2]] [r [R1 R2]]].
  split; apply overlaps_parts; auto.
  - exists r. split; [exact R1|]. revert H. apply hull_incl; [lia|]. intros u Hu. unfold at_corners in *. apply in_map_iff in Hu.
    destruct Hu as [o [<- Ho]]. apply in_map_iff. exists (tadd o (unit_step d)). split; [|apply R2, Ho].
    f_equal. unfold next. rewrite tadd_assoc. f_equal. apply tadd_comm.
  - exists q. split; [exact Q1|]. revert H. apply hull_incl; [lia|]. intros u Hu. unfold at_corners in *. apply in_map_iff in Hu.
    destruct Hu as [o [<- Ho]]. apply (in_map (fun o => X (tadd next o))), Q2, Ho.
Qed.

(** ** Convex quadrilaterals *)
Lemma convex_proper : forall X cell, convex X cell -> proper 2 X cell.
Proof.
  intros X cell C part Hp. unfold convex in C. cbn [parts] in Hp. destruct Hp as [<-|[<-|[]]]; cbn [at_corners map]; intros E;
  destruct C as [F|F]; inversion F as [|? ? F1 G]; subst; inversion G as [|? ? F2 G']; subst; inversion G' as [|? ? F3 _]; subst; lra.
Qed.
Lemma ratio_pos : forall a b, (0 < a /\ 0 < b) \/ (a < 0 /\ b < 0) -> 0 < a / b.
Proof.
  intros a b [[H1 H2]|[H1 H2]].
  - apply Qlt_shift_div_l; lra.
  - setoid_replace (a / b) with ((- a) / (- b)) by (field; lra). apply Qlt_shift_div_l; lra.
Qed.
Lemma quad_split : forall p q r s x : tup Q,
  let S1 := signed_area p q r in let T1 := signed_area q s p in let S2 := signed_area s r q in let T2 := signed_area r p s in
  (0 < S1 /\ 0 < T1 /\ 0 < S2 /\ 0 < T2) \/ (S1 < 0 /\ T1 < 0 /\ S2 < 0 /\ T2 < 0) ->
  hull 2 [p; q; r; s] x -> hull 2 [p; q; r] x \/ hull 2 [s; r; q] x.
Proof.
  intros p q r s x S1 T1 S2 T2 C H. apply hull4 in H. destruct H as [l [m [n [Hl [Hm [Hn [Hs H]]]]]]].
  assert (N1 : ~ S1 == 0) by lra. assert (N2 : ~ S2 == 0) by lra.
  assert (A1 : 0 < T2 / S1) by (apply ratio_pos; tauto). assert (B1 : 0 < T1 / S1) by (apply ratio_pos; tauto).
  assert (A2 : 0 < T2 / S2) by (apply ratio_pos; tauto). assert (B2 : 0 < T1 / S2) by (apply ratio_pos; tauto).
  assert (Q1 : 0 < S2 / S1) by (apply ratio_pos; tauto).
  assert (Q2 : 0 < S1 / S2) by (apply ratio_pos; tauto).
  assert (E1 : T2 / S1 + T1 / S1 == 1 + S2 / S1).
  { assert (E : T2 + T1 == S1 + S2) by (unfold S1, S2, T1, T2, signed_area; ring). setoid_replace (T2 / S1 + T1 / S1) with ((T2 + T1) / S1) by (field; exact N1). rewrite E. field. exact N1. }
  assert (E2 : T2 / S2 + T1 / S2 == 1 + S1 / S2).
  { assert (E : T2 + T1 == S1 + S2) by (unfold S1, S2, T1, T2, signed_area; ring). setoid_replace (T2 / S2 + T1 / S2) with ((T2 + T1) / S2) by (field; exact N2). rewrite E. field. exact N2. }
  assert (EI : (S2 / S1) * (S1 / S2) == 1) by (field; tauto).
  pose proof (H 0%nat ltac:(lia)) as X0. pose proof (H 1%nat ltac:(lia)) as X1. cbn [tget] in X0, X1.
  set (w := 1 - l - m - n).
  destruct (Qlt_le_dec w (n * (S2 / S1))) as [G|G].
  - right. apply hull3. exists (m + w * (T1 / S2)), (l + w * (T2 / S2)).
    assert (Hw : 0 <= w) by (unfold w; lra).
    split; [nra|]. split; [nra|]. split.
    { assert (n - w * (S1 / S2) >= 0).
      { assert (w * (S1 / S2) <= n * (S2 / S1) * (S1 / S2)) by (apply Qmult_le_compat_r; lra).
        assert (n * (S2 / S1) * (S1 / S2) == n * ((S2 / S1) * (S1 / S2))) by ring. rewrite EI in H1. lra. }
      unfold w in *. nra. }
    intros d Hd. destruct d as [|[|]]; [| |lia]; cbn [tget]; [rewrite X0|rewrite X1]; unfold w, T1, T2, S2, signed_area in *; field; exact N2.
  - left. apply hull3. exists (l + n * (T2 / S1)), (m + n * (T1 / S1)).
    split; [nra|]. split; [nra|]. split.
    { unfold w in *. nra. }
    intros d Hd. destruct d as [|[|]]; [| |lia]; cbn [tget]; [rewrite X0|rewrite X1]; unfold T1, T2, S1, signed_area in *; field; exact N1.
Qed.
Lemma convex_overlaps : forall X cell x, convex X cell ->
  overlaps_cell CURVILINEAR 2 X 0 cell x = true <-> hull 2 (at_corners X cell (corners 2)) x.
Proof.
  intros X cell x C. pose proof (convex_proper X cell C) as P. split; [apply overlaps_hull; auto|].
  intros H. apply overlaps_parts; auto. unfold at_corners, corners in H. cbn [map] in H.
  apply quad_split in H.
  - destruct H as [H|H].
    + eexists. split; [left; reflexivity|]. exact H.
    + eexists. split; [right; left; reflexivity|]. exact H.
  - unfold convex in C. destruct C as [F|F]; inversion F as [|? ? F1 G]; subst; inversion G as [|? ? F2 G']; subst; inversion G' as [|? ? F3 G'']; subst; inversion G'' as [|? ? F4 _]; subst; tauto.
Qed.

(** ** Cells with parallel edges *)
Lemma tadd_zero : forall a, tadd a (T3 0 0 0)%Z = a.
Proof. intros [x0 x1 x2]. unfold tadd, tmake. cbn [tget c0 c1 c2]. rewrite !Z.add_0_r. reflexivity. Qed.
Lemma node0 : forall X cell, node X cell 0 = X cell.
Proof. intros. unfold node. change (offset 0) with (T3 0 0 0)%Z. rewrite tadd_zero. reflexivity. Qed.
Definition axis_node (e : nat) : nat := match e with 0%nat => 1%nat | 1%nat => 2%nat | _ => 4%nat end.
Lemma side_node : forall X cell e d, (e < 3)%nat -> side X cell e d = tget (node X cell (axis_node e)) d - tget (node X cell 0) d.
Proof. intros X cell e d He. rewrite node0. destruct e as [|[|[|]]]; try lia; reflexivity. Qed.

Lemma located1 : forall X cell u x, located 1 X cell u x <-> c0 x == c0 (node X cell 0) + c0 u * side X cell 0 0.
Proof.
  intros X cell u x. rewrite node0. unfold located. cbn [seq map]. split.
  - intros H. rewrite (H 0%nat) by lia. rewrite qtotal_cons. cbn. ring.
  - intros H d Hd. replace d with 0%nat by lia. cbn [tget]. rewrite H. rewrite qtotal_cons. cbn. ring.
Qed.
Lemma located2 : forall X cell u x, located 2 X cell u x <->
  forall d, (d < 2)%nat -> tget x d == tget (node X cell 0) d + c0 u * side X cell 0 d + c1 u * side X cell 1 d.
Proof.
  intros X cell u x. rewrite node0. unfold located. cbn [seq map].
  split; intros H d Hd; rewrite (H d Hd), !qtotal_cons || rewrite (H d Hd); rewrite ?qtotal_cons; change (qtotal []) with 0; cbn [tget]; ring.
Qed.
Lemma located3 : forall X cell u x, located 3 X cell u x <->
  forall d, (d < 3)%nat -> tget x d == tget (node X cell 0) d + c0 u * side X cell 0 d + c1 u * side X cell 1 d + c2 u * side X cell 2 d.
Proof.
  intros X cell u x. rewrite node0. unfold located. cbn [seq map].
  split; intros H d Hd; rewrite (H d Hd); rewrite ?qtotal_cons; change (qtotal []) with 0; cbn [tget]; ring.
Qed.

Lemma parallel2 : forall X cell, parallel 2 X cell -> forall d, (d < 2)%nat ->
  tget (node X cell 3) d == tget (node X cell 0) d + side X cell 0 d + side X cell 1 d.
Proof.
  intros X cell P d Hd. specialize (P (T3 1 1 0)%Z ltac:(cbn; tauto)). rewrite located2 in P. specialize (P d Hd).
  cbn [c0 c1 c2 tmake tget inject_Z] in P. change (node X cell 3) with (X (tadd cell (T3 1 1 0)%Z)). rewrite P. ring.
Qed.
Lemma parallel3 : forall X cell, parallel 3 X cell -> forall d, (d < 3)%nat ->
  tget (node X cell 3) d == tget (node X cell 0) d + side X cell 0 d + side X cell 1 d /\
  tget (node X cell 5) d == tget (node X cell 0) d + side X cell 0 d + side X cell 2 d /\
  tget (node X cell 6) d == tget (node X cell 0) d + side X cell 1 d + side X cell 2 d /\
  tget (node X cell 7) d == tget (node X cell 0) d + side X cell 0 d + side X cell 1 d + side X cell 2 d.
Proof.
  intros X cell P d Hd. pose proof (P (T3 1 1 0)%Z ltac:(cbn; tauto)) as P3. pose proof (P (T3 1 0 1)%Z ltac:(cbn; tauto)) as P5.
  pose proof (P (T3 0 1 1)%Z ltac:(cbn; tauto)) as P6. pose proof (P (T3 1 1 1)%Z ltac:(cbn; tauto)) as P7.
  rewrite located3 in P3, P5, P6, P7. specialize (P3 d Hd). specialize (P5 d Hd). specialize (P6 d Hd). specialize (P7 d Hd).
  cbn [c0 c1 c2 tmake tget inject_Z] in P3, P5, P6, P7.
  change (node X cell 3) with (X (tadd cell (T3 1 1 0)%Z)). change (node X cell 5) with (X (tadd cell (T3 1 0 1)%Z)).
  change (node X cell 6) with (X (tadd cell (T3 0 1 1)%Z)). change (node X cell 7) with (X (tadd cell (T3 1 1 1)%Z)).
  rewrite P3, P5, P6, P7. repeat split; ring.
Qed.

Lemma in_bounds_map : forall tol f g nd, (forall d, (d < nd)%nat -> f d = Fin (g d)) ->
  in_bounds tol (map f (seq 0 nd)) = true <-> forall d, (d < nd)%nat -> - tol <= g d <= 1 + tol.
Proof.
  intros tol f g nd H. unfold in_bounds. rewrite forallb_forall. split.
  - intros F d Hd. specialize (F (f d) ltac:(apply in_map, in_seq; lia)). rewrite (H d Hd) in F. cbn [nlt] in F.
    apply andb_prop in F. destruct F as [A B]. apply negb_true_iff in A, B. apply lt_false in A, B. lra.
  - intros F a Ha. apply in_map_iff in Ha. destruct Ha as [d [<- Hd]]. apply in_seq in Hd. rewrite H by lia. specialize (F d ltac:(lia)).
    cbn [nlt]. apply andb_true_intro. split; apply negb_true_iff, lt_false; lra.
Qed.

Lemma along_located : forall nd X cell u x, (1 <= nd <= 3)%nat -> along_axes nd X cell ->
  located nd X cell u x <-> forall d, (d < nd)%nat -> tget x d == tget (X cell) d + tget u d * side X cell d d.
Proof.
  intros nd X cell u x Hnd [A _]. unfold located.
  assert (G : forall d, (d < nd)%nat -> qtotal (map (fun e => tget u e * side X cell e d) (seq 0 nd)) == tget u d * side X cell d d).
  { intros d Hd. destruct nd as [|[|[|[|]]]]; try lia; cbn [seq map]; rewrite !qtotal_cons; change (qtotal []) with 0.
    - replace d with 0%nat by lia. ring.
    - destruct d as [|[|]]; [| |lia]; [rewrite (A 1%nat 0%nat) by lia|rewrite (A 0%nat 1%nat) by lia]; ring.
    - destruct d as [|[|[|]]]; [| | |lia]; [rewrite (A 1%nat 0%nat), (A 2%nat 0%nat) by lia|rewrite (A 0%nat 1%nat), (A 2%nat 1%nat) by lia|rewrite (A 0%nat 2%nat), (A 1%nat 2%nat) by lia]; ring. }
  split; intros H d Hd; specialize (H d Hd); specialize (G d Hd); lra.
Qed.

Lemma along_upper : forall nd X cell, (1 <= nd <= 3)%nat -> along_axes nd X cell -> parallel nd X cell -> forall d, (d < nd)%nat ->
  tget (node X cell (upper nd)) d - tget (node X cell 0) d == side X cell d d.
Proof.
  intros nd X cell Hnd A P d Hd. rewrite node0.
  assert (U : In (offset (upper nd)) (corners nd)) by (destruct nd as [|[|[|[|]]]]; try lia; cbn; tauto).
  specialize (P _ U). rewrite along_located in P by assumption. unfold node. rewrite (P d Hd).
  assert (O : tget (tmake (fun e => inject_Z (tget (offset (upper nd)) e))) d = 1).
  { destruct nd as [|[|[|[|]]]]; try lia; destruct d as [|[|[|]]]; try lia; reflexivity. }
  rewrite O. ring.
Qed.

Lemma uniform_overlaps : forall nd X tol cell x, (1 <= nd <= 3)%nat -> along_axes nd X cell -> parallel nd X cell ->
  in_bounds tol (uniform_inverse nd (node X cell 0) (node X cell (upper nd)) x) = true <->
  exists u, within nd tol u /\ located nd X cell u x.
Proof.
  intros nd X tol cell x Hnd A P. pose proof (along_upper nd X cell Hnd A P) as U.
  set (g := fun d => (tget x d - tget (node X cell 0) d) / (tget (node X cell (upper nd)) d - tget (node X cell 0) d)).
  assert (N : forall d, (d < nd)%nat -> ~ tget (node X cell (upper nd)) d - tget (node X cell 0) d == 0).
  { intros d Hd. rewrite (U d Hd). apply A, Hd. }
  unfold uniform_inverse. rewrite (in_bounds_map tol _ g) by (intros d Hd; apply ndiv_fin, N, Hd).
  split.
  - intros H. exists (tmake g). split.
    + intros d Hd. rewrite tget_tmake by lia. apply H, Hd.
    + apply along_located; auto. intros d Hd. rewrite tget_tmake by lia. unfold g. rewrite <- (U d Hd), node0. field. rewrite <- (node0 X cell). apply N, Hd.
  - intros [u [W L]] d Hd. rewrite along_located in L by assumption. specialize (L d Hd). specialize (W d Hd).
    assert (E : g d == tget u d). { unfold g. rewrite (U d Hd), L, node0. field. apply A, Hd. }
    lra.
Qed.

Lemma inner1 : forall f g, inner 1 f g == f 0%nat * g 0%nat.
Proof. intros. unfold inner. cbn [seq map]. rewrite qtotal_cons. change (qtotal []) with 0. ring. Qed.
Lemma inner2 : forall f g, inner 2 f g == f 0%nat * g 0%nat + f 1%nat * g 1%nat.
Proof. intros. unfold inner. cbn [seq map]. rewrite !qtotal_cons. change (qtotal []) with 0. ring. Qed.
Lemma inner3 : forall f g, inner 3 f g == f 0%nat * g 0%nat + f 1%nat * g 1%nat + f 2%nat * g 2%nat.
Proof. intros. unfold inner. cbn [seq map]. rewrite !qtotal_cons. change (qtotal []) with 0. ring. Qed.
Lemma vdot2 : forall a b, vdot 2 a b == c0 a * c0 b + c1 a * c1 b.
Proof. intros. unfold vdot, vsum. cbn [seq map fold_left tget]. ring. Qed.
Lemma vdot3 : forall a b, vdot 3 a b == c0 a * c0 b + c1 a * c1 b + c2 a * c2 b.
Proof. intros. unfold vdot, vsum. cbn [seq map fold_left tget]. ring. Qed.
Lemma edge_side : forall X cell e d, (e < 3)%nat -> (d < 3)%nat -> tget (edge (node X cell) e) d = side X cell e d.
Proof. intros X cell e d He Hd. rewrite side_node by assumption. unfold edge, vsub. rewrite tget_tmake by assumption. reflexivity. Qed.
Lemma vdot_edge : forall nd X cell e y, (1 <= nd <= 3)%nat -> (e < nd)%nat -> vdot nd y (edge (node X cell) e) == inner nd (fun d => tget y d) (side X cell e).
Proof.
  intros nd X cell e y Hnd He. unfold inner, vdot, vsum.
  destruct nd as [|[|[|[|]]]]; try lia; cbn [seq map fold_left]; rewrite !edge_side by lia; rewrite ?qtotal_cons; change (qtotal []) with 0; ring.
Qed.

Lemma null2 : forall (a b y : nat -> Q), ~ inner 2 a a == 0 -> ~ inner 2 b b == 0 -> inner 2 a b == 0 ->
  inner 2 y a == 0 -> inner 2 y b == 0 -> forall d, (d < 2)%nat -> y d == 0.
Proof.
  intros a b y. rewrite !inner2. generalize (a 0%nat) (a 1%nat) (b 0%nat) (b 1%nat). intros a0 a1 b0 b1 Ha Hb Hab Ya Yb.
  set (D := a0 * b1 - a1 * b0).
  assert (DD : D * D == (a0 * a0 + a1 * a1) * (b0 * b0 + b1 * b1)).
  { setoid_replace (D * D) with ((a0 * a0 + a1 * a1) * (b0 * b0 + b1 * b1) - (a0 * b0 + a1 * b1) * (a0 * b0 + a1 * b1)) by (unfold D; ring). rewrite Hab. ring. }
  assert (ND : ~ D == 0).
  { intros E. rewrite E in DD. assert (Z : (a0 * a0 + a1 * a1) * (b0 * b0 + b1 * b1) == 0) by lra. apply Qmult_integral in Z. tauto. }
  intros d Hd. assert (E : D * y d == 0).
  { destruct d as [|[|]]; [| |lia].
    - setoid_replace (D * y 0%nat) with ((y 0%nat * a0 + y 1%nat * a1) * b1 - (y 0%nat * b0 + y 1%nat * b1) * a1) by (unfold D; ring). rewrite Ya, Yb. ring.
    - setoid_replace (D * y 1%nat) with ((y 0%nat * b0 + y 1%nat * b1) * a0 - (y 0%nat * a0 + y 1%nat * a1) * b0) by (unfold D; ring). rewrite Ya, Yb. ring. }
  apply Qmult_integral in E. tauto.
Qed.
Lemma null3 : forall (a b c y : nat -> Q), ~ inner 3 a a == 0 -> ~ inner 3 b b == 0 -> ~ inner 3 c c == 0 ->
  inner 3 a b == 0 -> inner 3 a c == 0 -> inner 3 b c == 0 ->
  inner 3 y a == 0 -> inner 3 y b == 0 -> inner 3 y c == 0 -> forall d, (d < 3)%nat -> y d == 0.
Proof.
  intros a b c y. rewrite !inner3. generalize (a 0%nat) (a 1%nat) (a 2%nat) (b 0%nat) (b 1%nat) (b 2%nat) (c 0%nat) (c 1%nat) (c 2%nat).
  intros a0 a1 a2 b0 b1 b2 k0 k1 k2 Ha Hb Hc Hab Hac Hbc Ya Yb Yc.
  set (D := a0 * (b1 * k2 - b2 * k1) - a1 * (b0 * k2 - b2 * k0) + a2 * (b0 * k1 - b1 * k0)).
  set (AA := a0 * a0 + a1 * a1 + a2 * a2) in *. set (BB := b0 * b0 + b1 * b1 + b2 * b2) in *. set (CC := k0 * k0 + k1 * k1 + k2 * k2) in *.
  set (AB := a0 * b0 + a1 * b1 + a2 * b2) in *. set (AC := a0 * k0 + a1 * k1 + a2 * k2) in *. set (BC := b0 * k0 + b1 * k1 + b2 * k2) in *.
  assert (DD : D * D == AA * BB * CC).
  { assert (G : D * D == AA * (BB * CC - BC * BC) - AB * (AB * CC - BC * AC) + AC * (AB * BC - BB * AC)).
    { unfold D, AA, BB, CC, AB, AC, BC. ring. }
    rewrite G, Hab, Hac, Hbc. ring. }
  assert (ND : ~ D == 0).
  { intros E. rewrite E in DD. assert (Z : AA * BB * CC == 0) by lra. apply Qmult_integral in Z. destruct Z as [Z|Z]; [|tauto]. apply Qmult_integral in Z. tauto. }
  intros d Hd.
  set (YA := y 0%nat * a0 + y 1%nat * a1 + y 2%nat * a2) in *. set (YB := y 0%nat * b0 + y 1%nat * b1 + y 2%nat * b2) in *.
  set (YC := y 0%nat * k0 + y 1%nat * k1 + y 2%nat * k2) in *.
  assert (E : D * y d == 0).
  { destruct d as [|[|[|]]]; [| | |lia].
    - setoid_replace (D * y 0%nat) with (YA * (b1 * k2 - b2 * k1) + YB * (k1 * a2 - k2 * a1) + YC * (a1 * b2 - a2 * b1)) by (unfold D, YA, YB, YC; ring). rewrite Ya, Yb, Yc. ring.
    - setoid_replace (D * y 1%nat) with (YA * (b2 * k0 - b0 * k2) + YB * (k2 * a0 - k0 * a2) + YC * (a2 * b0 - a0 * b2)) by (unfold D, YA, YB, YC; ring). rewrite Ya, Yb, Yc. ring.
    - setoid_replace (D * y 2%nat) with (YA * (b0 * k1 - b1 * k0) + YB * (k0 * a1 - k1 * a0) + YC * (a0 * b1 - a1 * b0)) by (unfold D, YA, YB, YC; ring). rewrite Ya, Yb, Yc. ring. }
  apply Qmult_integral in E. tauto.
Qed.

(** The components of the position along perpendicular edges. *)
Lemma perpendicular_located : forall nd X cell u x, (2 <= nd <= 3)%nat -> perpendicular nd X cell ->
  located nd X cell u x <->
  forall e, (e < nd)%nat -> inner nd (fun d => tget x d - tget (node X cell 0) d) (side X cell e) == tget u e * inner nd (side X cell e) (side X cell e).
Proof.
  intros nd X cell u x Hnd [N O]. destruct nd as [|[|[|[|]]]]; try lia.
  - rewrite located2. pose proof (O 0%nat 1%nat ltac:(lia) ltac:(lia) ltac:(lia)) as P.
    pose proof (N 0%nat ltac:(lia)) as N0. pose proof (N 1%nat ltac:(lia)) as N1.
    set (a := side X cell 0) in *. set (b := side X cell 1) in *.
    set (y := fun d => tget x d - tget (node X cell 0) d - c0 u * a d - c1 u * b d).
    assert (YA : inner 2 y a == inner 2 (fun d => tget x d - tget (node X cell 0) d) a - c0 u * inner 2 a a).
    { rewrite !inner2 in *. unfold y. transitivity ((tget x 0 - tget (node X cell 0) 0) * a 0%nat + (tget x 1 - tget (node X cell 0) 1) * a 1%nat - c0 u * (a 0%nat * a 0%nat + a 1%nat * a 1%nat) - c1 u * (a 0%nat * b 0%nat + a 1%nat * b 1%nat)); [ring|]. rewrite P. ring. }
    assert (YB : inner 2 y b == inner 2 (fun d => tget x d - tget (node X cell 0) d) b - c1 u * inner 2 b b).
    { rewrite !inner2 in *. unfold y. transitivity ((tget x 0 - tget (node X cell 0) 0) * b 0%nat + (tget x 1 - tget (node X cell 0) 1) * b 1%nat - c1 u * (b 0%nat * b 0%nat + b 1%nat * b 1%nat) - c0 u * (a 0%nat * b 0%nat + a 1%nat * b 1%nat)); [ring|]. rewrite P. ring. }
    split.
    + intros H. assert (Y0 : forall d, (d < 2)%nat -> y d == 0) by (intros d Hd; unfold y; rewrite (H d Hd); ring).
      intros e He. destruct e as [|[|]]; [| |lia]; cbn [tget]; fold a b.
      * rewrite inner2 in YA at 1. rewrite (Y0 0%nat), (Y0 1%nat) in YA by lia. lra.
      * rewrite inner2 in YB at 1. rewrite (Y0 0%nat), (Y0 1%nat) in YB by lia. lra.
    + intros H. pose proof (H 0%nat ltac:(lia)) as H0. pose proof (H 1%nat ltac:(lia)) as H1. cbn [tget] in H0, H1. fold a in H0. fold b in H1.
      rewrite H0 in YA. rewrite H1 in YB.
      assert (Y0 : forall d, (d < 2)%nat -> y d == 0) by (apply (null2 a b); auto; lra).
      intros d Hd. specialize (Y0 d Hd). unfold y in Y0. lra.
  - rewrite located3. pose proof (O 0%nat 1%nat ltac:(lia) ltac:(lia) ltac:(lia)) as P.
    pose proof (O 0%nat 2%nat ltac:(lia) ltac:(lia) ltac:(lia)) as P'. pose proof (O 1%nat 2%nat ltac:(lia) ltac:(lia) ltac:(lia)) as P''.
    pose proof (N 0%nat ltac:(lia)) as N0. pose proof (N 1%nat ltac:(lia)) as N1. pose proof (N 2%nat ltac:(lia)) as N2.
    set (a := side X cell 0) in *. set (b := side X cell 1) in *. set (c := side X cell 2) in *.
    set (z := fun d => tget x d - tget (node X cell 0) d).
    set (y := fun d => z d - c0 u * a d - c1 u * b d - c2 u * c d).
    assert (YA : inner 3 y a == inner 3 z a - c0 u * inner 3 a a).
    { transitivity (inner 3 z a - c0 u * inner 3 a a - c1 u * inner 3 a b - c2 u * inner 3 a c); [rewrite !inner3; unfold y; ring|]. rewrite P, P'. ring. }
    assert (YB : inner 3 y b == inner 3 z b - c1 u * inner 3 b b).
    { transitivity (inner 3 z b - c0 u * inner 3 a b - c1 u * inner 3 b b - c2 u * inner 3 b c); [rewrite !inner3; unfold y; ring|]. rewrite P, P''. ring. }
    assert (YC : inner 3 y c == inner 3 z c - c2 u * inner 3 c c).
    { transitivity (inner 3 z c - c0 u * inner 3 a c - c1 u * inner 3 b c - c2 u * inner 3 c c); [rewrite !inner3; unfold y; ring|]. rewrite P', P''. ring. }
    split.
    + intros H. assert (Y0 : forall d, (d < 3)%nat -> y d == 0) by (intros d Hd; unfold y, z; rewrite (H d Hd); ring).
      assert (Z : forall f, inner 3 y f == 0) by (intros f; rewrite inner3, (Y0 0%nat), (Y0 1%nat), (Y0 2%nat) by lia; ring).
      intros e He. pose proof (Z a). pose proof (Z b). pose proof (Z c). destruct e as [|[|[|]]]; [| | |lia]; cbn [tget]; fold a b c; lra.
    + intros H. pose proof (H 0%nat ltac:(lia)) as H0. pose proof (H 1%nat ltac:(lia)) as H1. pose proof (H 2%nat ltac:(lia)) as H2. cbn [tget] in H0, H1, H2.
      fold a z in H0. fold b z in H1. fold c z in H2.
      assert (Y0 : forall d, (d < 3)%nat -> y d == 0) by (apply (null3 a b c); auto; lra).
      intros d Hd. specialize (Y0 d Hd). unfold y, z in Y0. lra.
Qed.

Lemma oriented_overlaps : forall nd X tol cell x, (2 <= nd <= 3)%nat -> perpendicular nd X cell ->
  in_bounds tol (oriented_inverse nd (node X cell) x) = true <-> exists u, within nd tol u /\ located nd X cell u x.
Proof.
  intros nd X tol cell x Hnd P.
  set (g := fun d => vdot nd (vsub x (node X cell 0)) (edge (node X cell) d) / vdot nd (edge (node X cell) d) (edge (node X cell) d)).
  assert (V : forall e, (e < nd)%nat -> vdot nd (vsub x (node X cell 0)) (edge (node X cell) e) == inner nd (fun d => tget x d - tget (node X cell 0) d) (side X cell e)).
  { intros e He. rewrite vdot_edge by lia. destruct nd as [|[|[|[|]]]]; try lia; rewrite ?inner2, ?inner3; unfold vsub; cbn [tget tmake c0 c1 c2]; reflexivity. }
  assert (W : forall e, (e < nd)%nat -> vdot nd (edge (node X cell) e) (edge (node X cell) e) == inner nd (side X cell e) (side X cell e)).
  { intros e He. rewrite vdot_edge by lia. destruct nd as [|[|[|[|]]]]; try lia; rewrite ?inner2, ?inner3; rewrite !edge_side by lia; reflexivity. }
  assert (N : forall e, (e < nd)%nat -> ~ vdot nd (edge (node X cell) e) (edge (node X cell) e) == 0).
  { intros e He. rewrite (W e He). apply P, He. }
  unfold oriented_inverse. rewrite (in_bounds_map tol _ g) by (intros d Hd; apply ndiv_fin, N, Hd).
  split.
  - intros H. exists (tmake g). split.
    + intros d Hd. rewrite tget_tmake by lia. apply H, Hd.
    + apply perpendicular_located; auto. intros e He. rewrite tget_tmake by lia. unfold g. rewrite (V e He), (W e He). field. apply P, He.
  - intros [u [B L]] d Hd. rewrite perpendicular_located in L by assumption. specialize (L d Hd). specialize (B d Hd).
    assert (E : g d == tget u d). { unfold g. rewrite (V d Hd), (W d Hd), L. field. apply P, Hd. }
    lra.
Qed.

(** The test of curvilinear cells on cells with parallel edges. *)
Lemma curvilinear_parallel2 : forall X tol cell x, parallel 2 X cell -> full 2 X cell -> 0 <= tol ->
  ((exists u, within 2 tol u /\ located 2 X cell u x) -> overlaps_cell CURVILINEAR 2 X tol cell x = true) /\
  (overlaps_cell CURVILINEAR 2 X tol cell x = true -> exists u, within 2 (2 * tol) u /\ located 2 X cell u x).
Proof.
  intros X tol cell x P F T. pose proof (parallel2 X cell P) as P3. set (p := node X cell) in *.
  cbn [full] in F. change (X (tadd cell (unit_step 0))) with (p 1%nat) in F. change (X (tadd cell (unit_step 1))) with (p 2%nat) in F. rewrite <- node0 in F. fold p in F.
  assert (S0 : forall d, side X cell 0 d = tget (p 1%nat) d - tget (p 0%nat) d) by (intros; apply side_node; lia).
  assert (S1 : forall d, side X cell 1 d = tget (p 2%nat) d - tget (p 0%nat) d) by (intros; apply side_node; lia).
  assert (D1 : ~ det 2 (spans p [0; 1; 2]%nat) == 0).
  { intros E. apply F. rewrite <- E. unfold signed_area, det, spans, vsub. cbn [tget tmake nth c0 c1 c2]. ring. }
  assert (D2 : ~ det 2 (spans p [3; 2; 1]%nat) == 0).
  { intros E. apply F. rewrite <- E. pose proof (P3 0%nat ltac:(lia)) as P30. pose proof (P3 1%nat ltac:(lia)) as P31. rewrite S0, S1 in P30, P31. cbn [tget] in P30, P31.
    unfold signed_area, det, spans, vsub. cbn [tget tmake nth c0 c1 c2]. rewrite P30, P31. ring. }
  unfold overlaps_cell. cbn [Nat.eqb]. unfold overlaps_simplices, simplices. cbn [existsb nth]. fold p. rewrite orb_false_r, orb_true_iff.
  pose proof (simplex2 tol p _ x D1) as R1. cbn [nth] in R1. pose proof (simplex2 tol p _ x D2) as R2. cbn [nth] in R2. rewrite R1, R2.
  split.
  - intros [u [W L]]. rewrite located2 in L. fold p in L. setoid_rewrite S0 in L. setoid_rewrite S1 in L.
    pose proof (W 0%nat ltac:(lia)) as W0. pose proof (W 1%nat ltac:(lia)) as W1. cbn [tget] in W0, W1.
    destruct (Qlt_le_dec 1 (c0 u + c1 u)) as [G|G].
    + right. exists (1 - c0 u), (1 - c1 u). repeat split; try lra.
      intros d Hd. rewrite (L d Hd), (P3 d Hd), S0, S1. ring.
    + left. exists (c0 u), (c1 u). repeat split; try lra. exact L.
  - intros [[a [b [A1 [A2 [B1 [B2 H]]]]]]|[a [b [A1 [A2 [B1 [B2 H]]]]]]].
    + exists (T3 a b 0). split.
      * intros d Hd. destruct d as [|[|]]; [| |lia]; cbn [tget c0 c1 c2]; lra.
      * apply located2. fold p. intros d Hd. rewrite S0, S1. cbn [c0 c1]. apply H, Hd.
    + exists (T3 (1 - a) (1 - b) 0). split.
      * intros d Hd. destruct d as [|[|]]; [| |lia]; cbn [tget c0 c1 c2]; lra.
      * apply located2. fold p. intros d Hd. rewrite S0, S1. cbn [c0 c1]. rewrite (H d Hd), (P3 d Hd), S0, S1. ring.
Qed.
Lemma curvilinear_parallel3 : forall X tol cell x, parallel 3 X cell -> full 3 X cell -> 0 <= tol ->
  ((exists u, within 3 tol u /\ located 3 X cell u x) -> overlaps_cell CURVILINEAR 3 X tol cell x = true) /\
  (overlaps_cell CURVILINEAR 3 X tol cell x = true -> exists u, within 3 (3 * tol) u /\ located 3 X cell u x).
Proof.
  intros X tol cell x P F T. pose proof (parallel3 X cell P) as PP. set (p := node X cell) in *.
  cbn [full] in F. change (X (tadd cell (unit_step 0))) with (p 1%nat) in F. change (X (tadd cell (unit_step 1))) with (p 2%nat) in F.
  change (X (tadd cell (unit_step 2))) with (p 4%nat) in F. rewrite <- node0 in F. fold p in F.
  assert (S0 : forall d, side X cell 0 d = tget (p 1%nat) d - tget (p 0%nat) d) by (intros; apply side_node; lia).
  assert (S1 : forall d, side X cell 1 d = tget (p 2%nat) d - tget (p 0%nat) d) by (intros; apply side_node; lia).
  assert (S2 : forall d, side X cell 2 d = tget (p 4%nat) d - tget (p 0%nat) d) by (intros; apply side_node; lia).
  set (V := signed_volume (p 0%nat) (p 1%nat) (p 2%nat) (p 4%nat)) in *.
  assert (D : forall s, In s (simplices 3) -> ~ det 3 (spans p s) == 0).
  { pose proof (PP 0%nat ltac:(lia)) as [P30 [P50 [P60 P70]]]. pose proof (PP 1%nat ltac:(lia)) as [P31 [P51 [P61 P71]]]. pose proof (PP 2%nat ltac:(lia)) as [P32 [P52 [P62 P72]]].
    rewrite S0 in P30, P50, P70, P31, P51, P71, P32, P52, P72. rewrite S1 in P30, P60, P70, P31, P61, P71, P32, P62, P72. rewrite S2 in P50, P60, P70, P51, P61, P71, P52, P62, P72.
    cbn [tget] in *.
    intros s Hs E. apply F. cbn [simplices] in Hs.
    repeat (destruct Hs as [<-|Hs]; [unfold det, spans, vsub in E; cbn [tget tmake nth c0 c1 c2] in E;
      rewrite ?P30, ?P50, ?P60, ?P70, ?P31, ?P51, ?P61, ?P71, ?P32, ?P52, ?P62, ?P72 in E; unfold V, signed_volume; cbn [c0 c1 c2]; (rewrite <- E; ring) || (apply Qopp_comp in E; change (- 0) with 0 in E; rewrite <- E; ring)|]).
    contradiction. }
  unfold overlaps_cell. cbn [Nat.eqb]. unfold overlaps_simplices, simplices. cbn [existsb nth]. fold p. rewrite orb_false_r, !orb_true_iff.
  pose proof (simplex3 tol p _ x (D _ (or_introl eq_refl))) as R1. cbn [nth] in R1.
  pose proof (simplex3 tol p _ x (D _ (or_intror (or_introl eq_refl)))) as R2. cbn [nth] in R2.
  pose proof (simplex3 tol p _ x (D _ (or_intror (or_intror (or_introl eq_refl))))) as R3. cbn [nth] in R3.
  pose proof (simplex3 tol p _ x (D _ (or_intror (or_intror (or_intror (or_introl eq_refl)))))) as R4. cbn [nth] in R4.
  pose proof (simplex3 tol p _ x (D _ (or_intror (or_intror (or_intror (or_intror (or_introl eq_refl))))))) as R5. cbn [nth] in R5.
  pose proof (simplex3 tol p _ x (D _ (or_intror (or_intror (or_intror (or_intror (or_intror (or_introl eq_refl)))))))) as R6. cbn [nth] in R6.
  rewrite R1, R2, R3, R4, R5, R6. clear R1 R2 R3 R4 R5 R6 D.
  assert (Q0 : forall d, (d < 3)%nat -> tget (p 3%nat) d == tget (p 1%nat) d + tget (p 2%nat) d - tget (p 0%nat) d /\
     tget (p 5%nat) d == tget (p 1%nat) d + tget (p 4%nat) d - tget (p 0%nat) d /\ tget (p 6%nat) d == tget (p 2%nat) d + tget (p 4%nat) d - tget (p 0%nat) d /\
     tget (p 7%nat) d == tget (p 1%nat) d + tget (p 2%nat) d + tget (p 4%nat) d - 2 * tget (p 0%nat) d).
  { intros d Hd. destruct (PP d Hd) as [A [B [C E]]]. rewrite A, B, C, E, S0, S1, S2. repeat split; ring. }
  split.
  - intros [u [W L]]. rewrite located3 in L. fold p in L. setoid_rewrite S0 in L. setoid_rewrite S1 in L. setoid_rewrite S2 in L.
    pose proof (W 0%nat ltac:(lia)) as W0. pose proof (W 1%nat ltac:(lia)) as W1. pose proof (W 2%nat ltac:(lia)) as W2. cbn [tget] in W0, W1, W2.
    destruct u as [u v w]. cbn [c0 c1 c2] in *.
    destruct (Qlt_le_dec 1 (u + v + w)) as [G|G].
    + destruct (Qlt_le_dec (u + v + w) 2) as [G'|G'].
      * destruct (Qlt_le_dec 1 (v + w)) as [A|A]; destruct (Qlt_le_dec 1 (u + v)) as [B|B].
        -- do 4 right. left. exists (1 - v), (u + v - 1), (w + v - 1). repeat split; try lra.
           intros d Hd. rewrite (L d Hd). destruct (Q0 d Hd) as [E3 [E5 [E6 E7]]]. rewrite E5, E3, E6. ring.
        -- do 2 right. left. exists (1 - v - u), u, (w + v - 1). repeat split; try lra.
           intros d Hd. rewrite (L d Hd). destruct (Q0 d Hd) as [E3 [E5 [E6 E7]]]. rewrite E5, E6. ring.
        -- do 3 right. left. exists (1 - u), w, (u + v - 1). repeat split; try lra.
           intros d Hd. rewrite (L d Hd). destruct (Q0 d Hd) as [E3 [E5 [E6 E7]]]. rewrite E5, E3. ring.
        -- do 1 right. left. exists v, (1 - u - v), (w - 1 + u + v). repeat split; try lra.
           intros d Hd. rewrite (L d Hd). destruct (Q0 d Hd) as [E3 [E5 [E6 E7]]]. rewrite E5. ring.
      * do 5 right. exists (1 - u), (1 - v), (w - 2 + u + v). repeat split; try lra.
        intros d Hd. rewrite (L d Hd). destruct (Q0 d Hd) as [E3 [E5 [E6 E7]]]. rewrite E3, E5, E6, E7. ring.
    + left. exists u, v, w. repeat split; try lra. exact L.
  - assert (K : forall u v w, - (3 * tol) <= u <= 1 + 3 * tol -> - (3 * tol) <= v <= 1 + 3 * tol -> - (3 * tol) <= w <= 1 + 3 * tol ->
      (forall d, (d < 3)%nat -> tget x d == tget (p 0%nat) d + u * (tget (p 1%nat) d - tget (p 0%nat) d) + v * (tget (p 2%nat) d - tget (p 0%nat) d) + w * (tget (p 4%nat) d - tget (p 0%nat) d)) ->
      exists u0, within 3 (3 * tol) u0 /\ located 3 X cell u0 x).
    { intros u v w Hu Hv Hw L. exists (T3 u v w). split.
      - intros d Hd. destruct d as [|[|[|]]]; [| | |lia]; cbn [tget c0 c1 c2]; lra.
      - apply located3. fold p. intros d Hd. rewrite S0, S1, S2. cbn [c0 c1 c2]. apply L, Hd. }
    intros [H|[H|[H|[H|[H|H]]]]]; destruct H as [a [b [c [A1 [A2 [B1 [B2 [C1 [C2 H]]]]]]]]];
    [apply (K a b c)|apply (K (1 - a - b) a (b + c))|apply (K b (1 - a - b) (a + b + c))|apply (K (1 - a) (a + c) b)|apply (K (a + b) (1 - a) (a + c))|apply (K (1 - a) (1 - b) (a + b + c))];
    try lra; intros d Hd; rewrite (H d Hd); destruct (Q0 d Hd) as [E3 [E5 [E6 E7]]]; rewrite ?E3, ?E5, ?E6, ?E7; ring.
Qed.

(** The points with coordinates from 0 to 1 are those of the hull of the vertices. *)
Lemma parallel_hull : forall nd X cell x, (1 <= nd <= 3)%nat -> parallel nd X cell ->
  (exists u, within nd 0 u /\ located nd X cell u x) <-> hull nd (at_corners X cell (corners nd)) x.
Proof.
  intros nd X cell x Hnd P. split.
  - intros [u [W L]].
    assert (V : forall i, (i <= upper nd)%nat -> hull nd (at_corners X cell (corners nd)) (node X cell i)).
    { intros i Hi. apply hull_in. unfold at_corners, node. apply (in_map (fun o => X (tadd cell o))).
      destruct nd as [|[|[|[|]]]]; try lia; cbn [upper] in Hi; do 8 (destruct i as [|i]; [first [lia | cbn; tauto]|]); lia. }
    set (p := node X cell) in *.
    assert (M : forall y z t r, hull nd (at_corners X cell (corners nd)) y -> hull nd (at_corners X cell (corners nd)) z -> 0 <= t <= 1 ->
       r = tmake (fun d => tget y d + t * (tget z d - tget y d)) -> hull nd (at_corners X cell (corners nd)) r).
    { intros y z t r Hy Hz Ht Er. apply (hull_mix nd _ y z t); auto. intros d Hd. subst r. rewrite tget_tmake by lia. reflexivity. }
    assert (W' : forall d, (d < nd)%nat -> 0 <= tget u d <= 1) by (intros d Hd; specialize (W d Hd); lra).
    destruct nd as [|[|[|[|]]]]; try lia; cbn [upper] in V.
    + apply (hull_mix 1 _ (p 0%nat) (p 1%nat) (c0 u)); [apply V; lia|apply V; lia|apply (W' 0%nat); lia|].
      intros d Hd. replace d with 0%nat by lia. apply located1 in L. cbn [tget]. rewrite L. unfold p. rewrite side_node by lia. reflexivity.
    + pose proof (M _ _ _ _ (V 0 ltac:(lia)) (V 1 ltac:(lia)) (W' 0 ltac:(lia)) eq_refl)%nat as Y0.
      pose proof (M _ _ _ _ (V 2 ltac:(lia)) (V 3 ltac:(lia)) (W' 0 ltac:(lia)) eq_refl)%nat as Y1.
      refine (hull_mix 2 _ _ _ (tget u 1) _ Y0 Y1 (W' 1%nat ltac:(lia)) _).
      intros d Hd. rewrite !tget_tmake by lia. rewrite located2 in L. rewrite (L d Hd). fold p.
      pose proof (parallel2 X cell P d Hd) as P3. fold p in P3. rewrite P3. rewrite !side_node by lia. cbn [axis_node tget]. fold p. ring.
    + pose proof (M _ _ _ _ (V 0 ltac:(lia)) (V 1 ltac:(lia)) (W' 0 ltac:(lia)) eq_refl)%nat as Y0.
      pose proof (M _ _ _ _ (V 2 ltac:(lia)) (V 3 ltac:(lia)) (W' 0 ltac:(lia)) eq_refl)%nat as Y1.
      pose proof (M _ _ _ _ (V 4 ltac:(lia)) (V 5 ltac:(lia)) (W' 0 ltac:(lia)) eq_refl)%nat as Y2.
      pose proof (M _ _ _ _ (V 6 ltac:(lia)) (V 7 ltac:(lia)) (W' 0 ltac:(lia)) eq_refl)%nat as Y3.
      pose proof (M _ _ _ _ Y0 Y1 (W' 1 ltac:(lia)) eq_refl)%nat as Z0.
      pose proof (M _ _ _ _ Y2 Y3 (W' 1 ltac:(lia)) eq_refl)%nat as Z1.
      refine (hull_mix 3 _ _ _ (tget u 2) _ Z0 Z1 (W' 2%nat ltac:(lia)) _).
      intros d Hd. rewrite !tget_tmake by lia. rewrite located3 in L. rewrite (L d Hd). fold p.
      destruct (parallel3 X cell P d Hd) as [P3 [P5 [P6 P7]]]. fold p in P3, P5, P6, P7. rewrite P3, P5, P6, P7. rewrite !side_node by lia. cbn [axis_node tget]. fold p. ring.
  - intros [ws [Lw [F [T H]]]]. unfold at_corners in *. rewrite map_length in Lw. destruct nd as [|[|[|[|]]]]; try lia; cbn [corners] in *.
    + destruct ws as [|w0 [|w1 [|]]]; try discriminate Lw. inversion F as [|? ? F0 F']; subst. inversion F' as [|? ? F1 _]; subst. cbn in T.
      exists (T3 w1 0 0). split; [intros d Hd; replace d with 0%nat by lia; cbn; lra|]. apply located1.
      rewrite (H 0%nat) by lia. cbn [map combine]. rewrite !qtotal_cons. change (qtotal []) with 0. cbn [fst snd tget c0].
      change (X (tadd cell (T3 0 0 0)%Z)) with (node X cell 0). change (X (tadd cell (T3 1 0 0)%Z)) with (node X cell 1). rewrite side_node by lia. cbn [tget axis_node].
      assert (E : w0 == 1 - w1) by lra. rewrite E. ring.
    + destruct ws as [|w0 [|w1 [|w2 [|w3 [|]]]]]; try discriminate Lw. inversion F as [|? ? F0 F']; subst. inversion F' as [|? ? F1 F'']; subst. inversion F'' as [|? ? F2 F3']; subst. inversion F3' as [|? ? F3 _]; subst. cbn in T.
      exists (T3 (w1 + w3) (w2 + w3) 0). split; [intros d Hd; destruct d as [|[|]]; [| |lia]; cbn [tget c0 c1 c2]; lra|]. apply located2.
      intros d Hd. rewrite (H d Hd). cbn [map combine]. rewrite !qtotal_cons. change (qtotal []) with 0. cbn [fst snd c0 c1].
      change (X (tadd cell (T3 0 0 0)%Z)) with (node X cell 0). change (X (tadd cell (T3 1 0 0)%Z)) with (node X cell 1).
      change (X (tadd cell (T3 0 1 0)%Z)) with (node X cell 2). change (X (tadd cell (T3 1 1 0)%Z)) with (node X cell 3).
      rewrite (parallel2 X cell P d Hd), !side_node by lia. cbn [axis_node].
      assert (E : w0 == 1 - w1 - w2 - w3) by lra. rewrite E. ring.
    + destruct ws as [|w0 [|w1 [|w2 [|w3 [|w4 [|w5 [|w6 [|w7 [|]]]]]]]]]; try discriminate Lw.
      repeat match goal with F : Forall _ (_ :: _) |- _ => inversion_clear F end. cbn in T.
      exists (T3 (w1 + w3 + w5 + w7) (w2 + w3 + w6 + w7) (w4 + w5 + w6 + w7)). split; [intros d Hd; destruct d as [|[|[|]]]; [| | |lia]; cbn [tget c0 c1 c2]; lra|]. apply located3.
      intros d Hd. rewrite (H d Hd). cbn [map combine]. rewrite !qtotal_cons. change (qtotal []) with 0. cbn [fst snd c0 c1 c2].
      change (X (tadd cell (T3 0 0 0)%Z)) with (node X cell 0). change (X (tadd cell (T3 1 0 0)%Z)) with (node X cell 1).
      change (X (tadd cell (T3 0 1 0)%Z)) with (node X cell 2). change (X (tadd cell (T3 1 1 0)%Z)) with (node X cell 3).
      change (X (tadd cell (T3 0 0 1)%Z)) with (node X cell 4). change (X (tadd cell (T3 1 0 1)%Z)) with (node X cell 5).
      change (X (tadd cell (T3 0 1 1)%Z)) with (node X cell 6). change (X (tadd cell (T3 1 1 1)%Z)) with (node X cell 7).
      destruct (parallel3 X cell P d Hd) as [P3 [P5 [P6 P7]]]. rewrite P3, P5, P6, P7, !side_node by lia. cbn [axis_node].
      assert (E : w0 == 1 - w1 - w2 - w3 - w4 - w5 - w6 - w7) by lra. rewrite E. ring.
Qed.
