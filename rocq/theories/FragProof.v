(** Proofs about fragments. *)
From Coq Require Import List ZArith Bool QArith Lia Lqa.
From Verif Require Import Base TupleModel RangeModel RangeProof CartModel CartProof DecompModel DecompProof NeighSpec FieldSpec FieldProof NeighProof FragModel FragSpec.
Import ListNotations.
Local Open Scope Z_scope.

(** ** Subdivision *)
Lemma split_dim_lt nd r : (1 <= nd <= 3)%nat -> (split_dim nd r < 3)%nat.
Proof.
  intros H. unfold split_dim.
  assert (G : forall l s, (s < 3)%nat -> (forall d, In d l -> (d < 3)%nat) ->
    (fold_left (fun s d => if (rsize1 r s <? rsize1 r d)%Z then d else s) l s < 3)%nat).
  { induction l as [|d l IH]; intros s Hs Hl; cbn; auto. apply IH; [|intros e He; apply Hl; right; auto].
    destruct (_ <? _); auto. apply Hl; left; auto. }
  apply G; [lia|]. intros d Hd. apply in_seq in Hd. lia.
Qed.

Lemma split_left r d m p : (d < 3)%nat -> m <= tget (re r) d ->
  pt_in (mkR (rb r) (tset (re r) d m)) p <-> pt_in r p /\ tget p d < m.
Proof.
  intros Hd Hm. rewrite !pt_in_tget. cbn [rb re]. split.
  - intros H. split.
    + intros e He. specialize (H e He). rewrite tget_tset in H by auto. destruct (Nat.eqb_spec e d); [subst; lia|lia].
    + specialize (H d Hd). rewrite tget_tset, Nat.eqb_refl in H by auto. lia.
  - intros [H1 H2] e He. rewrite tget_tset by auto. specialize (H1 e He). destruct (Nat.eqb_spec e d); subst; lia.
Qed.

Lemma split_right r d m p : (d < 3)%nat -> tget (rb r) d <= m ->
  pt_in (mkR (tset (rb r) d m) (re r)) p <-> pt_in r p /\ m <= tget p d.
Proof.
  intros Hd Hm. rewrite !pt_in_tget. cbn [rb re]. split.
  - intros H. split.
    + intros e He. specialize (H e He). rewrite tget_tset in H by auto. destruct (Nat.eqb_spec e d); [subst; lia|lia].
    + specialize (H d Hd). rewrite tget_tset, Nat.eqb_refl in H by auto. lia.
  - intros [H1 H2] e He. rewrite tget_tset by auto. specialize (H1 e He). destruct (Nat.eqb_spec e d); subst; lia.
Qed.

Lemma leaf_ok active r : fragmented active r (leaf_ranges active r).
Proof.
  unfold leaf_ranges. destruct (existsb active (foreach_col r)) eqn:E.
  - apply existsb_exists in E as (cell & I & A). apply foreach_col_In in I. split; [|split].
    + intros f [<-|[]]. split; [intros p; auto|eauto].
    + intros x Hx Ax. exists r. split; [left; auto|auto].
    + intros [|i] [|j] f g x Hf Hg; auto; [destruct j|destruct i|destruct i]; discriminate.
  - assert (N : forall cell, pt_in r cell -> active cell = false).
    { intros cell Hc. destruct (active cell) eqn:A; auto. rewrite <- E. symmetry. apply existsb_exists. exists cell. split; [|auto]. apply foreach_col_In, Hc. }
    split; [intros f []|split].
    + intros x Hx Ax. rewrite N in Ax by auto. discriminate.
    + intros [|i] j f g x Hf; discriminate.
Qed.

(** The two halves of a range, also when it is empty in that dimension. *)
Lemma subdivide_ok nd stop active k : (1 <= nd <= 3)%nat -> forall r, fragmented active r (subdivide nd stop active k r).
Proof.
  intros Hn. induction k as [|k IH]; intros r; cbn [subdivide]; [apply leaf_ok|].
  destruct (stop r); [apply leaf_ok|]. cbn zeta.
  pose proof (split_dim_lt nd r Hn) as Hd. set (d := split_dim nd r) in *. set (m := Z.quot (tget (rb r) d + tget (re r) d) 2).
  destruct (Z_lt_le_dec (tget (re r) d) (tget (rb r) d)) as [Hlt|Hle].
  - (* no cell at all *)
    assert (E1 : forall p, ~ pt_in r p) by (intros p Hp; rewrite pt_in_tget in Hp; specialize (Hp d Hd); lia).
    assert (Hm : tget (re r) d <= m <= tget (rb r) d).
    { subst m. pose proof (Z.quot_rem' (tget (rb r) d + tget (re r) d) 2) as Q. 
      pose proof (Z.rem_bound_abs (tget (rb r) d + tget (re r) d) 2 ltac:(lia)). lia. }
    assert (E2 : forall p, ~ pt_in (mkR (rb r) (tset (re r) d m)) p).
    { intros p Hp. rewrite pt_in_tget in Hp. specialize (Hp d Hd). cbn [rb re] in Hp. rewrite tget_tset, Nat.eqb_refl in Hp by auto. lia. }
    assert (E3 : forall p, ~ pt_in (mkR (tset (rb r) d m) (re r)) p).
    { intros p Hp. rewrite pt_in_tget in Hp. specialize (Hp d Hd). cbn [rb re] in Hp. rewrite tget_tset, Nat.eqb_refl in Hp by auto. lia. }
    assert (N : forall r', (forall p, ~ pt_in r' p) -> subdivide nd stop active k r' = []).
    { intros r' E. destruct (subdivide nd stop active k r') as [|f fs] eqn:Q; auto. exfalso.
      destruct (IH r') as (F1 & _). rewrite Q in F1. destruct (F1 f (or_introl eq_refl)) as [S (x & Hx & _)]. apply (E x), S, Hx. }
    rewrite (N _ E2), (N _ E3). cbn [app]. split; [intros f []|split].
    + intros x Hx. exfalso. apply (E1 x Hx).
    + intros [|i] j f g x Hf; discriminate.
  - assert (Hm : tget (rb r) d <= m <= tget (re r) d).
    { subst m. pose proof (Z.quot_rem' (tget (rb r) d + tget (re r) d) 2) as Q. 
      pose proof (Z.rem_bound_abs (tget (rb r) d + tget (re r) d) 2 ltac:(lia)). lia. }
    destruct (IH (mkR (rb r) (tset (re r) d m))) as (A1 & A2 & A3). destruct (IH (mkR (tset (rb r) d m) (re r))) as (B1 & B2 & B3).
    set (fl := subdivide nd stop active k (mkR (rb r) (tset (re r) d m))) in *.
    set (fr := subdivide nd stop active k (mkR (tset (rb r) d m) (re r))) in *.
    split; [|split].
    + intros f If. apply in_app_or in If as [If|If]; [destruct (A1 f If) as [S E]|destruct (B1 f If) as [S E]]; split; auto;
        intros p Hp; specialize (S p Hp); [apply split_left in S|apply split_right in S]; tauto || lia.
    + intros x Hx Ax. destruct (Z_lt_le_dec (tget x d) m).
      * destruct (A2 x) as (f & If & Hf); [apply split_left; auto; lia|auto|]. exists f. split; [apply in_or_app; auto|auto].
      * destruct (B2 x) as (f & If & Hf); [apply split_right; auto; lia|auto|]. exists f. split; [apply in_or_app; auto|auto].
    + assert (LA : forall i f, nth_error fl i = Some f -> forall x, pt_in f x -> tget x d < m).
      { intros i f Hf x Hx. apply nth_error_In in Hf. destruct (A1 f Hf) as [S _]. specialize (S x Hx). apply split_left in S; auto; lia || tauto. }
      assert (RA : forall i f, nth_error fr i = Some f -> forall x, pt_in f x -> m <= tget x d).
      { intros i f Hf x Hx. apply nth_error_In in Hf. destruct (B1 f Hf) as [S _]. specialize (S x Hx). apply split_right in S; auto; lia || tauto. }
      intros i j f g x Hf Hg Pf Pg.
      destruct (Nat.lt_ge_cases i (length fl)) as [Li|Li]; destruct (Nat.lt_ge_cases j (length fl)) as [Lj|Lj];
        [rewrite nth_error_app1 in Hf, Hg by auto; eauto| | |].
      * rewrite nth_error_app1 in Hf by auto. rewrite nth_error_app2 in Hg by auto. specialize (LA _ _ Hf x Pf). specialize (RA _ _ Hg x Pg). lia.
      * rewrite nth_error_app2 in Hf by auto. rewrite nth_error_app1 in Hg by auto. specialize (LA _ _ Hg x Pg). specialize (RA _ _ Hf x Pf). lia.
      * rewrite nth_error_app2 in Hf by auto. rewrite nth_error_app2 in Hg by auto. pose proof (B3 _ _ _ _ _ Hf Hg Pf Pg). lia.
Qed.

(** ** Boxes *)
Lemma dims_In d : In d dims <-> (d < 3)%nat.
Proof. unfold dims. cbn [In]. lia. Qed.

Lemma contains_spec b x : box_contains b x = true <-> forall d, (d < 3)%nat -> (tget (bb b) d <= tget x d /\ tget x d <= tget (be b) d)%Q.
Proof.
  unfold box_contains. rewrite forallb_forall. split.
  - intros H d Hd. specialize (H d (proj2 (dims_In d) Hd)). apply andb_true_iff in H as [H1 H2]. rewrite Qle_bool_iff in H1, H2. auto.
  - intros H d Hd. apply dims_In in Hd. destruct (H d Hd) as [H1 H2]. rewrite <- Qle_bool_iff in H1, H2. rewrite H1, H2. reflexivity.
Qed.

Lemma q_ltb_spec a b : q_ltb a b = true <-> (a < b)%Q.
Proof.
  unfold q_ltb. destruct (Qle_bool b a) eqn:E; cbn [negb].
  - apply Qle_bool_iff in E. split; [discriminate|]. intros H. exfalso. lra.
  - split; auto. intros _. destruct (Qlt_le_dec a b) as [H|H]; auto. apply Qle_bool_iff in H. congruence.
Qed.

Lemma qmin_le a b : (qmin a b <= a /\ qmin a b <= b)%Q.
Proof.
  unfold qmin. destruct (q_ltb a b) eqn:E; [apply q_ltb_spec in E; lra|].
  destruct (Qlt_le_dec a b) as [H|H]; [apply q_ltb_spec in H; congruence|lra].
Qed.

Lemma qmax_le a b : (a <= qmax a b /\ b <= qmax a b)%Q.
Proof.
  unfold qmax. destruct (q_ltb b a) eqn:E; [apply q_ltb_spec in E; lra|].
  destruct (Qlt_le_dec b a) as [H|H]; [apply q_ltb_spec in H; congruence|lra].
Qed.

Lemma contains_nonempty b x : box_contains b x = true -> box_empty b = false.
Proof.
  intros H. rewrite contains_spec in H. destruct (box_empty b) eqn:E; auto. unfold box_empty in E. apply existsb_exists in E as (d & Hd & Q).
  apply dims_In in Hd. apply q_ltb_spec in Q. specialize (H d Hd). lra.
Qed.

Lemma extend_new b x : box_contains (extend_box b x) x = true.
Proof.
  apply contains_spec. intros d Hd. unfold extend_box. destruct (box_empty b); cbn [bb be]; [lra|].
  rewrite !tget_tmake by auto. destruct (qmin_le (tget (bb b) d) (tget x d)), (qmax_le (tget (be b) d) (tget x d)). lra.
Qed.

Lemma extend_old b x y : box_contains b y = true -> box_contains (extend_box b x) y = true.
Proof.
  intros H. pose proof (contains_nonempty _ _ H) as E. rewrite contains_spec in H. apply contains_spec. intros d Hd. unfold extend_box. rewrite E. cbn [bb be].
  rewrite !tget_tmake by auto. specialize (H d Hd). destruct (qmin_le (tget (bb b) d) (tget x d)), (qmax_le (tget (be b) d) (tget x d)). lra.
Qed.

Lemma union_left a b x : box_contains a x = true -> box_contains (union_boxes a b) x = true.
Proof.
  intros H. unfold union_boxes. rewrite (contains_nonempty _ _ H). destruct (box_empty b); auto. rewrite contains_spec in *. intros d Hd. cbn [bb be].
  rewrite !tget_tmake by auto. specialize (H d Hd). destruct (qmin_le (tget (bb a) d) (tget (bb b) d)), (qmax_le (tget (be a) d) (tget (be b) d)). lra.
Qed.

Lemma union_right a b x : box_contains b x = true -> box_contains (union_boxes a b) x = true.
Proof.
  intros H. unfold union_boxes. rewrite (contains_nonempty _ _ H). destruct (box_empty a); auto. rewrite contains_spec in *. intros d Hd. cbn [bb be].
  rewrite !tget_tmake by auto. specialize (H d Hd). destruct (qmin_le (tget (bb a) d) (tget (bb b) d)), (qmax_le (tget (be a) d) (tget (be b) d)). lra.
Qed.

Lemma scale_contains b f x : (forall d, (d < 3)%nat -> (1 <= tget f d)%Q) -> box_contains b x = true -> box_contains (scale_box b f) x = true.
Proof.
  intros F H. rewrite contains_spec in *. intros d Hd. unfold scale_box. cbn [bb be]. rewrite !tget_tmake by auto. specialize (H d Hd). specialize (F d Hd).
  set (s := (tget (be b) d - tget (bb b) d)%Q). assert (S : (0 <= s)%Q) by (subst s; lra).
  assert (M : (s <= tget f d * s)%Q) by nra. subst s. 
  set (u := tget (be b) d) in *. set (l := tget (bb b) d) in *. set (g := tget f d) in *. nra.
Qed.

Lemma bounds_vertices (X : tup Z -> tup Q) O l : forall b y, In y (map (fun v => oriented O (X v)) l) \/ box_contains b y = true ->
  box_contains (fold_left (fun b v => extend_box b (oriented O (X v))) l b) y = true.
Proof.
  induction l as [|v l IH]; intros b y H; cbn [fold_left].
  - destruct H as [[]|H]. exact H.
  - apply IH. destruct H as [[<-|I]|H]; [right; apply extend_new|left; exact I|right; apply extend_old, H].
Qed.

Lemma qsum_cons {A} (f : A -> Q) a l : qsum (map f (a :: l)) = (f a + qsum (map f l))%Q.
Proof. reflexivity. Qed.

Lemma qsum_le {A} (f g : A -> Q) l : (forall a, In a l -> (f a <= g a)%Q) -> (qsum (map f l) <= qsum (map g l))%Q.
Proof.
  induction l as [|a l IH]; intros H; [cbn; lra|]. rewrite !qsum_cons. pose proof (H a (or_introl eq_refl)). specialize (IH (fun b Hb => H b (or_intror Hb))). lra.
Qed.

Lemma qsum_scale {A} (f : A -> Q) l k : (qsum (map (fun a => f a * k) l) == qsum (map f l) * k)%Q.
Proof. induction l as [|a l IH]; [cbn; lra|]. rewrite !qsum_cons, IH. ring. Qed.

Lemma qsum_plus {A} (f g : A -> Q) l : (qsum (map (fun a => f a + g a) l) == qsum (map f l) + qsum (map g l))%Q.
Proof. induction l as [|a l IH]; [cbn; lra|]. rewrite !qsum_cons, IH. ring. Qed.

Lemma qsum_ext {A} (f g : A -> Q) l : (forall a, In a l -> (f a == g a)%Q) -> (qsum (map f l) == qsum (map g l))%Q.
Proof.
  induction l as [|a l IH]; intros H; [cbn; lra|]. rewrite !qsum_cons. pose proof (H a (or_introl eq_refl)). specialize (IH (fun b Hb => H b (or_intror Hb))). lra.
Qed.

(** A convex combination of points of a box is in the box, in any orientation. *)
Lemma convex b O (Y : list (Q * tup Q)) x :
  (forall w y, In (w, y) Y -> (0 <= w)%Q /\ box_contains b (oriented O y) = true) -> (qsum (map fst Y) == 1)%Q ->
  (forall d, (d < 3)%nat -> (tget x d == qsum (map (fun wy => fst wy * tget (snd wy) d) Y))%Q) ->
  box_contains b (oriented O x) = true.
Proof.
  intros H S1 Sx. apply contains_spec. intros d Hd.
  assert (E : (tget (oriented O x) d == qsum (map (fun wy => fst wy * tget (oriented O (snd wy)) d) Y))%Q).
  { unfold oriented at 1. rewrite tget_tmake by auto. rewrite (Sx 0%nat), (Sx 1%nat), (Sx 2%nat) by lia.
    rewrite (Qmult_comm (tget (tget O 0) d)), (Qmult_comm (tget (tget O 1) d)), (Qmult_comm (tget (tget O 2) d)).
    rewrite <- !qsum_scale. rewrite <- !qsum_plus. apply qsum_ext. intros [w y] _. cbn [fst snd]. unfold oriented. rewrite tget_tmake by auto. ring. }
  assert (Bd : forall wy, In wy Y -> (fst wy * tget (bb b) d <= fst wy * tget (oriented O (snd wy)) d /\ fst wy * tget (oriented O (snd wy)) d <= fst wy * tget (be b) d)%Q).
  { intros [w y] I. cbn [fst snd]. destruct (H w y I) as [W C]. rewrite contains_spec in C. specialize (C d Hd). nra. }
  rewrite E. split.
  - apply Qle_trans with (qsum (map (fun wy => (fst wy * tget (bb b) d)%Q) Y)); [rewrite qsum_scale, S1; lra|]. apply qsum_le. intros a Ia. apply (Bd a Ia).
  - apply Qle_trans with (qsum (map (fun wy => (fst wy * tget (be b) d)%Q) Y)); [|rewrite qsum_scale, S1; lra]. apply qsum_le. intros a Ia. apply (Bd a Ia).
Qed.

(** ** The boxes of fragments *)
Lemma cell_range_spec nd cell v : (forall d, (d < 3)%nat -> (nd <= d)%nat -> tget cell d = 0) ->
  pt_in (cell_range nd cell) v <-> corner nd cell v.
Proof.
  intros Z0. unfold cell_range, corner. rewrite pt_in_tget. split; intros H d Hd; specialize (H d Hd);
    destruct (dims_range_get nd (fun d => tget cell d) (fun d => tget cell d + 2) d Hd) as [G1 G2]; rewrite G1, G2 in *; destruct (Nat.ltb_spec d nd) as [Hn|Hn].
  - lia.
  - specialize (Z0 d Hd Hn). lia.
  - lia.
  - specialize (Z0 d Hd Hn). lia.
Qed.

Lemma bounds_in nd X O cell x : (forall d, (d < 3)%nat -> (nd <= d)%nat -> tget cell d = 0) -> in_cell nd X cell x ->
  box_contains (cell_bounds nd X O cell) (oriented O x) = true.
Proof.
  intros Z0 (l & Hl & S1 & Sx). unfold cell_bounds.
  apply (convex _ O (map (fun wv => (fst wv, X (snd wv))) l)).
  - intros w y I. apply in_map_iff in I as ([w' v] & Q & I). cbn [fst snd] in Q. injection Q as <- <-. destruct (Hl w' v I) as [W C]. split; auto.
    apply bounds_vertices. left. apply in_map_iff. exists v. split; auto. apply foreach_col_In, cell_range_spec; auto.
  - rewrite map_map. cbn [fst]. exact S1.
  - intros d Hd. rewrite map_map. cbn [fst snd]. apply Sx, Hd.
Qed.

Lemma box_cells cc X active O scale l : forall b y,
  (box_contains b y = true \/ exists cell, In cell l /\ active cell = true /\ box_contains (scale_box (cell_bounds (c_nd cc) X O cell) scale) y = true) ->
  box_contains (fold_left (fun b cell => if active cell then union_boxes b (scale_box (cell_bounds (c_nd cc) X O cell) scale) else b) l b) y = true.
Proof.
  induction l as [|a l IH]; intros b y H; cbn [fold_left].
  - destruct H as [H|(cell & [] & _)]. exact H.
  - apply IH. destruct H as [H|(cell & [<-|I] & A & H)].
    + left. destruct (active a); auto. apply union_left, H.
    + left. rewrite A. apply union_right, H.
    + right. eauto.
Qed.

Lemma fragment_box_in cc X active O scale r cell x : (forall d, (d < 3)%nat -> (1 <= tget scale d)%Q) -> 
  pt_in (cell_cover cc r) cell -> active cell = true -> in_cell (c_nd cc) X cell x ->
  box_contains (fragment_box cc X active O scale r) (oriented O x) = true.
Proof.
  intros F P A I. unfold fragment_box. apply box_cells. right. exists cell. split; [apply foreach_col_In, P|]. split; auto.
  apply scale_contains; auto. apply bounds_in; auto. intros d Hd Hn. rewrite pt_in_tget in P. specialize (P d Hd). unfold cell_cover in P.
  match type of P with context [dims_range ?n ?b ?e] => destruct (dims_range_get n b e d Hd) as [G1 G2] end. rewrite G1, G2 in P.
  destruct (Nat.ltb_spec d (c_nd cc)); lia.
Qed.

Lemma scale_ge nd tol : (0 <= tol)%Q -> forall d, (d < 3)%nat -> (1 <= tget (scale_factor nd tol) d)%Q.
Proof. intros T d Hd. unfold scale_factor. rewrite tget_tmake by auto. destruct (Nat.ltb d nd); lra. Qed.

Lemma cell_cover_spec cc r p : pt_in (cell_cover cc r) p <-> forall d, (d < 3)%nat ->
  if Nat.ltb d (c_nd cc) then
    (if (tget (rb (c_range cc)) d <? tget (rb r) d) || (tget (c_per cc) d && negb (tget (re r) d =? tget (re (c_range cc)) d))
     then tget (rb r) d - 1 else tget (rb r) d) <= tget p d < tget (re r) d
  else tget p d = 0.
Proof.
  rewrite pt_in_tget. unfold cell_cover.
  split; intros H d Hd; specialize (H d Hd);
    match goal with |- context [dims_range ?n ?b ?e] => destruct (dims_range_get n b e d Hd) as [G1 G2]
    | H : context [dims_range ?n ?b ?e] |- _ => destruct (dims_range_get n b e d Hd) as [G1 G2] end; rewrite G1, G2 in *;
    destruct (Nat.ltb_spec d (c_nd cc)); auto; lia.
Qed.

Section Told.
Variables (c : cart) (n : nat) (L : nat -> range) (stop : range -> bool) (depth : nat -> nat) (active : tup Z -> bool).
Variables (X : tup Z -> tup Q) (O : nat -> range -> tup (tup Q)) (tol : Q).
Hypothesis HD : decomposed c n L.
Hypothesis HT : (0 <= tol)%Q.

Let cc := cart_point_to_cell c.
Let Hnd : (1 <= c_nd c <= 3)%nat. Proof. apply HD. Qed.
Let Hok : cart_ok c. Proof. apply HD. Qed.
Let Hdim : dims_ok (c_nd c) (c_range c). Proof. apply HD. Qed.


(** Moving a cell by periods. *)
Lemma in_cell_image cell cell' x : periodic_coords c X -> is_image c cell cell' -> (forall d, (d < 3)%nat -> (c_nd c <= d)%nat -> tget (c_per c) d = false) ->
  in_cell (c_nd c) X cell x -> in_cell (c_nd c) X cell' x.
Proof.
  intros PX Im Per (l & Hl & S1 & Sx).
  set (mv := fun v : tup Z => tmake (fun d => tget v d + (tget cell' d - tget cell d))).
  assert (Mi : forall v, is_image c v (mv v)).
  { intros v d Hd. unfold mv. rewrite tget_tmake by auto. destruct (Im d Hd) as [I1 I2]. split; intros P.
    - destruct (I1 P) as [k K]. exists k. lia.
    - rewrite (I2 P). lia. }
  exists (map (fun wv => (fst wv, mv (snd wv))) l). split; [|split].
  - intros w v I. apply in_map_iff in I as ([w' v'] & Q & I). cbn [fst snd] in Q. injection Q as <- <-. destruct (Hl w' v' I) as [W C]. split; auto.
    intros d Hd. unfold mv. rewrite tget_tmake by auto. destruct (C d Hd); [left|right]; lia.
  - rewrite map_map. exact S1.
  - intros d Hd. rewrite map_map. cbn [fst snd]. rewrite (Sx d Hd). apply qsum_ext. intros [w v] I. cbn [fst snd]. rewrite (PX v (mv v) (Mi v)). reflexivity.
Qed.

(** A leaf with a corner of the cell, as a lower corner of an active cell, has an image of the cell in its cover. *)
Lemma cover_cell f cell v : pt_subset f (c_range cc) -> pt_in f v -> corner (c_nd c) cell v ->
  (forall d, (d < 3)%nat -> tget (c_per c) d = false -> tget (rb (c_range c)) d <= tget cell d) ->
  exists cell', is_image c cell cell' /\ pt_in (cell_cover cc f) cell'.
Proof.
  intros Sf Hv C Hc.
  pose proof HD as (_ & _ & _ & _ & Hper & _ & _).
  assert (NE : rempty f = false).
  { destruct (rempty f) eqn:E; auto. exfalso. apply (proj1 (rempty_spec f) E v Hv). }
  pose proof (subset_bounds f (c_range cc) NE Sf) as B.
  exists (tmake (fun d => if Nat.ltb d (c_nd c) && (tget cell d <? tget (rb f) d) && tget (c_per c) d && (tget (rb f) d =? tget (rb (c_range cc)) d) && (tget (re f) d =? tget (re (c_range cc)) d)
    then tget cell d + per_len c d else tget cell d)).
  split.
  - intros d Hd. rewrite tget_tmake by auto. split; intros P.
    + destruct (_ && _); [exists 1; lia|exists 0; lia].
    + rewrite P, andb_false_r. reflexivity.
  - apply cell_cover_spec. intros d Hd. change (c_nd cc) with (c_nd c). change (c_per cc) with (c_per c).
    rewrite tget_tmake by auto. specialize (C d Hd). rewrite pt_in_tget in Hv. specialize (Hv d Hd). specialize (B d Hd).
    destruct (Nat.ltb_spec d (c_nd c)) as [Hn|Hn]; cbn [andb].
    + pose proof (cell_count c d Hn Hd) as (_ & _ & _ & C1 & C2). fold cc in C1, C2. specialize (Hc d Hd).
      destruct (Z.ltb_spec (tget cell d) (tget (rb f) d)); cbn [andb].
      * destruct (tget (c_per c) d) eqn:P; cbn [andb].
        -- destruct (Z.eqb_spec (tget (rb f) d) (tget (rb (c_range cc)) d)); destruct (Z.eqb_spec (tget (re f) d) (tget (re (c_range cc)) d)); cbn [andb negb orb];
             destruct (Z.ltb_spec (tget (rb (c_range cc)) d) (tget (rb f) d)); cbn [orb]; lia.
        -- rewrite orb_false_r. specialize (Hc eq_refl). destruct (Z.ltb_spec (tget (rb (c_range cc)) d) (tget (rb f) d)); lia.
      * destruct (_ || _); lia.
    + destruct C as [C|C]; [|lia]. rewrite <- C.
      assert (Hz : tget (rb (c_range cc)) d = 0 /\ tget (re (c_range cc)) d = 1).
      { unfold cc, cart_point_to_cell. cbn [c_range].
        match goal with |- context [dims_range ?n ?b ?e] => destruct (dims_range_get n b e d Hd) as [G1 G2] end. rewrite G1, G2.
        destruct (Nat.ltb_spec d (c_nd c)); [lia|]. destruct (Hdim d ltac:(lia)); split; auto; unfold make_empty_range; cbn; 
          destruct d as [|[|[|d]]]; cbn; try lia; destruct (c_nd c) as [|[|[|k]]]; cbn; lia. }
      lia.
Qed.

Lemma fragments_ok r : (r < n)%nat -> fragmented active (range_point_to_cell c (L r)) (fragments c L stop depth active r).
Proof. intros Hr. apply subdivide_ok, Hnd. Qed.

Lemma own_cells r p : (r < n)%nat -> pt_in (range_point_to_cell c (L r)) p <-> pt_in (L r) p /\ pt_in (c_range cc) p.
Proof.
  intros Hr. apply cell_in; auto; [|apply (L_sub c n L HD r Hr)].
  destruct (L_grid c n L HD r Hr) as [_ G]. exact G.
Qed.

(** The fragment with a corner v of a cell contains the points of the cell. *)
Lemma fragment_found r f cell v x : (r < n)%nat -> In f (fragments c L stop depth active r) -> pt_in f v -> corner (c_nd c) cell v ->
  (cell = v \/ periodic_coords c X /\ periodic_mask c active) ->
  (forall d, (d < 3)%nat -> tget (c_per c) d = false -> tget (rb (c_range c)) d <= tget cell d) ->
  active cell = true -> in_cell (c_nd c) X cell x -> fragment_contains c active X O tol r x f = true.
Proof.
  intros Hr If Hf C Per Hc A I.
  assert (Sf : pt_subset f (c_range cc)).
  { destruct (fragments_ok r Hr) as (F1 & _). destruct (F1 f If) as [S _]. intros p Hp. apply (own_cells r p Hr), S, Hp. }
  assert (G : exists cell', pt_in (cell_cover cc f) cell' /\ active cell' = true /\ in_cell (c_nd c) X cell' x).
  { destruct Per as [->|[PX PA]].
    - exists v. split; auto. apply cell_cover_spec. intros d Hd. pose proof (cell_cart_subset c Hdim v (Sf v Hf)) as Hv. rewrite pt_in_tget in Hf, Hv.
      specialize (Hf d Hd). specialize (Hv d Hd). change (c_nd cc) with (c_nd c).
      destruct (Nat.ltb_spec d (c_nd c)) as [Hn|Hn]; [destruct (_ || _); lia|]. destruct (Hdim d ltac:(lia)). lia.
    - destruct (cover_cell f cell v Sf Hf C Hc) as (cell' & Im & P). exists cell'. split; auto. split; [rewrite (PA _ _ Im); auto|].
      apply (in_cell_image cell cell' x PX Im); auto. intros d Hd Hn. pose proof HD as (_ & _ & _ & _ & Hp & _). apply Hp. lia. }
  destruct G as (cell' & P & A' & I'). unfold fragment_contains. apply (fragment_box_in _ X active _ _ f cell' x); auto.
  apply scale_ge, HT.
Qed.

(** The fragment that has the cell finds every point of it. *)
Lemma searched cell x xs : pt_in (c_range cc) cell -> active cell = true -> in_cell (c_nd c) X cell x -> In x xs ->
  exists r f, (r < n)%nat /\ pt_in (L r) cell /\ In f (fragments c L stop depth active r) /\ pt_in f cell /\
    fragment_contains c active X O tol r x f = true /\ In r (overlapping_ranks c L stop depth active X O tol n xs).
Proof.
  intros Hc A I Ix. pose proof (cell_cart_subset c Hdim cell Hc) as Hg. destruct (L_owner c n L HD cell Hg) as (r & Hr & Hl).
  destruct (fragments_ok r Hr) as (_ & F2 & _). destruct (F2 cell) as (f & If & Hf); [apply (own_cells r cell Hr); auto|auto|].
  assert (K : fragment_contains c active X O tol r x f = true).
  { apply (fragment_found r f cell cell x); auto; [intros d Hd; auto|]. intros d Hd _. rewrite pt_in_tget in Hg. specialize (Hg d Hd). lia. }
  exists r, f. repeat (split; auto). unfold overlapping_ranks. apply filter_In. split; [apply in_seq; lia|].
  apply existsb_exists. exists x. split; auto. apply existsb_exists. eauto.
Qed.

Lemma told cell v x xs r : periodic_coords c X -> periodic_mask c active ->
  pt_in (c_range cc) cell -> active cell = true -> in_cell (c_nd c) X cell x -> In x xs ->
  (r < n)%nat -> corner (c_nd c) cell v -> pt_in (L r) (wrap c v) -> pt_in (c_range cc) (wrap c v) -> active (wrap c v) = true ->
  In r (overlapping_ranks c L stop depth active X O tol n xs).
Proof.
  intros PX PA Hc A I Ix Hr C Hl Hw Aw.
  destruct (fragments_ok r Hr) as (_ & F2 & _). destruct (F2 (wrap c v)) as (f & If & Hf); [apply (own_cells r _ Hr); auto|auto|].
  pose proof (wrap_image c Hok v) as Wi.
  set (cell' := tmake (fun d => tget cell d + (tget (wrap c v) d - tget v d))).
  assert (Im : is_image c cell cell').
  { intros d Hd. unfold cell'. rewrite tget_tmake by auto. destruct (Wi d Hd) as [I1 I2]. split; intros P.
    - destruct (I1 P) as [k K]. exists k. lia.
    - rewrite (I2 P). lia. }
  assert (Per : forall d, (d < 3)%nat -> (c_nd c <= d)%nat -> tget (c_per c) d = false).
  { intros d Hd Hn. pose proof HD as (_ & _ & _ & _ & Hp & _). apply Hp. lia. }
  assert (K : fragment_contains c active X O tol r x f = true).
  { apply (fragment_found r f cell' (wrap c v) x); auto.
    - intros d Hd. unfold cell'. rewrite tget_tmake by auto. destruct (C d Hd); [left|right]; lia.
    - intros d Hd P. destruct (Im d Hd) as [_ I2]. rewrite (I2 P). pose proof (cell_cart_subset c Hdim cell Hc) as Hg. rewrite pt_in_tget in Hg. specialize (Hg d Hd). lia.
    - rewrite (PA _ _ Im). exact A.
    - apply (in_cell_image cell cell' x PX Im Per I). }
  unfold overlapping_ranks. apply filter_In. split; [apply in_seq; lia|].
  apply existsb_exists. exists x. split; auto. apply existsb_exists. eauto.
Qed.
End Told.

(** Without periodic directions everything is periodic. *)
Lemma image_same c p q : (forall d, (d < 3)%nat -> tget (c_per c) d = false) -> is_image c p q -> q = p.
Proof.
  intros P H. assert (E : forall d, (d < 3)%nat -> tget q d = tget p d) by (intros d Hd; apply (H d Hd), P, Hd).
  destruct p, q. pose proof (E 0%nat ltac:(lia)). pose proof (E 1%nat ltac:(lia)). pose proof (E 2%nat ltac:(lia)). cbn in *. congruence.
Qed.

(** A point given by multilinear coordinates between 0 and 1 is in its cell. *)
Lemma multilinear_in nd X cell u : (1 <= nd <= 3)%nat -> (forall d, (d < nd)%nat -> (0 <= tget u d /\ tget u d <= 1)%Q) ->
  in_cell nd X cell (multilinear nd X cell u).
Proof.
  intros Hn Hu. exists (map (fun o => (weight nd u o, tadd cell o)) (foreach_col (dims_range nd (fun _ => 0) (fun _ => 2)))). split; [|split].
  - intros w v I. apply in_map_iff in I as (o & Q & I). injection Q as <- <-. apply foreach_col_In in I. rewrite pt_in_tget in I. split.
    + unfold weight. assert (G : forall l, (forall d, In d l -> (d < 3)%nat) ->
        (0 <= fold_right (fun d w => (if Nat.ltb d nd then (if tget o d =? 0 then 1 - tget u d else tget u d) else 1) * w)%Q 1%Q l)%Q).
      { induction l as [|d l IH]; intros Hl; cbn [fold_right]; [lra|]. apply Qmult_le_0_compat; [|apply IH; intros e He; apply Hl; right; auto].
        destruct (Nat.ltb_spec d nd); [|lra]. specialize (Hu d H). destruct (tget o d =? 0); lra. }
      apply G. intros d Hd. apply dims_In, Hd.
    + intros d Hd. specialize (I d Hd). unfold tadd. rewrite tget_tmake by auto.
      destruct (dims_range_get nd (fun _ => 0) (fun _ => 2) d Hd) as [G1 G2]. rewrite G1, G2 in I. destruct (Nat.ltb_spec d nd); [|left; lia].
      destruct (Z.eq_dec (tget o d) 0); [left; lia|right; lia].
  - rewrite map_map. cbn [fst]. destruct nd as [|[|[|[|nd]]]]; try lia; unfold qsum, weight; cbn -[Qplus Qmult Qminus]. all: change (Pos.to_nat 2) with 2%nat; change (Pos.to_nat 1) with 1%nat; cbn -[Qplus Qmult Qminus]; ring.
  - intros d Hd. rewrite map_map. cbn [fst snd]. unfold multilinear. rewrite tget_tmake by auto. reflexivity.
Qed.
