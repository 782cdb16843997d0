(** Boundary holes: examples. *)
From Coq Require Import List ZArith Bool Lia.
From Verif Require Import TupleModel RangeModel RangeProof CartModel CartProof NeighSpec FieldModel FieldSpec OccModel OccEx HoleModel HoleSpec HoleLaws.
Import ListNotations.
Local Open Scope Z_scope.

Definition hbuild (grids : list Z) (carts : Z -> cart) (pairs : list (Z * Z)) (cell : Z * Z -> tup Z -> option (tup Z * tup Z))
    (active boundary : Z -> mask) (cut : Z * Z -> bool) : hdata :=
  HD grids carts pairs (found carts cell) (fun k p => match found carts cell k p with Some _ => active (snd k) p | None => false end) active boundary cut.

Lemma hbuild_ok grids carts pairs cell active boundary cut :
  (forall g, exists nd n m, 0 < n /\ 0 < m /\ (nd <= 3)%nat /\ ((nd < 2)%nat -> m = 1) /\ (1 <= nd)%nat /\ carts g = flat nd n m) ->
  hdata_ok (hbuild grids carts pairs cell active boundary cut).
Proof.
  intros Hc. constructor; cbn.
  - intro g. destruct (Hc g) as (nd & n & m & Hn & Hm & H3 & H1 & H0 & ->). destruct (flat_ok nd n m Hn Hm) as (A & B & C).
    split; [exact A |]. split; [exact B |]. split; [exact H3 |]. cbn [flat c_nd]. intros d Hd. split; [apply C; exact Hd |].
    destruct d as [| [| [| d]]]; cbn; [lia | rewrite H1 by lia; reflexivity | reflexivity | lia].
  - intros k p vs v H Hv. unfold found in H. destruct (cell k p) as [[b s] |]; [| discriminate].
    destruct (_ && _) eqn:E in H; [| discriminate]. injection H as <-. apply andb_true_iff in E. destruct E as [_ E].
    rewrite forallb_forall in E. apply rcontains_spec. apply E. exact Hv.
Qed.

(** A grid with points (i,j), 0 <= i, j < 8, and one with points (s + 3/2, t + 3/2), 0 <= s, t < 5, whose sides are
    boundaries. *)
Definition bx_carts (g : Z) : cart := if g =? 1 then flat 2 5 5 else flat 2 8 8.
Definition bx_cell (k : Z * Z) (p : tup Z) : option (tup Z * tup Z) :=
  if fst k =? 1 then Some (tsub p (T3 2 2 0), T3 2 2 1) else Some (tadd p (T3 1 1 0), T3 2 2 1).
Definition bx_sides (n : Z) (p : tup Z) : bool := (c0 p =? 0) || (c0 p =? n - 1) || (c1 p =? 0) || (c1 p =? n - 1).
Definition bx : hdata :=
  hbuild [1; 2] bx_carts [(1, 2); (2, 1)] bx_cell (fun _ _ => true) (fun g p => (g =? 1) && bx_sides 5 p) (fun k => pair_eqb k (1, 2)).
Lemma bx_ok : hdata_ok bx.
Proof. apply hbuild_ok. intro g. unfold bx_carts. destruct (g =? 1); [exists 2%nat, 5, 5 | exists 2%nat, 8, 8]; repeat split; lia. Qed.

Definition hmasks (X : hdata) (r : option (list (Z * mask))) : option (list (list (Z * Z))) :=
  option_map (map (fun e => points_of (hd_cart X (fst e)) (snd e))) r.

(** A thin grid which crosses the right side of a grid with points (i,j), 0 <= i, j < 6.  Its points are (45 + 2s + t, 29 - 2s + t) / 10 (t = 0 or 1
    as halves); no point of the first grid lies in it, but (5,2) lies in its bounding box. *)
Definition sp_carts (g : Z) : cart := if g =? 1 then flat 2 6 6 else flat 2 6 2.
Definition sp_cell (k : Z * Z) (p : tup Z) : option (tup Z * tup Z) :=
  if fst k =? 1 then Some (T3 ((90 + 4 * c0 p + c1 p) / 20) ((58 - 4 * c0 p + c1 p) / 20) 0, T3 2 2 1) else None.
Definition strip : hdata :=
  hbuild [1; 2] sp_carts [(1, 2); (2, 1)] sp_cell (fun _ _ => true) (fun g p => (g =? 1) && bx_sides 6 p) (fun k => pair_eqb k (1, 2)).
Lemma strip_ok : hdata_ok strip.
Proof. apply hbuild_ok. intro g. unfold sp_carts. destruct (g =? 1); [exists 2%nat, 6, 6 | exists 2%nat, 6, 2]; repeat split; lia. Qed.

(** A line of points that is crossed by a grid of two cells: two points are overlapped. *)
Definition tn_carts (g : Z) : cart := if g =? 1 then flat 1 3 1 else flat 1 10 1.
Definition tn_cell (k : Z * Z) (p : tup Z) : option (tup Z * tup Z) :=
  if fst k =? 1 then Some (tsub p (T3 4 0 0), T3 2 1 1) else Some (tadd p (T3 3 0 0), T3 2 1 1).
Definition thin : hdata :=
  hbuild [1; 2] tn_carts [(1, 2); (2, 1)] tn_cell (fun _ _ => true) (fun g p => (g =? 1) && ((c0 p =? 0) || (c0 p =? 2))) (fun k => pair_eqb k (1, 2)).
Lemma thin_ok : hdata_ok thin.
Proof. apply hbuild_ok. intro g. unfold tn_carts. destruct (g =? 1); [exists 1%nat, 3, 1 | exists 1%nat, 10, 1]; repeat split; lia. Qed.

(** A band with points (s + 7/2, 6 t - 1/2), 0 <= s < 5, 0 <= t < 3, on a grid with points (i,j), 0 <= i < 11, 0 <= j < 12.  Only the
    left side of the band is a boundary. *)
Definition bd_carts (g : Z) : cart := if g =? 1 then flat 2 5 3 else flat 2 11 12.
Definition bd_cell (k : Z * Z) (p : tup Z) : option (tup Z * tup Z) :=
  if fst k =? 1 then Some (T3 (c0 p - 4) (c1 p / 6) 0, T3 2 2 1) else Some (T3 (c0 p + 3) (6 * c1 p - 1) 0, T3 2 2 1).
Definition band : hdata :=
  hbuild [1; 2] bd_carts [(1, 2); (2, 1)] bd_cell (fun _ _ => true) (fun g p => (g =? 1) && (c0 p =? 0)) (fun k => pair_eqb k (1, 2)).
Lemma band_ok : hdata_ok band.
Proof. apply hbuild_ok. intro g. unfold bd_carts. destruct (g =? 1); [exists 2%nat, 5, 3 | exists 2%nat, 11, 12]; repeat split; lia. Qed.

Lemma hole_at X fuel g p b : (match cut_holes X fuel with
    | Some r => match find (fun e => fst e =? g) r with Some e => Bool.eqb (snd e p) b | None => false end | None => false end) = true ->
  exists r m, cut_holes X fuel = Some r /\ In (g, m) r /\ m p = b.
Proof.
  destruct (cut_holes X fuel) as [r |]; [| discriminate]. destruct (find _ r) as [[g' m] |] eqn:E; [| discriminate].
  intro H. exists r, m. split; [reflexivity |]. apply find_some in E. destruct E as [E1 E2]. cbn in E2. apply Z.eqb_eq in E2. subst g'. split; [exact E1 | apply eqb_prop; exact H].
Qed.

(** Where a mask of the result is known at all points of a list. *)
Lemma holes_at X fuel g (l : list (tup Z * bool)) : (match cut_holes X fuel with
    | Some r => match find (fun e => fst e =? g) r with Some e => forallb (fun x => Bool.eqb (snd e (fst x)) (snd x)) l | None => false end | None => false end) = true ->
  exists r m, cut_holes X fuel = Some r /\ In (g, m) r /\ forall p b, In (p, b) l -> m p = b.
Proof.
  destruct (cut_holes X fuel) as [r |]; [| discriminate]. destruct (find _ r) as [[g' m] |] eqn:E; [| discriminate].
  intro H. exists r, m. split; [reflexivity |]. apply find_some in E. destruct E as [E1 E2]. cbn in E2. apply Z.eqb_eq in E2. subst g'. split; [exact E1 |].
  intros p b Hp. rewrite forallb_forall in H. apply eqb_prop. apply (H (p, b) Hp).
Qed.

Lemma band_refuted : exists X g r m s p b, hdata_ok X /\ (forall q, hd_active X g q = true /\ hd_boundary X g q = false) /\
  (forall k q, cuts X k -> snd k = g -> touched X k (fun q => hd_boundary X (fst k) q = true) q -> c0 q <= b) /\
  (exists fuel, cut_holes X fuel = Some r) /\ In (g, m) r /\ pt_in (c_range (hd_cart X g)) s /\ pt_in (c_range (hd_cart X g)) p /\ b < c0 s < c0 p /\
  (exists k, cuts X k /\ snd k = g /\ hd_overlap X k s = true) /\ m s = false /\ m p = true.
Proof.
  destruct (holes_at band 10 2 [(T3 5 5 0, false); (T3 9 5 0, true)]) as (r & m & H1 & H2 & H3); [vm_compute; reflexivity |].
  exists band, 2, r, m, (T3 5 5 0), (T3 9 5 0), 4. split; [exact band_ok |]. split; [intro q; split; reflexivity |]. split.
  - intros k q Hk Eg (w & vs & Hw & Hb & V & Hq). destruct k as [a g]. cbn in Eg. subst g. destruct Hk as (K1 & _ & K2 & _). cbn [fst snd] in *.
    destruct K1 as [<- | [<- | []]]; [| discriminate K2]. cbn in Hb. apply Z.eqb_eq in Hb.
    unfold hd_vertices, band, hbuild, found, bd_cell, swap in V. cbn [fst snd] in V. cbn [Z.eqb Pos.eqb] in V.
    destruct (_ && _) in V; [| discriminate]. injection V as <-. apply foreach_col_In in Hq. destruct Hq as (Q & _). cbn in Q. rewrite Hb in Q. lia.
  - split; [exists 10%nat; exact H1 |]. split; [exact H2 |]. split; [cbn; unfold pt_in; cbn; lia |]. split; [cbn; unfold pt_in; cbn; lia |]. split; [cbn; lia |].
    split; [| split; apply H3; cbn; auto]. exists (1, 2). split; [unfold cuts; cbn; tauto | split; [reflexivity | vm_compute; reflexivity]].
Qed.

(** The strip: a point beyond the overlap, and nothing to start from. *)
Lemma strip_endless : forall fuel, cut_holes strip fuel = None.
Proof.
  intro fuel. destruct (cut_holes strip fuel) as [r |] eqn:E; [| reflexivity]. exfalso. pose proof (cut_needs strip strip_ok fuel r E) as F.
  destruct (F (1, 2)) as (p & _ & (q & vs & _ & _ & V & _)).
  - unfold cuts; cbn; tauto.
  - exists (T3 3 0 0). split; [unfold pt_in; cbn; lia |]. split; [vm_compute; reflexivity |]. exists (T3 2 0 0). split; [| vm_compute; reflexivity].
    intros d Hd. destruct d as [| [| [| d]]]; cbn; lia.
  - cbn in V. discriminate.
Qed.

Lemma strip_refuted : exists X, hdata_ok X /\ (exists k, cuts X k /\ exists p, pt_in (c_range (hd_cart X (snd k))) p /\ hd_overlap X k p = true) /\ forall fuel, cut_holes X fuel = None.
Proof.
  exists strip. split; [exact strip_ok |]. split; [| exact strip_endless]. exists (1, 2). split; [unfold cuts; cbn; tauto |]. exists (T3 0 0 0).
  split; [unfold pt_in; cbn; lia | vm_compute; reflexivity].
Qed.

Lemma thin_refuted : exists X g r m, hdata_ok X /\ (exists fuel, cut_holes X fuel = Some r) /\ In (g, m) r /\ (forall p, pt_in (c_range (hd_cart X g)) p -> m p = false) /\
  exists k, cuts X k /\ snd k = g /\ (exists p, pt_in (c_range (hd_cart X g)) p /\ boundary_of X k p) /\
  exists p, pt_in (c_range (hd_cart X g)) p /\ hd_active X g p = true /\ ~ wall X g p /\ hd_overlap X k p = false.
Proof.
  destruct (holes_at thin 10 2 (map (fun p => (p, false)) (foreach_col (mkR (T3 0 0 0) (T3 10 1 1))))) as (r & m & H1 & H2 & H3); [vm_compute; reflexivity |].
  exists thin, 2, r, m. split; [exact thin_ok |]. split; [exists 10%nat; exact H1 |]. split; [exact H2 |]. split.
  - intros p Hp. apply H3. apply in_map_iff. exists p. split; [reflexivity | apply foreach_col_In; exact Hp].
  - exists (1, 2). assert (K : cuts thin (1, 2)) by (unfold cuts; cbn; tauto). split; [exact K |]. split; [reflexivity |].
    assert (D : num_dilates thin 10 (1, 2) = Some 0) by (vm_compute; reflexivity). pose proof (reach_ok thin thin_ok 10 (1, 2) 0 D) as Hr.
    split.
    + exists (T3 4 0 0). split; [unfold pt_in; cbn; lia |]. apply (projected_ok thin thin_ok (1, 2) 0); [exact Hr | unfold pt_in; cbn; lia | vm_compute; reflexivity].
    + exists (T3 0 0 0). split; [unfold pt_in; cbn; lia |]. split; [reflexivity |]. split; [| vm_compute; reflexivity].
      intros [W | (k & Hk & Eg & W)]; [vm_compute in W; discriminate |]. destruct k as [a g]. cbn in Eg. subst g. destruct Hk as (K1 & _ & K2 & _). cbn [fst snd] in *.
      destruct K1 as [<- | [<- | []]]; [| discriminate K2]. destruct W as [W _]. vm_compute in W. discriminate.
Qed.

Definition outside : list (Z * Z) := map (fun p => (c0 p, c1 p)) (filter (fun p => negb ((2 <=? c0 p) && (c0 p <=? 5) && (2 <=? c1 p) && (c1 p <=? 5))) (foreach_col (mkR (T3 0 0 0) (T3 8 8 1)))).
Lemma bx_result : hdata_ok bx /\ finite bx /\ hmasks bx (cut_holes bx 1) = Some [[]; outside].
Proof.
  split; [exact bx_ok |]. split; [| vm_compute; reflexivity]. destruct (hole_at bx 1 2 (T3 0 0 0) true) as (r & m & E & _); [vm_compute; reflexivity |]. exact (cut_needs bx bx_ok 1 r E).
Qed.
