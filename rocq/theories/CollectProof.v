(** Proofs about collect maps. *)
From Coq Require Import List ZArith Bool Lia Arith.
From Verif Require Import TupleModel RangeModel CartModel Base RangeProof CartProof IndexerModel IndexerProof ArrayModel ArrayProof.
From Verif Require Import ContModel HashModel HashProof DecompModel DecompProof NetModel NetTools NeighSpec NeighProof HaloModel HaloProof.
From Verif Require Import FieldSpec FieldProof SendModel SendProof CollectModel CollectSpec.
Import ListNotations.
Local Open Scope Z_scope.

(** ** Loops over ranges *)

Lemma zrange_meet b e b' e' : zrange (Z.max b b') (Z.min e e') = filter (fun x => (b <=? x) && (x <? e)) (zrange b' e').
Proof.
  unfold zrange. remember (Z.to_nat (e' - b')) as n eqn:En. revert b' En.
  induction n as [|n IH]; intros b' En.
  - replace (Z.to_nat (Z.min e e' - Z.max b b')) with 0%nat by lia. reflexivity.
  - cbn [zseq filter]. specialize (IH (b' + 1) ltac:(lia)).
    destruct (Z.leb_spec b b'); destruct (Z.ltb_spec b' e); cbn [andb].
    + rewrite <- IH. replace (Z.max b b') with b' by lia. replace (Z.max b (b' + 1)) with (b' + 1) by lia.
      replace (Z.to_nat (Z.min e e' - b')) with (S (Z.to_nat (Z.min e e' - (b' + 1)))) by lia. reflexivity.
    + rewrite <- IH. replace (Z.to_nat (Z.min e e' - Z.max b b')) with 0%nat by lia.
      replace (Z.to_nat (Z.min e e' - Z.max b (b' + 1))) with 0%nat by lia. reflexivity.
    + rewrite <- IH. replace (Z.max b (b' + 1)) with (Z.max b b') by lia. reflexivity.
    + rewrite <- IH. replace (Z.to_nat (Z.min e e' - Z.max b b')) with 0%nat by lia.
      replace (Z.to_nat (Z.min e e' - Z.max b (b' + 1))) with 0%nat by lia. reflexivity.
Qed.

Lemma flat_map_filter2 {A B} (p : A -> bool) (q : B -> bool) (g f : A -> list B) l :
  (forall a, In a l -> p a = true -> g a = filter q (f a)) -> (forall a, In a l -> p a = false -> filter q (f a) = []) ->
  flat_map g (filter p l) = filter q (flat_map f l).
Proof.
  intros G H. rewrite filter_flat_map. induction l as [|a l IH]; [reflexivity|]. cbn [filter flat_map].
  specialize (IH (fun a I => G a (in_cons _ _ _ I)) (fun a I => H a (in_cons _ _ _ I))).
  destruct (p a) eqn:E; cbn [flat_map]; rewrite IH.
  - rewrite (G a (in_eq _ _) E). reflexivity.
  - rewrite (H a (in_eq _ _) E). reflexivity.
Qed.

Lemma filter_none {A} (p : A -> bool) l : (forall a, In a l -> p a = false) -> filter p l = [].
Proof. induction l as [|a l IH]; intros H; [reflexivity|]. cbn. rewrite (H a (in_eq _ _)). apply IH. auto using in_cons. Qed.

(** The loop over an intersection visits the points of one range in the order of the other. *)
Lemma foreach_intersect l r : foreach_col (intersect_ranges l r) = filter (rcontains l) (foreach_col r).
Proof.
  unfold foreach_col, intersect_ranges. cbn [rb re tmake c0 c1 c2 tget]. rewrite !zrange_meet.
  apply flat_map_filter2.
  - intros k _ Pk. apply flat_map_filter2.
    + intros j _ Pj. rewrite filter_map. f_equal. apply filter_ext_in'. intros i _.
      unfold rcontains, tall. cbn [tget c0 c1 c2]. rewrite Pj, Pk, !andb_true_r. reflexivity.
    + intros j _ Pj. apply filter_none. intros p Hp. apply in_map_iff in Hp as (i & <- & _).
      unfold rcontains, tall. cbn [tget c0 c1 c2]. rewrite Pj, !andb_false_r. reflexivity.
  - intros k _ Pk. apply filter_none. intros p Hp. apply in_flat_map in Hp as (j & _ & Hp). apply in_map_iff in Hp as (i & <- & _).
    unfold rcontains, tall. cbn [tget c0 c1 c2]. rewrite Pk, !andb_false_r. reflexivity.
Qed.

Lemma foreach_subset r g : rempty r = false -> pt_subset r g -> foreach_col r = filter (rcontains r) (foreach_col g).
Proof.
  intros E S. rewrite <- foreach_intersect. f_equal. pose proof (RangeProof.subset_bounds r g E S) as B.
  destruct r as [[a1 a2 a3] [b1 b2 b3]]. unfold intersect_ranges, tmake. cbn [rb re tget c0 c1 c2] in *.
  f_equal; f_equal; symmetry; [apply Z.max_l|apply Z.max_l|apply Z.max_l|apply Z.min_l|apply Z.min_l|apply Z.min_l]; apply B.
Qed.

Lemma rindex_order lay r : map (rindex lay r) (in_order lay r) = zseq 0 (Z.to_nat (rcount r)).
Proof.
  destruct lay; [|apply rindex_foreach]. rewrite rcount_ecount, <- (foreach_index RowMajor).
  assert (E : map tlist (RangeModel.foreach_row r) = foreach RowMajor (rexts r)).
  { unfold RangeModel.foreach_row, foreach, rexts. cbn [foreach_rm].
    rewrite !flat_map_concat_map, concat_map, map_map. f_equal. apply map_ext. intros i.
    rewrite !flat_map_concat_map, !concat_map, !map_map. f_equal. apply map_ext. intros j.
    induction (zrange _ _) as [|k l IH]; cbn; [reflexivity|]. f_equal. exact IH. }
  rewrite <- E, map_map. reflexivity.
Qed.

Lemma in_order_In lay r p : In p (in_order lay r) <-> pt_in r p.
Proof. destruct lay; [apply foreach_row_In|apply foreach_col_In]. Qed.

Lemma in_order_length lay r : Z.of_nat (length (in_order lay r)) = rcount r.
Proof. destruct lay; [apply foreach_row_length|apply foreach_col_length]. Qed.

(** ** The ranges *)

(** The smallest range that contains the points. *)
Definition hull (R : range) (S : tup Z -> Prop) : Prop :=
  (forall p, S p -> pt_in R p) /\ forall s, (forall p, S p -> pt_in s p) -> pt_subset R s.

Lemma hull_ext R (S S' : tup Z -> Prop) : (forall p, S p <-> S' p) -> hull R S -> hull R S'.
Proof. intros E [A B]. split; [intros p Hp; apply A, E, Hp|]. intros s H. apply B. intros p Hp. apply H, E, Hp. Qed.

Lemma hull_union R T (S S' : tup Z -> Prop) : hull R S -> hull T S' -> hull (union_ranges R T) (fun p => S p \/ S' p).
Proof.
  intros [A B] [A' B']. split.
  - intros p [H|H]; [apply union_upper_l, A, H|apply union_upper_r, A', H].
  - intros s H. apply union_least; [apply B|apply B']; auto.
Qed.

Lemma hull_range R : hull R (pt_in R).
Proof. split; [auto|]. intros s H p Hp. auto. Qed.

Lemma hull_extend r vs R S : hull R S -> hull (extend_by r vs R) (fun p => S p \/ In p (filter (rcontains r) vs)).
Proof.
  revert R S. induction vs as [|v vs IH]; intros R S H.
  - apply (hull_ext R S); [cbn; tauto|exact H].
  - unfold extend_by. cbn [fold_left filter]. change (fold_left _ vs ?R') with (extend_by r vs R').
    destruct (rcontains r v) eqn:E; [|apply IH, H].
    eapply hull_ext; [|apply (IH (extend_range R v) (fun p => S p \/ p = v))].
    + intros p. cbn [In]. split; intros; repeat (destruct H0 as [H0|H0] || destruct H0); auto.
    + destruct H as [A B]. split.
      * intros p [Hp| ->]; [apply extend_upper, A, Hp|apply extend_contains].
      * intros s Hs. apply extend_least; [apply B|apply Hs]; auto.
Qed.

Lemma hull_empty R S : hull R S -> (rempty R = true <-> forall p, ~ S p).
Proof.
  intros [A B]. split.
  - intros E p Hp. apply (proj1 (rempty_spec R) E p), A, Hp.
  - intros H. apply rempty_spec. intros p Hp.
    assert (X := B (mkR (T3 0 0 0) (T3 0 0 0)) (fun p Sp => False_ind _ (H p Sp)) p Hp). unfold pt_in in X. cbn in X. lia.
Qed.

(** ** Masks *)

Definition memt (p : tup Z) (l : list (tup Z)) : bool := existsb (teqb p) l.
Lemma memt_In p l : memt p l = true <-> In p l.
Proof.
  unfold memt. rewrite existsb_exists. split.
  - intros (x & I & E). apply teqb_eq in E. subst x. exact I.
  - intros I. exists p. split; [exact I|apply teqb_eq; reflexivity].
Qed.

(** Writing the same value at several places. *)
Lemma marks_ok R ps : (forall p, In p ps -> pt_in R p) -> forall m, Z.of_nat (length m) = rcount R ->
  exists m', ofoldl (mark R) ps m = Some m' /\ Z.of_nat (length m') = rcount R /\
    forall p, pt_in R p -> vread m' (rindex ColMajor R p) = if memt p ps then Some true else vread m (rindex ColMajor R p).
Proof.
  induction ps as [|q ps IH]; intros Hps m Hm.
  - exists m. split; [reflexivity|]. split; [exact Hm|]. intros p _. reflexivity.
  - cbn [ofoldl]. unfold mark at 1. pose proof (Hps q (in_eq _ _)) as Hq. pose proof (rindex_bounds ColMajor R q Hq) as B.
    destruct (vwrite_spec m (rindex ColMajor R q) true ltac:(lia)) as (m1 & -> & L1 & R1).
    destruct (IH (fun p I => Hps p (in_cons _ _ _ I)) m1 ltac:(lia)) as (m' & E & L' & R').
    exists m'. split; [exact E|]. split; [exact L'|]. intros p Hp. rewrite R', R1 by exact Hp. cbn [memt existsb].
    fold (memt p ps). destruct (teqb p q) eqn:Eq; cbn [orb].
    + apply teqb_eq in Eq. subst q. rewrite Z.eqb_refl. destruct (memt p ps); reflexivity.
    + destruct (Z.eqb_spec (rindex ColMajor R p) (rindex ColMajor R q)) as [X|X]; [|reflexivity].
      apply rindex_inj in X; auto. subst q. assert (teqb p p = true) by (apply teqb_eq; reflexivity). congruence.
Qed.

Definition marked (mk : range -> list (tup Z)) (cells : list range) (p : tup Z) : bool := existsb (fun cell => memt p (mk cell)) cells.

Lemma mask_ok marks mk R cells : (forall cell, In cell cells -> marks cell = Some (mk cell)) ->
  (forall cell p, In cell cells -> In p (mk cell) -> pt_in R p) ->
  mask marks R cells = Some (map (marked mk cells) (foreach_col R)).
Proof.
  intros H1 H2. unfold mask. pose proof (foreach_col_length R) as LR.
  assert (X : forall m, Z.of_nat (length m) = rcount R -> exists m', ofoldl (fun m cell => let! ps := marks cell in ofoldl (mark R) ps m) cells m = Some m' /\
    Z.of_nat (length m') = rcount R /\ forall p, pt_in R p -> vread m' (rindex ColMajor R p) = if marked mk cells p then Some true else vread m (rindex ColMajor R p)).
  { clear LR. induction cells as [|cell cells IH]; intros m Hm.
    - exists m. split; [reflexivity|]. split; [exact Hm|]. intros p _. reflexivity.
    - cbn [ofoldl]. rewrite (H1 cell (in_eq _ _)). destruct (marks_ok R (mk cell) (fun p => H2 cell p (in_eq _ _)) m Hm) as (m1 & -> & L1 & R1).
      destruct (IH (fun x I => H1 x (in_cons _ _ _ I)) (fun x p I => H2 x p (in_cons _ _ _ I)) m1 L1) as (m' & E & L' & R').
      exists m'. split; [exact E|]. split; [exact L'|]. intros p Hp. rewrite R', R1 by exact Hp. unfold marked. cbn [existsb].
      destruct (memt p (mk cell)); destruct (existsb _ cells); reflexivity. }
  destruct (X (repeat false (Z.to_nat (rcount R)))) as (m' & -> & L' & R'); [rewrite repeat_length; lia|].
  apply (field_ext R m' (fun p => Some (marked mk cells p))) in L'.
  - rewrite (omap_map _ (marked mk cells)) in L' by auto. congruence.
  - intros p Hp. rewrite R' by exact Hp. destruct (marked mk cells p); [reflexivity|].
    pose proof (rindex_bounds ColMajor R p Hp). apply repeat_read. lia.
Qed.

Lemma set_points_ok R (P : tup Z -> bool) : set_points R (map P (foreach_col R)) = Some (filter P (foreach_col R)).
Proof.
  unfold set_points. pose proof (foreach_col_length R) as LR. rewrite map_length.
  replace (zseq 0 (length (foreach_col R))) with (map (rindex ColMajor R) (foreach_col R)) by (rewrite rindex_foreach; f_equal; lia).
  rewrite omap_of_map. rewrite (omap_map _ (fun p => (p, P p))).
  - f_equal. rewrite filter_map, map_map. cbn [fst snd]. rewrite map_id. reflexivity.
  - intros p Hp. apply foreach_col_In in Hp. rewrite vread_fmap, rtuple_rindex by exact Hp.
    pose proof (rindex_bounds ColMajor R p Hp). rewrite <- (Z2Nat.id (rindex ColMajor R p)) by lia.
    rewrite vread_nth, foreach_index_nth by exact Hp. reflexivity.
Qed.

Lemma num_set_ok (P : tup Z -> bool) l : num_set (map P l) = Z.of_nat (length (filter P l)).
Proof. unfold num_set. rewrite filter_map, map_length. f_equal. Qed.

Lemma number_set_ok (P : tup Z -> bool) l : forall k i p, nth_error l i = Some p -> P p = true ->
  exists j, nth_error (number_set k (map P l)) i = Some (k + Z.of_nat j) /\ nth_error (filter P l) j = Some p.
Proof.
  induction l as [|q l IH]; intros k i p Hi Hp; [destruct i; discriminate|]. cbn [map filter number_set].
  destruct i as [|i]; cbn [nth_error] in Hi.
  - injection Hi as ->. rewrite Hp. exists 0%nat. cbn [nth_error]. split; [f_equal; lia|reflexivity].
  - destruct (P q); cbn [nth_error].
    + destruct (IH (k + 1) i p Hi Hp) as (j & E1 & E2). exists (S j). cbn [nth_error]. split; [rewrite E1; f_equal; lia|exact E2].
    + apply IH; auto.
Qed.

(** ** One rank *)

Lemma combine_zseq {A} (l : list A) : forall a i x, In (i, x) (combine (zseq a (length l)) l) <-> vread l (i - a) = Some x /\ a <= i.
Proof.
  induction l as [|y l IH]; intros a i x; cbn [length zseq combine In].
  - split; [tauto|]. intros [H _]. apply vread_lt in H. cbn in H. lia.
  - rewrite IH. split.
    + intros [E|[E Hi]].
      * injection E as <- <-. rewrite Z.sub_diag. split; [reflexivity|lia].
      * split; [|lia]. replace (i - a) with (Z.of_nat (S (Z.to_nat (i - (a + 1))))) by lia. rewrite vread_nth. cbn [nth_error].
        rewrite <- vread_nth. rewrite Z2Nat.id by lia. exact E.
    + intros [E Hi]. destruct (Z.eq_dec i a) as [->|Q].
      * rewrite Z.sub_diag in E. injection E as ->. auto.
      * right. split; [|lia]. replace (i - a) with (Z.of_nat (S (Z.to_nat (i - (a + 1))))) in E by lia. rewrite vread_nth in E. cbn [nth_error] in E.
        rewrite <- vread_nth in E. rewrite Z2Nat.id in E by lia. exact E.
Qed.

Lemma kseq cnt k : In k (zseq 0 (Z.to_nat cnt)) <-> 0 <= k < cnt.
Proof. rewrite zseq_In. lia. Qed.

Lemma zseq_nth n : forall a k, (k < n)%nat -> nth_error (zseq a n) k = Some (a + Z.of_nat k).
Proof.
  induction n as [|n IH]; intros a k H; [lia|]. destruct k as [|k]; cbn [zseq nth_error]; [f_equal; lia|]. rewrite IH by lia. f_equal. lia.
Qed.

Lemma concat_rows {A} (w : nat) (rows : list (list A)) : (forall row, In row rows -> length row = w) -> length (concat rows) = (length rows * w)%nat /\
  forall k row j, nth_error rows k = Some row -> (j < w)%nat -> nth_error (concat rows) (k * w + j) = nth_error row j.
Proof.
  induction rows as [|r0 rows IH]; intros H.
  - split; [reflexivity|]. intros [|k] row j E; discriminate E.
  - destruct IH as [IL IR]; [auto using in_cons|]. pose proof (H r0 (in_eq _ _)) as L0. cbn [concat length]. split; [rewrite app_length; lia|].
    intros [|k] row j E Hj; cbn in E.
    + injection E as ->. cbn [Nat.mul Nat.add]. apply nth_error_app1. lia.
    + rewrite nth_error_app2 by (cbn; lia). replace (S k * w + j - length r0)%nat with (k * w + j)%nat by (cbn; lia). apply IR; auto.
Qed.

Lemma max_vertices_le cells : forall a, (forall cell, In cell cells -> extent_product cell <= fold_left (fun m cell => Z.max m (extent_product cell)) cells a) /\
  a <= fold_left (fun m cell => Z.max m (extent_product cell)) cells a.
Proof.
  induction cells as [|x cells IH]; intros a; cbn [fold_left]; [split; [intros cell []|lia]|].
  destruct (IH (Z.max a (extent_product x))) as [A B]. split; [|lia]. intros cell [<-|I]; [lia|apply A, I].
Qed.

Lemma max_vertices_ok cells cell : In cell cells -> (exists p, pt_in cell p) -> rcount cell <= max_vertices cells.
Proof.
  intros I (p & Hp). pose proof (proj1 (max_vertices_le cells 0) cell I) as H. unfold max_vertices. etransitivity; [|exact H].
  destruct Hp as (B0 & B1 & B2). unfold rcount, rsize1, extent_product. cbn [tget]. lia.
Qed.

Lemma omap_ext_in {A B} (f g : A -> option B) l : (forall a, In a l -> f a = g a) -> omap f l = omap g l.
Proof.
  induction l as [|a l IH]; intros H; [reflexivity|]. rewrite !omap_cons, H by apply in_eq. rewrite IH; [reflexivity|]. auto using in_cons.
Qed.

Lemma combine_map_self {A B} (f : A -> B) l : combine l (map f l) = map (fun a => (a, f a)) l.
Proof. induction l as [|a l IH]; [reflexivity|]. cbn. f_equal. exact IH. Qed.

Lemma combine_maps {A B C} (f : A -> B) (g : A -> C) l : combine (map f l) (map g l) = map (fun a => (f a, g a)) l.
Proof. induction l as [|a l IH]; [reflexivity|]. cbn. f_equal. exact IH. Qed.

Lemma filter_lengths {A} (p : A -> bool) l : (length l = length (filter p l) + length (filter (fun x => negb (p x)) l))%nat.
Proof. induction l as [|a l IH]; [reflexivity|]. cbn. destruct (p a); cbn; lia. Qed.

Section Rank.
Variables (c : cart).
Hypothesis Hok : cart_ok c.
Hypothesis Hnd : (1 <= c_nd c)%nat.
Notation G := (c_range c).

Definition vs (cell : range) : list (tup Z) := map (home c cell) (foreach_col cell).

Lemma vs_In cell u : In u (vs cell) <-> exists p, pt_in cell p /\ home c cell p = u.
Proof.
  unfold vs. rewrite in_map_iff. split.
  - intros (p & E & I). exists p. split; [apply foreach_col_In, I|exact E].
  - intros (p & I & E). exists p. split; [exact E|apply foreach_col_In, I].
Qed.

Lemma vs_away cell : away c cell = true -> vs cell = foreach_col cell.
Proof. intros E. unfold vs, home. unfold away in E. rewrite E. apply map_id. Qed.

Lemma vs_edge cell : away c cell = false -> adjusted c cell = Some (vs cell).
Proof.
  intros E. unfold adjusted, vs, home. unfold away in E. rewrite E. apply omap_map. intros p _. apply (adjust_wrap c Hok).
Qed.

Lemma overlap_vs nb cell : away c cell = true -> ranges_overlap nb cell = existsb (rcontains nb) (vs cell).
Proof.
  intros A. rewrite (vs_away _ A). apply eq_true_iff_eq. rewrite overlap_spec, existsb_exists. split.
  - intros (p & X & Y). exists p. split; [apply foreach_col_In, Y|apply rcontains_spec, X].
  - intros (p & X & Y). exists p. split; [apply rcontains_spec, Y|apply foreach_col_In, X].
Qed.

Definition mkS (loc nb cell : range) : list (tup Z) :=
  if existsb (rcontains nb) (vs cell) then filter (rcontains loc) (vs cell) else [].
Definition mkV (nb cell : range) : list (tup Z) := filter (rcontains nb) (vs cell).

Lemma send_marks_ok loc nb cell : send_marks c loc nb cell = Some (mkS loc nb cell).
Proof.
  unfold send_marks, mkS. destruct (away c cell) eqn:A.
  - rewrite overlap_vs, foreach_intersect, <- (vs_away _ A) by exact A. reflexivity.
  - rewrite (vs_edge _ A). reflexivity.
Qed.

Lemma recv_marks_ok nb cell : recv_marks c nb cell = Some (mkV nb cell).
Proof.
  unfold recv_marks, mkV. destruct (away c cell) eqn:A.
  - rewrite foreach_intersect, <- (vs_away _ A). reflexivity.
  - rewrite (vs_edge _ A). reflexivity.
Qed.

Lemma num_remote_ok loc cell : num_remote c loc cell = Some (Z.of_nat (length (filter (fun v => negb (rcontains loc v)) (vs cell)))).
Proof.
  unfold num_remote. destruct (away c cell) eqn:A.
  - f_equal. rewrite <- !foreach_col_length, foreach_intersect, (vs_away _ A).
    pose proof (filter_lengths (rcontains loc) (foreach_col cell)). lia.
  - rewrite (vs_edge _ A). reflexivity.
Qed.

Lemma local_info_ok lay loc fr cell : local_cell_info lay c loc fr cell =
  Some (map (fun p => (rindex lay cell p, rindex lay fr (home c cell p))) (filter (fun p => rcontains loc (home c cell p)) (foreach_col cell))).
Proof.
  unfold local_cell_info. destruct (away c cell) eqn:A.
  - rewrite foreach_intersect. unfold home. unfold away in A. rewrite A. reflexivity.
  - rewrite (vs_edge _ A). f_equal. unfold vs. rewrite combine_map_self, filter_map, map_map. reflexivity.
Qed.

Lemma range_step (add : range -> range -> option range) (mk : range -> list (tup Z)) (cells : list range) :
  (forall R S cell, hull R S -> exists R', add R cell = Some R' /\ hull R' (fun p => S p \/ In p (mk cell))) ->
  exists R, ofoldl add cells (make_empty_range (c_nd c)) = Some R /\ hull R (fun p => marked mk cells p = true).
Proof.
  intros H.
  assert (X : forall R S, hull R S -> exists R', ofoldl add cells R = Some R' /\ hull R' (fun p => S p \/ marked mk cells p = true)).
  { induction cells as [|cell cells IH]; intros R S HR.
    - exists R. split; [reflexivity|]. eapply hull_ext; [|exact HR]. intros p. cbn. intuition congruence.
    - destruct (H R S cell HR) as (R1 & E1 & H1). cbn [ofoldl]. rewrite E1. destruct (IH R1 _ H1) as (R' & E' & H').
      exists R'. split; [exact E'|]. eapply hull_ext; [|exact H']. intros p. cbn beta. unfold marked. cbn [existsb]. rewrite orb_true_iff, memt_In. tauto. }
  destruct (X (make_empty_range (c_nd c)) (fun _ => False)) as (R & E & HR).
  { split; [tauto|]. intros s _ p Hp. exfalso. apply (proj1 (rempty_spec _) (make_empty_range_empty _ Hnd) p Hp). }
  exists R. split; [exact E|]. eapply hull_ext; [|exact HR]. tauto.
Qed.

Lemma send_range_ok loc nb cells : exists R, ofoldl (send_range_add c loc nb) cells (make_empty_range (c_nd c)) = Some R /\
  hull R (fun p => marked (mkS loc nb) cells p = true).
Proof.
  apply range_step. intros R S cell HR. unfold send_range_add. destruct (away c cell) eqn:A.
  - rewrite overlap_vs by exact A. unfold mkS. destruct (existsb _ _).
    + eexists. split; [reflexivity|]. rewrite (vs_away _ A), <- foreach_intersect.
      eapply hull_ext; [|apply hull_union; [exact HR|apply hull_range]]. intros p. cbn beta. rewrite foreach_col_In. tauto.
    + eexists. split; [reflexivity|]. eapply hull_ext; [|exact HR]. cbn. tauto.
  - rewrite (vs_edge _ A). unfold mkS. destruct (existsb _ _).
    + eexists. split; [reflexivity|]. apply hull_extend, HR.
    + eexists. split; [reflexivity|]. eapply hull_ext; [|exact HR]. cbn. tauto.
Qed.

Lemma recv_range_ok nb cells : exists R, ofoldl (recv_range_add c nb) cells (make_empty_range (c_nd c)) = Some R /\
  hull R (fun p => marked (mkV nb) cells p = true).
Proof.
  apply range_step. intros R S cell HR. unfold recv_range_add, mkV. destruct (away c cell) eqn:A.
  - eexists. split; [reflexivity|]. rewrite (vs_away _ A), <- foreach_intersect.
    eapply hull_ext; [|apply hull_union; [exact HR|apply hull_range]]. intros p. cbn beta. rewrite foreach_col_In. tauto.
  - rewrite (vs_edge _ A). eexists. split; [reflexivity|]. apply hull_extend, HR.
Qed.

Lemma marked_In mk cells cell p : In cell cells -> In p (mk cell) -> marked mk cells p = true.
Proof. intros I P. unfold marked. apply existsb_exists. exists cell. split; [exact I|apply memt_In, P]. Qed.

Lemma marked_iff mk cells p : marked mk cells p = true <-> exists cell, In cell cells /\ In p (mk cell).
Proof.
  unfold marked. rewrite existsb_exists. split; intros (x & I & P); exists x; split; auto; apply memt_In, P.
Qed.

(** The points of the hull of a set, in order, are those of the domain. *)
Lemma hull_points R (P : tup Z -> bool) : hull R (fun p => P p = true) -> (forall p, P p = true -> pt_in G p) ->
  filter P (foreach_col R) = filter P (foreach_col G).
Proof.
  intros HR HG. destruct (rempty R) eqn:E.
  - pose proof (proj1 (hull_empty _ _ HR) E) as X.
    rewrite !filter_none; [reflexivity| |]; intros p _; specialize (X p); cbn beta in X; destruct (P p); congruence.
  - rewrite (foreach_subset R G E) by (apply HR, HG).
    induction (foreach_col G) as [|p l IH]; [reflexivity|]. cbn [filter]. destruct (rcontains R p) eqn:C; cbn [filter].
    + destruct (P p); [f_equal|]; exact IH.
    + destruct (P p) eqn:Q; [|exact IH]. apply HR, rcontains_spec in Q. congruence.
Qed.

Lemma hull_filter_empty R (P : tup Z -> bool) : hull R (fun p => P p = true) -> (forall p, P p = true -> pt_in G p) ->
  (rempty R = true <-> filter P (foreach_col G) = []).
Proof.
  intros HR HG. rewrite (hull_empty _ _ HR). split.
  - intros X. apply filter_none. intros p _. specialize (X p). destruct (P p); congruence.
  - intros X p Hp. assert (I : In p (filter P (foreach_col G))) by (apply filter_In; split; [apply foreach_col_In, HG, Hp|exact Hp]).
    rewrite X in I. exact I.
Qed.

Definition pts_of (mk : range -> list (tup Z)) (cells : list range) : list (tup Z) := filter (marked mk cells) (foreach_col G).

Lemma send_to_ok loc cells q nb : pt_subset loc G ->
  send_to c loc cells (q, nb) = Some (match pts_of (mkS loc nb) cells with [] => [] | ps => [(q, ps)] end).
Proof.
  intros HG. unfold send_to. cbn [fst snd]. destruct (send_range_ok loc nb cells) as (R & -> & HR).
  assert (HP : forall p, marked (mkS loc nb) cells p = true -> pt_in G p).
  { intros p Hp. apply marked_iff in Hp as (cell & _ & Hp). unfold mkS in Hp. destruct (existsb _ _); [|destruct Hp].
    apply filter_In in Hp as [_ Hp]. apply HG, rcontains_spec, Hp. }
  pose proof (hull_filter_empty R _ HR HP) as E. unfold pts_of. destruct (rempty R).
  - rewrite (proj1 E eq_refl). reflexivity.
  - rewrite (mask_ok _ (mkS loc nb)); [|intros; apply send_marks_ok|intros cell p I P; apply (proj1 HR); eapply marked_In; eauto].
    rewrite set_points_ok, (hull_points R _ HR HP).
    destruct (filter _ (foreach_col G)); [|reflexivity]. destruct E as [_ E]. discriminate (E eq_refl).
Qed.

Definition recv_good (q : nat) (nb : range) (cells : list range) (v : crecv) : Prop :=
  v_rank v = q /\ v_num v = Z.of_nat (length (pts_of (mkV nb) cells)) /\ v_local v = nb /\
  forall cell u, In cell cells -> In u (vs cell) -> pt_in nb u ->
    exists j, vread (v_idx v) (rindex ColMajor (v_range v) u) = Some (Z.of_nat j) /\ nth_error (pts_of (mkV nb) cells) j = Some u.

Lemma recv_from_ok cells q nb : pt_subset nb G -> exists v,
  recv_from c cells (q, nb) = Some (match pts_of (mkV nb) cells with [] => [] | _ => [v] end) /\ recv_good q nb cells v.
Proof.
  intros HG. unfold recv_from. cbn [fst snd]. destruct (recv_range_ok nb cells) as (R & -> & HR).
  assert (HP : forall p, marked (mkV nb) cells p = true -> pt_in G p).
  { intros p Hp. apply marked_iff in Hp as (cell & _ & Hp). apply filter_In in Hp as [_ Hp]. apply HG, rcontains_spec, Hp. }
  pose proof (hull_filter_empty R _ HR HP) as E. pose proof (hull_points R _ HR HP) as EP.
  exists (CR q (num_set (map (marked (mkV nb) cells) (foreach_col R))) nb R (number_set 0 (map (marked (mkV nb) cells) (foreach_col R)))).
  split.
  - unfold pts_of. destruct (rempty R).
    + rewrite (proj1 E eq_refl). reflexivity.
    + rewrite (mask_ok _ (mkV nb)); [|intros; apply recv_marks_ok|intros cell p I P; apply (proj1 HR); eapply marked_In; eauto].
      destruct (filter _ (foreach_col G)); [|reflexivity]. destruct E as [_ E]. discriminate (E eq_refl).
  - split; [reflexivity|]. cbn [v_num v_local v_idx v_range]. split; [rewrite num_set_ok, EP; reflexivity|]. split; [reflexivity|].
    intros cell u I U Hu. assert (M : marked (mkV nb) cells u = true).
    { eapply marked_In; [exact I|]. apply filter_In. split; [exact U|apply rcontains_spec, Hu]. }
    assert (HRu : pt_in R u) by (apply (proj1 HR), M). pose proof (rindex_bounds ColMajor R u HRu).
    destruct (number_set_ok (marked (mkV nb) cells) (foreach_col R) 0 _ u (foreach_index_nth R u HRu) M) as (j & E1 & E2).
    exists j. rewrite <- (Z2Nat.id (rindex ColMajor R u)) by lia. rewrite vread_nth, E1. split; [f_equal; lia|].
    unfold pts_of. rewrite <- EP. exact E2.
Qed.

Lemma ofoldl_filter {S A} (f : S -> A -> option S) (p : A -> bool) l : forall s,
  ofoldl f (filter p l) s = ofoldl (fun s a => if p a then f s a else Some s) l s.
Proof.
  induction l as [|a l IH]; intros s; [reflexivity|]. cbn [filter ofoldl]. destruct (p a); cbn [ofoldl]; [|apply IH].
  destruct (f s a); [apply IH|reflexivity].
Qed.

Lemma ofoldl_map {S A B} (f : S -> B -> option S) (g : A -> B) l : forall s, ofoldl f (map g l) s = ofoldl (fun s a => f s (g a)) l s.
Proof. induction l as [|a l IH]; intros s; [reflexivity|]. cbn. destruct (f s (g a)); [apply IH|reflexivity]. Qed.

Lemma ofoldl_ext {S A} (f g : S -> A -> option S) l : (forall s a, In a l -> f s a = g s a) -> forall s, ofoldl f l s = ofoldl g l s.
Proof.
  induction l as [|a l IH]; intros H s; [reflexivity|]. cbn. rewrite H by apply in_eq. destruct (g s a); [|reflexivity].
  apply IH. auto using in_cons.
Qed.

Notation ix cell p := (rindex ColMajor cell p).

Definition note_one (cell : range) (ir : Z) (v : crecv) (arr : list (Z * Z)) (p : tup Z) : option (list (Z * Z)) :=
  if rcontains (v_local v) (home c cell p)
  then let! b := vread (v_idx v) (ix (v_range v) (home c cell p)) in vwrite arr (ix cell p) (ir, b)
  else Some arr.

Lemma zseq_index cell : zseq 0 (length (foreach_col cell)) = map (rindex ColMajor cell) (foreach_col cell).
Proof. rewrite rindex_foreach. f_equal. pose proof (foreach_col_length cell). lia. Qed.

Lemma note_recv_eq cell arr ir v : note_recv c cell arr (ir, v) = ofoldl (note_one cell ir v) (foreach_col cell) arr.
Proof.
  unfold note_recv. cbn [fst snd]. destruct (away c cell) eqn:A.
  - rewrite foreach_intersect, ofoldl_filter. apply ofoldl_ext. intros s p _. unfold note_one, home. unfold away in A. rewrite A. reflexivity.
  - rewrite (vs_edge _ A). unfold vs. rewrite map_length, zseq_index, combine_maps, ofoldl_map. reflexivity.
Qed.

Lemma note_recv_ok cell ir v :
  (forall u, In u (vs cell) -> pt_in (v_local v) u -> exists b, vread (v_idx v) (ix (v_range v) u) = Some b) ->
  forall arr, rcount cell <= Z.of_nat (length arr) ->
  exists arr', note_recv c cell arr (ir, v) = Some arr' /\ length arr' = length arr /\ forall p, pt_in cell p ->
    (pt_in (v_local v) (home c cell p) /\ exists b, vread (v_idx v) (ix (v_range v) (home c cell p)) = Some b /\ vread arr' (ix cell p) = Some (ir, b)) \/
    (~ pt_in (v_local v) (home c cell p) /\ vread arr' (ix cell p) = vread arr (ix cell p)).
Proof.
  intros Hv arr Ha. rewrite note_recv_eq.
  assert (X : forall l, (forall p, In p l -> pt_in cell p) -> NoDup l -> forall arr, rcount cell <= Z.of_nat (length arr) -> exists arr', ofoldl (note_one cell ir v) l arr = Some arr' /\ length arr' = length arr /\
    forall p, pt_in cell p ->
    (In p l /\ pt_in (v_local v) (home c cell p) /\ exists b, vread (v_idx v) (ix (v_range v) (home c cell p)) = Some b /\ vread arr' (ix cell p) = Some (ir, b)) \/
    (~ (In p l /\ pt_in (v_local v) (home c cell p)) /\ vread arr' (ix cell p) = vread arr (ix cell p))).
  { clear arr Ha. induction l as [|q l IH]; intros Hl ND arr Ha.
    - exists arr. split; [reflexivity|]. split; [reflexivity|]. intros p _. right. split; [intros [[] _]|reflexivity].
    - inversion ND as [|? ? Nq ND']; subst. cbn [ofoldl]. unfold note_one at 1. pose proof (Hl q (in_eq _ _)) as Hq.
      pose proof (rindex_bounds ColMajor cell q Hq) as B.
      destruct (rcontains (v_local v) (home c cell q)) eqn:C.
      + apply rcontains_spec in C. destruct (Hv (home c cell q)) as (b & Eb); [apply vs_In; eauto|exact C|]. rewrite Eb.
        destruct (vwrite_spec arr (ix cell q) (ir, b) ltac:(lia)) as (a1 & -> & L1 & R1).
        destruct (IH (fun p I => Hl p (in_cons _ _ _ I)) ND' a1 ltac:(lia)) as (arr' & E & L' & R'). exists arr'. split; [exact E|]. split; [lia|].
        intros p Hp. destruct (R' p Hp) as [(I & K & b' & E1 & E2)|(K & E2)].
        * left. split; [right; exact I|]. split; [exact K|]. eauto.
        * rewrite R1 in E2. destruct (Z.eqb_spec (ix cell p) (ix cell q)) as [Q|Q].
          -- apply rindex_inj in Q; auto. subst q. left. split; [left; reflexivity|]. split; [exact C|]. eauto.
          -- right. split; [|exact E2]. intros [[->|I] K']; [auto|]. apply K. auto.
      + destruct (IH (fun p I => Hl p (in_cons _ _ _ I)) ND' arr Ha) as (arr' & E & L' & R'). exists arr'. split; [exact E|]. split; [lia|].
        intros p Hp. destruct (R' p Hp) as [(I & K & b' & E1 & E2)|(K & E2)].
        * left. split; [right; exact I|]. split; [exact K|]. eauto.
        * right. split; [|exact E2]. intros [[->|I] K']; [apply rcontains_spec in K'; congruence|]. apply K. auto. }
  destruct (X (foreach_col cell) (fun p => proj1 (foreach_col_In cell p)) (foreach_col_NoDup cell) arr Ha) as (arr' & E & L' & R').
  exists arr'. split; [exact E|]. split; [exact L'|]. intros p Hp. apply foreach_col_In in Hp as Ip.
  destruct (R' p Hp) as [(_ & K & E')|(K & E')]; [left; auto|right; split; auto].
Qed.

Lemma note_all_ok cell ivs :
  (forall iv u, In iv ivs -> In u (vs cell) -> pt_in (v_local (snd iv)) u -> exists b, vread (v_idx (snd iv)) (ix (v_range (snd iv)) u) = Some b) ->
  forall arr, rcount cell <= Z.of_nat (length arr) ->
  exists arr', ofoldl (note_recv c cell) ivs arr = Some arr' /\ length arr' = length arr /\ forall p, pt_in cell p ->
    (exists iv b, In iv ivs /\ pt_in (v_local (snd iv)) (home c cell p) /\ vread (v_idx (snd iv)) (ix (v_range (snd iv)) (home c cell p)) = Some b /\
       vread arr' (ix cell p) = Some (fst iv, b)) \/
    ((forall iv, In iv ivs -> ~ pt_in (v_local (snd iv)) (home c cell p)) /\ vread arr' (ix cell p) = vread arr (ix cell p)).
Proof.
  induction ivs as [|[ir v] ivs IH]; intros Hv arr Ha.
  - exists arr. split; [reflexivity|]. split; [reflexivity|]. intros p _. right. split; [intros iv []|reflexivity].
  - cbn [ofoldl]. destruct (note_recv_ok cell ir v (fun u => Hv (ir, v) u (in_eq _ _)) arr Ha) as (a1 & -> & L1 & R1).
    destruct (IH (fun iv u I => Hv iv u (in_cons _ _ _ I)) a1 ltac:(lia)) as (arr' & E & L' & R').
    exists arr'. split; [exact E|]. split; [lia|]. intros p Hp. destruct (R' p Hp) as [(iv & b & I & K & E1 & E2)|(K & E2)].
    + left. exists iv, b. split; [right; exact I|]. auto.
    + rewrite E2. destruct (R1 p Hp) as [(K1 & b & E1 & E3)|(K1 & E3)].
      * left. exists (ir, v), b. split; [left; reflexivity|]. auto.
      * right. split; [|exact E3]. intros iv [<-|I]; [exact K1|apply K, I].
Qed.

(** The entries of a cell name, for each vertex that is not local, the place of its value. *)
Definition rem_ok (loc : range) (recvs : list crecv) (cell : range) (rem : list (Z * (Z * Z))) : Prop :=
  (forall x, In x rem -> exists p ir v j, x = (ix cell p, (ir, j)) /\ pt_in cell p /\ ~ pt_in loc (home c cell p) /\
     vread recvs ir = Some v /\ pt_in (v_local v) (home c cell p) /\ vread (v_idx v) (ix (v_range v) (home c cell p)) = Some j) /\
  (forall p, pt_in cell p -> ~ pt_in loc (home c cell p) -> exists x, In x rem /\ fst x = ix cell p).

Lemma remote_ok loc maxv recvs cell : rcount cell <= maxv ->
  (forall v u, In v recvs -> In u (vs cell) -> pt_in (v_local v) u -> exists b, vread (v_idx v) (ix (v_range v) u) = Some b) ->
  (forall v u, In v recvs -> pt_in (v_local v) u -> ~ pt_in loc u) ->
  (forall u, In u (vs cell) -> ~ pt_in loc u -> exists v, In v recvs /\ pt_in (v_local v) u) ->
  exists rem, remote_vertices c loc maxv recvs cell = Some rem /\ rem_ok loc recvs cell rem.
Proof.
  intros Hm H4 H3 H1. unfold remote_vertices. rewrite num_remote_ok.
  pose proof (foreach_col_length cell) as Lc.
  assert (IV : forall iv, In iv (combine (zseq 0 (length recvs)) recvs) <-> vread recvs (fst iv) = Some (snd iv) /\ 0 <= fst iv).
  { intros [i v]. rewrite combine_zseq, Z.sub_0_r. reflexivity. }
  destruct (note_all_ok cell (combine (zseq 0 (length recvs)) recvs)) with (arr := repeat (-1, -1) (Z.to_nat maxv)) as (arr & -> & La & Ra).
  { intros iv u I. apply IV in I as [I _]. apply vread_In in I. apply H4, I. }
  { rewrite repeat_length. lia. }
  rewrite repeat_length in La.
  set (x := fun p => match vread arr (ix cell p) with Some y => y | None => (-1, -1) end).
  assert (Ex : forall p, pt_in cell p -> vread arr (ix cell p) = Some (x p)).
  { intros p Hp. unfold x. pose proof (rindex_bounds ColMajor cell p Hp). destruct (vread_ge arr (ix cell p)) as (y & ->); [lia|reflexivity]. }
  assert (EL : list_remote cell arr = Some (map (fun p => (ix cell p, x p)) (filter (fun p => 0 <=? fst (x p)) (foreach_col cell)))).
  { unfold list_remote. rewrite zseq_index, omap_of_map, (omap_map _ (fun p => (ix cell p, x p))).
    - f_equal. rewrite filter_map. reflexivity.
    - intros p Hp. rewrite Ex; [reflexivity|]. apply foreach_col_In, Hp. }
  assert (EF : filter (fun p => 0 <=? fst (x p)) (foreach_col cell) = filter (fun p => negb (rcontains loc (home c cell p))) (foreach_col cell)).
  { apply filter_ext_in'. intros p Hp. apply foreach_col_In in Hp. specialize (Ex p Hp).
    destruct (Ra p Hp) as [(iv & b & I & K & _ & E)|(K & E)]; rewrite E in Ex.
    - injection Ex as <-. apply IV in I as [I I0]. cbn [fst]. destruct (rcontains loc (home c cell p)) eqn:C; cbn [negb].
      + apply rcontains_spec in C. exfalso. apply vread_In in I. apply (H3 _ _ I K C).
      + apply Z.leb_le, I0.
    - pose proof (rindex_bounds ColMajor cell p Hp). rewrite repeat_read in Ex by lia. injection Ex as <-. cbn [fst].
      destruct (rcontains loc (home c cell p)) eqn:C; cbn [negb]; [reflexivity|]. exfalso.
      destruct (H1 (home c cell p)) as (v & I & Kv); [apply vs_In; eauto|rewrite <- rcontains_spec, C; discriminate|].
      apply In_vread in I as (i & Ei). pose proof (vread_lt _ _ _ Ei). apply (K (i, v)); [|exact Kv]. apply IV. cbn. split; [exact Ei|lia]. }
  rewrite EL, EF, map_length. unfold vs. rewrite filter_map, map_length, Z.leb_refl, Z.sub_diag. cbn [Z.to_nat repeat]. rewrite app_nil_r.
  eexists. split; [reflexivity|]. split.
  - intros y Hy. apply in_map_iff in Hy as (p & <- & Ip). rewrite <- EF in Ip. assert (Ip' := Ip). rewrite EF in Ip'. apply filter_In in Ip as [Ip Px].
    apply filter_In in Ip' as [_ Nl]. apply foreach_col_In in Ip. specialize (Ex p Ip).
    assert (NL : ~ pt_in loc (home c cell p)) by (rewrite <- rcontains_spec; destruct (rcontains _ _); [discriminate|congruence]).
    destruct (Ra p Ip) as [(iv & b & I & K & E1 & E)|(K & E)]; rewrite E in Ex.
    + injection Ex as X. rewrite <- X. apply IV in I as [I _]. exists p, (fst iv), (snd iv), b. auto 10.
    + pose proof (rindex_bounds ColMajor cell p Ip). rewrite repeat_read in Ex by lia. injection Ex as X. rewrite <- X in Px. discriminate.
  - intros p Hp NL. exists (ix cell p, x p). split; [|reflexivity]. apply (in_map (fun p => (ix cell p, x p))). apply filter_In. split; [apply foreach_col_In, Hp|].
    destruct (rcontains loc (home c cell p)) eqn:C; [|reflexivity]. apply rcontains_spec in C. tauto.
Qed.

(** ** Assembling the values at the vertices *)

Lemma ofoldl_nest {S A B} (f : S -> A -> B -> option S) (la : list A) (lb : list B) : forall s,
  ofoldl (fun s a => ofoldl (fun s b => f s a b) lb s) la s = ofoldl (fun s ab => f s (fst ab) (snd ab)) (flat_map (fun a => map (pair a) lb) la) s.
Proof.
  induction la as [|a la IH]; intros s; [reflexivity|]. cbn [ofoldl flat_map]. rewrite ofoldl_app, ofoldl_map. cbn [fst snd].
  destruct (ofoldl _ lb s); [apply IH|reflexivity].
Qed.

Section Cell.
Context {V : Type}.
Variables (lay : layout) (cnt maxv : Z) (m : Z -> tup Z -> V) (cell : range).
Hypothesis Hmax : rcount cell <= maxv.

Definition holds (vv : list V) (k : Z) (p : tup Z) : Prop := buf_read cnt maxv vv k (rindex lay cell p) = Some (m k (home c cell p)).
Definition put (vv : list V) (k : Z) (p : tup Z) : option (list V) := buf_write cnt maxv vv k (rindex lay cell p) (m k (home c cell p)).

Lemma put_ok vv k p : 0 <= k < cnt -> pt_in cell p -> Z.of_nat (length vv) = cnt * maxv ->
  exists vv', put vv k p = Some vv' /\ length vv' = length vv /\ holds vv' k p /\ forall k' p', pt_in cell p' -> holds vv k' p' -> holds vv' k' p'.
Proof.
  intros Hk Hp Lv. pose proof (rindex_bounds lay cell p Hp) as B. unfold put, holds, buf_write, buf_read.
  replace ((0 <=? k) && (k <? cnt) && (0 <=? rindex lay cell p) && (rindex lay cell p <? maxv)) with true by lia.
  destruct (vwrite_spec vv (k * maxv + rindex lay cell p) (m k (home c cell p))) as (vv' & -> & L' & R');
    [assert ((k + 1) * maxv <= cnt * maxv) by (apply Z.mul_le_mono_nonneg_r; lia); assert (0 <= k * maxv) by (apply Z.mul_nonneg_nonneg; lia); lia|].
  exists vv'. split; [reflexivity|]. split; [exact L'|]. split; [rewrite R', Z.eqb_refl; reflexivity|].
  intros k' p' Hp' H. destruct (_ && _ && _ && _) eqn:C in H; [|discriminate]. rewrite C, R'.
  destruct (Z.eqb_spec (k' * maxv + rindex lay cell p') (k * maxv + rindex lay cell p)) as [Q|Q]; [|exact H].
  pose proof (rindex_bounds lay cell p' Hp') as B'. destruct (buf_index [] maxv k' k (rindex lay cell p') (rindex lay cell p)) as [-> Q']; [lia|lia|exact Q|].
  apply rindex_inj in Q'; auto. subst. reflexivity.
Qed.

Lemma puts_ok {A} (f : list V -> A -> option (list V)) l :
  (forall a, In a l -> exists k p, 0 <= k < cnt /\ pt_in cell p /\ forall vv, f vv a = put vv k p) ->
  forall vv, Z.of_nat (length vv) = cnt * maxv -> exists vv', ofoldl f l vv = Some vv' /\ length vv' = length vv /\
    (forall k p, pt_in cell p -> holds vv k p -> holds vv' k p) /\
    (forall a k p, In a l -> 0 <= k < cnt -> pt_in cell p -> (forall vv, f vv a = put vv k p) -> holds vv' k p).
Proof.
  induction l as [|a l IH]; intros H vv Lv.
  - exists vv. split; [reflexivity|]. split; [reflexivity|]. split; [auto|]. intros a k p [].
  - destruct (H a (in_eq _ _)) as (k & p & Hk & Hp & E). destruct (put_ok vv k p Hk Hp Lv) as (v1 & E1 & L1 & G1 & K1).
    destruct (IH (fun a I => H a (in_cons _ _ _ I)) v1 ltac:(lia)) as (v2 & E2 & L2 & K2 & G2).
    exists v2. cbn [ofoldl]. rewrite E, E1. split; [exact E2|]. split; [lia|]. split; [auto|].
    intros b k' p' [<-|I] Hk' Hp' Eb; [|eapply G2; eauto]. apply K2; [exact Hp'|].
    destruct (put_ok vv k' p' Hk' Hp' Lv) as (v1' & E1' & _ & G1' & _). rewrite <- Eb, E, E1 in E1'. injection E1' as ->. exact G1'.
Qed.

Variables (loc fr : range) (field : list (list V)) (recvs : list crecv) (bufs : list (list V)) (rem : list (Z * (Z * Z))).
Hypothesis Hfield : has_values lay cnt loc fr field m.
Hypothesis Hrem : rem_ok loc recvs cell rem.
Hypothesis Hbufs : forall ir v, vread recvs ir = Some v -> exists b, vread bufs ir = Some b /\
  forall u j k, In u (vs cell) -> pt_in (v_local v) u -> vread (v_idx v) (ix (v_range v) u) = Some j -> 0 <= k < cnt ->
    buf_read cnt (v_num v) b k j = Some (m k u).
Hypothesis Hlay : lay = ColMajor \/ whole c loc cell.

Lemma assemble_ok vv : Z.of_nat (length vv) = cnt * maxv ->
  exists vv', assemble lay c cnt loc fr field maxv recvs bufs cell rem vv = Some vv' /\ length vv' = length vv /\
    forall k p, 0 <= k < cnt -> pt_in cell p -> holds vv' k p.
Proof.
  intros Lv. unfold assemble. rewrite local_info_ok, ofoldl_nest. destruct Hfield as (Lf & _ & Hf).
  assert (Fk : forall k, 0 <= k < cnt -> exists row, vread field k = Some row) by (intros k Hk; apply vread_ge; lia).
  assert (W1 : forall k p, 0 <= k < cnt -> pt_in loc (home c cell p) -> forall vv : list V,
    (let! v := vals_at field k (rindex lay fr (home c cell p)) in buf_write cnt maxv vv k (rindex lay cell p) v) = put vv k p).
  { intros k p Hk Hp v'. destruct (Fk k Hk) as (row & Er). unfold vals_at. rewrite Er, (Hf k row _ Er Hp). reflexivity. }
  destruct (puts_ok (fun vv ab => let! v := vals_at field (fst ab) (snd (snd ab)) in buf_write cnt maxv vv (fst ab) (fst (snd ab)) v)
    (flat_map (fun k => map (pair k) (map (fun p => (rindex lay cell p, rindex lay fr (home c cell p)))
       (filter (fun p => rcontains loc (home c cell p)) (foreach_col cell)))) (zseq 0 (Z.to_nat cnt)))) with (vv := vv) as (v1 & -> & L1 & _ & G1).
  { intros a Ha. apply in_flat_map in Ha as (k & Ik & Ha). apply kseq in Ik. rewrite map_map in Ha. apply in_map_iff in Ha as (p & <- & Ip).
    apply filter_In in Ip as [Ip Cp]. apply foreach_col_In in Ip. apply rcontains_spec in Cp. exists k, p. split; [exact Ik|]. split; [exact Ip|].
    cbn [fst snd]. intros v'. apply W1; auto. }
  { exact Lv. }
  assert (G1' : forall k p, 0 <= k < cnt -> pt_in cell p -> pt_in loc (home c cell p) -> holds v1 k p).
  { intros k p Hk Hp Hl. apply (G1 (k, (rindex lay cell p, rindex lay fr (home c cell p)))); auto.
    - apply in_flat_map. exists k. split; [apply kseq; exact Hk|]. apply in_map. apply (in_map (fun p => (rindex lay cell p, rindex lay fr (home c cell p)))).
      apply filter_In. split; [apply foreach_col_In, Hp|apply rcontains_spec, Hl].
    - cbn [fst snd]. intros v'. apply W1; auto. }
  clear G1. rewrite ofoldl_nest.
  assert (W2 : forall x k p, In x rem -> fst x = ix cell p -> pt_in cell p -> 0 <= k < cnt -> forall vv : list V,
     (let! v := vread recvs (fst (snd x)) in let! b := vread bufs (fst (snd x)) in let! w := buf_read cnt (v_num v) b k (snd (snd x)) in
      buf_write cnt maxv vv k (fst x) w) = put vv k p).
  { intros x k p Ix Fx Hp Hk v'. destruct (proj1 Hrem x Ix) as (p' & ir & v & j & -> & Hp' & Nl & Ev & Hv & Ej). cbn [fst snd] in *.
    apply rindex_inj in Fx; auto. subst p'. rewrite Ev. destruct (Hbufs ir v Ev) as (b & -> & Hb).
    rewrite (Hb (home c cell p) j k); auto; [|apply vs_In; eauto]. unfold put. destruct Hlay as [->|HW]; [reflexivity|]. exfalso. apply Nl, HW, Hp. }
  destruct (puts_ok (fun vv ab => let! v := vread recvs (fst (snd (fst ab))) in let! b := vread bufs (fst (snd (fst ab))) in
      let! w := buf_read cnt (v_num v) b (snd ab) (snd (snd (fst ab))) in buf_write cnt maxv vv (snd ab) (fst (fst ab)) w)
    (flat_map (fun x => map (pair x) (zseq 0 (Z.to_nat cnt))) rem)) with (vv := v1) as (v2 & -> & L2 & K2 & G2).
  { intros a Ha. apply in_flat_map in Ha as (x & Ix & Ha). apply in_map_iff in Ha as (k & <- & Ik). apply kseq in Ik.
    destruct (proj1 Hrem x Ix) as (p & ir & v & j & Ex & Hp & _). exists k, p. split; [exact Ik|]. split; [exact Hp|]. cbn [fst snd].
    intros v'. apply W2; auto. rewrite Ex. reflexivity. }
  { lia. }
  exists v2. split; [reflexivity|]. split; [lia|]. intros k p Hk Hp. destruct (rcontains loc (home c cell p)) eqn:C.
  - apply rcontains_spec in C. apply K2; auto.
  - assert (Nl : ~ pt_in loc (home c cell p)) by (rewrite <- rcontains_spec, C; discriminate).
    destruct (proj2 Hrem p Hp Nl) as (x & Ix & Fx). apply (G2 (x, k)); [|exact Hk|exact Hp|].
    + apply in_flat_map. exists x. split; [exact Ix|]. apply in_map, kseq, Hk.
    + cbn [fst snd]. intros v'. apply W2; auto.
Qed.

Definition row_of (red : Z -> range -> list V -> option V) (i : Z) : option (list V) :=
  omap (fun k => red i cell (map (fun p => m k (home c cell p)) (in_order lay cell))) (zseq 0 (Z.to_nat cnt)).

Lemma vals_ok vv k : 0 <= k < cnt -> (forall p, pt_in cell p -> holds vv k p) ->
  omap (buf_read cnt maxv vv k) (zseq 0 (Z.to_nat (rcount cell))) = Some (map (fun p => m k (home c cell p)) (in_order lay cell)).
Proof.
  intros Hk H. rewrite <- (rindex_order lay cell), omap_of_map. apply omap_map. intros p Hp. apply in_order_In in Hp. apply H, Hp.
Qed.
End Cell.

Section Loop.
Context {V : Type}.
Variables (lay : layout) (cnt : Z) (m : Z -> tup Z -> V) (red : Z -> range -> list V -> option V).
Variables (loc fr : range) (field : list (list V)) (cm : cmap) (bufs : list (list V)).
Hypothesis Hfield : has_values lay cnt loc fr field m.

Lemma collect_cell_ok vv out i cell rem : Z.of_nat (length vv) = cnt * cm_max cm -> rcount cell <= cm_max cm ->
  rem_ok loc (cm_recvs cm) cell rem ->
  (forall ir v, vread (cm_recvs cm) ir = Some v -> exists b, vread bufs ir = Some b /\
    forall u j k, In u (vs cell) -> pt_in (v_local v) u -> vread (v_idx v) (ix (v_range v) u) = Some j -> 0 <= k < cnt ->
      buf_read cnt (v_num v) b k j = Some (m k u)) ->
  (lay = ColMajor \/ whole c loc cell) ->
  (forall vals, Z.of_nat (length vals) = rcount cell -> red i cell vals <> None) ->
  exists vv' row, collect_cell lay c cnt red loc fr field cm bufs (vv, out) (i, (cell, rem)) = Some (vv', out ++ [row]) /\
    length vv' = length vv /\ row_of lay cnt m cell red i = Some row.
Proof.
  intros Lv Hm Hr Hb Hl Hred. unfold collect_cell. cbn [fst snd].
  destruct (assemble_ok lay cnt (cm_max cm) m cell Hm loc fr field (cm_recvs cm) bufs rem Hfield Hr Hb Hl vv Lv) as (v' & -> & L' & H').
  assert (D : exists row, row_of lay cnt m cell red i = Some row).
  { apply omap_total. intros k Hk. destruct (red i cell _) eqn:E; [eauto|]. exfalso. revert E. apply Hred. rewrite map_length. apply in_order_length. }
  destruct D as (row & D). exists v', row. split; [|auto]. unfold row_of in D.
  rewrite (omap_ext_in _ (fun k => red i cell (map (fun p => m k (home c cell p)) (in_order lay cell)))).
  - rewrite D. reflexivity.
  - intros k Hk. apply kseq in Hk. rewrite (vals_ok lay cnt (cm_max cm) m cell v' k Hk) by auto. reflexivity.
Qed.
End Loop.

(** ** The map of one rank *)

Definition some_pts (l : list (tup Z)) : bool := match l with [] => false | _ => true end.

Lemma sends_list (L : nat -> range) loc cells N : pt_subset loc G ->
  exists ss, omap (send_to c loc cells) (map (fun q => (q, L q)) N) = Some ss /\
    concat ss = map (fun q => (q, pts_of (mkS loc (L q)) cells)) (filter (fun q => some_pts (pts_of (mkS loc (L q)) cells)) N).
Proof.
  intros HG. induction N as [|q N (ss & E & C)]; [exists []; auto|]. cbn [map filter]. rewrite omap_cons, send_to_ok by exact HG. rewrite E.
  eexists. split; [reflexivity|]. cbn [concat]. rewrite C. destruct (pts_of (mkS loc (L q)) cells) eqn:P; cbn [some_pts app map]; rewrite ?P; reflexivity.
Qed.

Lemma recvs_list (L : nat -> range) cells N : (forall q, In q N -> pt_subset (L q) G) ->
  exists rs, omap (recv_from c cells) (map (fun q => (q, L q)) N) = Some rs /\
    map v_rank (concat rs) = filter (fun q => some_pts (pts_of (mkV (L q)) cells)) N /\
    forall v, In v (concat rs) -> recv_good (v_rank v) (L (v_rank v)) cells v.
Proof.
  induction N as [|q N IH]; intros HG; [exists []; split; [reflexivity|split; [reflexivity|intros v []]]|].
  destruct (IH (fun x I => HG x (in_cons _ _ _ I))) as (rs & E & M & Hg). cbn [map filter]. rewrite omap_cons.
  destruct (recv_from_ok cells q (L q) (HG q (in_eq _ _))) as (v & -> & Gv). rewrite E. assert (Ev : v_rank v = q) by apply Gv.
  eexists. split; [reflexivity|]. cbn [concat]. destruct (pts_of (mkV (L q)) cells) eqn:P; cbn [some_pts app map]; rewrite ?M, ?Ev; (split; [reflexivity|]).
  - exact Hg.
  - intros v' [<-|I]; [rewrite Ev; exact Gv|apply Hg, I].
Qed.

Lemma pts_of_nil mk : pts_of mk [] = [].
Proof. unfold pts_of. apply filter_none. reflexivity. Qed.

Lemma pts_of_In mk cells p : In p (pts_of mk cells) <-> pt_in G p /\ exists cell, In cell cells /\ In p (mk cell).
Proof. unfold pts_of. rewrite filter_In, foreach_col_In, marked_iff. reflexivity. Qed.

Lemma mkV_In nb cell p : In p (mkV nb cell) <-> In p (vs cell) /\ pt_in nb p.
Proof. unfold mkV. rewrite filter_In, rcontains_spec. reflexivity. Qed.

Lemma mkS_In loc nb cell p : In p (mkS loc nb cell) <-> In p (vs cell) /\ pt_in loc p /\ exists u, In u (vs cell) /\ pt_in nb u.
Proof.
  unfold mkS. destruct (existsb _ _) eqn:E.
  - apply existsb_exists in E as (u & Iu & Hu). apply rcontains_spec in Hu. rewrite filter_In, rcontains_spec. intuition eauto.
  - split; [intros []|]. intros (_ & _ & u & Iu & Hu). apply rcontains_spec in Hu.
    enough (existsb (rcontains nb) (vs cell) = true) by congruence. apply existsb_exists. eauto.
Qed.

Record map_good (L : nat -> range) (loc : range) (N : list nat) (cells : list range) (cm : cmap) : Prop := {
  mg_cells : cm_cells cm = cells;
  mg_max : cm_max cm = max_vertices cells;
  mg_sends : cm_sends cm = map (fun q => (q, pts_of (mkS loc (L q)) cells)) (filter (fun q => some_pts (pts_of (mkS loc (L q)) cells)) N);
  mg_recvs : map v_rank (cm_recvs cm) = filter (fun q => some_pts (pts_of (mkV (L q)) cells)) N;
  mg_recv : forall v, In v (cm_recvs cm) -> recv_good (v_rank v) (L (v_rank v)) cells v;
  mg_remote : Forall2 (fun cell rem => rem_ok loc (cm_recvs cm) cell rem) cells (cm_remote cm) }.

Lemma map_ok (L : nat -> range) loc N cells : pt_subset loc G -> (forall q, In q N -> pt_subset (L q) G) ->
  (forall q u, In q N -> pt_in (L q) u -> ~ pt_in loc u) ->
  (forall cell, In cell cells -> exists p, pt_in cell p) ->
  (forall cell u, In cell cells -> In u (vs cell) -> ~ pt_in loc u -> exists q, In q N /\ pt_in (L q) u) ->
  exists cm, collect_map c loc (map (fun q => (q, L q)) N) cells = Some cm /\ map_good L loc N cells cm.
Proof.
  intros HG HN HD HE HC. destruct (sends_list L loc cells N HG) as (ss & Es & Cs). destruct (recvs_list L cells N HN) as (rs & Er & Mr & Gr).
  unfold collect_map. destruct cells as [|c0 cells'].
  - eexists. split; [reflexivity|]. constructor; cbn; auto.
    + rewrite (filter_none (fun q => some_pts (pts_of (mkS loc (L q)) []))); [reflexivity|]. intros q _. rewrite pts_of_nil. reflexivity.
    + rewrite (filter_none (fun q => some_pts (pts_of (mkV (L q)) []))); [reflexivity|]. intros q _. rewrite pts_of_nil. reflexivity.
    + intros v [].
  - set (cells := c0 :: cells') in *. rewrite Es, Er.
    assert (HR : forall cell, In cell cells -> exists rem, remote_vertices c loc (max_vertices cells) (concat rs) cell = Some rem /\ rem_ok loc (concat rs) cell rem).
    { intros cell I. apply remote_ok.
      - apply max_vertices_ok; auto.
      - intros v u Iv Iu Hu. destruct (Gr v Iv) as (_ & _ & El & H). rewrite El in Hu. destruct (H cell u I Iu Hu) as (j & E & _). eauto.
      - intros v u Iv Hu. destruct (Gr v Iv) as (_ & _ & El & _). rewrite El in Hu. apply (HD (v_rank v)); [|exact Hu].
        apply (in_map v_rank) in Iv. rewrite Mr in Iv. apply filter_In in Iv. tauto.
      - intros u Iu Nu. destruct (HC cell u I Iu Nu) as (q & Iq & Hq).
        assert (Iv : In q (map v_rank (concat rs))).
        { rewrite Mr. apply filter_In. split; [exact Iq|]. assert (P : In u (pts_of (mkV (L q)) cells)) by (apply pts_of_In; split; [eapply HN; eauto|exists cell; split; [exact I|apply mkV_In; auto]]).
          destruct (pts_of (mkV (L q)) cells); [destruct P|reflexivity]. }
        apply in_map_iff in Iv as (v & Ev & Iv). exists v. split; [exact Iv|]. destruct (Gr v Iv) as (_ & _ & El & _). rewrite El, Ev. exact Hq. }
    destruct (omap_total (remote_vertices c loc (max_vertices cells) (concat rs)) cells) as (rems & ER).
    { intros cell I. destruct (HR cell I) as (rem & E & _). eauto. }
    rewrite ER. eexists. split; [reflexivity|]. constructor; cbn [cm_cells cm_max cm_sends cm_recvs cm_remote]; auto.
    apply omap_some in ER. revert ER HR. clear. generalize (max_vertices cells). generalize cells. clear. intros cells maxv F HR. induction F as [|a b l l' E F IH]; constructor.
    + destruct (HR a (in_eq _ _)) as (rem & E' & H). rewrite E in E'. injection E' as ->. exact H.
    + apply IH. auto using in_cons.
Qed.

(** ** Messages *)

Section Msgs.
Context {V : Type}.
Variables (lay : layout) (cnt : Z) (m : Z -> tup Z -> V).
Hypothesis Hcnt : 0 <= cnt.

Definition packed (ps : list (tup Z)) : list V := concat (map (fun k => map (m k) ps) (zseq 0 (Z.to_nat cnt))).

Lemma send_buffer_ok loc fr field ps : has_values lay cnt loc fr field m -> (forall p, In p ps -> pt_in loc p) ->
  send_buffer lay cnt fr field ps = Some (packed ps).
Proof.
  intros (Lf & _ & Hf) Hps. unfold send_buffer. rewrite (omap_map _ (fun k => map (m k) ps)); [reflexivity|].
  intros k Hk. apply kseq in Hk. destruct (vread_ge field k ltac:(lia)) as (row & E). rewrite E. apply omap_map. intros p Hp. apply (Hf k row p E), Hps, Hp.
Qed.

Lemma packed_length ps : Z.of_nat (length (packed ps)) = cnt * Z.of_nat (length ps).
Proof.
  unfold packed. destruct (concat_rows (length ps) (map (fun k => map (m k) ps) (zseq 0 (Z.to_nat cnt)))) as [L _].
  { intros row I. apply in_map_iff in I as (k & <- & _). apply map_length. }
  rewrite L, map_length, zseq_length. lia.
Qed.

Lemma packed_read ps k j u : 0 <= k < cnt -> nth_error ps j = Some u -> buf_read cnt (Z.of_nat (length ps)) (packed ps) k (Z.of_nat j) = Some (m k u).
Proof.
  intros Hk E. assert (Lj : (j < length ps)%nat) by (apply nth_error_Some; congruence). unfold buf_read.
  replace ((0 <=? k) && (k <? cnt) && (0 <=? Z.of_nat j) && (Z.of_nat j <? Z.of_nat (length ps))) with true by lia.
  unfold packed. destruct (concat_rows (length ps) (map (fun k => map (m k) ps) (zseq 0 (Z.to_nat cnt)))) as [_ R].
  { intros row I. apply in_map_iff in I as (k' & <- & _). apply map_length. }
  replace (k * Z.of_nat (length ps) + Z.of_nat j) with (Z.of_nat (Z.to_nat k * length ps + j)) by lia. rewrite vread_nth.
  rewrite (R _ (map (m k) ps)); [rewrite nth_error_map, E; reflexivity| |exact Lj].
  rewrite nth_error_map. rewrite zseq_nth by lia. cbn [option_map]. rewrite Z.add_0_l, Z2Nat.id by lia. reflexivity.
Qed.

Lemma loop_ok red loc fr field cm bufs : has_values lay cnt loc fr field m ->
  (forall ir v, vread (cm_recvs cm) ir = Some v -> exists b, vread bufs ir = Some b /\
    forall cell u j k, In cell (cm_cells cm) -> In u (vs cell) -> pt_in (v_local v) u -> vread (v_idx v) (ix (v_range v) u) = Some j -> 0 <= k < cnt ->
      buf_read cnt (v_num v) b k j = Some (m k u)) ->
  forall xs, (forall i cell rem, In (i, (cell, rem)) xs -> In cell (cm_cells cm) /\ rcount cell <= cm_max cm /\ rem_ok loc (cm_recvs cm) cell rem /\
     (lay = ColMajor \/ whole c loc cell) /\ (forall vals, Z.of_nat (length vals) = rcount cell -> red i cell vals <> None)) ->
  forall vv out, Z.of_nat (length vv) = cnt * cm_max cm -> exists vv' rows,
    ofoldl (collect_cell lay c cnt red loc fr field cm bufs) xs (vv, out) = Some (vv', out ++ rows) /\ length vv' = length vv /\
    omap (fun x => row_of lay cnt m (fst (snd x)) red (fst x)) xs = Some rows.
Proof.
  intros Hf Hb. induction xs as [|[i [cell rem]] xs IH]; intros Hx vv out Lv.
  - exists vv, []. rewrite app_nil_r. auto.
  - destruct (Hx i cell rem (in_eq _ _)) as (Ic & Hm & Hr & Hl & Hd). cbn [ofoldl].
    destruct (collect_cell_ok lay cnt m red loc fr field cm bufs Hf vv out i cell rem Lv Hm Hr) as (v1 & row & -> & L1 & E1); auto.
    { intros ir v Ev. destruct (Hb ir v Ev) as (b & Eb & Hb'). exists b. split; [exact Eb|]. intros u j k. apply Hb', Ic. }
    destruct (IH (fun i c r I => Hx i c r (in_cons _ _ _ I)) v1 (out ++ [row]) ltac:(lia)) as (v2 & rows & E2 & L2 & E3).
    exists v2, (row :: rows). rewrite <- app_assoc in E2. split; [exact E2|]. split; [lia|]. rewrite omap_cons. cbn [fst snd]. rewrite E1, E3. reflexivity.
Qed.
End Msgs.
End Rank.
