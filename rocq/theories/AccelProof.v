(** Proofs about the search of the cell of a fragment. *)
From Coq Require Import List ZArith QArith Qround Qminmax Bool Lia Lqa Sorting.Sorted.
From Verif Require Import TupleModel RangeModel Base RangeProof BoxModel BoxProof IndexerModel ArrayModel HashModel HashSpec HashProof HashGeoProof.
From Verif Require Import SendProof CellModel CellSpec CellProof AccelModel AccelSpec.
Import ListNotations.
Local Open Scope Z_scope.

(** ** The best of a list of cells *)
Section Best.
Variables (rnd : Q -> Q) (nd : nat) (cell_of : Z -> tup Z) (probe : tup Z -> option (tup Q)).

Definition init : best := Best None false None None.
Definition best_of (l : list Z) : best := fold_left (consider rnd nd probe) (map cell_of l) init.

Definition invariant (l : list Z) (s : best) : Prop :=
  match b_cell s with
  | None => b_inside s = false /\ b_outside s = None /\ forall j, In j l -> probe (cell_of j) = None
  | Some (cell, u) =>
      b_inside s = inside nd u /\
      (if inside nd u then b_center s = Some (center_distance rnd nd u) else b_outside s = Some (outside_distance rnd nd u)) /\
      exists i, In i l /\ cell = cell_of i /\ probe cell = Some u /\
        forall j v, In j l -> probe (cell_of j) = Some v -> better_cell rnd nd u v i j = false
  end.

Lemma best_invariant l : StronglySorted Z.lt l -> invariant l (best_of l).
Proof.
  induction l as [|j l IH] using rev_ind; intros HS.
  - unfold best_of, invariant. cbn. repeat split; intros j [].
  - assert (HL : StronglySorted Z.lt l /\ forall i, In i l -> i < j).
    { clear IH. induction l as [|a l IH]; [split; [constructor|intros i []]|]. cbn in HS. inversion HS as [|? ? S F]; subst.
      destruct (IH S) as [A B]. rewrite Forall_forall in F. split.
      - constructor; [exact A|]. apply Forall_forall. intros x Hx. apply F, in_or_app. auto.
      - intros i [<-|Hi]; [apply F, in_or_app; cbn; auto|auto]. }
    destruct HL as [HL HJ]. specialize (IH HL). unfold best_of in *. rewrite map_app, fold_left_app. cbn [map fold_left].
    set (s := fold_left (consider rnd nd probe) (map cell_of l) init) in *. clearbody s. unfold invariant in IH |- *.
    unfold consider. destruct (probe (cell_of j)) as [v|] eqn:EP.
    + assert (NEW : forall u i w, In i l \/ i = j -> (i = j -> u = v) ->
        (forall k t, In k l -> probe (cell_of k) = Some t -> better_cell rnd nd u t i k = false) ->
        (better_cell rnd nd u v i j = false) -> In w (l ++ [j]) -> forall t, probe (cell_of w) = Some t -> better_cell rnd nd u t i w = false).
      { intros u i w _ _ H1 H2 Hw t Ht. apply in_app_iff in Hw as [Hw|[<-|[]]]; [eauto|]. assert (t = v) by congruence. subst. exact H2. }
      destruct (b_cell s) as [[cell u]|] eqn:EC.
      * destruct IH as (I1 & I2 & i & Hi & -> & Pi & B). rewrite I1. specialize (HJ i Hi).
        destruct (inside nd u) eqn:IU, (inside nd v) eqn:IV.
        -- rewrite I2. cbn [q_below]. destruct (q_lt_spec (center_distance rnd nd v) (center_distance rnd nd u)) as [L|L].
           ++ cbn [b_cell b_inside b_center b_outside]. rewrite IV. split; [reflexivity|]. split; [reflexivity|].
              exists j. split; [apply in_or_app; cbn; auto|]. split; [reflexivity|]. split; [exact EP|].
              intros w t Hw Ht. refine (NEW v j w (or_intror eq_refl) (fun _ => eq_refl) _ _ Hw t Ht); [|apply better_irrefl].
              intros k t' Hk Hp. apply (better_trans rnd nd v u t' j i k); [|eauto].
              apply better_asym. unfold better_cell. rewrite IU, IV. destruct (q_lt_spec (center_distance rnd nd v) (center_distance rnd nd u)); [reflexivity|contradiction].
           ++ rewrite EC, IU. split; [exact I1|]. split; [exact I2|]. exists i. split; [apply in_or_app; auto|]. split; [reflexivity|]. split; [exact Pi|].
              intros w t Hw Ht. refine (NEW u i w (or_introl Hi) _ B _ Hw t Ht); [intros; lia|].
              unfold better_cell. rewrite IU, IV. destruct (q_lt_spec (center_distance rnd nd v) (center_distance rnd nd u)); [contradiction|].
              destruct (Z.ltb_spec j i); [lia|]. rewrite andb_false_r. reflexivity.
        -- rewrite EC, IU. split; [exact I1|]. split; [exact I2|]. exists i. split; [apply in_or_app; auto|]. split; [reflexivity|]. split; [exact Pi|].
           intros w t Hw Ht. refine (NEW u i w (or_introl Hi) _ B _ Hw t Ht); [intros; lia|]. unfold better_cell. rewrite IU, IV. reflexivity.
        -- cbn [b_cell b_inside b_center b_outside]. rewrite IV. split; [reflexivity|]. split; [reflexivity|].
           exists j. split; [apply in_or_app; cbn; auto|]. split; [reflexivity|]. split; [exact EP|].
           intros w t Hw Ht. refine (NEW v j w (or_intror eq_refl) (fun _ => eq_refl) _ _ Hw t Ht); [|apply better_irrefl].
           intros k t' Hk Hp. apply (better_trans rnd nd v u t' j i k); [|eauto].
           unfold better_cell. rewrite IU, IV. reflexivity.
        -- rewrite I2. cbn [q_below]. destruct (q_lt_spec (outside_distance rnd nd v) (outside_distance rnd nd u)) as [L|L].
           ++ cbn [b_cell b_inside b_center b_outside]. rewrite IV. split; [reflexivity|]. split; [reflexivity|].
              exists j. split; [apply in_or_app; cbn; auto|]. split; [reflexivity|]. split; [exact EP|].
              intros w t Hw Ht. refine (NEW v j w (or_intror eq_refl) (fun _ => eq_refl) _ _ Hw t Ht); [|apply better_irrefl].
              intros k t' Hk Hp. apply (better_trans rnd nd v u t' j i k); [|eauto].
              apply better_asym. unfold better_cell. rewrite IU, IV. destruct (q_lt_spec (outside_distance rnd nd v) (outside_distance rnd nd u)); [reflexivity|contradiction].
           ++ rewrite EC, IU. split; [exact I1|]. split; [exact I2|]. exists i. split; [apply in_or_app; auto|]. split; [reflexivity|]. split; [exact Pi|].
              intros w t Hw Ht. refine (NEW u i w (or_introl Hi) _ B _ Hw t Ht); [intros; lia|].
              unfold better_cell. rewrite IU, IV. destruct (q_lt_spec (outside_distance rnd nd v) (outside_distance rnd nd u)); [contradiction|].
              destruct (Z.ltb_spec j i); [lia|]. rewrite andb_false_r. reflexivity.
      * destruct IH as (I1 & I2 & I3). rewrite I1, I2. cbn [q_below].
        assert (ONE : forall w t, In w (l ++ [j]) -> probe (cell_of w) = Some t -> better_cell rnd nd v t j w = false).
        { intros w t Hw Ht. apply in_app_iff in Hw as [Hw|[<-|[]]]; [rewrite I3 in Ht by exact Hw; discriminate|].
          assert (t = v) by congruence. subst. apply better_irrefl. }
        destruct (inside nd v) eqn:IV; cbn [b_cell b_inside b_center b_outside]; rewrite IV; (split; [auto|]); (split; [reflexivity|]);
          exists j; (split; [apply in_or_app; cbn; auto|]); auto.
    + destruct (b_cell s) as [[cell u]|] eqn:EC.
      * destruct IH as (I1 & I2 & i & Hi & E & Pi & B). split; [exact I1|]. split; [exact I2|]. exists i. split; [apply in_or_app; auto|].
        split; [exact E|]. split; [exact Pi|]. intros w t Hw Ht. apply in_app_iff in Hw as [Hw|[<-|[]]]; [eauto|congruence].
      * destruct IH as (I1 & I2 & I3). split; [exact I1|]. split; [exact I2|]. intros w Hw. apply in_app_iff in Hw as [Hw|[<-|[]]]; [eauto|exact EP].
Qed.

Lemma best_ok l : StronglySorted Z.lt l ->
  match b_cell (best_of l) with
  | None => forall j, In j l -> probe (cell_of j) = None
  | Some (cell, u) => exists i, In i l /\ cell = cell_of i /\ probe cell = Some u /\
      forall j v, In j l -> probe (cell_of j) = Some v -> better_cell rnd nd u v i j = false
  end.
Proof.
  intros HS. pose proof (best_invariant l HS) as H. unfold invariant in H. destruct (b_cell (best_of l)) as [[cell u]|]; [apply H|apply H].
Qed.
End Best.

(** ** The tree *)

Lemma num_bins_pos rnd nd scale cs n : num_bins rnd nd scale cs = Some n -> forall d, (d < 3)%nat -> 1 <= tget n d.
Proof.
  unfold num_bins. destruct (1 <? Z.of_nat (length cs)).
  - intros H d Hd. pose proof (tmake_opt_some _ _ H d Hd) as E. cbn beta in E. destruct (Nat.ltb d nd).
    + cbn zeta in E. destruct (Qeq_bool _ 0); [discriminate|]. injection E as <-. lia.
    + injection E as <-. lia.
  - intros [= <-] d Hd. destruct d as [|[|[|d]]]; cbn; lia.
Qed.

Lemma fork_dim_lt rnd nd b : (nd <= 3)%nat -> (fork_dim rnd nd b < 3)%nat.
Proof.
  intros Hnd. unfold fork_dim. assert (G : forall l s, (forall d, In d l -> (d < 3)%nat) -> (s < 3)%nat ->
    (fold_left (fun s d => if qlt (bsize rnd b s) (bsize rnd b d) then d else s) l s < 3)%nat).
  { induction l as [|a l IH]; intros s Hl Hs; cbn [fold_left]; [exact Hs|]. apply IH; [intros; apply Hl; cbn; auto|].
    destruct (qlt _ _); [apply Hl; cbn; auto|exact Hs]. }
  apply G; [|lia]. intros d Hd. apply in_seq in Hd. lia.
Qed.

Lemma box_in_d b x d : (d < 3)%nat -> box_in b x -> (tget (bb b) d <= tget x d <= tget (be b) d)%Q.
Proof. intros Hd H. unfold box_in in H. destruct d as [|[|[|d]]]; cbn [tget]; [..|lia]; tauto. Qed.

Lemma filter_pairs_sorted (f : Z * box -> bool) cs : StronglySorted Z.lt (map fst cs) -> StronglySorted Z.lt (map fst (filter f cs)).
Proof.
  induction cs as [|ic cs IH]; intros H; [exact H|]. cbn [map] in H. inversion H as [|? ? S F]; subst. cbn [filter].
  destruct (f ic); [|auto]. cbn [map]. constructor; [auto|]. apply Forall_forall. intros x Hx.
  rewrite Forall_forall in F. apply F. apply in_map_iff in Hx as (y & <- & Hy). apply filter_In in Hy as [Hy _]. apply in_map, Hy.
Qed.

Lemma sorted_nth l : StronglySorted Z.lt l -> forall i j x y, vread l i = Some x -> vread l j = Some y -> i < j -> x < y.
Proof.
  induction l as [|a l IH]; intros H i j x y Hi Hj L.
  - apply vread_In in Hi. contradiction.
  - inversion H as [|? ? S F]; subst. pose proof (vread_lt _ _ _ Hi) as Bi. pose proof (vread_lt _ _ _ Hj) as Bj.
    unfold vread in Hi, Hj. destruct (Z.ltb_spec i 0); [lia|]. destruct (Z.ltb_spec j 0); [lia|].
    destruct (Z.to_nat j) as [|j'] eqn:Ej; [lia|]. cbn [nth_error] in Hj.
    destruct (Z.to_nat i) as [|i'] eqn:Ei; cbn [nth_error] in Hi.
    + injection Hi as <-. rewrite Forall_forall in F. apply F. eapply nth_error_In; eauto.
    + apply (IH S (Z.of_nat i') (Z.of_nat j')); [rewrite vread_nth; exact Hi|rewrite vread_nth; exact Hj|lia].
Qed.

Section Tree.
Variables (rnd : Q -> Q) (nd : nat) (R : range) (probe : tup Z -> option (tup Q)).
Hypothesis HR : rounding rnd.
Hypothesis Hnd : (1 <= nd <= 3)%nat.
Let cell_of := the_cell R.

Lemma best_in_bin_ok cells bin : (forall i, In i cells -> 0 <= i < rcount R) -> (forall k, In k bin -> 0 <= k < Z.of_nat (length cells)) ->
  exists l, best_in_bin rnd nd R probe cells bin = Some (b_cell (best_of rnd nd cell_of probe l)) /\ map Some l = map (vread cells) bin.
Proof.
  intros HC HB.
  assert (G : forall s, exists l, ofoldl (fun s i => let! c := vread cells i in let! cell := rtuple ColMajor R c in Some (consider rnd nd probe s cell)) bin s
      = Some (fold_left (consider rnd nd probe) (map cell_of l) s) /\ map Some l = map (vread cells) bin).
  { induction bin as [|k bin IH]; intros s; [exists []; split; reflexivity|]. cbn [ofoldl].
    destruct (vread_ge cells k (HB k (or_introl eq_refl))) as [c Ec]. rewrite Ec. destruct (the_cell_ok R c) as (E & _ & _); [apply HC; eapply vread_In; eauto|].
    rewrite E. destruct (IH (fun k' H => HB k' (or_intror H)) (consider rnd nd probe s (the_cell R c))) as (l & E1 & E2). exists (c :: l).
    split; [exact E1|]. cbn [map]. rewrite Ec, E2. reflexivity. }
  destruct (G init) as (l & E & M). exists l. split; [|exact M]. unfold best_in_bin. fold init. rewrite E. reflexivity.
Qed.

Lemma map_some_In {A B} (f : A -> option B) l m : map Some m = map f l -> forall y, In y m <-> exists x, In x l /\ f x = Some y.
Proof.
  intros E y. split.
  - intros H. apply (in_map Some) in H. rewrite E in H. apply in_map_iff in H as (x & E1 & E2). eauto.
  - intros (x & H1 & H2). apply (in_map f) in H1. rewrite <- E, H2 in H1. apply in_map_iff in H1 as (z & E1 & E2). congruence.
Qed.

Lemma picked_sorted cells bin l : StronglySorted Z.lt cells -> StronglySorted Z.lt bin -> map Some l = map (vread cells) bin -> StronglySorted Z.lt l.
Proof.
  intros HC. revert l. induction bin as [|k bin IH]; intros l HB E; destruct l as [|a l]; try discriminate; [constructor|].
  cbn [map] in E. injection E as E1 E2. inversion HB as [|? ? S F]; subst. constructor; [apply IH; auto|]. apply Forall_forall. intros y Hy.
  apply (map_some_In _ _ _ E2) in Hy as (k' & H1 & H2). rewrite Forall_forall in F. exact (sorted_nth cells HC k k' a y (eq_sym E1) H2 (F k' H1)).
Qed.

(** The search considers, in order, some of the cells, and all whose boxes contain the point. *)
Lemma find_in_node_ok leaf scale x : forall k cs t, create_node rnd nd leaf scale k cs = Some t ->
  StronglySorted Z.lt (map fst cs) -> (forall i, In i (map fst cs) -> 0 <= i < rcount R) ->
  exists l, find_in_node rnd nd R probe x t = Some (b_cell (best_of rnd nd cell_of probe l)) /\ StronglySorted Z.lt l /\
    (forall i, In i l -> In i (map fst cs)) /\ (forall i b, In (i, b) cs -> box_in b x -> In i l).
Proof.
  assert (LEAF : forall cs t, (let! n := num_bins rnd nd scale cs in
      let! h := hash_build (qcoords rnd) (box_traits rnd) nd n (map snd cs) in Some (Leaf (map fst cs) h)) = Some t ->
    StronglySorted Z.lt (map fst cs) -> (forall i, In i (map fst cs) -> 0 <= i < rcount R) ->
    exists l, find_in_node rnd nd R probe x t = Some (b_cell (best_of rnd nd cell_of probe l)) /\ StronglySorted Z.lt l /\
      (forall i, In i l -> In i (map fst cs)) /\ (forall i b, In (i, b) cs -> box_in b x -> In i l)).
  { intros cs t E HS HC. destruct (num_bins rnd nd scale cs) as [n|] eqn:EN; [|discriminate].
    destruct (hash_build _ _ nd n (map snd cs)) as [h|] eqn:EH; [|discriminate]. injection E as <-.
    destruct (box_hash_correct rnd nd n (map snd cs) h HR Hnd (num_bins_pos _ _ _ _ _ EN) EH) as [BB HB].
    destruct (HB x) as (b & Eb & B1 & B2). cbn [find_in_node]. rewrite Eb.
    destruct (Z.leb_spec 0 b) as [Lb|Lb].
    - destruct (B2 ltac:(lia)) as (_ & bin & Er & SB & IB & CB). rewrite Er. rewrite map_length in IB.
      destruct (best_in_bin_ok (map fst cs) bin HC) as (l & El & Ml); [rewrite map_length; exact IB|].
      exists l. split; [exact El|]. split; [exact (picked_sorted (map fst cs) bin l HS SB Ml)|]. split.
      + intros i Hi. apply (map_some_In _ _ _ Ml) in Hi as (k & _ & Hk). eapply vread_In; eauto.
      + intros i bx Hi Hx. apply (map_some_In _ _ _ Ml). apply In_nth_error in Hi as [k Hk]. exists (Z.of_nat k). split.
        * apply (CB k bx); [rewrite nth_error_map, Hk; reflexivity|exact Hx].
        * rewrite vread_nth, nth_error_map, Hk. reflexivity.
    - exists []. split; [reflexivity|]. split; [constructor|]. split; [intros i []|]. intros i bx Hi Hx.
      assert (b = -1) as -> by (destruct (Z.eq_dec b (-1)) as [|N]; [assumption|destruct (B2 N); lia]).
      exfalso. apply (proj1 B1 eq_refl). apply (proj1 BB bx); [|exact Hx]. apply in_map_iff. exists (i, bx). auto. }
  induction k as [|k IH]; intros cs t E HS HC; cbn [create_node] in E; [eauto|].
  destruct (leaf cs); [eauto|]. cbn zeta in E.
  set (d := fork_dim rnd nd (node_bounds nd cs)) in *. set (a := fork_at rnd cs d) in *.
  assert (Hd : (d < 3)%nat) by (apply fork_dim_lt; lia).
  destruct (create_node rnd nd leaf scale k (left_cells cs d a)) as [tl|] eqn:EL; [|discriminate].
  destruct (create_node rnd nd leaf scale k (right_cells cs d a)) as [tr|] eqn:ER; [|discriminate]. injection E as <-. cbn [find_in_node].
  assert (SUB : forall f i, In i (map fst (filter f cs)) -> In i (map (@fst Z box) cs)).
  { intros f i Hi. apply in_map_iff in Hi as (y & <- & Hy). apply filter_In in Hy as [Hy _]. apply in_map, Hy. }
  destruct (Qle_bool (tget x d) a) eqn:EQ.
  - apply Qle_bool_iff in EQ. destruct (IH _ _ EL (filter_pairs_sorted _ _ HS) (fun i H => HC i (SUB _ i H))) as (l & A1 & A2 & A3 & A4).
    exists l. split; [exact A1|]. split; [exact A2|]. split; [intros i Hi; eapply SUB, A3, Hi|]. intros i b Hi Hb. apply (A4 i b); [|exact Hb].
    apply filter_In. split; [exact Hi|]. cbn [snd]. apply Qle_bool_iff. pose proof (box_in_d b x d Hd Hb). lra.
  - assert (N : (a < tget x d)%Q). { apply Qnot_le_lt. intros H. apply Qle_bool_iff in H. congruence. }
    destruct (IH _ _ ER (filter_pairs_sorted _ _ HS) (fun i H => HC i (SUB _ i H))) as (l & A1 & A2 & A3 & A4).
    exists l. split; [exact A1|]. split; [exact A2|]. split; [intros i Hi; eapply SUB, A3, Hi|]. intros i b Hi Hb. apply (A4 i b); [|exact Hb].
    apply filter_In. split; [exact Hi|]. cbn [snd]. apply Qle_bool_iff. pose proof (box_in_d b x d Hd Hb). lra.
Qed.
End Tree.

(** ** The whole search *)

Lemma contained_fst R mask bounds : map fst (contained R mask bounds) = map (rindex ColMajor R) (filter mask (foreach_col R)).
Proof. unfold contained. rewrite map_map. reflexivity. Qed.

Lemma contained_sorted R mask bounds : StronglySorted Z.lt (map fst (contained R mask bounds)).
Proof.
  rewrite contained_fst. assert (S : StronglySorted (fun p q => rindex ColMajor R p < rindex ColMajor R q) (foreach_col R)).
  { pose proof (sorted_zseq (Z.to_nat (rcount R)) 0) as H. rewrite <- rindex_foreach in H. revert H. generalize (foreach_col R) as l.
    induction l as [|p l IH]; intros H; [constructor|]. cbn [map] in H. inversion H as [|? ? A B]; subst. constructor; [auto|].
    apply Forall_forall. intros q Hq. rewrite Forall_forall in B. apply B, in_map, Hq. }
  apply (sorted_filter _ mask) in S. eapply sorted_map; [|exact S]. auto.
Qed.

Lemma contained_In R mask bounds i b : In (i, b) (contained R mask bounds) <->
  exists cell, pt_in R cell /\ mask cell = true /\ i = rindex ColMajor R cell /\ b = bounds cell.
Proof.
  unfold contained. rewrite in_map_iff. split.
  - intros (cell & E & H). apply filter_In in H as [H M]. apply foreach_col_In in H. injection E as <- <-. eauto.
  - intros (cell & H & M & -> & ->). exists cell. split; [reflexivity|]. apply filter_In. split; [apply foreach_col_In; exact H|exact M].
Qed.

Lemma all_bounds nd (mask : tup Z -> bool) bounds l : (1 <= nd)%nat -> forall b0 cell x, In cell l -> mask cell = true -> box_in (bounds cell) x ->
  box_in (fold_left (fun b cell => union_boxes b (if mask cell then bounds cell else make_empty_box nd)) l b0) x.
Proof.
  intros Hnd b0 cell x Hc M Hx.
  replace (fold_left (fun b cell => union_boxes b (if mask cell then bounds cell else make_empty_box nd)) l b0)
    with (fold_left (fun a b => union_boxes a b) (map (fun cell => if mask cell then bounds cell else make_empty_box nd) l) b0).
  - destruct (union_fold_subset (map (fun cell => if mask cell then bounds cell else make_empty_box nd) l) b0) as [_ [H _]].
    apply (H (bounds cell)); [|exact Hx]. apply in_map_iff. exists cell. rewrite M. auto.
  - clear. revert b0. induction l as [|a l IH]; intros b0; cbn; [reflexivity|apply IH].
Qed.

Definition at_point (overlaps : tup Z -> tup Q -> bool) (coords : tup Z -> tup Q -> option (tup Q)) (x : tup Q) (cell : tup Z) : option (tup Q) :=
  if overlaps cell x then coords cell x else None.

Lemma find_cell_ok rnd nd leaf scale depth R mask bounds overlaps coords a x : rounding rnd -> (1 <= nd <= 3)%nat ->
  accel_build rnd nd leaf scale depth R mask bounds = Some a ->
  exists res, find_cell rnd nd R overlaps coords a x = Some res /\
    match res with
    | None => forall cell u, overlapped R mask overlaps coords x cell u -> ~ box_in (bounds cell) x
    | Some (cell, u) => overlapped R mask overlaps coords x cell u /\
        forall cell' u', overlapped R mask overlaps coords x cell' u' -> box_in (bounds cell') x ->
          better_cell rnd nd u u' (rindex ColMajor R cell) (rindex ColMajor R cell') = false
    end.
Proof.
  intros HR Hnd E. unfold accel_build in E.
  set (B := fold_left _ (foreach_col R) (make_empty_box nd)) in E.
  assert (HB : forall cell, pt_in R cell -> mask cell = true -> box_in (bounds cell) x -> box_in B x).
  { intros cell H M Hx. apply (all_bounds nd mask bounds _ (proj1 Hnd) _ cell); auto. apply foreach_col_In, H. }
  assert (OUT : bcontains B x = false -> forall cell u, overlapped R mask overlaps coords x cell u -> ~ box_in (bounds cell) x).
  { intros F cell u (H1 & H2 & _) Hx. specialize (HB cell H1 H2 Hx). apply bcontains_spec in HB. congruence. }
  destruct (bempty B) eqn:EB.
  - injection E as <-. unfold find_cell. cbn [a_bounds a_root]. destruct (bcontains B x) eqn:EC.
    + exfalso. apply bcontains_spec in EC. exact (proj1 (bempty_true B) EB x EC).
    + exists None. split; [reflexivity|]. exact (OUT eq_refl).
  - destruct (create_node rnd nd leaf scale _ (contained R mask bounds)) as [t|] eqn:ET; [|discriminate]. injection E as <-.
    unfold find_cell. cbn [a_bounds a_root]. destruct (bcontains B x) eqn:EC; [|exists None; split; [reflexivity|exact (OUT eq_refl)]].
    assert (HC : forall i, In i (map fst (contained R mask bounds)) -> 0 <= i < rcount R).
    { intros i Hi. apply in_map_iff in Hi as ([j b] & <- & Hi). apply contained_In in Hi as (cell & H & _ & -> & _). apply rindex_bounds, H. }
    destruct (find_in_node_ok rnd nd R (at_point overlaps coords x) HR Hnd leaf scale x _ _ _ ET (contained_sorted R mask bounds) HC) as (l & A1 & A2 & A3 & A4).
    change (fun cell => if overlaps cell x then coords cell x else None) with (at_point overlaps coords x). rewrite A1. eexists. split; [reflexivity|].
    pose proof (best_ok rnd nd (the_cell R) (at_point overlaps coords x) l A2) as BO.
    assert (PR : forall cell u, overlapped R mask overlaps coords x cell u -> box_in (bounds cell) x ->
      In (rindex ColMajor R cell) l /\ the_cell R (rindex ColMajor R cell) = cell /\ at_point overlaps coords x cell = Some u).
    { intros cell u (H1 & H2 & H3 & H4) Hx. split; [apply (A4 _ (bounds cell)); [apply contained_In; eauto|exact Hx]|]. split.
      - destruct (the_cell_ok R (rindex ColMajor R cell) (rindex_bounds _ _ _ H1)) as (_ & P & I). apply (rindex_inj ColMajor R); auto.
      - unfold at_point. rewrite H3. exact H4. }
    destruct (b_cell (best_of rnd nd (the_cell R) (at_point overlaps coords x) l)) as [[cell u]|].
    + destruct BO as (i & Hi & -> & Pi & BI). pose proof (A3 i Hi) as Hj. apply in_map_iff in Hj as ([j b] & Ej & Hj). cbn in Ej. subst j.
      apply contained_In in Hj as (cell & H & M & E1 & _).
      destruct (the_cell_ok R i) as (_ & P & I); [apply HC, A3, Hi|].
      assert (E2 : the_cell R i = cell) by (apply (rindex_inj ColMajor R); auto; lia).
      rewrite E2 in *. split.
      * unfold overlapped. unfold at_point in Pi. destruct (overlaps cell x); [auto|discriminate].
      * intros cell' u' Hs Hx. destruct (PR cell' u' Hs Hx) as (Q1 & Q2 & Q3). rewrite I. apply BI; [exact Q1|rewrite Q2; exact Q3].
    + intros cell u Hs Hx. destruct (PR cell u Hs Hx) as (Q1 & Q2 & Q3). specialize (BO _ Q1). rewrite Q2 in BO. congruence.
Qed.

Lemma find_cell_exact nd leaf scale depth R mask bounds overlaps coords a x : (1 <= nd <= 3)%nat ->
  accel_build (fun q => q) nd leaf scale depth R mask bounds = Some a ->
  exists res, find_cell (fun q => q) nd R overlaps coords a x = Some res /\
    match res with
    | None => forall cell u, overlapped R mask overlaps coords x cell u -> ~ box_in (bounds cell) x
    | Some (cell, u) => overlapped R mask overlaps coords x cell u /\
        forall cell' u', overlapped R mask overlaps coords x cell' u' -> box_in (bounds cell') x ->
          as_good nd u (rindex ColMajor R cell) u' (rindex ColMajor R cell')
    end.
Proof.
  intros Hnd HB. assert (HR : rounding (fun q => q)) by (split; [auto|reflexivity]).
  destruct (find_cell_ok _ nd leaf scale depth R mask bounds overlaps coords a x HR Hnd HB) as (res & E & H). exists res. split; [exact E|].
  destruct res as [[cell u]|]; [|exact H]. destruct H as [H1 H2]. split; [exact H1|]. intros cell' u' Hs Hx. apply better_exact. auto.
Qed.

(** The result depends on the cells that the point overlaps only. *)
Lemma find_cell_same rnd nd leaf leaf' scale scale' depth depth' R mask bounds bounds' overlaps coords a a' x : rounding rnd -> (1 <= nd <= 3)%nat ->
  accel_build rnd nd leaf scale depth R mask bounds = Some a -> accel_build rnd nd leaf' scale' depth' R mask bounds' = Some a' ->
  bounded R mask overlaps coords bounds x -> bounded R mask overlaps coords bounds' x ->
  find_cell rnd nd R overlaps coords a x = find_cell rnd nd R overlaps coords a' x.
Proof.
  intros HR Hnd HB HB' BD BD'.
  destruct (find_cell_ok rnd nd leaf scale depth R mask bounds overlaps coords a x HR Hnd HB) as (res & E & H).
  destruct (find_cell_ok rnd nd leaf' scale' depth' R mask bounds' overlaps coords a' x HR Hnd HB') as (res' & E' & H'). rewrite E, E'. f_equal.
  destruct res as [[cell u]|], res' as [[cell' u']|]; auto.
  - destruct H as [H1 H2], H' as [H1' H2']. specialize (H2 _ _ H1' (BD _ _ H1')). specialize (H2' _ _ H1 (BD' _ _ H1)).
    pose proof (better_antisym _ _ _ _ _ _ H2 H2') as EI. destruct H1 as (P1 & _ & _ & C1), H1' as (P1' & _ & _ & C1').
    apply rindex_inj in EI; auto. subst cell'. congruence.
  - destruct H as [H1 _]. exfalso. exact (H' _ _ H1 (BD' _ _ H1)).
  - destruct H' as [H1 _]. exfalso. exact (H _ _ H1 (BD _ _ H1)).
Qed.

(** ** The order of cells *)

Lemma rindex_col R p : rindex ColMajor R p =
  (c0 p - c0 (rb R)) + (c0 (re R) - c0 (rb R)) * ((c1 p - c1 (rb R)) + (c1 (re R) - c1 (rb R)) * (c2 p - c2 (rb R))).
Proof.
  unfold rindex, rexts, tlist, indexer. cbn [map combine strides fst snd to_index].
  cbn. unfold espan. cbn [fst snd]. destruct (c0 p - c0 (rb R)); ring.
Qed.

Lemma rindex_before R p q : pt_in R p -> pt_in R q -> (rindex ColMajor R p < rindex ColMajor R q <-> before p q).
Proof.
  intros Hp Hq. rewrite !rindex_col. unfold pt_in in *. unfold before.
  set (x := c0 p - c0 (rb R)). set (y := c1 p - c1 (rb R)). set (z := c2 p - c2 (rb R)).
  set (x' := c0 q - c0 (rb R)). set (y' := c1 q - c1 (rb R)). set (z' := c2 q - c2 (rb R)).
  set (a := c0 (re R) - c0 (rb R)). set (b := c1 (re R) - c1 (rb R)).
  assert (X : 0 <= x < a /\ 0 <= x' < a /\ 0 <= y < b /\ 0 <= y' < b) by lia.
  assert (E : (c2 p < c2 q \/ c2 p = c2 q /\ (c1 p < c1 q \/ c1 p = c1 q /\ c0 p < c0 q)) <-> (z < z' \/ z = z' /\ (y < y' \/ y = y' /\ x < x'))) by lia.
  rewrite E. clearbody x y z x' y' z' a b. clear - X.
  assert (S : forall m u v u' v', 0 <= u < m -> 0 <= u' < m -> (u + m * v < u' + m * v' <-> v < v' \/ v = v' /\ u < u')).
  { intros m u v u' v' Hu Hu'. destruct (Z.lt_trichotomy v v') as [L|[->|L]].
    - split; [lia|]. intros _. nia.
    - split; lia.
    - split; [|lia]. intros H. nia. }
  rewrite S by lia. rewrite S by lia. split; [|lia].
  intros [H|[H1 H2]]; [lia|]. assert (T := S b y z y' z' ltac:(lia) ltac:(lia)).
  assert (T' := S b y' z' y z ltac:(lia) ltac:(lia)). lia.
Qed.

(** ** The construction succeeds *)

Section Built.
Variables (rnd : Q -> Q) (nd : nat).
Hypothesis HR : rounding rnd.
Hypothesis HP : forall q, (0 < q)%Q -> (0 < rnd q)%Q.
Hypothesis Hnd : (1 <= nd <= 3)%nat.

Local Notation solid := (AccelSpec.solid nd).

Lemma bsize_pos b d : solid b -> (d < nd)%nat -> (0 < bsize rnd b d)%Q.
Proof.
  intros [_ H] Hd. specialize (H d Hd). unfold bsize, qmax. pose proof (HP (tget (be b) d - tget (bb b) d) ltac:(lra)) as P.
  destruct (qlt _ 0) eqn:E; [|exact P]. unfold qlt in E. apply negb_true_iff in E.
  assert (Qle_bool 0 (rnd (tget (be b) d - tget (bb b) d)) = true) by (apply Qle_bool_iff; lra). congruence.
Qed.

Lemma at_least_pos n : (0 < at_least_one n)%Q.
Proof.
  unfold at_least_one, qmax. destruct (qlt _ 1) eqn:E; [lra|]. unfold qlt in E. apply negb_false_iff in E. apply Qle_bool_iff in E. lra.
Qed.

Lemma mean_pos cs d : cs <> [] -> (forall i b, In (i, b) cs -> solid b) -> (d < nd)%nat -> (0 < mean_size rnd cs d)%Q.
Proof.
  intros NE HS Hd. unfold mean_size. apply HP. pose proof (at_least_pos (length cs)) as A.
  assert (G : forall (l : list (Z * box)) a, (forall i b, In (i, b) l -> solid b) -> (0 <= a)%Q -> (0 <= fold_left (fun a ic => rnd (a + bsize rnd (snd ic) d)) l a)%Q /\
    (l <> [] -> 0 < fold_left (fun a ic => rnd (a + bsize rnd (snd ic) d)) l a)%Q).
  { induction l as [|[i b] l IH]; intros a Hl Ha; cbn [fold_left snd]; [split; [exact Ha|congruence]|].
    assert (P : (0 < rnd (a + bsize rnd b d))%Q). { apply HP. pose proof (bsize_pos b d (Hl i b (or_introl eq_refl)) Hd). lra. }
    destruct (IH (rnd (a + bsize rnd b d)) (fun i b H => Hl i b (or_intror H))) as [I1 I2]; [lra|]. split; [exact I1|]. intros _.
    destruct l; [exact P|apply I2; discriminate]. }
  destruct (G cs 0%Q HS) as [_ P]; [lra|]. specialize (P NE). apply Qlt_shift_div_l; [exact A|]. lra.
Qed.

Lemma num_bins_ok scale cs : (0 < scale)%Q -> (forall i b, In (i, b) cs -> solid b) -> exists n, num_bins rnd nd scale cs = Some n.
Proof.
  intros Hs HS. unfold num_bins. destruct (Z.ltb_spec 1 (Z.of_nat (length cs))) as [L|L]; [|eauto]. apply tmake_opt_ok. intros d Hd.
  destruct (Nat.ltb_spec d nd) as [Ld|Ld]; [|eauto]. cbn zeta.
  assert (P : (0 < rnd (scale * mean_size rnd cs d))%Q).
  { apply HP. apply Qmult_lt_0_compat; [exact Hs|]. apply mean_pos; auto. intros ->. cbn in L. lia. }
  destruct (Qeq_bool (rnd (scale * mean_size rnd cs d)) 0) eqn:E; [|eauto]. apply Qeq_bool_iff in E. lra.
Qed.

Lemma create_node_built leaf scale : (0 < scale)%Q -> forall k cs, (forall i b, In (i, b) cs -> solid b) ->
  exists t, create_node rnd nd leaf scale k cs = Some t.
Proof.
  intros Hs. assert (LEAF : forall cs, (forall i b, In (i, b) cs -> solid b) -> exists t, (let! n := num_bins rnd nd scale cs in
      let! h := hash_build (qcoords rnd) (box_traits rnd) nd n (map snd cs) in Some (Leaf (map fst cs) h)) = Some t).
  { intros cs HS. destruct (num_bins_ok scale cs Hs HS) as [n En]. rewrite En.
    destruct (box_hash_built rnd nd n (map snd cs) HR Hnd (num_bins_pos _ _ _ _ _ En)) as [h Eh]; [|rewrite Eh; eauto].
    destruct cs as [|[i b] cs]; [left; reflexivity|right]. intros d Hd. specialize (HS i b (or_introl eq_refl)). pose proof HS as [B1 B2].
    exists b, (bb b), b, (be b). cbn [map snd In]. split; [auto|]. split; [apply box_corner_lo, B1|]. split; [auto|]. split; [apply box_corner_hi, B1|].
    apply HP. pose proof (num_bins_pos _ _ _ _ _ En d ltac:(lia)) as N. apply Qlt_shift_div_l; [unfold Qlt; cbn; lia|].
    specialize (B2 d Hd). pose proof (HP (tget (be b) d - tget (bb b) d) ltac:(lra)). lra. }
  induction k as [|k IH]; intros cs HS; cbn [create_node]; [auto|]. destruct (leaf cs); [auto|]. cbn zeta.
  assert (SUB : forall f i b, In (i, b) (filter f cs) -> solid b) by (intros f i b H; apply filter_In in H as [H _]; eauto).
  destruct (IH _ (SUB _) : exists t, create_node rnd nd leaf scale k (left_cells cs (fork_dim rnd nd (node_bounds nd cs)) (fork_at rnd cs (fork_dim rnd nd (node_bounds nd cs)))) = Some t) as [tl ->].
  destruct (IH _ (SUB _) : exists t, create_node rnd nd leaf scale k (right_cells cs (fork_dim rnd nd (node_bounds nd cs)) (fork_at rnd cs (fork_dim rnd nd (node_bounds nd cs)))) = Some t) as [tr ->].
  eauto.
Qed.

Lemma accel_built leaf scale depth R mask bounds : (0 < scale)%Q -> (forall cell, pt_in R cell -> mask cell = true -> solid (bounds cell)) ->
  exists a, accel_build rnd nd leaf scale depth R mask bounds = Some a.
Proof.
  intros Hs HS. unfold accel_build. destruct (bempty _); [eauto|].
  destruct (create_node_built leaf scale Hs (depth (length (contained R mask bounds))) (contained R mask bounds)) as [t ->]; [|eauto].
  intros i b H. apply contained_In in H as (cell & H1 & H2 & _ & ->). auto.
Qed.
End Built.
