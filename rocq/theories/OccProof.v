(** Occluded points: proofs. *)
From Coq Require Import List ZArith QArith Bool Lia.
From Verif Require Import TupleModel RangeModel RangeProof CartModel CartProof HashModel HashProof FieldSpec AsmSpec NeighSpec Base DRangeProof OccModel OccSpec.
Import ListNotations.
Local Open Scope Z_scope.

(** ** Dilating and eroding *)

Section Near.
Variable c : cart.
Hypothesis Hc : cart_ok c.
Hypothesis Hone : stored_once c.
Hypothesis Hnd : forall d, (c_nd c <= d < 3)%nat -> tget (c_per c) d = false.

Lemma mod_near a b n k : 0 < n -> 0 <= k -> ((a - b) mod n <= k \/ (b - a) mod n <= k) <-> exists j, Z.abs (a - (b + j * n)) <= k.
Proof.
  intros Hn Hk; split.
  - intros [H | H].
    + exists ((a - b) / n). pose proof (Z.div_mod (a - b) n ltac:(lia)). pose proof (Z.mod_pos_bound (a - b) n Hn). nia.
    + exists (- ((b - a) / n)). pose proof (Z.div_mod (b - a) n ltac:(lia)). pose proof (Z.mod_pos_bound (b - a) n Hn). nia.
  - intros [j Hj]. destruct (Z_le_gt_dec 0 (a - b - j * n)) as [H | H].
    + left. replace (a - b) with ((a - b - j * n) + j * n) by ring. rewrite Z_mod_plus_full.
      pose proof (Z.mod_le (a - b - j * n) n H Hn). lia.
    + right. replace (b - a) with ((b - a + j * n) + (- j) * n) by ring. rewrite Z_mod_plus_full.
      pose proof (Z.mod_le (b - a + j * n) n ltac:(lia) Hn). lia.
Qed.

Lemma near_dim_ok k u v d : (d < 3)%nat -> 0 <= k -> near_dim c k u v d = true <->
  exists x, (tget (c_per c) d = true -> exists j, x = tget v d + j * per_len c d) /\ (tget (c_per c) d = false -> x = tget v d) /\
            if Nat.ltb d (c_nd c) then Z.abs (tget u d - x) <= k else tget u d = x.
Proof.
  intros Hd Hk. unfold near_dim. rewrite (period_size1_per_len c d Hc Hd). destruct (Nat.ltb_spec d (c_nd c)) as [L | L].
  - destruct (tget (c_per c) d).
    + rewrite orb_true_iff, !Z.leb_le, (mod_near _ _ _ _ (Hc d Hd) Hk). split.
      * intros [j Hj]. exists (tget v d + j * per_len c d). split; [eauto |]. split; [discriminate | exact Hj].
      * intros (x & Hx & _ & Ha). destruct (Hx eq_refl) as [j ->]. exists j. exact Ha.
    + rewrite Z.leb_le. split; [intro H; exists (tget v d); split; [discriminate | split; [reflexivity | exact H]] |].
      intros (x & _ & Hx & Ha). rewrite (Hx eq_refl) in Ha. exact Ha.
  - rewrite Z.eqb_eq. rewrite (Hnd d ltac:(lia)). split.
    + intro H. exists (tget v d). split; [discriminate | split; [reflexivity | exact H]].
    + intros (x & _ & Hx & Ha). rewrite Ha. apply Hx. reflexivity.
Qed.

Lemma near_pt_ok k u v : 0 <= k -> near_pt c k u v = true <-> within c k u v.
Proof.
  intro Hk. unfold near_pt, within, is_image, apart. rewrite !andb_true_iff, !near_dim_ok by lia. split.
  - intros [[(x & Hx & Hx' & Ax) (y & Hy & Hy' & Ay)] (z & Hz & Hz' & Az)]. exists (T3 x y z). split; intros d Hd.
    + destruct d as [| [| [| d]]]; [| | | lia]; cbn [tget] in *; auto.
    + destruct d as [| [| [| d]]]; [| | | lia]; cbn [tget] in *; auto.
  - intros (x & Hi & Ha). split; [split |].
    + exists (tget x 0). destruct (Hi 0%nat ltac:(lia)) as [I1 I2]. specialize (Ha 0%nat ltac:(lia)). auto.
    + exists (tget x 1). destruct (Hi 1%nat ltac:(lia)) as [I1 I2]. specialize (Ha 1%nat ltac:(lia)). auto.
    + exists (tget x 2). destruct (Hi 2%nat ltac:(lia)) as [I1 I2]. specialize (Ha 2%nat ltac:(lia)). auto.
Qed.

Lemma within_self k u : 0 <= k -> within c k u u.
Proof.
  intro Hk. exists u. split.
  - intros d Hd. split; intro H; [exists 0; lia | reflexivity].
  - intros d Hd. destruct (Nat.ltb d (c_nd c)); [lia | reflexivity].
Qed.

Lemma within_sym k u v : within c k u v -> within c k v u.
Proof.
  intros (x & Hi & Ha). exists (tmake (fun d => tget u d - (tget x d - tget v d))). split.
  - intros d Hd. rewrite tget_tmake by exact Hd. destruct (Hi d Hd) as [I1 I2]. split; intro H.
    + destruct (I1 H) as [j Hj]. exists (- j). rewrite Hj. ring.
    + rewrite (I2 H). ring.
  - intros d Hd. specialize (Ha d Hd). rewrite tget_tmake by exact Hd. destruct (Nat.ltb d (c_nd c)); lia.
Qed.

(** In the grid no other point is at distance 0. *)
Lemma within0 u v : pt_in (c_range c) u -> pt_in (c_range c) v -> within c 0 u v -> u = v.
Proof.
  intros Hu Hv (x & Hi & Ha). apply tup_ext. intros d Hd. specialize (Ha d Hd). destruct (Hi d Hd) as [I1 I2].
  pose proof (proj1 (pt_in_d _ _) Hu d Hd). pose proof (proj1 (pt_in_d _ _) Hv d Hd). pose proof (Hone d Hd) as Ho.
  assert (E : tget u d = tget x d) by (destruct (Nat.ltb d (c_nd c)); lia).
  destruct (tget (c_per c) d).
  - destruct (I1 eq_refl) as [j Hj]. assert (j = 0) by nia. lia.
  - rewrite E. apply I2. reflexivity.
Qed.

Lemma dilate_ok k m u : 0 <= k -> pt_in (c_range c) u ->
  dilate c k m u = true <-> exists v, pt_in (c_range c) v /\ m v = true /\ within c k u v.
Proof.
  intros Hk Hu. unfold dilate. destruct (Z.eqb_spec k 0) as [-> | E].
  - split; [intro H; exists u; split; [exact Hu | split; [exact H | apply within_self; lia]] |].
    intros (v & Hv & Hm & Hw). rewrite (within0 u v Hu Hv Hw). exact Hm.
  - rewrite existsb_exists. split.
    + intros (v & Hv & H). destruct (near_pt c k u v) eqn:Hn; [| discriminate]. exists v. apply foreach_col_In in Hv.
      split; [exact Hv | split; [exact H |]]. apply near_pt_ok; assumption.
    + intros (v & Hv & Hm & Hw). exists v. split; [apply foreach_col_In; exact Hv |]. rewrite (proj2 (near_pt_ok k u v Hk) Hw). exact Hm.
Qed.

Lemma erode_ok k m u : 0 <= k -> pt_in (c_range c) u ->
  erode c k m u = true <-> forall v, pt_in (c_range c) v -> within c k u v -> m v = true.
Proof.
  intros Hk Hu. unfold erode. rewrite negb_true_iff, <- not_true_iff_false, dilate_ok by assumption. split.
  - intros H v Hv Hw. destruct (m v) eqn:E; [reflexivity |]. exfalso. apply H. exists v. rewrite E. auto.
  - intros H (v & Hv & Hm & Hw). rewrite (H v Hv Hw) in Hm. discriminate.
Qed.
End Near.

(** ** Maps with an entry for each pair *)

Definition with_all (l : list (Z * Z)) (f : Z * Z -> mask) : pmap := map (fun k => (k, f k)) l.

Lemma pair_eqb_ok a b : pair_eqb a b = true <-> a = b.
Proof. destruct a, b. unfold pair_eqb; cbn. rewrite andb_true_iff, !Z.eqb_eq. split; [intros [-> ->]; reflexivity | intro E; injection E; auto]. Qed.

Lemma swap_swap k : swap (swap k) = k.
Proof. destruct k; reflexivity. Qed.

Lemma entry_in l f k : In k l -> entry_of (with_all l f) k = Some (f k).
Proof.
  unfold entry_of, with_all. induction l as [| a l IH]; [intros [] |]. cbn [map find fst]. intro H.
  destruct (pair_eqb a k) eqn:E.
  - apply pair_eqb_ok in E. subst a. reflexivity.
  - destruct H as [-> | H]; [| apply IH; exact H]. exfalso. assert (pair_eqb k k = true) by (apply pair_eqb_ok; reflexivity). congruence.
Qed.

Lemma entry_out l f k o : entry_of (with_all l f) k = Some o -> In k l.
Proof.
  unfold entry_of, with_all. induction l as [| a l IH]; [discriminate |]. cbn [map find fst].
  destruct (pair_eqb a k) eqn:E; [apply pair_eqb_ok in E; subst a; left; reflexivity | intro H; right; apply IH; exact H].
Qed.

Lemma both_all h l f g : both h (with_all l f) (with_all l g) = with_all l (fun k p => h (f k p) (g k p)).
Proof. unfold both, with_all. induction l as [| a l IH]; [reflexivity |]. cbn [map combine fst snd]. rewrite IH. reflexivity. Qed.

Section Main.
Variable X : odata.
Variable junk : mask.
Hypothesis HX : odata_ok X.
Notation used := (used X).
Notation rng g := (c_range (od_cart X g)).

Lemma used_ok k : In k used <-> occluding X k.
Proof.
  unfold OccModel.used, occluding. rewrite filter_In. destruct (od_occludes X k); cbn; split; intros [A B]; split; auto; try discriminate; try congruence.
Qed.

Definition turn (higher : bool) (k : Z * Z) : bool := mutual X k && (if higher then negb (snd k <? fst k) else negb (fst k <? snd k)).
Definition next (higher : bool) (f : Z * Z -> mask) (k : Z * Z) : mask :=
  if turn higher k then none_of X k (f (swap k)) (f k) else f k.

Lemma exclude_all b f : (forall k, In k used -> turn b k = true -> In (swap k) used) ->
  exclude X b (with_all used f) = Some (with_all used (next b f)).
Proof.
  intro H. unfold exclude, with_all at 2. rewrite (omap_map _ (fun e => (fst e, next b f (fst e)))).
  - unfold with_all. rewrite map_map. reflexivity.
  - intros e He. unfold with_all in He. apply in_map_iff in He. destruct He as (k & <- & Hk). cbn [fst snd]. fold (turn b k). unfold next.
    destruct (turn b k) eqn:E; [| reflexivity]. rewrite (entry_in used f (swap k)) by (apply H; assumption). reflexivity.
Qed.

Lemma exclude_needs b f m : exclude X b (with_all used f) = Some m -> forall k, In k used -> turn b k = true -> In (swap k) used.
Proof.
  intros H k Hk T. unfold exclude in H. apply In_nth_error in Hk. destruct Hk as [i Hi].
  destruct (omap_nth _ _ _ i (k, f k) H) as (e & _ & He).
  - unfold with_all. rewrite nth_error_map, Hi. reflexivity.
  - cbn [fst snd] in He. fold (turn b k) in He. rewrite T in He. destruct (entry_of (with_all used f) (swap k)) as [o |] eqn:E; [| discriminate].
    apply (entry_out _ _ _ _ E).
Qed.

Definition mk2 : Z * Z -> mask := next false (next true (pairwise0 X)).

Lemma mutual_ok k : mutual X k = true <-> both_ways X k.
Proof. unfold mutual, both_ways. destruct (od_occludes X k), (od_occludes X (swap k)); cbn; split; try discriminate; try (intros [A B]; congruence); auto. Qed.

Lemma coarser_ok k p : od_occludes X k = O_COARSE -> pairwise0 X k p = true <-> coarser X k p.
Proof.
  intro E. unfold pairwise0, coarser. rewrite E. destruct (od_vertices X k p) as [vs |].
  - rewrite andb_true_iff, negb_true_iff, <- not_true_iff_false, Qle_bool_iff. fold TOLERANCE. split.
    + intros [A B]. split; [discriminate |]. split; [exact A |]. apply Qnot_le_lt. exact B.
    + intros (_ & A & B). split; [exact A |]. apply Qlt_not_le. exact B.
  - split; [discriminate | intros [A _]; congruence].
Qed.

Lemma none_ok k m o p : (od_vertices X k p = None -> o p = false) -> none_of X k m o p = true <-> on_cell X k p (fun v => m v <> true).
Proof.
  intro Ho. unfold none_of, on_cell. destruct (od_vertices X k p) as [vs |].
  - rewrite forallb_forall. split.
    + intro H. exists vs. split; [reflexivity |]. intros v Hv. specialize (H v Hv). destruct (m v); [discriminate | discriminate].
    + intros (vs' & E & H) v Hv. injection E as <-. specialize (H v Hv). destruct (m v); [congruence | reflexivity].
  - rewrite (Ho eq_refl). split; [discriminate | intros (vs & E & _); discriminate].
Qed.

Lemma on_cell_ext k p P Q : (forall v, P v <-> Q v) -> on_cell X k p P <-> on_cell X k p Q.
Proof. intro H. unfold on_cell. split; intros (vs & E & A); exists vs; split; auto; intros v Hv; apply H; auto. Qed.

Lemma pairwise0_none k p : od_vertices X k p = None -> pairwise0 X k p = false.
Proof.
  intro E. unfold pairwise0. assert (od_overlap X k p = false).
  { destruct (od_overlap X k p) eqn:F; [exfalso; apply (oo_overlap X HX k p F); exact E | reflexivity]. }
  destruct (od_occludes X k); [exact H | exact H | rewrite E; reflexivity].
Qed.

Lemma next_none b f k p : (forall k p, od_vertices X k p = None -> f k p = false) -> od_vertices X k p = None -> next b f k p = false.
Proof.
  intros Hf E. unfold next. destruct (turn b k); [| apply Hf; exact E]. unfold none_of. rewrite E. apply Hf. exact E.
Qed.

Lemma mk2_none k p : od_vertices X k p = None -> mk2 k p = false.
Proof. intro E. apply next_none; [intros k' p' E'; apply next_none; [exact pairwise0_none | exact E'] | exact E]. Qed.

Lemma turns k : fst k <> snd k -> turn true k = (mutual X k && (fst k <? snd k)) /\ turn false k = (mutual X k && (snd k <? fst k)).
Proof. intro N. unfold turn. split; f_equal; destruct (Z.ltb_spec (fst k) (snd k)), (Z.ltb_spec (snd k) (fst k)); try lia; reflexivity. Qed.

Lemma mutual_swap k : mutual X (swap k) = mutual X k.
Proof. unfold mutual. rewrite swap_swap. apply andb_comm. Qed.

Lemma not_true_iff (P : Prop) b : (b = true <-> P) -> b <> true <-> ~ P.
Proof. intro H. rewrite H. tauto. Qed.

Lemma mk2_ok k p : od_occludes X k <> O_NONE -> fst k <> snd k -> mk2 k p = true <-> marked X k p.
Proof.
  intros Hn Hne. unfold mk2. unfold next at 1. destruct (turns k Hne) as [T1 T2].
  destruct (turns (swap k)) as [S1 S2]; [destruct k; cbn in *; lia |]. rewrite mutual_swap in S1, S2. cbn [swap fst snd] in S1, S2.
  rewrite T2. destruct (mutual X k) eqn:Em; cbn [andb] in T1, T2, S1, S2 |- *.
  - assert (B : both_ways X k) by (apply mutual_ok; exact Em). assert (B' : od_occludes X k = O_COARSE /\ od_occludes X (swap k) = O_COARSE) by exact B.
    destruct B' as [B1 B2]. destruct (Z.ltb_spec (snd k) (fst k)) as [L | L].
    + rewrite none_ok.
      2: { intro E. apply next_none; [exact pairwise0_none | exact E]. }
      assert (E1 : on_cell X k p (fun v => next true (pairwise0 X) (swap k) v <> true) <->
        on_cell X k p (fun v => ~ on_cell X (swap k) v (fun q => ~ coarser X k q))).
      { apply on_cell_ext. intro v. apply not_true_iff. unfold next. rewrite S1. rewrite swap_swap.
        rewrite none_ok by apply pairwise0_none. apply on_cell_ext. intro q. apply not_true_iff. apply coarser_ok. exact B1. }
      rewrite E1. unfold marked. split; [tauto |]. intros [[A _] | [[_ [A _]] | [[_ [A _]] | [_ [_ A]]]]]; try congruence; try tauto; lia.
    + unfold next. rewrite T1. destruct (Z.ltb_spec (fst k) (snd k)) as [L' | L']; [| lia].
      rewrite none_ok by apply pairwise0_none.
      assert (E1 : on_cell X k p (fun v => pairwise0 X (swap k) v <> true) <-> on_cell X k p (fun v => ~ coarser X (swap k) v)).
      { apply on_cell_ext. intro v. apply not_true_iff. apply coarser_ok. exact B2. }
      rewrite E1. unfold marked. split; [tauto |]. intros [[A _] | [[_ [A _]] | [[_ [_ A]] | [_ [A _]]]]]; try congruence; try tauto; lia.
  - assert (B : ~ both_ways X k) by (intro B; apply mutual_ok in B; congruence).
    unfold next. rewrite T1. unfold marked. destruct (od_occludes X k) eqn:E; [congruence | |].
    + unfold pairwise0. rewrite E. split; [auto |]. intros [[_ A] | [[A _] | [[A _] | [A _]]]]; [exact A | discriminate | tauto | tauto].
    + rewrite coarser_ok by exact E. split; [auto |]. intros [[A _] | [[_ [_ A]] | [[A _] | [A _]]]]; [discriminate | exact A | tauto | tauto].
Qed.

(** ** Padding *)

Definition dis (k : Z * Z) : mask :=
  dilate (od_cart X (fst k)) (od_padding X k)
    (if is_none (od_occludes X (swap k)) then od_fringe X (fst k)
     else fun p => od_fringe X (fst k) p || mk2 (swap k) p || negb (od_active X (fst k) p)).

Lemma disallow_all k : (od_occludes X (swap k) <> O_NONE -> In (swap k) used) -> disallow X (with_all used mk2) k = Some (dis k).
Proof.
  intro H. unfold disallow, dis. destruct (is_none (od_occludes X (swap k))) eqn:E; [reflexivity |].
  rewrite (entry_in used mk2 (swap k)) by (apply H; intro A; rewrite A in E; discriminate). reflexivity.
Qed.

Lemma pt_vertices k p v vs : od_vertices X k p = Some vs -> In v vs -> pt_in (rng (fst k)) v.
Proof. apply (oo_vertices X HX). Qed.

Lemma dis_ok k v : fst k <> snd k -> pt_in (rng (fst k)) v -> dis k v = true <-> near X (fst k) (od_padding X k) (forbidden X k) v.
Proof.
  intros Hne Hv. unfold dis, near. destruct (oo_carts X HX (fst k)) as (C1 & C2 & C3).
  rewrite (dilate_ok _ C1 C2 C3 _ _ _ (oo_padding X HX k) Hv).
  assert (H : forall u, (if is_none (od_occludes X (swap k)) then od_fringe X (fst k)
     else fun p => od_fringe X (fst k) p || mk2 (swap k) p || negb (od_active X (fst k) p)) u = true <-> forbidden X k u).
  { intro u. unfold forbidden. destruct (is_none (od_occludes X (swap k))) eqn:E.
    - split; [auto |]. intros [A | [A _]]; [exact A |]. exfalso. apply A. destruct (od_occludes X (swap k)); [reflexivity | discriminate | discriminate].
    - assert (N : od_occludes X (swap k) <> O_NONE) by (intro A; rewrite A in E; discriminate).
      rewrite !orb_true_iff, negb_true_iff, (mk2_ok (swap k) u N) by (destruct k; cbn in *; lia). tauto. }
  split; intros (u & A & B & C); exists u; (split; [exact A | split; [apply H; exact B | exact C]]).
Qed.

Definition alw (k : Z * Z) : mask := none_of X k (dis k) junk.

(** Where there is no cell nothing is marked, so the value of junk does not matter. *)
Lemma kept_pair k p : In k used -> mk2 k p && alw k p = true <->
  marked X k p /\ on_cell X k p (fun v => ~ near X (fst k) (od_padding X k) (forbidden X k) v).
Proof.
  intro Hk. apply used_ok in Hk. destruct Hk as [K1 K2]. assert (Hne := proj2 (oo_pairs X HX) k K1).
  rewrite andb_true_iff. destruct (od_vertices X k p) as [vs |] eqn:E.
  - rewrite (mk2_ok k p K2 Hne). unfold alw. rewrite none_ok by (intro A; congruence).
    assert (H : on_cell X k p (fun v => dis k v <> true) <-> on_cell X k p (fun v => ~ near X (fst k) (od_padding X k) (forbidden X k) v)).
    { unfold on_cell. split; intros (vs' & E' & A); exists vs'; (split; [exact E' |]); intros v Hv.
      - rewrite <- (dis_ok k v Hne (pt_vertices k p v vs' E' Hv)). apply A. exact Hv.
      - rewrite (dis_ok k v Hne (pt_vertices k p v vs' E' Hv)). apply A. exact Hv. }
    rewrite H. tauto.
  - rewrite (mk2_none k p E). split; [intros [A _]; discriminate | intros [_ (vs & A & _)]; congruence].
Qed.

Lemma any_all g f p : any_for g (with_all used f) p = true <-> exists m, occluding X (m, g) /\ f (m, g) p = true.
Proof.
  unfold any_for, with_all. rewrite existsb_exists. split.
  - intros (e & He & H). apply in_map_iff in He. destruct He as (k & <- & Hk). cbn [fst snd] in H. apply andb_true_iff in H. destruct H as [A B].
    apply Z.eqb_eq in A. destruct k as [m n]. cbn in A. subst n. exists m. split; [apply used_ok; exact Hk | exact B].
  - intros (m & Hm & H). exists ((m, g), f (m, g)). split; [apply in_map_iff; exists (m, g); split; [reflexivity | apply used_ok; exact Hm] |].
    cbn. rewrite Z.eqb_refl. exact H.
Qed.

(** ** The result *)

Hypothesis Hcomplete : complete X.

Lemma complete_used k : In k used -> od_occludes X (swap k) <> O_NONE -> In (swap k) used.
Proof. intros H N. apply used_ok. apply used_ok in H. split; [apply Hcomplete; assumption | exact N]. Qed.

Lemma turn_used b k : In k used -> turn b k = true -> In (swap k) used.
Proof.
  intros H T. apply complete_used; [exact H |]. unfold turn in T. apply andb_true_iff in T. destruct T as [T _]. apply mutual_ok in T.
  destruct T as [_ T]. rewrite T. discriminate.
Qed.

Definition kept0 (g : Z) : mask := any_for g (with_all used (fun k p => mk2 k p && negb (negb (alw k p) && mk2 k p))).
Definition occ0 (g : Z) : mask := smoothed X g (kept0 g) (any_for g (with_all used mk2)).

Lemma of_grid_ok l (f : Z -> mask) g p : In g l -> existsb (fun e => (fst e =? g) && snd e p) (map (fun g => (g, f g)) l) = f g p.
Proof.
  intro H. apply Bool.eq_iff_eq_true. rewrite existsb_exists. split.
  - intros (e & He & A). apply in_map_iff in He. destruct He as (g' & <- & _). cbn in A. apply andb_true_iff in A. destruct A as [A B].
    apply Z.eqb_eq in A. subst g'. exact B.
  - intro A. exists (g, f g). split; [apply in_map_iff; exists g; auto |]. cbn. rewrite Z.eqb_refl. exact A.
Qed.

Lemma padding_all : omap (padding X junk (with_all used mk2)) (with_all used mk2) = Some (with_all used (fun k p => negb (alw k p) && mk2 k p)).
Proof.
  rewrite (omap_map _ (fun e => (fst e, fun p => negb (alw (fst e) p) && mk2 (fst e) p))).
  - unfold with_all. rewrite map_map. reflexivity.
  - intros e He. unfold with_all in He. apply in_map_iff in He. destruct He as (k & <- & Hk). unfold padding. cbn [fst snd].
    rewrite (disallow_all k (complete_used k Hk)). reflexivity.
Qed.

Lemma change_all l f (h : Z * Z -> mask -> mask) : map (fun e => (fst e, h (fst e) (snd e))) (with_all l f) = with_all l (fun k => h k (f k)).
Proof. unfold with_all. rewrite map_map. reflexivity. Qed.

Lemma pairwise_eq : exists F, pairwise_masks X junk = Some (with_all used F) /\
  forall g m p, In g (od_grids X) -> F (m, g) p = mk2 (m, g) p && negb ((negb (alw (m, g) p) && mk2 (m, g) p) && negb (occ0 g p)).
Proof.
  unfold pairwise_masks. change (pairwise_all X) with (with_all used (pairwise0 X)).
  rewrite (exclude_all true (pairwise0 X) (turn_used true)). rewrite (exclude_all false _ (turn_used false)). fold mk2.
  rewrite padding_all. cbv zeta. rewrite both_all.
  rewrite (change_all used _ (fun k f p => f p && negb (existsb (fun e => (fst e =? snd k) && snd e p)
    (map (fun g => (g, smoothed X g (any_for g (with_all used (fun k p => mk2 k p && negb (negb (alw k p) && mk2 k p)))) (any_for g (with_all used mk2)))) (od_grids X))))).
  rewrite both_all. eexists. split; [reflexivity |].
  intros g m p Hg. cbn [fst snd]. rewrite (of_grid_ok (od_grids X) _ g p Hg). reflexivity.
Qed.

Lemma detect_eq : exists F, detect_occluded X junk = Some (map (fun g => (g, any_for g (with_all used F))) (od_grids X)) /\
  forall g m p, In g (od_grids X) -> F (m, g) p = mk2 (m, g) p && negb ((negb (alw (m, g) p) && mk2 (m, g) p) && negb (occ0 g p)).
Proof. destruct pairwise_eq as (F & E & HF). exists F. split; [unfold detect_occluded; rewrite E; reflexivity | exact HF]. Qed.

Lemma kept0_ok g p : kept0 g p = true <-> kept X g p.
Proof.
  unfold kept0. rewrite any_all. unfold kept. split; intros (m & Hm & A); exists m; split; auto.
  - apply (kept_pair (m, g) p); [apply used_ok; exact Hm |]. destruct (mk2 (m, g) p), (alw (m, g) p); try discriminate; reflexivity.
  - apply (kept_pair (m, g) p) in A; [| apply used_ok; exact Hm]. destruct (mk2 (m, g) p), (alw (m, g) p); try discriminate; reflexivity.
Qed.

Lemma based_ok g p : any_for g (with_all used mk2) p = true <-> based X g p.
Proof.
  rewrite any_all. unfold based. assert (H : forall m, occluding X (m, g) -> mk2 (m, g) p = true <-> marked X (m, g) p).
  { intros m [H1 H2]. apply mk2_ok; [exact H2 | apply (proj2 (oo_pairs X HX)); exact H1]. }
  split; intros (m & Hm & A); exists m; (split; [exact Hm | apply H; assumption]).
Qed.

Lemma occ0_ok g p : pt_in (rng g) p -> occ0 g p = true ->
  kept X g p \/ (od_smoothing X g <> 0 /\ based X g p /\
   forall x, pt_in (rng g) x -> within (od_cart X g) (od_smoothing X g) p x -> near X g (od_smoothing X g) (kept X g) x).
Proof.
  intros Hp. unfold occ0, smoothed. destruct (Z.eqb_spec (od_smoothing X g) 0) as [E | E].
  - intro H. left. apply kept0_ok. exact H.
  - rewrite andb_true_iff. intros [A B]. right. split; [exact E |]. split; [apply based_ok; exact B |].
    destruct (oo_carts X HX g) as (C1 & C2 & C3). pose proof (oo_smoothing X HX g) as Hs.
    rewrite (erode_ok _ C1 C2 C3 _ _ _ Hs Hp) in A. intros x Hx Hw. specialize (A x Hx Hw).
    apply (dilate_ok _ C1 C2 C3 _ _ _ Hs Hx) in A. destruct A as (v & V1 & V2 & V3). exists v. rewrite kept0_ok in V2. auto.
Qed.

Lemma occ0_iff g p : pt_in (rng g) p -> od_smoothing X g <> 0 -> based X g p ->
   (forall x, pt_in (rng g) x -> within (od_cart X g) (od_smoothing X g) p x -> near X g (od_smoothing X g) (kept X g) x) -> occ0 g p = true.
Proof.
  intros Hp E B A. unfold occ0, smoothed. destruct (Z.eqb_spec (od_smoothing X g) 0) as [E' | _]; [congruence |].
  rewrite andb_true_iff. split; [| apply based_ok; exact B].
  destruct (oo_carts X HX g) as (C1 & C2 & C3). pose proof (oo_smoothing X HX g) as Hs.
  rewrite (erode_ok _ C1 C2 C3 _ _ _ Hs Hp). intros x Hx Hw. apply (dilate_ok _ C1 C2 C3 _ _ _ Hs Hx).
  destruct (A x Hx Hw) as (v & V1 & V2 & V3). exists v. rewrite kept0_ok. auto.
Qed.

Lemma detect_ok : exists r, detect_occluded X junk = Some r /\ result_is X r (occluded X).
Proof.
  destruct detect_eq as (F & E & HF). eexists. split; [exact E |]. split.
  - rewrite map_map. cbn. rewrite map_id. reflexivity.
  - intros g m p H Hp. apply in_map_iff in H. destruct H as (g' & H & Hg). injection H as <- <-.
    rewrite any_all. unfold occluded. split.
    + intros (m & Hm & A). rewrite HF in A by exact Hg. destruct (mk2 (m, g') p) eqn:M; [| discriminate]. cbn in A.
      destruct (alw (m, g') p) eqn:L.
      * left. exists m. split; [exact Hm |]. apply (kept_pair (m, g') p); [apply used_ok; exact Hm |]. rewrite M, L. reflexivity.
      * cbn in A. rewrite negb_involutive in A. destruct (occ0_ok g' p Hp A) as [B | B]; auto.
    + intros [H | (H1 & H2 & H3)].
      * destruct H as (m & Hm & A). exists m. split; [exact Hm |]. rewrite HF by exact Hg.
        apply (kept_pair (m, g') p) in A; [| apply used_ok; exact Hm]. apply andb_true_iff in A. destruct A as [A B]. rewrite A, B. reflexivity.
      * pose proof (occ0_iff g' p Hp H1 H2 H3) as O. apply based_ok in H2. apply any_all in H2. destruct H2 as (m & Hm & A). exists m. split; [exact Hm |].
        rewrite HF by exact Hg. rewrite A, O. cbn. rewrite andb_false_r. reflexivity.
Qed.
End Main.

Lemma detect_needs X junk r : odata_ok X -> detect_occluded X junk = Some r -> complete X.
Proof.
  intros HX H. unfold detect_occluded, pairwise_masks in H. change (pairwise_all X) with (with_all (used X) (pairwise0 X)) in H.
  destruct (exclude X true (with_all (used X) (pairwise0 X))) as [m1 |] eqn:E1; [| discriminate].
  pose proof (exclude_needs X true _ _ E1) as N1. rewrite (exclude_all X true _ N1) in E1. injection E1 as <-.
  destruct (exclude X false _) as [m2 |] eqn:E2 in H; [| discriminate].
  pose proof (exclude_needs X false _ _ E2) as N2. rewrite (exclude_all X false _ N2) in E2. injection E2 as <-.
  destruct (omap _ _) as [pad |] eqn:E3 in H; [| discriminate].
  intros k Hk N. assert (Hu := Hk). apply used_ok in Hu. apply In_nth_error in Hu. destruct Hu as [i Hi].
  destruct (omap_nth _ _ _ i (k, next X false (next X true (pairwise0 X)) k) E3) as (e & _ & He).
  - unfold with_all. rewrite nth_error_map, Hi. reflexivity.
  - unfold padding, disallow in He. cbn [fst snd] in He. destruct (is_none (od_occludes X (swap k))) eqn:F.
    + destruct (od_occludes X (swap k)); [congruence | discriminate | discriminate].
    + destruct (entry_of _ (swap k)) as [o |] eqn:G in He; [| discriminate]. apply entry_out in G. apply used_ok in G. apply G.
Qed.

(** The same as for DilateMask and ErodeMask (C47). *)
Lemma as_reached c k m u : cart_ok c -> stored_once c -> (forall d, (c_nd c <= d < 3)%nat -> tget (c_per c) d = false) -> 0 <= k -> pt_in (c_range c) u ->
  (dilate c k m u = true <-> reached c FieldModel.BC_MIRROR m true k u) /\ (erode c k m u = false <-> reached c FieldModel.BC_MIRROR m false k u).
Proof.
  intros C1 C2 C3 Hk Hu. assert (D : forall b f, (forall v, f v = true <-> m v = b) -> dilate c k f u = true <-> reached c FieldModel.BC_MIRROR m b k u).
  { intros b f Hf. rewrite (dilate_ok c C1 C2 C3 k f u Hk Hu). unfold reached. split.
    - intros (v & V1 & V2 & v' & I & A). left. exists v, v'. split; [exact V1 |]. split; [exact I |]. split; [exact A | apply Hf; exact V2].
    - intros [(v & v' & V1 & I & A & V2) | [A _]]; [| destruct b; discriminate]. exists v. split; [exact V1 |]. split; [apply Hf; exact V2 | exists v'; auto]. }
  split; [apply D; reflexivity |]. unfold erode. rewrite negb_false_iff. apply D. intro v. destruct (m v); cbn; split; congruence.
Qed.
