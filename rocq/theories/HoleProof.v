(** Boundary holes: proofs about masks. *)
From Coq Require Import List ZArith Bool Lia Relations.
From Verif Require Import TupleModel RangeModel RangeProof IndexerModel ArrayModel CartModel CartProof HashModel HashProof FieldModel FieldSpec FieldProof AsmSpec NeighSpec Base DRangeProof DonorProof.
From Verif Require Import OccModel OccProof HoleModel HoleSpec.
Import ListNotations.
Local Open Scope Z_scope.

Section Masks.
Variable c : cart.
Hypothesis Hc : cart_ok c.
Hypothesis Hone : stored_once c.
Hypothesis Hnd3 : (c_nd c <= 3)%nat.
Hypothesis Hnd : forall d, (c_nd c <= d < 3)%nat -> tget (c_per c) d = false.
Notation R := (c_range c).

Lemma array_ok m p : pt_in R p -> array_of c m p = m p.
Proof. intro H. unfold array_of. rewrite (vread_points m R p H). reflexivity. Qed.

Lemma any_ok m : any_point c m = true <-> exists p, pt_in R p /\ m p = true.
Proof.
  unfold any_point. rewrite existsb_exists. split; intros (p & A & B); exists p; (split; [| exact B]); apply foreach_col_In; exact A.
Qed.

Lemma dilate_ext k m m' u : pt_in R u -> (forall v, pt_in R v -> m v = m' v) -> dilate c k m u = dilate c k m' u.
Proof.
  intros Hu H. unfold dilate. destruct (k =? 0); [apply H; exact Hu |]. apply Bool.eq_iff_eq_true. rewrite !existsb_exists.
  split; intros (v & Hv & A); exists v; (split; [exact Hv |]); destruct (near_pt c k u v); try discriminate; rewrite foreach_col_In in Hv; specialize (H v Hv); congruence.
Qed.

Lemma wrap_self u : pt_in R u -> wrap c u = u.
Proof.
  intro Hu. apply tup_ext. intros d Hd. unfold wrap. rewrite tget_tmake by exact Hd. pose proof (proj1 (pt_in_d _ _) Hu d Hd) as B.
  destruct (tget (c_per c) d); [| reflexivity]. rewrite (Hone d Hd). rewrite Z.mod_small by lia. lia.
Qed.

Lemma wrap_back q : is_image c (wrap c q) q.
Proof.
  intros d Hd. unfold wrap. rewrite tget_tmake by exact Hd. split; intro H; rewrite H.
  - exists ((tget q d - tget (rb R) d) / per_len c d). pose proof (Z.div_mod (tget q d - tget (rb R) d) (per_len c d)) as D.
    specialize (Hc d Hd). specialize (D ltac:(lia)). lia.
  - reflexivity.
Qed.

Lemma wrap_dim q d : (d < 3)%nat -> tget (c_per c) d = true -> tget (rb R) d <= tget (wrap c q) d < tget (re R) d.
Proof.
  intros Hd H. unfold wrap. rewrite tget_tmake by exact Hd. rewrite H. specialize (Hc d Hd). pose proof (Hone d Hd).
  pose proof (Z.mod_pos_bound (tget q d - tget (rb R) d) (per_len c d) ltac:(lia)). lia.
Qed.

Lemma wrap_other q d : (d < 3)%nat -> tget (c_per c) d = false -> tget (wrap c q) d = tget q d.
Proof. intros Hd H. unfold wrap. rewrite tget_tmake by exact Hd. rewrite H. reflexivity. Qed.

Lemma wrap_pt q : (forall d, (d < 3)%nat -> tget (c_per c) d = false -> tget (rb R) d <= tget q d < tget (re R) d) -> pt_in R (wrap c q).
Proof.
  intro H. apply pt_in_d. intros d Hd. destruct (tget (c_per c) d) eqn:E; [apply wrap_dim; assumption |]. rewrite wrap_other by assumption. apply H; assumption.
Qed.

Lemma continued_self bc m u : pt_in R u -> continued c bc m u = m u.
Proof. intro Hu. unfold continued. rewrite (wrap_self u Hu). rewrite (proj2 (rcontains_spec R u) Hu). reflexivity. Qed.

Lemma image_in q v : pt_in R v -> is_image c v q -> wrap c q = v.
Proof.
  intros Hv I. apply tup_ext. intros d Hd. unfold wrap. rewrite tget_tmake by exact Hd. destruct (I d Hd) as [I1 I2].
  pose proof (proj1 (pt_in_d _ _) Hv d Hd) as B. destruct (tget (c_per c) d).
  - destruct (I1 eq_refl) as [j ->]. rewrite (Hone d Hd) in *.
    replace (tget v d + j * (tget (re R) d - tget (rb R) d) - tget (rb R) d) with (tget v d - tget (rb R) d + j * (tget (re R) d - tget (rb R) d)) by ring.
    rewrite Z_mod_plus_full. rewrite Z.mod_small by lia. lia.
  - apply I2. reflexivity.
Qed.

(** A neighbour that is in the domain. *)
Lemma next_to (m : mask) (b : bool) u : pt_in R u -> (exists v, pt_in R v /\ m v = b /\ within c 1 u v) <->
  exists q, apart (c_nd c) 1 u q /\ pt_in R (wrap c q) /\ m (wrap c q) = b.
Proof.
  intro Hu. split.
  - intros (v & Hv & Hm & q & I & A). exists q. rewrite (image_in q v Hv I). auto.
  - intros (q & A & Hw & Hm). exists (wrap c q). split; [exact Hw |]. split; [exact Hm |]. exists q. split; [apply wrap_back | exact A].
Qed.

Lemma closest_near u q : pt_in R u -> apart (c_nd c) 1 u q -> apart (c_nd c) 1 u (closest c q) /\ pt_in R (wrap c (closest c q)).
Proof.
  intros Hu A. split.
  - intros d Hd. specialize (A d Hd). unfold closest. rewrite tget_tmake by exact Hd. pose proof (proj1 (pt_in_d _ _) Hu d Hd) as B.
    destruct (Nat.ltb d (c_nd c)); destruct (tget (c_per c) d); lia.
  - apply wrap_pt. intros d Hd E. unfold closest. rewrite tget_tmake by exact Hd. rewrite E. pose proof (proj1 (pt_in_d _ _) Hu d Hd) as B. lia.
Qed.

Lemma outer_ok bc m u : pt_in R u -> bc <> BC_TRUE -> outer_edge c m u = true <-> is_edge c bc m OUTER u.
Proof.
  intros Hu Hb. unfold outer_edge, is_edge. rewrite (continued_self bc m u Hu). cbn [negb].
  rewrite andb_true_iff, negb_true_iff. rewrite (dilate_ok c Hc Hone Hnd 1 m u ltac:(lia) Hu). rewrite (next_to m true u Hu).
  split; intros [E (q & A & B)]; (split; [exact E |]).
  - exists q. split; [exact A |]. unfold continued. rewrite (proj2 (rcontains_spec _ _) (proj1 B)). apply B.
  - unfold continued in B. destruct (rcontains R (wrap c q)) eqn:F.
    + exists q. split; [exact A |]. split; [apply rcontains_spec; exact F | exact B].
    + destruct bc; [congruence | discriminate |]. destruct (closest_near u q Hu A) as [A' I]. exists (closest c q). auto.
Qed.

Lemma inner_ok m u : pt_in R u -> inner_edge c m u = true <-> is_edge c BC_FALSE m INNER u.
Proof.
  intros Hu. unfold inner_edge, is_edge. rewrite (continued_self BC_FALSE m u Hu). cbn [negb].
  rewrite andb_true_iff, orb_true_iff. rewrite (dilate_ok c Hc Hone Hnd 1 _ u ltac:(lia) Hu). rewrite (next_to (fun q => negb (m q)) true u Hu).
  split; intros [E B]; (split; [exact E |]).
  - destruct B as [(q & A & Hw & B) | B].
    + exists q. split; [exact A |]. unfold continued. rewrite (proj2 (rcontains_spec _ _) Hw). apply negb_true_iff. exact B.
    + unfold at_side in B. apply existsb_exists in B. destruct B as (d & Hd & B). apply in_seq in Hd. apply andb_true_iff in B. destruct B as [P B].
      apply negb_true_iff in P. apply orb_true_iff in B.
      assert (exists x, Z.abs (tget u d - x) <= 1 /\ ~ (tget (rb R) d <= x < tget (re R) d)) as (x & X1 & X2).
      { destruct B as [B | B]; apply Z.eqb_eq in B; [exists (tget u d - 1) | exists (tget u d + 1)]; lia. }
      exists (tmake (fun d' => if Nat.eqb d' d then x else tget u d')). split.
      * intros d' Hd'. rewrite tget_tmake by exact Hd'. destruct (Nat.eqb_spec d' d) as [-> | N].
        -- destruct (Nat.ltb_spec d (c_nd c)); [exact X1 | lia].
        -- destruct (Nat.ltb d' (c_nd c)); lia.
      * unfold continued. destruct (rcontains R _) eqn:F; [| reflexivity]. exfalso. apply rcontains_spec in F.
        pose proof (proj1 (pt_in_d _ _) F d ltac:(lia)) as G. rewrite wrap_other in G by (exact P || lia). rewrite tget_tmake in G by lia. rewrite Nat.eqb_refl in G. lia.
  - destruct B as (q & A & B). unfold continued in B. destruct (rcontains R (wrap c q)) eqn:F.
    + left. exists q. split; [exact A |]. split; [apply rcontains_spec; exact F | rewrite B; reflexivity].
    + right. unfold at_side. apply existsb_exists.
      assert (exists d, (d < 3)%nat /\ tget (c_per c) d = false /\ ~ (tget (rb R) d <= tget q d < tget (re R) d)) as (d & Hd & P & G).
      { assert (W : ~ pt_in R (wrap c q)) by (intro W; apply rcontains_spec in W; congruence).
        assert (D : forall d, (d < 3)%nat -> {tget (c_per c) d = false /\ ~ (tget (rb R) d <= tget q d < tget (re R) d)} + {tget (c_per c) d = true \/ tget (rb R) d <= tget q d < tget (re R) d}).
        { intros d Hd. destruct (tget (c_per c) d); [right; auto |]. destruct (Z_le_gt_dec (tget (rb R) d) (tget q d)), (Z_lt_ge_dec (tget q d) (tget (re R) d));
            [right; right; lia | left; split; [reflexivity | lia] | left; split; [reflexivity | lia] | left; split; [reflexivity | lia]]. }
        destruct (D 0%nat ltac:(lia)) as [? | D0]; [exists 0%nat; split; [lia | tauto] |].
        destruct (D 1%nat ltac:(lia)) as [? | D1]; [exists 1%nat; split; [lia | tauto] |].
        destruct (D 2%nat ltac:(lia)) as [? | D2]; [exists 2%nat; split; [lia | tauto] |].
        exfalso. apply W. apply wrap_pt. intros d Hd Ef. destruct d as [| [| [| d]]]; [| | | lia]; intuition congruence. }
      exists d. specialize (A d Hd). pose proof (proj1 (pt_in_d _ _) Hu d Hd) as B'. destruct (Nat.ltb_spec d (c_nd c)) as [N | N]; [| exfalso; apply G; lia].
      split; [apply in_seq; lia |]. rewrite P. cbn. apply orb_true_iff. rewrite !Z.eqb_eq. lia.
Qed.

(** ** Distances add up *)

Lemma within_trans i j u w v : within c i u w -> within c j w v -> within c (i + j) u v.
Proof.
  intros (x & Ix & Ax) (y & Iy & Ay). exists (tmake (fun d => tget y d + (tget x d - tget w d))). split.
  - intros d Hd. rewrite tget_tmake by exact Hd. destruct (Ix d Hd) as [A1 A2], (Iy d Hd) as [B1 B2]. split; intro E.
    + destruct (A1 E) as [a Ha], (B1 E) as [b Hb]. exists (a + b). rewrite Ha, Hb. ring.
    + rewrite (A2 E), (B2 E). ring.
  - intros d Hd. rewrite tget_tmake by exact Hd. specialize (Ax d Hd). specialize (Ay d Hd). destruct (Nat.ltb d (c_nd c)); lia.
Qed.

Lemma within_le i j u v : i <= j -> within c i u v -> within c j u v.
Proof. intros H (x & I & A). exists x. split; [exact I |]. intros d Hd. specialize (A d Hd). destruct (Nat.ltb d (c_nd c)); lia. Qed.

Lemma within_split i u v : 0 <= i -> pt_in R u -> pt_in R v -> within c (i + 1) u v -> exists w, pt_in R w /\ within c 1 u w /\ within c i w v.
Proof.
  intros Hi Hu Hv (x & I & A).
  set (y := tmake (fun d => tget u d + Z.sgn (tget x d - tget u d))).
  assert (Gy : forall d, (d < 3)%nat -> tget y d = tget u d + Z.sgn (tget x d - tget u d)) by (intros d Hd; unfold y; rewrite tget_tmake by exact Hd; reflexivity).
  exists (wrap c y). assert (W : pt_in R (wrap c y)).
  { apply wrap_pt. intros d Hd E. rewrite (Gy d Hd). destruct (I d Hd) as [_ I2]. rewrite (I2 E).
    pose proof (proj1 (pt_in_d _ _) Hu d Hd). pose proof (proj1 (pt_in_d _ _) Hv d Hd). pose proof (Z.sgn_spec (tget v d - tget u d)). lia. }
  split; [exact W |]. split.
  - exists y. split; [apply wrap_back |]. intros d Hd. specialize (A d Hd). rewrite (Gy d Hd). pose proof (Z.sgn_spec (tget x d - tget u d)). destruct (Nat.ltb d (c_nd c)); lia.
  - exists (tmake (fun d => tget x d + (tget (wrap c y) d - tget y d))). split.
    + intros d Hd. rewrite tget_tmake by exact Hd. destruct (I d Hd) as [I1 I2]. destruct (wrap_back y d Hd) as [J1 J2]. split; intro E.
      * destruct (I1 E) as [a Ha], (J1 E) as [b Hb]. exists (a - b). rewrite Ha. lia.
      * rewrite (I2 E). pose proof (J2 E). lia.
    + intros d Hd. rewrite tget_tmake by exact Hd. specialize (A d Hd). rewrite (Gy d Hd). pose proof (Z.sgn_spec (tget x d - tget u d)). destruct (Nat.ltb d (c_nd c)); lia.
Qed.

Lemma dilate_again i m m' u : 0 <= i -> pt_in R u -> (forall v, pt_in R v -> m' v = dilate c i m v) -> dilate c 1 m' u = dilate c (i + 1) m u.
Proof.
  intros Hi Hu H. apply Bool.eq_iff_eq_true. rewrite !dilate_ok by (assumption || lia). split.
  - intros (w & Hw & Hm & Hd). rewrite (H w Hw) in Hm. apply dilate_ok in Hm; try assumption. destruct Hm as (v & Hv & Hm & Hd').
    exists v. split; [exact Hv |]. split; [exact Hm |]. rewrite Z.add_comm. apply (within_trans 1 i u w v); assumption.
  - intros (v & Hv & Hm & Hd). destruct (within_split i u v Hi Hu Hv Hd) as (w & W1 & W2 & W3). exists w. split; [exact W1 |]. split; [| exact W2].
    rewrite (H w W1). apply dilate_ok; try assumption. exists v. auto.
Qed.

(** Any two points are at most this far apart. *)
Definition diameter : Z := tget (re R) 0 - tget (rb R) 0 + (tget (re R) 1 - tget (rb R) 1) + (tget (re R) 2 - tget (rb R) 2).
Hypothesis Hflat : forall d, (c_nd c <= d < 3)%nat -> tget (re R) d = tget (rb R) d + 1.

Lemma within_diameter u v : pt_in R u -> pt_in R v -> within c diameter u v.
Proof.
  intros Hu Hv. exists v. split; [intros d Hd; split; intro E; [exists 0; lia | reflexivity] |].
  intros d Hd. pose proof (proj1 (pt_in_d _ _) Hu) as U. pose proof (proj1 (pt_in_d _ _) Hv) as V. unfold diameter.
  pose proof (U 0%nat ltac:(lia)). pose proof (U 1%nat ltac:(lia)). pose proof (U 2%nat ltac:(lia)).
  pose proof (V 0%nat ltac:(lia)). pose proof (V 1%nat ltac:(lia)). pose proof (V 2%nat ltac:(lia)).
  destruct (Nat.ltb_spec d (c_nd c)) as [N | N].
  - destruct d as [| [| [| d]]]; lia.
  - pose proof (Hflat d ltac:(lia)). pose proof (U d Hd). pose proof (V d Hd). lia.
Qed.

(** ** Flooding *)

Section Flood.
Variables m0 barrier : mask.
Notation stp := (flood_step c barrier).
Definition levels (k : nat) : mask := Nat.iter k stp (array_of c m0).
Definition stable (m : mask) : Prop := forall p, pt_in R p -> stp m p = true -> m p = true.
Definition cnt (m : mask) : nat := length (filter m (foreach_col R)).

Lemma step_eq m p : pt_in R p -> stp m p = m p || (negb (barrier p) && dilate c 1 (fun q => m q && negb (barrier q)) p).
Proof. intro H. unfold flood_step. rewrite array_ok by exact H. reflexivity. Qed.

Lemma step_more m p : pt_in R p -> m p = true -> stp m p = true.
Proof. intros H E. rewrite step_eq by exact H. rewrite E. reflexivity. Qed.

Lemma step_ext m m' p : pt_in R p -> (forall v, pt_in R v -> m v = m' v) -> stp m p = stp m' p.
Proof.
  intros Hp H. rewrite !step_eq by exact Hp. rewrite (H p Hp). f_equal. f_equal. apply dilate_ext; [exact Hp |]. intros v Hv. rewrite (H v Hv). reflexivity.
Qed.

Lemma stable_next m : stable m -> stable (stp m).
Proof.
  intros S p Hp E. assert (H : forall v, pt_in R v -> stp m v = m v).
  { intros v Hv. apply Bool.eq_iff_eq_true. split; [apply S; exact Hv | apply step_more; exact Hv]. }
  rewrite (step_ext (stp m) m p Hp H) in E. exact E.
Qed.

Lemma filter_less (f g : mask) l : (forall x, In x l -> f x = true -> g x = true) -> (length (filter f l) <= length (filter g l))%nat.
Proof.
  induction l as [| a l IH]; [intros _; cbn; lia |]. intro H. cbn. pose proof (IH (fun x Hx => H x (or_intror Hx))). pose proof (H a (or_introl eq_refl)) as Ha.
  destruct (f a); [rewrite (Ha eq_refl); cbn; lia | destruct (g a); cbn; lia].
Qed.

Lemma filter_strict (f g : mask) l : (forall x, In x l -> f x = true -> g x = true) -> (exists x, In x l /\ f x = false /\ g x = true) ->
  (length (filter f l) < length (filter g l))%nat.
Proof.
  induction l as [| a l IH]; intros H (x & Hx & F & G); [destruct Hx |]. cbn.
  pose proof (filter_less f g l (fun x Hx => H x (or_intror Hx))) as L. destruct Hx as [-> | Hx].
  - rewrite F, G. cbn. lia.
  - pose proof (IH (fun x Hx => H x (or_intror Hx)) (ex_intro _ x (conj Hx (conj F G)))). pose proof (H a (or_introl eq_refl)) as Ha.
    destruct (f a); [rewrite (Ha eq_refl); cbn; lia | destruct (g a); cbn; lia].
Qed.

Lemma stable_dec m : stable m \/ exists p, pt_in R p /\ m p = false /\ stp m p = true.
Proof.
  destruct (existsb (fun p => negb (m p) && stp m p) (foreach_col R)) eqn:E.
  - right. apply existsb_exists in E. destruct E as (p & Hp & E). apply foreach_col_In in Hp. apply andb_true_iff in E. destruct E as [A B].
    apply negb_true_iff in A. exists p. auto.
  - left. intros p Hp A. destruct (m p) eqn:B; [reflexivity |]. exfalso. apply not_true_iff_false in E. apply E. apply existsb_exists. exists p.
    split; [apply foreach_col_In; exact Hp | rewrite A, B; reflexivity].
Qed.

Lemma levels_grow k : stable (levels k) \/ (k <= cnt (levels k))%nat.
Proof.
  induction k as [| k IH]; [right; lia |]. change (levels (S k)) with (stp (levels k)). destruct IH as [S | C]; [left; apply stable_next; exact S |].
  destruct (stable_dec (levels k)) as [S | (p & Hp & A & B)]; [left; apply stable_next; exact S |]. right.
  assert (cnt (levels k) < cnt (stp (levels k)))%nat; [| lia]. apply filter_strict.
  - intros x Hx E. apply step_more; [apply foreach_col_In; exact Hx | exact E].
  - exists p. split; [apply foreach_col_In; exact Hp | auto].
Qed.

Lemma filter_all (f : mask) l : (length l <= length (filter f l))%nat -> forall x, In x l -> f x = true.
Proof.
  induction l as [| a l IH]; [intros _ x [] |]. cbn. intro H. pose proof (filter_less f (fun _ => true) l ltac:(auto)) as L.
  assert (E : forall l : list (tup Z), filter (fun _ => true) l = l) by (intro l'; induction l' as [| b l' IH']; [reflexivity | cbn; rewrite IH'; reflexivity]).
  rewrite E in L. destruct (f a) eqn:F; cbn in H; [| lia]. intros x [<- | Hx]; [exact F | apply IH; [lia | exact Hx]].
Qed.

Lemma flood_stable : stable (flood c m0 barrier).
Proof.
  unfold flood. fold (levels (length (foreach_col R))). destruct (levels_grow (length (foreach_col R))) as [S | C]; [exact S |].
  intros p Hp _. apply (filter_all _ _ C). apply foreach_col_In. exact Hp.
Qed.

Definition opens (u v : tup Z) : Prop := pt_in R u /\ pt_in R v /\ within c 1 u v /\ barrier u = false /\ barrier v = false.

Lemma flood_ok p : pt_in R p -> flood c m0 barrier p = true <->
  m0 p = true \/ exists s, pt_in R s /\ m0 s = true /\ barrier s = false /\ clos_refl_trans _ opens s p.
Proof.
  intro Hp. split.
  - unfold flood. generalize (length (foreach_col R)). intro k. revert p Hp. induction k as [| k IH]; intros p Hp H.
    + cbn in H. rewrite array_ok in H by exact Hp. left. exact H.
    + cbn [Nat.iter nat_rect] in H. change (flood_step c barrier (levels k) p = true) in H. rewrite step_eq in H by exact Hp.
      apply orb_true_iff in H. destruct H as [H | H]; [apply IH; assumption |]. apply andb_true_iff in H. destruct H as [B D]. apply negb_true_iff in B.
      apply dilate_ok in D; try assumption; try lia. destruct D as (q & Hq & D & W). apply andb_true_iff in D. destruct D as [D Bq]. apply negb_true_iff in Bq.
      assert (O : opens q p) by (split; [exact Hq |]; split; [exact Hp |]; split; [apply within_sym; assumption | auto]).
      right. destruct (IH q Hq D) as [M | (s & S1 & S2 & S3 & S4)].
      * exists q. split; [exact Hq |]. split; [exact M |]. split; [exact Bq | apply rt_step; exact O].
      * exists s. split; [exact S1 |]. split; [exact S2 |]. split; [exact S3 |]. eapply rt_trans; [exact S4 | apply rt_step; exact O].
  - assert (M : forall q, pt_in R q -> m0 q = true -> flood c m0 barrier q = true).
    { intros q Hq E. unfold flood. generalize (length (foreach_col R)). intro k. induction k as [| k IH]; [cbn; rewrite array_ok by exact Hq; exact E |].
      cbn [Nat.iter nat_rect]. apply step_more; [exact Hq | exact IH]. }
    intros [H | (s & S1 & S2 & S3 & S4)]; [apply M; assumption |].
    assert (G : flood c m0 barrier s = true) by (apply M; assumption). clear M S1 S2 S3 Hp. apply clos_rt_rt1n in S4. induction S4 as [| s q p O _ IH]; [exact G |].
    apply IH. destruct O as (O1 & O2 & O3 & O4 & O5). apply flood_stable; [exact O2 |]. rewrite step_eq by exact O2. rewrite O5. apply orb_true_iff. right. cbn [negb andb].
    apply dilate_ok; try assumption; try lia. exists s. split; [exact O1 |]. rewrite G, O4. split; [reflexivity | apply within_sym; assumption].
Qed.
End Flood.
End Masks.
