(** Boundary holes: proofs. *)
From Coq Require Import List ZArith Bool Lia Relations.
From Verif Require Import TupleModel RangeModel RangeProof IndexerModel ArrayModel CartModel CartProof HashModel HashProof FieldModel FieldSpec AsmSpec NeighSpec Base.
From Verif Require Import OccModel OccProof HoleModel HoleSpec HoleProof.
Import ListNotations.
Local Open Scope Z_scope.

(** ** The loop *)

Section Grow.
Variable c : cart.
Hypothesis Hc : cart_ok c.
Hypothesis Hone : stored_once c.
Hypothesis Hnd3 : (c_nd c <= 3)%nat.
Hypothesis Hnd : forall d, (c_nd c <= d < 3)%nat -> tget (c_per c) d = false.
Notation R := (c_range c).
Variables cov0 unc0 : mask.
Definition covers (e : Z) : Prop := forall p, pt_in R p -> unc0 p = true -> dilate c e cov0 p = true.

Lemma dilate_more i j p : 0 <= i <= j -> pt_in R p -> dilate c i cov0 p = true -> dilate c j cov0 p = true.
Proof.
  intros H Hp. rewrite !dilate_ok by (assumption || lia). intros (v & A & B & C). exists v. split; [exact A |]. split; [exact B |].
  destruct C as (x & I & Ap). exists x. split; [exact I |]. intros d Hd. specialize (Ap d Hd). destruct (Nat.ltb d (c_nd c)); lia.
Qed.

Definition loop_inv (i : Z) (cov unc : mask) : Prop :=
  forall p, pt_in R p -> cov p = dilate c i cov0 p /\ unc p = unc0 p && negb (dilate c i cov0 p).

Lemma loop_next i cov unc : 0 <= i -> loop_inv i cov unc ->
  loop_inv (i + 1) (array_of c (dilate c 1 cov)) (array_of c (fun p => unc p && negb (array_of c (dilate c 1 cov) p))).
Proof.
  intros Hi I p Hp. rewrite !array_ok by exact Hp.
  assert (D : dilate c 1 cov p = dilate c (i + 1) cov0 p) by (apply dilate_again; try assumption; intros v Hv; apply I; exact Hv).
  rewrite D. split; [reflexivity |]. rewrite (proj2 (I p Hp)). destruct (dilate c i cov0 p) eqn:E.
  - rewrite (dilate_more i (i + 1) p ltac:(lia) Hp E). cbn. rewrite !andb_false_r. reflexivity.
  - cbn. rewrite andb_true_r. reflexivity.
Qed.

Lemma loop_test i cov unc : loop_inv i cov unc -> any_point c unc = false <-> covers i.
Proof.
  intro I. rewrite <- not_true_iff_false, any_ok. split.
  - intros H p Hp U. destruct (dilate c i cov0 p) eqn:E; [reflexivity |]. exfalso. apply H. exists p. split; [exact Hp |]. rewrite (proj2 (I p Hp)), U, E. reflexivity.
  - intros H (p & Hp & E). rewrite (proj2 (I p Hp)) in E. apply andb_true_iff in E. destruct E as [E1 E2]. rewrite (H p Hp E1) in E2. discriminate.
Qed.

Lemma grow_ok fuel i cov unc d : 0 <= i -> loop_inv i cov unc -> grow fuel c cov unc i = Some d -> i <= d /\ covers d /\ forall e, i <= e < d -> ~ covers e.
Proof.
  revert i cov unc. induction fuel as [| f IH]; [discriminate |]. intros i cov unc Hi I H. cbn [grow] in H. destruct (any_point c unc) eqn:A.
  - destruct (IH (i + 1) _ _ ltac:(lia) (loop_next i cov unc Hi I) H) as (A1 & A2 & A3). split; [lia |]. split; [exact A2 |].
    intros e He. destruct (Z.eq_dec e i) as [-> | N]; [| apply A3; lia]. intro K. apply (loop_test i cov unc I) in K. congruence.
  - injection H as <-. split; [lia |]. split; [apply (loop_test i cov unc I); exact A | lia].
Qed.

Lemma grow_ends fuel i cov unc D : 0 <= i <= D -> loop_inv i cov unc -> covers D -> D - i < Z.of_nat fuel -> exists d, grow fuel c cov unc i = Some d.
Proof.
  revert i cov unc. induction fuel as [| f IH]; intros i cov unc Hi I K L; [lia |].
  cbn [grow]. destruct (any_point c unc) eqn:A; [| exists i; reflexivity].
  assert (N : i <> D) by (intros ->; apply (loop_test D cov unc I) in K; congruence).
  apply IH; [lia | apply loop_next; [lia | exact I] | exact K | lia].
Qed.
End Grow.

(** ** Pairs *)

Section Main.
Variable X : hdata.
Hypothesis HX : hdata_ok X.
Notation cart_of := (hd_cart X).
Notation rng g := (c_range (hd_cart X g)).

Lemma carts g : cart_ok (cart_of g) /\ stored_once (cart_of g) /\ (c_nd (cart_of g) <= 3)%nat /\
  (forall d, (c_nd (cart_of g) <= d < 3)%nat -> tget (c_per (cart_of g)) d = false) /\
  (forall d, (c_nd (cart_of g) <= d < 3)%nat -> tget (re (rng g)) d = tget (rb (rng g)) d + 1).
Proof. destruct (ho_carts X HX g) as (A & B & C & D). split; [exact A |]. split; [exact B |]. split; [exact C |]. split; intros d Hd; apply (D d Hd). Qed.

Lemma cut_pairs_ok k : In k (cut_pairs X) <-> cuts X k.
Proof.
  unfold cut_pairs, cuts. rewrite filter_In, !andb_true_iff. destruct k as [a b]. rewrite in_prod_iff. cbn [fst snd].
  assert (H : forall k, has_pair X k = true <-> In k (hd_pairs X)).
  { intro k. unfold has_pair. rewrite existsb_exists. split; [intros (k' & A & B); apply pair_eqb_ok in B; subst; exact A |].
    intro A. exists k. split; [exact A | apply pair_eqb_ok; reflexivity]. }
  rewrite !H. tauto.
Qed.

Lemma cover_ok k flag p : pt_in (rng (snd k)) p -> cover X k flag p = true <-> touched X k (fun q => flag q = true) p.
Proof.
  intro Hp. unfold cover. rewrite array_ok by exact Hp. rewrite existsb_exists. unfold touched. split.
  - intros (v & Hv & E). apply in_flat_map in Hv. destruct Hv as (q & Hq & Hv). apply foreach_col_In in Hq.
    assert (v = p) by (destruct v, p; cbn in E; rewrite !andb_true_iff, !Z.eqb_eq in E; destruct E as [[-> ->] ->]; reflexivity). subst v.
    destruct (flag q) eqn:F; [| destruct Hv]. destruct (hd_vertices X (swap k) q) as [vs |] eqn:V; [| destruct Hv]. exists q, vs. auto.
  - intros (q & vs & Hq & F & V & Hv). exists p. split; [| rewrite !Z.eqb_refl; reflexivity]. apply in_flat_map. exists q. split; [apply foreach_col_In; exact Hq |].
    rewrite F, V. exact Hv.
Qed.

Lemma touched_ext k (P Q : tup Z -> Prop) p : (forall q, pt_in (rng (fst k)) q -> (P q <-> Q q)) -> touched X k P p <-> touched X k Q p.
Proof. intro H. split; intros (q & vs & A & B & C); exists q, vs; (split; [exact A |]; split; [apply (H q A); exact B | exact C]). Qed.

Lemma touched_in k P p : touched X k P p -> pt_in (rng (snd k)) p.
Proof. intros (q & vs & _ & _ & V & Hv). apply (ho_vertices X HX (swap k) q vs p V Hv). Qed.

Lemma close_ok g n m (P : tup Z -> Prop) u : 0 <= n -> pt_in (rng g) u -> (forall v, pt_in (rng g) v -> (m v = true <-> P v)) ->
  dilate (cart_of g) n m u = true <-> close X g n P u.
Proof.
  intros Hn Hu H. destruct (carts g) as (C1 & C2 & C3 & C4 & C5). rewrite dilate_ok by assumption. unfold close.
  split; intros (v & A & B & C); exists v; (split; [exact A |]; split; [apply (H v A); exact B | exact C]).
Qed.

Definition cov_of (k : Z * Z) : mask := cover X k (inner_edge (cart_of (fst k)) (hd_overlap X (swap k))).
Definition unc_of (k : Z * Z) : mask := outer_edge (cart_of (snd k)) (hd_overlap X k).

Lemma cov_of_ok k p : pt_in (rng (snd k)) p -> cov_of k p = true <-> touched X k (rim X k) p.
Proof.
  intro Hp. unfold cov_of. rewrite cover_ok by exact Hp. apply touched_ext. intros q Hq. destruct (carts (fst k)) as (C1 & C2 & C3 & C4 & C5). apply inner_ok; assumption.
Qed.

Lemma covers_ok k e : 0 <= e -> covers (cart_of (snd k)) (cov_of k) (unc_of k) e <-> forall p, beyond X k p -> close X (snd k) e (touched X k (rim X k)) p.
Proof.
  intro He. destruct (carts (snd k)) as (C1 & C2 & C3 & C4 & C5).
  assert (B : forall p, pt_in (rng (snd k)) p -> unc_of k p = true <-> is_edge (cart_of (snd k)) BC_MIRROR (hd_overlap X k) OUTER p).
  { intros p Hp. unfold unc_of. apply outer_ok; (assumption || discriminate). }
  unfold covers, beyond. split.
  - intros H p [Hp E]. apply (close_ok (snd k) e (cov_of k)); [exact He | exact Hp | intros v Hv; apply cov_of_ok; exact Hv |]. apply H; [exact Hp | apply B; assumption].
  - intros H p Hp E. apply (close_ok (snd k) e (cov_of k) (touched X k (rim X k))); [exact He | exact Hp | intros v Hv; apply cov_of_ok; exact Hv |].
    apply H. split; [exact Hp | apply B; assumption].
Qed.

Lemma loop_start k : loop_inv (cart_of (snd k)) (cov_of k) (unc_of k) 0 (cov_of k) (array_of (cart_of (snd k)) (fun p => unc_of k p && negb (cov_of k p))).
Proof. intros p Hp. rewrite array_ok by exact Hp. split; reflexivity. Qed.

Lemma reach_ok fuel k d : num_dilates X fuel k = Some d -> reach X k d.
Proof.
  intro H. destruct (carts (snd k)) as (C1 & C2 & C3 & C4 & C5).
  destruct (grow_ok _ C1 C2 C3 C4 (cov_of k) (unc_of k) fuel 0 _ _ d ltac:(lia) (loop_start k) H) as (A & B & D). split; [exact A |].
  split; [apply covers_ok; assumption |]. intros e He K. apply (D e He). apply covers_ok; [lia | exact K].
Qed.

Lemma reach_unique k d e : reach X k d -> reach X k e -> d = e.
Proof.
  intros (A1 & A2 & A3) (B1 & B2 & B3). destruct (Z.lt_trichotomy d e) as [L | [L | L]]; [| exact L |]; exfalso.
  - apply (B3 d); [lia | exact A2].
  - apply (A3 e); [lia | exact B2].
Qed.

Lemma dilates_end k : ((exists p, beyond X k p) -> exists p, pt_in (rng (snd k)) p /\ touched X k (rim X k) p) ->
  exists f0, forall fuel, (f0 <= fuel)%nat -> exists d, num_dilates X fuel k = Some d.
Proof.
  intro H. destruct (carts (snd k)) as (C1 & C2 & C3 & C4 & C5). set (D := diameter (cart_of (snd k))).
  assert (P : 0 <= D). { pose proof (C1 0%nat ltac:(lia)). pose proof (C1 1%nat ltac:(lia)). pose proof (C1 2%nat ltac:(lia)).
    pose proof (C2 0%nat ltac:(lia)). pose proof (C2 1%nat ltac:(lia)). pose proof (C2 2%nat ltac:(lia)). unfold D, diameter. lia. }
  assert (K : covers (cart_of (snd k)) (cov_of k) (unc_of k) D).
  { apply covers_ok; [exact P |]. intros p Hp. destruct (H (ex_intro _ p Hp)) as (v & V1 & V2). exists v. split; [exact V1 |]. split; [exact V2 |].
    apply within_diameter; try assumption. apply Hp. }
  exists (S (Z.to_nat D)). intros fuel Hf. apply (grow_ends _ C1 C2 C3 C4 (cov_of k) (unc_of k) fuel 0 _ _ D); [lia | apply loop_start | exact K | lia].
Qed.

Lemma dilates_need fuel k d : num_dilates X fuel k = Some d -> (exists p, beyond X k p) -> exists p, pt_in (rng (snd k)) p /\ touched X k (rim X k) p.
Proof.
  intros H (p & Hp). destruct (reach_ok fuel k d H) as (_ & A & _). destruct (A p Hp) as (v & V1 & V2 & _). exists v. auto.
Qed.

(** ** Projected boundaries *)

Lemma projected_ok k d p : reach X k d -> pt_in (rng (snd k)) p -> projected X k d p = true <-> boundary_of X k p.
Proof.
  intros Hd Hp. destruct (carts (snd k)) as (C1 & C2 & C3 & C4 & C5). assert (D0 : 0 <= d) by apply Hd. unfold projected. rewrite array_ok by exact Hp. unfold outer_edge.
  rewrite !andb_true_iff, negb_true_iff. rewrite array_ok by exact Hp.
  set (P := fun v => hd_overlap X k v = false /\ close X (snd k) d (touched X k (fun q => hd_boundary X (fst k) q = true)) v).
  rewrite (close_ok (snd k) 1 _ P p); [| lia | exact Hp |].
  - unfold boundary_of. split.
    + intros [[_ A] B]. split; [exact B |]. exists d. split; [exact Hd | exact A].
    + intros [B (e & He & A)]. rewrite (reach_unique k e d He Hd) in A. split; [split; [| exact A] | exact B]. rewrite B. cbn. apply andb_false_r.
  - intros v Hv. rewrite array_ok by exact Hv. rewrite andb_true_iff, negb_true_iff. rewrite array_ok by exact Hv. unfold P.
    rewrite (close_ok (snd k) d _ (touched X k (fun q => hd_boundary X (fst k) q = true)) v); [tauto | exact D0 | exact Hv |].
    intros w Hw. rewrite cover_ok by exact Hw. unfold touched. split; intros (q & vs & A & B & C & E); exists q, vs.
    + rewrite C in B. auto.
    + split; [exact A |]. rewrite C. auto.
Qed.

(** ** What is removed *)

Section Removed.
Variable projs : list ((Z * Z) * mask).
Hypothesis Hprojs : forall e, In e projs -> cuts X (fst e) /\ forall p, pt_in (rng (snd (fst e))) p -> (snd e p = true <-> boundary_of X (fst e) p).
Hypothesis Hall : forall k, cuts X k -> exists m, In (k, m) projs.
Variable g : Z.
Notation c := (cart_of g).
Notation R := (rng g).

Lemma mine_ok (e : (Z * Z) * mask) : In e (filter (fun e => snd (fst e) =? g) projs) <-> In e projs /\ snd (fst e) = g.
Proof. rewrite filter_In, Z.eqb_eq. tauto. Qed.

Definition bnd : mask := array_of c (fun p => hd_boundary X g p || existsb (fun e => snd e p) (filter (fun e => snd (fst e) =? g) projs)).
Lemma bnd_ok p : pt_in R p -> bnd p = true <-> wall X g p.
Proof.
  intro Hp. unfold bnd. rewrite array_ok by exact Hp. rewrite orb_true_iff, existsb_exists. unfold wall. split; intros [H | H]; [left; exact H | right | left; exact H | right].
  - destruct H as (e & He & H). apply mine_ok in He. destruct He as [He Eg]. destruct (Hprojs e He) as [A B]. exists (fst e). split; [exact A |]. split; [exact Eg |].
    apply B; [rewrite Eg; exact Hp | exact H].
  - destruct H as (k & A & Eg & B). destruct (Hall k A) as (m & Hm). exists (k, m). split; [apply mine_ok; auto |]. apply (Hprojs (k, m) Hm); [cbn; rewrite Eg; exact Hp | exact B].
Qed.

Lemma seeds_ok (e : (Z * Z) * mask) p : In e projs -> pt_in (rng (snd (fst e))) p -> seeds X (fst e) (snd e) p = true <-> seed X (fst e) p.
Proof.
  intros He Hp. unfold seeds, seed, outer_edge. rewrite array_ok by exact Hp. rewrite !andb_true_iff, negb_true_iff. destruct (Hprojs e He) as [_ B].
  rewrite (close_ok (snd (fst e)) 1 (snd e) (boundary_of X (fst e)) p ltac:(lia) Hp B). rewrite <- not_true_iff_false, (B p Hp). tauto.
Qed.

Definition st0 : mask := array_of c (fun p => existsb (fun m => m p) (map (fun e => seeds X (fst e) (snd e)) (filter (fun e => snd (fst e) =? g) projs))).
Lemma st0_ok p : pt_in R p -> st0 p = true <-> start X g p.
Proof.
  intro Hp. unfold st0. rewrite array_ok by exact Hp. rewrite existsb_exists. unfold start. split.
  - intros (m & Hm & H). apply in_map_iff in Hm. destruct Hm as (e & <- & He). apply mine_ok in He. destruct He as [He Eg]. exists (fst e).
    split; [apply (Hprojs e He) |]. split; [exact Eg |]. apply (seeds_ok e p He); [rewrite Eg; exact Hp | exact H].
  - intros (k & A & Eg & B). destruct (Hall k A) as (m & Hm). exists (seeds X k m). split; [apply in_map_iff; exists (k, m); split; [reflexivity | apply mine_ok; auto] |].
    apply (seeds_ok (k, m) p Hm); [cbn; rewrite Eg; exact Hp | exact B].
Qed.

Lemma bnd_false p : pt_in R p -> bnd p = false <-> ~ wall X g p.
Proof. intro Hp. rewrite <- (bnd_ok p Hp). rewrite not_true_iff_false. tauto. Qed.

Lemma steps_same s p : clos_refl_trans _ (opens c bnd) s p <-> clos_refl_trans _ (open_step X g) s p.
Proof.
  assert (H : forall u v, opens c bnd u v <-> open_step X g u v).
  { intros u v. unfold opens, open_step. split; intros (A & B & C & D & E); (split; [exact A |]; split; [exact B |]; split; [exact C |]).
    - rewrite (bnd_false u A) in D. rewrite (bnd_false v B) in E. auto.
    - rewrite (bnd_false u A), (bnd_false v B). auto. }
  split; induction 1 as [u v O | u | u v w _ I1 _ I2]; [apply rt_step; apply H; exact O | apply rt_refl | eapply rt_trans; eassumption | apply rt_step; apply H; exact O | apply rt_refl | eapply rt_trans; eassumption].
Qed.

Lemma interior_ok p : pt_in R p -> flood c st0 bnd p = true <-> interior X g p.
Proof.
  intro Hp. destruct (carts g) as (C1 & C2 & C3 & C4 & C5). rewrite flood_ok by assumption. rewrite (st0_ok p Hp). unfold interior. split.
  - intros [H | (s & S1 & S2 & S3 & S4)]; [left; exact H | right]. exists s. split; [exact S1 |]. split; [apply st0_ok; assumption |].
    split; [apply bnd_false; assumption | apply steps_same; exact S4].
  - intros [H | (s & S1 & S2 & S3 & S4)]; [left; exact H | right]. exists s. split; [exact S1 |]. split; [apply st0_ok; assumption |].
    split; [apply bnd_false; assumption | apply steps_same; exact S4].
Qed.

Lemma removed_ok p : pt_in R p -> removed X projs g p = true <-> hole X g p.
Proof.
  intro Hp. destruct (carts g) as (C1 & C2 & C3 & C4 & C5). unfold removed. fold bnd. fold st0. unfold hole. destruct (any_point c st0) eqn:E.
  - apply any_ok in E. destruct E as (s & S1 & S2). apply (st0_ok s S1) in S2. rewrite array_ok by exact Hp. rewrite !andb_true_iff, !negb_true_iff.
    rewrite (array_ok c _ p Hp).
    assert (I : flood c st0 bnd p = false <-> ~ interior X g p) by (rewrite <- (interior_ok p Hp), not_true_iff_false; tauto).
    rewrite I.
    assert (F : (hd_boundary X g p && inner_edge c (hd_active X g) p && negb (outer_edge c (flood c st0 bnd) p)) = true <-> faces_out X g p).
    { unfold faces_out. rewrite !andb_true_iff. rewrite (inner_ok c C1 C2 C3 C4 _ p Hp). rewrite negb_true_iff. unfold outer_edge.
      rewrite andb_false_iff, negb_false_iff, (interior_ok p Hp). rewrite <- not_true_iff_false.
      rewrite (close_ok g 1 (flood c st0 bnd) (interior X g) p ltac:(lia) Hp interior_ok). tauto. }
    assert (W : (bnd p && negb (hd_boundary X g p && inner_edge c (hd_active X g) p && negb (outer_edge c (flood c st0 bnd) p))) = false <-> (wall X g p -> faces_out X g p)).
    { rewrite <- F, <- (bnd_ok p Hp). destruct (bnd p); destruct (_ && _ && _); cbn; split; auto; try congruence; intro Z; specialize (Z eq_refl); congruence. }
    rewrite W. split; [intros [[A B] D]; split; [exists s; auto | auto] | intros (_ & A & B & D); auto].
  - split; [discriminate |]. intros [(s & S1 & S2) _]. exfalso. apply not_true_iff_false in E. apply E. apply any_ok. exists s. split; [exact S1 | apply st0_ok; assumption].
Qed.
End Removed.

Lemma projs_ok fuel projs : omap (fun k => let! d := num_dilates X fuel k in Some (k, projected X k d)) (cut_pairs X) = Some projs ->
  (forall e, In e projs -> cuts X (fst e) /\ forall p, pt_in (rng (snd (fst e))) p -> (snd e p = true <-> boundary_of X (fst e) p)) /\
  (forall k, cuts X k -> exists m, In (k, m) projs) /\ forall k, cuts X k -> exists d, num_dilates X fuel k = Some d.
Proof.
  intro H. split; [| split].
  - intros e He. apply omap_some in H. assert (exists k, In k (cut_pairs X) /\ (let! d := num_dilates X fuel k in Some (k, projected X k d)) = Some e) as (k & Hk & E).
    { induction H as [| a b l r Hab _ IH]; [destruct He |]. destruct He as [<- | He]; [exists a; split; [left; reflexivity | exact Hab] |].
      destruct (IH He) as (k & K1 & K2). exists k. split; [right; exact K1 | exact K2]. }
    destruct (num_dilates X fuel k) as [d |] eqn:D; [| discriminate]. injection E as <-. cbn [fst snd]. split; [apply cut_pairs_ok; exact Hk |].
    intros p Hp. apply projected_ok; [apply (reach_ok fuel k d D) | exact Hp].
  - intros k Hk. apply cut_pairs_ok in Hk. apply In_nth_error in Hk. destruct Hk as [i Hi]. destruct (omap_nth _ _ _ i k H Hi) as (b & Hb & E).
    destruct (num_dilates X fuel k) as [d |]; [| discriminate]. injection E as <-. exists (projected X k d). apply nth_error_In in Hb. exact Hb.
  - intros k Hk. apply cut_pairs_ok in Hk. apply In_nth_error in Hk. destruct Hk as [i Hi]. destruct (omap_nth _ _ _ i k H Hi) as (b & Hb & E).
    destruct (num_dilates X fuel k) as [d |]; [| discriminate]. exists d. reflexivity.
Qed.

Lemma cut_result fuel r : cut_holes X fuel = Some r -> holes_are X r (hole X).
Proof.
  unfold cut_holes. destruct (omap _ _) as [projs |] eqn:E; [| discriminate]. intro H. injection H as <-. destruct (projs_ok fuel projs E) as (A & B & _). split.
  - rewrite map_map. cbn. apply map_id.
  - intros g m p H Hp. apply in_map_iff in H. destruct H as (g' & H & _). injection H as <- <-. apply removed_ok; assumption.
Qed.

Lemma cut_decided fuel r g q : cut_holes X fuel = Some r -> pt_in (rng g) q -> (wall X g q \/ ~ wall X g q) /\ (interior X g q \/ ~ interior X g q).
Proof.
  unfold cut_holes. destruct (omap _ _) as [projs |] eqn:E; [| discriminate]. intros _ Hq. destruct (projs_ok fuel projs E) as (A & B & _). split.
  - rewrite <- (bnd_ok projs A B g q Hq). destruct (bnd projs g q); auto.
  - rewrite <- (interior_ok projs A B g q Hq). destruct (flood _ _ _ q); auto.
Qed.

Lemma cut_ends : finite X -> exists f0, forall fuel, (f0 <= fuel)%nat -> exists r, cut_holes X fuel = Some r.
Proof.
  intro F. assert (H : exists f0, forall k, In k (cut_pairs X) -> forall fuel, (f0 <= fuel)%nat -> exists d, num_dilates X fuel k = Some d).
  { assert (G : forall k, In k (cut_pairs X) -> exists f0, forall fuel, (f0 <= fuel)%nat -> exists d, num_dilates X fuel k = Some d).
    { intros k Hk. apply dilates_end. apply F. apply cut_pairs_ok. exact Hk. }
    induction (cut_pairs X) as [| k l IH]; [exists 0%nat; intros k [] |].
    destruct (G k (or_introl eq_refl)) as (f1 & H1). destruct (IH (fun k' Hk' => G k' (or_intror Hk'))) as (f2 & H2).
    exists (Nat.max f1 f2). intros k' [<- | Hk'] fuel Hf; [apply H1; lia | apply (H2 k' Hk'); lia]. }
  destruct H as (f0 & H). exists f0. intros fuel Hf. unfold cut_holes.
  destruct (omap_total (fun k => let! d := num_dilates X fuel k in Some (k, projected X k d)) (cut_pairs X)) as (projs & E).
  - intros k Hk. destruct (H k Hk fuel Hf) as (d & ->). eexists; reflexivity.
  - rewrite E. eexists; reflexivity.
Qed.

Lemma cut_needs fuel r : cut_holes X fuel = Some r -> finite X.
Proof.
  unfold cut_holes. destruct (omap _ _) as [projs |] eqn:E; [| discriminate]. intros _ k Hk. destruct (projs_ok fuel projs E) as (_ & _ & D).
  destruct (D k Hk) as (d & Hd). apply (dilates_need fuel k d Hd).
Qed.

(** ** Consequences *)

Lemma hole_active fuel r g m p : cut_holes X fuel = Some r -> In (g, m) r -> pt_in (rng g) p -> m p = true -> hd_active X g p = true.
Proof. intros H Hg Hp E. apply (proj2 (cut_result fuel r H) g m p Hg Hp) in E. apply E. Qed.

Lemma hole_cut fuel r g m p : cut_holes X fuel = Some r -> In (g, m) r -> pt_in (rng g) p -> m p = true ->
  exists k, cuts X k /\ snd k = g /\ exists s b, pt_in (rng g) s /\ hd_overlap X k s = true /\ pt_in (rng (fst k)) b /\ hd_boundary X (fst k) b = true.
Proof.
  intros H Hg Hp E. apply (proj2 (cut_result fuel r H) g m p Hg Hp) in E. destruct E as ((s & S1 & k & K1 & K2 & K3) & _). exists k. split; [exact K1 |]. split; [exact K2 |].
  destruct K3 as (O & _ & (w & _ & (_ & d & _ & W) & _)). destruct W as (v & _ & (_ & (u & _ & T & _)) & _). destruct T as (b & vs & B1 & B2 & _).
  exists s, b. auto.
Qed.

Lemma hole_walled fuel r g m p q : cut_holes X fuel = Some r -> In (g, m) r -> pt_in (rng g) p -> pt_in (rng g) q -> within (cart_of g) 1 p q ->
  m p = true -> hd_boundary X g p = false -> m q = true \/ hd_active X g q = false \/ wall X g q.
Proof.
  intros H Hg Hp Hq W E B. pose proof (proj2 (cut_result fuel r H) g m) as HR. apply (HR p Hg Hp) in E. destruct E as (S & A & I & F).
  assert (Np : ~ wall X g p). { intro Wp. destruct (F Wp) as (F1 & _). congruence. }
  destruct (m q) eqn:Eq; [auto |]. right. destruct (hd_active X g q) eqn:Aq; [| auto]. right.
  (* q is active and stays *)
  destruct (cut_decided fuel r g q H Hq) as [[Wq | Nq] J]; [exact Wq |]. exfalso.
  destruct J as [J | J].
  - apply I. right. destruct J as [J | (s & S1 & S2 & S3 & S4)].
    + exists q. split; [exact Hq |]. split; [exact J |]. split; [exact Nq |]. apply rt_step. split; [exact Hq |]. split; [exact Hp |].
      split; [apply within_sym; [apply carts | exact W] | auto].
    + exists s. split; [exact S1 |]. split; [exact S2 |]. split; [exact S3 |]. eapply rt_trans; [exact S4 |]. apply rt_step. split; [exact Hq |]. split; [exact Hp |].
      split; [apply within_sym; [apply carts | exact W] | auto].
  - assert (m q = true) by (apply (HR q Hg Hq); split; [exact S | split; [exact Aq | split; [exact J | intro Wq; contradiction]]]). congruence.
Qed.
End Main.
