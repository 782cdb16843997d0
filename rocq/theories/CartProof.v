(** Specifications and proofs for Cartesian domains. *)
From Coq Require Import List ZArith Bool Lia ZifyBool ZifyNat.
From Verif Require Import TupleModel RangeModel CartModel Base RangeProof.
Import ListNotations.
Open Scope Z_scope.

(** Specification: number of distinct positions along dimension [d].  With
    duplicated storage the last plane of a periodic dimension repeats the first. *)
Definition per_len (c : cart) (d : nat) : Z :=
  tget (re (c_range c)) d - tget (rb (c_range c)) d -
  match c_stor c with
  | DUPLICATED => if tget (c_per c) d then 1 else 0
  | UNIQUE => 0
  end.

(** A usable domain: at least one distinct position in every dimension. *)
Definition cart_ok (c : cart) : Prop := forall d, (d < 3)%nat -> 0 < per_len c d.

(** [u] is a periodic image of [t]. *)
Definition is_image (c : cart) (t u : tup Z) : Prop :=
  forall d, (d < 3)%nat ->
    (tget (c_per c) d = true -> exists k, tget u d = tget t d + k * per_len c d) /\
    (tget (c_per c) d = false -> tget u d = tget t d).

(** [t] lies in the base period in every periodic dimension. *)
Definition in_base (c : cart) (t : tup Z) : Prop :=
  forall d, (d < 3)%nat -> tget (c_per c) d = true ->
    tget (rb (c_range c)) d <= tget t d < tget (rb (c_range c)) d + per_len c d.

Lemma period_size1_per_len c d : cart_ok c -> (d < 3)%nat ->
  period_size1 c d = per_len c d.
Proof.
  intros Hok Hd; specialize (Hok d Hd).
  unfold period_size1, per_len, rsize1 in *.
  destruct (c_stor c); destruct (tget (c_per c) d); lia.
Qed.

Lemma topt_some {A} (f : nat -> option A) (P : nat -> A -> Prop) :
  (forall d, (d < 3)%nat -> exists x, f d = Some x /\ P d x) ->
  exists t, topt f = Some t /\ forall d, (d < 3)%nat -> f d = Some (tget t d) /\ P d (tget t d).
Proof.
  intros H.
  destruct (H 0%nat ltac:(lia)) as [x [Ex Px]].
  destruct (H 1%nat ltac:(lia)) as [y [Ey Py]].
  destruct (H 2%nat ltac:(lia)) as [z [Ez Pz]].
  exists (T3 x y z); unfold topt; rewrite Ex, Ey, Ez; split; [reflexivity|].
  intros d Hd; destruct d as [|[|[|d]]]; cbn [tget c0 c1 c2]; auto; lia.
Qed.

Lemma get_period_spec c t : cart_ok c ->
  exists p, get_period c t = Some p /\
    forall d, (d < 3)%nat ->
      (tget (c_per c) d = true ->
         let b := tget (rb (c_range c)) d in
         b + tget p d * per_len c d <= tget t d < b + (tget p d + 1) * per_len c d) /\
      (tget (c_per c) d = false -> tget p d = 0).
Proof.
  intros Hok.
  assert (H : forall d, (d < 3)%nat -> exists x, get_period1 c t d = Some x /\
    ((tget (c_per c) d = true ->
         let b := tget (rb (c_range c)) d in
         b + x * per_len c d <= tget t d < b + (x + 1) * per_len c d) /\
      (tget (c_per c) d = false -> x = 0))).
  { intros d Hd; unfold get_period1.
    rewrite (period_size1_per_len c d Hok Hd).
    pose proof (Hok d Hd) as Hn.
    destruct (tget (c_per c) d).
    - destruct (Z.eqb_spec (per_len c d) 0) as [Hz|_]; [lia|].
      rewrite quot_floor by lia.
      eexists; split; [reflexivity|split; [intros _|discriminate]].
      cbn zeta.
      set (n := per_len c d) in *; set (b := tget (rb (c_range c)) d).
      pose proof (Z.div_mod (tget t d - b) n ltac:(lia)).
      pose proof (Z.mod_pos_bound (tget t d - b) n Hn). nia.
    - exists 0; repeat split; auto; discriminate. }
  destruct (topt_some _ _ H) as [p [E Hp]].
  exists p; split; [exact E|]. intros d Hd; apply (proj2 (Hp d Hd)).
Qed.

Lemma periodic_adjust_full c t : cart_ok c ->
  exists u, periodic_adjust c t = Some u /\ is_image c t u /\ in_base c u.
Proof.
  intros Hok.
  assert (H : forall d, (d < 3)%nat -> exists x, periodic_adjust1 c t d = Some x /\
    ((tget (c_per c) d = true ->
        (exists k, x = tget t d + k * per_len c d) /\
        tget (rb (c_range c)) d <= x < tget (rb (c_range c)) d + per_len c d) /\
      (tget (c_per c) d = false -> x = tget t d))).
  { intros d Hd; unfold periodic_adjust1.
    rewrite (period_size1_per_len c d Hok Hd).
    pose proof (Hok d Hd) as Hn.
    destruct (tget (c_per c) d).
    - destruct (Z.eqb_spec (per_len c d) 0) as [Hz|_]; [lia|].
      eexists; split; [reflexivity|split; [intros _|discriminate]].
      rewrite <- Z.add_assoc, rem_mod by lia.
      set (n := per_len c d) in *; set (b := tget (rb (c_range c)) d).
      pose proof (Z.mod_pos_bound (tget t d - b) n Hn).
      split; [|lia].
      exists (- ((tget t d - b) / n)).
      pose proof (Z.div_mod (tget t d - b) n ltac:(lia)). lia.
    - eexists; repeat split; auto; discriminate. }
  destruct (topt_some _ _ H) as [u [E Hu]].
  exists u; split; [exact E|split].
  - intros d Hd; destruct (Hu d Hd) as [_ [H1 H2]]; split; [intros Hp; apply (H1 Hp)|exact H2].
  - intros d Hd Hp; destruct (Hu d Hd) as [_ [H1 _]]; apply (H1 Hp).
Qed.

Lemma is_image_refl c t : is_image c t t.
Proof. intros d Hd; split; auto; intros _; exists 0; lia. Qed.

Lemma is_image_sym c t u : is_image c t u -> is_image c u t.
Proof.
  intros H d Hd; destruct (H d Hd) as [H1 H2]; split.
  - intros Hp; destruct (H1 Hp) as [k Hk]; exists (- k); lia.
  - intros Hp; symmetry; auto.
Qed.

Lemma is_image_trans c t u v : is_image c t u -> is_image c u v -> is_image c t v.
Proof.
  intros H H' d Hd; destruct (H d Hd) as [H1 H2]; destruct (H' d Hd) as [H1' H2']; split.
  - intros Hp; destruct (H1 Hp) as [k Hk]; destruct (H1' Hp) as [k' Hk'].
    exists (k + k'); lia.
  - intros Hp; rewrite H2'; auto.
Qed.

Lemma base_unique c t u v : cart_ok c ->
  is_image c t u -> in_base c u -> is_image c t v -> in_base c v -> u = v.
Proof.
  intros Hok Hu Bu Hv Bv; apply tup_ext; intros d Hd.
  destruct (Hu d Hd) as [H1 H2]; destruct (Hv d Hd) as [H1' H2'].
  destruct (tget (c_per c) d) eqn:E.
  - destruct (H1 eq_refl) as [k Hk]; destruct (H1' eq_refl) as [k' Hk'].
    specialize (Bu d Hd E); specialize (Bv d Hd E). specialize (Hok d Hd).
    assert (k = k') by nia. lia.
  - rewrite H2, H2'; auto.
Qed.

Lemma periodic_adjust_iff c t u : cart_ok c ->
  periodic_adjust c t = Some u <-> is_image c t u /\ in_base c u.
Proof.
  intros Hok; destruct (periodic_adjust_full c t Hok) as [v [E [Hv Bv]]]; split.
  - intros H; assert (u = v) by congruence; subst; auto.
  - intros [Hu Bu]; rewrite E; f_equal; eapply base_unique; eauto.
Qed.

Lemma periodic_adjust_image c t t' : cart_ok c ->
  is_image c t t' -> periodic_adjust c t = periodic_adjust c t'.
Proof.
  intros Hok H.
  destruct (periodic_adjust_full c t Hok) as [v [E [Hv Bv]]]; rewrite E.
  symmetry; apply periodic_adjust_iff; auto; split; auto.
  eapply is_image_trans; [apply is_image_sym; exact H|exact Hv].
Qed.

(** MapToRange (tuple). *)

(** Precondition found by the proof: in non-periodic dimensions the tuple is not
    below the domain and the target range does not reach above it. *)
Definition nonper_ok (c : cart) (r : range) (t : tup Z) : Prop :=
  forall d, (d < 3)%nat -> tget (c_per c) d = false ->
    tget (rb (c_range c)) d <= tget t d /\ tget (re r) d <= tget (re (c_range c)) d.

Lemma pt_in_tget r p : pt_in r p <->
  forall d, (d < 3)%nat -> tget (rb r) d <= tget p d < tget (re r) d.
Proof.
  unfold pt_in; split.
  - intros [H0 [H1 H2]] d Hd; destruct d as [|[|[|d]]]; cbn [tget]; auto; lia.
  - intros H; repeat split; try apply (H 0%nat); try apply (H 1%nat); try apply (H 2%nat); lia.
Qed.

Lemma map_tuple_spec c r t : cart_ok c ->
  exists m, forall d, (d < 3)%nat ->
    map_tuple_to_range c r t = Some (if rcontains r m then Some m else None) /\
    (tget (c_per c) d = true ->
       (exists k, tget m d = tget t d + k * per_len c d) /\
       tget (rb r) d <= tget m d < tget (rb r) d + per_len c d) /\
    (tget (c_per c) d = false ->
       tget m d = if tget t d <? tget (rb r) d then tget t d + per_len c d else tget t d).
Proof.
  intros Hok; unfold map_tuple_to_range.
  destruct (get_period_spec c (rb r) Hok) as [bp [-> Hbp]].
  destruct (get_period_spec c t Hok) as [tp [-> Htp]].
  eexists; intros d Hd; split; [reflexivity|].
  rewrite tget_tmake by exact Hd; rewrite (period_size1_per_len c d Hok Hd).
  destruct (Hbp d Hd) as [B1 B2]; destruct (Htp d Hd) as [T1 T2].
  specialize (Hok d Hd); split; intros Hp.
  - specialize (B1 Hp); specialize (T1 Hp); cbn zeta in B1, T1.
    destruct (Z.ltb_spec (tget t d + per_len c d * (tget bp d - tget tp d)) (tget (rb r) d)).
    + split; [exists (tget bp d - tget tp d + 1); lia|nia].
    + split; [exists (tget bp d - tget tp d); lia|nia].
  - rewrite (B2 Hp), (T2 Hp). replace (per_len c d * (0 - 0)) with 0 by lia.
    rewrite Z.add_0_r; reflexivity.
Qed.

Lemma map_tuple_correct c r t : cart_ok c -> nonper_ok c r t ->
  exists res, map_tuple_to_range c r t = Some res /\
    match res with
    | Some m => pt_in r m /\ is_image c t m /\
        forall u, pt_in r u -> is_image c t u -> forall d, (d < 3)%nat -> tget m d <= tget u d
    | None => forall u, is_image c t u -> ~ pt_in r u
    end.
Proof.
  intros Hok Hnp.
  destruct (map_tuple_spec c r t Hok) as [m Hm].
  exists (if rcontains r m then Some m else None).
  split; [apply (Hm 0%nat); lia|].
  destruct (rcontains r m) eqn:E.
  - apply rcontains_spec in E.
    split; [exact E|].
    rewrite pt_in_tget in E.
    assert (Hnpeq : forall d, (d < 3)%nat -> tget (c_per c) d = false -> tget m d = tget t d).
    { intros d Hd Hp; destruct (Hm d Hd) as [_ [_ H2]].
      specialize (H2 Hp); specialize (Hnp d Hd Hp); specialize (E d Hd).
      pose proof (Hok d Hd) as Hn. unfold per_len in *. rewrite Hp in *.
      destruct (Z.ltb_spec (tget t d) (tget (rb r) d)); [|assumption].
      destruct (c_stor c); lia. }
    split.
    + intros d Hd; destruct (Hm d Hd) as [_ [H1 _]]; split; [intros Hp; apply (H1 Hp)|auto].
    + intros u Hu Hi d Hd; rewrite pt_in_tget in Hu.
      specialize (Hu d Hd); destruct (Hi d Hd) as [I1 I2].
      destruct (Hm d Hd) as [_ [H1 _]].
      destruct (tget (c_per c) d) eqn:Ep.
      * destruct (H1 eq_refl) as [[k Hk] Hb]; destruct (I1 eq_refl) as [k' Hk'].
        specialize (Hok d Hd).
        destruct (Z.le_gt_cases k k'); [nia|].
        assert (k' * per_len c d <= (k - 1) * per_len c d) by nia. lia.
      * rewrite (I2 eq_refl), (Hnpeq d Hd Ep); lia.
  - intros u Hi Hu.
    assert (rcontains r m = true); [|congruence].
    apply rcontains_spec; rewrite pt_in_tget in *; intros d Hd.
    destruct (Hi d Hd) as [I1 I2]; specialize (Hu d Hd).
    destruct (Hm d Hd) as [_ [H1 H2]]; pose proof (Hok d Hd) as Hn.
    destruct (tget (c_per c) d) eqn:Ep.
    + destruct (H1 eq_refl) as [[k Hk] Hb]; destruct (I1 eq_refl) as [k' Hk'].
      split; [lia|].
      destruct (Z.le_gt_cases k k'); [nia|].
      assert (k' * per_len c d <= (k - 1) * per_len c d) by nia. lia.
    + rewrite (I2 eq_refl) in Hu. rewrite (H2 eq_refl).
      destruct (Z.ltb_spec (tget t d) (tget (rb r) d)); lia.
Qed.

(** MapToRange (range). *)

(** [s] is [o] shifted by whole periods in periodic dimensions only. *)
Definition range_image (c : cart) (o s : range) : Prop :=
  is_image c (rb o) (rb s) /\
  forall d, (d < 3)%nat -> tget (re s) d - tget (rb s) d = tget (re o) d - tget (rb o) d.

(** Preconditions found by the proof: the target lies in the base period, and
    both ranges lie in the domain in non-periodic dimensions. *)
Definition map_range_pre (c : cart) (r o : range) : Prop :=
  rempty r = false /\ rempty o = false /\
  forall d, (d < 3)%nat ->
    (tget (c_per c) d = true ->
       tget (rb (c_range c)) d <= tget (rb r) d /\
       tget (re r) d <= tget (rb (c_range c)) d + per_len c d) /\
    (tget (c_per c) d = false ->
       tget (rb (c_range c)) d <= tget (rb r) d /\ tget (re r) d <= tget (re (c_range c)) d /\
       tget (rb (c_range c)) d <= tget (rb o) d /\ tget (re o) d <= tget (re (c_range c)) d) /\
    ((c_nd c <= d)%nat -> tget (c_per c) d = false).

Lemma overlap_tget l r : ranges_overlap l r = true <->
  forall d, (d < 3)%nat ->
    tget (rb l) d < tget (re l) d /\ tget (rb r) d < tget (re r) d /\
    tget (rb l) d < tget (re r) d /\ tget (rb r) d < tget (re l) d.
Proof.
  unfold ranges_overlap; rewrite !andb_true_iff, !negb_true_iff, tall_spec.
  rewrite !rempty_false, !pt_in_tget. split.
  - intros [[H1 H2] H3] d Hd; specialize (H1 d Hd); specialize (H2 d Hd);
      specialize (H3 d Hd); lia.
  - intros H; repeat split; try (specialize (H d H0); lia);
      intros d Hd; specialize (H d Hd); lia.
Qed.

Lemma rempty_tget r : rempty r = false <->
  forall d, (d < 3)%nat -> tget (rb r) d < tget (re r) d.
Proof.
  rewrite rempty_false, pt_in_tget; split; intros H d Hd; specialize (H d Hd); lia.
Qed.

Lemma range_image_refl c o : range_image c o o.
Proof. split; [apply is_image_refl|reflexivity]. Qed.

Lemma range_at_image c o b : rempty o = false -> is_image c (rb o) b ->
  range_image c o (range_at b o).
Proof.
  intros E Hb; rewrite rempty_tget in E; split; [exact Hb|].
  intros d Hd; unfold range_at, tadd, rsize; cbn [rb re].
  rewrite !tget_tmake by exact Hd; unfold rsize1; specialize (E d Hd); lia.
Qed.

Definition shift_range (c : cart) (ao : range) (p : tup Z) : range :=
  mkR (tmake (fun d => tget (rb ao) d + period_size1 c d * tget p d))
      (tmake (fun d => tget (re ao) d + period_size1 c d * tget p d)).

Lemma search_fold (f : tup Z -> range) (ar : range) l acc res :
  fold_left (fun acc p => if ranges_overlap ar (f p) then Some (f p) else acc) l acc = res ->
  match res with
  | Some s => acc = Some s \/ exists p, In p l /\ s = f p /\ ranges_overlap ar (f p) = true
  | None => acc = None /\ forall p, In p l -> ranges_overlap ar (f p) = false
  end.
Proof.
  revert acc; induction l as [|p l IH]; intros acc H; cbn [fold_left] in H.
  - subst; destruct res; [left; reflexivity|split; [reflexivity|intros p []]].
  - specialize (IH _ H); destruct res as [s|].
    + destruct (ranges_overlap ar (f p)) eqn:E.
      * right; destruct IH as [IH|[q [Hq Hs]]].
        -- exists p; cbn; repeat split; auto; congruence.
        -- exists q; cbn; auto.
      * destruct IH as [IH|[q [Hq Hs]]]; [auto|right; exists q; cbn; auto].
    + destruct IH as [Ha IH]; destruct (ranges_overlap ar (f p)) eqn:E; [discriminate|].
      split; auto; intros q [<-|Hq]; auto.
Qed.

Lemma map_range_correct c r o : cart_ok c -> (c_nd c <= 3)%nat -> map_range_pre c r o ->
  exists res, map_range_to_range c r o = Some res /\
    match res with
    | Some s => range_image c o s /\ ranges_overlap r s = true
    | None => forall s, range_image c o s -> ranges_overlap r s = false
    end.
Proof.
  intros Hok Hnd [Er [Eo Hpre]].
  unfold map_range_to_range.
  destruct (ranges_overlap r o) eqn:Eov.
  { exists (Some o); split; [reflexivity|split; [apply range_image_refl|exact Eov]]. }
  assert (Hnp1 : nonper_ok c r (rb o)).
  { intros d Hd Hp; destruct (Hpre d Hd) as [_ [H _]]; specialize (H Hp); lia. }
  destruct (map_tuple_correct c r (rb o) Hok Hnp1) as [res [-> Hres]].
  destruct res as [b|].
  { destruct Hres as [Hin [Hi _]].
    exists (Some (range_at b o)); split; [reflexivity|].
    pose proof (range_at_image c o b Eo Hi) as Hri.
    split; [exact Hri|].
    apply overlap_tget; intros d Hd.
    rewrite pt_in_tget in Hin; specialize (Hin d Hd).
    rewrite rempty_tget in Eo, Er; specialize (Eo d Hd); specialize (Er d Hd).
    destruct Hri as [_ Hsz]; specialize (Hsz d Hd); cbn [range_at rb] in *. lia. }
  rename Hres into Hnone.
  (* adjusted target *)
  pose proof (proj1 (rempty_tget _) Er) as Er'.
  pose proof (proj1 (rempty_tget _) Eo) as Eo'.
  assert (Hnp2 : nonper_ok c (c_range c) (rb r)).
  { intros d Hd Hp; destruct (Hpre d Hd) as [_ [H _]]; specialize (H Hp); lia. }
  assert (Hnp3 : nonper_ok c (c_range c) (rb o)).
  { intros d Hd Hp; destruct (Hpre d Hd) as [_ [H _]]; specialize (H Hp); lia. }
  assert (Hcr : forall d, (d < 3)%nat -> tget (rb (c_range c)) d + per_len c d <=
            tget (re (c_range c)) d).
  { intros d Hd; unfold per_len; destruct (c_stor c); destruct (tget (c_per c) d); lia. }
  destruct (map_tuple_correct c (c_range c) (rb r) Hok Hnp2) as [res2 [-> Hres2]].
  destruct res2 as [ab|]; cycle 1.
  { exfalso; apply (Hres2 (rb r) (is_image_refl _ _)).
    apply pt_in_tget; intros d Hd; specialize (Er' d Hd); specialize (Hcr d Hd).
    destruct (Hpre d Hd) as [H1 [H2 _]].
    destruct (tget (c_per c) d); [specialize (H1 eq_refl)|specialize (H2 eq_refl)]; lia. }
  assert (Hab : ab = rb r).
  { apply (base_unique c (rb r)); auto; try apply Hres2.
    - intros d Hd Hp. destruct Hres2 as [Hin [Hi Hleast]].
      assert (Hle : tget ab d <= tget (rb r) d).
      { apply Hleast; auto; [|apply is_image_refl].
        apply pt_in_tget; intros d' Hd'; specialize (Er' d' Hd'); specialize (Hcr d' Hd').
        destruct (Hpre d' Hd') as [H1 [H2 _]].
        destruct (tget (c_per c) d'); [specialize (H1 eq_refl)|specialize (H2 eq_refl)]; lia. }
      rewrite pt_in_tget in Hin; specialize (Hin d Hd).
      destruct (Hpre d Hd) as [H1 _]; specialize (H1 Hp); specialize (Er' d Hd); lia.
    - apply is_image_refl.
    - intros d Hd Hp; destruct (Hpre d Hd) as [H1 _]; specialize (H1 Hp);
        specialize (Er' d Hd); lia. }
  subst ab.
  destruct (map_tuple_correct c (c_range c) (rb o) Hok Hnp3) as [res3 [-> Hres3]].
  destruct res3 as [aob|]; cycle 1.
  { exfalso.
    destruct (periodic_adjust_full c (rb o) Hok) as [u [_ [Hu Bu]]].
    apply (Hres3 u Hu); apply pt_in_tget; intros d Hd; specialize (Hcr d Hd).
    specialize (Eo' d Hd); destruct (Hu d Hd) as [_ U2]; destruct (Hpre d Hd) as [_ [H2 _]].
    specialize (Bu d Hd); destruct (tget (c_per c) d).
    - specialize (Bu eq_refl); lia.
    - rewrite (U2 eq_refl); specialize (H2 eq_refl); lia. }
  destruct Hres3 as [Hin3 [Hi3 Hleast3]].
  rewrite pt_in_tget in Hin3.
  exists (map_range_search c (range_at (rb r) r) (range_at aob o)).
  split; [reflexivity|].
  assert (Hrr : forall d, (d < 3)%nat -> tget (re (range_at (rb r) r)) d = tget (re r) d).
  { intros d Hd; unfold range_at, tadd, rsize; cbn [re]; rewrite !tget_tmake by exact Hd.
    unfold rsize1; specialize (Er' d Hd); lia. }
  assert (Hbase3 : forall d, (d < 3)%nat -> tget (c_per c) d = true ->
            tget aob d < tget (rb (c_range c)) d + per_len c d).
  { intros d Hd Hp.
    destruct (periodic_adjust_full c (rb o) Hok) as [u [_ [Hu Bu]]].
    assert (tget aob d <= tget u d).
    { apply Hleast3; auto; apply pt_in_tget; intros d' Hd'; specialize (Hcr d' Hd').
      specialize (Eo' d' Hd'); destruct (Hu d' Hd') as [_ U2];
        destruct (Hpre d' Hd') as [_ [H2 _]].
      specialize (Bu d' Hd'); destruct (tget (c_per c) d').
      - specialize (Bu eq_refl); lia.
      - rewrite (U2 eq_refl); specialize (H2 eq_refl); lia. }
    specialize (Bu d Hd Hp); lia. }
  pose proof (range_at_image c o aob Eo Hi3) as Hri3.
  assert (Hsz : forall d, (d < 3)%nat ->
            tget (re (range_at aob o)) d = tget aob d + (tget (re o) d - tget (rb o) d)).
  { intros d Hd; destruct Hri3 as [_ H]; specialize (H d Hd); cbn [range_at rb] in H; lia. }
  pose proof (search_fold (shift_range c (range_at aob o)) (range_at (rb r) r)
    (foreach_col (mkR (tmake (fun d => if Nat.ltb d (c_nd c) then -1 else 0))
                      (tmake (fun _ => 1)))) None _ eq_refl) as HS.
  change (fold_left _ _ None) with
    (map_range_search c (range_at (rb r) r) (range_at aob o)) in HS.
  destruct (map_range_search c (range_at (rb r) r) (range_at aob o)) as [s|].
  - destruct HS as [HS|[p [Hp [-> Hov]]]]; [discriminate|].
    apply foreach_col_In in Hp; rewrite pt_in_tget in Hp; cbn [rb re] in Hp.
    rewrite overlap_tget in Hov.
    assert (Hzero : forall d, (d < 3)%nat -> tget (c_per c) d = false -> tget p d = 0).
    { intros d Hd Hnpd; specialize (Hp d Hd); rewrite !tget_tmake in Hp by exact Hd.
      specialize (Hov d Hd); rewrite Hrr in Hov by exact Hd.
      unfold shift_range in Hov; cbn [rb re range_at] in Hov.
      rewrite !tget_tmake in Hov by exact Hd.
      rewrite period_size1_per_len in Hov by auto.
      destruct Hov as [_ [_ [Hov1 _]]].
      change (tadd aob (rsize o)) with (re (range_at aob o)) in Hov1.
      rewrite Hsz in Hov1 by exact Hd.
      destruct (Hi3 d Hd) as [_ I2]; rewrite (I2 Hnpd) in Hov1.
      destruct (Hpre d Hd) as [_ [H2 _]]; specialize (H2 Hnpd).
      assert (Hpl : per_len c d = tget (re (c_range c)) d - tget (rb (c_range c)) d)
        by (unfold per_len; rewrite Hnpd; destruct (c_stor c); lia).
      destruct (Z.eq_dec (tget p d) 0) as [|Hnz]; [assumption|exfalso].
      assert (Hm1 : tget p d = -1) by (destruct (Nat.ltb d (c_nd c)); lia).
      rewrite Hm1 in Hov1; lia. }
    assert (Himg : range_image c o (shift_range c (range_at aob o) p)).
    { split.
      - intros d Hd; unfold shift_range; cbn [rb range_at]; rewrite tget_tmake by exact Hd.
        rewrite period_size1_per_len by auto.
        destruct (Hi3 d Hd) as [I1 I2]; split.
        + intros Hper; destruct (I1 Hper) as [k Hk]; exists (k + tget p d); lia.
        + intros Hper; rewrite (I2 Hper), (Hzero d Hd Hper); lia.
      - intros d Hd; unfold shift_range; cbn [rb re]; rewrite !tget_tmake by exact Hd.
        rewrite Hsz by exact Hd; cbn [range_at rb]; lia. }
    split; [exact Himg|].
    apply overlap_tget; intros d Hd; specialize (Hov d Hd); rewrite Hrr in Hov by exact Hd.
    cbn [range_at rb] in Hov |- *; lia.
  - destruct HS as [_ HS].
    intros s Hs; destruct (ranges_overlap r s) eqn:Eos; [exfalso|reflexivity].
    rewrite overlap_tget in Eos.
    destruct Hs as [Hsi Hss].
    (* choose shift 0 where the adjusted lower corner is at or below the end of s *)
    set (p := tmake (fun d => if tget (c_per c) d then
                if tget aob d <? tget (re r) d then
                  (if tget (rb r) d <? tget aob d + (tget (re o) d - tget (rb o) d) then 0 else -1)
                else -1 else 0)).
    assert (Hin : In p (foreach_col (mkR (tmake (fun d => if Nat.ltb d (c_nd c) then -1 else 0))
                      (tmake (fun _ => 1))))).
    { apply foreach_col_In, pt_in_tget; intros d Hd; cbn [rb re]; unfold p.
      rewrite !tget_tmake by exact Hd.
      destruct (Hpre d Hd) as [_ [_ H3]].
      destruct (Nat.ltb_spec d (c_nd c)).
      - destruct (tget (c_per c) d); [|lia].
        destruct (tget aob d <? tget (re r) d);
          [destruct (tget (rb r) d <? tget aob d + (tget (re o) d - tget (rb o) d))|]; lia.
      - rewrite H3 by lia; lia. }
    specialize (HS p Hin).
    assert (ranges_overlap (range_at (rb r) r) (shift_range c (range_at aob o) p) = true);
      [|congruence].
    apply overlap_tget; intros d Hd.
    rewrite Hrr by exact Hd; unfold shift_range; cbn [rb re range_at].
    rewrite !tget_tmake by exact Hd.
    change (tadd aob (rsize o)) with (re (range_at aob o)).
    rewrite Hsz by exact Hd. rewrite period_size1_per_len by auto.
    specialize (Er' d Hd); specialize (Eo' d Hd); specialize (Eos d Hd);
      specialize (Hss d Hd).
    unfold p; rewrite tget_tmake by exact Hd.
    destruct (Hi3 d Hd) as [I1 I2]; destruct (Hsi d Hd) as [J1 J2].
    pose proof (Hok d Hd) as Hn.
    destruct (tget (c_per c) d) eqn:Ep.
    + destruct (I1 eq_refl) as [k Hk]; destruct (J1 eq_refl) as [k' Hk'].
      specialize (Hbase3 d Hd Ep). specialize (Hin3 d Hd).
      destruct (Hpre d Hd) as [P1 _]; specialize (P1 Ep).
      assert (Hkk : tget (rb s) d = tget aob d + (k' - k) * per_len c d) by lia.
      set (q := k' - k) in *.
      assert (Hq : q <= 0) by nia.
      destruct (Z.ltb_spec (tget aob d) (tget (re r) d));
        [destruct (Z.ltb_spec (tget (rb r) d) (tget aob d + (tget (re o) d - tget (rb o) d)))|].
      * lia.
      * exfalso; nia.
      * assert (q <= -1) by nia. nia.
    + rewrite (I2 eq_refl); rewrite (J2 eq_refl) in *. lia.
Qed.

Lemma periodic_adjust_laws c t : cart_ok c ->
  (exists u, periodic_adjust c t = Some u) /\
  (forall u, periodic_adjust c t = Some u <-> is_image c t u /\ in_base c u) /\
  (forall t', is_image c t t' -> periodic_adjust c t' = periodic_adjust c t) /\
  (forall u, periodic_adjust c t = Some u -> periodic_adjust c u = Some u).
Proof.
  intros Hok; split; [|split; [|split]].
  - destruct (periodic_adjust_full c t Hok) as [u [E _]]; eauto.
  - intros u; apply periodic_adjust_iff; assumption.
  - intros t' H; symmetry; apply periodic_adjust_image; assumption.
  - intros u H; apply periodic_adjust_iff in H as [H1 H2]; auto.
    apply periodic_adjust_iff; auto; split; auto; apply is_image_refl.
Qed.

Definition c_np : cart := mkC 2 (mkR (T3 0 0 0) (T3 10 10 1)) (T3 false false false) UNIQUE.
Definition c_pp : cart := mkC 2 (mkR (T3 0 0 0) (T3 10 10 1)) (T3 true true false) UNIQUE.

Lemma cart_ok_check c :
  forallb (fun d => 0 <? per_len c d) [0%nat; 1%nat; 2%nat] = true -> cart_ok c.
Proof.
  intros H d Hd; rewrite forallb_forall in H.
  apply Z.ltb_lt, H; destruct d as [|[|[|d]]]; cbn; auto; lia.
Qed.

Lemma map_tuple_refuted : exists c r t m,
  cart_ok c /\ map_tuple_to_range c r t = Some (Some m) /\ ~ is_image c t m.
Proof.
  exists c_np, (mkR (T3 5 0 0) (T3 12 10 1)), (T3 1 1 0), (T3 11 1 0).
  split; [apply cart_ok_check; reflexivity|split; [reflexivity|]].
  intros H; destruct (H 0%nat ltac:(lia)) as [_ H2]; specialize (H2 eq_refl).
  discriminate.
Qed.

Lemma map_range_refuted :
  (exists c r o s, cart_ok c /\ rempty r = false /\ rempty o = false /\
     map_range_to_range c r o = Some (Some s) /\ ranges_overlap r s = false) /\
  (exists c r o s, cart_ok c /\ rempty r = false /\ rempty o = false /\
     map_range_to_range c r o = Some None /\ range_image c o s /\
     ranges_overlap r s = true) /\
  (exists c r o, cart_ok c /\ rempty r = false /\ rempty o = false /\
     map_range_to_range c r o = None).
Proof.
  split; [|split].
  - exists c_pp, (mkR (T3 12 0 0) (T3 13 2 1)), (mkR (T3 1 0 0) (T3 3 2 1)),
      (mkR (T3 1 0 0) (T3 3 2 1)).
    split; [apply cart_ok_check; reflexivity|repeat split].
  - exists c_pp, (mkR (T3 5 2 0) (T3 12 4 1)), (mkR (T3 0 9 0) (T3 1 13 1)),
      (mkR (T3 10 (-1) 0) (T3 11 3 1)).
    split; [apply cart_ok_check; reflexivity|].
    do 3 (split; [reflexivity|]).
    split; [|reflexivity].
    split.
    + intros d Hd; destruct d as [|[|[|d]]]; try lia; cbn; split; try discriminate; auto.
      * intros _; exists 1; reflexivity.
      * intros _; exists (-1); reflexivity.
    + intros d Hd; destruct d as [|[|[|d]]]; try lia; reflexivity.
  - exists c_np, (mkR (T3 12 0 0) (T3 13 2 1)), (mkR (T3 3 3 0) (T3 5 5 1)).
    split; [apply cart_ok_check; reflexivity|repeat split].
Qed.
