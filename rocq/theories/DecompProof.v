(** Specifications and proofs for decomposition geometry (C10, C11, C12). *)
From Coq Require Import List ZArith Bool Lia ZifyBool ZifyNat.
From Verif Require Import TupleModel RangeModel CartModel DecompModel Base RangeProof CartProof.
Import ListNotations.
Open Scope Z_scope.

(** Specification: the ranges of [L] split the points of [r]: each point of [r] is in
    exactly one of them, and they have no other points. *)
Definition splits (r : range) (L : list range) : Prop :=
  (forall i s, nth_error L i = Some s -> pt_subset s r) /\
  (forall p, pt_in r p -> exists i s, nth_error L i = Some s /\ pt_in s p) /\
  (forall i j s t p, nth_error L i = Some s -> nth_error L j = Some t ->
     pt_in s p -> pt_in t p -> i = j).

Lemma tget_tset {A} (t : tup A) d v d' : (d' < 3)%nat ->
  tget (tset t d v) d' = if Nat.eqb d' d then v else tget t d'.
Proof. intros; unfold tset; rewrite tget_tmake; auto. Qed.

Lemma nth_error_zrange b e i x : nth_error (zrange b e) i = Some x <->
  x = b + Z.of_nat i /\ x < e.
Proof.
  unfold zrange. remember (Z.to_nat (e - b)) as n eqn:En.
  assert (H : forall n b i x, nth_error (zseq b n) i = Some x <-> x = b + Z.of_nat i /\ (i < n)%nat).
  { clear. induction n as [|n IH]; intros b i x; cbn [zseq].
    - destruct i; cbn; split; try discriminate; lia.
    - destruct i as [|i]; cbn [nth_error].
      + split; [intros H; injection H as <-; lia|intros [-> _]; f_equal; lia].
      + rewrite IH. lia. }
  rewrite H. lia.
Qed.

Lemma nth_error_map_some {A B} (f : A -> B) l i y : nth_error (map f l) i = Some y <->
  exists x, nth_error l i = Some x /\ f x = y.
Proof.
  rewrite nth_error_map. destruct (nth_error l i) as [x|]; cbn; split.
  - intros H; injection H as <-; eauto.
  - intros (z & E & <-); congruence.
  - discriminate.
  - intros (z & E & _); discriminate.
Qed.

(** Lower bound of piece [i] along the split dimension. *)
Definition cutpos (b sub rem i : Z) : Z := b + sub * i + Z.min rem i.

Lemma cutpos_mono b sub rem i j : 0 <= sub -> 0 <= rem -> i <= j -> cutpos b sub rem i <= cutpos b sub rem j.
Proof. unfold cutpos; intros; nia. Qed.

Lemma cut_find b sub rem n x : 0 <= sub -> 0 <= rem < n -> b <= x < b + (n * sub + rem) ->
  exists i, 0 <= i < n /\ cutpos b sub rem i <= x < cutpos b sub rem (i + 1).
Proof.
  intros Hs Hr Hx.
  assert (G : forall m : nat, x < cutpos b sub rem (Z.of_nat m) ->
     exists i, 0 <= i < Z.of_nat m /\ cutpos b sub rem i <= x < cutpos b sub rem (i + 1)).
  { induction m as [|m IH]; intros Hm.
    - unfold cutpos in Hm. replace (Z.min rem (Z.of_nat 0)) with 0 in Hm by lia. lia.
    - destruct (Z.lt_ge_cases x (cutpos b sub rem (Z.of_nat m))) as [L|Ge].
      + destruct (IH L) as (i & I1 & I2). exists i; split; [lia|auto].
      + exists (Z.of_nat m). split; [lia|]. split; [lia|].
        replace (Z.of_nat m + 1) with (Z.of_nat (S m)) by lia. auto. }
  destruct (G (Z.to_nat n)) as (i & I1 & I2).
  - unfold cutpos. rewrite Z2Nat.id by lia. nia.
  - exists i; split; [lia|auto].
Qed.

Lemma subregions_correct nd r n : (1 <= nd <= 3)%nat -> 0 < n ->
  exists L, create_subregions nd r n = Some L /\ Z.of_nat (length L) = n /\
    splits r L /\
    (forall i s, nth_error L i = Some s -> forall d, (d < 3)%nat -> d <> (nd - 1)%nat ->
       tget (rb s) d = tget (rb r) d /\ tget (re s) d = tget (re r) d) /\
    (forall i j s t, nth_error L i = Some s -> nth_error L j = Some t ->
       rsize1 s (nd - 1) - rsize1 t (nd - 1) <= 1) /\
    (forall i j s t, nth_error L i = Some s -> nth_error L j = Some t -> (i < j)%nat ->
       tget (re s) (nd - 1) <= tget (rb t) (nd - 1)).
Proof.
  intros Hnd Hn. unfold create_subregions. destruct (Z.leb_spec n 0); [lia|].
  set (d0 := (nd - 1)%nat). assert (Hd0 : (d0 < 3)%nat) by lia. clearbody d0.
  set (size := rsize1 r d0). set (sub := Z.quot size n). set (rem := size - n * sub).
  assert (Hsize : 0 <= size) by (unfold size, rsize1; lia).
  assert (Hsub : sub = size / n) by (unfold sub; rewrite Z.quot_div_nonneg; lia).
  pose proof (Z.div_mod size n ltac:(lia)) as DM.
  pose proof (Z.mod_pos_bound size n Hn) as MB.
  assert (Hsub0 : 0 <= sub) by (rewrite Hsub; apply Z.div_pos; lia).
  assert (Hrem : 0 <= rem < n) by (unfold rem; rewrite Hsub; lia).
  assert (Htot : n * sub + rem = size) by (unfold rem; lia).
  assert (SB : forall i d, (d < 3)%nat -> tget (rb (subregion r d0 sub rem i)) d =
     if Nat.eqb d d0 then cutpos (tget (rb r) d0) sub rem i else tget (rb r) d).
  { intros i d Hd; unfold subregion; cbn [rb]; rewrite tget_tset by auto; reflexivity. }
  assert (SE : forall i d, (d < 3)%nat -> tget (re (subregion r d0 sub rem i)) d =
     if Nat.eqb d d0 then cutpos (tget (rb r) d0) sub rem (i + 1) else tget (re r) d).
  { intros i d Hd; unfold subregion; cbn [re]; rewrite tget_tset by auto; reflexivity. }
  clearbody sub rem.
  exists (map (subregion r d0 sub rem) (zrange 0 n)). split; [reflexivity|].
  split; [rewrite map_length, zrange_length; lia|].
  assert (NE : forall i s, nth_error (map (subregion r d0 sub rem) (zrange 0 n)) i = Some s ->
     s = subregion r d0 sub rem (Z.of_nat i) /\ Z.of_nat i < n).
  { intros i s H1. apply nth_error_map_some in H1. destruct H1 as (x & Hx & <-).
    apply nth_error_zrange in Hx. destruct Hx as [-> Hx]. auto. }
  assert (C0 : cutpos (tget (rb r) d0) sub rem 0 = tget (rb r) d0) by (unfold cutpos; lia).
  assert (Cn : cutpos (tget (rb r) d0) sub rem n = tget (rb r) d0 + size) by (unfold cutpos; nia).
  split; [split; [|split]|split; [|split]].
  - intros i s Hs p Hp. apply NE in Hs. destruct Hs as [-> Hi].
    rewrite pt_in_tget in Hp |- *. intros d Hd. specialize (Hp d Hd).
    rewrite SB, SE in Hp by auto.
    destruct (Nat.eqb_spec d d0) as [Hdd|Hdd]; [rewrite Hdd in *|auto].
    pose proof (cutpos_mono (tget (rb r) d0) sub rem 0 (Z.of_nat i)).
    pose proof (cutpos_mono (tget (rb r) d0) sub rem (Z.of_nat i + 1) n).
    unfold size, rsize1 in *. lia.
  - intros p Hp. rewrite pt_in_tget in Hp.
    pose proof (Hp d0 Hd0) as Hx.
    destruct (cut_find (tget (rb r) d0) sub rem n (tget p d0)) as (i & I1 & I2); auto.
    { rewrite Htot. unfold size, rsize1. lia. }
    exists (Z.to_nat i), (subregion r d0 sub rem i). split.
    + apply nth_error_map_some. exists i; split; auto. apply nth_error_zrange. lia.
    + rewrite pt_in_tget. intros d Hd. rewrite SB, SE by auto.
      destruct (Nat.eqb_spec d d0) as [Hdd|Hdd]; [rewrite Hdd; exact I2|apply Hp; auto].
  - intros i j s t p Hs Ht Ps Pt. apply NE in Hs. apply NE in Ht.
    destruct Hs as [-> Hi], Ht as [-> Hj].
    rewrite pt_in_tget in Ps, Pt. specialize (Ps d0 Hd0); specialize (Pt d0 Hd0).
    rewrite SB, SE in Ps, Pt by auto. rewrite Nat.eqb_refl in *.
    destruct (Nat.lt_trichotomy i j) as [Hij|[Hij|Hij]]; auto; exfalso.
    + pose proof (cutpos_mono (tget (rb r) d0) sub rem (Z.of_nat i + 1) (Z.of_nat j)). lia.
    + pose proof (cutpos_mono (tget (rb r) d0) sub rem (Z.of_nat j + 1) (Z.of_nat i)). lia.
  - intros i s Hs d Hd Hne. apply NE in Hs; destruct Hs as [-> _].
    rewrite SB, SE by auto. destruct (Nat.eqb_spec d d0); [contradiction|auto].
  - intros i j s t Hs Ht. apply NE in Hs. apply NE in Ht.
    destruct Hs as [-> Hi], Ht as [-> Hj]. unfold rsize1. rewrite !SB, !SE by auto.
    rewrite Nat.eqb_refl. unfold cutpos. nia.
  - intros i j s t Hs Ht Hij. apply NE in Hs. apply NE in Ht.
    destruct Hs as [-> Hi], Ht as [-> Hj]. rewrite SB, SE by auto. rewrite Nat.eqb_refl.
    apply cutpos_mono; lia.
Qed.

(** Ranges of a grid with [nd] dimensions: unused dimensions are [0,1). *)
Definition dims_ok (nd : nat) (r : range) : Prop :=
  forall d, (nd <= d < 3)%nat -> tget (rb r) d = 0 /\ tget (re r) d = 1.

Lemma dims_range_get nd b e d : (d < 3)%nat ->
  tget (rb (dims_range nd b e)) d = (if Nat.ltb d nd then b d else 0) /\
  tget (re (dims_range nd b e)) d = (if Nat.ltb d nd then e d else 1).
Proof.
  intros Hd; unfold dims_range, make_empty_range; cbn [rb re]; rewrite !tget_tmake by auto.
  destruct (Nat.ltb d nd); auto.
Qed.

Lemma subset_bounds r s : rempty r = false -> pt_subset r s -> forall d, (d < 3)%nat ->
  tget (rb s) d <= tget (rb r) d /\ tget (re r) d <= tget (re s) d.
Proof.
  intros E S d Hd. assert (H : rincludes s r = true) by (apply includes_spec; auto).
  unfold rincludes in H. rewrite E in H. cbn [orb] in H.
  rewrite tall_spec in H. specialize (H d Hd). lia.
Qed.

Lemma rempty_dims r : rempty r = true <-> exists d, (d < 3)%nat /\ tget (re r) d <= tget (rb r) d.
Proof.
  unfold rempty; rewrite tany_spec. split; intros (d & Hd & H); exists d; split; auto; lia.
Qed.

Lemma cell_in c r p : dims_ok (c_nd c) (c_range c) -> dims_ok (c_nd c) r -> pt_subset r (c_range c) ->
  (pt_in (range_point_to_cell c r) p <-> pt_in r p /\ pt_in (c_range (cart_point_to_cell c)) p).
Proof.
  intros Dc Dr S. destruct (rempty r) eqn:E.
  - split.
    + intros Hp. exfalso. apply rempty_dims in E. destruct E as (d & Hd & Hlt).
      rewrite pt_in_tget in Hp. specialize (Hp d Hd).
      unfold range_point_to_cell in Hp.
      destruct (dims_range_get (c_nd c) (fun d => tget (rb r) d)
        (fun d => if negb (tget (re r) d =? tget (re (c_range c)) d) ||
                 (tget (c_per c) d && stor_eqb (c_stor c) UNIQUE)
              then tget (re r) d else tget (re r) d - 1) d Hd) as [G1 G2].
      rewrite G1, G2 in Hp. destruct (Nat.ltb_spec d (c_nd c)).
      * destruct (_ || _); lia.
      * destruct (Dr d ltac:(lia)). lia.
    + intros [Hp _]. pose proof (proj1 (rempty_spec r) E p). contradiction.
  - pose proof (subset_bounds r (c_range c) E S) as B.
    rewrite !pt_in_tget. unfold range_point_to_cell, cart_point_to_cell; cbn [c_range].
    split.
    + intros Hp; split; intros d Hd; specialize (Hp d Hd); specialize (B d Hd).
      * destruct (dims_range_get (c_nd c) (fun d => tget (rb r) d)
          (fun d => if negb (tget (re r) d =? tget (re (c_range c)) d) ||
                   (tget (c_per c) d && stor_eqb (c_stor c) UNIQUE)
                then tget (re r) d else tget (re r) d - 1) d Hd) as [G1 G2].
        rewrite G1, G2 in Hp. destruct (Nat.ltb_spec d (c_nd c)).
        -- destruct (_ || _); lia.
        -- destruct (Dr d ltac:(lia)). lia.
      * match goal with |- context [dims_range ?n ?b ?e] =>
          destruct (dims_range_get n b e d Hd) as [G1 G2] end. rewrite G1, G2.
        match type of Hp with context [dims_range ?n ?b ?e] =>
          destruct (dims_range_get n b e d Hd) as [G3 G4] end. rewrite G3, G4 in Hp.
        destruct (Nat.ltb_spec d (c_nd c)); [|auto].
        destruct (Z.eqb_spec (tget (re r) d) (tget (re (c_range c)) d));
          destruct (tget (c_per c) d && stor_eqb (c_stor c) UNIQUE); cbn [negb orb] in Hp; lia.
    + intros [Hp Hq] d Hd; specialize (Hp d Hd); specialize (Hq d Hd); specialize (B d Hd).
      match goal with |- context [dims_range ?n ?b ?e] =>
          destruct (dims_range_get n b e d Hd) as [G1 G2] end. rewrite G1, G2.
      match type of Hq with context [dims_range ?n ?b ?e] =>
          destruct (dims_range_get n b e d Hd) as [G3 G4] end. rewrite G3, G4 in Hq.
      destruct (Nat.ltb_spec d (c_nd c)).
      * destruct (Z.eqb_spec (tget (re r) d) (tget (re (c_range c)) d));
          destruct (tget (c_per c) d && stor_eqb (c_stor c) UNIQUE); cbn [negb orb]; lia.
      * destruct (Dr d ltac:(lia)). lia.
Qed.

Lemma cell_cart_subset c : dims_ok (c_nd c) (c_range c) ->
  pt_subset (c_range (cart_point_to_cell c)) (c_range c).
Proof.
  intros Dc p; rewrite !pt_in_tget; intros Hp d Hd; specialize (Hp d Hd).
  unfold cart_point_to_cell in Hp; cbn [c_range] in Hp.
  match type of Hp with context [dims_range ?n ?b ?e] =>
          destruct (dims_range_get n b e d Hd) as [G3 G4] end. rewrite G3, G4 in Hp.
  destruct (Nat.ltb_spec d (c_nd c)).
  - destruct (_ && _); lia.
  - destruct (Dc d ltac:(lia)). lia.
Qed.

Lemma cell_decomp c L : dims_ok (c_nd c) (c_range c) ->
  (forall i r, nth_error L i = Some r -> dims_ok (c_nd c) r) ->
  splits (c_range c) L ->
  splits (c_range (cart_point_to_cell c)) (map (range_point_to_cell c) L).
Proof.
  intros Dc DL (S1 & S2 & S3). split; [|split].
  - intros i s Hs p Hp. apply nth_error_map_some in Hs. destruct Hs as (r & Hr & <-).
    apply cell_in in Hp; eauto. tauto.
  - intros p Hp. pose proof (cell_cart_subset c Dc p Hp) as Hq.
    destruct (S2 p Hq) as (i & r & Hr & Hpr).
    exists i, (range_point_to_cell c r). split; [apply nth_error_map_some; eauto|].
    apply cell_in; eauto.
  - intros i j s t p Hs Ht Ps Pt.
    apply nth_error_map_some in Hs. destruct Hs as (r & Hr & <-).
    apply nth_error_map_some in Ht. destruct Ht as (r' & Hr' & <-).
    apply cell_in in Ps; eauto. apply cell_in in Pt; eauto.
    apply (S3 i j r r' p); tauto.
Qed.

Lemma cell_count c d : (d < c_nd c)%nat -> (d < 3)%nat ->
  let cc := cart_point_to_cell c in
  c_nd cc = c_nd c /\ c_per cc = c_per c /\ c_stor cc = UNIQUE /\
  tget (rb (c_range cc)) d = tget (rb (c_range c)) d /\
  tget (re (c_range cc)) d - tget (rb (c_range cc)) d =
    per_len c d - (if tget (c_per c) d then 0 else 1).
Proof.
  intros Hn Hd; cbn zeta. unfold cart_point_to_cell; cbn [c_nd c_per c_stor c_range].
  match goal with |- context [dims_range ?n ?b ?e] =>
          destruct (dims_range_get n b e d Hd) as [G3 G4] end. rewrite G3, G4.
  destruct (Nat.ltb_spec d (c_nd c)); [|lia].
  split; auto. split; auto. split; auto. split; auto.
  unfold per_len. destruct (c_stor c), (tget (c_per c) d); cbn [stor_eqb andb]; lia.
Qed.

(** Specification: [p] is a corner of cell [q]. *)
Definition corner (nd : nat) (q p : tup Z) : Prop :=
  forall d, (d < 3)%nat -> tget p d = tget q d \/ ((d < nd)%nat /\ tget p d = tget q d + 1).

Lemma cell_points c cr p : rempty cr = false -> dims_ok (c_nd c) cr ->
  (pt_in (range_cell_to_point_all c cr) p <-> exists q, pt_in cr q /\ corner (c_nd c) q p).
Proof.
  intros E D. unfold range_cell_to_point_all.
  assert (NE : forall d, (d < 3)%nat -> tget (rb cr) d < tget (re cr) d).
  { intros d Hd. apply rempty_false in E. rewrite pt_in_tget in E. specialize (E d Hd). lia. }
  rewrite pt_in_tget. split.
  - intros Hp.
    exists (tmake (fun d => if tget p d <? tget (re cr) d then tget p d else tget p d - 1)).
    split.
    + rewrite pt_in_tget; intros d Hd; specialize (Hp d Hd); specialize (NE d Hd).
      rewrite tget_tmake by auto.
      match type of Hp with context [dims_range ?n ?b ?e] =>
          destruct (dims_range_get n b e d Hd) as [G3 G4] end. rewrite G3, G4 in Hp.
      destruct (Nat.ltb_spec d (c_nd c)); [destruct (Z.ltb_spec (tget p d) (tget (re cr) d)); lia|].
      destruct (D d ltac:(lia)). destruct (Z.ltb_spec (tget p d) (tget (re cr) d)); lia.
    + intros d Hd; specialize (Hp d Hd); specialize (NE d Hd). rewrite tget_tmake by auto.
      match type of Hp with context [dims_range ?n ?b ?e] =>
          destruct (dims_range_get n b e d Hd) as [G3 G4] end. rewrite G3, G4 in Hp.
      destruct (Z.ltb_spec (tget p d) (tget (re cr) d)); [left; auto|].
      destruct (Nat.ltb_spec d (c_nd c)); [right; lia|].
      destruct (D d ltac:(lia)). lia.
  - intros (q & Hq & Hc) d Hd. rewrite pt_in_tget in Hq. specialize (Hq d Hd); specialize (Hc d Hd).
    match goal with |- context [dims_range ?n ?b ?e] =>
          destruct (dims_range_get n b e d Hd) as [G3 G4] end. rewrite G3, G4.
    destruct (Nat.ltb_spec d (c_nd c)); [lia|].
    destruct (D d ltac:(lia)). lia.
Qed.

(** C12 *)
Lemma extend_get c r a d : (d < 3)%nat ->
  tget (rb (extend_local_range c r a)) d =
    (if Nat.ltb d (c_nd c) && (negb (tget (rb r) d =? tget (rb (c_range c)) d) || tget (c_per c) d)
     then tget (rb r) d - a else tget (rb r) d) /\
  tget (re (extend_local_range c r a)) d =
    (if Nat.ltb d (c_nd c) && (negb (tget (re r) d =? tget (re (c_range c)) d) || tget (c_per c) d)
     then tget (re r) d + a else tget (re r) d).
Proof. intros Hd; unfold extend_local_range; cbn [rb re]; rewrite !tget_tmake by auto; auto. Qed.

(** Specification: the grid continues below (above) a local range along [d]. *)
Definition continues_below (c : cart) (r : range) (d : nat) : Prop :=
  tget (c_per c) d = true \/ tget (rb (c_range c)) d < tget (rb r) d.
Definition continues_above (c : cart) (r : range) (d : nat) : Prop :=
  tget (c_per c) d = true \/ tget (re r) d < tget (re (c_range c)) d.

Definition range_within (r s : range) : Prop :=
  forall d, (d < 3)%nat -> tget (rb s) d <= tget (rb r) d /\ tget (re r) d <= tget (re s) d.

Lemma extend_grows c r a : range_within r (c_range c) -> 0 <= a ->
  let e := extend_local_range c r a in
  range_within r e /\
  (forall d, (c_nd c <= d < 3)%nat -> tget (rb e) d = tget (rb r) d /\ tget (re e) d = tget (re r) d) /\
  (forall d, (d < 3)%nat -> (d < c_nd c)%nat ->
     (continues_below c r d -> tget (rb e) d = tget (rb r) d - a) /\
     (~ continues_below c r d -> tget (rb e) d = tget (rb r) d) /\
     (continues_above c r d -> tget (re e) d = tget (re r) d + a) /\
     (~ continues_above c r d -> tget (re e) d = tget (re r) d)).
Proof.
  intros W Ha e; unfold e. split; [|split].
  - intros d Hd. destruct (extend_get c r a d Hd) as [-> ->].
    destruct (_ && _), (_ && _); lia.
  - intros d Hd. destruct (extend_get c r a d ltac:(lia)) as [-> ->].
    destruct (Nat.ltb_spec d (c_nd c)); [lia|]. auto.
  - intros d Hd Hn. destruct (extend_get c r a d Hd) as [-> ->]. specialize (W d Hd).
    destruct (Nat.ltb_spec d (c_nd c)); [|lia]. cbn [andb].
    unfold continues_below, continues_above.
    destruct (tget (c_per c) d);
    destruct (Z.eqb_spec (tget (rb r) d) (tget (rb (c_range c)) d));
    destruct (Z.eqb_spec (tget (re r) d) (tget (re (c_range c)) d)); cbn [negb orb];
    split; [..|split; [|split]] || (split; [|split]); intros; try lia; try tauto;
    try (exfalso; match goal with H : ~ _ |- _ => apply H; auto; right; lia end);
    try (destruct H0; [discriminate|lia]).
Qed.

(** The extended range stays inside non-periodic boundaries when every interior
    side is at least the extension away from them. *)
Lemma extend_inside c r a : range_within r (c_range c) -> 0 <= a ->
  (forall d, (d < c_nd c)%nat -> (d < 3)%nat -> tget (c_per c) d = false ->
     (tget (rb r) d = tget (rb (c_range c)) d \/ tget (rb (c_range c)) d + a <= tget (rb r) d) /\
     (tget (re r) d = tget (re (c_range c)) d \/ tget (re r) d + a <= tget (re (c_range c)) d)) ->
  forall d, (d < 3)%nat -> tget (c_per c) d = false ->
    tget (rb (c_range c)) d <= tget (rb (extend_local_range c r a)) d /\
    tget (re (extend_local_range c r a)) d <= tget (re (c_range c)) d.
Proof.
  intros W Ha H d Hd Hp. destruct (extend_get c r a d Hd) as [-> ->]. specialize (W d Hd).
  destruct (Nat.ltb_spec d (c_nd c)); cbn [andb]; [|lia].
  destruct (H d) as [H1 H2]; auto. rewrite Hp, !orb_false_r.
  destruct (Z.eqb_spec (tget (rb r) d) (tget (rb (c_range c)) d));
  destruct (Z.eqb_spec (tget (re r) d) (tget (re (c_range c)) d)); cbn [negb]; lia.
Qed.

Lemma extend_crosses : exists c r d,
  range_within r (c_range c) /\ rempty r = false /\ (d < c_nd c)%nat /\
  tget (c_per c) d = false /\
  tget (rb (extend_local_range c r 2)) d < tget (rb (c_range c)) d /\
  (let rank_ranges := [mkR (T3 0 0 0) (T3 1 1 1); r; mkR (T3 2 0 0) (T3 6 1 1)] in
   splits (c_range c) rank_ranges).
Proof.
  exists (mkC 1 (mkR (T3 0 0 0) (T3 6 1 1)) (T3 false false false) UNIQUE),
         (mkR (T3 1 0 0) (T3 2 1 1)), 0%nat.
  split; [|split; [reflexivity|split; [cbn; lia|split; [reflexivity|split; [vm_compute; reflexivity|]]]]].
  - intros d Hd; destruct d as [|[|[|d]]]; cbn; lia.
  - cbn zeta. split; [|split].
    + intros i s Hs p Hp. destruct i as [|[|[|i]]]; cbn in Hs; try (destruct i; discriminate);
        injection Hs as <-; unfold pt_in in *; cbn in *; lia.
    + intros p Hp. unfold pt_in in Hp; cbn in Hp.
      destruct (Z.lt_ge_cases (c0 p) 1); [exists 0%nat|destruct (Z.lt_ge_cases (c0 p) 2); [exists 1%nat|exists 2%nat]];
        eexists; (split; [reflexivity|]); unfold pt_in; cbn; lia.
    + intros i j s t p Hs Ht Ps Pt.
      destruct i as [|[|[|i]]]; cbn in Hs; try (destruct i; discriminate); injection Hs as <-;
      destruct j as [|[|[|j]]]; cbn in Ht; try (destruct j; discriminate); injection Ht as <-;
      unfold pt_in in *; cbn in *; auto; lia.
Qed.

(** Exterior layer (C57).  Specification: [q] is the point of the domain next to
    [p]: equal, except that a coordinate just outside a non-periodic side is moved
    back onto it. *)
Definition pulled_back (c : cart) (p q : tup Z) : Prop :=
  forall d, (d < 3)%nat ->
    if Nat.ltb d (c_nd c) && negb (tget (c_per c) d) then
      (tget p d = tget q d /\ tget (rb (c_range c)) d <= tget p d < tget (re (c_range c)) d) \/
      (tget p d = tget (rb (c_range c)) d - 1 /\ tget q d = tget (rb (c_range c)) d) \/
      (tget p d = tget (re (c_range c)) d /\ tget q d = tget (re (c_range c)) d - 1)
    else tget p d = tget q d.

Lemma exterior_in c r p : rempty r = false -> dims_ok (c_nd c) r -> pt_subset r (c_range c) ->
  (pt_in (range_include_exterior c r) p <-> exists q, pt_in r q /\ pulled_back c p q).
Proof.
  intros E D S. pose proof (subset_bounds r (c_range c) E S) as B.
  assert (NE : forall d, (d < 3)%nat -> tget (rb r) d < tget (re r) d).
  { intros d Hd. apply rempty_false in E. rewrite pt_in_tget in E. specialize (E d Hd). lia. }
  unfold range_include_exterior. rewrite pt_in_tget. split.
  - intros Hp.
    exists (tmake (fun d => if Nat.ltb d (c_nd c) && negb (tget (c_per c) d) then
        Z.max (tget (rb (c_range c)) d) (Z.min (tget p d) (tget (re (c_range c)) d - 1))
        else tget p d)).
    split.
    + rewrite pt_in_tget. intros d Hd. specialize (Hp d Hd); specialize (B d Hd); specialize (NE d Hd).
      rewrite tget_tmake by auto.
      match type of Hp with context [dims_range ?n ?b ?e] =>
          destruct (dims_range_get n b e d Hd) as [G3 G4] end. rewrite G3, G4 in Hp.
      destruct (Nat.ltb_spec d (c_nd c)); cbn [andb].
      * destruct (tget (c_per c) d); cbn [negb andb] in *; [auto|].
        destruct (Z.eqb_spec (tget (rb r) d) (tget (rb (c_range c)) d)),
                 (Z.eqb_spec (tget (re r) d) (tget (re (c_range c)) d)); lia.
      * destruct (D d ltac:(lia)). lia.
    + intros d Hd. specialize (Hp d Hd); specialize (B d Hd); specialize (NE d Hd).
      rewrite tget_tmake by auto.
      match type of Hp with context [dims_range ?n ?b ?e] =>
          destruct (dims_range_get n b e d Hd) as [G3 G4] end. rewrite G3, G4 in Hp.
      destruct (Nat.ltb_spec d (c_nd c)); cbn [andb]; [|auto].
      destruct (tget (c_per c) d); cbn [negb andb] in *; [auto|].
      destruct (Z.eqb_spec (tget (rb r) d) (tget (rb (c_range c)) d)),
                 (Z.eqb_spec (tget (re r) d) (tget (re (c_range c)) d)); lia.
  - intros (q & Hq & Hc) d Hd. rewrite pt_in_tget in Hq.
    specialize (Hq d Hd); specialize (Hc d Hd); specialize (B d Hd); specialize (NE d Hd).
    match goal with |- context [dims_range ?n ?b ?e] =>
          destruct (dims_range_get n b e d Hd) as [G3 G4] end. rewrite G3, G4.
    destruct (Nat.ltb_spec d (c_nd c)); cbn [andb] in Hc.
    + destruct (tget (c_per c) d); cbn [negb andb] in *; [lia|].
      destruct (Z.eqb_spec (tget (rb r) d) (tget (rb (c_range c)) d)),
                 (Z.eqb_spec (tget (re r) d) (tget (re (c_range c)) d)); lia.
    + destruct (D d ltac:(lia)). lia.
Qed.

Lemma pulled_back_unique c p q q' : rempty (c_range c) = false ->
  pulled_back c p q -> pulled_back c p q' -> q = q'.
Proof.
  intros E H H'. apply tup_ext. intros d Hd. specialize (H d Hd); specialize (H' d Hd).
  apply rempty_false in E. rewrite pt_in_tget in E. specialize (E d Hd).
  destruct (_ && _); lia.
Qed.

Lemma exterior_cart_eq c : c_range (cart_include_exterior c) = range_include_exterior c (c_range c).
Proof.
  unfold cart_include_exterior, range_include_exterior; cbn [c_range].
  unfold dims_range. f_equal; unfold tmake; rewrite !Z.eqb_refl, !andb_true_r; reflexivity.
Qed.

Lemma exterior_decomp c L : dims_ok (c_nd c) (c_range c) -> rempty (c_range c) = false ->
  (forall i r, nth_error L i = Some r -> dims_ok (c_nd c) r /\ rempty r = false) ->
  splits (c_range c) L ->
  splits (c_range (cart_include_exterior c)) (map (range_include_exterior c) L).
Proof.
  intros Dc Ec DL (S1 & S2 & S3). rewrite exterior_cart_eq.
  assert (Sc : pt_subset (c_range c) (c_range c)) by (intros p Hp; exact Hp).
  split; [|split].
  - intros i s Hs p Hp. apply nth_error_map_some in Hs. destruct Hs as (r & Hr & <-).
    destruct (DL i r Hr) as [Dr Er].
    apply exterior_in in Hp; eauto. destruct Hp as (q & Hq & Hc).
    apply exterior_in; auto. exists q; split; auto. eapply S1; eauto.
  - intros p Hp. apply exterior_in in Hp; auto. destruct Hp as (q & Hq & Hc).
    destruct (S2 q Hq) as (i & r & Hr & Hqr). destruct (DL i r Hr) as [Dr Er].
    exists i, (range_include_exterior c r). split; [apply nth_error_map_some; eauto|].
    apply exterior_in; eauto.
  - intros i j s t p Hs Ht Ps Pt.
    apply nth_error_map_some in Hs. destruct Hs as (r & Hr & <-).
    apply nth_error_map_some in Ht. destruct Ht as (r' & Hr' & <-).
    destruct (DL i r Hr) as [Dr Er]. destruct (DL j r' Hr') as [Dr' Er'].
    apply exterior_in in Ps; eauto. apply exterior_in in Pt; eauto.
    destruct Ps as (q & Hq & Hc), Pt as (q' & Hq' & Hc').
    assert (q = q') by (eapply (pulled_back_unique c); eauto). subst q'.
    apply (S3 i j r r' q); auto.
Qed.
