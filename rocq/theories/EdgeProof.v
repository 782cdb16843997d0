(** Proofs about edge detection, dilation and erosion. *)
From Coq Require Import List ZArith Bool Lia Arith QArith_base.
From Verif Require Import TupleModel RangeModel CartModel Base RangeProof CartProof IndexerModel ArrayModel ArrayProof.
From Verif Require Import ContModel HashModel HashSpec HashProof DecompModel DecompProof.
From Verif Require Import ProtoModel ProtoSpec NetModel NetSpec NetProof NetPhase NetTools.
From Verif Require Import DHashModel DDecompProof LiftModel LiftProof NeighModel NeighSpec NeighProof HaloModel InfoProof HaloProof PartModel PartProof.
From Verif Require Import FieldModel FieldSpec FieldProof.
Import ListNotations.
Local Open Scope Z_scope.

Lemma apart_refl nd k p : 0 <= k -> apart nd k p p.
Proof. intros Hk d Hd. destruct (Nat.ltb d nd); lia. Qed.

Lemma apart_tget nd k p q d : apart nd k p q -> (d < 3)%nat -> (d < nd)%nat -> Z.abs (tget p d - tget q d) <= k.
Proof. intros A Hd Hn. specialize (A d Hd). destruct (Nat.ltb_spec d nd); [exact A|lia]. Qed.

Lemma apart_eq nd k p q d : apart nd k p q -> (d < 3)%nat -> (nd <= d)%nat -> tget p d = tget q d.
Proof. intros A Hd Hn. specialize (A d Hd). destruct (Nat.ltb_spec d nd); [lia|exact A]. Qed.

Lemma neighbor_range_In nd x p : (forall d, (nd <= d < 3)%nat -> tget x d = 0) ->
  (pt_in (neighbor_range nd x) p <-> apart nd 1 x p).
Proof.
  intros X. rewrite pt_in_tget. split.
  - intros H d Hd. specialize (H d Hd). unfold neighbor_range in H; cbn [rb re] in H. rewrite !tget_tmake in H by exact Hd.
    destruct (Nat.ltb_spec d nd); [lia|]. rewrite X by lia. lia.
  - intros A d Hd. specialize (A d Hd). unfold neighbor_range; cbn [rb re]. rewrite !tget_tmake by exact Hd.
    destruct (Nat.ltb_spec d nd); [lia|]. rewrite X in A by lia. lia.
Qed.

Section Edge.
Variables (c : cart) (n : nat) (L E : nat -> range) (N : nat -> list nat) (H : nat -> hmap).
Hypothesis P : partitioned c n L E N H.

Lemma L_dims r : (r < n)%nat -> forall d, (d < 3)%nat ->
  tget (rb (c_range c)) d <= tget (rb (L r)) d /\ tget (rb (L r)) d < tget (re (L r)) d /\ tget (re (L r)) d <= tget (re (c_range c)) d /\
  ((c_nd c <= d)%nat -> tget (rb (L r)) d = 0 /\ tget (re (L r)) d = 1).
Proof.
  intros Hr d Hd. pose proof P as (D & _). pose proof D as (Hnd & _ & _ & HD & _ & _ & NE).
  pose proof (L_within c n L D r Hr d Hd) as W. specialize (NE r Hr). rewrite rempty_tget in NE.
  specialize (NE d Hd). repeat split; try lia; destruct (HD d ltac:(lia)); lia.
Qed.

(** The domain with its exterior layer contains the domain. *)
Lemma ext_get l d : (d < 3)%nat -> (d < c_nd c)%nat ->
  tget (rb (range_include_exterior c l)) d =
    (if negb (tget (c_per c) d) && (tget (rb l) d =? tget (rb (c_range c)) d) then tget (rb l) d - 1 else tget (rb l) d) /\
  tget (re (range_include_exterior c l)) d =
    (if negb (tget (c_per c) d) && (tget (re l) d =? tget (re (c_range c)) d) then tget (re l) d + 1 else tget (re l) d).
Proof.
  intros Hd Hn. unfold range_include_exterior.
  match goal with |- context [dims_range ?n ?b ?e] => destruct (dims_range_get n b e d Hd) as [G3 G4] end.
  rewrite G3, G4. destruct (Nat.ltb_spec d (c_nd c)); [auto|lia].
Qed.

Lemma ext_get0 l d : (d < 3)%nat -> (c_nd c <= d)%nat ->
  tget (rb (range_include_exterior c l)) d = 0 /\ tget (re (range_include_exterior c l)) d = 1.
Proof.
  intros Hd Hn. unfold range_include_exterior.
  match goal with |- context [dims_range ?n ?b ?e] => destruct (dims_range_get n b e d Hd) as [G3 G4] end.
  rewrite G3, G4. destruct (Nat.ltb_spec d (c_nd c)); [lia|auto].
Qed.

Lemma C_dim0 d : (d < 3)%nat -> (c_nd c <= d)%nat -> tget (rb (c_range c)) d = 0 /\ tget (re (c_range c)) d = 1 /\ tget (c_per c) d = false.
Proof. intros Hd Hn. pose proof P as ((_ & _ & _ & HD & Hper & _) & _). destruct (HD d ltac:(lia)). rewrite (Hper d ltac:(lia)). auto. Qed.

Variables (F : nat -> list bool) (m : tup Z -> bool).
Hypothesis Hm : agrees c n L E N F m.
Variable bc : mask_bc.

(** What DetectEdge takes as the value of a point. *)
Definition cv (p : tup Z) : bool :=
  if rcontains (c_range c) (wrap c p) then m (wrap c p)
  else match bc with BC_TRUE => true | BC_FALSE => false | BC_MIRROR => m (mirror_point c p) end.

Section Point.
Variables (r : nat) (x p : tup Z).
Hypothesis Hr : (r < n)%nat.
Hypothesis Hx : pt_in (range_include_exterior c (L r)) x.
Hypothesis Hp : apart (c_nd c) 1 x p.

(** All that is needed about one dimension. *)
Lemma x_dim d : (d < 3)%nat -> (d < c_nd c)%nat ->
  (tget (c_per c) d = true /\ tget (rb (L r)) d <= tget x d < tget (re (L r)) d) \/
  (tget (c_per c) d = false /\
   (tget (rb (L r)) d <= tget x d \/ tget (rb (L r)) d = tget (rb (c_range c)) d /\ tget x d = tget (rb (L r)) d - 1) /\
   (tget x d < tget (re (L r)) d \/ tget (re (L r)) d = tget (re (c_range c)) d /\ tget x d = tget (re (L r)) d)).
Proof.
  intros Hd Hn. pose proof (proj1 (pt_in_tget _ _) Hx d Hd) as B. destruct (ext_get (L r) d Hd Hn) as [E1 E2].
  rewrite E1, E2 in B. destruct (tget (c_per c) d); cbn [negb andb] in B; [left; lia|right].
  destruct (Z.eqb_spec (tget (rb (L r)) d) (tget (rb (c_range c)) d)), (Z.eqb_spec (tget (re (L r)) d) (tget (re (c_range c)) d)); lia.
Qed.

Lemma x_dim0 d : (d < 3)%nat -> (c_nd c <= d)%nat -> tget x d = 0 /\ tget p d = 0.
Proof.
  intros Hd Hn. pose proof (proj1 (pt_in_tget _ _) Hx d Hd) as B. destruct (ext_get0 (L r) d Hd Hn) as [E1 E2].
  rewrite E1, E2 in B. pose proof (apart_eq _ _ _ _ d Hp Hd Hn). lia.
Qed.

Lemma E_dim d : (d < 3)%nat -> (d < c_nd c)%nat ->
  (tget (c_per c) d = true /\ tget (rb (E r)) d <= tget (rb (L r)) d - 1 /\ tget (re (L r)) d + 1 <= tget (re (E r)) d) \/
  (tget (c_per c) d = false /\
   (tget (rb (L r)) d = tget (rb (c_range c)) d /\ tget (rb (E r)) d = tget (rb (L r)) d \/
    tget (rb (c_range c)) d < tget (rb (L r)) d /\ tget (rb (E r)) d <= tget (rb (L r)) d - 1) /\
   (tget (re (L r)) d = tget (re (c_range c)) d /\ tget (re (E r)) d = tget (re (L r)) d \/
    tget (re (L r)) d < tget (re (c_range c)) d /\ tget (re (L r)) d + 1 <= tget (re (E r)) d)).
Proof.
  intros Hd Hn. pose proof P as (_ & _ & X & _). destruct (X r Hr) as [_ Y]. destruct (Y d Hd Hn) as (Y1 & Y2 & Y3 & Y4).
  destruct (L_dims r Hr d Hd) as (B1 & B2 & B3 & _). unfold continues_below, continues_above in *.
  destruct (tget (c_per c) d); [left; split; [reflexivity|split; [apply Y1|apply Y3]; left; reflexivity]|right].
  split; [reflexivity|]. split.
  - destruct (Z.eq_dec (tget (rb (L r)) d) (tget (rb (c_range c)) d)) as [Q|Q].
    + left. split; [exact Q|]. apply Y2. intros [C|C]; [discriminate|lia].
    + right. split; [lia|]. apply Y1. right. lia.
  - destruct (Z.eq_dec (tget (re (L r)) d) (tget (re (c_range c)) d)) as [Q|Q].
    + left. split; [exact Q|]. apply Y4. intros [C|C]; [discriminate|lia].
    + right. split; [lia|]. apply Y3. right. lia.
Qed.

Lemma E_dim0 d : (d < 3)%nat -> (c_nd c <= d)%nat -> tget (rb (E r)) d = 0 /\ tget (re (E r)) d = 1.
Proof.
  intros Hd Hn. pose proof P as (_ & _ & X & _). destruct (X r Hr) as [Y _]. destruct (Y d ltac:(lia)) as [-> ->].
  apply (L_dims r Hr d Hd), Hn.
Qed.

Lemma in_E_iff : pt_in (E r) p <-> pt_in (c_range c) (wrap c p).
Proof.
  pose proof P as ((_ & _ & Hok & _) & SO & _).
  rewrite !pt_in_tget. split; intros B d Hd; specialize (B d Hd); destruct (le_lt_dec (c_nd c) d) as [Hn|Hn].
  - destruct (C_dim0 d Hd Hn) as (-> & -> & Pd). unfold wrap. rewrite tget_tmake by exact Hd. rewrite Pd.
    destruct (x_dim0 d Hd Hn). lia.
  - pose proof (apart_tget _ _ _ _ d Hp Hd Hn) as A. pose proof (wrap_base c Hok p d Hd) as WB.
    destruct (L_dims r Hr d Hd) as (B1 & B2 & B3 & _). specialize (SO d Hd).
    destruct (x_dim d Hd Hn) as [[X1 X2]|(X1 & X2 & X3)]; [specialize (WB X1); lia|].
    destruct (E_dim d Hd Hn) as [[C _]|(_ & Y1 & Y2)]; [congruence|].
    unfold wrap. rewrite tget_tmake by exact Hd. rewrite X1. lia.
  - destruct (E_dim0 d Hd Hn) as [-> ->]. destruct (x_dim0 d Hd Hn). lia.
  - pose proof (apart_tget _ _ _ _ d Hp Hd Hn) as A.
    destruct (L_dims r Hr d Hd) as (B1 & B2 & B3 & _).
    destruct (x_dim d Hd Hn) as [[X1 X2]|(X1 & X2 & X3)];
      (destruct (E_dim d Hd Hn) as [(C & Y1 & Y2)|(C & Y1 & Y2)]; try congruence); [lia|].
    unfold wrap in B. rewrite tget_tmake in B by exact Hd. rewrite X1 in B. lia.
Qed.

Lemma read_E : pt_in (E r) p -> vread (F r) (rindex ColMajor (E r) p) = Some (m (wrap c p)).
Proof.
  intros He. pose proof P as (D & SO & _ & _ & Near & _). pose proof D as (_ & _ & Hok & _).
  pose proof (proj1 in_E_iff He) as Hw. destruct (L_owner c n L D _ Hw) as (q & Hq & Hu).
  apply (proj2 Hm r p q (wrap c p) Hr Hq He Hu (wrap_image c Hok p)).
  apply (Near r q (clamp_to_range (L r) x) (wrap c p) Hr Hq).
  - apply clamp_in. pose proof D as (_ & _ & _ & _ & _ & _ & NE). apply NE, Hr.
  - exact Hu.
  - exists p. split; [apply is_image_sym, wrap_image, Hok|]. intros d Hd.
    unfold clamp_to_range. rewrite tget_tmake by exact Hd.
    pose proof (proj1 (pt_in_tget _ _) He d Hd) as Be.
    destruct (L_dims r Hr d Hd) as (B1 & B2 & B3 & B4).
    destruct (le_lt_dec (c_nd c) d) as [Hn|Hn].
    + destruct (x_dim0 d Hd Hn) as [-> ->]. destruct (B4 Hn) as [-> ->]. cbn. lia.
    + pose proof (apart_tget _ _ _ _ d Hp Hd Hn) as A.
      destruct (Z.ltb_spec (tget x d) (tget (rb (L r)) d)), (Z.leb_spec (tget (re (L r)) d) (tget x d));
      destruct (x_dim d Hd Hn) as [[X1 X2]|(X1 & X2 & X3)];
        (destruct (E_dim d Hd Hn) as [(C & Y1 & Y2)|(C & Y1 & Y2)]; try congruence); lia.
Qed.

Lemma mirror_get d : (d < 3)%nat -> (d < c_nd c)%nat ->
  tget (mirror_point c p) d = Z.max (tget (rb (c_range c)) d) (Z.min (tget (re (c_range c)) d - 1) (tget p d)).
Proof.
  intros Hd Hn. unfold mirror_point. rewrite !tget_tmake by exact Hd.
  destruct (Nat.ltb_spec d (c_nd c)); [|lia]. destruct (L_dims r Hr d Hd). lia.
Qed.

Lemma mirror_get0 d : (d < 3)%nat -> (c_nd c <= d)%nat -> tget (mirror_point c p) d = 0.
Proof.
  intros Hd Hn. unfold mirror_point. rewrite !tget_tmake by exact Hd.
  destruct (Nat.ltb_spec d (c_nd c)); [lia|]. destruct (x_dim0 d Hd Hn). lia.
Qed.

Lemma mirror_in : pt_in (c_range c) (mirror_point c p).
Proof.
  apply pt_in_tget. intros d Hd. destruct (L_dims r Hr d Hd) as (B1 & B2 & B3 & B4).
  destruct (le_lt_dec (c_nd c) d) as [Hn|Hn].
  - rewrite mirror_get0 by auto. destruct (C_dim0 d Hd Hn) as (-> & -> & _). lia.
  - rewrite mirror_get by auto. lia.
Qed.

Lemma mirror_apart : apart (c_nd c) 1 x (mirror_point c p).
Proof.
  intros d Hd. destruct (L_dims r Hr d Hd) as (B1 & B2 & B3 & B4). destruct (Nat.ltb_spec d (c_nd c)) as [Hn|Hn].
  - rewrite mirror_get by auto. pose proof (apart_tget _ _ _ _ d Hp Hd Hn) as A.
    destruct (x_dim d Hd Hn) as [[X1 X2]|(X1 & X2 & X3)]; lia.
  - rewrite mirror_get0 by auto. apply (x_dim0 d Hd Hn).
Qed.

Lemma closest_apart : apart (c_nd c) 1 x (closest c p).
Proof.
  intros d Hd. destruct (L_dims r Hr d Hd) as (B1 & B2 & B3 & B4). unfold closest. rewrite tget_tmake by exact Hd.
  destruct (Nat.ltb_spec d (c_nd c)) as [Hn|Hn].
  - pose proof (apart_tget _ _ _ _ d Hp Hd Hn) as A.
    destruct (x_dim d Hd Hn) as [[X1 X2]|(X1 & X2 & X3)]; rewrite X1; lia.
  - destruct (C_dim0 d Hd Hn) as (-> & -> & ->). destruct (x_dim0 d Hd Hn). lia.
Qed.

Lemma closest_in : pt_in (c_range c) (wrap c (closest c p)).
Proof.
  pose proof P as ((_ & _ & Hok & _) & SO & _). apply pt_in_tget. intros d Hd.
  destruct (tget (c_per c) d) eqn:Pd.
  - pose proof (wrap_base c Hok (closest c p) d Hd Pd). specialize (SO d Hd). lia.
  - unfold wrap. rewrite tget_tmake by exact Hd. rewrite Pd. unfold closest. rewrite tget_tmake by exact Hd. rewrite Pd.
    specialize (SO d Hd). specialize (Hok d Hd). lia.
Qed.
End Point.

Lemma mask_value_ok r x p : (r < n)%nat -> pt_in (range_include_exterior c (L r)) x -> apart (c_nd c) 1 x p ->
  mask_value c (E r) bc (F r) p = Some (cv p).
Proof.
  intros Hr Hx Hp. unfold mask_value, cv. pose proof (in_E_iff r x p Hr Hx Hp) as I.
  destruct (rcontains (c_range c) (wrap c p)) eqn:Cw.
  - apply rcontains_spec in Cw. apply I in Cw. rewrite (proj2 (rcontains_spec _ _) Cw), fread_in by exact Cw.
    apply (read_E r x p Hr Hx Hp Cw).
  - destruct (rcontains (E r) p) eqn:Ce.
    { apply rcontains_spec in Ce. apply I in Ce. apply rcontains_spec in Ce. congruence. }
    destruct bc; [reflexivity|reflexivity|]. pose proof P as ((_ & _ & Hok & _) & SO & _).
    pose proof (mirror_in r x p Hr Hx Hp) as Mi. pose proof (mirror_apart r x p Hr Hx Hp) as Ma.
    assert (Me : pt_in (E r) (mirror_point c p)).
    { apply (in_E_iff r x _ Hr Hx Ma). rewrite (wrap_id c Hok SO) by exact Mi. exact Mi. }
    rewrite fread_in by exact Me. rewrite (read_E r x _ Hr Hx Ma Me). rewrite (wrap_id c Hok SO) by exact Mi. reflexivity.
Qed.

Lemma cv_self r x : (r < n)%nat -> pt_in (range_include_exterior c (L r)) x -> cv x = continued c bc m x.
Proof.
  intros Hr Hx. unfold cv, continued. destruct (rcontains (c_range c) (wrap c x)); [reflexivity|].
  destruct bc; [reflexivity|reflexivity|]. f_equal. pose proof P as ((_ & _ & Hok & _) & SO & _).
  pose proof (apart_refl (c_nd c) 1 x ltac:(lia)) as Hp. symmetry. apply (wrap_in c Hok SO); [|apply (mirror_in r x x Hr Hx Hp)].
  assert (mirror_point c x = closest c x); [|rewrite H0; apply is_image_refl].
  apply tup_ext. intros d Hd. destruct (L_dims r Hr d Hd) as (B1 & B2 & B3 & B4). unfold closest. rewrite tget_tmake by exact Hd.
  destruct (le_lt_dec (c_nd c) d) as [Hn|Hn].
  - rewrite (mirror_get0 r x x) by auto. destruct (C_dim0 d Hd Hn) as (-> & -> & ->). destruct (x_dim0 r x x Hr Hx Hp d Hd Hn). lia.
  - rewrite (mirror_get r x) by auto. destruct (x_dim r x Hr Hx d Hd Hn) as [[X1 X2]|(X1 & X2 & X3)]; rewrite X1; lia.
Qed.

Lemma cv_neighbors r x b : (r < n)%nat -> pt_in (range_include_exterior c (L r)) x ->
  ((exists p, apart (c_nd c) 1 x p /\ cv p = b) <-> (exists p, apart (c_nd c) 1 x p /\ continued c bc m p = b)).
Proof.
  intros Hr Hx. pose proof P as ((_ & _ & Hok & _) & SO & _). split; intros (p & Hp & Q).
  - unfold cv in Q. destruct (rcontains (c_range c) (wrap c p)) eqn:Cw.
    + exists p. split; [exact Hp|]. unfold continued. rewrite Cw. exact Q.
    + destruct bc eqn:EB; try (exists p; split; [exact Hp|]; unfold continued; rewrite Cw; exact Q).
      pose proof (mirror_in r x p Hr Hx Hp) as Mi. exists (mirror_point c p). split; [apply (mirror_apart r x p Hr Hx Hp)|].
      unfold continued. rewrite (wrap_id c Hok SO) by exact Mi. rewrite (proj2 (rcontains_spec _ _) Mi). exact Q.
  - unfold continued in Q. destruct (rcontains (c_range c) (wrap c p)) eqn:Cw.
    + exists p. split; [exact Hp|]. unfold cv. rewrite Cw. exact Q.
    + destruct bc eqn:EB; try (exists p; split; [exact Hp|]; unfold cv; rewrite Cw, ?EB; exact Q).
      exists (closest c p). split; [apply (closest_apart r x p Hr Hx Hp)|].
      unfold cv. rewrite (proj2 (rcontains_spec _ _) (closest_in r p Hr)). exact Q.
Qed.

Variable ty : edge_type.

(** Edge points, computed. *)
Definition edgeb (x : tup Z) : bool :=
  Bool.eqb (continued c bc m x) (edge_value ty) &&
  existsb (fun p => negb (Bool.eqb (continued c bc m p) (edge_value ty))) (RangeModel.foreach_col (neighbor_range (c_nd c) x)).

Lemma edgeb_spec x : (forall d, (c_nd c <= d < 3)%nat -> tget x d = 0) -> (edgeb x = true <-> is_edge c bc m ty x).
Proof.
  intros X. unfold edgeb, is_edge. rewrite andb_true_iff, eqb_true_iff, existsb_exists. fold (edge_value ty).
  assert (G : forall b b', negb (Bool.eqb b b') = true <-> b = negb b') by (intros [] []; cbn; split; congruence).
  split; intros [A (q & B & C)]; (split; [exact A|]); exists q.
  - apply foreach_col_In, neighbor_range_In in B; [|exact X]. split; [exact B|]. apply G, C.
  - split; [apply foreach_col_In, neighbor_range_In; auto|]. apply G, C.
Qed.

Lemma ext_point_dims r x : pt_in (range_include_exterior c (L r)) x -> forall d, (c_nd c <= d < 3)%nat -> tget x d = 0.
Proof.
  intros Hx d Hd. pose proof (proj1 (pt_in_tget _ _) Hx d ltac:(lia)) as B.
  destruct (ext_get0 (L r) d ltac:(lia) ltac:(lia)) as [E1 E2]. lia.
Qed.

Lemma edge_local_ok r eloc eext : (r < n)%nat -> pt_subset eloc (range_include_exterior c (L r)) -> pt_subset eloc eext ->
  exists d', edge_local c (E r) bc ty eloc eext (F r) = Some d' /\ Z.of_nat (length d') = rcount eext /\
    forall u, pt_in eloc u -> vread d' (rindex ColMajor eext u) = Some (edgeb u).
Proof.
  intros Hr S1 S2. unfold edge_local.
  assert (RC : 0 <= rcount eext) by (unfold rcount, rsize1; nia).
  assert (Step : forall s x, pt_in (range_include_exterior c (L r)) x ->
    edge_point c (E r) bc ty (F r) eext s x =
    match (if edgeb x then Some x else None) with Some t => fwrite eext s t true | None => Some s end).
  { intros s x Hx. unfold edge_point.
    rewrite (mask_value_ok r x x Hr Hx (apart_refl _ 1 x ltac:(lia))).
    rewrite (cv_self r x Hr Hx). destruct (Bool.eqb (continued c bc m x) (edge_value ty)) eqn:Ev.
    2: { unfold edgeb. rewrite Ev. reflexivity. }
    rewrite (omap_map _ cv).
    2: { intros p Hp. apply foreach_col_In, neighbor_range_In in Hp; [|apply (ext_point_dims r x Hx)].
         apply (mask_value_ok r x p Hr Hx Hp). }
    assert (Q : existsb (fun w => negb (Bool.eqb w (continued c bc m x))) (map cv (RangeModel.foreach_col (neighbor_range (c_nd c) x))) = edgeb x).
    { apply eq_true_iff_eq. rewrite (edgeb_spec x (ext_point_dims r x Hx)). unfold is_edge. fold (edge_value ty).
      rewrite (proj1 (eqb_true_iff _ _) Ev). rewrite <- (cv_neighbors r x _ Hr Hx). rewrite existsb_exists.
      assert (G : forall b b', negb (Bool.eqb b b') = true <-> b = negb b') by (intros [] []; cbn; split; congruence).
      split.
      - intros (w & Hw & Nw). apply in_map_iff in Hw as (p & <- & Hp). split; [reflexivity|]. exists p.
        apply foreach_col_In, neighbor_range_In in Hp; [|apply (ext_point_dims r x Hx)]. split; [exact Hp|]. apply G, Nw.
      - intros (_ & p & Hp & Np). exists (cv p). split; [|apply G, Np]. apply in_map, foreach_col_In, neighbor_range_In; auto.
        apply (ext_point_dims r x Hx). }
    rewrite Q. destruct (edgeb x); reflexivity. }
  rewrite (ofoldl_ext _ (fun s x => match (if edgeb x then Some x else None) with Some t => fwrite eext s t true | None => Some s end)).
  2: { intros s x Hx. apply Step, S1, foreach_col_In, Hx. }
  destruct (fold_set eext true (fun x => if edgeb x then Some x else None) (RangeModel.foreach_col eloc)
    (repeat false (Z.to_nat (rcount eext)))) as (d' & Q & Le & U).
  { intros p t Hp Ht. destruct (edgeb p); [|discriminate]. injection Ht as <-. apply S2, foreach_col_In, Hp. }
  { rewrite repeat_length. lia. }
  exists d'. split; [exact Q|]. split; [rewrite Le, repeat_length; lia|].
  intros u Hu. destruct (U u (S2 u Hu)) as [U1 U2]. destruct (edgeb u) eqn:Eu.
  - apply U1. exists u. rewrite Eu. split; [apply foreach_col_In, Hu|reflexivity].
  - rewrite U2.
    + pose proof (rindex_bounds ColMajor eext u (S2 u Hu)). unfold vread.
      destruct (Z.ltb_spec (rindex ColMajor eext u) 0); [lia|].
      apply nth_error_repeat. lia.
    + intros p Hp. destruct (edgeb p) eqn:Ep; [|discriminate]. intros X. injection X as ->. congruence.
Qed.

(** Without exterior points. *)
Lemma L_in_ext r : (r < n)%nat -> pt_subset (L r) (range_include_exterior c (L r)).
Proof.
  intros Hr p Hp. apply pt_in_tget. intros d Hd. pose proof (proj1 (pt_in_tget _ _) Hp d Hd) as B.
  destruct (le_lt_dec (c_nd c) d) as [Hn|Hn].
  - destruct (ext_get0 (L r) d Hd Hn) as [-> ->]. destruct (L_dims r Hr d Hd) as (_ & _ & _ & X). specialize (X Hn). lia.
  - destruct (ext_get (L r) d Hd Hn) as [-> ->]. destruct (_ && _), (_ && _); lia.
Qed.

Theorem detect_edge_ok G : exists F',
  prog_ok n (detect_edge c L E bc ty) (fun r => ES (H r) (F r) (G r)) (fun r => ES (H r) (F r) (F' r)) /\
  agrees c n L E N F' edgeb.
Proof.
  pose proof P as (D & SO & Hext & _ & _ & X).
  assert (Loc : forall r, (r < n)%nat -> exists d', edge_local c (E r) bc ty (L r) (E r) (F r) = Some d' /\ Z.of_nat (length d') = rcount (E r) /\
    forall u, pt_in (L r) u -> vread d' (rindex ColMajor (E r) u) = Some (edgeb u)).
  { intros r Hr. apply edge_local_ok; auto; [apply L_in_ext, Hr|apply (extended_sub c n L _ r D Hr), Hext, Hr]. }
  set (F1 := fun r => match edge_local c (E r) bc ty (L r) (E r) (F r) with Some d => d | None => [] end).
  destruct (X bool F1 edgeb) as (F' & X1 & X2).
  { intros r Hr. destruct (Loc r Hr) as (d & Q & Le & U). unfold F1. rewrite Q. auto. }
  exists F'. split; [|exact X2]. exists (fun r => ES (H r) (F r) (F1 r)). split.
  - intros r Hr. cbn beta. cbn [e_mask e_map]. unfold F1. destruct (Loc r Hr) as (d & Q & _). rewrite Q. reflexivity.
  - apply (lift_ok e_get e_put n [halo_exchange] (fun r => ES (H r) (F r) (F1 r)) (fun r => (H r, F1 r)) (fun r => (H r, F' r))).
    + intros r [a1 a2] Hr. reflexivity.
    + intros r a a' Hr. reflexivity.
    + eexists. split; [exact X1|]. cbn [prog_ok]. reflexivity.
Qed.
End Edge.
