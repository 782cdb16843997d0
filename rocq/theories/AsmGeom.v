(** Neighbourhoods of points on a periodic grid, with and without exterior points. *)
From Coq Require Import List ZArith Bool Lia.
From Verif Require Import TupleModel RangeModel Base RangeProof CartModel CartProof DecompModel DecompProof IndexerModel.
From Verif Require Import NeighModel NeighSpec NeighProof HaloModel HaloProof PartModel FieldModel FieldSpec FieldProof EdgeProof ExtProof.
From Verif Require Import AsmModel AsmSpec.
Import ListNotations.
Local Open Scope Z_scope.

Section Geom.
Variables (c : cart) (n : nat) (L E : nat -> range) (N : nat -> list nat) (H : nat -> hmap).
Hypothesis P : partitioned c n L E N H.
Notation c' := (cart_include_exterior c).
Notation dom u := (pt_in (c_range c) u).
Notation nd := (c_nd c).

Lemma Hok : cart_ok c.
Proof. pose proof P as ((_ & _ & K & _) & _). exact K. Qed.
Lemma SO : stored_once c.
Proof. pose proof P as (_ & K & _). exact K. Qed.

Lemma apart_sym k u w : apart nd k u w -> apart nd k w u.
Proof. intros A d Hd. specialize (A d Hd). destruct (Nat.ltb d nd); [rewrite <- Z.abs_opp; replace (- _) with (tget u d - tget w d) by lia; exact A|auto]. Qed.

Lemma apart_le k k' u w : k <= k' -> apart nd k u w -> apart nd k' u w.
Proof. intros K A d Hd. specialize (A d Hd). destruct (Nat.ltb d nd); [lia|exact A]. Qed.

(** Moving a neighbourhood to an image. *)
Lemma image_shift k x y w : is_image c x y -> apart nd k x w -> exists w', is_image c w w' /\ apart nd k y w'.
Proof.
  intros I A. exists (tmake (fun d => tget w d + tget y d - tget x d)). split.
  - intros d Hd. rewrite tget_tmake by exact Hd. destruct (I d Hd) as [I1 I2]. split; intros Pd.
    + destruct (I1 Pd) as [j ->]. exists j. lia.
    + rewrite (I2 Pd). lia.
  - intros d Hd. rewrite tget_tmake by exact Hd. specialize (A d Hd). destruct (Nat.ltb d nd); [|lia].
    replace (tget y d - _) with (tget x d - tget w d) by lia. exact A.
Qed.

Lemma wrap_same x y : is_image c x y -> wrap c x = wrap c y.
Proof.
  intros I. apply wrap_unique; [apply Hok| |apply wrap_base, Hok].
  apply (is_image_trans c x y); [exact I|apply wrap_image, Hok].
Qed.

Lemma continued_image bc m x y : bc <> BC_MIRROR -> is_image c x y -> continued c bc m x = continued c bc m y.
Proof. intros B I. unfold continued. rewrite (wrap_same x y I). destruct bc; congruence. Qed.

Lemma continued_true m w : continued c BC_FALSE m w = true -> exists x, dom x /\ is_image c x w /\ m x = true.
Proof.
  unfold continued. destruct (rcontains (c_range c) (wrap c w)) eqn:Q; [|discriminate]. intros M. exists (wrap c w).
  split; [apply rcontains_spec, Q|]. split; [apply is_image_sym, wrap_image, Hok|exact M].
Qed.

Lemma continued_image_in bc m x w : dom x -> is_image c x w -> continued c bc m w = m x.
Proof.
  intros Hx I. unfold continued. rewrite (wrap_in c Hok SO w x (is_image_sym _ _ _ I) Hx), (proj2 (rcontains_spec _ _) Hx). reflexivity.
Qed.

(** Within. *)
Lemma reached_within bc m (b : bool) k u : bc = (if b then BC_FALSE else BC_TRUE) ->
  reached c bc m b k u <-> exists x, dom x /\ within c k u x /\ m x = b.
Proof.
  intros ->. split.
  - intros [(x & x' & Hx & I & A & M)|[Q _]]; [|destruct b; discriminate]. exists x. split; [exact Hx|]. split; [exists x'; auto|exact M].
  - intros (x & Hx & (x' & I & A) & M). left. exists x, x'. auto.
Qed.

Lemma within_zero u x : dom u -> dom x -> within c 0 u x -> u = x.
Proof.
  intros Hu Hx (x' & I & A). assert (x' = u). { apply tup_ext. intros d Hd. specialize (A d Hd). destruct (Nat.ltb d nd); lia. } subst x'.
  rewrite <- (wrap_id c Hok SO u Hu). apply wrap_in; [apply Hok|apply SO|apply is_image_sym, I|exact Hx].
Qed.

Lemma within_sym k u x : within c k u x -> within c k x u.
Proof.
  intros (x' & I & A). apply apart_sym in A. destruct (image_shift k x' x u (is_image_sym _ _ _ I) A) as (u' & I' & A').
  exists u'. auto.
Qed.

Lemma within_self k u : 0 <= k -> within c k u u.
Proof. intros K. exists u. split; [apply is_image_refl|apply apart_refl, K]. Qed.

Lemma within_le k k' u x : k <= k' -> within c k u x -> within c k' u x.
Proof. intros K (x' & I & A). exists x'. split; [exact I|apply (apart_le k k' _ _ K A)]. Qed.

(** ** The exterior points next to the region *)

Variables (act bnd : pmask).
Hypothesis bnd_act : forall u, dom u -> bnd u = true -> act u = true.
Notation inside := (fun x => act x && negb (bnd x)).
Definition cover : pmask := fun q =>
  edgeb c act BC_FALSE OUTER q && (edgeb c inside BC_FALSE OUTER q || negb (edgeb c bnd BC_FALSE OUTER q)).

Lemma c'_dims q : pt_in (c_range c') q -> forall d, (nd <= d < 3)%nat -> tget q d = 0.
Proof.
  intros Hq d Hd. pose proof (proj1 (pt_in_tget _ _) Hq d ltac:(lia)). destruct (c'_get0 c d ltac:(lia) ltac:(lia)) as [E1 E2]. lia.
Qed.

(** A place that is not active next to an active point not on a boundary. *)
Definition opening (q : tup Z) : Prop :=
  continued c BC_FALSE act q = false /\ exists w, apart nd 1 q w /\ continued c BC_FALSE inside w = true.

Lemma continued_sub (m m' : pmask) q : (forall x, dom x -> m x = true -> m' x = true) -> continued c BC_FALSE m' q = false -> continued c BC_FALSE m q = false.
Proof.
  intros X Q. unfold continued in *. destruct (rcontains (c_range c) (wrap c q)) eqn:R; [|reflexivity].
  destruct (m (wrap c q)) eqn:M; [|reflexivity]. apply X in M; [congruence|apply rcontains_spec, R].
Qed.

Lemma cover_opening q : pt_in (c_range c') q -> cover q = true <-> opening q.
Proof.
  intros Hq. pose proof (c'_dims q Hq) as D0. unfold cover. rewrite andb_true_iff, orb_true_iff, negb_true_iff.
  assert (IN : forall x, dom x -> inside x = true -> act x = true) by (intros x Hx X; apply andb_true_iff in X; tauto).
  split.
  - intros [Q1 Q2]. apply edgeb_spec in Q1 as [A (w & Aw & Cw)]; [|exact D0]. split; [exact A|].
    destruct Q2 as [Q2|Q2].
    + apply edgeb_spec in Q2 as [_ (w' & Aw' & Cw')]; [|exact D0]. exists w'. auto.
    + exists w. split; [exact Aw|]. destruct (continued_true act w Cw) as (x & Hx & Ix & Mx).
      rewrite (continued_image_in _ _ x w Hx Ix). rewrite Mx. cbn [andb]. destruct (bnd x) eqn:Bx; [|reflexivity].
      assert (Q3 : edgeb c bnd BC_FALSE OUTER q = true).
      { apply edgeb_spec; [exact D0|]. split; [apply (continued_sub bnd act q bnd_act A)|]. exists w. split; [exact Aw|].
        rewrite (continued_image_in _ _ x w Hx Ix). exact Bx. }
      congruence.
  - intros [A (w & Aw & Cw)]. split.
    + apply edgeb_spec; [exact D0|]. split; [exact A|]. exists w. split; [exact Aw|]. cbn [negb].
      destruct (continued c BC_FALSE act w) eqn:Q; [reflexivity|]. rewrite (continued_sub inside act w IN Q) in Cw. discriminate.
    + left. apply edgeb_spec; [exact D0|]. split; [apply (continued_sub inside act q IN A)|]. exists w. auto.
Qed.

Lemma opening_image q q' : is_image c q q' -> opening q -> opening q'.
Proof.
  intros I [A (w & Aw & Cw)]. split; [rewrite <- A; symmetry; apply continued_image; [discriminate|exact I]|].
  destruct (image_shift 1 q q' w I Aw) as (w' & Iw & Aw'). exists w'. split; [exact Aw'|].
  rewrite <- Cw. symmetry. apply continued_image; [discriminate|exact Iw].
Qed.

Lemma opening_near q : opening q -> pt_in (c_range c') (wrap c q).
Proof.
  intros [_ (w & Aw & Cw)]. destruct (continued_true _ w Cw) as (x & Hx & Ix & _). apply pt_in_tget. intros d Hd.
  pose proof (range_dim c x d Hx Hd) as B. destruct (le_lt_dec nd d) as [Hn|Hn].
  - destruct (c'_get0 c d Hd Hn) as [-> ->]. destruct (C_dim0 c n L E N H P d Hd Hn) as (R0 & R1 & Pd).
    destruct (wrap_image c Hok q d Hd) as [_ W]. rewrite (W Pd). destruct (Ix d Hd) as [_ I]. specialize (I Pd).
    pose proof (apart_eq nd 1 q w d Aw Hd Hn). lia.
  - destruct (c'_get c d Hd Hn) as [(Pd & -> & ->)|(Pd & -> & ->)].
    + pose proof (wrap_base c Hok q d Hd Pd) as W. rewrite (SO d Hd) in W. lia.
    + destruct (wrap_image c Hok q d Hd) as [_ W]. rewrite (W Pd). destruct (Ix d Hd) as [_ I]. specialize (I Pd).
      pose proof (apart_tget nd 1 q w d Aw Hd Hn). lia.
Qed.

Lemma cover_reached k u : reached c' BC_FALSE cover true k u <-> exists q, apart nd k u q /\ opening q.
Proof.
  split.
  - intros [(q & q' & Hq & I & A & M)|[Q _]]; [|discriminate]. exists q'. split; [exact A|].
    apply (opening_image q q'); [apply (c'_image c n L E N H P), I|]. apply cover_opening; auto.
  - intros (q & A & O). left. exists (wrap c q), q. pose proof (opening_near q O) as Hq.
    split; [exact Hq|]. split; [apply (c'_image c n L E N H P), is_image_sym, wrap_image, Hok|]. split; [exact A|].
    apply cover_opening; [exact Hq|]. apply (opening_image q); [apply wrap_image, Hok|exact O].
Qed.
End Geom.
