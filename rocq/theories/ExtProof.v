(** Proofs about edges with exterior points, dilation and erosion. *)
From Coq Require Import List ZArith Bool Lia Arith QArith_base.
From Verif Require Import TupleModel RangeModel CartModel Base RangeProof CartProof IndexerModel ArrayModel ArrayProof.
From Verif Require Import ContModel HashModel HashSpec HashProof DecompModel DecompProof.
From Verif Require Import ProtoModel ProtoSpec NetModel NetSpec NetProof NetPhase NetTools.
From Verif Require Import DHashModel DDecompProof LiftModel LiftProof NeighModel NeighSpec NeighProof HaloModel InfoProof HaloProof PartModel PartProof.
From Verif Require Import FieldModel FieldSpec FieldProof EdgeProof.
Import ListNotations.
Local Open Scope Z_scope.

Section Ext.
Variables (c : cart) (n : nat) (L E : nat -> range) (N : nat -> list nat) (H : nat -> hmap).
Hypothesis P : partitioned c n L E N H.
Notation c' := (cart_include_exterior c).
Notation L' := (fun r => range_include_exterior c (L r)).
Notation E' := (fun r => range_include_exterior c (E r)).

Lemma c'_get d : (d < 3)%nat -> (d < c_nd c)%nat ->
  (tget (c_per c) d = true /\ tget (rb (c_range c')) d = tget (rb (c_range c)) d /\ tget (re (c_range c')) d = tget (re (c_range c)) d) \/
  (tget (c_per c) d = false /\ tget (rb (c_range c')) d = tget (rb (c_range c)) d - 1 /\ tget (re (c_range c')) d = tget (re (c_range c)) d + 1).
Proof.
  intros Hd Hn. rewrite exterior_cart_eq. destruct (ext_get c (c_range c) d Hd Hn) as [-> ->].
  rewrite !Z.eqb_refl, !andb_true_r. destruct (tget (c_per c) d); cbn [negb]; auto.
Qed.

Lemma c'_get0 d : (d < 3)%nat -> (c_nd c <= d)%nat -> tget (rb (c_range c')) d = 0 /\ tget (re (c_range c')) d = 1.
Proof. intros Hd Hn. rewrite exterior_cart_eq. apply ext_get0; auto. Qed.

Lemma c'_per_len d : (d < 3)%nat -> tget (c_per c) d = true -> per_len c' d = per_len c d.
Proof.
  intros Hd Pd. pose proof P as ((_ & _ & _ & _ & Hper & _) & _).
  assert (Hn : (d < c_nd c)%nat). { destruct (le_lt_dec (c_nd c) d); [|auto]. rewrite Hper in Pd by lia. discriminate. }
  unfold per_len. cbn [c_stor c_per cart_include_exterior]. destruct (c'_get d Hd Hn) as [(_ & E1 & E2)|(C & _)]; [|congruence].
  change (mkC (c_nd c) _ _ _) with c'. rewrite E1, E2. reflexivity.
Qed.

Lemma c'_image p u : is_image c' p u <-> is_image c p u.
Proof.
  split; intros I d Hd; destruct (I d Hd) as [I1 I2]; split; auto; intros Pd; destruct (I1 Pd) as [k Hk]; exists k;
    rewrite c'_per_len in * by auto; exact Hk.
Qed.

Lemma c'_once : stored_once c'.
Proof.
  pose proof P as (D & SO & _). intros d Hd. destruct (tget (c_per c) d) eqn:Pd.
  - rewrite c'_per_len by auto. rewrite (SO d Hd). destruct (le_lt_dec (c_nd c) d) as [Hn|Hn].
    + destruct (C_dim0 c n L E N H P d Hd Hn) as (_ & _ & C). congruence.
    + destruct (c'_get d Hd Hn) as [(_ & -> & ->)|(C & _)]; [reflexivity|congruence].
  - unfold per_len. change (c_per c') with (c_per c). rewrite Pd. destruct (c_stor c'); lia.
Qed.

Lemma L'_dim r d : (r < n)%nat -> (d < 3)%nat -> (d < c_nd c)%nat ->
  (tget (c_per c) d = true /\ tget (rb (L' r)) d = tget (rb (L r)) d /\ tget (re (L' r)) d = tget (re (L r)) d) \/
  (tget (c_per c) d = false /\
   (tget (rb (L r)) d = tget (rb (c_range c)) d /\ tget (rb (L' r)) d = tget (rb (L r)) d - 1 \/
    tget (rb (c_range c)) d < tget (rb (L r)) d /\ tget (rb (L' r)) d = tget (rb (L r)) d) /\
   (tget (re (L r)) d = tget (re (c_range c)) d /\ tget (re (L' r)) d = tget (re (L r)) d + 1 \/
    tget (re (L r)) d < tget (re (c_range c)) d /\ tget (re (L' r)) d = tget (re (L r)) d)).
Proof.
  intros Hr Hd Hn. destruct (ext_get c (L r) d Hd Hn) as [-> ->]. destruct (L_dims c n L E N H P r Hr d Hd) as (B1 & B2 & B3 & _).
  destruct (tget (c_per c) d); cbn [negb andb]; [left; auto|right].
  destruct (Z.eqb_spec (tget (rb (L r)) d) (tget (rb (c_range c)) d)), (Z.eqb_spec (tget (re (L r)) d) (tget (re (c_range c)) d)); lia.
Qed.

Lemma c'_decomposed : decomposed c' n L'.
Proof.
  pose proof P as ((Hnd & Hn & Hok & HD & Hper & Sp & NE) & SO & _).
  split; [exact Hnd|]. split; [exact Hn|]. split; [|split; [|split; [|split]]].
  - intros d Hd. rewrite (c'_once d Hd). specialize (Hok d Hd). rewrite (SO d Hd) in Hok.
    destruct (le_lt_dec (c_nd c) d) as [Q|Q].
    + destruct (c'_get0 d Hd Q). lia.
    + destruct (c'_get d Hd Q) as [(_ & -> & ->)|(_ & -> & ->)]; lia.
  - intros d Hd. destruct (c'_get0 d ltac:(lia)) as [-> ->]; [cbn in Hd; lia|]. lia.
  - exact Hper.
  - rewrite <- (map_map L (range_include_exterior c)). apply exterior_decomp; auto.
    + destruct (rempty (c_range c)) eqn:Q; [|reflexivity].
      assert (rempty (c_range c) = false); [|congruence]. rewrite rempty_tget. intros d Hd. specialize (Hok d Hd). rewrite (SO d Hd) in Hok. lia.
    + intros i r Hi. apply nth_error_In in Hi. apply in_map_iff in Hi as (q & <- & Hq). apply in_seq in Hq.
      split; [|apply NE; lia]. intros d Hd. destruct (L_dims c n L E N H P q ltac:(lia) d ltac:(lia)) as (_ & _ & _ & X). apply X. lia.
  - intros r Hr. rewrite rempty_tget. intros d Hd. destruct (L_dims c n L E N H P r Hr d Hd) as (B1 & B2 & B3 & _).
    destruct (le_lt_dec (c_nd c) d) as [Q|Q].
    + destruct (ext_get0 c (L r) d Hd Q) as [-> ->]. lia.
    + destruct (L'_dim r d Hr Hd Q) as [(_ & -> & ->)|(_ & A & B)]; lia.
Qed.

Lemma c'_extended r : (r < n)%nat -> extended_ok c' (L' r) (E' r).
Proof.
  intros Hr. split.
  - intros d Hd. destruct (ext_get0 c (L r) d ltac:(lia)) as [-> ->]; [cbn in Hd; lia|].
    destruct (ext_get0 c (E r) d ltac:(lia)) as [-> ->]; [cbn in Hd; lia|]. auto.
  - intros d Hd Hn. change (c_nd c') with (c_nd c) in Hn. unfold continues_below, continues_above.
    change (c_per c') with (c_per c). destruct (L_dims c n L E N H P r Hr d Hd) as (B1 & B2 & B3 & _).
    pose proof (E_dim c n L E N H P r Hr d Hd Hn) as ED. destruct (ext_get c (E r) d Hd Hn) as [-> ->].
    destruct (L'_dim r d Hr Hd Hn) as [(Pd & -> & ->)|(Pd & A & B)];
      (destruct (c'_get d Hd Hn) as [(C & -> & ->)|(C & -> & ->)]; try congruence);
      (destruct ED as [(C' & Y1 & Y2)|(C' & Y1 & Y2)]; try congruence); rewrite Pd; cbn [negb andb].
    + repeat split; intros; try lia; exfalso; tauto.
    + destruct (Z.eqb_spec (tget (rb (E r)) d) (tget (rb (c_range c)) d)), (Z.eqb_spec (tget (re (E r)) d) (tget (re (c_range c)) d));
        repeat split; intros Q; try (destruct Q as [Q|Q]; [discriminate|]); try (assert (Q' := Q); clear Q);
        try lia;
        try (match goal with Q : ~ (_ \/ ?X) |- _ => assert (~ X) by tauto end; lia).
Qed.

Lemma c'_near r q p u : (r < n)%nat -> (q < n)%nat -> pt_in (L' r) p -> pt_in (L' q) u -> near c' p u -> q = r \/ In q (N r).
Proof.
  intros Hr Hq Hp Hu (v & I & Nv). apply c'_image in I. pose proof P as (D & SO & _ & _ & Near & _).
  pose proof D as (_ & _ & Hok & _ & _ & _ & NE).
  apply (Near r q (clamp_to_range (L r) p) (clamp_to_range (L q) u) Hr Hq); [apply clamp_in, NE, Hr|apply clamp_in, NE, Hq|].
  exists (tmake (fun d => if tget (c_per c) d then tget v d else tget (clamp_to_range (L q) u) d)). split.
  - intros d Hd. destruct (I d Hd) as [I1 I2]. rewrite tget_tmake by exact Hd. split; intros Pd; rewrite Pd; [|reflexivity].
    destruct (I1 Pd) as [k Hk]. exists k. rewrite Hk. f_equal.
    destruct (le_lt_dec (c_nd c) d) as [Hn|Hn]; [destruct (C_dim0 c n L E N H P d Hd Hn) as (_ & _ & C); congruence|].
    destruct (L'_dim q d Hq Hd Hn) as [(_ & A & B)|(C & _)]; [|congruence].
    pose proof (proj1 (pt_in_tget _ _) Hu d Hd) as Bu. cbn beta in Bu. unfold clamp_to_range. rewrite tget_tmake by exact Hd.
    destruct (Z.ltb_spec (tget u d) (tget (rb (L q)) d)), (Z.leb_spec (tget (re (L q)) d) (tget u d)); lia.
  - intros d Hd. rewrite tget_tmake by exact Hd. specialize (Nv d Hd). destruct (I d Hd) as [I1 I2].
    pose proof (proj1 (pt_in_tget _ _) Hp d Hd) as Bp. pose proof (proj1 (pt_in_tget _ _) Hu d Hd) as Bu. cbn beta in Bp, Bu.
    destruct (L_dims c n L E N H P r Hr d Hd) as (R1 & R2 & R3 & R4). destruct (L_dims c n L E N H P q Hq d Hd) as (Q1 & Q2 & Q3 & Q4).
    unfold clamp_to_range. rewrite !tget_tmake by exact Hd.
    destruct (le_lt_dec (c_nd c) d) as [Hn|Hn].
    + destruct (C_dim0 c n L E N H P d Hd Hn) as (_ & _ & ->).
      destruct (R4 Hn), (Q4 Hn). destruct (ext_get0 c (L r) d Hd Hn), (ext_get0 c (L q) d Hd Hn).
      destruct (Z.ltb_spec (tget p d) (tget (rb (L r)) d)), (Z.leb_spec (tget (re (L r)) d) (tget p d));
      destruct (Z.ltb_spec (tget u d) (tget (rb (L q)) d)), (Z.leb_spec (tget (re (L q)) d) (tget u d)); lia.
    + destruct (tget (c_per c) d) eqn:Pd.
      * destruct (L'_dim r d Hr Hd Hn) as [(_ & A & B)|(C & _)]; [|congruence].
        destruct (Z.ltb_spec (tget p d) (tget (rb (L r)) d)), (Z.leb_spec (tget (re (L r)) d) (tget p d)); lia.
      * specialize (I2 eq_refl).
        destruct (L'_dim r d Hr Hd Hn) as [(C & _)|(_ & A & B)]; [congruence|].
        destruct (L'_dim q d Hq Hd Hn) as [(C & _)|(_ & A' & B')]; [congruence|].
        destruct (Z.ltb_spec (tget p d) (tget (rb (L r)) d)), (Z.leb_spec (tget (re (L r)) d) (tget p d));
        destruct (Z.ltb_spec (tget u d) (tget (rb (L q)) d)), (Z.leb_spec (tget (re (L q)) d) (tget u d)); lia.
Qed.

Theorem exterior_partitioned : partitioned c' n L' E' N (hm c' L' E' N).
Proof.
  pose proof P as (D & SO & Hext & HN & _). split; [exact c'_decomposed|]. split; [exact c'_once|].
  split; [exact c'_extended|]. split; [exact HN|]. split; [exact c'_near|].
  intros V F m Hm. apply gen_exchange; auto using c'_decomposed, c'_once.
  intros r Hr. apply (extended_sub c' n L' _ r c'_decomposed Hr), c'_extended, Hr.
Qed.

Variables (F : nat -> list bool) (m : tup Z -> bool).
Hypothesis Hm : agrees c n L E N F m.
Variables (bc : mask_bc) (ty : edge_type).

Theorem detect_edge_exterior_ok : exists F',
  prog_ok n (detect_edge_exterior c n L E bc ty) (fun r => PInfo (I0 (L r, E r) (N r)) (F r))
    (fun r => PHalo (hm c' L' E' N r, F' r)) /\
  agrees c' n L' E' N F' (edgeb c m bc ty).
Proof.
  pose proof P as (D & SO & Hext & HN & _ & _). pose proof exterior_partitioned as (D' & _ & Hext' & _ & _ & X).
  assert (Loc : forall r, (r < n)%nat -> exists d', edge_local c (E r) bc ty (L' r) (E' r) (F r) = Some d' /\ Z.of_nat (length d') = rcount (E' r) /\
    forall u, pt_in (L' r) u -> vread d' (rindex ColMajor (E' r) u) = Some (edgeb c m bc ty u)).
  { intros r Hr. apply (edge_local_ok c n L E N H P F m Hm bc ty r); auto; [intros p Hp; exact Hp|].
    apply (extended_sub c' n L' _ r D' Hr), Hext', Hr. }
  set (F1 := fun r => match edge_local c (E r) bc ty (L' r) (E' r) (F r) with Some d => d | None => [] end).
  destruct (X bool F1 (edgeb c m bc ty)) as (F' & X1 & X2).
  { intros r Hr. destruct (Loc r Hr) as (d & Q & Le & U). unfold F1. rewrite Q. auto. }
  exists F'. split; [|exact X2]. unfold detect_edge_exterior.
  apply prog_ok_app. exists (fun r => PInfo (I0 (L' r, E' r) (N r)) (F r)). split.
  { eexists. split; [intros r Hr; reflexivity|]. cbn [prog_ok]. reflexivity. }
  apply prog_ok_app. exists (fun r => PInfo (I2 (L' r, E' r) (info_map (self L' E') (N r))) (F r)). split.
  { apply (lift_ok p_info p_put_info n _ (fun r => PInfo (I0 (L' r, E' r) (N r)) (F r)) (fun r => I0 (self L' E' r) (N r))
      (fun r => I2 (self L' E' r) (info_map (self L' E') (N r)))); [reflexivity|reflexivity|].
    apply remsg_ok; [reflexivity|]. apply retrieve_info_ok.
    - intros r Hr. apply HN, Hr.
    - intros r q Hr Hq. apply (HN r Hr), Hq. }
  apply prog_ok_app. exists (fun r => PHalo (hm c' L' E' N r, F1 r)). split.
  { exists (fun r => PHalo (hm c' L' E' N r, F r)). split.
    - intros r Hr. cbn [part_map]. change (range_include_exterior c (L r), range_include_exterior c (E r)) with (self L' E' r).
      pose proof D' as (_ & _ & Hok' & _). rewrite (halo_map_ok c' L' E' N Hok'). reflexivity.
    - eexists. split; [|cbn [prog_ok]; reflexivity]. intros r Hr. cbn beta iota. unfold F1.
      destruct (Loc r Hr) as (d & Q & _). cbn beta in Q. rewrite Q. reflexivity. }
  apply (lift_ok p_halo p_put_halo n _ (fun r => PHalo (hm c' L' E' N r, F1 r)) (fun r => (hm c' L' E' N r, F1 r))
    (fun r => (hm c' L' E' N r, F' r))); [reflexivity|reflexivity|].
  apply remsg_ok; [reflexivity|]. eexists. split; [exact X1|]. cbn [prog_ok]. reflexivity.
Qed.
End Ext.

(** ** Dilation and erosion *)

Lemma tget_tset_same {A} (t : tup A) d v : (d < 3)%nat -> tget (tset t d v) d = v.
Proof. intros Hd. rewrite tget_tset by exact Hd. destruct (Nat.eqb_spec d d); [reflexivity|congruence]. Qed.
Lemma tget_tset_other {A} (t : tup A) d v d' : (d' < 3)%nat -> d' <> d -> tget (tset t d v) d' = tget t d'.
Proof. intros Hd Nd. rewrite tget_tset by exact Hd. destruct (Nat.eqb_spec d' d); [congruence|]. destruct (Nat.eqb_spec d d'); congruence. Qed.

Section Reach.
Variables (c : cart) (n : nat) (L E : nat -> range) (N : nat -> list nat) (H : nat -> hmap).
Hypothesis P : partitioned c n L E N H.
Variables (bc : mask_bc) (b : bool).

Definition counts : Prop := bc = (if b then BC_TRUE else BC_FALSE).

(** The value after one step: set if some point at distance one is. *)
Lemma reached_zero m u : pt_in (c_range c) u -> (reached c bc m b 0 u <-> m u = b).
Proof.
  pose proof P as ((_ & _ & Hok & _) & SO & _). intros Hu. split.
  - intros [(v & v' & Hv & I & A & M)|(_ & d & Hd & Pd & B)].
    + assert (v = u); [|congruence]. apply (wrap_in c Hok SO v' u) in Hu as W.
      * rewrite <- W. symmetry. apply (wrap_in c Hok SO); [apply is_image_sym, I|exact Hv].
      * assert (v' = u); [|subst; apply is_image_refl]. apply tup_ext. intros d Hd. specialize (A d Hd). destruct (Nat.ltb d (c_nd c)); lia.
    + pose proof P as ((Hnd & _) & _). pose proof (proj1 (pt_in_tget _ _) Hu d ltac:(lia)). lia.
  - intros M. left. exists u, u. split; [exact Hu|]. split; [apply is_image_refl|]. split; [apply apart_refl; lia|exact M].
Qed.

Lemma continued_in m u : pt_in (c_range c) u -> continued c bc m u = m u.
Proof.
  pose proof P as ((_ & _ & Hok & _) & SO & _). intros Hu. unfold continued.
  rewrite (wrap_id c Hok SO) by exact Hu. rewrite (proj2 (rcontains_spec _ _) Hu). reflexivity.
Qed.

Lemma range_dim u d : pt_in (c_range c) u -> (d < 3)%nat -> tget (rb (c_range c)) d <= tget u d < tget (re (c_range c)) d.
Proof. intros Hu Hd. apply (proj1 (pt_in_tget _ _) Hu d Hd). Qed.

Lemma continued_reached m u : pt_in (c_range c) u ->
  ((exists q, apart (c_nd c) 1 u q /\ continued c bc m q = b) <-> reached c bc m b 1 u).
Proof.
  pose proof P as (D & SO & _). pose proof D as (Hnd & _ & Hok & HD & Hper & _). intros Hu.
  destruct (L_owner c n L D u Hu) as (r & Hr & Hl). pose proof (L_in_ext c n L E N H P r Hr u Hl) as Hx. split.
  - intros (q & A & Q). unfold continued in Q. destruct (rcontains (c_range c) (wrap c q)) eqn:Cw.
    + apply rcontains_spec in Cw. left. exists (wrap c q), q. split; [exact Cw|].
      split; [apply is_image_sym, wrap_image, Hok|]. auto.
    + assert (Out : exists d, (d < c_nd c)%nat /\ tget (c_per c) d = false /\
         (tget u d - 1 < tget (rb (c_range c)) d \/ tget (re (c_range c)) d <= tget u d + 1)).
      { assert (X : ~ pt_in (c_range c) (wrap c q)) by (intros C; apply rcontains_spec in C; congruence).
        assert (Y : forall d, (d < 3)%nat -> tget (rb (c_range c)) d <= tget (wrap c q) d < tget (re (c_range c)) d \/
           ((d < c_nd c)%nat /\ tget (c_per c) d = false /\ (tget u d - 1 < tget (rb (c_range c)) d \/ tget (re (c_range c)) d <= tget u d + 1))).
        { intros d Hd. pose proof (range_dim u d Hu Hd) as Bu. specialize (A d Hd). specialize (SO d Hd). pose proof (wrap_base c Hok q d Hd) as WB.
          unfold wrap. rewrite tget_tmake by exact Hd. destruct (tget (c_per c) d) eqn:Pd.
          - left. specialize (WB eq_refl). unfold wrap in WB. rewrite tget_tmake, Pd in WB by exact Hd. lia.
          - destruct (Nat.ltb_spec d (c_nd c)); [|left; lia].
            destruct (Z_lt_ge_dec (tget q d) (tget (rb (c_range c)) d)); [right; repeat split; auto; left; lia|].
            destruct (Z_lt_ge_dec (tget q d) (tget (re (c_range c)) d)); [left; lia|right; repeat split; auto; right; lia]. }
        destruct (Y 0%nat ltac:(lia)) as [Y0|Y0]; [|exists 0%nat; exact Y0].
        destruct (Y 1%nat ltac:(lia)) as [Y1|Y1]; [|exists 1%nat; exact Y1].
        destruct (Y 2%nat ltac:(lia)) as [Y2|Y2]; [|exists 2%nat; exact Y2].
        exfalso. apply X. apply pt_in_tget. intros d Hd. destruct d as [|[|[|d]]]; [auto|auto|auto|lia]. }
      destruct bc eqn:EB.
      * right. split; [rewrite <- Q; reflexivity|exact Out].
      * right. split; [rewrite <- Q; reflexivity|exact Out].
      * left. exists (wrap c (closest c q)), (closest c q). split; [apply (closest_in c n L E N H P r q Hr)|].
        split; [apply is_image_sym, wrap_image, Hok|]. split; [|exact Q].
        eapply closest_apart; eauto.
  - intros [(v & v' & Hv & I & A & M)|(Eb & d & Hd & Pd & B)].
    + exists v'. split; [exact A|]. unfold continued. rewrite (wrap_in c Hok SO v' v) by (auto; apply is_image_sym, I).
      rewrite (proj2 (rcontains_spec _ _) Hv). exact M.
    + assert (G : exists z, Z.abs (tget u d - z) <= 1 /\ (z < tget (rb (c_range c)) d \/ tget (re (c_range c)) d <= z)).
      { destruct B as [B|B]; [exists (tget u d - 1)|exists (tget u d + 1)]; lia. }
      destruct G as (z & Z1 & Z2).
      exists (tset u d z). split.
      * intros d' Hd'. destruct (Nat.eq_dec d' d) as [->|Nd].
        -- rewrite tget_tset_same by exact Hd'. destruct (Nat.ltb_spec d (c_nd c)); lia.
        -- rewrite tget_tset_other by auto. destruct (Nat.ltb d' (c_nd c)); lia.
      * unfold continued. assert (W : rcontains (c_range c) (wrap c (tset u d z)) = false).
        { destruct (rcontains (c_range c) (wrap c (tset u d z))) eqn:C; [|reflexivity]. exfalso. apply rcontains_spec in C.
          pose proof (range_dim _ d C ltac:(lia)) as C'. unfold wrap in C'. rewrite tget_tmake, Pd, tget_tset_same in C' by lia. lia. }
        rewrite W, Eb. destruct b; reflexivity.
Qed.

(** Distances add up. *)
Lemma reached_step m m1 k u : 0 <= k -> (forall v, pt_in (c_range c) v -> (m1 v = b <-> reached c bc m b 1 v)) ->
  pt_in (c_range c) u -> (reached c bc m1 b k u <-> reached c bc m b (k + 1) u).
Proof.
  pose proof P as (D & SO & _). pose proof D as (Hnd & _ & Hok & HD & Hper & _). intros Hk H1 Hu. split.
  - intros [(v & v' & Hv & I & A & M)|(Eb & d & Hd & Pd & B)].
    + apply H1 in M; [|exact Hv]. destruct M as [(w & w' & Hw & J & A' & M)|(Eb & d & Hd & Pd & B)].
      * left. exists w, (tmake (fun d => tget w' d + (tget v' d - tget v d))). split; [exact Hw|]. split; [|split; [|exact M]].
        -- intros d Hd. destruct (I d Hd) as [I1 I2], (J d Hd) as [J1 J2]. rewrite tget_tmake by exact Hd. split; intros Pd.
           ++ destruct (I1 Pd) as [k1 K1], (J1 Pd) as [k2 K2]. exists (k1 + k2). lia.
           ++ rewrite (I2 Pd), (J2 Pd). lia.
        -- intros d Hd. specialize (A d Hd). specialize (A' d Hd). rewrite tget_tmake by exact Hd.
           destruct (Nat.ltb d (c_nd c)); lia.
      * right. split; [exact Eb|]. exists d. split; [exact Hd|]. split; [exact Pd|].
        pose proof (apart_tget _ _ _ _ d A ltac:(lia) Hd). destruct (I d ltac:(lia)) as [_ I2]. specialize (I2 Pd). lia.
    + right. split; [exact Eb|]. exists d. split; [exact Hd|]. split; [exact Pd|]. lia.
  - intros [(w & w' & Hw & J & A & M)|(Eb & d & Hd & Pd & B)].
    + set (v' := tmake (fun d => tget w' d + Z.max (-1) (Z.min 1 (tget u d - tget w' d)))).
      assert (Hv : pt_in (c_range c) (wrap c v')).
      { apply pt_in_tget. intros d Hd. pose proof (range_dim u d Hu Hd) as Bu. pose proof (range_dim w d Hw Hd) as Bw.
        pose proof (wrap_base c Hok v' d Hd) as WB. specialize (SO d Hd). destruct (J d Hd) as [_ J2].
        unfold wrap in *. rewrite tget_tmake in * by exact Hd. destruct (tget (c_per c) d); [specialize (WB eq_refl); lia|].
        unfold v'. rewrite tget_tmake by exact Hd. rewrite (J2 eq_refl). lia. }
      left. exists (wrap c v'), v'. split; [exact Hv|]. split; [apply is_image_sym, wrap_image, Hok|]. split.
      * intros d Hd. specialize (A d Hd). unfold v'. rewrite tget_tmake by exact Hd. destruct (Nat.ltb d (c_nd c)); lia.
      * apply H1; [exact Hv|]. left. exists w, (tmake (fun d => tget w' d + (tget (wrap c v') d - tget v' d))).
        split; [exact Hw|]. pose proof (wrap_image c Hok v') as I. split; [|split; [|exact M]].
        -- intros d Hd. destruct (I d Hd) as [I1 I2], (J d Hd) as [J1 J2]. rewrite tget_tmake by exact Hd. split; intros Pd.
           ++ destruct (I1 Pd) as [k1 K1], (J1 Pd) as [k2 K2]. exists (k1 + k2). lia.
           ++ rewrite (I2 Pd), (J2 Pd). lia.
        -- intros d Hd. specialize (A d Hd). rewrite tget_tmake by exact Hd.
           assert (V : tget v' d = tget w' d + Z.max (-1) (Z.min 1 (tget u d - tget w' d))) by (unfold v'; rewrite tget_tmake by exact Hd; reflexivity).
           destruct (Nat.ltb d (c_nd c)); lia.
    + assert (G : exists z, Z.abs (tget u d - z) <= k /\ tget (rb (c_range c)) d <= z < tget (re (c_range c)) d /\
          (z - 1 < tget (rb (c_range c)) d \/ tget (re (c_range c)) d <= z + 1)).
      { pose proof (range_dim u d Hu ltac:(lia)) as Bu. destruct B as [B|B].
        - exists (tget (rb (c_range c)) d). lia.
        - exists (tget (re (c_range c)) d - 1). lia. }
      destruct G as (z & Z1 & Z2 & Z3).
      assert (Hv : pt_in (c_range c) (tset u d z)).
      { apply pt_in_tget. intros d' Hd'. pose proof (range_dim u d' Hu Hd'). destruct (Nat.eq_dec d' d) as [->|Nd].
        - rewrite tget_tset_same by exact Hd'. lia.
        - rewrite tget_tset_other by auto. lia. }
      left. exists (tset u d z), (tset u d z). split; [exact Hv|]. split; [apply is_image_refl|]. split.
      * intros d' Hd'. destruct (Nat.eq_dec d' d) as [->|Nd].
        -- rewrite tget_tset_same by exact Hd'. destruct (Nat.ltb_spec d (c_nd c)); lia.
        -- rewrite tget_tset_other by auto. destruct (Nat.ltb d' (c_nd c)); lia.
      * apply H1; [exact Hv|]. right. split; [exact Eb|]. exists d. split; [exact Hd|]. split; [exact Pd|].
        rewrite tget_tset_same by lia. exact Z3.
Qed.
End Reach.

Section Dilate.
Variables (c : cart) (n : nat) (L E : nat -> range) (N : nat -> list nat) (H : nat -> hmap).
Hypothesis P : partitioned c n L E N H.
Variables (bc : mask_bc) (b : bool) (ty : edge_type).
Hypothesis Ty : edge_value ty = negb b.

Lemma apply_edge_ok h mask edge : length edge = length mask ->
  exists d, apply_edge b (ES h mask edge) = Some (ES h d edge) /\ length d = length mask /\
    forall i v e, vread mask i = Some v -> vread edge i = Some e -> vread d i = Some (if e : bool then b else v).
Proof.
  intros Le. unfold apply_edge. cbn [e_edge e_mask e_map].
  destruct (omap_total (fun l => let! b0 := vread edge l in let! v := vread mask l in Some (if b0 : bool then b else v))
    (zseq 0 (length mask))) as [d Q].
  { intros i Hi. apply zseq_In in Hi.
    destruct (proj2 (vread_some edge i) ltac:(lia)) as [e ->]. destruct (proj2 (vread_some mask i) ltac:(lia)) as [v ->]. eauto. }
  rewrite Q. exists d. split; [reflexivity|].
  assert (Ld : length d = length mask) by (rewrite (omap_length _ _ _ Q); apply zseq_length).
  split; [exact Ld|]. intros i v e Hv He.
  assert (Bi : 0 <= i < Z.of_nat (length mask)) by (apply vread_some; eauto).
  assert (Zi : nth_error (zseq 0 (length mask)) (Z.to_nat i) = Some i).
  { assert (Z : forall k b0 j, (j < k)%nat -> nth_error (zseq b0 k) j = Some (b0 + Z.of_nat j)).
    { clear. induction k as [|k IH]; intros b0 j Hj; [lia|]. cbn [zseq]. destruct j as [|j]; cbn [nth_error]; [f_equal; lia|].
      rewrite IH by lia. f_equal. lia. }
    rewrite Z by lia. f_equal. lia. }
  destruct (omap_nth _ _ _ _ _ Q Zi) as (w & Ew & Fw). rewrite He, Hv in Fw. injection Fw as <-.
  unfold vread. destruct (Z.ltb_spec i 0); [lia|]. exact Ew.
Qed.

Lemma step_ok F m G : agrees c n L E N F m -> exists F1 G1 m1,
  prog_ok n (detect_edge c L E bc ty ++ [Local (fun _ s => apply_edge b s)])
    (fun r => ES (H r) (F r) (G r)) (fun r => ES (H r) (F1 r) (G1 r)) /\
  agrees c n L E N F1 m1 /\ (forall u, pt_in (c_range c) u -> (m1 u = b <-> reached c bc m b 1 u)).
Proof.
  intros Hm. destruct (detect_edge_ok c n L E N H P F m Hm bc ty G) as (G1 & Q & A).
  set (F1 := fun r => match apply_edge b (ES (H r) (F r) (G1 r)) with Some s => e_mask s | None => [] end).
  assert (Ap : forall r, (r < n)%nat -> exists d, apply_edge b (ES (H r) (F r) (G1 r)) = Some (ES (H r) d (G1 r)) /\ length d = length (F r) /\
    forall i v e, vread (F r) i = Some v -> vread (G1 r) i = Some e -> vread d i = Some (if e : bool then b else v)).
  { intros r Hr. apply apply_edge_ok. pose proof (proj1 (proj1 A r Hr)). pose proof (proj1 (proj1 Hm r Hr)). lia. }
  exists F1, G1, (fun u => if edgeb c m bc ty u then b else m u). split; [|split].
  - apply prog_ok_app. eexists. split; [exact Q|]. eexists. split; [|cbn [prog_ok]; reflexivity].
    intros r Hr. cbn beta. destruct (Ap r Hr) as (d & Ed & _). unfold F1. rewrite Ed. reflexivity.
  - split.
    + intros r Hr. destruct (Ap r Hr) as (d & Ed & Ld & R). unfold F1. rewrite Ed. cbn [e_mask].
      destruct (proj1 Hm r Hr) as [Lm Om]. destruct (proj1 A r Hr) as [La Oa]. split; [rewrite Ld; exact Lm|].
      intros p Hp. apply R; auto.
    + intros r p q u Hr Hq Hp Hu I Nq. destruct (Ap r Hr) as (d & Ed & Ld & R). unfold F1. rewrite Ed. cbn [e_mask].
      apply R; [eapply (proj2 Hm); eauto|eapply (proj2 A); eauto].
  - intros u Hu. pose proof P as (D & SO & _). pose proof D as (Hnd & _ & Hok & HD & _).
    assert (X0 : forall d, (c_nd c <= d < 3)%nat -> tget u d = 0).
    { intros d Hd. pose proof (range_dim c u d Hu ltac:(lia)). destruct (HD d Hd). lia. }
    pose proof (edgeb_spec c m bc ty u X0) as ES. unfold is_edge in ES. fold (edge_value ty) in ES. rewrite Ty, negb_involutive in ES.
    rewrite (continued_in c n L E N H P bc m u Hu) in ES. rewrite <- (continued_reached c n L E N H P bc b m u Hu).
    destruct (edgeb c m bc ty u).
    + split; [|reflexivity]. intros _. apply (proj1 ES eq_refl).
    + split.
      * intros M. exists u. split; [apply apart_refl; lia|]. rewrite (continued_in c n L E N H P bc m u Hu). exact M.
      * intros X. destruct (Bool.bool_dec (m u) b) as [|Nm]; [auto|].
        assert (false = true); [|discriminate]. apply ES. split; [destruct (m u), b; cbn; congruence|exact X].
Qed.

Lemma steps_ok k : forall F m G, agrees c n L E N F m -> exists F1 G1 m1,
  prog_ok n (concat (repeat (detect_edge c L E bc ty ++ [Local (fun _ s => apply_edge b s)]) k))
    (fun r => ES (H r) (F r) (G r)) (fun r => ES (H r) (F1 r) (G1 r)) /\
  agrees c n L E N F1 m1 /\ (forall u, pt_in (c_range c) u -> (m1 u = b <-> reached c bc m b (Z.of_nat k) u)).
Proof.
  induction k as [|k IH]; intros F m G Hm.
  - exists F, G, m. split; [cbn [repeat concat prog_ok]; reflexivity|]. split; [exact Hm|].
    intros u Hu. symmetry. apply (reached_zero c n L E N H P bc b m u Hu).
  - destruct (step_ok F m G Hm) as (F1 & G1 & m1 & Q1 & A1 & R1).
    destruct (IH F1 m1 G1 A1) as (F2 & G2 & m2 & Q2 & A2 & R2).
    exists F2, G2, m2. split; [|split; [exact A2|]].
    + cbn [repeat concat]. apply prog_ok_app. eexists. split; [exact Q1|exact Q2].
    + intros u Hu. rewrite R2 by exact Hu.
      rewrite (reached_step c n L E N H P bc b m m1 (Z.of_nat k) u ltac:(lia) R1 Hu).
      replace (Z.of_nat (S k)) with (Z.of_nat k + 1) by lia. reflexivity.
Qed.
End Dilate.

Theorem dilate_erode_ok c n L E N H bc amount F m G : partitioned c n L E N H -> agrees c n L E N F m ->
  exists F1 G1 m1,
  prog_ok n (dilate_erode c L E bc amount) (fun r => ES (H r) (F r) (G r)) (fun r => ES (H r) (F1 r) (G1 r)) /\
  agrees c n L E N F1 m1 /\
  (forall u, pt_in (c_range c) u -> (m1 u = (0 <? amount) <-> reached c bc m (0 <? amount) (Z.abs amount) u)).
Proof.
  intros P Hm. unfold dilate_erode. destruct (steps_ok c n L E N H P bc (0 <? amount) (if 0 <? amount then OUTER else INNER)
    ltac:(destruct (0 <? amount); reflexivity) (Z.to_nat (Z.abs amount)) F m G Hm) as (F1 & G1 & m1 & Q & A & R).
  exists F1, G1, m1. split; [exact Q|]. split; [exact A|]. intros u Hu. rewrite (R u Hu).
  replace (Z.of_nat (Z.to_nat (Z.abs amount))) with (Z.abs amount) by lia. reflexivity.
Qed.
