(** Proofs about operations on distributed fields. *)
From Coq Require Import List ZArith Bool Lia Arith QArith_base.
From Verif Require Import TupleModel RangeModel CartModel Base RangeProof CartProof IndexerModel ArrayModel ArrayProof.
From Verif Require Import ContModel HashModel HashSpec HashProof DecompModel DecompProof.
From Verif Require Import ProtoModel ProtoSpec NetModel NetSpec NetProof NetPhase NetTools.
From Verif Require Import DHashModel DDecompProof LiftModel LiftProof NeighModel NeighSpec NeighProof HaloModel InfoProof HaloProof PartModel PartProof.
From Verif Require Import FieldModel FieldSpec.
Import ListNotations.
Local Open Scope Z_scope.

(** ** Partitions *)

Section Gen.
Variables (c : cart) (n : nat) (L E : nat -> range) (N : nat -> list nat).
Hypothesis D : decomposed c n L.
Hypothesis SO : stored_once c.
Hypothesis Hext : forall r, (r < n)%nat -> pt_subset (L r) (E r).
Hypothesis HN : forall r, (r < n)%nat -> NoDup (N r) /\ forall q, In q (N r) -> (q < n)%nat /\ q <> r /\ In r (N q).

Lemma gen_exchange {V} (F : nat -> list V) m : holds n L E F m ->
  exists F', phase_ok n halo_exchange (fun r => (hm c L E N r, F r)) (fun r => (hm c L E N r, F' r)) /\
             agrees c n L E N F' m.
Proof.
  intros Hm. pose proof D as (_ & _ & Hok & _).
  assert (HF : forall r, (r < n)%nat -> Z.of_nat (length (F r)) = rcount (E r)) by (intros r Hr; apply Hm, Hr).
  assert (A1 : forall r p, (r < n)%nat -> pt_in (L r) p -> pt_in (c_range c) p).
  { intros r p Hr. apply (L_sub c n L D), Hr. }
  assert (A2 : forall r s p, (r < n)%nat -> (s < n)%nat -> pt_in (L r) p -> pt_in (L s) p -> r = s).
  { intros r s p Hr Hs. apply (L_unique c n L D); auto. }
  assert (A3 : forall r p, (r < n)%nat -> pt_in (L r) p -> pt_in (E r) p).
  { intros r p Hr. apply Hext, Hr. }
  assert (A4 : forall r, (r < n)%nat -> NoDup (N r)) by (intros r Hr; apply HN, Hr).
  assert (A5 : forall r q, (r < n)%nat -> In q (N r) -> (q < n)%nat) by (intros r q Hr Hq; apply (HN r Hr), Hq).
  assert (A6 : forall r, (r < n)%nat -> ~ In r (N r)) by (intros r Hr I; apply (HN r Hr) in I; tauto).
  assert (A7 : forall r q, (r < n)%nat -> (q < n)%nat -> In q (N r) -> In r (N q)) by (intros r q Hr Hq I; apply (HN r Hr), I).
  assert (V1 : forall r p q u, (r < n)%nat -> (q < n)%nat -> pt_in (E r) p -> pt_in (L q) u -> is_image c p u ->
     q = r \/ In q (N r) -> vread (res c L E N F r) (rindex ColMajor (E r) p) = vread (F q) (rindex ColMajor (E q) u)).
  { intros r p q u Hr Hq Hp Hu I Nq. fold (ix E r p). rewrite (res_ok c n L E N F); auto.
    pose proof (tgt_image c n L D SO p u q Hq Hu I) as T. unfold val. rewrite T.
    destruct (rcontains (L r) p) eqn:C.
    - apply rcontains_spec in C. rewrite tgt_in in T by (apply (A1 r p Hr C)). subst u.
      assert (r = q) by (eapply A2; eauto). subst q. reflexivity.
    - destruct (find (fun s => rcontains (L s) u) (K L E N r)) as [s|] eqn:Fs.
      + apply find_some in Fs as [Is Cs]. apply rcontains_spec in Cs. apply K_In in Is.
        assert (Hs : (s < n)%nat) by apply (A5 r s Hr Is). assert (s = q) by (eapply A2; eauto). subst s. reflexivity.
      + assert (q = r).
        { destruct Nq as [Nq|Nq]; [exact Nq|]. exfalso. apply (K_In L E) in Nq. pose proof (find_none _ _ Fs q Nq) as X.
          cbn beta in X. apply rcontains_spec in Hu. congruence. }
        subst q.
        assert (NC : rcontains (c_range c) p = false).
        { destruct (rcontains (c_range c) p) eqn:C'; [|reflexivity]. unfold tgt in T. rewrite C' in T. subst u.
          apply rcontains_spec in Hu. congruence. }
        unfold tgt in T. rewrite NC in T. rewrite T. rewrite (proj2 (rcontains_spec _ _) Hu), andb_true_r.
        destruct (rincludes (c_range c) (E r)) eqn:Inc; [|reflexivity].
        rewrite includes_spec in Inc. apply Inc in Hp. apply rcontains_spec in Hp. congruence. }
  exists (res c L E N F). split; [apply halo_exchange_ok; auto|]. split.
  - intros r Hr. split; [rewrite (res_length c n L E N F) by auto; auto|]. intros p Hp.
    rewrite (V1 r p r p Hr Hr (A3 r p Hr Hp) Hp (is_image_refl _ _) ltac:(left; reflexivity)).
    apply (Hm r Hr), Hp.
  - intros r p q u Hr Hq Hp Hu I Nq. rewrite (V1 r p q u Hr Hq Hp Hu I Nq). apply (Hm q Hq), Hu.
Qed.
End Gen.

Lemma extended_sub c n L e r : decomposed c n L -> (r < n)%nat -> extended_ok c (L r) e -> pt_subset (L r) e.
Proof.
  intros D Hr [X Y] p Hp. apply pt_in_tget. intros d Hd. pose proof (proj1 (pt_in_tget _ _) Hp d Hd) as B.
  destruct (lt_dec d (c_nd c)) as [H|H].
  - destruct (Y d Hd H) as (Y1 & Y2 & Y3 & Y4).
    assert (tget (rb e) d <= tget (rb (L r)) d).
    { destruct (tget (c_per c) d) eqn:P; [specialize (Y1 ltac:(left; exact P)); lia|].
      destruct (Z_lt_ge_dec (tget (rb (c_range c)) d) (tget (rb (L r)) d)) as [Q|Q].
      - specialize (Y1 ltac:(right; exact Q)). lia.
      - rewrite Y2; [lia|]. intros [C|C]; [congruence|lia]. }
    assert (tget (re (L r)) d <= tget (re e) d).
    { destruct (tget (c_per c) d) eqn:P; [specialize (Y3 ltac:(left; exact P)); lia|].
      destruct (Z_lt_ge_dec (tget (re (L r)) d) (tget (re (c_range c)) d)) as [Q|Q].
      - specialize (Y3 ltac:(right; exact Q)). lia.
      - rewrite Y4; [lia|]. intros [C|C]; [congruence|lia]. }
    lia.
  - destruct (X d ltac:(lia)). lia.
Qed.

(** The neighbours found and halo maps made by the library give a partition. *)
Section Setup.
Variables (c : cart) (n : nat) (L E : nat -> range).
Hypothesis D : decomposed c n L.
Hypothesis SO : stored_once c.
Hypothesis Hext : forall r, (r < n)%nat -> extended_ok c (L r) (E r).
Notation N := (nb c n L).

Lemma nb_partitioned : partitioned c n L E N (hm c L E N).
Proof.
  assert (HN : forall r, (r < n)%nat -> NoDup (N r) /\ forall q, In q (N r) -> (q < n)%nat /\ q <> r /\ In r (N q)).
  { intros r Hr. destruct (N_ok c n L D r Hr) as [A B]. split; [exact A|]. intros q Hq. destruct (B q Hq) as [B1 B2].
    split; [exact B1|]. split; [exact B2|]. apply (HN_sym c n L D SO); auto. }
  split; [exact D|]. split; [exact SO|]. split; [exact Hext|]. split; [exact HN|]. split.
  - intros r q p u Hr Hq Hp Hu Nr. destruct (Nat.eq_dec q r) as [|Ne]; [auto|right].
    apply (neighbors_near c n L D r q SO Hr). split; [exact Hq|]. split; [exact Ne|]. exists p, u. auto.
  - intros V F m Hm. apply gen_exchange; auto. intros r Hr. apply (extended_sub c n L _ r D Hr), Hext, Hr.
Qed.

Theorem make_partition_ok {V} (F : nat -> list V) (guess : list Q -> Z -> Z) (rnd : Q -> Q) :
  (forall l m, 1 <= m -> guess l m <= m) -> rounding rnd -> (rnd 1 == 1)%Q ->
  prog_ok n (make_partition c n (range_decomp guess (c_nd c)) (range_ratio rnd (c_nd c)))
    (fun r => P0 (L r) (E r) (F r)) (fun r => PHalo (hm c L E N r, F r)).
Proof.
  intros Gu HR R1. pose proof D as (Hnd & Hn & Hok & HD & Hper & _ & NE). unfold make_partition.
  apply prog_ok_app. exists (fun r => PNeigh (N0 (L r)) (E r) (F r)). split.
  { eexists. split; [intros r Hr; reflexivity|]. cbn [prog_ok]. reflexivity. }
  apply prog_ok_app. exists (fun r => PNeigh (NDone (L r) (N r)) (E r) (F r)). split.
  { apply (lift_ok p_neigh p_put_neigh n _ (fun r => PNeigh (N0 (L r)) (E r) (F r)) (fun r => N0 (L r)) (fun r => NDone (L r) (N r)));
      [reflexivity|reflexivity|]. apply remsg_ok; [reflexivity|]. apply neighbors_ok; auto. }
  apply prog_ok_app. exists (fun r => PInfo (I0 (L r, E r) (N r)) (F r)). split.
  { eexists. split; [intros r Hr; reflexivity|]. cbn [prog_ok]. reflexivity. }
  apply prog_ok_app. exists (fun r => PInfo (I2 (L r, E r) (info_map (self L E) (N r))) (F r)). split.
  { apply (lift_ok p_info p_put_info n _ (fun r => PInfo (I0 (L r, E r) (N r)) (F r)) (fun r => I0 (self L E r) (N r))
      (fun r => I2 (self L E r) (info_map (self L E) (N r)))); [reflexivity|reflexivity|].
    apply remsg_ok; [reflexivity|]. apply retrieve_info_ok.
    - intros r Hr. apply (N_ok c n L D), Hr.
    - intros r q Hr Hq. eapply (N_ok c n L D); eauto. }
  eexists. split; [|cbn [prog_ok]; reflexivity]. intros r Hr. cbn [part_map].
  change (L r, E r) with (self L E r). rewrite (halo_map_ok c L E N Hok). reflexivity.
Qed.
End Setup.

(** Every extended range made by ExtendLocalRange is one. *)
Lemma extend_extended_ok c r a : range_within r (c_range c) -> 1 <= a -> extended_ok c r (extend_local_range c r a).
Proof.
  intros W Ha. destruct (extend_grows c r a W ltac:(lia)) as (_ & X & Y). split.
  - intros d Hd. apply X, Hd.
  - intros d Hd Hn. destruct (Y d Hd Hn) as (Y1 & Y2 & Y3 & Y4). repeat split; intros H.
    + rewrite Y1 by exact H. lia.
    + apply Y2, H.
    + rewrite Y3 by exact H. lia.
    + apply Y4, H.
Qed.

(** ** Sets of writes *)

Section Writes.
Context {V : Type}.

Lemma ofoldl_ext {S A} (f g : S -> A -> option S) l : (forall s a, In a l -> f s a = g s a) ->
  forall s, ofoldl f l s = ofoldl g l s.
Proof.
  induction l as [|a l IH]; intros H s; cbn [ofoldl]; [reflexivity|]. rewrite H by (left; reflexivity).
  destruct (g s a); [|reflexivity]. apply IH. intros s' b Hb. apply H. right. exact Hb.
Qed.

Lemma fold_set e (v : V) (g : tup Z -> option (tup Z)) pts : forall data,
  (forall p t, In p pts -> g p = Some t -> pt_in e t) -> Z.of_nat (length data) = rcount e ->
  exists d', ofoldl (fun d p => match g p with Some t => fwrite e d t v | None => Some d end) pts data = Some d' /\
    length d' = length data /\
    forall u, pt_in e u ->
      ((exists p, In p pts /\ g p = Some u) -> vread d' (rindex ColMajor e u) = Some v) /\
      ((forall p, In p pts -> g p <> Some u) -> vread d' (rindex ColMajor e u) = vread data (rindex ColMajor e u)).
Proof.
  induction pts as [|a pts IH]; intros data T Le; cbn [ofoldl].
  - exists data. split; [reflexivity|]. split; [reflexivity|]. intros u Hu. split; [intros (p & [] & _)|auto].
  - assert (T' : forall p t, In p pts -> g p = Some t -> pt_in e t) by (intros p t Hp; apply T; right; exact Hp).
    destruct (g a) as [t|] eqn:Ga.
    + pose proof (T a t ltac:(left; reflexivity) Ga) as Ht. assert (FW : fwrite e data t v = vwrite data (rindex ColMajor e t) v).
      { unfold fwrite. rewrite (proj2 (rcontains_spec _ _) Ht). reflexivity. }
      rewrite FW. clear FW.
      destruct (vwrite_spec data (rindex ColMajor e t) v) as (d1 & -> & L1 & R1).
      { rewrite Le. apply rindex_bounds, Ht. }
      destruct (IH d1 T' ltac:(congruence)) as (d' & E & L2 & U). exists d'. split; [exact E|]. split; [congruence|].
      intros u Hu. destruct (U u Hu) as [U1 U2]. split.
      * intros (p & [<-|Hp] & Gp).
        -- assert (t = u) by congruence. subst t.
           assert (dec : {exists p, In p pts /\ g p = Some u} + {forall p, In p pts -> g p <> Some u}).
           { clear - u. induction pts as [|b pts IHp]; [right; intros p []|].
             destruct IHp as [I|I]; [left; destruct I as (p & Hp & Gp); exists p; split; [right; exact Hp|exact Gp]|].
             destruct (g b) as [w|] eqn:Gb.
             - destruct (teqb w u) eqn:Q.
               + left. exists b. split; [left; reflexivity|]. rewrite Gb. f_equal.
                 apply teqb_eq, Q.
               + right. intros p [<-|Hp]; [|apply I, Hp]. rewrite Gb. intros X. injection X as X. subst w.
                 rewrite (proj2 (teqb_eq u u) eq_refl) in Q. discriminate.
             - right. intros p [<-|Hp]; [congruence|apply I, Hp]. }
           destruct dec as [d|d]; [apply U1, d|]. rewrite U2 by exact d. rewrite R1, Z.eqb_refl. reflexivity.
        -- apply U1. eauto.
      * intros H. rewrite U2 by (intros p Hp; apply H; right; exact Hp). rewrite R1.
        destruct (Z.eqb_spec (rindex ColMajor e u) (rindex ColMajor e t)) as [Q|]; [|reflexivity].
        apply rindex_inj in Q; auto. subst t. exfalso. apply (H a ltac:(left; reflexivity)), Ga.
    + destruct (IH data T' Le) as (d' & E & L2 & U). exists d'. split; [exact E|]. split; [exact L2|].
      intros u Hu. destruct (U u Hu) as [U1 U2]. split.
      * intros (p & [<-|Hp] & Gp); [congruence|]. apply U1. eauto.
      * intros H. apply U2. intros p Hp. apply H. right. exact Hp.
Qed.
End Writes.

(** ** Wrapping *)

Section Wrap.
Variables (c : cart).
Hypothesis Hok : cart_ok c.

Lemma wrap_image p : is_image c p (wrap c p).
Proof.
  intros d Hd. unfold wrap. rewrite tget_tmake by exact Hd. specialize (Hok d Hd). split; intros P; rewrite P; [|reflexivity].
  exists (- ((tget p d - tget (rb (c_range c)) d) / per_len c d)).
  pose proof (Z.div_mod (tget p d - tget (rb (c_range c)) d) (per_len c d) ltac:(lia)). lia.
Qed.

Lemma wrap_base p : in_base c (wrap c p).
Proof.
  intros d Hd P. unfold wrap. rewrite tget_tmake by exact Hd. rewrite P. specialize (Hok d Hd).
  pose proof (Z.mod_pos_bound (tget p d - tget (rb (c_range c)) d) (per_len c d) Hok). lia.
Qed.

Lemma adjust_wrap p : periodic_adjust c p = Some (wrap c p).
Proof. apply periodic_adjust_iff; [exact Hok|]. split; [apply wrap_image|apply wrap_base]. Qed.

Lemma wrap_unique p u : is_image c p u -> in_base c u -> wrap c p = u.
Proof. intros I B. apply (base_unique c p); auto using wrap_image, wrap_base. Qed.

Hypothesis SO : stored_once c.
Lemma in_range_base u : pt_in (c_range c) u -> in_base c u.
Proof. intros H d Hd P. rewrite (SO d Hd). pose proof (proj1 (pt_in_tget _ _) H d Hd). lia. Qed.

Lemma wrap_in p u : is_image c p u -> pt_in (c_range c) u -> wrap c p = u.
Proof. intros I H. apply wrap_unique; auto using in_range_base. Qed.

Lemma wrap_id u : pt_in (c_range c) u -> wrap c u = u.
Proof. intros H. apply wrap_in; auto using is_image_refl. Qed.
End Wrap.

(** ** Count *)

Section Count.
Variables (c : cart) (n : nat) (L E : nat -> range) (F : nat -> list bool) (m : tup Z -> bool).
Hypothesis D : decomposed c n L.
Hypothesis Hext : forall r, (r < n)%nat -> pt_subset (L r) (E r).
Hypothesis Hm : holds n L E F m.

Definition set_points (r : nat) : list (tup Z) := filter m (RangeModel.foreach_col (L r)).

Lemma fread_in {V} e (data : list V) p : pt_in e p -> fread e data p = vread data (rindex ColMajor e p).
Proof. intros H. unfold fread. rewrite (proj2 (rcontains_spec _ _) H). reflexivity. Qed.

Lemma count_local_ok r : (r < n)%nat -> count_local (L r) (E r) (F r) = Some (Z.of_nat (length (set_points r))).
Proof.
  intros Hr. unfold count_local, set_points.
  assert (G : forall l k, (forall p, In p l -> pt_in (L r) p) ->
    ofoldl (fun k p => let! b := fread (E r) (F r) p in Some (k + if b : bool then 1 else 0)) l k =
    Some (k + Z.of_nat (length (filter m l)))).
  { induction l as [|a l IH]; intros k Hl; cbn [ofoldl filter length].
    - f_equal. lia.
    - pose proof (Hl a ltac:(left; reflexivity)) as Ha. rewrite fread_in by (apply (Hext r Hr), Ha).
      rewrite (proj2 (Hm r Hr) a Ha). rewrite IH by (intros p Hp; apply Hl; right; exact Hp). f_equal.
      destruct (m a); cbn [length]; lia. }
  rewrite G; [f_equal; lia|]. intros p Hp. apply foreach_col_In, Hp.
Qed.

Lemma count_ok : exists pts, NoDup pts /\ (forall p, In p pts <-> pt_in (c_range c) p /\ m p = true) /\
  prog_ok n (count_mask L E) (fun r => CMask (F r)) (fun r => CCount (Z.of_nat (length pts))).
Proof.
  exists (flat_map set_points (seq 0 n)). split; [|split].
  - apply NoDup_flat_map.
    + apply seq_NoDup.
    + intros r _. apply NoDup_filter, foreach_col_NoDup.
    + intros r s p Hr Hs Hp Hp'. apply in_seq in Hr, Hs. unfold set_points in Hp, Hp'.
      apply filter_In in Hp as [Hp _]. apply filter_In in Hp' as [Hp' _]. apply foreach_col_In in Hp, Hp'.
      apply (L_unique c n L D r s p); auto; lia.
  - intros p. rewrite in_flat_map. split.
    + intros (r & Hr & Hp). apply in_seq in Hr. apply filter_In in Hp as [Hp Mp]. apply foreach_col_In in Hp.
      split; [|exact Mp]. apply (L_sub c n L D r ltac:(lia) p Hp).
    + intros [Hp Mp]. destruct (L_owner c n L D p Hp) as (s & Hs & Hu). exists s. split; [apply in_seq; lia|].
      apply filter_In. split; [apply foreach_col_In, Hu|exact Mp].
  - eexists. split; [intros r Hr; cbn beta iota; rewrite count_local_ok by exact Hr; reflexivity|].
    eexists. split; [|cbn [prog_ok]; reflexivity]. intros r Hr. cbn [phase_ok]. unfold count_sum.
    rewrite (omap_comp _ _ (fun q => Z.of_nat (length (set_points q)))) by reflexivity. do 2 f_equal.
    assert (G : forall l k, fold_left Z.add (map (fun q => Z.of_nat (length (set_points q))) l) k =
                            k + Z.of_nat (length (flat_map set_points l))).
    { induction l as [|a l IH]; intros k; cbn [map fold_left flat_map length]; [lia|].
      rewrite IH, app_length. lia. }
    rewrite G. lia.
Qed.
End Count.

(** ** Fill *)

Section Fill.
Context {V : Type}.
Variables (c : cart) (n : nat) (L E : nat -> range) (N : nat -> list nat) (H : nat -> hmap).
Hypothesis P : partitioned c n L E N H.
Variables (F : nat -> list V) (m : tup Z -> V) (rng : range) (v : V).
Hypothesis Hm : holds n L E F m.

Definition filled (u : tup Z) : bool := existsb (fun p => teqb (wrap c p) u) (RangeModel.foreach_col rng).

Lemma filled_spec u : pt_in (c_range c) u ->
  (filled u = true <-> exists p, pt_in rng p /\ is_image c p u).
Proof.
  intros Hu. pose proof P as ((_ & _ & Hok & _) & SO & _). unfold filled. rewrite existsb_exists. split.
  - intros (p & Hp & Q). apply teqb_eq in Q. apply foreach_col_In in Hp. exists p. split; [exact Hp|].
    rewrite <- Q. apply wrap_image, Hok.
  - intros (p & Hp & I). exists p. split; [apply foreach_col_In, Hp|]. apply teqb_eq. apply wrap_in; auto.
Qed.

Lemma fill_local_ok r : (r < n)%nat -> exists d', fill_local c (L r) (E r) rng v (F r) = Some d' /\
  length d' = length (F r) /\
  forall u, pt_in (L r) u -> vread d' (rindex ColMajor (E r) u) = Some (if filled u then v else m u).
Proof.
  intros Hr. pose proof P as (D & SO & Hext & _). pose proof D as (_ & _ & Hok & _).
  pose proof (extended_sub c n L _ r D Hr (Hext r Hr)) as Sub. destruct (Hm r Hr) as [Le Own].
  unfold fill_local. destruct (rincludes (c_range c) rng) eqn:Inc.
  - rewrite includes_spec in Inc.
    destruct (fold_set (E r) v (fun p => Some p) (RangeModel.foreach_col (intersect_ranges (L r) rng)) (F r)) as (d' & Q & Le' & U); auto.
    { intros p t Hp Ht. injection Ht as <-. apply foreach_col_In in Hp. apply Sub. apply intersect_spec in Hp. tauto. }
    exists d'. split; [exact Q|]. split; [exact Le'|]. intros u Hu. destruct (U u (Sub u Hu)) as [U1 U2].
    pose proof (L_sub c n L D r Hr u Hu) as Cu.
    destruct (filled u) eqn:Fu.
    + apply filled_spec in Fu; auto. destruct Fu as (p & Hp & I). apply U1. exists u. split; [|reflexivity].
      apply foreach_col_In, intersect_spec. split; [exact Hu|].
      pose proof (wrap_in c Hok SO p u I Cu) as W. rewrite (wrap_id c Hok SO) in W by (apply Inc, Hp). subst p. exact Hp.
    + rewrite U2; [apply Own, Hu|]. intros p Hp Ep. injection Ep as ->. apply foreach_col_In, intersect_spec in Hp.
      assert (filled u = true); [|congruence]. apply filled_spec; auto. exists u. split; [tauto|apply is_image_refl].
  - rewrite (ofoldl_ext _ (fun d p => match (if rcontains (L r) p then Some p else if rcontains (L r) (wrap c p) then Some (wrap c p) else None) with
        Some t => fwrite (E r) d t v | None => Some d end)).
    2: { intros s a _. unfold fill_point. destruct (rcontains (L r) a); [reflexivity|]. rewrite adjust_wrap by exact Hok.
         destruct (rcontains (L r) (wrap c a)); reflexivity. }
    destruct (fold_set (E r) v (fun p => if rcontains (L r) p then Some p else if rcontains (L r) (wrap c p) then Some (wrap c p) else None)
      (RangeModel.foreach_col rng) (F r)) as (d' & Q & Le' & U); auto.
    { intros p t Hp Ht. destruct (rcontains (L r) p) eqn:C1.
      - injection Ht as <-. apply Sub, rcontains_spec, C1.
      - destruct (rcontains (L r) (wrap c p)) eqn:C2; [|discriminate]. injection Ht as <-. apply Sub, rcontains_spec, C2. }
    exists d'. split; [exact Q|]. split; [exact Le'|]. intros u Hu. destruct (U u (Sub u Hu)) as [U1 U2].
    pose proof (L_sub c n L D r Hr u Hu) as Cu.
    destruct (filled u) eqn:Fu.
    + apply filled_spec in Fu; auto. destruct Fu as (p & Hp & I). apply U1. exists p. split; [apply foreach_col_In, Hp|].
      pose proof (wrap_in c Hok SO p u I Cu) as W. rewrite W, (proj2 (rcontains_spec _ _) Hu).
      destruct (rcontains (L r) p) eqn:C1; [|reflexivity]. apply rcontains_spec in C1.
      rewrite (wrap_id c Hok SO) in W by apply (L_sub c n L D r Hr p C1). congruence.
    + rewrite U2; [apply Own, Hu|]. intros p Hp Ep. apply foreach_col_In in Hp.
      assert (filled u = true); [|congruence]. apply filled_spec; auto. exists p. split; [exact Hp|].
      destruct (rcontains (L r) p) eqn:C1; [injection Ep as ->; apply is_image_refl|].
      destruct (rcontains (L r) (wrap c p)) eqn:C2; [|discriminate]. injection Ep as <-. apply wrap_image, Hok.
Qed.

Theorem fill_ok : exists F', prog_ok n (fill_range c L E rng v) (fun r => (H r, F r)) (fun r => (H r, F' r)) /\
  agrees c n L E N F' (fun u => if filled u then v else m u).
Proof.
  pose proof P as (D & SO & Hext & _ & _ & X).
  set (F1 := fun r => match fill_local c (L r) (E r) rng v (F r) with Some d => d | None => [] end).
  destruct (X V F1 (fun u => if filled u then v else m u)) as (F' & X1 & X2).
  { intros r Hr. destruct (fill_local_ok r Hr) as (d & Q & Le & U). unfold F1. rewrite Q.
    split; [rewrite Le; apply Hm, Hr|exact U]. }
  exists F'. split; [|exact X2]. exists (fun r => (H r, F1 r)). split.
  - intros r Hr. cbn beta. unfold F1. destruct (fill_local_ok r Hr) as (d & Q & _). cbn [snd fst]. rewrite Q. reflexivity.
  - exists (fun r => (H r, F' r)). split; [exact X1|]. cbn [prog_ok]. reflexivity.
Qed.
End Fill.

(** ** Fields and extended ranges that meet the hypotheses *)

Definition field_from {V} (c : cart) (e : range) (m : tup Z -> V) : list V :=
  map (fun p => m (wrap c p)) (RangeModel.foreach_col e).

Lemma field_from_read {V} c e (m : tup Z -> V) p : pt_in e p -> vread (field_from c e m) (rindex ColMajor e p) = Some (m (wrap c p)).
Proof.
  intros Hp. unfold field_from. pose proof (rindex_bounds ColMajor e p Hp) as B. unfold vread.
  destruct (Z.ltb_spec (rindex ColMajor e p) 0); [lia|]. rewrite nth_error_map, foreach_index_nth by exact Hp. reflexivity.
Qed.

Lemma field_from_agrees {V} c n L E N (m : tup Z -> V) : decomposed c n L -> stored_once c ->
  (forall r, (r < n)%nat -> pt_subset (L r) (E r)) -> agrees c n L E N (fun r => field_from c (E r) m) m.
Proof.
  intros D SO Hs. pose proof D as (_ & _ & Hok & _). split.
  - intros r Hr. split; [unfold field_from; rewrite map_length; pose proof (foreach_col_length (E r)); pose proof (foreach_col_length (E r)) |].
    + assert (0 <= rcount (E r)) by (unfold rcount, rsize1; nia). lia.
    + intros p Hp. rewrite field_from_read by (apply (Hs r Hr), Hp). rewrite (wrap_id c Hok SO); [reflexivity|]. apply (L_sub c n L D r Hr p Hp).
  - intros r p q u Hr Hq Hp Hu I _. rewrite field_from_read by exact Hp. rewrite (wrap_in c Hok SO p u I); [reflexivity|].
    apply (L_sub c n L D q Hq u Hu).
Qed.

(** The extended ranges of a grid are extended ranges. *)
Lemma grid_extended_ok c n L r : decomposed c n L -> stored_once c -> (r < n)%nat -> extended_ok c (L r) (grid_extended c (L r)).
Proof.
  intros D SO Hr. pose proof D as (Hnd & _ & Hok & HD & Hper & _ & NE).
  assert (B : forall d, (d < 3)%nat -> tget (rb (c_range c)) d <= tget (rb (L r)) d /\ tget (rb (L r)) d < tget (re (L r)) d /\
     tget (re (L r)) d <= tget (re (c_range c)) d).
  { intros d Hd. pose proof (L_within c n L D r Hr d Hd) as W. specialize (NE r Hr). rewrite rempty_tget in NE. specialize (NE d Hd). lia. }
  assert (G : forall d, (d < 3)%nat ->
    tget (rb (grid_extended c (L r))) d = (if Nat.ltb d (c_nd c) then tget (rb (grid_cell_extended c (L r))) d else 0) /\
    tget (re (grid_extended c (L r))) d = (if Nat.ltb d (c_nd c) then tget (re (grid_cell_extended c (L r))) d + 1 else 1)).
  { intros d Hd. unfold grid_extended, range_cell_to_point_all.
    match goal with |- context [dims_range ?n ?b ?e] => destruct (dims_range_get n b e d Hd) as [G3 G4] end. rewrite G3, G4. auto. }
  split.
  - intros d Hd. destruct (G d ltac:(lia)) as [-> ->]. destruct (Nat.ltb_spec d (c_nd c)); [lia|].
    destruct (HD d Hd). specialize (B d ltac:(lia)). lia.
  - intros d Hd Hn. destruct (G d Hd) as [-> ->]. destruct (Nat.ltb_spec d (c_nd c)); [|lia].
    unfold grid_cell_extended. destruct (extend_get (cart_point_to_cell c) (range_point_to_cell c (L r)) 2 d Hd) as [-> ->].
    unfold cart_point_to_cell, range_point_to_cell. cbn [c_nd c_range c_per].
    match goal with |- context [tget (rb (dims_range ?n ?b ?e)) d] =>
      destruct (dims_range_get n b e d Hd) as [G3 G4]; rewrite ?G3, ?G4 end.
    match goal with |- context [tget (re (dims_range ?n ?b ?e)) d] =>
      destruct (dims_range_get n b e d Hd) as [G5 G6]; rewrite ?G5, ?G6 end.
    destruct (Nat.ltb_spec d (c_nd c)); [|lia]. cbn [andb]. specialize (B d Hd). specialize (SO d Hd).
    unfold per_len in SO. unfold continues_below, continues_above.
    match goal with |- context [tget (re (dims_range ?n ?b ?e)) d] =>
      destruct (dims_range_get n b e d Hd) as [G7 G8]; rewrite ?G7, ?G8 | _ => idtac end.
    match goal with |- context [tget (rb (dims_range ?n ?b ?e)) d] =>
      destruct (dims_range_get n b e d Hd) as [G9 G10]; rewrite ?G9, ?G10 | _ => idtac end.
    destruct (Nat.ltb_spec d (c_nd c)); [|lia].
    destruct (tget (c_per c) d) eqn:Pd; cbn [andb orb negb].
    + assert (S1 : stor_eqb (c_stor c) UNIQUE = true) by (destruct (c_stor c); [reflexivity|lia]). rewrite S1.
      rewrite !orb_true_r. repeat split; intros; try lia; exfalso; tauto.
    + rewrite !orb_false_r.
      destruct (Z.eqb_spec (tget (rb (L r)) d) (tget (rb (c_range c)) d));
      destruct (Z.eqb_spec (tget (re (L r)) d) (tget (re (c_range c)) d)); cbn [negb andb];
      match goal with |- context [?a =? ?b] => destruct (Z.eqb_spec a b) | _ => idtac end; cbn [negb andb];
      (repeat split; intros Q; try (destruct Q as [Q|Q]; [discriminate|]); try (assert (Q' := Q); clear Q); try lia;
       try (match goal with Q : ~ (_ \/ ?X) |- _ => assert (~ X) by tauto end; lia)).
Qed.
