(** The two sides of an overlap fit together, and the cells of the M side can be collected (C78). *)
From Coq Require Import List ZArith QArith Bool Lia Permutation Sorting.Sorted.
From Verif Require Import TupleModel RangeModel Base RangeProof CartModel CartProof DecompModel DecompProof IndexerModel ArrayModel HashModel HashProof ArrayProof.
From Verif Require Import NeighSpec NeighProof FieldSpec FieldProof SendModel SendSpec SendProof SendLaws CollectSpec CollectLaws CellModel CellSpec AccelProof OvlModel OvlSpec OvlProof.
Import ListNotations.
Local Open Scope Z_scope.

(** ** Orders *)

(** The order of the points of a rank does not depend on whether the index is the local or the global one. *)
Lemma order_global loc R p q : pt_subset loc R -> pt_in loc p -> pt_in loc q ->
  (rindex ColMajor loc p < rindex ColMajor loc q <-> rindex ColMajor R p < rindex ColMajor R q).
Proof. intros Sub Hp Hq. rewrite !rindex_before by auto. reflexivity. Qed.

Lemma image_add c u u' p : is_image c u u' -> is_image c p (tmake (fun d => tget p d + tget u' d - tget u d)).
Proof.
  intros I d Hd. rewrite tget_tmake by exact Hd. destruct (I d Hd) as [I1 I2]. split; intros P.
  - destruct (I1 P) as [k ->]. exists k. lia.
  - rewrite (I2 P). lia.
Qed.

Lemma corner_add nd u u' p : corner nd u p -> corner nd u' (tmake (fun d => tget p d + tget u' d - tget u d)).
Proof. intros C d Hd. rewrite tget_tmake by exact Hd. destruct (C d Hd) as [E|[E1 E2]]; [left|right; split; [exact E1|]]; lia. Qed.

Lemma sorted_impl {A} (P Q : A -> A -> Prop) l : StronglySorted P l -> (forall a b, In a l -> In b l -> P a b -> Q a b) -> StronglySorted Q l.
Proof.
  induction 1 as [|a l S IH F]; intros H; constructor.
  - apply IH. intros; apply H; auto using in_cons.
  - apply Forall_forall. intros b Hb. rewrite Forall_forall in F. apply H; auto using in_eq, in_cons.
Qed.

Lemma sorted_map {A B} (f : A -> B) (P : B -> B -> Prop) l : StronglySorted (fun a b => P (f a) (f b)) l <-> StronglySorted P (map f l).
Proof.
  induction l as [|a l IH]; cbn [map]; [split; constructor|]. split; intros H; inversion H; subst; constructor; try (apply IH; assumption).
  - apply Forall_forall. intros b Hb. apply in_map_iff in Hb as (x & <- & Hx). rewrite Forall_forall in *. auto.
  - apply Forall_forall. intros b Hb. rewrite Forall_forall in *. apply H3, in_map, Hb.
Qed.

Lemma sorted_filter {A} (P : A -> A -> Prop) (f : A -> bool) l : StronglySorted P l -> StronglySorted P (filter f l).
Proof.
  induction 1 as [|a l S IH F]; cbn [filter]; [constructor|]. destruct (f a); [|exact IH]. constructor; [exact IH|].
  apply Forall_forall. intros b Hb. apply filter_In in Hb as [Hb _]. rewrite Forall_forall in F. auto.
Qed.

Lemma vread_sorted {A} (P : A -> A -> Prop) l : (forall i j a b, i < j -> vread l i = Some a -> vread l j = Some b -> P a b) -> StronglySorted P l.
Proof.
  induction l as [|x l IH]; intros H; constructor.
  - apply IH. intros i j a b Hij Ha Hb. pose proof (vread_lt _ _ _ Ha). pose proof (vread_lt _ _ _ Hb).
    apply (H (i + 1) (j + 1)); [lia| |].
    + replace (i + 1) with (Z.of_nat (S (Z.to_nat i))) by lia. rewrite vread_nth. cbn [nth_error]. rewrite <- vread_nth, Z2Nat.id by lia. exact Ha.
    + replace (j + 1) with (Z.of_nat (S (Z.to_nat j))) by lia. rewrite vread_nth. cbn [nth_error]. rewrite <- vread_nth, Z2Nat.id by lia. exact Hb.
  - apply Forall_forall. intros y Hy. apply In_vread in Hy as (j & Hj). pose proof (vread_lt _ _ _ Hj). apply (H 0 (j + 1)); [lia|reflexivity|].
    replace (j + 1) with (Z.of_nat (S (Z.to_nat j))) by lia. rewrite vread_nth. cbn [nth_error]. rewrite <- vread_nth, Z2Nat.id by lia. exact Hj.
Qed.

(** In the default order the k-th position with rank q has the k-th of the rows with rank q. *)
Lemma numbered_default {A} (f : A -> Z) rows q i k : numbered (map f rows) (default_order (map f rows)) q i k ->
  exists row, vread rows i = Some row /\ f row = q /\ nth_error (filter (fun x => f x =? q) rows) k = Some row.
Proof.
  intros (Hi & l1 & l2 & E & Ek). unfold default_order in E. rewrite map_length in E. pose proof (zseq_split _ _ _ _ _ E) as Ei. rewrite Z.add_0_l in Ei.
  rewrite vread_fmap in Hi. destruct (vread rows i) as [row|] eqn:R; [|discriminate]. cbn [option_map] in Hi. injection Hi as Hq.
  exists row. split; [reflexivity|]. split; [exact Hq|].
  assert (E1 : l1 = zseq 0 (length l1)).
  { clear -E. revert E. generalize (length rows). generalize 0. induction l1 as [|x l1 IH]; intros b m E; [reflexivity|].
    destruct m as [|m]; [discriminate|]. cbn [zseq app length] in *. injection E as <- E. f_equal. apply (IH (b + 1) m), E. }
  rewrite Ei, vread_nth in R. apply nth_error_split in R as (r1 & r2 & Er & Lr).
  assert (Ek' : k = length (filter (fun x => f x =? q) r1)).
  { rewrite Ek, E1, <- Lr. clear -Er. rewrite Er. clear Er rows. 
    assert (G : forall r1 pre post, length (filter (fun j => match vread (map f (pre ++ r1 ++ post)) j with Some x => x =? q | None => false end) (zseq (Z.of_nat (length pre)) (length r1))) = length (filter (fun x => f x =? q) r1)).
    { clear. induction r1 as [|x r1 IH]; intros pre post; [reflexivity|]. cbn [length zseq filter].
      rewrite vread_nth, nth_error_map, nth_error_app2, Nat.sub_diag by lia. cbn [nth_error app option_map].
      specialize (IH (pre ++ [x]) post). rewrite app_length in IH. cbn [length] in IH. rewrite <- app_assoc in IH. cbn [app] in IH.
      replace (Z.of_nat (length pre) + 1) with (Z.of_nat (length pre + 1)) by lia. destruct (f x =? q); cbn [length]; rewrite IH; reflexivity. }
    apply (G r1 [] (row :: r2)). }
  rewrite Er, filter_app. cbn [filter]. rewrite (proj2 (Z.eqb_eq _ _) Hq), nth_error_app2, Ek', Nat.sub_diag by lia. reflexivity.
Qed.

Lemma numbered_exists {A} (f : A -> Z) rows i row : vread rows i = Some row ->
  exists k, numbered (map f rows) (default_order (map f rows)) (f row) i k.
Proof.
  intros H. pose proof (vread_lt _ _ _ H).
  assert (In i (zseq 0 (length rows))) as Hin by (apply zseq_In; lia). apply in_split in Hin as (l1 & l2 & E).
  eexists. split; [rewrite vread_fmap, H; reflexivity|]. exists l1, l2. split; [unfold default_order; rewrite map_length; exact E|reflexivity].
Qed.

Section Fit.
Variables (c : cart) (n : nat) (mem : list nat) (L : nat -> range) (R : range) (D : nat -> list entry) (MG NG : nat -> list nat)
  (M : nat -> list mrow) (N : nat -> list nrow).
Hypothesis HI : overlap_input c n mem L R D MG NG.
Hypothesis HM : forall i r, nth_error mem i = Some r -> m_side c n (L i) R D (M r).
Hypothesis HO : forall r, (r < n)%nat -> ~ In r mem -> M r = [].
Hypothesis HN : forall q, (q < n)%nat -> n_side mem L (D q) (N q).

Lemma same_entry q q' e e' : (q < n)%nat -> (q' < n)%nat -> In e (D q) -> In e' (D q') -> e_point e = e_point e' -> q = q' /\ e = e'.
Proof.
  intros Hq Hq' He He' E. pose proof (oi_ranks _ _ _ _ _ _ _ _ HI q q' e e' Hq Hq' He He' E) as ->. split; [reflexivity|].
  pose proof (oi_points _ _ _ _ _ _ _ _ HI q' Hq') as ND. apply In_nth_error in He as (i & Hi). apply In_nth_error in He' as (j & Hj).
  assert (i = j); [|congruence]. rewrite NoDup_nth_error in ND. apply ND; [rewrite map_length; apply nth_error_Some; congruence|].
  rewrite !nth_error_map, Hi, Hj. cbn [option_map]. congruence.
Qed.

Lemma n_row q row : (q < n)%nat -> In row (N q) -> exists e i k, In e (D q) /\ nr_point row = e_point e /\ nr_source row = e_cell e /\ nth_error mem i = Some k /\ pt_in (L i) (e_cell e) /\ nr_rank row = Z.of_nat k.
Proof.
  intros Hq H. pose proof (HN q Hq) as F. unfold n_side in F. revert H. induction F as [|e x l l' (A & B & i & k & C) F IH]; intros H; [contradiction|].
  destruct H as [<-|H]; [exists e, i, k; intuition|]. destruct (IH H) as (e' & i' & k' & X). exists e', i', k'. intuition.
Qed.
Lemma row_n q e : (q < n)%nat -> In e (D q) -> exists row, In row (N q) /\ nr_point row = e_point e.
Proof.
  intros Hq H. pose proof (HN q Hq) as F. unfold n_side in F. induction F as [|e' x l l' (A & _) F IH]; [contradiction|].
  destruct H as [<-|H]; [exists x; auto using in_eq|]. destruct (IH H) as (y & Hy & E). eauto using in_cons.
Qed.

Lemma n_points_eq q : (q < n)%nat -> map nr_point (N q) = map e_point (D q).
Proof.
  intros Hq. pose proof (HN q Hq) as F. unfold n_side in F. induction F as [|e' x l l' (A & _) F IH]; cbn [map]; [reflexivity|]. rewrite A, IH. reflexivity.
Qed.

(** Rank s has a row for point p and rank r exactly if r has a row for p and s. *)
Lemma rows_fit s r p : (s < n)%nat -> (r < n)%nat ->
  ((exists a, In a (M s) /\ mr_rank a = Z.of_nat r /\ mr_dest a = p) <-> (exists b, In b (N r) /\ nr_rank b = Z.of_nat s /\ nr_point b = p)).
Proof.
  intros Hs Hr. split.
  - intros (a & Ha & Ra & Pa). destruct (in_dec Nat.eq_dec s mem) as [Ms|Ms]; [|rewrite HO in Ha by auto; contradiction].
    apply In_nth_error in Ms as (i & Hi). destruct (HM i s Hi) as (_ & H2 & _).
    destruct (H2 a Ha) as (q & e & Hq & He & Ep & _ & _ & _ & [(Hin & _ & Rq)|(_ & Rq)]); [|lia].
    assert (q = r) by lia. subst q. destruct (row_n r e Hr He) as (b & Hb & Eb). exists b. split; [exact Hb|].
    destruct (n_row r b Hr Hb) as (e' & j & k & He' & Eb' & _ & Hj & Hp & Rb). split; [|congruence].
    destruct (same_entry r r e e' Hr Hr He He' ltac:(congruence)) as [_ <-].
    assert (Li : (i < length mem)%nat) by (apply nth_error_Some; congruence). assert (Lj : (j < length mem)%nat) by (apply nth_error_Some; congruence).
    rewrite (L_unique c (length mem) L (oi_grid _ _ _ _ _ _ _ _ HI) i j (e_cell e) Li Lj Hin Hp) in Hi. congruence.
  - intros (b & Hb & Rb & Pb). destruct (n_row r b Hr Hb) as (e & i & k & He & Eb & _ & Hi & Hp & Rk). assert (k = s) by lia. subst k.
    assert (Li : (i < length mem)%nat) by (apply nth_error_Some; congruence).
    destruct (HM i s Hi) as (_ & H2 & H3).
    destruct (H3 r e Hr He) as (a & Ha & Ea). { apply (owner_vertex c (length mem) L (oi_grid _ _ _ _ _ _ _ _ HI) i _ Li); [apply (oi_entries _ _ _ _ _ _ _ _ HI r e Hr He)|exact Hp]. }
    exists a. split; [exact Ha|]. split; [|congruence]. destruct (H2 a Ha) as (q & e' & Hq & He' & Ep & _ & _ & _ & X).
    destruct (same_entry r q e e' Hr Hq He He' ltac:(congruence)) as [<- <-]. destruct X as [(_ & _ & X)|(X & _)]; [exact X|contradiction].
Qed.

Lemma pairs_In {A} (f : A -> Z) (g : A -> tup Z) l q p :
  (exists i, vread (map f l) i = Some q /\ vread (map g l) i = Some p) <-> exists a, In a l /\ f a = q /\ g a = p.
Proof.
  split.
  - intros (i & H1 & H2). rewrite vread_fmap in H1. rewrite vread_fmap in H2. destruct (vread l i) as [a|] eqn:E; [|discriminate]. cbn in H1, H2. exists a. split; [eapply vread_In; eauto|]. split; congruence.
  - intros (a & Ha & <- & <-). apply In_vread in Ha as (i & Hi). exists i. rewrite !vread_fmap, Hi. auto.
Qed.

Lemma fit_agreed : agreed n (fun r => map mr_rank (M r)) (fun q => map nr_rank (N q)) (fun r => map mr_dest (M r)) (fun q => map nr_point (N q)).
Proof. intros s r p Hs Hr. rewrite !pairs_In. apply rows_fit; auto. Qed.

Lemma m_sorted s : (s < n)%nat -> StronglySorted (fun a b => rindex ColMajor R (mr_dest a) < rindex ColMajor R (mr_dest b)) (M s).
Proof.
  intros Hs. destruct (in_dec Nat.eq_dec s mem) as [Ms|Ms]; [|rewrite HO by auto; constructor].
  apply In_nth_error in Ms as (i & Hi). destruct (HM i s Hi) as (H1 & _). apply vread_sorted, H1.
Qed.

Lemma m_row s a : (s < n)%nat -> In a (M s) -> pt_in R (mr_dest a) /\ -1 <= mr_rank a < Z.of_nat n.
Proof.
  intros Hs Ha. destruct (in_dec Nat.eq_dec s mem) as [Ms|Ms]; [|rewrite HO in Ha by auto; contradiction].
  apply In_nth_error in Ms as (i & Hi). destruct (HM i s Hi) as (_ & H2 & _). destruct (H2 a Ha) as (q & e & Hq & He & Ep & _ & _ & _ & X).
  rewrite Ep. split; [apply (oi_entries _ _ _ _ _ _ _ _ HI q e Hq He)|]. destruct X as [(_ & _ & X)|(_ & X)]; lia.
Qed.

Lemma n_row' q b : (q < n)%nat -> In b (N q) -> pt_in R (nr_point b) /\ 0 <= nr_rank b < Z.of_nat n.
Proof.
  intros Hq Hb. destruct (n_row q b Hq Hb) as (e & i & k & He & Eb & _ & Hi & _ & Rk). rewrite Eb.
  split; [apply (oi_entries _ _ _ _ _ _ _ _ HI q e Hq He)|]. pose proof (proj2 (oi_mem _ _ _ _ _ _ _ _ HI) k (nth_error_In _ _ Hi)). lia.
Qed.

Lemma fit_distinct : (forall r, (r < n)%nat -> distinct (map mr_rank (M r)) (map mr_dest (M r))) /\ (forall q, (q < n)%nat -> distinct (map nr_rank (N q)) (map nr_point (N q))).
Proof.
  split.
  - intros r Hr i j q p _ _ _ Hi Hj. rewrite vread_fmap in Hi. rewrite vread_fmap in Hj. destruct (vread (M r) i) as [a|] eqn:Ea; [|discriminate]. destruct (vread (M r) j) as [b|] eqn:Eb; [|discriminate].
    destruct (in_dec Nat.eq_dec r mem) as [Ms|Ms]; [|rewrite HO in Ea by auto; apply vread_lt in Ea; cbn in Ea; lia].
    apply In_nth_error in Ms as (k & Hk). destruct (HM k r Hk) as (H1 & _). cbn in Hi, Hj.
    destruct (Z.lt_trichotomy i j) as [X|[X|X]]; [|exact X|]; [pose proof (H1 i j a b X Ea Eb)|pose proof (H1 j i b a X Eb Ea)]; replace (mr_dest a) with (mr_dest b) in * by congruence; lia.
  - intros q Hq i j s p _ _ _ Hi Hj. apply (vread_once (map nr_point (N q)) i j p); auto. rewrite n_points_eq by exact Hq. apply (oi_points _ _ _ _ _ _ _ _ HI q Hq).
Qed.

(** ** The default order *)

Hypothesis HA : forall q, (q < n)%nat -> StronglySorted (fun p p' => rindex ColMajor R p < rindex ColMajor R p') (map e_point (D q)).

Lemma same_points s r : (s < n)%nat -> (r < n)%nat ->
  map mr_dest (filter (fun x => mr_rank x =? Z.of_nat r) (M s)) = map nr_point (filter (fun x => nr_rank x =? Z.of_nat s) (N r)).
Proof.
  intros Hs Hr.
  assert (E : map (rindex ColMajor R) (map mr_dest (filter (fun x => mr_rank x =? Z.of_nat r) (M s))) = map (rindex ColMajor R) (map nr_point (filter (fun x => nr_rank x =? Z.of_nat s) (N r)))).
  { apply sorted_unique.
    - rewrite map_map. apply (sorted_map (fun x => rindex ColMajor R (mr_dest x)) Z.lt), sorted_filter, m_sorted, Hs.
    - rewrite map_map. apply (sorted_map (fun x => rindex ColMajor R (nr_point x)) Z.lt), sorted_filter.
      pose proof (HA r Hr) as S0. rewrite <- n_points_eq in S0 by exact Hr. apply sorted_map in S0. exact S0.
    - intros x. rewrite !map_map, !in_map_iff. split.
      + intros (a & <- & Ha). apply filter_In in Ha as [Ha Ra]. apply Z.eqb_eq in Ra. destruct (proj1 (rows_fit s r (mr_dest a) Hs Hr)) as (b & Hb & Rb & Pb); [eauto|].
        exists b. rewrite Pb. split; [reflexivity|]. apply filter_In. split; [exact Hb|]. apply Z.eqb_eq, Rb.
      + intros (b & <- & Hb). apply filter_In in Hb as [Hb Rb]. apply Z.eqb_eq in Rb. destruct (proj2 (rows_fit s r (nr_point b) Hs Hr)) as (a & Ha & Ra & Pa); [eauto|].
        exists a. rewrite Pa. split; [reflexivity|]. apply filter_In. split; [exact Ha|]. apply Z.eqb_eq, Ra. }
  assert (I1 : forall p, In p (map mr_dest (filter (fun x => mr_rank x =? Z.of_nat r) (M s))) -> pt_in R p).
  { intros p Hp. apply in_map_iff in Hp as (a & <- & Ha). apply filter_In in Ha as [Ha _]. apply (m_row s a Hs Ha). }
  assert (I2 : forall p, In p (map nr_point (filter (fun x => nr_rank x =? Z.of_nat s) (N r))) -> pt_in R p).
  { intros p Hp. apply in_map_iff in Hp as (a & <- & Ha). apply filter_In in Ha as [Ha _]. apply (n_row' r a Hr Ha). }
  revert E I1 I2. generalize (map mr_dest (filter (fun x => mr_rank x =? Z.of_nat r) (M s))) (map nr_point (filter (fun x => nr_rank x =? Z.of_nat s) (N r))).
  clear. induction l as [|p l IH]; intros [|q l'] E I1 I2; try discriminate; [reflexivity|]. cbn [map] in E. injection E as E1 E2.
  f_equal; [|apply IH; auto using in_cons]. apply (rindex_inj ColMajor R); auto using in_eq.
Qed.

Lemma count_filter {A} (f : A -> Z) l z : count_occ Z.eq_dec (map f l) z = length (filter (fun x => f x =? z) l).
Proof.
  induction l as [|a l IH]; [reflexivity|]. cbn [map count_occ filter]. destruct (Z.eq_dec (f a) z) as [E|E].
  - rewrite (proj2 (Z.eqb_eq _ _) E). cbn [length]. rewrite IH. reflexivity.
  - rewrite (proj2 (Z.eqb_neq _ _) E). exact IH.
Qed.

Theorem fit_paired : SendSpec.paired n (fun r => map mr_rank (M r)) (fun q => map nr_rank (N q)).
Proof.
  split; [|split].
  - intros r q Hr H. apply in_map_iff in H as (a & <- & Ha). apply (m_row r a Hr Ha).
  - intros r q Hr H. apply in_map_iff in H as (a & <- & Ha). apply (n_row' r a Hr Ha).
  - intros s r Hs Hr. rewrite !count_filter. pose proof (f_equal (@length _) (same_points s r Hs Hr)) as E. rewrite !map_length in E. exact E.
Qed.

Theorem fit_default s r i j k a b : (s < n)%nat -> (r < n)%nat ->
  numbered (map mr_rank (M s)) (default_order (map mr_rank (M s))) (Z.of_nat r) i k ->
  numbered (map nr_rank (N r)) (default_order (map nr_rank (N r))) (Z.of_nat s) j k ->
  vread (M s) i = Some a -> vread (N r) j = Some b -> mr_dest a = nr_point b.
Proof.
  intros Hs Hr H1 H2 Ha Hb. apply numbered_default in H1 as (a' & Ea & _ & Na). apply numbered_default in H2 as (b' & Eb & _ & Nb).
  rewrite Ha in Ea. injection Ea as <-. rewrite Hb in Eb. injection Eb as <-.
  pose proof (same_points s r Hs Hr) as E. apply (map_nth_error mr_dest) in Na. apply (map_nth_error nr_point) in Nb. rewrite E in Na. congruence.
Qed.
End Fit.

(** ** The cells of the M side can be collected *)

Section Collect.
Variables (c : cart) (n : nat) (mem : list nat) (L : nat -> range) (R : range) (D : nat -> list entry) (MG NG : nat -> list nat)
  (M : nat -> list mrow).
Hypothesis HI : overlap_input c n mem L R D MG NG.
Hypothesis HM : forall i r, nth_error mem i = Some r -> m_side c n (L i) R D (M r).
Hypothesis SO : stored_once c.

Let HD := oi_grid _ _ _ _ _ _ _ _ HI.
Definition row_cells (i : nat) : list range := match nth_error mem i with Some r => map (cell_extents (c_nd c)) (M r) | None => [] end.

Lemma ok_c : cart_ok c.
Proof. pose proof HD as (_ & _ & Ok & _). exact Ok. Qed.

Lemma extents_in x p : (forall d, (c_nd c <= d < 3)%nat -> tget (mr_cell x) d = 0) ->
  (pt_in (cell_extents (c_nd c) x) p <-> corner (c_nd c) (mr_cell x) p).
Proof.
  intros Z0. rewrite pt_in_tget. unfold cell_extents, corner. cbn [rb re]. split; intros H d Hd; specialize (H d Hd).
  - rewrite !tget_tmake in H by exact Hd. destruct (Nat.ltb_spec d (c_nd c)); [lia|]. rewrite Z0 by lia. lia.
  - rewrite !tget_tmake by exact Hd. destruct (Nat.ltb_spec d (c_nd c)); [lia|]. rewrite Z0 in H by lia. lia.
Qed.

Lemma home_wrap cell p : home c cell p = wrap c p \/ ~ pt_in cell p.
Proof.
  unfold home. destruct (rincludes (c_range c) cell) eqn:E; [|auto].
  destruct (rcontains cell p) eqn:Rc; [|right; rewrite <- rcontains_spec; congruence].
  left. symmetry. apply (wrap_id c ok_c SO). apply rcontains_spec in Rc. apply (proj1 (includes_spec _ _) E p Rc).
Qed.

Lemma wrap_eq x y : is_image c x y -> wrap c x = wrap c y.
Proof.
  intros I. apply wrap_unique; [apply ok_c| |apply wrap_base, ok_c]. apply (is_image_trans c x y); [exact I|apply wrap_image, ok_c].
Qed.

Lemma cell_flat e u : pt_in (cells_of c) e -> is_image c e u -> forall d, (c_nd c <= d < 3)%nat -> tget u d = 0.
Proof.
  intros He I d Hd. pose proof HD as (_ & _ & _ & _ & NP & _). destruct (I d ltac:(lia)) as [_ I2]. rewrite I2 by (apply NP; lia).
  rewrite pt_in_tget in He. specialize (He d ltac:(lia)). destruct (cells_bounds c (length mem) L HD d ltac:(lia)) as [B1 B2].
  destruct (Nat.ltb_spec d (c_nd c)); [lia|]. lia.
Qed.

Lemma corner_in e u p : pt_in (cells_of c) e -> is_image c e u -> corner (c_nd c) u p -> pt_in (c_range c) (wrap c p).
Proof.
  intros He I C. apply pt_in_tget. intros d Hd. pose proof HD as (_ & _ & _ & Dc & NP & _).
  destruct (tget (c_per c) d) eqn:P.
  - pose proof (wrap_base c ok_c p d Hd P). rewrite (SO d Hd) in H. lia.
  - unfold wrap. rewrite tget_tmake, P by exact Hd. destruct (I d Hd) as [_ I2]. specialize (I2 P). specialize (C d Hd). rewrite pt_in_tget in He. specialize (He d Hd).
    destruct (cells_bounds c (length mem) L HD d Hd) as [B1 B2]. rewrite P in B2. cbn [andb] in B2.
    destruct (Nat.ltb_spec d (c_nd c)); [lia|]. destruct (Dc d ltac:(lia)). lia.
Qed.

Theorem rows_listed : listed c (length mem) L row_cells.
Proof.
  assert (Row : forall i cell, In cell (row_cells i) -> exists r x q e, nth_error mem i = Some r /\ In x (M r) /\ cell = cell_extents (c_nd c) x /\ (q < n)%nat /\ In e (D q) /\ mr_dest x = e_point e /\
    is_image c (e_cell e) (mr_cell x) /\ (exists v, corner (c_nd c) (mr_cell x) v /\ pt_in (L i) v) /\ pt_in (cells_of c) (e_cell e) /\
    (forall p, pt_in cell p <-> corner (c_nd c) (mr_cell x) p)).
  { intros i cell H. unfold row_cells in H. destruct (nth_error mem i) as [r|] eqn:Ei; [|contradiction]. apply in_map_iff in H as (x & <- & Hx).
    destruct (HM i r Ei) as (_ & H2 & _). destruct (H2 x Hx) as (q & e & Hq & He & Ep & _ & Im & V & _). pose proof (proj1 (oi_entries _ _ _ _ _ _ _ _ HI q e Hq He)) as Hc.
    exists r, x, q, e. repeat (split; [assumption || reflexivity|]). intros p. apply extents_in. intros d Hd. apply (cell_flat (e_cell e)); auto. }
  split; [|split].
  - intros i cell p Hi H Hp. destruct (Row i cell H) as (r & x & q & e & _ & _ & _ & _ & _ & _ & Im & _ & Hc & Ex).
    destruct (home_wrap cell p) as [->|]; [|contradiction]. apply (corner_in (e_cell e) (mr_cell x)); auto. apply Ex, Hp.
  - intros i cell Hi H. destruct (Row i cell H) as (r & x & q & e & _ & _ & _ & _ & _ & _ & _ & (v & Cv & Lv) & _ & Ex).
    exists v. split; [apply Ex, Cv|]. destruct (home_wrap cell v) as [->|Nv]; [|exfalso; apply Nv, Ex, Cv].
    rewrite (wrap_id c ok_c SO); [exact Lv|]. apply (L_sub c (length mem) L HD i Hi), Lv.
  - intros i j cell Hi Hj H (p & Hp & Tp). destruct (Row i cell H) as (r & x & q & e & _ & _ & _ & Hq & He & Ed & Im & _ & Hc & Ex).
    destruct (nth_error mem j) as [r'|] eqn:Ej; [|apply nth_error_None in Ej; lia]. destruct (HM j r' Ej) as (_ & H2 & H3).
    destruct (home_wrap cell p) as [Eh|Np]; [|contradiction]. rewrite Eh in Tp.
    assert (V : has_vertex c (L j) (e_cell e)).
    { exists (tmake (fun d => tget (mr_cell x) d + tget (wrap c p) d - tget p d)), (wrap c p).
      split; [apply (is_image_trans c _ (mr_cell x)); [exact Im|apply image_add, wrap_image, ok_c]|]. split; [|split; [exact Tp|apply wrap_base, ok_c]].
      intros d Hd. rewrite tget_tmake by exact Hd. destruct (proj1 (Ex p) Hp d Hd) as [E|[E1 E2]]; [left|right; split; [exact E1|]]; lia. }
    destruct (H3 q e Hq He V) as (x' & Hx' & Ed'). exists (cell_extents (c_nd c) x').
    assert (Hin : In (cell_extents (c_nd c) x') (row_cells j)) by (unfold row_cells; rewrite Ej; apply in_map, Hx').
    split; [exact Hin|].
    destruct (H2 x' Hx') as (q' & e' & Hq' & He' & Ed'' & _ & Im' & _). destruct (same_entry c n mem L R D MG NG HI q q' e e' Hq Hq' He He' ltac:(congruence)) as [<- <-].
    assert (Ex' : forall p, pt_in (cell_extents (c_nd c) x') p <-> corner (c_nd c) (mr_cell x') p).
    { intros p'. apply extents_in. intros d Hd. apply (cell_flat (e_cell e)); auto. }
    assert (I12 : is_image c (mr_cell x) (mr_cell x')) by (apply (is_image_trans c _ (e_cell e)); [apply is_image_sym, Im|exact Im']).
    assert (G : forall a b u u', (forall w, pt_in a w <-> corner (c_nd c) u w) -> (forall w, pt_in b w <-> corner (c_nd c) u' w) -> is_image c u u' ->
      forall w, (exists y, pt_in a y /\ home c a y = w) -> exists y, pt_in b y /\ home c b y = w).
    { intros a b u u' Ha Hb I w (y & Hy & Ey). exists (tmake (fun d => tget y d + tget u' d - tget u d)).
      assert (Hy' : pt_in b (tmake (fun d => tget y d + tget u' d - tget u d))) by (apply Hb, corner_add, Ha, Hy).
      split; [exact Hy'|]. destruct (home_wrap a y) as [E1|]; [|contradiction]. destruct (home_wrap b (tmake (fun d => tget y d + tget u' d - tget u d))) as [E2|]; [|contradiction].
      rewrite E2, <- Ey, E1. symmetry. apply wrap_eq, image_add, I. }
    intros w. split; [apply (G _ _ (mr_cell x) (mr_cell x')); auto|apply (G _ _ (mr_cell x') (mr_cell x)); auto using is_image_sym].
Qed.

Lemma rows_small i cell : In cell (row_cells i) -> small cell.
Proof.
  intros H. unfold row_cells in H. destruct (nth_error mem i); [|contradiction]. apply in_map_iff in H as (x & <- & _). intros d Hd. unfold cell_extents. cbn [rb re].
  rewrite !tget_tmake by exact Hd. destruct (Nat.ltb d (c_nd c)); lia.
Qed.

Theorem rows_distributed N : (forall i, (i < length mem)%nat -> NoDup (N i) /\ forall j, In j (N i) <-> adjacent c (length mem) L i j) ->
  distributed c (length mem) L N row_cells.
Proof. intros HN. apply small_distributed; auto using rows_listed. intros r cell _. apply rows_small. Qed.
End Collect.
