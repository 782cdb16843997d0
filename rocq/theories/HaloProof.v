(** Proofs about halo exchange. *)
From Coq Require Import List ZArith Bool Lia.
From Verif Require Import TupleModel RangeModel CartModel Base RangeProof CartProof IndexerModel ArrayModel ArrayProof.
From Verif Require Import ContModel ContSpec ContProof OMap PairMap HashModel HashProof.
From Verif Require Import ProtoModel ProtoSpec HandProof NetModel NetSpec NetProof NetPhase NetTools AnyPhase.
From Verif Require Import HaloModel InfoProof NeighProof ProfProof.
Import ListNotations.
Local Open Scope Z_scope.

(** ** Sequences of writes and copies *)

Section Mem.
Context {V : Type}.

Definition writes (l : list (Z * V)) (d : list V) : option (list V) :=
  ofoldl (fun d y => vwrite d (fst y) (snd y)) l d.

Lemma write_spec l : forall d, (forall x, In x l -> 0 <= fst x < Z.of_nat (length d)) ->
  exists d', writes l d = Some d' /\ length d' = length d /\
    (forall i, ~ In i (map fst l) -> vread d' i = vread d i) /\
    (forall x, In x l -> (forall y, In y l -> fst y = fst x -> snd y = snd x) -> vread d' (fst x) = Some (snd x)).
Proof.
  induction l as [|a l IH]; intros d B; unfold writes; cbn [ofoldl].
  - exists d. split; [reflexivity|]. split; [reflexivity|]. split; [auto|]. intros x [].
  - destruct (vwrite_spec d (fst a) (snd a) (B a ltac:(left; reflexivity))) as (d1 & -> & L1 & R1).
    destruct (IH d1) as (d' & E & L2 & U & W).
    { intros x Hx. rewrite L1. apply B. right. exact Hx. }
    exists d'. split; [exact E|]. split; [congruence|]. split.
    + intros i Hi. cbn [map In] in Hi. rewrite U by tauto. rewrite R1. destruct (Z.eqb_spec i (fst a)); [subst; tauto|reflexivity].
    + intros x Hx Un. destruct (in_dec Z.eq_dec (fst x) (map fst l)) as [I|I].
      * apply in_map_iff in I as (y & Ey & Hy). rewrite <- (Un y ltac:(right; exact Hy) Ey), <- Ey.
        apply W; [exact Hy|]. intros z Hz Ez. rewrite (Un z ltac:(right; exact Hz) ltac:(congruence)).
        symmetry. apply Un; [right; exact Hy|exact Ey].
      * destruct Hx as [<-|Hx]; [|exfalso; apply I, in_map, Hx].
        rewrite U by exact I. rewrite R1, Z.eqb_refl. reflexivity.
Qed.

Lemma copy_spec l : forall d : list V,
  (forall x, In x l -> 0 <= fst x < Z.of_nat (length d) /\ 0 <= snd x < Z.of_nat (length d)) ->
  (forall x y, In x l -> In y l -> snd x <> fst y) ->
  exists d', copy_local d l = Some d' /\ length d' = length d /\
    (forall i, ~ In i (map fst l) -> vread d' i = vread d i) /\
    (forall x, In x l -> (forall y, In y l -> fst y = fst x -> snd y = snd x) -> vread d' (fst x) = vread d (snd x)).
Proof.
  induction l as [|a l IH]; intros d B S; unfold copy_local; cbn [ofoldl].
  - exists d. split; [reflexivity|]. split; [reflexivity|]. split; [auto|]. intros x [].
  - destruct (B a ltac:(left; reflexivity)) as [Ba1 Ba2].
    destruct (proj2 (vread_some d (snd a)) Ba2) as [v Ev]. rewrite Ev.
    destruct (vwrite_spec d (fst a) v Ba1) as (d1 & -> & L1 & R1).
    destruct (IH d1) as (d' & E & L2 & U & W).
    { intros x Hx. rewrite L1. apply B. right. exact Hx. }
    { intros x y Hx Hy. apply S; right; assumption. }
    exists d'. split; [exact E|]. split; [congruence|]. split.
    + intros i Hi. cbn [map In] in Hi. rewrite U by tauto. rewrite R1. destruct (Z.eqb_spec i (fst a)); [subst; tauto|reflexivity].
    + assert (RR : forall x, In x (a :: l) -> vread d1 (snd x) = vread d (snd x)).
      { intros x Hx. rewrite R1. destruct (Z.eqb_spec (snd x) (fst a)) as [Q|]; [|reflexivity].
        exfalso. apply (S x a Hx ltac:(left; reflexivity) Q). }
      intros x Hx Un. destruct (in_dec Z.eq_dec (fst x) (map fst l)) as [I|I].
      * apply in_map_iff in I as (y & Ey & Hy). rewrite <- (Un y ltac:(right; exact Hy) Ey), <- Ey.
        rewrite W; [apply RR; right; exact Hy|exact Hy|]. intros z Hz Ez.
        rewrite (Un z ltac:(right; exact Hz) ltac:(congruence)). symmetry. apply Un; [right; exact Hy|exact Ey].
      * destruct Hx as [<-|Hx]; [|exfalso; apply I, in_map, Hx].
        rewrite U by exact I. rewrite R1, Z.eqb_refl. symmetry. exact Ev.
Qed.

Lemma writes_app l1 l2 d : writes (l1 ++ l2) d = let! d' := writes l1 d in writes l2 d'.
Proof. unfold writes. apply ofoldl_app. Qed.

Lemma unpack_writes recv l : forall d,
  (forall x, In x l -> exists idx, nth_error recv (fst x) = Some idx /\ length idx = length (snd x)) ->
  ofoldl (unpack recv) l d =
  writes (flat_map (fun x => match nth_error recv (fst x) with Some idx => combine idx (snd x) | None => [] end) l) d.
Proof.
  induction l as [|a l IH]; intros d H; cbn [ofoldl flat_map]; [reflexivity|].
  destruct (H a ltac:(left; reflexivity)) as (idx & E & Le). rewrite writes_app.
  unfold unpack at 1. rewrite E, Le, Nat.eqb_refl. fold (writes (combine idx (snd a)) d).
  destruct (writes (combine idx (snd a)) d); [|reflexivity]. apply IH. intros x Hx. apply H. right. exact Hx.
Qed.

(** ** Fields *)

Lemma foreach_nth e i : (i < Z.to_nat (rcount e))%nat -> exists p, nth_error (RangeModel.foreach_col e) i = Some p /\
  pt_in e p /\ rindex ColMajor e p = Z.of_nat i.
Proof.
  intros Hi. pose proof (foreach_col_length e) as Le.
  destruct (nth_error (RangeModel.foreach_col e) i) as [p|] eqn:E.
  2: { apply nth_error_None in E. lia. }
  exists p. split; [reflexivity|]. split; [apply foreach_col_In; eapply nth_error_In; eauto|].
  pose proof (rindex_foreach e) as R. apply (f_equal (fun l => nth_error l i)) in R.
  rewrite nth_error_map, E in R. cbn [option_map] in R. symmetry in R.
  assert (Z : forall k b j, (j < k)%nat -> nth_error (zseq b k) j = Some (b + Z.of_nat j)).
  { clear. induction k as [|k IH]; intros b j Hj; [lia|]. cbn [zseq]. destruct j as [|j]; cbn [nth_error]; [f_equal; lia|].
    rewrite IH by lia. f_equal. lia. }
  rewrite Z in R by exact Hi. injection R as R. lia.
Qed.

Lemma foreach_index_nth e p : pt_in e p ->
  nth_error (RangeModel.foreach_col e) (Z.to_nat (rindex ColMajor e p)) = Some p.
Proof.
  intros Hp. pose proof (rindex_bounds ColMajor e p Hp) as B.
  destruct (foreach_nth e (Z.to_nat (rindex ColMajor e p)) ltac:(lia)) as (q & E & Hq & R).
  rewrite E. f_equal. apply (rindex_inj ColMajor e q p Hq Hp). lia.
Qed.

Lemma field_of e (f : tup Z -> option V) l : omap f (RangeModel.foreach_col e) = Some l ->
  forall p, pt_in e p -> vread l (rindex ColMajor e p) = f p.
Proof.
  intros H p Hp. pose proof (rindex_bounds ColMajor e p Hp) as B. unfold vread.
  destruct (Z.ltb_spec (rindex ColMajor e p) 0); [lia|].
  destruct (omap_nth _ _ _ _ _ H (foreach_index_nth e p Hp)) as (v & -> & Ev). auto.
Qed.

Lemma field_ext e (l : list V) (f : tup Z -> option V) : Z.of_nat (length l) = rcount e ->
  (forall p, pt_in e p -> vread l (rindex ColMajor e p) = f p) -> omap f (RangeModel.foreach_col e) = Some l.
Proof.
  intros Le H. destruct (omap_total f (RangeModel.foreach_col e)) as [l' E].
  { intros p Hp. apply foreach_col_In in Hp. rewrite <- H by exact Hp. apply vread_some. rewrite Le.
    apply rindex_bounds, Hp. }
  rewrite E. f_equal. pose proof (omap_length _ _ _ E) as Le'. pose proof (foreach_col_length e).
  apply ProfProof.list_eq_nth; [lia|]. intros i Hi.
  destruct (foreach_nth e i ltac:(lia)) as (p & Ep & Hp & R).
  destruct (omap_nth _ _ _ _ _ E Ep) as (v & Ev & Fv). rewrite Ev. rewrite <- (H p Hp), R in Fv.
  unfold vread in Fv. destruct (Z.ltb_spec (Z.of_nat i) 0); [lia|]. rewrite Nat2Z.id in Fv. congruence.
Qed.
End Mem.

(** ** The exchange *)

Lemma nth_error_combine {A B} (a : list A) (b : list B) j x y :
  nth_error (combine a b) j = Some (x, y) <-> nth_error a j = Some x /\ nth_error b j = Some y.
Proof.
  revert b j. induction a as [|u a IH]; intros b j; cbn [combine].
  - destruct j; cbn; split; [discriminate|intros []; discriminate|discriminate|intros []; discriminate].
  - destruct b as [|v b]; cbn [combine].
    + destruct j; cbn; split; [discriminate|intros []; discriminate|discriminate|intros []; discriminate].
    + destruct j as [|j]; cbn [nth_error]; [|apply IH]. split; [intros [= -> ->]; auto|]. intros [[= ->] [= ->]]. reflexivity.
Qed.

Lemma mok_map_entries (v : nat -> info) ranks :
  NoDup (m_keys (info_map v ranks)) /\ (forall q, In q (m_keys (info_map v ranks)) <-> In q ranks) /\
  map snd (m_entries (info_map v ranks)) = map v (m_keys (info_map v ranks)).
Proof.
  destruct (info_map_ok v ranks) as [G M]. pose proof (mkeys Nat.ltb nEQ _ G) as KE.
  assert (X : forall q w, In (q, w) (m_entries (info_map v ranks)) <-> In q ranks /\ w = v q).
  { intros q w. rewrite (mget_In Nat.ltb nltb_swo nEQ) by exact G. rewrite M.
    destruct (memb q ranks) eqn:Q.
    - apply memb_In in Q. split; [intros [= <-]; auto|]. intros [_ ->]. reflexivity.
    - split; [discriminate|]. intros [H _]. apply memb_In in H. congruence. }
  split; [apply (sok_NoDup Nat.ltb nltb_swo), G|]. split.
  - intros q. rewrite KE, in_map_iff. split.
    + intros ((q' & w) & <- & H). apply X in H. apply H.
    + intros H. exists (q, v q). split; [reflexivity|]. apply X. auto.
  - rewrite KE, map_map. apply map_ext_in. intros [q w] H. apply X in H. apply H.
Qed.

Section Halo.
Context {V : Type}.
Variables (c : cart) (n : nat) (L E : nat -> range) (N : nat -> list nat) (F : nat -> list V).
Hypothesis Hok : cart_ok c.
Hypothesis Hin : forall r p, (r < n)%nat -> pt_in (L r) p -> pt_in (c_range c) p.
Hypothesis Hdis : forall r s p, (r < n)%nat -> (s < n)%nat -> pt_in (L r) p -> pt_in (L s) p -> r = s.
Hypothesis Hext : forall r p, (r < n)%nat -> pt_in (L r) p -> pt_in (E r) p.
Hypothesis HNd : forall r, (r < n)%nat -> NoDup (N r).
Hypothesis HNlt : forall r q, (r < n)%nat -> In q (N r) -> (q < n)%nat.
Hypothesis HNself : forall r, (r < n)%nat -> ~ In r (N r).
Hypothesis HNsym : forall r q, (r < n)%nat -> (q < n)%nat -> In q (N r) -> In r (N q).
Hypothesis HF : forall r, (r < n)%nat -> Z.of_nat (length (F r)) = rcount (E r).

Definition self (r : nat) : info := (L r, E r).
Definition K (r : nat) : list nat := m_keys (info_map self (N r)).
Definition ix (r : nat) (p : tup Z) : Z := rindex ColMajor (E r) p.
Definition adj (p : tup Z) : tup Z := match periodic_adjust c p with Some u => u | None => p end.
Definition tgt (p : tup Z) : tup Z := if rcontains (c_range c) p then p else adj p.

Lemma K_In r q : In q (K r) <-> In q (N r).
Proof. apply mok_map_entries. Qed.

Lemma K_ok r s : (r < n)%nat -> In s (K r) -> (s < n)%nat /\ s <> r.
Proof. intros Hr Hs. apply K_In in Hs. split; [eauto|]. intros ->. eapply HNself; eauto. Qed.

Lemma K_NoDup r : NoDup (K r).
Proof. apply mok_map_entries. Qed.

Lemma adj_ok p : periodic_adjust c p = Some (adj p).
Proof. unfold adj. destruct (periodic_adjust_full c p Hok) as (u & -> & _). reflexivity. Qed.

Lemma tgt_ok p : target c p = Some (tgt p).
Proof. unfold target, tgt. destruct (rcontains (c_range c) p); [reflexivity|apply adj_ok]. Qed.

Lemma tgt_in p : pt_in (c_range c) p -> tgt p = p.
Proof. intros H. unfold tgt. rewrite (proj2 (rcontains_spec _ _) H). reflexivity. Qed.

(** The points of the extended range of [a] that [b] owns, with the points they are images of. *)
Definition hp (a b : nat) : list (tup Z * tup Z) :=
  if rincludes (c_range c) (E a) then map (fun p => (p, p)) (RangeModel.foreach_col (intersect_ranges (E a) (L b)))
  else filter (fun x => rcontains (L b) (snd x))
    (map (fun p => (p, tgt p)) (filter (fun p => negb (rcontains (L a) p)) (RangeModel.foreach_col (E a)))).

Lemma points_into_ok (f : tup Z -> option (tup Z)) g e a b : (forall p, f p = Some (g p)) ->
  points_into f e a b = Some (filter (fun x => rcontains b (snd x))
    (map (fun p => (p, g p)) (filter (fun p => negb (rcontains a p)) (RangeModel.foreach_col e)))).
Proof.
  intros H. unfold points_into.
  rewrite (omap_map _ (fun p => (p, g p))); [reflexivity|]. intros p _. rewrite H. reflexivity.
Qed.

Lemma send_ok a b : send_indices c (L b) (E b) (self a) = Some (map (fun x => ix b (snd x)) (hp a b)).
Proof.
  unfold send_indices, hp, self. cbn [fst snd]. destruct (rincludes (c_range c) (E a)).
  - rewrite map_map. reflexivity.
  - rewrite (points_into_ok _ tgt) by apply tgt_ok. reflexivity.
Qed.

Lemma recv_ok a b : recv_indices c (L a) (E a) (self b) = Some (map (fun x => ix a (fst x)) (hp a b)).
Proof.
  unfold recv_indices, hp, self. cbn [fst snd]. destruct (rincludes (c_range c) (E a)).
  - rewrite map_map. reflexivity.
  - rewrite (points_into_ok _ tgt) by apply tgt_ok. reflexivity.
Qed.

Lemma hp_In a b p t : (a < n)%nat -> (b < n)%nat -> a <> b ->
  (In (p, t) (hp a b) <-> pt_in (E a) p /\ ~ pt_in (L a) p /\ t = tgt p /\ pt_in (L b) t).
Proof.
  intros Ha Hb Ne. unfold hp. destruct (rincludes (c_range c) (E a)) eqn:I.
  - rewrite in_map_iff. split.
    + intros (x & [= -> ->] & H). apply foreach_col_In, intersect_spec in H as [H1 H2].
      rewrite tgt_in by (apply (Hin b); auto). split; [exact H1|]. split; [|split; auto].
      intros H. apply Ne, (Hdis a b t); auto.
    + intros (H1 & H2 & -> & H3). rewrite includes_spec in I.
      assert (X : pt_in (c_range c) p).
      { apply I, H1. }
      rewrite tgt_in in * by exact X. exists p. split; [reflexivity|]. apply foreach_col_In, intersect_spec. auto.
  - rewrite filter_In, in_map_iff. cbn [snd]. rewrite rcontains_spec. split.
    + intros ((x & [= -> <-] & H) & H'). apply filter_In in H as [H1 H2]. apply foreach_col_In in H1.
      apply negb_true_iff in H2. split; [exact H1|]. split; [|auto]. intros X. apply rcontains_spec in X. congruence.
    + intros (H1 & H2 & -> & H3). split; [|exact H3]. exists p. split; [reflexivity|]. apply filter_In.
      split; [apply foreach_col_In, H1|]. apply negb_true_iff. destruct (rcontains (L a) p) eqn:X; [|reflexivity].
      apply rcontains_spec in X. tauto.
Qed.

Definition lp (a : nat) : list (tup Z * tup Z) :=
  if rincludes (c_range c) (E a) then []
  else filter (fun x => rcontains (L a) (snd x))
    (map (fun p => (p, adj p)) (filter (fun p => negb (rcontains (L a) p)) (RangeModel.foreach_col (E a)))).

Lemma lp_In a p t : In (p, t) (lp a) <->
  rincludes (c_range c) (E a) = false /\ pt_in (E a) p /\ ~ pt_in (L a) p /\ t = adj p /\ pt_in (L a) t.
Proof.
  unfold lp. destruct (rincludes (c_range c) (E a)) eqn:I.
  - split; [intros []|]. intros [H _]. discriminate.
  - rewrite filter_In, in_map_iff. cbn [snd]. rewrite rcontains_spec. split.
    + intros ((x & [= -> <-] & H) & H'). apply filter_In in H as [H1 H2]. apply foreach_col_In in H1.
      apply negb_true_iff in H2. split; [reflexivity|]. split; [exact H1|]. split; [|auto]. intros X. apply rcontains_spec in X. congruence.
    + intros (_ & H1 & H2 & -> & H3). split; [|exact H3]. exists p. split; [reflexivity|]. apply filter_In.
      split; [apply foreach_col_In, H1|]. apply negb_true_iff. destruct (rcontains (L a) p) eqn:X; [|reflexivity].
      apply rcontains_spec in X. tauto.
Qed.

Lemma local_ok a : local_copies c (L a) (E a) = Some (map (fun x => (ix a (fst x), ix a (snd x))) (lp a)).
Proof.
  unfold local_copies, lp. destruct (rincludes (c_range c) (E a)); [reflexivity|].
  rewrite (points_into_ok _ adj) by apply adj_ok. reflexivity.
Qed.

Definition hm (r : nat) : hmap :=
  HMap (K r) (map (fun s => map (fun x => ix r (snd x)) (hp s r)) (K r))
    (map (fun s => map (fun x => ix r (fst x)) (hp r s)) (K r))
    (map (fun x => (ix r (fst x), ix r (snd x))) (lp r)).

Lemma omap_pure {A B} (f : A -> option B) g l : (forall x, f x = Some (g x)) -> omap f l = Some (map g l).
Proof. intros H. apply omap_map. intros x _. apply H. Qed.

Lemma omap_of_map {A B C} (f : A -> B) (g : B -> option C) l : omap g (map f l) = omap (fun x => g (f x)) l.
Proof. induction l as [|x l IH]; [reflexivity|]. cbn [map]. rewrite !omap_cons, IH. reflexivity. Qed.

Lemma halo_map_ok r : halo_map c (self r) (info_map self (N r)) = Some (hm r).
Proof.
  unfold halo_map. rewrite (proj2 (proj2 (mok_map_entries self (N r)))). fold (K r). cbn [self fst snd].
  rewrite !omap_of_map.
  rewrite (omap_pure _ (fun s => map (fun x => ix r (snd x)) (hp s r))) by (intros s; apply send_ok).
  rewrite (omap_pure _ (fun s => map (fun x => ix r (fst x)) (hp r s))) by (intros s; apply recv_ok).
  rewrite local_ok. reflexivity.
Qed.

Lemma ix_bound r p : (r < n)%nat -> pt_in (E r) p -> 0 <= ix r p < Z.of_nat (length (F r)).
Proof. intros Hr H. rewrite HF by exact Hr. apply rindex_bounds, H. Qed.

Lemma ix_inj r p q : pt_in (E r) p -> pt_in (E r) q -> ix r p = ix r q -> p = q.
Proof. apply rindex_inj. Qed.

Definition gm (s r : nat) : list V :=
  match pack (F s) (map (fun x => ix s (snd x)) (hp r s)) with Some l => l | None => [] end.

Lemma gm_ok s r : (s < n)%nat -> (r < n)%nat -> r <> s -> pack (F s) (map (fun x => ix s (snd x)) (hp r s)) = Some (gm s r).
Proof.
  intros Hs Hr Ne. unfold gm. destruct (omap_total (vread (F s)) (map (fun x => ix s (snd x)) (hp r s))) as [l H].
  - intros i Hi. apply in_map_iff in Hi as ([p t] & <- & Hx). apply hp_In in Hx as (_ & _ & _ & H); auto.
    apply vread_some. apply ix_bound; auto.
  - unfold pack. rewrite H. reflexivity.
Qed.

Lemma gm_length s r : (s < n)%nat -> (r < n)%nat -> r <> s -> length (gm s r) = length (hp r s).
Proof. intros Hs Hr Ne. pose proof (gm_ok s r Hs Hr Ne) as H. apply omap_length in H. rewrite map_length in H. lia. Qed.

(** The value at a point of the extended range after the exchange. *)
Definition val (r : nat) (p : tup Z) : option V :=
  if rcontains (L r) p then vread (F r) (ix r p)
  else match find (fun q => rcontains (L q) (tgt p)) (K r) with
       | Some q => vread (F q) (ix q (tgt p))
       | None => if negb (rincludes (c_range c) (E r)) && rcontains (L r) (adj p) then vread (F r) (ix r (adj p))
                 else vread (F r) (ix r p)
       end.

Definition res (r : nat) : list V :=
  match omap (val r) (RangeModel.foreach_col (E r)) with Some l => l | None => [] end.

Lemma messages_ok r : (r < n)%nat -> halo_messages (hm r, F r) = Some (map (gm r) (K r)).
Proof.
  intros Hr. unfold halo_messages, hm. cbn [fst snd h_send]. rewrite omap_of_map.
  apply omap_map. intros s Hs. destruct (K_ok r s Hr Hs). apply gm_ok; auto.
Qed.

(** Reading the result of one rank. *)
Lemma done_ok r l : (r < n)%nat -> arrives (K r) (fun s => gm s r) l ->
  exists d d', copy_local (F r) (h_local (hm r)) = Some d /\ ofoldl (unpack (h_recv (hm r))) l d = Some d' /\
    length d' = length (F r) /\ forall p, pt_in (E r) p -> vread d' (ix r p) = val r p.
Proof.
  intros Hr [AN AI].
  destruct (copy_spec (h_local (hm r)) (F r)) as (d & Ed & Ld & Ud & Wd).
  { intros x Hx. unfold hm in Hx. cbn [h_local] in Hx. apply in_map_iff in Hx as ([p t] & <- & Hx).
    apply lp_In in Hx as (_ & H1 & _ & _ & H2). cbn [fst snd]. split; apply ix_bound; auto. }
  { intros x y Hx Hy Q. unfold hm in Hx, Hy. cbn [h_local] in Hx, Hy.
    apply in_map_iff in Hx as ([p t] & <- & Hx). apply in_map_iff in Hy as ([p' t'] & <- & Hy). cbn [fst snd] in Q.
    apply lp_In in Hx as (_ & H1 & _ & _ & H2). apply lp_In in Hy as (_ & H1' & H3 & _ & H2').
    apply ix_inj in Q; auto. subst. auto. }
  assert (RN : forall i s, nth_error (K r) i = Some s ->
    nth_error (h_recv (hm r)) i = Some (map (fun x => ix r (fst x)) (hp r s))).
  { intros i s Hs. unfold hm. cbn [h_recv]. rewrite nth_error_map, Hs. reflexivity. }
  set (W := flat_map (fun x => match nth_error (h_recv (hm r)) (fst x) with
                               | Some idx => combine idx (snd x) | None => [] end) l).
  assert (WI : forall i v, In (i, v) W <-> exists s p t, In s (K r) /\ In (p, t) (hp r s) /\ i = ix r p /\
    vread (F s) (ix s t) = Some v).
  { intros i v. unfold W. rewrite in_flat_map. split.
    - intros ([k m] & Hx & H). cbn [fst snd] in H. apply AI in Hx as (s & Hs & ->).
      rewrite (RN k s Hs) in H. assert (Is : In s (K r)) by (eapply nth_error_In; eauto).
      destruct (K_ok r s Hr Is) as [Hsn Ne]. pose proof (gm_ok s r Hsn Hr ltac:(auto)) as G.
      apply In_nth_error in H as [j Hj]. apply nth_error_combine in Hj as [J1 J2].
      rewrite nth_error_map in J1. destruct (nth_error (hp r s) j) as [[p t]|] eqn:Ej; [|discriminate].
      injection J1 as <-. exists s, p, t. split; [exact Is|]. split; [eapply nth_error_In; eauto|]. split; [reflexivity|].
      destruct (omap_nth _ _ _ j (ix s t) G) as (w & Ew & Rw); [rewrite nth_error_map, Ej; reflexivity|]. congruence.
    - intros (s & p & t & Is & Hp & -> & Rv). destruct (K_ok r s Hr Is) as [Hsn Ne].
      destruct (In_nth_error _ _ Is) as [k Hk]. exists (k, gm s r). split; [apply AI; eauto|].
      cbn [fst snd]. rewrite (RN k s Hk). pose proof (gm_ok s r Hsn Hr ltac:(auto)) as G.
      destruct (In_nth_error _ _ Hp) as [j Hj].
      destruct (omap_nth _ _ _ j (ix s t) G) as (w & Ew & Rw); [rewrite nth_error_map, Hj; reflexivity|].
      apply (nth_error_In _ j). apply nth_error_combine. rewrite nth_error_map, Hj. split; [reflexivity|]. congruence. }
  destruct (write_spec W d) as (d' & Ed' & Ld' & Ud' & Wd').
  { intros [i v] H. apply WI in H as (s & p & t & Is & Hp & -> & _). cbn [fst]. rewrite Ld.
    destruct (K_ok r s Hr Is) as [Hsn Ne]. apply hp_In in Hp as [H _]; auto. apply ix_bound; auto. }
  exists d, d'. split; [exact Ed|]. split.
  { rewrite unpack_writes; [exact Ed'|]. intros [k m] Hx. apply AI in Hx as (s & Hs & ->). cbn [fst snd].
    rewrite (RN k s Hs). eexists. split; [reflexivity|]. rewrite map_length. symmetry.
    assert (Is : In s (K r)) by (eapply nth_error_In; eauto). destruct (K_ok r s Hr Is) as [Hsn Ne].
    apply gm_length; auto. }
  split; [congruence|]. intros p Hp.
  assert (NW : (forall s t, In s (K r) -> ~ In (p, t) (hp r s)) -> vread d' (ix r p) = vread d (ix r p)).
  { intros H. apply Ud'. intros I. apply in_map_iff in I as ([i v] & Ei & I). cbn [fst] in Ei. subst i.
    apply WI in I as (s & p' & t & Is & Hp' & Q & _). destruct (K_ok r s Hr Is) as [Hsn Ne].
    assert (p' = p); [|subst; eapply H; eauto]. apply (ix_inj r); auto. apply hp_In in Hp' as [X _]; auto. }
  unfold val. destruct (rcontains (L r) p) eqn:C.
  - apply rcontains_spec in C. rewrite NW.
    + apply Ud. intros I. apply in_map_iff in I as (x & Ei & I). unfold hm in I. cbn [h_local] in I.
      apply in_map_iff in I as ([p' t] & <- & I). apply lp_In in I as (_ & H1 & H2 & _).
      cbn [fst] in Ei. apply ix_inj in Ei; auto. subst. auto.
    + intros s t Is H. destruct (K_ok r s Hr Is) as [Hsn Ne]. apply hp_In in H as (_ & H & _); auto.
  - assert (C' : ~ pt_in (L r) p) by (intros H; apply rcontains_spec in H; congruence).
    destruct (find (fun q => rcontains (L q) (tgt p)) (K r)) as [q|] eqn:Fq.
    + apply find_some in Fq as [Iq Cq]. apply rcontains_spec in Cq. destruct (K_ok r q Hr Iq) as [Hqn Ne].
      destruct (proj2 (vread_some (F q) (ix q (tgt p)))) as [v Rv]; [apply ix_bound; auto|].
      assert (I : In (ix r p, v) W).
      { apply WI. exists q, p, (tgt p). split; [exact Iq|]. split; [apply hp_In; auto|]. auto. }
      rewrite Rv. apply (Wd' (ix r p, v) I). intros [j w] H Q. cbn [fst snd] in *. subst j.
      apply WI in H as (s & p' & t & Is & Hp' & Q & Rw). destruct (K_ok r s Hr Is) as [Hsn Ne'].
      apply hp_In in Hp' as (X1 & X2 & -> & X3); auto. apply ix_inj in Q; auto. subst p'.
      assert (s = q) by (apply (Hdis s q (tgt p)); auto). subst. congruence.
    + rewrite NW.
      2: { intros s t Is H. destruct (K_ok r s Hr Is) as [Hsn Ne]. apply hp_In in H as (_ & _ & -> & H); auto.
           pose proof (find_none _ _ Fq s Is) as X. cbn beta in X. apply rcontains_spec in H. congruence. }
      destruct (negb (rincludes (c_range c) (E r)) && rcontains (L r) (adj p)) eqn:B.
      * apply andb_prop in B as [B1 B2]. apply negb_true_iff in B1. apply rcontains_spec in B2.
        assert (I : In (ix r p, ix r (adj p)) (h_local (hm r))).
        { unfold hm. cbn [h_local]. apply in_map_iff. exists (p, adj p). split; [reflexivity|]. apply lp_In. auto. }
        apply (Wd _ I). intros y Hy Q. unfold hm in Hy. cbn [h_local] in Hy. apply in_map_iff in Hy as ([p' t'] & <- & Hy).
        apply lp_In in Hy as (_ & H1 & _ & -> & _). cbn [fst snd] in *. apply ix_inj in Q; auto. subst. reflexivity.
      * apply Ud. intros I. apply in_map_iff in I as (x & Ei & I). unfold hm in I. cbn [h_local] in I.
        apply in_map_iff in I as ([p' t] & <- & I). apply lp_In in I as (H0 & H1 & H2 & -> & H3).
        cbn [fst] in Ei. apply ix_inj in Ei; auto. subst p'. rewrite H0 in B. apply rcontains_spec in H3. rewrite H3 in B. discriminate.
Qed.

Lemma res_ok r p : (r < n)%nat -> pt_in (E r) p -> vread (res r) (ix r p) = val r p.
Proof.
  intros Hr Hp. destruct (omap_total (val r) (RangeModel.foreach_col (E r))) as [l H].
  - intros q Hq. apply foreach_col_In in Hq. unfold val. destruct (rcontains (L r) q).
    + apply vread_some, ix_bound; auto.
    + destruct (find _ _) as [s|] eqn:Fs.
      * apply find_some in Fs as [Is Cs]. apply rcontains_spec in Cs. destruct (K_ok r s Hr Is) as [Hs _].
        apply vread_some, ix_bound; auto.
      * destruct (_ && _) eqn:B; apply vread_some, ix_bound; auto.
        apply andb_prop in B as [_ B]. apply rcontains_spec in B. auto.
  - unfold res. rewrite H. apply (field_of (E r) (val r) l H p Hp).
Qed.

Lemma res_length r : (r < n)%nat -> length (res r) = length (F r).
Proof.
  intros Hr. unfold res. destruct (omap_total (val r) (RangeModel.foreach_col (E r))) as [l H].
  - intros q Hq. apply foreach_col_In in Hq. unfold val. destruct (rcontains (L r) q).
    + apply vread_some, ix_bound; auto.
    + destruct (find _ _) as [s|] eqn:Fs.
      * apply find_some in Fs as [Is Cs]. apply rcontains_spec in Cs. destruct (K_ok r s Hr Is) as [Hs _].
        apply vread_some, ix_bound; auto.
      * destruct (_ && _) eqn:B; apply vread_some, ix_bound; auto.
        apply andb_prop in B as [_ B]. apply rcontains_spec in B. auto.
  - rewrite H. rewrite (omap_length _ _ _ H). pose proof (foreach_col_length (E r)). pose proof (HF r Hr). lia.
Qed.

Lemma halo_exchange_ok : phase_ok n halo_exchange (fun r => (hm r, F r)) (fun r => (hm r, res r)).
Proof.
  apply (any_phase n _ _ _ gm K K).
  - intros r _. apply K_NoDup.
  - intros r _. apply K_NoDup.
  - intros r s Hr H. eapply K_ok; eauto.
  - intros r s Hr H. eapply K_ok; eauto.
  - intros r s Hr Hs. rewrite !K_In. split; intros H; apply HNsym; auto.
  - reflexivity.
  - intros r Hr. cbn [p_sends]. rewrite messages_ok by exact Hr. cbn [fst hm h_ranks]. apply combine_map_r.
  - intros r l Hr A. cbn [p_done]. rewrite messages_ok by exact Hr. cbn [fst snd].
    destruct (done_ok r l Hr A) as (d & d' & -> & -> & Ld & R). cbn [fst snd]. do 2 f_equal.
    unfold res. rewrite (field_ext (E r) d' (val r)); [reflexivity| |exact R]. rewrite Ld. apply HF, Hr.
Qed.
End Halo.
