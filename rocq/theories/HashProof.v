(** Proofs about region hashes: the list of regions by bin. *)
From Coq Require Import List ZArith QArith Qround Bool Lia.
From Verif Require Import TupleModel RangeModel BoxModel IndexerModel ArrayModel ContModel HashModel HashSpec.
From Verif Require Import Base RangeProof IndexerProof ArrayProof.
Import ListNotations.
Local Open Scope Z_scope.

(** ** Indexers over ranges *)

Lemma rexts_in r t : pt_in r t <-> in_ext (rexts r) (tlist t).
Proof.
  unfold pt_in, in_ext, rexts, tlist; split.
  - intros (A & B & C). repeat constructor; cbn; lia.
  - intros H. inversion H as [|? ? ? ? A H1]; subst. inversion H1 as [|? ? ? ? B H2]; subst.
    inversion H2 as [|? ? ? ? C H3]; subst. cbn in *. lia.
Qed.

Lemma rcount_ecount r : rcount r = ecount (rexts r).
Proof. unfold rcount, rexts, rsize1. cbn [ecount tget]. unfold esize. cbn [fst snd]. lia. Qed.

Lemma rindex_bounds lay r t : pt_in r t -> 0 <= rindex lay r t < rcount r.
Proof. intros H. rewrite rcount_ecount. apply index_bounds, rexts_in, H. Qed.

Lemma tlist_inj t u : tlist t = tlist u -> t = u.
Proof. destruct t, u. unfold tlist. cbn. congruence. Qed.

Lemma rindex_inj lay r t u : pt_in r t -> pt_in r u -> rindex lay r t = rindex lay r u -> t = u.
Proof.
  intros A B E. apply tlist_inj. apply (index_inj lay (rexts r)); [apply rexts_in; auto..|exact E].
Qed.

Lemma rtuple_rindex lay r t : pt_in r t -> rtuple lay r (rindex lay r t) = Some t.
Proof.
  intros H. unfold rtuple, rindex. rewrite index_tuple by (apply rexts_in, H).
  unfold tlist. destruct t; reflexivity.
Qed.

Lemma rtuple_ok lay r i : 0 <= i < rcount r ->
  exists t, rtuple lay r i = Some t /\ pt_in r t /\ rindex lay r t = i.
Proof.
  intros H. rewrite rcount_ecount in H. destruct (tuple_index lay (rexts r) i H) as (l & E & I & X).
  pose proof (in_ext_length _ _ I) as L. destruct l as [|x [|y [|z [|]]]]; try discriminate.
  exists (T3 x y z). unfold rtuple. rewrite E. split; [reflexivity|]. split; [apply rexts_in, I|exact X].
Qed.

Lemma foreach_col_list r : map tlist (RangeModel.foreach_col r) = foreach ColMajor (rexts r).
Proof.
  unfold RangeModel.foreach_col, foreach, rexts. cbn [rev app foreach_cm].
  rewrite !flat_map_concat_map, concat_map, map_map. f_equal. apply map_ext. intros k.
  rewrite !flat_map_concat_map, concat_map, map_map. f_equal. apply map_ext. intros j.
  rewrite map_map. rewrite flat_map_concat_map.
  induction (zrange _ _) as [|i l IH]; cbn; [reflexivity|]. f_equal. exact IH.
Qed.

Lemma rindex_foreach r : map (rindex ColMajor r) (RangeModel.foreach_col r) = zseq 0 (Z.to_nat (rcount r)).
Proof.
  rewrite rcount_ecount, <- (foreach_index ColMajor), <- foreach_col_list, map_map. reflexivity.
Qed.

(** ** Options *)
Lemma ofoldl_app {S A} (f : S -> A -> option S) l1 l2 s :
  ofoldl f (l1 ++ l2) s = let! s' := ofoldl f l1 s in ofoldl f l2 s'.
Proof.
  revert s. induction l1 as [|a l IH]; intros s; cbn; [reflexivity|].
  destruct (f s a); [apply IH|reflexivity].
Qed.

Lemma omap_map {A B} (f : A -> option B) (g : A -> B) l : (forall a, In a l -> f a = Some (g a)) ->
  omap f l = Some (map g l).
Proof.
  induction l as [|a l IH]; intros H; cbn; [reflexivity|].
  rewrite (H a (or_introl eq_refl)).
  unfold omap in IH. rewrite IH by (intros; apply H; right; auto). reflexivity.
Qed.

Lemma omap_cons {A B} (f : A -> option B) a l : omap f (a :: l) = let! b := f a in let! bs := omap f l in Some (b :: bs).
Proof. reflexivity. Qed.

Lemma omap_some {A B} (f : A -> option B) l r : omap f l = Some r -> Forall2 (fun a b => f a = Some b) l r.
Proof.
  revert r. induction l as [|a l IH]; intros r H.
  - cbn in H. injection H as <-. constructor.
  - rewrite omap_cons in H. destruct (f a) as [b|] eqn:E; [|discriminate].
    destruct (omap f l) as [bs|]; [|discriminate]. injection H as <-. constructor; auto.
Qed.

Lemma omap_nth {A B} (f : A -> option B) l r i a : omap f l = Some r -> nth_error l i = Some a ->
  exists b, nth_error r i = Some b /\ f a = Some b.
Proof.
  intros H. apply omap_some in H. revert i. induction H as [|x y l r E H IH]; intros i N.
  - destruct i; discriminate.
  - destruct i; cbn in *; [injection N as <-; eauto|apply IH, N].
Qed.

Lemma omap_length {A B} (f : A -> option B) l r : omap f l = Some r -> length r = length l.
Proof. intros H. apply omap_some in H. induction H; cbn; congruence. Qed.

Lemma omap_total {A B} (f : A -> option B) l : (forall a, In a l -> exists b, f a = Some b) ->
  exists r, omap f l = Some r.
Proof.
  induction l as [|a l IH]; intros H; [eexists; reflexivity|].
  rewrite omap_cons. destruct (H a (or_introl eq_refl)) as [b ->].
  destruct IH as [r ->]; [intros; apply H; right; auto|]. eauto.
Qed.

Lemma tmake_opt_ok {A} (f : nat -> option A) : (forall d, (d < 3)%nat -> exists a, f d = Some a) ->
  exists t, tmake_opt f = Some t.
Proof.
  intros H. unfold tmake_opt. destruct (H 0%nat ltac:(lia)) as [a ->].
  destruct (H 1%nat ltac:(lia)) as [b ->]. destruct (H 2%nat ltac:(lia)) as [c ->]. eauto.
Qed.

Lemma tmake_opt_some {A} (f : nat -> option A) t : tmake_opt f = Some t ->
  forall d, (d < 3)%nat -> f d = Some (tget t d).
Proof.
  unfold tmake_opt. destruct (f 0%nat) eqn:E0; [|discriminate]. destruct (f 1%nat) eqn:E1; [|discriminate].
  destruct (f 2%nat) eqn:E2; [|discriminate]. intros H; injection H as <-.
  intros [|[|[|d]]] Hd; cbn; auto; lia.
Qed.

(** ** Counting sort *)

Lemma nth_error_eq {A} (l1 l2 : list A) : (forall i, nth_error l1 i = nth_error l2 i) -> l1 = l2.
Proof.
  revert l2. induction l1 as [|a l1 IH]; intros [|b l2] H; auto; try (specialize (H 0%nat); discriminate).
  f_equal; [specialize (H 0%nat); cbn in H; congruence|]. apply IH. intros i. apply (H (S i)).
Qed.

Lemma bump_ok l i x : vread l i = Some x ->
  exists l', bump l i = Some l' /\ length l' = length l /\
    forall j, vread l' j = if j =? i then Some (x + 1) else vread l j.
Proof.
  intros H. unfold bump. rewrite H.
  apply vwrite_spec, vread_some. eauto.
Qed.

Lemma bump_total l i : 0 <= i < Z.of_nat (length l) -> exists l', bump l i = Some l'.
Proof.
  intros H. apply vread_some in H as [x H]. destruct (bump_ok _ _ _ H) as (l' & E & _). eauto.
Qed.

(** The visits as pairs (region, bin). *)
Fixpoint pairs (i : Z) (visits : list (list Z)) : list (Z * Z) :=
  match visits with [] => [] | v :: r => map (fun b => (i, b)) v ++ pairs (i + 1) r end.

Definition sel (b : Z) (P : list (Z * Z)) : list Z := map fst (filter (fun x => Z.eqb b (snd x)) P).
Definition cnt (b : Z) (P : list (Z * Z)) : Z := Z.of_nat (length (sel b P)).

Lemma sel_app b P Q : sel b (P ++ Q) = sel b P ++ sel b Q.
Proof. unfold sel. rewrite filter_app, map_app. reflexivity. Qed.

Lemma cnt_app b P Q : cnt b (P ++ Q) = cnt b P + cnt b Q.
Proof. unfold cnt. rewrite sel_app, app_length. lia. Qed.

Lemma cnt_one b i c : cnt b [(i, c)] = if b =? c then 1 else 0.
Proof. unfold cnt, sel. cbn. destruct (b =? c); reflexivity. Qed.

Lemma cnt_nonneg b P : 0 <= cnt b P.
Proof. unfold cnt. lia. Qed.

Lemma sel_pairs b visits : forall i, sel b (pairs i visits) = holding b i visits.
Proof.
  induction visits as [|v r IH]; intros i; cbn [pairs holding]; [reflexivity|].
  rewrite sel_app, IH. f_equal. unfold sel.
  induction v as [|x v IHv]; cbn; [reflexivity|]. destruct (b =? x); cbn; rewrite IHv; reflexivity.
Qed.

Lemma pairs_snd visits : forall i, map snd (pairs i visits) = concat visits.
Proof.
  induction visits as [|v r IH]; intros i; cbn; [reflexivity|].
  rewrite map_app, IH, map_map. cbn. rewrite map_id. reflexivity.
Qed.

Lemma csr_fill_pairs starts visits : forall i s,
  csr_fill starts i visits s = ofoldl (fun s x => csr_add starts (fst x) s (snd x)) (pairs i visits) s.
Proof.
  induction visits as [|v r IH]; intros i s; cbn; [reflexivity|].
  rewrite ofoldl_app.
  assert (E : forall s, ofoldl (fun s x => csr_add starts (fst x) s (snd x)) (map (fun b => (i, b)) v) s =
                        ofoldl (csr_add starts i) v s).
  { induction v as [|b v IHv]; intros s'; cbn; [reflexivity|].
    destruct (csr_add starts i s' b); [apply IHv|reflexivity]. }
  rewrite E. destruct (ofoldl (csr_add starts i) v s); [apply IH|reflexivity].
Qed.

Section CSR.
Variable N : nat.
Variable P : list (Z * Z).
Hypothesis HP : forall x, In x P -> 0 <= snd x < Z.of_nat N.

Lemma counts_ok : forall L Q l, P = Q ++ L -> length l = N ->
  (forall b, 0 <= b < Z.of_nat N -> vread l b = Some (cnt b Q)) ->
  exists l', ofoldl bump (map snd L) l = Some l' /\ length l' = N /\
    forall b, 0 <= b < Z.of_nat N -> vread l' b = Some (cnt b P).
Proof.
  induction L as [|[i c] L IH]; intros Q l E Hl H; cbn [map ofoldl].
  - rewrite app_nil_r in E. subst Q. eauto.
  - assert (Hc : 0 <= c < Z.of_nat N).
    { apply (HP (i, c)). rewrite E. apply in_or_app; right; left; reflexivity. }
    destruct (bump_ok l c _ (H c Hc)) as (l1 & E1 & L1 & R1). cbn [snd]. rewrite E1.
    apply (IH (Q ++ [(i, c)])).
    + rewrite <- app_assoc. exact E.
    + congruence.
    + intros b Hb. rewrite R1, cnt_app, cnt_one.
      destruct (Z.eqb_spec b c) as [->|]; [reflexivity|]. rewrite H by auto. f_equal; lia.
Qed.

(** The number of region indices in the bins before b. *)
Definition pre (b : Z) : Z := fold_right (fun c s => cnt c P + s) 0 (zseq 0 (Z.to_nat b)).

Lemma fold_sum_app (f : Z -> Z) l1 l2 :
  fold_right (fun c s => f c + s) 0 (l1 ++ l2) =
  fold_right (fun c s => f c + s) 0 l1 + fold_right (fun c s => f c + s) 0 l2.
Proof. induction l1; cbn; lia. Qed.

Lemma pre_0 : pre 0 = 0. Proof. reflexivity. Qed.
Lemma pre_S b : 0 <= b -> pre (b + 1) = pre b + cnt b P.
Proof.
  intros H. unfold pre. replace (Z.to_nat (b + 1)) with (Z.to_nat b + 1)%nat by lia.
  rewrite zseq_app, (fold_sum_app (fun c => cnt c P)). cbn. rewrite Z2Nat.id by lia. lia.
Qed.
Lemma pre_mono b b' : 0 <= b <= b' -> pre b <= pre b'.
Proof.
  intros [H H']. replace b' with (b + Z.of_nat (Z.to_nat (b' - b))) by lia.
  induction (Z.to_nat (b' - b)) as [|k IH]; [rewrite Z.add_0_r; lia|].
  replace (b + Z.of_nat (S k)) with ((b + Z.of_nat k) + 1) by lia.
  rewrite pre_S by lia. pose proof (cnt_nonneg (b + Z.of_nat k) P). lia.
Qed.
Lemma pre_lt b b' : 0 <= b < b' -> pre b + cnt b P <= pre b'.
Proof. intros H. rewrite <- pre_S by lia. apply pre_mono. lia. Qed.

Lemma starts_ok counts (Hc : forall b, 0 <= b < Z.of_nat N -> vread counts b = Some (cnt b P)) :
  forall k b st, b + Z.of_nat k = Z.of_nat N -> 0 <= b -> (N <= length st)%nat ->
  exists st', ofoldl (fun s c => let! st := vwrite (fst s) c (snd s) in
                     let! x := vread counts c in Some (st, snd s + x)) (zseq b k) (st, pre b) =
                Some (st', pre (Z.of_nat N)) /\ length st' = length st /\
    forall c, vread st' c = if (b <=? c) && (c <? Z.of_nat N) then Some (pre c) else vread st c.
Proof.
  induction k as [|k IH]; intros b st Hb Hb0 Hst; cbn [zseq ofoldl].
  - replace b with (Z.of_nat N) in * by lia. exists st. split; [reflexivity|]. split; [reflexivity|].
    intros c. destruct (Z.leb_spec (Z.of_nat N) c), (Z.ltb_spec c (Z.of_nat N)); cbn; auto; lia.
  - cbn [fst snd]. destruct (vwrite_spec st b (pre b)) as (st1 & E1 & L1 & R1); [lia|].
    rewrite E1, Hc by lia. rewrite <- pre_S by lia.
    destruct (IH (b + 1) st1) as (st' & E & L & R); [lia|lia|lia|].
    exists st'. split; [exact E|]. split; [congruence|].
    intros c. rewrite R, R1.
    destruct (Z.leb_spec (b + 1) c), (Z.leb_spec b c), (Z.ltb_spec c (Z.of_nat N)), (Z.eqb_spec c b);
      cbn; subst; auto; lia.
Qed.

Variable starts : list Z.
Hypothesis Hs : forall b, 0 <= b < Z.of_nat N -> vread starts b = Some (pre b).

Lemma fill_ok : forall L Q ind added, P = Q ++ L ->
  Z.of_nat (length ind) = pre (Z.of_nat N) -> length added = N ->
  (forall b, 0 <= b < Z.of_nat N -> vread added b = Some (cnt b Q)) ->
  (forall b k, 0 <= b < Z.of_nat N -> 0 <= k < cnt b Q ->
     vread ind (pre b + k) = nth_error (sel b Q) (Z.to_nat k)) ->
  exists ind' added', ofoldl (fun s x => csr_add starts (fst x) s (snd x)) L (ind, added) = Some (ind', added') /\
    Z.of_nat (length ind') = pre (Z.of_nat N) /\ length added' = N /\
    (forall b, 0 <= b < Z.of_nat N -> vread added' b = Some (cnt b P)) /\
    (forall b k, 0 <= b < Z.of_nat N -> 0 <= k < cnt b P ->
       vread ind' (pre b + k) = nth_error (sel b P) (Z.to_nat k)).
Proof.
  induction L as [|[i c] L IH]; intros Q ind added E Hi Ha HA HI; cbn [ofoldl].
  - rewrite app_nil_r in E. subst Q. exists ind, added. auto.
  - assert (Hc : 0 <= c < Z.of_nat N).
    { apply (HP (i, c)). rewrite E. apply in_or_app; right; left; reflexivity. }
    unfold csr_add at 1. cbn [fst snd]. rewrite (Hs c Hc), (HA c Hc).
    assert (Q1 : cnt c Q < cnt c P).
    { rewrite E, cnt_app. change ((i, c) :: L) with ([(i, c)] ++ L).
      rewrite cnt_app, cnt_one, Z.eqb_refl. pose proof (cnt_nonneg c L). lia. }
    pose proof (cnt_nonneg c Q) as Q0.
    assert (P0 : 0 <= pre c) by (rewrite <- pre_0; apply pre_mono; lia).
    assert (B : pre c + cnt c P <= pre (Z.of_nat N)) by (apply pre_lt; lia).
    destruct (vwrite_spec ind (pre c + cnt c Q) i) as (ind1 & E1 & L1 & R1); [lia|].
    rewrite E1. destruct (bump_ok added c _ (HA c Hc)) as (ad1 & E2 & L2 & R2). rewrite E2.
    apply (IH (Q ++ [(i, c)])).
    + rewrite <- app_assoc. exact E.
    + lia.
    + congruence.
    + intros b Hb. rewrite R2, cnt_app, cnt_one. destruct (Z.eqb_spec b c) as [->|]; [reflexivity|].
      rewrite HA by auto. f_equal; lia.
    + intros b k Hb Hk. rewrite R1. rewrite cnt_app, cnt_one in Hk. rewrite sel_app.
      destruct (Z.eqb_spec b c) as [->|Nc].
      * destruct (Z.eqb_spec (pre c + k) (pre c + cnt c Q)) as [Ek|Nk].
        -- replace k with (cnt c Q) by lia. unfold cnt at 1. rewrite Nat2Z.id.
           rewrite nth_error_app2 by lia. rewrite Nat.sub_diag. unfold sel. cbn. rewrite Z.eqb_refl. reflexivity.
        -- rewrite HI by lia. rewrite nth_error_app1; [reflexivity|]. unfold cnt in *. lia.
      * replace (sel b [(i, c)]) with (@nil Z).
        2:{ unfold sel. cbn. destruct (Z.eqb_spec b c); [congruence|reflexivity]. }
        rewrite app_nil_r.
        assert (K : cnt b Q <= cnt b P) by (rewrite E, cnt_app; pose proof (cnt_nonneg b ((i, c) :: L)); lia).
        destruct (Z.eqb_spec (pre b + k) (pre c + cnt c Q)) as [Ek|Nk]; [|apply HI; lia].
        exfalso. destruct (Z.lt_trichotomy b c) as [X|[X|X]]; [|congruence|].
        -- pose proof (pre_lt b c ltac:(lia)). lia.
        -- pose proof (pre_lt c b ltac:(lia)). lia.
Qed.

Lemma slice_sel ind (HI : forall b k, 0 <= b < Z.of_nat N -> 0 <= k < cnt b P ->
       vread ind (pre b + k) = nth_error (sel b P) (Z.to_nat k)) b :
  0 <= b < Z.of_nat N -> slice ind (pre b) (cnt b P) = Some (sel b P).
Proof.
  intros Hb. unfold slice, zrange. rewrite Z.sub_0_r. unfold cnt. rewrite Nat2Z.id.
  assert (G : forall l' l, sel b P = l' ++ l ->
    omap (fun k => vread ind (pre b + k)) (zseq (Z.of_nat (length l')) (length l)) = Some l).
  { intros l' l; revert l'. induction l as [|x l IH]; intros l' E; [reflexivity|].
    cbn [length zseq]. rewrite omap_cons. rewrite HI; [|auto|unfold cnt; rewrite E, app_length; cbn; lia].
    rewrite Nat2Z.id, E, nth_error_app2, Nat.sub_diag by lia. cbn [nth_error].
    replace (Z.of_nat (length l') + 1) with (Z.of_nat (length (l' ++ [x]))) by (rewrite app_length; cbn; lia).
    rewrite IH; [reflexivity|]. rewrite <- app_assoc. exact E. }
  apply (G [] (sel b P)). reflexivity.
Qed.

End CSR.

(** The three loops together. *)
Lemma csr_correct (N : nat) visits : (forall v b, In v visits -> In b v -> 0 <= b < Z.of_nat N) ->
  exists counts st total,
    csr_counts N visits = Some counts /\ length counts = N /\
    (forall b, 0 <= b < Z.of_nat N -> vread counts b = Some (Z.of_nat (length (holding b 0 visits)))) /\
    (forall s, (N <= length s)%nat -> exists st', csr_starts (zseq 0 N) counts s = Some (st', total) /\
       length st' = length s /\
       forall c, vread st' c = if (0 <=? c) && (c <? Z.of_nat N) then Some (st c) else vread s c) /\
    0 <= total /\ st (Z.of_nat N) = total /\
    (forall b, 0 <= b -> st (b + 1) = st b + Z.of_nat (length (holding b 0 visits))) /\
    (forall starts, (forall b, 0 <= b < Z.of_nat N -> vread starts b = Some (st b)) ->
      exists ind, csr_fill starts 0 visits (repeat 0 (Z.to_nat total), repeat 0 N) = Some (ind, counts) /\
        forall b, 0 <= b < Z.of_nat N ->
          slice ind (st b) (Z.of_nat (length (holding b 0 visits))) = Some (holding b 0 visits)).
Proof.
  intros H. set (P := pairs 0 visits).
  assert (HP : forall x, In x P -> 0 <= snd x < Z.of_nat N).
  { intros x Hx. assert (In (snd x) (concat visits)) as I.
    { rewrite <- (pairs_snd visits 0). apply in_map, Hx. }
    apply in_concat in I as (v & I1 & I2). eauto. }
  assert (HC : forall b, cnt b P = Z.of_nat (length (holding b 0 visits))).
  { intros b. unfold cnt, P. rewrite sel_pairs. reflexivity. }
  destruct (counts_ok N P HP P [] (repeat 0 N) eq_refl (repeat_length _ _)) as (counts & E & Lc & R).
  { intros b Hb. apply repeat_read. exact Hb. }
  exists counts, (pre P), (pre P (Z.of_nat N)).
  split. { unfold csr_counts. rewrite <- (pairs_snd visits 0). exact E. }
  split; [exact Lc|]. split. { intros b Hb. rewrite R by exact Hb. rewrite HC. reflexivity. }
  split.
  { intros s Hl. destruct (starts_ok N P counts R N 0 s) as (st' & E' & L' & R'); [lia|lia|exact Hl|].
    exists st'. split; [exact E'|]. split; [exact L'|]. exact R'. }
  split; [rewrite <- (pre_0 P); apply pre_mono; lia|]. split; [reflexivity|].
  split. { intros b Hb. rewrite pre_S by exact Hb. rewrite HC. reflexivity. }
  intros starts Hst.
  destruct (fill_ok N P HP starts Hst P [] (repeat 0 (Z.to_nat (pre P (Z.of_nat N)))) (repeat 0 N) eq_refl)
    as (ind & added & E' & Li & La & RA & RI).
  - rewrite repeat_length. pose proof (pre_mono P 0 (Z.of_nat N) ltac:(lia)). rewrite pre_0 in *. lia.
  - apply repeat_length.
  - intros b Hb. apply repeat_read. exact Hb.
  - intros b k Hb Hk. unfold cnt, sel in Hk. cbn in Hk. lia.
  - exists ind. split.
    + rewrite csr_fill_pairs. fold P. rewrite E'. do 2 f_equal.
      apply nth_error_eq. intros i. destruct (Nat.lt_ge_cases i N) as [Hi|Hi].
      * pose proof (RA (Z.of_nat i) ltac:(lia)) as A1. pose proof (R (Z.of_nat i) ltac:(lia)) as A2.
        unfold vread in *. destruct (Z.ltb_spec (Z.of_nat i) 0); [lia|]. rewrite Nat2Z.id in *. congruence.
      * rewrite (proj2 (nth_error_None added i)) by lia. rewrite (proj2 (nth_error_None counts i)) by lia. reflexivity.
    + intros b Hb. rewrite <- HC, <- sel_pairs. apply slice_sel with (N := N) (starts := starts); auto.
Qed.
