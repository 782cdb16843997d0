(** Connected components: the labels of the local points. *)
From Coq Require Import List ZArith Bool Arith Lia Relations.
From Verif Require Import TupleModel RangeModel Base RangeProof CartModel CartProof DecompModel DecompProof IndexerModel ArrayModel ArrayProof.
From Verif Require Import ContModel ContSpec ContProof MapProof UFModel UFSpec UFProof HashModel HashProof.
From Verif Require Import HaloModel HaloProof FieldModel FieldSpec FieldProof EdgeProof CompModel UFTrack.
Import ListNotations.
Local Open Scope Z_scope.

(** A field on the range e has the values of f. *)
Definition reads {V} (e : range) (data : list V) (f : tup Z -> V) : Prop :=
  Z.of_nat (length data) = rcount e /\ forall p, pt_in e p -> vread data (rindex ColMajor e p) = Some (f p).

Definition upd {V} (f : tup Z -> V) (p : tup Z) (v : V) : tup Z -> V := fun q => if teqb q p then v else f q.

Lemma upd_same {V} (f : tup Z -> V) p v : upd f p v p = v.
Proof. unfold upd. destruct (teqb p p) eqn:E; [reflexivity|]. exfalso. assert (teqb p p = true) by (apply teqb_eq; reflexivity). congruence. Qed.

Lemma upd_other {V} (f : tup Z -> V) p v q : q <> p -> upd f p v q = f q.
Proof. intros H. unfold upd. destruct (teqb q p) eqn:E; [apply teqb_eq in E; contradiction|reflexivity]. Qed.

Lemma reads_fread {V} e (data : list V) f p : reads e data f -> pt_in e p -> fread e data p = Some (f p).
Proof. intros [_ R] H. rewrite fread_in by exact H. apply R, H. Qed.

Lemma reads_fwrite {V} e (data : list V) f p v : reads e data f -> pt_in e p ->
  exists data', fwrite e data p v = Some data' /\ reads e data' (upd f p v).
Proof.
  intros [Le R] H. unfold fwrite. rewrite (proj2 (rcontains_spec _ _) H).
  pose proof (rindex_bounds ColMajor e p H) as B.
  destruct (vwrite_spec data (rindex ColMajor e p) v ltac:(lia)) as (d' & W & Le' & R').
  exists d'. split; [exact W|]. split; [congruence|].
  intros q Hq. rewrite R'. unfold upd. destruct (teqb q p) eqn:E.
  - apply teqb_eq in E. subst q. rewrite Z.eqb_refl. reflexivity.
  - destruct (Z.eqb_spec (rindex ColMajor e q) (rindex ColMajor e p)) as [X|X]; [|apply R, Hq].
    apply rindex_inj in X; auto. subst q. assert (teqb p p = true) by (apply teqb_eq; reflexivity). congruence.
Qed.

Lemma reads_repeat {V} e (v : V) : reads e (repeat v (Z.to_nat (rcount e))) (fun _ => v).
Proof.
  assert (0 <= rcount e) by (unfold rcount, rsize1; nia). split; [rewrite repeat_length; lia|].
  intros p Hp. pose proof (rindex_bounds ColMajor e p Hp) as B. unfold vread. destruct (Z.ltb_spec (rindex ColMajor e p) 0); [lia|].
  apply nth_error_repeat. lia.
Qed.

Lemma reads_ext {V} e (data : list V) f g : reads e data f -> (forall p, pt_in e p -> f p = g p) -> reads e data g.
Proof. intros [A B] H. split; [exact A|]. intros p Hp. rewrite <- H by exact Hp. apply B, Hp. Qed.

Definition inb (ps : list (tup Z)) (q : tup Z) : bool := existsb (teqb q) ps.
Lemma inb_spec ps q : inb ps q = true <-> In q ps.
Proof.
  unfold inb. rewrite existsb_exists. split; [intros (x & H & E); apply teqb_eq in E; congruence|].
  intros H. exists q. split; [exact H|apply teqb_eq; reflexivity].
Qed.

(** A loop that replaces the label of each point. *)
Lemma point_loop {A} e (step : A * list Z -> tup Z -> option (A * list Z)) (Inv : list (tup Z) -> A -> Prop) (f h : tup Z -> Z) pts :
  (forall done p a lab g, In p pts -> Inv done a -> reads e lab g -> g p = f p ->
     exists a' lab', step (a, lab) p = Some (a', lab') /\ Inv (done ++ [p]) a' /\ reads e lab' (upd g p (h p))) ->
  forall todo done a lab g, NoDup todo -> (forall p, In p todo -> In p pts) -> Inv done a -> reads e lab g -> (forall p, In p todo -> g p = f p) ->
  exists a' lab', ofoldl step todo (a, lab) = Some (a', lab') /\ Inv (done ++ todo) a' /\
    reads e lab' (fun q => if inb todo q then h q else g q).
Proof.
  intros ST. induction todo as [|p todo IH]; intros done a lab g ND Sub I R G; cbn [ofoldl].
  - exists a, lab. rewrite app_nil_r. auto.
  - inversion ND as [|? ? Np ND']; subst.
    destruct (ST done p a lab g) as (a1 & lab1 & E & I1 & R1); auto; [apply Sub; left; reflexivity|apply G; left; reflexivity|]. rewrite E.
    destruct (IH (done ++ [p]) a1 lab1 (upd g p (h p)) ND') as (a' & lab' & E' & I' & R'); auto.
    + intros q Hq. apply Sub. right. exact Hq.
    + intros q Hq. rewrite upd_other by (intros ->; contradiction). apply G. right. exact Hq.
    + exists a', lab'. split; [exact E'|]. split; [rewrite <- app_assoc in I'; exact I'|].
      apply (reads_ext e lab' _ _ R'). intros q _. unfold inb. cbn [existsb]. fold (inb todo q).
      destruct (teqb q p) eqn:T.
      * apply teqb_eq in T. subst q. cbn [orb]. destruct (inb todo p) eqn:X; [reflexivity|]. apply upd_same.
      * cbn [orb]. destruct (inb todo q); [reflexivity|]. apply upd_other. intros ->. assert (teqb p p = true) by (apply teqb_eq; reflexivity). congruence.
Qed.

Section Local.
Variables (nd : nat) (loc e : range) (mask : list bool) (m : tup Z -> bool).
Hypothesis Sub : pt_subset loc e.
Hypothesis Dims : forall d, (nd <= d < 3)%nat -> tget (rb loc) d = 0 /\ tget (re loc) d = 1.
Hypothesis Rm : forall p, pt_in loc p -> fread e mask p = Some (m p).

(** Adjacent points of the local range. *)
Definition ladj (p q : tup Z) : Prop := pt_in loc p /\ pt_in loc q /\ apart nd 1 p q /\ m p = m q.
Definition lconn : tup Z -> tup Z -> Prop := clos_refl_sym_trans _ ladj.

Lemma loc_dims p : pt_in loc p -> forall d, (nd <= d < 3)%nat -> tget p d = 0.
Proof. intros H d Hd. pose proof (proj1 (pt_in_tget _ _) H d ltac:(lia)). destruct (Dims d Hd). lia. Qed.

Lemma nbr_In p q : pt_in loc p -> (pt_in (intersect_ranges (neighbor_range nd p) loc) q <-> pt_in loc q /\ apart nd 1 p q).
Proof. intros Hp. rewrite intersect_spec, neighbor_range_In by (apply loc_dims, Hp). tauto. Qed.

Lemma slab_In r o q : (tget (rb r) 2%nat <= o < tget (re r) 2%nat) -> pt_in (slab r o) q -> pt_in r q.
Proof.
  intros Ho H. apply pt_in_tget. intros d Hd. pose proof (proj1 (pt_in_tget _ _) H d Hd) as B. unfold slab in B. cbn [rb re] in B.
  rewrite !tget_tset in B by lia. destruct (Nat.eqb_spec d 2) as [->|Ne]; lia.
Qed.

(** The state of the first loop; D: the points that have a label. *)
Definition J (D : tup Z -> Prop) (s : lst) : Prop :=
  exists f, reads e (l_lab s) f /\ 0 <= l_num s /\
    (forall q, pt_in loc q -> D q -> 0 <= f q < l_num s) /\ (forall q, pt_in loc q -> 0 <= f q -> D q) /\
    (forall q q', pt_in loc q -> pt_in loc q' -> D q -> D q' -> f q = f q' -> lconn q q') /\
    uinv (l_sets s) (ins_ops (zseq 0 (Z.to_nat (l_num s)))).

Lemma first_label_ok lab f value qs : reads e lab f -> (forall q, In q qs -> pt_in loc q) ->
  first_label e mask lab value qs = Some None \/
  exists q, In q qs /\ m q = value /\ 0 <= f q /\ first_label e mask lab value qs = Some (Some (f q)).
Proof.
  intros R. induction qs as [|q qs IH]; intros H; cbn [first_label]; [auto|].
  pose proof (H q ltac:(left; reflexivity)) as Hq. rewrite (Rm q Hq).
  assert (H' : forall q, In q qs -> pt_in loc q) by (intros; apply H; right; assumption).
  destruct (Bool.eqb (m q) value) eqn:V.
  - rewrite (reads_fread e lab f q R (Sub q Hq)). destruct (Z.leb_spec 0 (f q)) as [P|P].
    + right. exists q. split; [left; reflexivity|]. split; [apply eqb_prop, V|]. auto.
    + destruct (IH H') as [A|(x & A & B & C & Q)]; [auto|]. right. exists x. split; [right; exact A|auto].
  - destruct (IH H') as [A|(x & A & B & C & Q)]; [auto|]. right. exists x. split; [right; exact A|auto].
Qed.

Lemma zseq_snoc a n : zseq a (S n) = zseq a n ++ [a + Z.of_nat n].
Proof.
  revert a. induction n as [|n IH]; intros a; [cbn; f_equal; lia|].
  change (zseq a (S (S n))) with (a :: zseq (a + 1) (S n)). rewrite IH.
  change (zseq a (S n)) with (a :: zseq (a + 1) n). cbn [app]. do 3 f_equal. lia.
Qed.

Lemma label_slab_ok D s p o : pt_in loc p -> (forall q, D q \/ ~ D q) -> 
  let nr := intersect_ranges (neighbor_range nd p) loc in
  tget (rb nr) 2%nat <= o < tget (re nr) 2%nat -> J D s ->
  exists s', label_slab e mask p (m p) nr s o = Some s' /\ J (fun q => q = p \/ D q) s'.
Proof.
  intros Hp Dec nr Ho (f & R & N0 & J1 & J2 & J3 & U). unfold label_slab.
  pose proof (Sub p Hp) as He.
  assert (Teq : forall a b : tup Z, a = b \/ a <> b).
  { intros a b. destruct (teqb a b) eqn:E; [left; apply teqb_eq, E|right; intros ->; assert (teqb b b = true) by (apply teqb_eq; reflexivity); congruence]. }
  assert (Sl : forall q, In q (RangeModel.foreach_col (slab nr o)) -> pt_in loc q /\ apart nd 1 p q).
  { intros q Hq. apply foreach_col_In in Hq. apply nbr_In; [exact Hp|]. apply (slab_In _ o); auto. }
  destruct (first_label_ok (l_lab s) f (m p) _ R (fun q Hq => proj1 (Sl q Hq))) as [F|(q & Hq & V & P & F)]; rewrite F.
  - rewrite (reads_fread e _ f p R He). destruct (Z.ltb_spec (f p) 0) as [Neg|Pos].
    + assert (Nd : ~ D p) by (intros X; specialize (J1 p Hp X); lia).
      destruct (reads_fwrite e (l_lab s) f p (l_num s) R He) as (lab' & W & R'). rewrite W.
      eexists. split; [reflexivity|]. exists (upd f p (l_num s)). cbn [l_lab l_num l_sets].
      split; [exact R'|]. split; [lia|]. split; [|split; [|split]].
      * intros q Hq HD. destruct (Teq q p) as [->|Ne]; [rewrite upd_same; lia|]. rewrite upd_other by exact Ne.
        destruct HD as [|HD]; [contradiction|]. specialize (J1 q Hq HD). lia.
      * intros q Hq HD. destruct (Teq q p) as [->|Ne]; [auto|]. rewrite upd_other in HD by exact Ne. right. apply J2; auto.
      * intros q q' Hq Hq' HD HD'. destruct (Teq q p) as [->|Ne], (Teq q' p) as [->|Ne'].
        -- intros _. apply rst_refl.
        -- rewrite upd_same, upd_other by exact Ne'. destruct HD' as [|HD']; [contradiction|]. specialize (J1 q' Hq' HD'). lia.
        -- rewrite upd_same, upd_other by exact Ne. destruct HD as [|HD]; [contradiction|]. specialize (J1 q Hq HD). lia.
        -- rewrite !upd_other by assumption. destruct HD as [|HD]; [contradiction|]. destruct HD' as [|HD']; [contradiction|]. apply J3; auto.
      * replace (Z.to_nat (l_num s + 1)) with (S (Z.to_nat (l_num s))) by lia. rewrite zseq_snoc. unfold ins_ops. rewrite map_app.
        replace (0 + Z.of_nat (Z.to_nat (l_num s))) with (l_num s) by lia. apply uf_insert_inv, U.
    + pose proof (J2 p Hp Pos) as HD. eexists. split; [reflexivity|]. exists f. cbn [l_lab l_num l_sets].
      split; [exact R|]. split; [exact N0|]. split; [|split; [|split]].
      * intros q Hq [->|X]; auto.
      * intros q Hq X. right. auto.
      * intros q q' Hq Hq' [->|X] [->|X']; auto.
      * exact U.
  - destruct (Sl q Hq) as [Lq Aq]. pose proof (J2 q Lq P) as Dq. pose proof (J1 q Lq Dq) as Bq.
    destruct (reads_fwrite e (l_lab s) f p (f q) R He) as (lab' & W & R'). rewrite W.
    rewrite (reads_fread e lab' _ p R' He), upd_same. destruct (Z.ltb_spec (f q) 0); [lia|].
    eexists. split; [reflexivity|]. exists (upd f p (f q)). cbn [l_lab l_num l_sets].
    assert (PQ : lconn p q) by (apply rst_step; split; [exact Hp|]; split; [exact Lq|]; split; [exact Aq|auto]).
    split; [exact R'|]. split; [exact N0|]. split; [|split; [|split]].
    + intros x Hx HD. destruct (Teq x p) as [->|Ne]; [rewrite upd_same; exact Bq|]. rewrite upd_other by exact Ne.
      destruct HD as [|HD]; [contradiction|]. auto.
    + intros x Hx HD. destruct (Teq x p) as [->|Ne]; [auto|]. rewrite upd_other in HD by exact Ne. right. auto.
    + intros x x' Hx Hx' HD HD'. destruct (Teq x p) as [->|Ne], (Teq x' p) as [->|Ne'].
      * intros _. apply rst_refl.
      * rewrite upd_same, upd_other by exact Ne'. intros Q. destruct HD' as [|HD']; [contradiction|].
        eapply rst_trans; [exact PQ|]. apply J3; auto.
      * rewrite upd_same, upd_other by exact Ne. intros Q. destruct HD as [|HD]; [contradiction|].
        eapply rst_trans; [|apply rst_sym, PQ]. apply J3; auto.
      * rewrite !upd_other by assumption. destruct HD as [|HD]; [contradiction|]. destruct HD' as [|HD']; [contradiction|]. apply J3; auto.
    + exact U.
Qed.

Lemma J_ext D D' s : (forall q, D q <-> D' q) -> J D s -> J D' s.
Proof.
  intros H (f & R & N0 & J1 & J2 & J3 & U). exists f. split; [exact R|]. split; [exact N0|]. split; [|split; [|split]]; auto.
  - intros q Hq X. apply J1; auto. apply H, X.
  - intros q Hq X. apply H. auto.
  - intros q q' Hq Hq' X X'. apply J3; auto; apply H; assumption.
Qed.

Lemma label_point_ok done s p : pt_in loc p -> J (fun q => In q done) s ->
  exists s', label_point nd loc e mask s p = Some s' /\ J (fun q => In q (done ++ [p])) s'.
Proof.
  intros Hp HJ. unfold label_point. rewrite (Rm p Hp). set (nr := intersect_ranges (neighbor_range nd p) loc).
  assert (Hnr : pt_in nr p) by (apply nbr_In; [exact Hp|]; split; [exact Hp|apply apart_refl; lia]).
  pose proof (proj1 (pt_in_tget _ _) Hnr 2%nat ltac:(lia)) as B2.
  assert (G : forall os D s, (forall q, D q \/ ~ D q) -> (forall o, In o os -> tget (rb nr) 2%nat <= o < tget (re nr) 2%nat) -> J D s ->
    exists s', ofoldl (label_slab e mask p (m p) nr) os s = Some s' /\ J (fun q => (os <> [] /\ q = p) \/ D q) s').
  { assert (Teq : forall a b : tup Z, a = b \/ a <> b).
    { intros a b. destruct (teqb a b) eqn:E; [left; apply teqb_eq, E|right; intros ->; assert (teqb b b = true) by (apply teqb_eq; reflexivity); congruence]. }
    induction os as [|o os IH]; intros D s0 Dec Hos HJ0; cbn [ofoldl].
    - exists s0. split; [reflexivity|]. apply (J_ext D); [|exact HJ0]. intros q. split; [auto|]. intros [[C _]|X]; [congruence|exact X].
    - destruct (label_slab_ok D s0 p o Hp Dec (Hos o ltac:(left; reflexivity)) HJ0) as (s1 & E1 & J1). fold nr in E1. rewrite E1.
      destruct (IH (fun q => q = p \/ D q) s1) as (s2 & E2 & J2); auto.
      + intros q. destruct (Teq q p), (Dec q); tauto.
      + intros o' Ho'. apply Hos. right. exact Ho'.
      + exists s2. split; [exact E2|]. apply (J_ext (fun q => (os <> [] /\ q = p) \/ q = p \/ D q)); [|exact J2].
        intros q. split; [intros [[_ X]|[X|X]]|intros [[_ X]|X]]; auto; left; (split; [discriminate|exact X]). }
  destruct (G (zseq (tget (rb nr) 2%nat) (Z.to_nat (tget (re nr) 2%nat - tget (rb nr) 2%nat))) (fun q => In q done) s) as (s' & E & J'); auto.
  { intros q. destruct (inb done q) eqn:X; [left; apply inb_spec, X|right; intros Y; apply inb_spec in Y; congruence]. }
  { intros o Ho. apply zseq_In in Ho. lia. }
  exists s'. split; [exact E|]. eapply J_ext; [|exact J']. intros q. cbv beta. rewrite in_app_iff. cbn [In].
  split; [intros [[_ X]|X]; auto|]. intros [X|[X|[]]]; auto. left. split; [|auto]. intros C.
  assert (In (tget p 2%nat) (zseq (tget (rb nr) 2%nat) (Z.to_nat (tget (re nr) 2%nat - tget (rb nr) 2%nat)))) by (apply zseq_In; lia).
  rewrite C in H. contradiction.
Qed.

Lemma label_all_ok : exists s, ofoldl (label_point nd loc e mask) (RangeModel.foreach_col loc) (LS (repeat (-1) (Z.to_nat (rcount e))) 0 uf_empty) = Some s /\
  J (fun q => pt_in loc q) s.
Proof.
  assert (G : forall todo done s, (forall p, In p todo -> pt_in loc p) -> J (fun q => In q done) s ->
    exists s', ofoldl (label_point nd loc e mask) todo s = Some s' /\ J (fun q => In q (done ++ todo)) s').
  { induction todo as [|p todo IH]; intros done s Hin HJ; cbn [ofoldl]; [exists s; rewrite app_nil_r; auto|].
    destruct (label_point_ok done s p (Hin p ltac:(left; reflexivity)) HJ) as (s1 & E1 & J1). rewrite E1.
    destruct (IH (done ++ [p]) s1) as (s2 & E2 & J2); auto; [intros q Hq; apply Hin; right; exact Hq|].
    exists s2. split; [exact E2|]. rewrite <- app_assoc in J2. exact J2. }
  destruct (G (RangeModel.foreach_col loc) [] (LS (repeat (-1) (Z.to_nat (rcount e))) 0 uf_empty)) as (s & E & HJ).
  - intros p. apply foreach_col_In.
  - exists (fun _ => -1). cbn [l_lab l_num l_sets]. split; [apply reads_repeat|]. split; [lia|]. split; [intros q _ []|]. split; [intros; lia|].
    split; [intros q q' _ _ []|]. exact empty_inv.
  - exists s. split; [exact E|]. apply (J_ext (fun q => In q ([] ++ RangeModel.foreach_col loc))); [|exact HJ]. intros q. cbn [app]. apply foreach_col_In.
Qed.

(** The second loop. *)
Definition un_ops (ps : list (Z * Z)) : list uf_op := map (fun p => UUnion (fst p) (snd p)) ps.

Section Join.
Variables (lab : list Z) (f : tup Z -> Z) (num : Z).
Hypothesis R : reads e lab f.
Hypothesis Pos : forall p, pt_in loc p -> 0 <= f p < num.

Definition K (done : list (tup Z * tup Z)) (u : uf) : Prop :=
  exists ps, uinv u (ins_ops (zseq 0 (Z.to_nat num)) ++ un_ops ps) /\
    (forall a b, In (a, b) ps -> exists p q, ladj p q /\ a = f p /\ b = f q) /\
    (forall p q, In (p, q) done -> ladj p q -> In (f p, f q) ps).

Lemma join_neighbor_ok done u p q : pt_in loc p -> pt_in loc q -> apart nd 1 p q -> K done u ->
  exists u', join_neighbor e mask lab (m p) (f p) u q = Some u' /\ K (done ++ [(p, q)]) u'.
Proof.
  intros Hp Hq Apq (ps & U & K1 & K2). unfold join_neighbor. rewrite (Rm q Hq). destruct (Bool.eqb (m q) (m p)) eqn:V.
  - apply eqb_prop in V. rewrite (reads_fread e lab f q R (Sub q Hq)). destruct (Z.leb_spec 0 (f q)) as [P|P]; [|specialize (Pos q Hq); lia].
    destruct (uf_union_spec u _ (f p) (f q) U) as (u' & z & E & U' & _). rewrite E. exists u'. split; [reflexivity|].
    exists (ps ++ [(f p, f q)]). split; [|split].
    + unfold un_ops. rewrite map_app. rewrite app_assoc. exact U'.
    + intros a b Hab. apply in_app_or in Hab. destruct Hab as [Hab|[Hab|[]]]; [auto|]. injection Hab as <- <-.
      exists p, q. split; [|auto]. split; [exact Hp|]. split; [exact Hq|]. auto.
    + intros p' q' Hd Ad. apply in_app_or in Hd. apply in_or_app. destruct Hd as [Hd|[Hd|[]]]; [left; auto|]. injection Hd as -> ->. right. left. reflexivity.
  - exists u. split; [reflexivity|]. exists ps. split; [exact U|]. split; [exact K1|]. intros p' q' Hd Ad. apply in_app_or in Hd. destruct Hd as [Hd|[Hd|[]]]; [auto|].
    injection Hd as -> ->. destruct Ad as (_ & _ & _ & Ev). rewrite Ev in V. rewrite eqb_reflx in V. discriminate.
Qed.

Lemma join_point_ok done u p : pt_in loc p -> K done u ->
  exists u', join_point nd loc e mask lab u p = Some u' /\
    K (done ++ map (fun q => (p, q)) (RangeModel.foreach_col (intersect_ranges (neighbor_range nd p) loc))) u'.
Proof.
  intros Hp HK. unfold join_point. rewrite (Rm p Hp), (reads_fread e lab f p R (Sub p Hp)).
  assert (G : forall qs done u, (forall q, In q qs -> pt_in loc q /\ apart nd 1 p q) -> K done u ->
    exists u', ofoldl (join_neighbor e mask lab (m p) (f p)) qs u = Some u' /\ K (done ++ map (fun q => (p, q)) qs) u').
  { induction qs as [|q qs IH]; intros dn u0 Hqs HK0; cbn [ofoldl map]; [exists u0; rewrite app_nil_r; auto|].
    destruct (Hqs q ltac:(left; reflexivity)) as [Hq Aq].
    destruct (join_neighbor_ok dn u0 p q Hp Hq Aq HK0) as (u1 & E1 & K1). rewrite E1.
    destruct (IH (dn ++ [(p, q)]) u1) as (u2 & E2 & K2); auto; [intros x Hx; apply Hqs; right; exact Hx|].
    exists u2. split; [exact E2|]. rewrite <- app_assoc in K2. exact K2. }
  apply G; auto. intros q Hq. apply foreach_col_In in Hq. apply nbr_In in Hq; auto.
Qed.

Lemma join_all_points u : uinv u (ins_ops (zseq 0 (Z.to_nat num))) ->
  exists u' ps, ofoldl (join_point nd loc e mask lab) (RangeModel.foreach_col loc) u = Some u' /\
    uinv u' (ins_ops (zseq 0 (Z.to_nat num)) ++ un_ops ps) /\
    forall a b, In (a, b) ps <-> exists p q, ladj p q /\ a = f p /\ b = f q.
Proof.
  intros U.
  set (pairs := fun p => map (fun q => (p, q)) (RangeModel.foreach_col (intersect_ranges (neighbor_range nd p) loc))).
  assert (G : forall todo done u, (forall p, In p todo -> pt_in loc p) -> K done u ->
    exists u', ofoldl (join_point nd loc e mask lab) todo u = Some u' /\ K (done ++ flat_map pairs todo) u').
  { induction todo as [|p todo IH]; intros dn u0 Hin HK0; cbn [ofoldl flat_map]; [exists u0; rewrite app_nil_r; auto|].
    destruct (join_point_ok dn u0 p (Hin p ltac:(left; reflexivity)) HK0) as (u1 & E1 & K1). rewrite E1.
    destruct (IH (dn ++ pairs p) u1) as (u2 & E2 & K2); auto; [intros q Hq; apply Hin; right; exact Hq|].
    exists u2. split; [exact E2|]. rewrite <- app_assoc in K2. exact K2. }
  destruct (G (RangeModel.foreach_col loc) [] u) as (u' & E & ps & U' & K1 & K2).
  - intros p. apply foreach_col_In.
  - exists []. cbn [un_ops map]. rewrite app_nil_r. split; [exact U|]. split; [intros a b []|intros p q []].
  - exists u', ps. split; [exact E|]. split; [exact U'|]. intros a b. split; [apply K1|]. intros (p & q & A & -> & ->).
    apply K2; [|exact A]. cbn [app]. destruct A as (Hp & Hq & Ap & _). apply in_flat_map. exists p. split; [apply foreach_col_In, Hp|].
    unfold pairs. apply in_map, foreach_col_In, nbr_In; auto.
Qed.

Hypothesis Same : forall p q, pt_in loc p -> pt_in loc q -> f p = f q -> lconn p q.

Lemma un_connected ps p q : (forall a b, In (a, b) ps <-> exists p q, ladj p q /\ a = f p /\ b = f q) ->
  pt_in loc p -> pt_in loc q ->
  (connected (ins_ops (zseq 0 (Z.to_nat num)) ++ un_ops ps) (f p) (f q) <-> lconn p q).
Proof.
  intros Hps Hp Hq.
  assert (LK : forall a b, linked (ins_ops (zseq 0 (Z.to_nat num)) ++ un_ops ps) a b <-> In (a, b) ps).
  { intros a b. split.
    - intros (l1 & l2 & E & _). assert (H : In (UUnion a b) (ins_ops (zseq 0 (Z.to_nat num)) ++ un_ops ps)) by (rewrite E; apply in_or_app; right; left; reflexivity).
      apply in_app_or in H. destruct H as [H|H].
      + apply in_map_iff in H. destruct H as (z & H & _). discriminate.
      + apply in_map_iff in H. destruct H as ([x y] & H & Hi). cbn in H. injection H as -> ->. exact Hi.
    - intros H. pose proof H as H0. apply in_split in H. destruct H as (p1 & p2 & E).
      exists (ins_ops (zseq 0 (Z.to_nat num)) ++ un_ops p1), (un_ops p2). split.
      + rewrite E. unfold un_ops. rewrite map_app. cbn. rewrite <- app_assoc. reflexivity.
      + apply Hps in H0. destruct H0 as (x & y & (Hx & Hy & _) & -> & ->). pose proof (Pos x Hx). pose proof (Pos y Hy).
        rewrite !inserted_app. split; left; apply ins_ops_inserted, zseq_In; lia. }
  split.
  - intros C.
    assert (G : forall a b, connected (ins_ops (zseq 0 (Z.to_nat num)) ++ un_ops ps) a b ->
      a = b \/ exists x y, pt_in loc x /\ pt_in loc y /\ a = f x /\ b = f y /\ lconn x y).
    { intros a b H. induction H as [a b H|a|a b _ IH|a b c0 _ IH1 _ IH2].
      - right. apply LK, Hps in H. destruct H as (x & y & A & -> & ->). exists x, y. pose proof A as (Hx & Hy & _).
        split; [exact Hx|]. split; [exact Hy|]. split; [reflexivity|]. split; [reflexivity|]. apply rst_step, A.
      - auto.
      - destruct IH as [->|(x & y & Hx & Hy & -> & -> & Cxy)]; [auto|]. right. exists y, x. split; [exact Hy|]. split; [exact Hx|]. split; [reflexivity|]. split; [reflexivity|]. apply rst_sym, Cxy.
      - destruct IH1 as [->|(x & y & Hx & Hy & -> & -> & Cxy)]; [exact IH2|].
        destruct IH2 as [<-|(x' & y' & Hx' & Hy' & E1 & -> & Cxy')]; [right; exists x, y; auto|].
        right. exists x, y'. split; [exact Hx|]. split; [exact Hy'|]. split; [reflexivity|]. split; [reflexivity|].
        eapply rst_trans; [exact Cxy|]. eapply rst_trans; [|exact Cxy']. apply Same; auto. }
    destruct (G _ _ C) as [E|(x & y & Hx & Hy & E1 & E2 & Cxy)]; [apply Same; auto|].
    eapply rst_trans; [apply Same; [exact Hp|exact Hx|exact E1]|]. eapply rst_trans; [exact Cxy|]. apply Same; auto.
  - intros C.
    assert (G : forall x y, lconn x y -> connected (ins_ops (zseq 0 (Z.to_nat num)) ++ un_ops ps) (f x) (f y)).
    { intros x y H. induction H as [x y H|x|x y _ IH|x y z _ IH1 _ IH2].
      - apply rst_step, LK, Hps. exists x, y. auto.
      - apply rst_refl.
      - apply rst_sym, IH.
      - eapply rst_trans; eauto. }
    apply G, C.
Qed.
End Join.

(** Numbering the roots. *)
Lemma fetch_keys (mm : smap Z Z) k v : m_keys (fst (map_fetch Z.ltb mm k v)) = set_insert Z.ltb (m_keys mm) k.
Proof.
  unfold map_fetch, set_insert, set_insert_hint. destruct (nth_error (m_keys mm) (set_lower Z.ltb (m_keys mm) k)) as [x|]; [|reflexivity].
  destruct (k <? x); reflexivity.
Qed.

Lemma zeqv_eq a b : eqv Z.ltb a b = true -> a = b.
Proof. unfold eqv. rewrite andb_true_iff, !negb_true_iff, !Z.ltb_ge. lia. Qed.

Lemma add_roots_ok (rep : Z -> Z) (Inv : uf -> Prop) el :
  (forall v x, Inv v -> In x el -> exists v', uf_find v x = Some (v', rep x) /\ Inv v') ->
  forall xs u mm, (forall x, In x xs -> In x el) -> Inv u -> mgood anyZ Z.ltb mm ->
  exists u' mm', ofoldl add_root xs (u, mm) = Some (u', mm') /\ Inv u' /\ mgood anyZ Z.ltb mm' /\
    forall k, In k (m_keys mm') <-> In k (m_keys mm) \/ exists x, In x xs /\ rep x = k.
Proof.
  intros F. induction xs as [|x xs IH]; intros u mm Hx HI G; cbn [ofoldl].
  - exists u, mm. split; [reflexivity|]. split; [exact HI|]. split; [exact G|]. intros k. split; [auto|]. intros [H|(x & [] & _)]; exact H.
  - destruct (F u x HI (Hx x ltac:(left; reflexivity))) as (u1 & E1 & I1). unfold add_root. cbn [fst snd]. rewrite E1. cbn [fst snd].
    pose proof (map_fetch_good anyZ Z.ltb zltb_swo mm (rep x) (-1) G I) as MF. cbv zeta in MF. destruct MF as [G1 _].
    destruct (IH u1 (fst (map_fetch Z.ltb mm (rep x) (-1)))) as (u' & mm' & E' & I' & G' & K'); auto; [intros y Hy; apply Hx; right; exact Hy|].
    exists u', mm'. split; [exact E'|]. split; [exact I'|]. split; [exact G'|]. intros k. rewrite K', fetch_keys.
    rewrite (PairMap.In_set_insert Z.ltb zltb_swo zeqv_eq) by (apply (mg_keys _ _ _ G)).
    split; [intros [[->|H]|(y & Hy & E)]|intros [H|(y & [->|Hy] & E)]]; auto.
    + right. exists x. split; [left; reflexivity|reflexivity].
    + right. exists y. split; [right; exact Hy|exact E].
    + right. exists y. auto.
Qed.

Lemma number_roots_ok (mm : smap Z Z) : length (m_entries mm) = length (m_keys mm) ->
  m_keys (number_roots mm) = m_keys mm /\
  forall i, (i < length (m_keys mm))%nat -> exists k, nth_error (m_entries (number_roots mm)) i = Some (k, Z.of_nat i).
Proof.
  intros Le. unfold number_roots.
  assert (G : forall k a (mm' : smap Z Z), (a + k <= length (m_entries mm'))%nat ->
    let r := fold_left (fun m i => map_write m i (Z.of_nat i)) (seq a k) mm' in
    m_keys r = m_keys mm' /\ length (m_entries r) = length (m_entries mm') /\
    (forall i, (i < a)%nat -> nth_error (m_entries r) i = nth_error (m_entries mm') i) /\
    (forall i, (a <= i < a + k)%nat -> exists k, nth_error (m_entries r) i = Some (k, Z.of_nat i))).
  { induction k as [|k IH]; intros a mm' Hl; cbn [seq fold_left].
    - cbv zeta. split; [reflexivity|]. split; [reflexivity|]. split; [reflexivity|]. intros; lia.
    - destruct (nth_error (m_entries mm') a) as [[ka va]|] eqn:Ea; [|apply nth_error_None in Ea; lia].
      assert (W : m_keys (map_write mm' a (Z.of_nat a)) = m_keys mm' /\ length (m_entries (map_write mm' a (Z.of_nat a))) = length (m_entries mm') /\
        (forall i, i <> a -> nth_error (m_entries (map_write mm' a (Z.of_nat a))) i = nth_error (m_entries mm') i) /\
        nth_error (m_entries (map_write mm' a (Z.of_nat a))) a = Some (ka, Z.of_nat a)).
      { unfold map_write. rewrite Ea. cbn [m_keys m_entries]. pose proof Ea as Ea2. apply nth_error_split in Ea2. destruct Ea2 as (l1 & l2 & -> & <-).
        unfold replace_at. rewrite firstn_app, Nat.sub_diag, firstn_all. cbn [firstn]. rewrite app_nil_r.
        rewrite skipn_app, Nat.sub_diag, skipn_all. cbn [skipn app].
        split; [reflexivity|]. split; [rewrite !app_length; reflexivity|]. split.
        - intros i Hi. destruct (lt_dec i (length l1)) as [Lt|Ge].
          + rewrite !nth_error_app1 by exact Lt. reflexivity.
          + rewrite !nth_error_app2 by lia. destruct (i - length l1)%nat eqn:X; [lia|reflexivity].
        - rewrite nth_error_app2 by lia. rewrite Nat.sub_diag. reflexivity. }
      destruct W as (W1 & W2 & W3 & W4).
      destruct (IH (S a) (map_write mm' a (Z.of_nat a))) as (A & B & C & D); [lia|]. cbv zeta.
      split; [congruence|]. split; [congruence|]. split.
      + intros i Hi. rewrite C by lia. apply W3. lia.
      + intros i Hi. destruct (Nat.eq_dec i a) as [->|Ne]; [rewrite C by lia; eauto|]. apply D. lia. }
  destruct (G (length (m_keys mm)) 0%nat mm) as (A & _ & _ & D); [lia|]. split; [exact A|]. intros i Hi. apply D. lia.
Qed.

Lemma in_seq_len (l : list Z) n : NoDup l -> (forall x, In x l -> 0 <= x < n) -> Z.of_nat (length l) <= Z.max 0 n.
Proof.
  intros ND H. assert (length l <= length (zseq 0 (Z.to_nat n)))%nat; [|rewrite zseq_length in *; lia].
  apply NoDup_incl_length; [exact ND|]. intros x Hx. apply zseq_In. specialize (H x Hx). lia.
Qed.

Theorem local_components_ok : exists num data f, local_components nd loc e mask = Some (num, data) /\
  reads e data f /\ (forall p, pt_in loc p -> 0 <= f p < num) /\
  (forall p q, pt_in loc p -> pt_in loc q -> (f p = f q <-> lconn p q)).
Proof.
  destruct label_all_ok as (s & E1 & f & R & N0 & J1 & _ & J3 & U). unfold local_components. rewrite E1.
  assert (Pos : forall p, pt_in loc p -> 0 <= f p < l_num s) by auto.
  destruct (join_all_points (l_lab s) f (l_num s) R Pos (l_sets s) U) as (u & ps & E2 & U2 & Hps). rewrite E2.
  destruct (relabel_finds u _ U2) as (u' & rep & Inv & E3 & I3 & El & F & Fi & C & _). rewrite E3.
  assert (EL : forall x, In x (uf_el u) <-> 0 <= x < l_num s).
  { intros x. rewrite (ui_mem _ _ U2), inserted_app, ins_ops_inserted, zseq_In. split; [|intros; left; lia].
    intros [H|H]; [lia|]. unfold inserted, un_ops in H. apply in_map_iff in H. destruct H as (y & H & _). discriminate. }
  destruct (add_roots_ok rep Inv (uf_el u) F (uf_el u') u' map_empty) as (u4 & mm & E4 & I4 & G4 & K4); auto.
  { intros x. rewrite (El u' I3). auto. }
  { split; [split; constructor|constructor]. }
  rewrite E4. cbn [fst snd].
  assert (Le : length (m_entries mm) = length (m_keys mm)) by (symmetry; eapply Forall2_len; apply (mg_al _ _ _ G4)).
  destruct (number_roots_ok mm Le) as [NK NE]. set (roots := number_roots mm) in *.
  assert (Key : forall x, In x (uf_el u) -> exists i, nth_error (m_keys mm) i = Some (rep x) /\ map_at Z.ltb roots (rep x) = Some (Z.of_nat i)).
  { intros x Hx. assert (Hk : In (rep x) (m_keys mm)) by (apply K4; right; exists x; rewrite (El u' I3); auto).
    destruct (zfind_in (m_keys mm) (rep x) (mg_keys _ _ _ G4) Hk) as [A B].
    assert (SL : set_find Z.ltb (m_keys mm) (rep x) = set_lower Z.ltb (m_keys mm) (rep x)).
    { unfold set_find in *. destruct (nth_error (m_keys mm) (set_lower Z.ltb (m_keys mm) (rep x))) as [y|]; [|reflexivity].
      destruct (rep x <? y); [lia|reflexivity]. }
    rewrite SL in A, B. exists (set_lower Z.ltb (m_keys mm) (rep x)). split; [exact A|]. unfold map_at. rewrite NK.
    destruct (NE _ B) as [k Hk']. rewrite Hk'. reflexivity. }
  set (h := fun p => match map_at Z.ltb roots (rep (f p)) with Some y => y | None => 0 end).
  destruct (point_loop e (renumber_point e roots) (fun _ a => Inv a) f h (RangeModel.foreach_col loc)) with
    (todo := RangeModel.foreach_col loc) (done := @nil (tup Z)) (a := u4) (lab := l_lab s) (g := f) as (a' & lab' & E5 & _ & R5); auto.
  { intros done p a lab g Hp Ia Rg Gp. apply foreach_col_In in Hp. unfold renumber_point. cbn [fst snd].
    rewrite (reads_fread e lab g p Rg (Sub p Hp)), Gp. assert (Hx : In (f p) (uf_el u)) by (apply EL, Pos, Hp).
    destruct (F a (f p) Ia Hx) as (a1 & Ef & Ia1). rewrite Ef. cbn [fst snd]. destruct (Key _ Hx) as (i & _ & Hat).
    unfold h. rewrite Hat. destruct (reads_fwrite e lab g p (Z.of_nat i) Rg (Sub p Hp)) as (lab1 & W & R1). rewrite W. exists a1, lab1. auto. }
  { apply foreach_col_NoDup. }
  rewrite E5. cbn [snd]. exists (l_num s), lab', (fun q => if inb (RangeModel.foreach_col loc) q then h q else f q).
  assert (HB : forall p, pt_in loc p -> inb (RangeModel.foreach_col loc) p = true) by (intros p Hp; apply inb_spec, foreach_col_In, Hp).
  split; [reflexivity|]. split; [exact R5|]. split.
  - intros p Hp. rewrite (HB p Hp). unfold h. destruct (Key (f p)) as (i & Hi & Hat); [apply EL, Pos, Hp|]. rewrite Hat.
    assert (i < length (m_keys mm))%nat by (apply nth_error_Some; congruence).
    assert (Z.of_nat (length (m_keys mm)) <= Z.max 0 (l_num s)); [|lia].
    apply in_seq_len; [apply (PairMap.sok_NoDup Z.ltb zltb_swo), (mg_keys _ _ _ G4)|]. intros x Hx. apply K4 in Hx. destruct Hx as [[]|(y & Hy & <-)].
    apply EL, Fi. rewrite (El u' I3) in Hy. exact Hy.
  - intros p q Hp Hq. rewrite (HB p Hp), (HB q Hq). unfold h.
    assert (Xp : In (f p) (uf_el u)) by (apply EL, Pos, Hp). assert (Xq : In (f q) (uf_el u)) by (apply EL, Pos, Hq).
    destruct (Key _ Xp) as (i & Hi & Hat). destruct (Key _ Xq) as (j & Hj & Hat'). rewrite Hat, Hat'.
    rewrite <- (un_connected f (l_num s) Pos (fun a b Ha Hb => J3 a b Ha Hb Ha Hb) ps p q Hps Hp Hq). rewrite <- (C _ _ Xp Xq). split.
    + intros X. apply Nat2Z.inj in X. subst j. congruence.
    + intros X. rewrite X in Hat, Hi. congruence.
Qed.
End Local.
