(** Interpolation with threads. *)
From Coq Require Import List ZArith Bool Lia Arith.
From Verif Require Import TupleModel RangeModel Base RangeProof CartModel CartProof IndexerModel IndexerProof ArrayModel ArrayProof HashModel HashProof SendModel CollectModel CollectSpec CollectProof CollectLaws ThrModel ThrSpec ThrGen.
Import ListNotations.
Local Open Scope Z_scope.

Section Cell.
Context {V D : Type}.
Variables (lay : layout) (c : cart) (cnt : Z) (lr fr : range) (field : list (list V)) (cm : cmap) (bufs : list (list V)).
Variables (mul : D -> D -> D) (acc : V -> D -> V -> V) (zero : V) (junk : D) (coefs : nat -> Z -> Z -> option D).
Variables (alloc ncells : Z).
Notation ok := (valid cnt cm alloc ncells).
Notation maxv := (cm_max cm).
Hypothesis Hcnt : 0 <= cnt.
Hypothesis Hmaxv : 0 <= maxv.
Variable t : Z.
Hypothesis Ht : 0 <= t < alloc.

(** The buffer of the thread *)
Definition sim (m : mem V D) (vv : list V) : Prop :=
  Z.of_nat (length vv) = cnt * maxv /\ forall k v, 0 <= k < cnt -> 0 <= v < maxv -> exists x, buf_read cnt maxv vv k v = Some x /\ m (LVal t k v) = WV x.
Definition same_but (P : loc -> Prop) (m m' : mem V D) : Prop := forall l, ~ P l -> m' l = m l.
Lemma same_trans P m m' m'' : same_but P m m' -> same_but P m' m'' -> same_but P m m''.
Proof. intros A B l H. rewrite (B l H). auto. Qed.
Lemma same_refl P m : same_but P m m.
Proof. intros l _. reflexivity. Qed.
Definition is_val (l : loc) : Prop := match l with LVal u _ _ => u = t | _ => False end.
Definition is_info (l : loc) : Prop := match l with LCi _ _ | LFi _ _ => True | _ => False end.
Definition is_co (l : loc) : Prop := match l with LCo u _ => u = t | _ => False end.
Definition is_out (i : Z) (l : loc) : Prop := match l with LOut _ j => j = i | _ => False end.

Lemma ok_val k v : 0 <= k < cnt -> 0 <= v < maxv -> ok (LVal t k v) = true.
Proof. intros. cbn. lia. Qed.
Lemma ok_ci i : 0 <= i < maxv -> ok (LCi t i) = true.
Proof. intros. cbn. lia. Qed.
Lemma ok_fi i : 0 <= i < maxv -> ok (LFi t i) = true.
Proof. intros. cbn. lia. Qed.
Lemma ok_co i : 0 <= i < maxv -> ok (LCo t i) = true.
Proof. intros. cbn. lia. Qed.
Lemma ok_out k i : 0 <= k < cnt -> 0 <= i < ncells -> ok (LOut k i) = true.
Proof. intros. cbn. lia. Qed.

Lemma buf_write_sim m vv k v x vv' : sim m vv -> 0 <= k < cnt -> buf_write cnt maxv vv k v x = Some vv' ->
  0 <= v < maxv /\ sim (mset m (LVal t k v) (WV x)) vv'.
Proof.
  intros [Lv S] Hk. unfold buf_write. destruct (_ && _) eqn:C; [|discriminate]. assert (Hv : 0 <= v < maxv) by lia. intros W. split; [exact Hv|].
  assert (B : 0 <= k * maxv + v < cnt * maxv) by nia.
  destruct (vwrite_spec vv (k * maxv + v) x ltac:(lia)) as (w & Ew & Lw & Rw). rewrite Ew in W. injection W as <-.
  split; [lia|]. intros k' v' Hk' Hv'. unfold buf_read. replace ((0 <=? k') && (k' <? cnt) && (0 <=? v') && (v' <? maxv)) with true by lia. rewrite Rw.
  destruct (Z.eqb_spec (k' * maxv + v') (k * maxv + v)) as [Q|Q].
  - assert (k' = k /\ v' = v) as [-> ->] by (assert (k' = k) by nia; subst; split; lia). exists x. split; [reflexivity|apply mset_same].
  - destruct (S k' v' Hk' Hv') as (y & Ey & My). unfold buf_read in Ey. replace ((0 <=? k') && (k' <? cnt) && (0 <=? v') && (v' <? maxv)) with true in Ey by lia. exists y. split; [exact Ey|].
    rewrite mset_other; [exact My|]. intros E. injection E as -> ->. apply Q. reflexivity.
Qed.

Lemma put_step l w (m : mem V D) : ok l = true -> step1 ok m (put l w) = Some (mset m l w).
Proof. intros H. unfold step1. cbn. now rewrite H. Qed.

(** Local vertices: indices *)
Lemma info_exec ps : (forall x, In x ps -> 0 <= fst x < maxv) -> NoDup (map fst ps) -> forall m : mem V D,
  exists m', exec ok (flat_map (fun x => [put (LCi t (fst x)) (WZ (fst (snd x))); put (LFi t (fst x)) (WZ (snd (snd x)))]) ps) m = Some m' /\
    same_but (fun l => exists i, In i (map fst ps) /\ (l = LCi t i \/ l = LFi t i)) m m' /\
    forall x, In x ps -> m' (LCi t (fst x)) = WZ (fst (snd x)) /\ m' (LFi t (fst x)) = WZ (snd (snd x)).
Proof.
  induction ps as [|[i [a b]] ps IH]; intros Hb ND m; cbn [flat_map].
  - exists m. split; [reflexivity|]. split; [apply same_refl|]. intros x [].
  - inversion ND as [|? ? Ni ND']; subst. pose proof (Hb _ (in_eq _ _)) as Hi. cbn [fst] in Hi.
    destruct (IH (fun x I => Hb x (in_cons _ _ _ I)) ND' (mset (mset m (LCi t i) (WZ a)) (LFi t i) (WZ b))) as (m' & E & S & R). exists m'. split.
    + rewrite exec_app. unfold exec at 1. cbn [ofoldl fst snd]. rewrite put_step by (apply ok_ci; exact Hi). rewrite put_step by (apply ok_fi; exact Hi). exact E.
    + split.
      * intros l Hl. rewrite (S l).
        -- rewrite !mset_other; [reflexivity| |]; intros <-; apply Hl; exists i; (split; [now left|auto]).
        -- intros (j & Ij & Q). apply Hl. exists j. split; [now right|exact Q].
      * intros x [<-|Ix]; [|apply R, Ix]. cbn [fst snd]. cbn [fst] in Ni. rewrite !S.
        -- rewrite mset_same. rewrite mset_other by discriminate. rewrite mset_same. auto.
        -- intros (j & Ij & [Q|Q]); [discriminate|]. injection Q as ->. contradiction.
        -- intros (j & Ij & [Q|Q]); [|discriminate]. injection Q as ->. contradiction.
Qed.

(** Their values *)
Lemma fill_exec k ps : 0 <= k < cnt -> (forall x, In x ps -> 0 <= fst x < maxv) -> forall m vv vv', sim m vv ->
  (forall x, In x ps -> m (LCi t (fst x)) = WZ (fst (snd x)) /\ m (LFi t (fst x)) = WZ (snd (snd x))) ->
  ofoldl (fun vv x => let! v := vals_at field k (snd x) in buf_write cnt maxv vv k (fst x) v) (map snd ps) vv = Some vv' ->
  exists m', exec ok (map (fill field t k) (map fst ps)) m = Some m' /\ same_but is_val m m' /\ sim m' vv'.
Proof.
  intros Hk. induction ps as [|[i [a b]] ps IH]; intros Hb m vv vv' S R; cbn [map ofoldl fst snd].
  - intros [= <-]. exists m. split; [reflexivity|]. split; [apply same_refl|exact S].
  - destruct (vals_at field k b) as [v|] eqn:Ev; [|discriminate]. destruct (buf_write cnt maxv vv k a v) as [v1|] eqn:Ew; [|discriminate]. intros F.
    destruct (buf_write_sim m vv k a v v1 S Hk Ew) as [Ha S1]. pose proof (Hb _ (in_eq _ _)) as Hi. cbn [fst] in Hi. destruct (R _ (in_eq _ _)) as [R1 R2]. cbn [fst snd] in R1, R2.
    destruct (IH (fun x I => Hb x (in_cons _ _ _ I)) (mset m (LVal t k a) (WV v)) v1 vv' S1) as (m' & E & Sm & Si); [|exact F|].
    { intros x Ix. rewrite !mset_other by discriminate. apply R. now right. }
    exists m'. split.
    + unfold exec. cbn [ofoldl]. unfold step1. cbn [fill i_loads i_store forallb map]. rewrite ok_ci, ok_fi by exact Hi. cbn [andb]. rewrite R1, R2, Ev. rewrite ok_val by assumption. exact E.
    + split; [|exact Si]. eapply same_trans; [|exact Sm]. intros l Hl. apply mset_other. intros <-. apply Hl. reflexivity.
Qed.
Lemma local_exec ps : (forall x, In x ps -> 0 <= fst x < maxv) -> forall ks, (forall k, In k ks -> 0 <= k < cnt) -> forall m vv vv', sim m vv ->
  (forall x, In x ps -> m (LCi t (fst x)) = WZ (fst (snd x)) /\ m (LFi t (fst x)) = WZ (snd (snd x))) ->
  ofoldl (fun vv k => ofoldl (fun vv x => let! v := vals_at field k (snd x) in buf_write cnt maxv vv k (fst x) v) (map snd ps) vv) ks vv = Some vv' ->
  exists m', exec ok (flat_map (fun k => map (fill field t k) (map fst ps)) ks) m = Some m' /\ same_but is_val m m' /\ sim m' vv'.
Proof.
  intros Hb. induction ks as [|k ks IH]; intros Hk m vv vv' S R; cbn [ofoldl flat_map].
  - intros [= <-]. exists m. split; [reflexivity|]. split; [apply same_refl|exact S].
  - destruct (ofoldl _ (map snd ps) vv) as [v1|] eqn:E1; [|discriminate]. intros F. destruct (fill_exec k ps (Hk k (in_eq _ _)) Hb m vv v1 S R E1) as (m1 & X1 & Y1 & Z1).
    destruct (IH (fun k I => Hk k (in_cons _ _ _ I)) m1 v1 vv' Z1) as (m2 & X2 & Y2 & Z2); [|exact F|].
    { intros x Ix. rewrite !Y1 by (intros []). apply R, Ix. }
    exists m2. split; [rewrite exec_app, X1; exact X2|]. split; [eapply same_trans; eauto|exact Z2].
Qed.

(** Received values *)
Lemma recv_exec x ks : (forall k, In k ks -> 0 <= k < cnt) -> forall m vv vv', sim m vv ->
  ofoldl (fun vv k => let! v := vread (cm_recvs cm) (fst (snd x)) in let! b := vread bufs (fst (snd x)) in let! w := buf_read cnt (v_num v) b k (snd (snd x)) in buf_write cnt maxv vv k (fst x) w) ks vv = Some vv' ->
  exists m', exec ok (map (fun k => match from_recv cnt cm bufs x k with Some w => put (LVal t k (fst x)) (WV w) | None => fail end) ks) m = Some m' /\ same_but is_val m m' /\ sim m' vv'.
Proof.
  induction ks as [|k ks IH]; intros Hk m vv vv' S; cbn [ofoldl map].
  - intros [= <-]. exists m. split; [reflexivity|]. split; [apply same_refl|exact S].
  - assert (Fr : (let! v := vread (cm_recvs cm) (fst (snd x)) in let! b := vread bufs (fst (snd x)) in let! w := buf_read cnt (v_num v) b k (snd (snd x)) in buf_write cnt maxv vv k (fst x) w)
       = (let! w := from_recv cnt cm bufs x k in buf_write cnt maxv vv k (fst x) w)).
    { unfold from_recv. destruct (vread (cm_recvs cm) _); [|reflexivity]. destruct (vread bufs _); reflexivity. }
    rewrite Fr. destruct (from_recv cnt cm bufs x k) as [w|]; [|discriminate]. destruct (buf_write cnt maxv vv k (fst x) w) as [v1|] eqn:Ew; [|discriminate]. intros F.
    destruct (buf_write_sim m vv k (fst x) w v1 S (Hk k (in_eq _ _)) Ew) as [Ha S1]. destruct (IH (fun k I => Hk k (in_cons _ _ _ I)) _ v1 vv' S1 F) as (m' & E & Sm & Si). exists m'. split.
    + unfold exec. cbn [ofoldl]. rewrite put_step by (apply ok_val; [apply Hk; now left|exact Ha]). exact E.
    + split; [|exact Si]. eapply same_trans; [|exact Sm]. intros l Hl. apply mset_other. intros <-. apply Hl. reflexivity.
Qed.
Lemma remote_exec rem : forall m vv vv', sim m vv ->
  ofoldl (fun vv x => ofoldl (fun vv k => let! v := vread (cm_recvs cm) (fst (snd x)) in let! b := vread bufs (fst (snd x)) in let! w := buf_read cnt (v_num v) b k (snd (snd x)) in buf_write cnt maxv vv k (fst x) w) (zseq 0 (Z.to_nat cnt)) vv) rem vv = Some vv' ->
  exists m', exec ok (prog_remote cnt cm bufs t rem) m = Some m' /\ same_but is_val m m' /\ sim m' vv'.
Proof.
  induction rem as [|x rem IH]; intros m vv vv' S; cbn [ofoldl].
  - intros [= <-]. exists m. split; [reflexivity|]. split; [apply same_refl|exact S].
  - destruct (ofoldl _ (zseq 0 (Z.to_nat cnt)) vv) as [v1|] eqn:E1; [|discriminate]. intros F.
    destruct (recv_exec x (zseq 0 (Z.to_nat cnt)) (fun k Hk => proj1 (kseq cnt k) Hk) m vv v1 S E1) as (m1 & X1 & Y1 & Z1). destruct (IH m1 v1 vv' Z1 F) as (m2 & X2 & Y2 & Z2).
    exists m2. split; [|split; [eapply same_trans; eauto|exact Z2]]. unfold prog_remote in *. cbn [flat_map]. rewrite exec_app. unfold counts at 1. rewrite X1. exact X2.
Qed.

(** Coefficients *)
Lemma coefs_exec i cell w : rcount cell <= maxv -> (forall p, pt_in cell p -> vertex_coef mul coefs i cell p = Some (w p)) ->
  forall l, (forall p, In p l -> pt_in cell p) -> forall m : mem V D,
  exists m', exec ok (map (fun p => match vertex_coef mul coefs i cell p with Some x => put (LCo t (rindex lay cell p)) (WD x) | None => fail end) l) m = Some m' /\ same_but is_co m m' /\
    forall p, pt_in cell p -> (In p l \/ m (LCo t (rindex lay cell p)) = WD (w p)) -> m' (LCo t (rindex lay cell p)) = WD (w p).
Proof.
  intros Hm Hw. induction l as [|q l IH]; intros Hl m; cbn [map].
  - exists m. split; [reflexivity|]. split; [apply same_refl|]. intros p _ [[]|H]; exact H.
  - pose proof (Hl q (in_eq _ _)) as Hq. pose proof (rindex_bounds lay cell q Hq) as B. destruct (IH (fun p I => Hl p (in_cons _ _ _ I)) (mset m (LCo t (rindex lay cell q)) (WD (w q)))) as (m' & E & S & R).
    exists m'. split.
    + rewrite (Hw q Hq). unfold exec. cbn [ofoldl]. rewrite put_step by (apply ok_co; lia). exact E.
    + split.
      * eapply same_trans; [|exact S]. intros l' Hl'. apply mset_other. intros <-. apply Hl'. reflexivity.
      * intros p Hp H. apply R; [exact Hp|]. destruct H as [[<-|Ip]|H]; [right; apply mset_same|now left|]. right.
        destruct (Z.eq_dec (rindex lay cell q) (rindex lay cell p)) as [Q|Q]; [|rewrite mset_other; [exact H|congruence]].
        apply rindex_inj in Q; auto. subst. apply mset_same.
Qed.

(** Sums *)
Lemma add_exec k i : 0 <= k < cnt -> 0 <= i < ncells -> forall ws vals a0 a (m : mem V D), length ws = length vals -> 0 <= a -> a + Z.of_nat (length vals) <= maxv ->
  m (LOut k i) = WV a0 ->
  (forall j w, nth_error ws j = Some w -> m (LCo t (a + Z.of_nat j)) = WD w) -> (forall j x, nth_error vals j = Some x -> m (LVal t k (a + Z.of_nat j)) = WV x) ->
  exists m', exec ok (map (add acc t k i) (zseq a (length vals))) m = Some m' /\ same_but (eq (LOut k i)) m m' /\
    m' (LOut k i) = WV (fold_left (fun a x => acc a (fst x) (snd x)) (combine ws vals) a0).
Proof.
  intros Hk Hi. induction ws as [|w ws IH]; intros [|x vals] a0 a m Lw Ha Hb Ho Hw Hv; try discriminate Lw.
  - exists m. split; [reflexivity|]. split; [apply same_refl|exact Ho].
  - cbn [length] in *. pose proof (Hw 0%nat w eq_refl) as W0. pose proof (Hv 0%nat x eq_refl) as V0. rewrite Z.add_0_r in W0, V0.
    destruct (IH vals (acc a0 w x) (a + 1) (mset m (LOut k i) (WV (acc a0 w x)))) as (m' & E & S & R).
    + lia.
    + lia.
    + lia.
    + apply mset_same.
    + intros j y Ej. rewrite mset_other by discriminate. replace (a + 1 + Z.of_nat j) with (a + Z.of_nat (Datatypes.S j)) by lia. apply (Hw (Datatypes.S j)), Ej.
    + intros j y Ej. rewrite mset_other by discriminate. replace (a + 1 + Z.of_nat j) with (a + Z.of_nat (Datatypes.S j)) by lia. apply (Hv (Datatypes.S j)), Ej.
    + exists m'. split.
      * cbn [zseq map]. unfold exec. cbn [ofoldl]. unfold step1. cbn [add i_loads i_store forallb map]. rewrite ok_out, ok_co, ok_val by (assumption || lia). cbn [andb]. rewrite Ho, W0, V0. rewrite ok_out by assumption. exact E.
      * split; [|cbn; exact R]. eapply same_trans; [|exact S]. intros l Hl. apply mset_other. exact Hl.
Qed.
Lemma sum_exec i nv ws (vals : Z -> list V) : 0 <= i < ncells -> Z.of_nat (length ws) = nv -> nv <= maxv -> forall ks, NoDup ks -> (forall k, In k ks -> 0 <= k < cnt /\ Z.of_nat (length (vals k)) = nv) -> forall m : mem V D,
  (forall j w, nth_error ws j = Some w -> m (LCo t (Z.of_nat j)) = WD w) -> (forall k j x, In k ks -> nth_error (vals k) j = Some x -> m (LVal t k (Z.of_nat j)) = WV x) ->
  exists m', exec ok (flat_map (fun k => put (LOut k i) (WV zero) :: map (add acc t k i) (zseq 0 (Z.to_nat nv))) ks) m = Some m' /\ same_but (fun l => exists k, In k ks /\ l = LOut k i) m m' /\
    forall k, In k ks -> m' (LOut k i) = WV (fold_left (fun a x => acc a (fst x) (snd x)) (combine ws (vals k)) zero).
Proof.
  intros Hi Lw Hn. induction ks as [|k ks IH]; intros ND Hk m Hw Hv; cbn [flat_map].
  - exists m. split; [reflexivity|]. split; [apply same_refl|]. intros k [].
  - inversion ND as [|? ? Nk ND']; subst. destruct (Hk k (in_eq _ _)) as [Bk Lk].
    destruct (add_exec k i Bk Hi ws (vals k) zero 0 (mset m (LOut k i) (WV zero))) as (m1 & E1 & S1 & R1).
    + lia.
    + lia.
    + lia.
    + apply mset_same.
    + intros j w Ej. rewrite mset_other by discriminate. rewrite Z.add_0_l. apply Hw, Ej.
    + intros j w Ej. rewrite mset_other by discriminate. rewrite Z.add_0_l. apply (Hv k j w (in_eq _ _) Ej).
    + assert (S1' : same_but (eq (LOut k i)) m m1). { eapply same_trans; [|exact S1]. intros l Hl. now apply mset_other. }
      destruct (IH ND' (fun k I => Hk k (in_cons _ _ _ I)) m1) as (m2 & E2 & S2 & R2).
      * intros j w Ej. rewrite S1' by discriminate. apply Hw, Ej.
      * intros k' j x Ik Ej. rewrite S1' by discriminate. apply (Hv k' j x (in_cons _ _ _ Ik) Ej).
      * exists m2. split; [|split].
        -- rewrite exec_app. unfold exec at 1. cbn [ofoldl]. rewrite put_step by (apply ok_out; auto). change (ofoldl (step1 ok)) with (exec ok) || idtac.
           assert (Q : Z.to_nat (Z.of_nat (length ws)) = length (vals k)) by lia. rewrite Q in *. unfold exec in E1. rewrite E1. exact E2.
        -- intros l Hl. rewrite S2 by (intros (k' & Ik & ->); apply Hl; exists k'; split; [now right|reflexivity]). apply S1'. intros <-. apply Hl. exists k. split; [now left|reflexivity].
        -- intros k' [<-|Ik]; [|apply R2, Ik]. rewrite S2; [exact R1|]. intros (k' & Ik & Q). injection Q as <-. contradiction.
Qed.
End Cell.

(** ** A cell *)
Lemma nodup_zseq n : forall a, NoDup (zseq a n).
Proof.
  induction n as [|n IH]; intros a; [constructor|]. cbn. constructor; [|apply IH]. intros H.
  assert (X : forall n b x, In x (zseq b n) -> b <= x) by (clear; induction n as [|n IH]; intros b x; [intros []|]; intros [<-|H]; [lia|apply IH in H; lia]). apply X in H. lia.
Qed.
Lemma combine_fst {A B} (l : list A) : forall (l' : list B), length l = length l' -> map fst (combine l l') = l /\ map snd (combine l l') = l'.
Proof. induction l as [|a l IH]; intros [|b l'] H; try discriminate H; [auto|]. cbn. destruct (IH l' ltac:(cbn in H; lia)) as [-> ->]. auto. Qed.
Lemma zseq_length n : forall a, length (zseq a n) = n.
Proof. induction n as [|n IH]; intros a; cbn; [reflexivity|now rewrite IH]. Qed.

Section One.
Context {V D : Type}.
Variables (lay : layout) (c : cart) (cnt : Z) (lr fr : range) (field : list (list V)) (cm : cmap) (bufs : list (list V)).
Variables (mul : D -> D -> D) (acc : V -> D -> V -> V) (zero : V) (junk : D) (coefs : nat -> Z -> Z -> option D).
Variables (alloc ncells : Z).
Notation ok := (valid cnt cm alloc ncells).
Notation maxv := (cm_max cm).
Notation red := (red_interp mul acc zero junk coefs lay).
Hypothesis Hcnt : 0 <= cnt.
Hypothesis Hmaxv : 0 <= maxv.

Definition vtyped (t : Z) (m : mem V D) : Prop := forall k v, 0 <= k < cnt -> 0 <= v < maxv -> exists x, m (LVal t k v) = WV x.
Lemma sim_some t m : vtyped t m -> exists vv, sim cnt cm t m vv.
Proof.
  intros Hm. set (f j := match m (LVal t (j / maxv) (j mod maxv)) with WV x => x | _ => zero end). exists (map f (zseq 0 (Z.to_nat (cnt * maxv)))). split.
  - rewrite map_length, zseq_length. nia.
  - intros k v Hk Hv. destruct (Hm k v Hk Hv) as [x Hx]. exists x. split; [|exact Hx]. unfold buf_read. replace ((0 <=? k) && (k <? cnt) && (0 <=? v) && (v <? maxv)) with true by lia.
    assert (B : 0 <= k * maxv + v < cnt * maxv) by nia. unfold vread. destruct (Z.ltb_spec (k * maxv + v) 0); [lia|]. rewrite nth_error_map, zseq_nth by lia. cbn [option_map]. f_equal. unfold f.
    rewrite Z.add_0_l, Z2Nat.id by lia. replace ((k * maxv + v) / maxv) with k by (apply (Z.div_unique _ _ _ v); lia). replace ((k * maxv + v) mod maxv) with v by (apply (Z.mod_unique _ _ k); lia). now rewrite Hx.
Qed.

Lemma info_length cell info : local_cell_info lay c lr fr cell = Some info -> Z.of_nat (length info) <= rcount cell.
Proof.
  unfold local_cell_info. rewrite <- foreach_col_length. destruct (away c cell).
  - intros [= <-]. rewrite map_length, foreach_intersect. pose proof (filter_lengths (rcontains lr) (foreach_col cell)). lia.
  - destruct (adjusted c cell) as [vs|]; [|discriminate]. intros [= <-]. rewrite map_length.
    match goal with |- Z.of_nat (length (filter ?p ?l)) <= _ => pose proof (filter_lengths p l) end. rewrite combine_length in H. lia.
Qed.

Lemma cell_exec t i cell rem row m : 0 <= t < alloc -> 0 <= i < ncells -> rcount cell <= maxv ->
  (forall p, In p (RangeModel.foreach_col cell) -> vertex_coef mul coefs i cell p <> None) ->
  cell_result lay c cnt red lr fr field cm bufs (i, (cell, rem)) row -> vtyped t m ->
  exists m', exec ok (prog_cell lay c cnt lr fr field cm bufs mul acc zero coefs t (i, (cell, rem))) m = Some m' /\ vtyped t m' /\
    same_but (fun l => match l with LCi u _ | LFi u _ | LVal u _ _ | LCo u _ => u = t | LOut _ j => j = i | LNum => False end) m m' /\
    forall k, 0 <= k < cnt -> exists x, vread row k = Some x /\ m' (LOut k i) = WV x.
Proof.
  intros Ht Hi Hmx Hco Hres Hm. destruct (sim_some t m Hm) as [vv Sv]. destruct (Hres vv [] (proj1 Sv)) as (vv' & Ec & _). unfold collect_cell in Ec. cbn [fst snd app] in Ec.
  unfold assemble in Ec. unfold prog_cell. cbn [fst snd]. destruct (local_cell_info lay c lr fr cell) as [info|] eqn:Ei; [|discriminate]. pose proof (info_length cell info Ei) as Li.
  set (ps := combine (zseq 0 (length info)) info). destruct (combine_fst (zseq 0 (length info)) info (zseq_length _ _)) as [Pf Psn]. fold ps in Pf, Psn.
  assert (Bp : forall x, In x ps -> 0 <= fst x < maxv).
  { intros x Ix. apply (in_map fst) in Ix. rewrite Pf in Ix. replace (length info) with (Z.to_nat (Z.of_nat (length info))) in Ix by lia. apply kseq in Ix. lia. }
  destruct (ofoldl _ (zseq 0 (Z.to_nat cnt)) vv) as [v1|] eqn:E1; [|discriminate]. destruct (ofoldl _ rem v1) as [v2|] eqn:E2; [|discriminate].
  destruct (omap _ (zseq 0 (Z.to_nat cnt))) as [out|] eqn:E3 in Ec; [|discriminate]. injection Ec as Ev Eo. subst v2 out.
  (* indices *)
  destruct (info_exec cnt cm mul acc zero junk coefs alloc ncells t Ht ps Bp ltac:(rewrite Pf; apply nodup_zseq) m) as (m1 & X1 & Y1 & Z1).
  assert (S1 : sim cnt cm t m1 vv). { split; [apply Sv|]. intros k v Hk Hv. rewrite Y1 by (intros (j & _ & [Q|Q]); discriminate). apply Sv; auto. }
  (* local values *)
  rewrite <- Psn in E1. destruct (local_exec cnt field cm mul acc zero junk coefs alloc ncells Hcnt Hmaxv t Ht ps Bp (zseq 0 (Z.to_nat cnt)) (fun k Hk => proj1 (kseq cnt k) Hk) m1 vv v1 S1 Z1 E1) as (m2 & X2 & Y2 & Z2).
  (* received values *)
  destruct (remote_exec cnt cm bufs mul acc zero junk coefs alloc ncells Hcnt Hmaxv t Ht rem m2 v1 vv' Z2 E2) as (m3 & X3 & Y3 & Z3).
  (* coefficients *)
  set (w p := match vertex_coef mul coefs i cell p with Some x => x | None => junk end).
  assert (Hw : forall p, pt_in cell p -> vertex_coef mul coefs i cell p = Some (w p)).
  { intros p Hp. unfold w. specialize (Hco p (proj2 (foreach_col_In cell p) Hp)). destruct (vertex_coef mul coefs i cell p); [reflexivity|contradiction]. }
  destruct (coefs_exec lay cnt cm mul acc zero junk coefs alloc ncells t Ht i cell w Hmx Hw (RangeModel.foreach_col cell) (fun p => proj1 (foreach_col_In cell p)) m3) as (m4 & X4 & Y4 & Z4).
  (* sums *)
  assert (Rc : 0 <= rcount cell) by (rewrite <- foreach_col_length; lia).
  assert (RO : forall j x, nth_error (in_order lay cell) j = Some x -> rindex lay cell x = Z.of_nat j).
  { intros j x Ej. assert (Y : nth_error (map (rindex lay cell) (in_order lay cell)) j = Some (rindex lay cell x)) by (rewrite nth_error_map, Ej; reflexivity).
    assert (Hj : (j < length (in_order lay cell))%nat) by (apply nth_error_Some; congruence). pose proof (in_order_length lay cell). rewrite rindex_order, zseq_nth in Y by lia. injection Y as <-. lia. }
  set (vals k := match omap (buf_read cnt maxv vv' k) (zseq 0 (Z.to_nat (rcount cell))) with Some l => l | None => [] end).
  assert (Vk : forall k, 0 <= k < cnt -> exists x, omap (buf_read cnt maxv vv' k) (zseq 0 (Z.to_nat (rcount cell))) = Some (vals k) /\ red i cell (vals k) = Some x /\ vread row k = Some x).
  { intros k Hk. destruct (omap_nth _ _ _ (Z.to_nat k) k E3) as (x & Nx & Fx); [rewrite zseq_nth by lia; f_equal; lia|]. unfold vals. destruct (omap (buf_read cnt maxv vv' k) _) as [l|] eqn:El; [|discriminate]. cbn beta iota in Fx.
    exists x. split; [reflexivity|]. split; [exact Fx|]. unfold vread. destruct (Z.ltb_spec k 0); [lia|exact Nx]. }
  assert (Lk : forall k, 0 <= k < cnt -> Z.of_nat (length (vals k)) = rcount cell).
  { intros k Hk. destruct (Vk k Hk) as (x & E & _). rewrite (omap_length _ _ _ E), zseq_length. lia. }
  destruct (sum_exec cnt cm mul acc zero junk coefs alloc ncells t Ht i (rcount cell) (map w (in_order lay cell)) vals Hi ltac:(rewrite map_length; apply in_order_length) Hmx (zseq 0 (Z.to_nat cnt)) (nodup_zseq _ _)) with (m := m4) as (m5 & X5 & Y5 & Z5).
  { intros k Hk. apply kseq in Hk. auto. }
  { intros j x Ej. rewrite nth_error_map in Ej. destruct (nth_error (in_order lay cell) j) as [p|] eqn:Ep; [|discriminate]. injection Ej as <-. rewrite <- (RO j p Ep). pose proof (nth_error_In _ _ Ep) as Ip. apply in_order_In in Ip.
    apply Z4; [exact Ip|]. left. apply foreach_col_In, Ip. }
  { intros k j x Hk Ej. apply kseq in Hk. destruct (Vk k Hk) as (y & E & _). assert (Hj : (j < length (vals k))%nat) by (apply nth_error_Some; congruence). pose proof (Lk k Hk).
    rewrite Y4 by (intros []). destruct Z3 as [_ Z3]. destruct (Z3 k (Z.of_nat j) Hk ltac:(lia)) as (z & Rz & Mz). rewrite Mz. f_equal.
    destruct (omap_nth _ _ _ j (Z.of_nat j) E) as (z' & Nz & Fz); [rewrite zseq_nth by lia; f_equal; lia|]. congruence. }
  exists m5. split; [|split; [|split]].
  - rewrite exec_app. unfold prog_info. fold ps. rewrite X1. rewrite exec_app. unfold prog_local, counts. rewrite <- Pf. rewrite X2. rewrite exec_app, X3. rewrite exec_app. unfold prog_coefs. rewrite X4. exact X5.
  - assert (F5 : forall k v, m5 (LVal t k v) = m4 (LVal t k v)) by (intros k v; apply Y5; intros (k' & _ & Q); discriminate).
    intros k v Hk Hv. rewrite F5, Y4 by (intros []). destruct Z3 as [_ Z3]. destruct (Z3 k v Hk Hv) as (z & _ & Mz). eauto.
  - intros l Hl. rewrite Y5 by (intros (k & _ & ->); apply Hl; reflexivity). rewrite Y4 by (intros Q; destruct l; try destruct Q; apply Hl; reflexivity).
    rewrite Y3 by (intros Q; destruct l; try destruct Q; apply Hl; reflexivity). rewrite Y2 by (intros Q; destruct l; try destruct Q; apply Hl; reflexivity).
    apply Y1. intros (j & _ & [-> | ->]); apply Hl; reflexivity.
  - intros k Hk. destruct (Vk k Hk) as (x & E & Rx & Ro). exists x. split; [exact Ro|]. rewrite Z5 by (apply kseq; exact Hk). f_equal.
    rewrite (interp_ok mul acc zero junk coefs lay i cell w Hw) in Rx by (apply Lk; exact Hk). congruence.
Qed.
End One.

(** ** All threads *)

Section Main.
Context {V D : Type}.
Variables (lay : layout) (c : cart) (cnt : Z) (lr fr : range) (field : list (list V)) (cm : cmap) (bufs : list (list V)).
Variables (mul : D -> D -> D) (acc : V -> D -> V -> V) (zero : V) (junk : D) (coefs : nat -> Z -> Z -> option D).
Variables (alloc : Z).
Notation ncells := (Z.of_nat (length (cm_cells cm))).
Notation ok := (valid cnt cm alloc ncells).
Notation maxv := (cm_max cm).
Notation red := (red_interp mul acc zero junk coefs lay).
Notation result := (cell_result lay c cnt red lr fr field cm bufs).
Notation pcell := (prog_cell lay c cnt lr fr field cm bufs mul acc zero coefs).
Notation pthread := (prog_thread lay c cnt lr fr field cm bufs mul acc zero coefs).
Hypothesis Hcnt : 0 <= cnt.
Hypothesis Hmaxv : 0 <= maxv.
Hypothesis Hlen : length (cm_remote cm) = length (cm_cells cm).
Hypothesis Hmax : forall cell, In cell (cm_cells cm) -> rcount cell <= maxv.
Hypothesis Hco : has_coefs mul coefs (items cm).

Lemma items_nth j x : nth_error (items cm) j = Some x -> fst x = Z.of_nat j /\ In (fst (snd x)) (cm_cells cm).
Proof.
  intros E. assert (Lj : (j < length (items cm))%nat) by (apply nth_error_Some; congruence). unfold items in Lj. rewrite !combine_length, zseq_length in Lj.
  destruct (combine_fst (zseq 0 (length (cm_cells cm))) (combine (cm_cells cm) (cm_remote cm))) as [A B]; [rewrite zseq_length, combine_length; lia|]. fold (items cm) in A, B.
  destruct (combine_fst (cm_cells cm) (cm_remote cm)) as [A' B']; [lia|]. split.
  - assert (X : nth_error (map fst (items cm)) j = Some (fst x)) by (rewrite nth_error_map, E; reflexivity). rewrite A, zseq_nth in X by lia. injection X as <-. lia.
  - rewrite <- A', <- B, map_map. apply in_map_iff. exists x. split; [reflexivity|]. eapply nth_error_In; eauto.
Qed.
Lemma items_in x : In x (items cm) -> 0 <= fst x < ncells /\ In (fst (snd x)) (cm_cells cm).
Proof.
  intros H. apply In_nth_error in H. destruct H as [j E]. pose proof (items_nth j x E) as [A B]. split; [|exact B]. assert (Lj : (j < length (items cm))%nat) by (apply nth_error_Some; congruence). unfold items in Lj. rewrite !combine_length, zseq_length in Lj. lia.
Qed.
Lemma items_inj x y : In x (items cm) -> In y (items cm) -> fst x = fst y -> x = y.
Proof.
  intros Hx Hy E. apply In_nth_error in Hx. apply In_nth_error in Hy. destruct Hx as [i Ei]. destruct Hy as [j Ej]. destruct (items_nth i x Ei) as [A _]. destruct (items_nth j y Ej) as [B _]. assert (i = j) by lia. congruence.
Qed.

Lemma thread_exec t rowf xs : 0 <= t < alloc -> NoDup xs -> (forall x, In x xs -> In x (items cm) /\ result x (rowf (fst x))) -> forall m, vtyped cnt cm t m ->
  exists m', exec ok (pthread t xs) m = Some m' /\ vtyped cnt cm t m' /\
    same_but (fun l => match l with LCi u _ | LFi u _ | LVal u _ _ | LCo u _ => u = t | LOut _ j => In j (map fst xs) | LNum => False end) m m' /\
    forall x k, In x xs -> 0 <= k < cnt -> exists v, vread (rowf (fst x)) k = Some v /\ m' (LOut k (fst x)) = WV v.
Proof.
  intros Ht. induction xs as [|x xs IH]; intros ND Hx m Hm.
  - exists m. split; [reflexivity|]. split; [exact Hm|]. split; [apply same_refl|]. intros x k [].
  - inversion ND as [|? ? Nx ND']; subst. destruct (Hx x (in_eq _ _)) as [Ix Rx]. destruct (items_in x Ix) as [Bi Bc]. destruct x as [i [cell rem]]. cbn [fst snd] in *.
    destruct (cell_exec lay c cnt lr fr field cm bufs mul acc zero junk coefs alloc ncells Hcnt Hmaxv t i cell rem (rowf i) m Ht Bi (Hmax cell Bc)) as (m1 & E1 & T1 & S1 & R1); [|exact Rx|exact Hm|].
    { intros p Hp. apply (Hco (i, (cell, rem)) p Ix Hp). }
    destruct (IH ND' (fun x I => Hx x (in_cons _ _ _ I)) m1 T1) as (m2 & E2 & T2 & S2 & R2). exists m2. split; [|split; [exact T2|split]].
    + unfold prog_thread in *. cbn [flat_map]. rewrite exec_app, E1. exact E2.
    + intros l Hl. rewrite S2; [apply S1|]; intros Q; apply Hl; destruct l; cbn in *; auto.
    + intros y k [<-|Iy] Hk; [|apply R2; auto]. cbn [fst]. rewrite S2; [apply R1, Hk|]. intros Q. apply in_map_iff in Q. destruct Q as (y & Fy & Iy). apply Nx.
      rewrite <- (items_inj y (i, (cell, rem)) (proj1 (Hx y (in_cons _ _ _ Iy))) Ix Fy). exact Iy.
Qed.

Lemma seq_rows xs : (forall x, In x xs -> exists row, result x row) -> forall vv o, Z.of_nat (length vv) = cnt * maxv ->
  exists vv' rs, ofoldl (collect_cell lay c cnt red lr fr field cm bufs) xs (vv, o) = Some (vv', o ++ rs) /\ Forall2 result xs rs.
Proof.
  induction xs as [|x xs IH]; intros H vv o Lv.
  - exists vv, []. rewrite app_nil_r. split; [reflexivity|constructor].
  - destruct (H x (in_eq _ _)) as [row R]. destruct (R vv o Lv) as (v1 & E1 & L1). destruct (IH (fun y I => H y (in_cons _ _ _ I)) v1 (o ++ [row]) ltac:(lia)) as (v2 & rs & E2 & F2).
    exists v2, (row :: rs). cbn [ofoldl]. rewrite E1, E2, <- app_assoc. split; [reflexivity|]. now constructor.
Qed.

Lemma forall2_nth {A B} (P : A -> B -> Prop) l l' : Forall2 P l l' -> forall j a, nth_error l j = Some a -> exists b, nth_error l' j = Some b /\ P a b.
Proof. intros F. induction F as [|x y l l' Hxy F IH]; intros [|j] a; cbn; try discriminate; [intros [= <-]; eauto|apply IH]. Qed.

(** ** The instructions of a thread are its own *)
Definition own (work : nat -> list (Z * (range * list (Z * (Z * Z))))) (t : nat) (l : loc) : Prop :=
  match l with LCi u _ | LFi u _ | LVal u _ _ | LCo u _ => u = Z.of_nat t | LOut _ j => In j (map fst (work t)) | LNum => False end.
Lemma confined_thread work t i : In i (pthread (Z.of_nat t) (work t)) -> confined (own work) t i.
Proof.
  unfold prog_thread. intros H. apply in_flat_map in H. destruct H as (x & Ix & H). assert (Io : In (fst x) (map fst (work t))) by now apply in_map.
  assert (P : forall l (w : word V D), own work t l -> confined (own work) t (put l w)) by (intros l w Hl; split; [intros l' []|intros ws l' w' [= <- _]; exact Hl]).
  assert (F : confined (own work) t (@fail V D)) by (split; [intros l' []|discriminate]).
  unfold prog_cell in H. destruct (local_cell_info lay c lr fr (fst (snd x))) as [info|]; [|destruct H as [<-|[]]; exact F].
  apply in_app_or in H. destruct H as [H|H].
  { apply in_flat_map in H. destruct H as (y & _ & [<-|[<-|[]]]); apply P; reflexivity. }
  apply in_app_or in H. destruct H as [H|H].
  { apply in_flat_map in H. destruct H as (k & _ & H). apply in_map_iff in H. destruct H as (j & <- & _). split.
    - intros l [<-|[<-|[]]]; reflexivity.
    - cbn. intros ws l w. destruct ws as [|[ci| |] [|[fi| |] [|]]]; try discriminate. destruct (vals_at field k fi); [|discriminate]. intros [= <- _]. reflexivity. }
  apply in_app_or in H. destruct H as [H|H].
  { apply in_flat_map in H. destruct H as (y & _ & H). apply in_map_iff in H. destruct H as (k & <- & _). destruct (from_recv cnt cm bufs y k); [apply P; reflexivity|exact F]. }
  apply in_app_or in H. destruct H as [H|H].
  { apply in_map_iff in H. destruct H as (p & <- & _). destruct (vertex_coef mul coefs (fst x) (fst (snd x)) p); [apply P; reflexivity|exact F]. }
  apply in_flat_map in H. destruct H as (k & _ & [<-|H]); [apply P; exact Io|]. apply in_map_iff in H. destruct H as (v & <- & _). split.
  - intros l [<-|[<-|[<-|[]]]]; [exact Io|reflexivity|reflexivity].
  - cbn. intros ws l w. destruct ws as [|[|a|] [|[| |d] [|[|y|] [|]]]]; try discriminate. intros [= <- _]. exact Io.
Qed.

Theorem threads_same n work vv vv' rows m0 : Z.of_nat n <= alloc -> shared_out n (items cm) work -> typed m0 ->
  (forall x, In x (items cm) -> exists row, result x row) ->
  Z.of_nat (length vv) = cnt * maxv -> ofoldl (collect_cell lay c cnt red lr fr field cm bufs) (items cm) (vv, []) = Some (vv', rows) ->
  exists bound, forall ts r, truns ok n (start m0 (fun t => pthread (Z.of_nat t) (work t))) ts = Some r ->
    exists s, r = Some s /\ (length ts <= bound)%nat /\ ~ race n s /\ (finished n s \/ exists t, tstep ok n s t <> None) /\
    (finished n s -> forall k i, 0 <= k < cnt -> 0 <= i < ncells -> exists row v, vread rows i = Some row /\ vread row k = Some v /\ t_mem s (LOut k i) = WV v).
Proof.
  intros Hn (W1 & W2 & W3 & W4) Ht Hr Lv Es. destruct (seq_rows (items cm) Hr vv [] Lv) as (v2 & rs & E2 & F2). rewrite E2 in Es. cbn [app] in Es. injection Es as <- <-.
  set (rowf i := match vread rs i with Some row => row | None => [] end).
  assert (Hrow : forall x, In x (items cm) -> vread rs (fst x) = Some (rowf (fst x)) /\ result x (rowf (fst x))).
  { intros x Ix. apply In_nth_error in Ix. destruct Ix as [j Ej]. destruct (items_nth j x Ej) as [A _]. destruct (forall2_nth _ _ _ F2 j x Ej) as (b & Eb & Rb). unfold rowf. rewrite A. unfold vread. destruct (Z.ltb_spec (Z.of_nat j) 0); [lia|]. rewrite Nat2Z.id, Eb. auto. }
  assert (Hv : forall t, vtyped cnt cm t m0) by (intros t k v _ _; exact (Ht (LVal t k v))).
  assert (Hex : forall t, (t < n)%nat -> exists m', exec ok (pthread (Z.of_nat t) (work t)) m0 = Some m' /\
     forall x k, In x (work t) -> 0 <= k < cnt -> exists v, vread (rowf (fst x)) k = Some v /\ m' (LOut k (fst x)) = WV v).
  { intros t Hlt. destruct (thread_exec (Z.of_nat t) rowf (work t) ltac:(lia) (W3 t Hlt)) with (m := m0) as (m' & E & _ & _ & R); [|apply Hv|eauto].
    intros x Ix. pose proof (W2 t x Hlt Ix) as J. split; [exact J|]. apply Hrow, J. }
  destruct (threads_ok ok n (own work) (fun t => pthread (Z.of_nat t) (work t)) m0) as (bound & B).
  - intros t u l Hlt Hu. destruct l; cbn; try (intros; lia); try contradiction. intros A1 A2. apply in_map_iff in A1. apply in_map_iff in A2. destruct A1 as (x & Fx & Ix). destruct A2 as (y & Fy & Iy).
    assert (x = y) by (apply (items_inj x y (W2 t x Hlt Ix) (W2 u y Hu Iy)); congruence). subst y. eapply W4; eauto.
  - intros t i Hlt. apply confined_thread.
  - intros t Hlt E. destruct (Hex t Hlt) as (m' & E' & _). congruence.
  - exists bound. intros ts r R. destruct (B ts r R) as (s & -> & Lb & Nr & Pr & Fi). exists s. split; [reflexivity|]. split; [exact Lb|]. split; [exact Nr|]. split; [exact Pr|].
    intros F k i Hk Hi. assert (Li : (Z.to_nat i < length (items cm))%nat) by (unfold items; rewrite !combine_length, zseq_length; lia).
    destruct (nth_error (items cm) (Z.to_nat i)) as [x|] eqn:Ex; [|apply nth_error_None in Ex; lia]. destruct (items_nth _ x Ex) as [A _]. assert (Fx : fst x = i) by lia. pose proof (nth_error_In _ _ Ex) as Ix.
    destruct (W1 x Ix) as (t & Hlt & It). destruct (Hex t Hlt) as (m' & E' & R'). destruct (R' x k It Hk) as (v & Rv & Mv). destruct (Fi F t Hlt) as (mt & Et & Ag). assert (mt = m') by congruence. subst mt.
    destruct (Hrow x Ix) as [Rr _]. rewrite Fx in *. exists (rowf i), v. split; [exact Rr|]. split; [exact Rv|]. rewrite <- Mv. apply Ag. cbn. apply in_map_iff. eauto.
Qed.

(** With more threads than there were at construction: a thread without arrays that has a cell with a vertex. *)
Theorem threads_more n work m0 t x : (t < n)%nat -> alloc <= Z.of_nat t -> In x (work t) -> RangeModel.foreach_col (fst (snd x)) <> [] ->
  exists ts, truns ok n (start m0 (fun t => pthread (Z.of_nat t) (work t))) ts = Some None.
Proof.
  clear Hlen Hcnt Hmaxv Hmax Hco. intros Ht Ha Ix Hp. apply (solo ok n t Ht (pthread (Z.of_nat t) (work t))); [reflexivity|reflexivity|]. cbn [t_mem start].
  assert (F : forall m', step1 ok m' (@fail V D) = None) by reflexivity.
  assert (P : exists i, In i (pcell (Z.of_nat t) x) /\ forall m', step1 ok m' i = None).
  { unfold prog_cell. destruct (local_cell_info lay c lr fr (fst (snd x))) as [info|]; [|exists fail; split; [now left|exact F]].
    destruct (RangeModel.foreach_col (fst (snd x))) as [|p ps] eqn:Ep; [contradiction|].
    exists (match vertex_coef mul coefs (fst x) (fst (snd x)) p with Some w => put (LCo (Z.of_nat t) (rindex lay (fst (snd x)) p)) (WD w) | None => fail end). split.
    - do 3 (apply in_or_app; right). apply in_or_app. left. unfold prog_coefs. rewrite Ep. now left.
    - intros m'. destruct (vertex_coef mul coefs (fst x) (fst (snd x)) p); [|apply F]. unfold step1, put. cbn [i_loads i_store forallb map valid].
      destruct (Z.ltb_spec (Z.of_nat t) alloc); [lia|]. now rewrite andb_false_r. }
  destruct P as (i & Hi & Hb). apply (exec_bad ok _ i m0); [|exact Hb]. unfold prog_thread. apply in_flat_map. eauto.
Qed.
End Main.

(** GetThreadCount_ *)
Theorem count_race {V D} n (m : mem V D) : (2 <= n)%nat -> race n (start m (fun _ => prog_count (Z.of_nat n))).
Proof. intros H. exists 0%nat, 1%nat, LNum, true, true. repeat split; auto; lia. Qed.
