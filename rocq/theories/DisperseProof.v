(** Lemmas about dispersing. *)
From Coq Require Import List ZArith Bool Lia.
From Verif Require Import TupleModel RangeModel Base RangeProof IndexerModel ArrayModel ArrayProof HashModel HashProof.
From Verif Require Import SendModel SendSpec SendProof DisperseModel DisperseSpec.
Import ListNotations.
Local Open Scope Z_scope.

Section Disperse.
Context {V : Type}.
Variables (op : V -> V -> V) (cnt : Z) (lay : layout) (R : range).

Lemma disperse_point_ok pts packed fields ip p : 0 <= cnt -> shaped cnt (length pts) packed -> shaped cnt (Z.to_nat (rcount R)) fields ->
  vread pts ip = Some p -> pt_in R p ->
  exists fields', disperse_point op cnt lay R pts packed fields ip = Some fields' /\ shaped cnt (Z.to_nat (rcount R)) fields' /\
    forall c q, 0 <= c < cnt -> pt_in R q -> vals_at fields' c (rindex lay R q) =
      if teqb p q then (let! v := vals_at packed c ip in let! old := vals_at fields c (rindex lay R q) in Some (op old v))
      else vals_at fields c (rindex lay R q).
Proof.
  intros HC SP SF Hp Rp. unfold disperse_point. rewrite Hp. cbv zeta. pose proof (rindex_bounds lay R p Rp) as B.
  assert (P0 : 0 <= rcount R) by lia.
  destruct (ofoldl_split (fun fields c =>
    let! v := vals_at packed c ip in
    let! old := vals_at fields c (rindex lay R p) in
    let! row := vread fields c in
    let! row' := vwrite row (rindex lay R p) (op old v) in
    vwrite fields c row')
   (fun done f => shaped cnt (Z.to_nat (rcount R)) f /\ forall c i, 0 <= c < cnt -> vals_at f c i =
      if (i =? rindex lay R p) && existsb (Z.eqb c) done then (let! v := vals_at packed c ip in let! old := vals_at fields c i in Some (op old v)) else vals_at fields c i)
   (zseq 0 (Z.to_nat cnt))) with (s0 := fields) as (f & E & S1 & G).
  - intros done c todo f Ez [[L1 R1] G1]. assert (Hc : 0 <= c < cnt).
    { assert (In c (zseq 0 (Z.to_nat cnt))) as Hi by (rewrite Ez; apply in_elt). apply zseq_In in Hi. lia. }
    assert (Nc : existsb (Z.eqb c) done = false).
    { destruct (existsb (Z.eqb c) done) eqn:X; [|reflexivity]. apply existsb_exists in X as (x & X1 & X2). apply Z.eqb_eq in X2. subst x.
      pose proof (zseq_NoDup 0 (Z.to_nat cnt)) as N. rewrite Ez in N. apply NoDup_remove_2 in N. exfalso. apply N, in_or_app. left. exact X1. }
    destruct (vals_some [] cnt (length pts) packed c ip SP Hc) as (v & Hv); [eapply vread_lt; eauto|]. rewrite Hv.
    destruct (vals_some [] cnt (Z.to_nat (rcount R)) f c (rindex lay R p) (conj L1 R1) Hc) as (old & Ho); [lia|]. rewrite Ho.
    pose proof Ho as Ho'. unfold vals_at in Ho'. destruct (vread f c) as [row|] eqn:Er; [|discriminate].
    pose proof (R1 row (vread_In _ _ _ Er)) as Lr.
    destruct (vwrite_spec row (rindex lay R p) (op old v)) as (row' & W1 & L2 & R2); [lia|]. rewrite W1.
    destruct (vwrite_spec f c row' ltac:(lia)) as (f' & W2 & L3 & R3). exists f'. split; [exact W2|]. split.
    + split; [congruence|]. intros x Hx. apply In_vread in Hx as (j & Hj). rewrite R3 in Hj. destruct (j =? c); [injection Hj as <-; congruence|]. apply R1, (vread_In _ _ _ Hj).
    + intros c' i Hc'. unfold vals_at at 1. rewrite R3. rewrite existsb_app. cbn [existsb]. rewrite orb_false_r. destruct (Z.eqb_spec c' c) as [->|Ncc].
      * rewrite R2, orb_true_r, andb_true_r. specialize (G1 c i Hc). rewrite Nc, andb_false_r in G1. unfold vals_at at 1 in G1. rewrite Er in G1.
        destruct (Z.eqb_spec i (rindex lay R p)) as [->|]; [|exact G1]. rewrite Hv. rewrite <- G1, Ho'. reflexivity.
      * fold (vals_at f c' i). rewrite orb_false_r. apply G1, Hc'.
  - split; [exact SF|]. intros c i _. cbn [existsb]. rewrite andb_false_r. reflexivity.
  - exists f. split; [exact E|]. split; [exact S1|]. intros c q Hc Rq. rewrite G by exact Hc.
    assert (existsb (Z.eqb c) (zseq 0 (Z.to_nat cnt)) = true) as -> by (apply existsb_exists; exists c; split; [apply zseq_In; lia|apply Z.eqb_refl]).
    rewrite andb_true_r. destruct (teqb p q) eqn:Et.
    + apply teqb_eq in Et. subst. rewrite Z.eqb_refl. reflexivity.
    + destruct (Z.eqb_spec (rindex lay R q) (rindex lay R p)) as [Eq|]; [|reflexivity]. apply rindex_inj in Eq; auto. subst.
      assert (teqb p p = true) by (apply teqb_eq; reflexivity). congruence.
Qed.

Lemma combine_app' {A B} (l1 l2 : list A) (m1 m2 : list B) : length l1 = length m1 -> combine (l1 ++ l2) (m1 ++ m2) = combine l1 m1 ++ combine l2 m2.
Proof. revert m1. induction l1 as [|a l1 IH]; intros [|b m1] E; try discriminate; cbn; [reflexivity|]. f_equal. apply IH. cbn in E. congruence. Qed.

(** Each point ends up with the values addressed to it, taken in one after another. *)
Theorem disperse_ok pts packed fields : 0 <= cnt -> shaped cnt (length pts) packed -> shaped cnt (Z.to_nat (rcount R)) fields ->
  (forall p, In p pts -> pt_in R p) ->
  exists fields', disperse op cnt lay R pts packed fields = Some fields' /\ shaped cnt (Z.to_nat (rcount R)) fields' /\
    forall c row q, vread packed c = Some row -> pt_in R q -> exists old,
      vals_at fields c (rindex lay R q) = Some old /\
      vals_at fields' c (rindex lay R q) = Some (fold_left op (addressed q pts row) old).
Proof.
  intros HC SP SF HR. unfold disperse. set (N := length pts) in *.
  destruct (ofoldl_split (disperse_point op cnt lay R pts packed)
    (fun done f => shaped cnt (Z.to_nat (rcount R)) f /\ forall c row q, vread packed c = Some row -> pt_in R q -> exists old,
      vals_at fields c (rindex lay R q) = Some old /\
      vals_at f c (rindex lay R q) = Some (fold_left op (addressed q (firstn (length done) pts) (firstn (length done) row)) old))
    (zseq 0 N)) with (s0 := fields) as (f & E & S1 & G).
  - intros done ip todo f Ez [SF1 G]. assert (Bip : 0 <= ip < Z.of_nat N).
    { assert (In ip (zseq 0 N)) as Hi by (rewrite Ez; apply in_elt). apply zseq_In in Hi. lia. }
    destruct (vread_ge pts ip Bip) as (p & Hp).
    assert (Ei : ip = Z.of_nat (length done)).
    { clear -Ez. assert (X : forall a n l1 i l2, zseq a n = l1 ++ i :: l2 -> i = a + Z.of_nat (length l1)).
      { intros a n l1; revert a n. induction l1 as [|b l1 IH]; intros a [|n] i l2 E; cbn [zseq app] in E; try discriminate; injection E as E1 E2; [cbn; lia|]. apply IH in E2. cbn [length]. lia. }
      apply X in Ez. lia. }
    destruct (disperse_point_ok pts packed f ip p HC SP SF1 Hp (HR p (vread_In _ _ _ Hp))) as (f' & E & SF2 & G2). exists f'. split; [exact E|]. split; [exact SF2|].
    intros c row q Hrow Rq. assert (Hc : 0 <= c < cnt) by (destruct SP as [<- _]; eapply vread_lt; eauto).
    destruct (G c row q Hrow Rq) as (old & Ho & Hf). exists old. split; [exact Ho|]. rewrite G2 by auto.
    rewrite app_length. cbn [length]. assert (Lrow : length row = N) by (apply SP; eapply vread_In; eauto).
    rewrite Ei, vread_nth in Hp. destruct (nth_error row (length done)) as [v|] eqn:Ev; [|apply nth_error_None in Ev; lia].
    assert (Fn : forall A (l : list A) k x, nth_error l k = Some x -> firstn (k + 1) l = firstn k l ++ [x]).
    { clear. induction l as [|a l IH]; intros [|k] x H; try discriminate; cbn [nth_error] in H; cbn; [congruence|]. f_equal. apply IH, H. }
    rewrite (Fn _ _ _ _ Hp), (Fn _ _ _ _ Ev). unfold addressed. rewrite combine_app' by (rewrite !firstn_length; lia).
    rewrite filter_app, map_app, fold_left_app. cbn [combine filter fst]. rewrite Hf.
    destruct (teqb p q); [|reflexivity]. unfold vals_at at 1. rewrite Hrow, Ei, vread_nth, Ev. reflexivity.
  - split; [exact SF|]. intros c row q Hrow Rq. pose proof (rindex_bounds lay R q Rq) as B.
    assert (Hc : 0 <= c < cnt) by (destruct SP as [<- _]; eapply vread_lt; eauto).
    destruct (vals_some [] cnt (Z.to_nat (rcount R)) fields c (rindex lay R q) SF Hc) as (old & Ho); [lia|]. exists old. split; [exact Ho|exact Ho].
  - exists f. split; [exact E|]. split; [exact S1|]. intros c row q Hrow Rq. destruct (G c row q Hrow Rq) as (old & Ho & Hf). exists old. split; [exact Ho|].
    assert (Lrow : length row = N) by (apply SP; eapply vread_In; eauto). rewrite zseq_length in Hf. unfold N in *. rewrite <- Lrow in Hf at 2. rewrite !firstn_all in Hf. exact Hf.
Qed.
End Disperse.

Lemma addressed_last {V} p (pts : list (tup Z)) (row : list V) i v : length row = length pts -> vread pts i = Some p -> vread row i = Some v ->
  (forall j, i < j -> vread pts j <> Some p) -> forall old, fold_left (fun _ v => v) (addressed p pts row) old = v.
Proof.
  intros L Hp Hv Last old. pose proof (vread_lt _ _ _ Hp) as B. destruct (Z_of_nat_complete i ltac:(lia)) as (k & ->). rewrite vread_nth in Hp. rewrite vread_nth in Hv.
  apply nth_error_split in Hp as (p1 & p2 & Ep & Lp). apply nth_error_split in Hv as (r1 & r2 & Er & Lr). subst pts row. unfold addressed.
  rewrite combine_app' by congruence. rewrite filter_app, map_app, fold_left_app. cbn [combine filter fst].
  rewrite (proj2 (teqb_eq p p) eq_refl). cbn [map fold_left snd].
  assert (E : filter (fun x => teqb (fst x) p) (combine p2 r2) = []); [|rewrite E; reflexivity].
  destruct (filter _ _) as [|[x y] l] eqn:F; [reflexivity|]. exfalso.
  assert (In (x, y) (filter (fun x => teqb (fst x) p) (combine p2 r2))) as H by (rewrite F; left; reflexivity). apply filter_In in H as [H1 H2]. cbn [fst] in H2.
  apply teqb_eq in H2. subst x. apply in_combine_l in H1. apply In_nth_error in H1 as (j & Hj).
  apply (Last (Z.of_nat (length p1 + S j))); [lia|]. rewrite vread_nth, nth_error_app2 by lia. replace (length p1 + S j - length p1)%nat with (S j) by lia. exact Hj.
Qed.

Lemma addressed_none {V} p (pts : list (tup Z)) (row : list V) : ~ In p pts -> addressed p pts row = [].
Proof.
  intros N. unfold addressed. destruct (filter _ _) as [|[x y] l] eqn:F; [reflexivity|]. exfalso.
  assert (In (x, y) (filter (fun x => teqb (fst x) p) (combine pts row))) as H by (rewrite F; left; reflexivity). apply filter_In in H as [H1 H2]. cbn [fst] in H2.
  apply teqb_eq in H2. subst x. apply in_combine_l in H1. contradiction.
Qed.

Theorem overwrite_ok {V} cnt lay R pts (packed fields : list (list V)) : 0 <= cnt -> shaped cnt (length pts) packed -> shaped cnt (Z.to_nat (rcount R)) fields ->
  (forall p, In p pts -> pt_in R p) ->
  exists fields', disperse_overwrite cnt lay R pts packed fields = Some fields' /\ shaped cnt (Z.to_nat (rcount R)) fields' /\
    forall c p, 0 <= c < cnt -> pt_in R p ->
      (forall i, vread pts i = Some p -> (forall j, i < j -> vread pts j <> Some p) ->
         vals_at fields' c (rindex lay R p) = vals_at packed c i) /\
      (~ In p pts -> vals_at fields' c (rindex lay R p) = vals_at fields c (rindex lay R p)).
Proof.
  intros HC SP SF HR. destruct (disperse_ok (fun _ v => v) cnt lay R pts packed fields HC SP SF HR) as (f & E & S1 & G). exists f. split; [exact E|]. split; [exact S1|].
  intros c p Hc Rp. destruct (vread_ge packed c) as (row & Hrow); [destruct SP as [-> _]; exact Hc|]. destruct (G c row p Hrow Rp) as (old & Ho & Hf).
  assert (Lrow : length row = length pts) by (apply SP; eapply vread_In; eauto). split.
  - intros i Hi Last. destruct (vread_ge row i) as (v & Hv); [rewrite Lrow; eapply vread_lt; eauto|]. rewrite Hf, (addressed_last p pts row i v); auto.
    unfold vals_at. rewrite Hrow. congruence.
  - intros N. rewrite Hf, addressed_none by exact N. cbn [fold_left]. congruence.
Qed.

Lemma fold_add l : forall old, fold_left Z.add l old = old + fold_right Z.add 0 l.
Proof. induction l as [|a l IH]; intros old; cbn [fold_left fold_right]; [lia|]. rewrite IH. lia. Qed.

Theorem append_sum cnt lay R pts (packed fields : list (list Z)) : 0 <= cnt -> shaped cnt (length pts) packed -> shaped cnt (Z.to_nat (rcount R)) fields ->
  (forall p, In p pts -> pt_in R p) ->
  exists fields', disperse_append Z.add cnt lay R pts packed fields = Some fields' /\ shaped cnt (Z.to_nat (rcount R)) fields' /\
    forall c row p, vread packed c = Some row -> pt_in R p -> exists old,
      vals_at fields c (rindex lay R p) = Some old /\ vals_at fields' c (rindex lay R p) = Some (old + sum_at p pts row).
Proof.
  intros HC SP SF HR. destruct (disperse_ok Z.add cnt lay R pts packed fields HC SP SF HR) as (f & E & S1 & G). exists f. split; [exact E|]. split; [exact S1|].
  intros c row p Hrow Rp. destruct (G c row p Hrow Rp) as (old & Ho & Hf). exists old. split; [exact Ho|]. rewrite Hf, fold_add. reflexivity.
Qed.
