(** Proofs about importing donors and receivers of files: counts, and the whole program. *)
From Coq Require Import List ZArith Bool Lia.
From Verif Require Import TupleModel RangeModel Base ContModel HashModel HashProof ProtoModel ProtoSpec NetModel NetSpec NetProof NetTools XinModel MatModel DistModel ImpModel ImpSpec ImpProof.
Import ListNotations.
Local Open Scope Z_scope.

Definition flat (g : nat) (i j : Z) : nat := (Z.to_nat (i - 1) * g + Z.to_nat (j - 1))%nat.
Definition within (g : nat) (i : Z) : Prop := 1 <= i <= Z.of_nat g.
Lemma flat_bound g i j : within g i -> within g j -> (flat g i j < g * g)%nat.
Proof. unfold within, flat. intros H K. assert (Z.to_nat (i - 1) + 1 <= g)%nat by lia. assert (Z.to_nat (j - 1) < g)%nat by lia. nia. Qed.
Lemma flat_inj g i j i' j' : within g i -> within g j -> within g i' -> within g j' -> flat g i j = flat g i' j' -> i = i' /\ j = j'.
Proof.
  unfold within, flat. intros A B A' B' E. set (a := Z.to_nat (i - 1)) in *. set (a' := Z.to_nat (i' - 1)) in *. set (b := Z.to_nat (j - 1)) in *. set (b' := Z.to_nat (j' - 1)) in *.
  assert (Hb : (b < g)%nat) by lia. assert (Hb' : (b' < g)%nat) by lia. assert (a = a') by nia. assert (b = b') by nia. split; lia.
Qed.
Lemma at_pair_ok g i j : within g i -> within g j -> at_pair g (i - 1) (j - 1) = Some (flat g i j).
Proof.
  unfold within, at_pair. intros A B. destruct (Z.leb_spec 0 (i - 1)); [|lia]. destruct (Z.ltb_spec (i - 1) (Z.of_nat g)); [|lia].
  destruct (Z.leb_spec 0 (j - 1)); [|lia]. destruct (Z.ltb_spec (j - 1) (Z.of_nat g)); [|lia]. reflexivity.
Qed.

Definition num (l : list nat) (k : nat) : Z := Z.of_nat (length (filter (Nat.eqb k) l)).
Lemma num_app a b k : num (a ++ b) k = num a k + num b k.
Proof. unfold num. rewrite filter_app, app_length. lia. Qed.
Lemma num_pos l k : 0 < num l k <-> In k l.
Proof.
  unfold num. split.
  - intros H. destruct (filter (Nat.eqb k) l) as [|x t] eqn:E; [cbn in H; lia|]. assert (I : In x (filter (Nat.eqb k) l)) by (rewrite E; now left).
    apply filter_In in I as [I X]. apply Nat.eqb_eq in X. now subst.
  - intros H. assert (I : In k (filter (Nat.eqb k) l)) by (apply filter_In; split; [exact H|apply Nat.eqb_refl]). destruct (filter (Nat.eqb k) l); [contradiction|cbn; lia].
Qed.
Definition keys (g : nat) (id : Z) (rs : list rval) : list nat := map (fun v => flat g (gid v) id) rs.
Definition all_keys (g : nat) (l : locals) : list nat := flat_map (fun x => keys g (fst x) (snd (snd x))) l.

Lemma count_inner g id rs : within g id -> (forall v, In v rs -> within g (gid v)) -> forall h,
  ofoldl (count_one g id) rs (map h (seq 0 (g * g))) = Some (map (fun k => h k + num (keys g id rs) k) (seq 0 (g * g))).
Proof.
  intros Hid. induction rs as [|v rs IH]; intros HV h.
  - cbn [ofoldl]. f_equal. apply map_ext. intros k. cbn. lia.
  - cbn [ofoldl]. unfold count_one at 1. rewrite at_pair_ok by (auto; apply HV; now left). rewrite bump_seq by (apply flat_bound; [apply HV; now left|exact Hid]).
    rewrite IH by (intros; apply HV; now right). f_equal. apply map_ext. intros k. cbn [keys map]. fold (keys g id rs).
    change (flat g (gid v) id :: keys g id rs) with ([flat g (gid v) id] ++ keys g id rs). rewrite num_app. unfold num at 2. cbn [filter]. rewrite (Nat.eqb_sym k).
    destruct (Nat.eqb (flat g (gid v) id) k); cbn [length]; lia.
Qed.
Definition fine (g : nat) (l : locals) : Prop := forall id ds rs, In (id, (ds, rs)) l -> within g id /\ forall v, In v rs -> within g (gid v).
Lemma count_outer g l : fine g l -> forall h,
  ofoldl (fun nums x => ofoldl (count_one g (fst x)) (snd (snd x)) nums) l (map h (seq 0 (g * g))) = Some (map (fun k => h k + num (all_keys g l) k) (seq 0 (g * g))).
Proof.
  induction l as [|[id [ds rs]] l IH]; intros F h.
  - cbn [ofoldl]. f_equal. apply map_ext. intros k. cbn. lia.
  - cbn [ofoldl fst snd]. destruct (F id ds rs ltac:(now left)) as [A B]. rewrite count_inner by auto. rewrite IH by (intros i d r H; apply (F i d r); now right).
    f_equal. apply map_ext. intros k. cbn [all_keys flat_map fst snd]. fold (all_keys g l). rewrite num_app. lia.
Qed.

Lemma repeat_seq {A} (x : A) m : repeat x m = map (fun _ => x) (seq 0 m).
Proof. generalize 0%nat. induction m as [|m IH]; intros s; [reflexivity|]. cbn. f_equal. apply IH. Qed.
Lemma sum_all m (f : nat -> nat -> Z) l : forall h, fold_left add_up (map (fun s => map (f s) (seq 0 m)) l) (map h (seq 0 m)) = map (fun k => fold_left (fun a s => a + f s k) l (h k)) (seq 0 m).
Proof.
  induction l as [|s l IH]; intros h; [reflexivity|]. cbn [map fold_left]. rewrite <- IH. f_equal. unfold add_up. generalize (seq 0 m). intros q.
  induction q as [|x q IHq]; [reflexivity|]. cbn [map combine fst snd]. f_equal. exact IHq.
Qed.
Lemma sum_pos (f : nat -> Z) l : (forall s, 0 <= f s) -> forall a, 0 <= a -> (0 < fold_left (fun a s => a + f s) l a <-> 0 < a \/ exists s, In s l /\ 0 < f s).
Proof.
  intros F. induction l as [|s l IH]; intros a Ha; cbn [fold_left].
  - split; [auto|]. intros [H|(s & [] & _)]. exact H.
  - rewrite IH by (pose proof (F s); lia). split.
    + intros [H|(t & Ht & P)]; [|right; exists t; split; [now right|exact P]]. destruct (Z.eq_dec (f s) 0) as [E|E]; [left; lia|]. right. exists s. split; [now left|]. pose proof (F s). lia.
    + intros [H|(t & [<-|Ht] & P)]; [left; pose proof (F s); lia|left; lia|right; eauto].
Qed.

Section Import.
Context (nd n g : nat) (L : nat -> locals).
Hypothesis HI : importable n g L.

Lemma all_fine r : (r < n)%nat -> fine g (L r).
Proof. intros Hr id ds rs H. split; [apply (ip_grid _ _ _ HI r id ds rs Hr H)|]. intros v Hv. apply (ip_source _ _ _ HI r id ds rs v Hr H Hv). Qed.
Definition total (k : nat) : Z := fold_left (fun a s => a + num (all_keys g (L s)) k) (seq 0 n) 0.
Definition nums : list Z := map total (seq 0 (g * g)).

Lemma connected_within i j : connected n L i j -> within g i /\ within g j.
Proof. intros (s & ds & rs & v & Hs & H & Hv & <-). destruct (all_fine s Hs j ds rs H) as [A B]. split; [now apply B|exact A]. Qed.
Lemma total_pos i j : within g i -> within g j -> (0 < total (flat g i j) <-> connected n L i j).
Proof.
  intros Hi Hj. unfold total. rewrite (sum_pos (fun s => num (all_keys g (L s)) (flat g i j))) by (intros; unfold num; lia). split.
  - intros [H|(s & Hs & H)]; [lia|]. apply in_seq in Hs. apply num_pos in H. unfold all_keys in H. apply in_flat_map in H as ((id & ds & rs) & Hx & H).
    cbn [fst snd] in H. unfold keys in H. apply in_map_iff in H as (v & E & Hv). destruct (all_fine s ltac:(lia) id ds rs Hx) as [A B].
    apply flat_inj in E as [E1 E2]; auto. subst. exists s, ds, rs, v. split; [lia|]. auto.
  - intros (s & ds & rs & v & Hs & H & Hv & E). right. exists s. split; [apply in_seq; lia|]. apply num_pos. unfold all_keys. apply in_flat_map. exists (j, (ds, rs)). split; [exact H|].
    cbn [fst snd]. unfold keys. apply in_map_iff. exists v. now rewrite E.
Qed.
Lemma some_at_ok a b : (a < g)%nat -> (b < g)%nat -> (some_at g nums a b = true <-> connected n L (Z.of_nat a + 1) (Z.of_nat b + 1)).
Proof.
  intros Ha Hb. rewrite <- total_pos by (unfold within; lia). unfold some_at, nums. rewrite Z.ltb_lt.
  assert (K : (a * g + b < g * g)%nat) by nia.
  rewrite (nth_indep _ 0 (total 0)) by (rewrite map_length, seq_length; exact K). rewrite map_nth, seq_nth by exact K. cbn [Nat.add].
  unfold flat. replace (Z.to_nat (Z.of_nat a + 1 - 1)) with a by lia. replace (Z.to_nat (Z.of_nat b + 1 - 1)) with b by lia. reflexivity.
Qed.

Definition dests (id : Z) : list Z := map (fun j => Z.of_nat j + 1) (filter (fun j => some_at g nums (Z.to_nat (id - 1)) j) (seq 0 g)).
Definition srcs (id : Z) : list Z := map (fun j => Z.of_nat j + 1) (filter (fun j => some_at g nums j (Z.to_nat (id - 1))) (seq 0 g)).
Lemma succ_NoDup l : NoDup l -> NoDup (map (fun j => Z.of_nat j + 1) l).
Proof. intros N. induction N as [|x l I N IH]; constructor; auto. intros H. apply in_map_iff in H as (y & E & H). apply I. now replace x with y by lia. Qed.
Lemma dests_ok id : within g id -> NoDup (dests id) /\ forall j, In j (dests id) <-> connected n L id j.
Proof.
  intros Hid. unfold within in Hid. split; [apply succ_NoDup, NoDup_filter, seq_NoDup|]. intros j. unfold dests. rewrite in_map_iff. split.
  - intros (b & <- & H). apply filter_In in H as [H1 H2]. apply in_seq in H1. apply some_at_ok in H2; [|lia|lia]. now replace (Z.of_nat (Z.to_nat (id - 1)) + 1) with id in H2 by lia.
  - intros H. destruct (connected_within _ _ H) as [_ W]. unfold within in W. exists (Z.to_nat (j - 1)). split; [lia|]. apply filter_In. split; [apply in_seq; lia|].
    apply some_at_ok; [lia|lia|]. now replace (Z.of_nat (Z.to_nat (id - 1)) + 1) with id by lia; replace (Z.of_nat (Z.to_nat (j - 1)) + 1) with j by lia.
Qed.
Lemma srcs_ok id : within g id -> NoDup (srcs id) /\ forall i, In i (srcs id) <-> connected n L i id.
Proof.
  intros Hid. unfold within in Hid. split; [apply succ_NoDup, NoDup_filter, seq_NoDup|]. intros j. unfold srcs. rewrite in_map_iff. split.
  - intros (b & <- & H). apply filter_In in H as [H1 H2]. apply in_seq in H1. apply some_at_ok in H2; [|lia|lia]. now replace (Z.of_nat (Z.to_nat (id - 1)) + 1) with id in H2 by lia.
  - intros H. destruct (connected_within _ _ H) as [W _]. unfold within in W. exists (Z.to_nat (j - 1)). split; [lia|]. apply filter_In. split; [apply in_seq; lia|].
    apply some_at_ok; [lia|lia|]. now replace (Z.of_nat (Z.to_nat (id - 1)) + 1) with id by lia; replace (Z.of_nat (Z.to_nat (j - 1)) + 1) with j by lia.
Qed.

Definition out (x : Z * (list dval * list rval)) : Z * imported :=
  (fst x, (map (fun j => (j, ConnM (maxof (to_grid j (fst (snd x)))) (map (stored (maxof (to_grid j (fst (snd x))))) (to_grid j (fst (snd x)))))) (dests (fst x)),
           map (fun j => (j, to_grid j (snd (snd x)))) (srcs (fst x)))).

Lemma import_ok : prog_ok n (import_all nd g) (fun r => I0 (L r)) (fun r => IDone (conn_ids g nums) (map out (L r))).
Proof.
  unfold import_all. cbn [prog_ok]. exists (fun r => ICnt (L r) (map (num (all_keys g (L r))) (seq 0 (g * g)))). split.
  { intros r Hr. cbn [im_count]. rewrite repeat_seq, count_outer by (now apply all_fine). do 2 f_equal. }
  exists (fun r => ICnt (L r) nums). split.
  { intros r Hr. unfold im_sum. rewrite nth_map_seq by exact Hr. do 2 f_equal. rewrite map_map. cbn [nums_of]. rewrite repeat_seq.
    rewrite (sum_all (g * g) (fun s => num (all_keys g (L s)))). reflexivity. }
  eexists. split; [|reflexivity]. intros r Hr. cbn [im_fill]. rewrite (omap_map _ out); [reflexivity|]. intros [id [ds rs]] Hx. cbn [fst snd].
  assert (W : within g id) by (apply (all_fine r Hr id ds rs Hx)).
  assert (A : exists k, at_pair g (id - 1) 0 = Some k).
  { unfold at_pair, within in *. destruct (Z.leb_spec 0 (id - 1)); [|lia]. destruct (Z.ltb_spec (id - 1) (Z.of_nat g)); [|lia].
    destruct (Z.ltb_spec 0 (Z.of_nat g)); [|lia]. cbn. eauto. }
  destruct A as [k A]. rewrite A. cbv zeta. fold (dests id). fold (srcs id). destruct (dests_ok id W) as [ND HDs]. destruct (srcs_ok id W) as [NS HSs].
  rewrite import_donors_ok; [|exact ND| |].
  - rewrite import_receivers_ok; [reflexivity|exact NS|]. intros v Hv. apply HSs. exists r, ds, rs, v. auto.
  - intros v Hv. apply HDs. apply (ip_dest _ _ _ HI r id ds rs v Hr Hx Hv).
  - intros v Hv d Hd. apply (ip_coefs _ _ _ HI r id ds rs v d Hr Hx Hv Hd).
Qed.

Lemma out_ok r id ds rs : (r < n)%nat -> In (id, (ds, rs)) (L r) -> imports n L id ds rs (snd (out (id, (ds, rs)))).
Proof.
  intros Hr Hx. assert (W : within g id) by (apply (all_fine r Hr id ds rs Hx)). destruct (dests_ok id W) as [ND HDs]. destruct (srcs_ok id W) as [NS HSs].
  unfold imports, out. cbn [fst snd]. rewrite !map_map. cbn [fst]. rewrite !map_id. split; [exact ND|]. split; [exact NS|]. split; [exact HDs|]. split; [exact HSs|]. split.
  - intros j m H. apply in_map_iff in H as (j' & E & _). injection E as <- <-. cbn [cm_max cm_cells]. split; [apply maxof_ok|reflexivity].
  - intros i l H. apply in_map_iff in H as (j' & E & _). now injection E as <- <-.
Qed.
Lemma ids_ok : NoDup (conn_ids g nums) /\ forall i j, In (i, j) (conn_ids g nums) <-> connected n L i j.
Proof.
  split.
  - unfold conn_ids. assert (X : forall l, NoDup l -> NoDup (flat_map (fun i => map (fun j => (Z.of_nat i + 1, Z.of_nat j + 1)) (filter (some_at g nums i) (seq 0 g))) l)).
    { intros l N. induction N as [|a l I N IH]; [constructor|]. cbn [flat_map]. apply NoDup_app_intro; auto.
      - assert (Y : forall q, NoDup q -> NoDup (map (fun j => (Z.of_nat a + 1, Z.of_nat j + 1)) q)).
        { intros q Q. induction Q as [|b q J Q IHq]; constructor; auto. intros H. apply in_map_iff in H as (c & E & H). injection E as E. apply J. now replace b with c by lia. }
        apply Y, NoDup_filter, seq_NoDup.
      - intros x H1 H2. apply in_map_iff in H1 as (b & <- & _). apply in_flat_map in H2 as (c & Hc & H2). apply in_map_iff in H2 as (d & E & _). injection E as E _.
        apply I. now replace a with c by lia. }
    apply X, seq_NoDup.
  - intros i j. unfold conn_ids. rewrite in_flat_map. split.
    + intros (a & Ha & H). apply in_seq in Ha. apply in_map_iff in H as (b & E & H). injection E as <- <-. apply filter_In in H as [Hb H]. apply in_seq in Hb. apply some_at_ok in H; [exact H|lia|lia].
    + intros H. destruct (connected_within _ _ H) as [W1 W2]. unfold within in *. exists (Z.to_nat (i - 1)). split; [apply in_seq; lia|]. apply in_map_iff. exists (Z.to_nat (j - 1)).
      split; [f_equal; lia|]. apply filter_In. split; [apply in_seq; lia|]. apply some_at_ok; [lia|lia|].
      now replace (Z.of_nat (Z.to_nat (i - 1)) + 1) with i by lia; replace (Z.of_nat (Z.to_nat (j - 1)) + 1) with j by lia.
Qed.
End Import.

Theorem import_spec nd n g L : importable n g L -> exists ids S', computes n (import_all nd g) (fun r => I0 (L r)) S' /\
  NoDup ids /\ (forall i j, In (i, j) ids <-> connected n L i j) /\
  forall r, (r < n)%nat -> exists o, S' r = IDone ids o /\ Forall2 (fun x y => fst y = fst x /\ imports n L (fst x) (fst (snd x)) (snd (snd x)) (snd y)) (L r) o.
Proof.
  intros HI. exists (conn_ids g (nums n g L)), (fun r => IDone (conn_ids g (nums n g L)) (map (out n g L) (L r))). split; [apply prog_computes; now apply import_ok|].
  destruct (ids_ok n g L HI) as [A B]. split; [exact A|]. split; [exact B|]. intros r Hr. eexists. split; [reflexivity|].
  assert (X : forall l, (forall x, In x l -> In x (L r)) -> Forall2 (fun x y => fst y = fst x /\ imports n L (fst x) (fst (snd x)) (snd (snd x)) (snd y)) l (map (out n g L) l)).
  { induction l as [|[id [ds rs]] l IH]; intros H; cbn [map]; constructor; [|apply IH; intros; apply H; now right]. split; [reflexivity|]. apply (out_ok n g L HI r); [exact Hr|]. apply H. now left. }
  apply X. auto.
Qed.
