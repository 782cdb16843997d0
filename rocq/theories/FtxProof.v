(** Lemmas about FtxModel: lists, pairing of the fragments of two processes, answers. *)
From Coq Require Import ZArith List Bool Arith Lia Permutation Sorting.Sorted.
From Verif Require Import FRefModel FtxModel FtxSpec.
Import ListNotations.
Local Open Scope nat_scope.

(** * Lists *)

Lemma replace_len {A} (l : list A) t x : t < length l -> length (replace l t x) = length l.
Proof. intros H. unfold replace. rewrite app_length, firstn_length. cbn [length]. rewrite skipn_length. lia. Qed.
Lemma replace_same {A} (l : list A) t x : t < length l -> nth_error (replace l t x) t = Some x.
Proof.
  intros H. unfold replace. rewrite nth_error_app2; rewrite firstn_length, Nat.min_l by lia; [|lia].
  rewrite Nat.sub_diag. reflexivity.
Qed.
Lemma replace_other {A} (l : list A) : forall t j x, t < length l -> j <> t -> nth_error (replace l t x) j = nth_error l j.
Proof.
  induction l as [|a l IH]; intros t j x H N; [cbn in H; lia|].
  destruct t as [|t], j as [|j]; unfold replace; cbn; try reflexivity; [lia|].
  apply (IH t j x); [cbn in H; lia|lia].
Qed.
Lemma split_nth {A} (l : list A) : forall t x, nth_error l t = Some x -> l = firstn t l ++ x :: skipn (S t) l.
Proof.
  induction l as [|a l IH]; intros [|t] x H; cbn in *; try discriminate; [congruence|].
  f_equal. apply IH, H.
Qed.
Lemma replace_inv {A} (l : list A) t x j y : t < length l -> nth_error (replace l t x) j = Some y ->
  (j = t /\ y = x) \/ (j <> t /\ nth_error l j = Some y).
Proof.
  intros H E. destruct (Nat.eq_dec j t) as [->|N].
  - left. rewrite replace_same in E by auto. split; congruence.
  - right. split; [exact N|]. rewrite replace_other in E by auto. exact E.
Qed.

Lemma sorted_same {A} (R : A -> A -> Prop) : (forall a, ~ R a a) -> (forall a b c, R a b -> R b c -> R a c) ->
  forall l1 l2, StronglySorted R l1 -> StronglySorted R l2 -> (forall x, In x l1 <-> In x l2) -> l1 = l2.
Proof.
  intros Irr Tr. induction l1 as [|a l1 IH]; intros [|b l2] S1 S2 E.
  - reflexivity.
  - exfalso. apply (proj2 (E b)). left; reflexivity.
  - exfalso. apply (proj1 (E a)). left; reflexivity.
  - apply StronglySorted_inv in S1. apply StronglySorted_inv in S2. destruct S1 as [S1 F1], S2 as [S2 F2].
    rewrite Forall_forall in F1, F2.
    assert (a = b) as ->.
    { destruct (proj1 (E a) (or_introl eq_refl)) as [->|Ha]; [reflexivity|].
      destruct (proj2 (E b) (or_introl eq_refl)) as [->|Hb]; [reflexivity|].
      exfalso. apply (Irr a). apply (Tr _ b); auto. }
    f_equal. apply IH; auto. intros x. split; intros H.
    + destruct (proj1 (E x) (or_intror H)) as [->|]; [|assumption]. elim (Irr x (F1 x H)).
    + destruct (proj2 (E x) (or_intror H)) as [->|]; [|assumption]. elim (Irr x (F2 x H)).
Qed.
Lemma sorted_nodup {A} (R : A -> A -> Prop) l : (forall a, ~ R a a) -> StronglySorted R l -> NoDup l.
Proof.
  intros Irr. induction 1 as [|a l S IH F]; constructor; [|exact IH]. intros H. rewrite Forall_forall in F.
  elim (Irr a (F a H)).
Qed.
Lemma sorted_filter {A} (R : A -> A -> Prop) f l : StronglySorted R l -> StronglySorted R (filter f l).
Proof.
  induction 1 as [|a l S IH F]; cbn [filter]; [constructor|]. destruct (f a); [|exact IH].
  constructor; [exact IH|]. rewrite Forall_forall in *. intros x H. apply F. apply filter_In in H. tauto.
Qed.

(** * The fragments that two processes have in common *)

Definition sub (q : nat) (l : list ent) : list ent := filter (fun e => Nat.eqb (e_rank e) q) l.
Definition gf (e : ent) : Z * Z := (e_grid e, e_frag e).

Lemma before_sub l i e : nth_error l i = Some e -> before l i = length (sub (e_rank e) (firstn i l)).
Proof. intros H. unfold before, rank_at. rewrite H. cbn [option_map]. reflexivity. Qed.
Lemma sub_app q a b : sub q (a ++ b) = sub q a ++ sub q b.
Proof. apply filter_app. Qed.
Lemma nth_before l i e : nth_error l i = Some e -> nth_error (sub (e_rank e) l) (before l i) = Some e.
Proof.
  intros H. rewrite (before_sub l i e H). rewrite (split_nth l i e H) at 1. rewrite sub_app.
  rewrite nth_error_app2 by lia. rewrite Nat.sub_diag. cbn [sub filter]. rewrite Nat.eqb_refl. reflexivity.
Qed.
Lemma firstn_prefix {A} (l : list A) a b : a <= b -> exists x, firstn b l = firstn a l ++ x.
Proof.
  intros H. exists (firstn (b - a) (skipn a l)). rewrite firstn_skipn_comm.
  replace (a + (b - a)) with b by lia. rewrite <- (firstn_skipn a (firstn b l)) at 1. rewrite firstn_firstn.
  rewrite Nat.min_l by lia. reflexivity.
Qed.
Lemma firstn_S {A} (l : list A) i e : nth_error l i = Some e -> firstn (S i) l = firstn i l ++ [e].
Proof.
  intros H. rewrite (split_nth l i e H) at 1. rewrite firstn_app. rewrite firstn_firstn.
  assert (i < length l) by (apply nth_error_Some; congruence).
  rewrite firstn_length, !Nat.min_r, Nat.min_l by lia. replace (S i - i) with 1 by lia. reflexivity.
Qed.
Lemma nth_firstn {A} (l : list A) : forall m j, j < m -> nth_error (firstn m l) j = nth_error l j.
Proof.
  induction l as [|a l IH]; intros m j L; [rewrite firstn_nil; reflexivity|].
  destruct m as [|m]; [lia|]. destruct j as [|j]; cbn; [reflexivity|]. apply IH. lia.
Qed.
Lemma before_mono l i i' e e' : nth_error l i = Some e -> nth_error l i' = Some e' -> e_rank e = e_rank e' ->
  i < i' -> before l i < before l i'.
Proof.
  intros H H' R L. rewrite (before_sub _ _ _ H), (before_sub _ _ _ H'), <- R.
  destruct (firstn_prefix l (S i) i' L) as (x & ->). rewrite (firstn_S l i e H), !sub_app, !app_length.
  cbn [sub filter]. rewrite Nat.eqb_refl. cbn [length]. lia.
Qed.
Lemma sub_nth q l : forall j e, nth_error (sub q l) j = Some e ->
  exists i, nth_error l i = Some e /\ e_rank e = q /\ before l i = j.
Proof.
  intros j e H. assert (Hin : In e (sub q l)) by (eapply nth_error_In; eauto).
  apply filter_In in Hin. destruct Hin as (Hl & Hq). apply Nat.eqb_eq in Hq.
  revert j H. clear Hl. induction l as [|a l IH]; intros j H; [destruct j; discriminate|].
  cbn [sub filter] in H. destruct (Nat.eqb_spec (e_rank a) q) as [Ea|Na].
  - destruct j as [|j].
    + injection H as ->. exists 0. split; [reflexivity|]. split; [exact Hq|]. reflexivity.
    + destruct (IH j H) as (i & Hi & _ & Hb). exists (S i). split; [exact Hi|]. split; [exact Hq|].
      rewrite (before_sub (a :: l) (S i) e Hi). rewrite (before_sub l i e Hi) in Hb. cbn [firstn sub filter].
      rewrite Hq in *. rewrite (proj2 (Nat.eqb_eq _ _) Ea). cbn [length]. unfold sub in Hb. lia.
  - destruct (IH j H) as (i & Hi & _ & Hb). exists (S i). split; [exact Hi|]. split; [exact Hq|].
    rewrite (before_sub (a :: l) (S i) e Hi). rewrite (before_sub l i e Hi) in Hb. cbn [firstn sub filter].
    rewrite Hq in *. rewrite (proj2 (Nat.eqb_neq _ _) Na). exact Hb.
Qed.

Definition gf_lt (a b : Z * Z) : Prop := (fst a < fst b)%Z \/ (fst a = fst b /\ (snd a < snd b)%Z).
Lemma sub_sorted q l : StronglySorted ent_lt l -> StronglySorted gf_lt (map gf (sub q l)).
Proof.
  induction 1 as [|a l S IH F]; cbn [sub filter map]; [constructor|].
  destruct (Nat.eqb_spec (e_rank a) q) as [E|N]; [|exact IH]. cbn [map]. constructor; [exact IH|].
  rewrite Forall_forall in *. intros x Hx. apply in_map_iff in Hx. destruct Hx as (b & <- & Hb).
  apply filter_In in Hb. destruct Hb as (Hb & Eb). apply Nat.eqb_eq in Eb. specialize (F b Hb).
  unfold ent_lt in F. unfold gf_lt, gf. cbn [fst snd]. lia.
Qed.
Lemma ent_lt_irr a : ~ ent_lt a a.
Proof. unfold ent_lt. lia. Qed.

Section Jobs.
Context {V : Type}.
Variable J : job (V := V).
Hypothesis A : agreed J.

Lemma common p q : p < j_n J -> q < j_n J -> map gf (sub q (j_sends J p)) = map gf (sub p (j_recvs J q)).
Proof.
  intros Hp Hq. destruct A as (A1 & A2).
  destruct (A1 p Hp) as (S1 & _ & _). destruct (A1 q Hq) as (_ & S2 & _).
  apply (sorted_same gf_lt).
  - intros a. unfold gf_lt. lia.
  - intros a b c. unfold gf_lt. lia.
  - apply sub_sorted, S1.
  - apply sub_sorted, S2.
  - intros [g f]. rewrite !in_map_iff. split; intros (e & He & Hin); apply filter_In in Hin; destruct Hin as (Hin & Hr);
      apply Nat.eqb_eq in Hr; destruct e as [g' r' f']; unfold gf in He; cbn in *; injection He as -> ->; subst r'.
    + exists (mkE g p f). split; [reflexivity|]. apply filter_In. split; [apply (A2 p q g f Hp Hq), Hin|apply Nat.eqb_refl].
    + exists (mkE g q f). split; [reflexivity|]. apply filter_In. split; [apply (A2 p q g f Hp Hq), Hin|apply Nat.eqb_refl].
Qed.
Lemma sends_nodup p : p < j_n J -> NoDup (j_sends J p).
Proof. intros Hp. destruct A as (A1 & _). destruct (A1 p Hp) as (S1 & _). apply (sorted_nodup ent_lt _ ent_lt_irr S1). Qed.
Lemma send_rank p i e : p < j_n J -> nth_error (j_sends J p) i = Some e -> e_rank e < j_n J.
Proof. intros Hp H. destruct A as (A1 & _). apply (A1 p Hp). left. eapply nth_error_In; eauto. Qed.
Lemma recv_rank p i e : p < j_n J -> nth_error (j_recvs J p) i = Some e -> e_rank e < j_n J.
Proof. intros Hp H. destruct A as (A1 & _). apply (A1 p Hp). right. eapply nth_error_In; eauto. Qed.

(** The fragment at the same place among those that p sends to q. *)
Lemma partner q i e : q < j_n J -> nth_error (j_recvs J q) i = Some e ->
  exists e', nth_error (sub q (j_sends J (e_rank e))) (before (j_recvs J q) i) = Some e' /\ gf e' = gf e /\ e_rank e' = q.
Proof.
  intros Hq H. pose proof (recv_rank q i e Hq H) as Hp. pose proof (nth_before _ _ _ H) as B.
  pose proof (common (e_rank e) q Hp Hq) as C.
  assert (E : nth_error (map gf (sub q (j_sends J (e_rank e)))) (before (j_recvs J q) i) = Some (gf e)).
  { rewrite C, nth_error_map, B. reflexivity. }
  rewrite nth_error_map in E. destruct (nth_error (sub q (j_sends J (e_rank e))) (before (j_recvs J q) i)) as [e'|] eqn:E'; [|discriminate].
  exists e'. split; [reflexivity|]. split; [cbn in E; congruence|].
  apply nth_error_In, filter_In in E'. apply Nat.eqb_eq. tauto.
Qed.
Lemma count_common p q : p < j_n J -> q < j_n J -> length (sub q (j_sends J p)) = length (sub p (j_recvs J q)).
Proof. intros Hp Hq. pose proof (common p q Hp Hq) as C. apply (f_equal (@length _)) in C. rewrite !map_length in C. exact C. Qed.

(** * Answers *)

Definition sent_to (p q : nat) (sig : list nat) : list ent :=
  flat_map (fun i => match nth_error (j_sends J p) i with
                     | Some e => if Nat.eqb (e_rank e) q then [e] else [] | None => [] end) sig.

Lemma sent_to_In p q sig e : In e (sent_to p q sig) <-> exists i, In i sig /\ nth_error (j_sends J p) i = Some e /\ e_rank e = q.
Proof.
  unfold sent_to. rewrite in_flat_map. split.
  - intros (i & Hi & H). destruct (nth_error (j_sends J p) i) as [e'|] eqn:E; [|destruct H].
    destruct (Nat.eqb_spec (e_rank e') q) as [Eq|]; [|destruct H]. destruct H as [->|[]]. eauto.
  - intros (i & Hi & E & Eq). exists i. split; [exact Hi|]. rewrite E, (proj2 (Nat.eqb_eq _ _) Eq). left; reflexivity.
Qed.

Definition orderly (p q : nat) (sig : list nat) : Prop := exists m, sent_to p q sig = firstn m (sub q (j_sends J p)).

Lemma existsb_nat x l : existsb (Nat.eqb x) l = true <-> In x l.
Proof.
  rewrite existsb_exists. split; [intros (y & H & E); apply Nat.eqb_eq in E; congruence|].
  intros H. exists x. split; [exact H|apply Nat.eqb_refl].
Qed.
Lemma in_turn_spec p sig i e : nth_error (j_sends J p) i = Some e -> in_turn J p sig i = true ->
  forall i' e', i' < i -> nth_error (j_sends J p) i' = Some e' -> e_rank e' = e_rank e -> In i' sig.
Proof.
  intros E H i' e' L E' R. unfold in_turn in H. rewrite forallb_forall in H.
  specialize (H i' ltac:(apply in_seq; lia)). unfold same_rank, rank_at, sends in H. rewrite E, E' in H. cbn [option_map] in H.
  rewrite (proj2 (Nat.eqb_eq _ _) (eq_sym R)) in H. cbn in H. apply existsb_nat, H.
Qed.

Lemma in_turn_count p sig i e : p < j_n J -> nth_error (j_sends J p) i = Some e -> ~ In i sig ->
  in_turn J p sig i = true -> orderly p (e_rank e) sig ->
  sent_to p (e_rank e) sig = firstn (before (j_sends J p) i) (sub (e_rank e) (j_sends J p)).
Proof.
  intros Hp E N T (m & Hm). pose proof (sends_nodup p Hp) as ND. set (q := e_rank e) in *.
  set (s := sub q (j_sends J p)) in *.
  assert (NDs : NoDup s) by (apply NoDup_filter, ND).
  pose proof (nth_before _ _ _ E) as B. fold q in B. fold s in B.
  assert (Ne : ~ In e (firstn m s)).
  { rewrite <- Hm. intros H. apply sent_to_In in H. destruct H as (i' & Hi & E' & _).
    apply N. replace i with i'; [exact Hi|]. apply (proj1 (NoDup_nth_error _) ND); [|congruence].
    apply nth_error_Some. congruence. }
  assert (L1 : m <= before (j_sends J p) i).
  { destruct (Nat.le_gt_cases m (before (j_sends J p) i)) as [|G]; [assumption|]. exfalso. apply Ne.
    apply (nth_error_In _ (before (j_sends J p) i)). rewrite nth_firstn by exact G. exact B. }
  rewrite Hm. destruct (Nat.eq_dec m (before (j_sends J p) i)) as [->|Nm]; [reflexivity|]. exfalso.
  destruct (nth_error s m) as [e'|] eqn:Em.
  2: { apply nth_error_None in Em. assert (before (j_sends J p) i < length s) by (apply nth_error_Some; congruence). lia. }
  destruct (sub_nth q (j_sends J p) m e' Em) as (i' & E' & R' & Bm).
  assert (i' < i) as L.
  { destruct (Nat.lt_ge_cases i' i) as [|G]; [assumption|]. exfalso.
    destruct (Nat.eq_dec i' i) as [->|Ni]; [lia|].
    pose proof (before_mono _ i i' e e' E E' ltac:(unfold q in *; congruence) ltac:(lia)). lia. }
  assert (In e' (sent_to p q sig)) as Hin.
  { apply sent_to_In. exists i'. split; [|auto]. apply (in_turn_spec p sig i e E T i' e' L E' R'). }
  rewrite Hm in Hin. apply In_nth_error in Hin. destruct Hin as (j & Hj).
  assert (Lj : j < length (firstn m s)) by (apply nth_error_Some; congruence). rewrite firstn_length in Lj.
  assert (Hj' : nth_error s j = Some e').
  { rewrite <- Hj. symmetry. apply nth_firstn. lia. }
  assert (j = m); [|lia]. apply (proj1 (NoDup_nth_error _) NDs); [lia|congruence].
Qed.
Lemma sent_to_app p q a b : sent_to p q (a ++ b) = sent_to p q a ++ sent_to p q b.
Proof. apply flat_map_app. Qed.
Lemma orderly_add p q sig i : p < j_n J -> (exists e, nth_error (j_sends J p) i = Some e) -> ~ In i sig ->
  in_turn J p sig i = true -> orderly p q sig -> orderly p q (sig ++ [i]).
Proof.
  intros Hp (e & E) N T O. unfold orderly. rewrite sent_to_app. cbn [sent_to flat_map]. rewrite E.
  destruct (Nat.eqb_spec (e_rank e) q) as [<-|Nq].
  - rewrite (in_turn_count p sig i e Hp E N T O). exists (S (before (j_sends J p) i)).
    symmetry. apply firstn_S, nth_before, E.
  - cbn [app]. rewrite app_nil_r. exact O.
Qed.

End Jobs.
