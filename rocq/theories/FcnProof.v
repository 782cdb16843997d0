(** Proofs about the fragments that are to be transferred (C84). *)
From Coq Require Import List ZArith Bool Arith Lia Sorting.Sorted.
From Verif Require Import TupleModel RangeModel ArrayModel ContModel ContSpec ContProof HashModel HashProof ProtoModel ProtoSpec NetModel NetSpec NetProof NetPhase.
From Verif Require Import FtxModel FtxSpec FcnModel FcnSpec.
Import ListNotations.
Local Open Scope nat_scope.

(** * Sets in the order of their keys *)

Section Keys.
Context {A : Type} (key : A -> list Z) (m : nat).
Hypothesis Hlen : forall a, length (key a) = m.
Hypothesis Hinj : forall a b, key a = key b -> a = b.

Lemma klt_total : strict_total_on (fun _ : A => True) (klt key).
Proof.
  destruct (lex_strict_total m) as (T1 & T2 & T3). unfold klt. split; [|split].
  - intros a _. apply T1, Hlen.
  - intros a b c _ _ _. apply T2; apply Hlen.
  - intros a b _ _. destruct (T3 (key a) (key b) (Hlen a) (Hlen b)) as [H|[H|H]]; auto.
Qed.
Lemma klt_swo : swo_on (fun _ : A => True) (klt key).
Proof.
  destruct klt_total as (T1 & T2 & T3). apply total_swo; [exact T1|exact T2|].
  intros a b Ha Hb X Y. destruct (T3 a b Ha Hb) as [H|[H|H]]; congruence.
Qed.
Lemma klt_eqv a b : eqv (klt key) a b = true -> a = b.
Proof.
  intros H. apply eqv_iff in H. destruct H as (X & Y). destruct klt_total as (_ & _ & T3).
  destruct (T3 a b I I) as [H|[H|H]]; congruence.
Qed.
Lemma all_true (l : list A) : Forall (fun _ => True) l.
Proof. apply Forall_forall. auto. Qed.
Lemma kset_gen l : forall s, good (fun _ => True) (klt key) s ->
  good (fun _ => True) (klt key) (fold_left (set_insert (klt key)) l s) /\
  forall x, In x (fold_left (set_insert (klt key)) l s) <-> In x s \/ In x l.
Proof.
  induction l as [|v l IH]; intros s G; cbn [fold_left In]; [split; [exact G|tauto]|].
  destruct (set_insert_good (fun _ => True) (klt key) klt_swo s v G I) as (G1 & L1).
  destruct (IH _ G1) as (G2 & I2). split; [exact G2|]. intros x. rewrite I2.
  assert (E : In x (set_insert (klt key) s v) <-> In x s \/ v = x).
  { specialize (L1 x I). unfold fadd in L1.
    assert (Eq : eqv (klt key) x x = true) by (apply eqv_iff; destruct klt_total as (T1 & _); split; apply T1; exact I).
    split.
    - intros H. apply set_insert_In in H. destruct H as [->|H]; auto.
    - intros H. destruct (eqv (klt key) x v) eqn:Ev.
      + apply klt_eqv in Ev. subst v. destruct (lookup (klt key) s x) as [y|] eqn:El.
        * pose proof (lookup_some_In _ _ _ _ L1) as Hy. unfold lookup in L1. apply find_some in L1. destruct L1 as (_ & L1).
          apply klt_eqv in L1. subst y. exact Hy.
        * eapply lookup_some_In, L1.
      + destruct H as [H|H]; [|subst; congruence].
        rewrite (lookup_In _ _ klt_swo s x (g_inc _ _ _ G) (g_D _ _ _ G) H) in L1. eapply lookup_some_In, L1. }
  rewrite E. tauto.
Qed.
Lemma kset_In l x : In x (kset key l) <-> In x l.
Proof.
  unfold kset. destruct (kset_gen l []) as (_ & H); [constructor; constructor|]. rewrite H. cbn [In]. tauto.
Qed.
Lemma kset_sorted l : StronglySorted (fun a b => klt key a b = true) (kset key l).
Proof. unfold kset. destruct (kset_gen l []) as (G & _); [constructor; constructor|]. apply (g_inc _ _ _ G). Qed.
Lemma sorted_nodup l : StronglySorted (fun a b => klt key a b = true) l -> NoDup l.
Proof.
  induction 1 as [|a l S IH F]; constructor; [|exact IH]. intros H. rewrite Forall_forall in F. specialize (F a H).
  destruct klt_total as (T1 & _). rewrite T1 in F by exact I. discriminate.
Qed.
Lemma kset_nodup l : NoDup (kset key l).
Proof. apply sorted_nodup, kset_sorted. Qed.
Lemma sorted_same l : forall l', StronglySorted (fun a b => klt key a b = true) l -> StronglySorted (fun a b => klt key a b = true) l' ->
  (forall x, In x l <-> In x l') -> l = l'.
Proof.
  destruct klt_total as (T1 & T2 & T3).
  induction l as [|a l IH]; intros [|b l'] S S' H; [reflexivity| | |].
  - elim (proj2 (H b) (or_introl eq_refl)).
  - elim (proj1 (H a) (or_introl eq_refl)).
  - inversion S as [|x y Sl Fl]; inversion S' as [|x' y' Sl' Fl']; subst. rewrite Forall_forall in Fl, Fl'.
    assert (a = b).
    { destruct (proj1 (H a) (or_introl eq_refl)) as [E|E]; [congruence|].
      destruct (proj2 (H b) (or_introl eq_refl)) as [E'|E']; [congruence|].
      specialize (Fl' a E). specialize (Fl b E'). pose proof (T2 a b a I I I Fl Fl') as X. rewrite T1 in X by exact I. discriminate. }
    subst b. f_equal. apply IH; [exact Sl|exact Sl'|]. intros x. split; intros Hx.
    + destruct (proj1 (H x) (or_intror Hx)) as [E|E]; [|exact E]. subst x. specialize (Fl a Hx). rewrite T1 in Fl by exact I. discriminate.
    + destruct (proj2 (H x) (or_intror Hx)) as [E|E]; [|exact E]. subst x. specialize (Fl' a Hx). rewrite T1 in Fl' by exact I. discriminate.
Qed.
End Keys.

Lemma sorted_map {A B} (R : A -> A -> Prop) (R' : B -> B -> Prop) (f : A -> B) l : StronglySorted R l ->
  (forall a b, In a l -> In b l -> R a b -> R' (f a) (f b)) -> StronglySorted R' (map f l).
Proof.
  induction 1 as [|a l S IH F]; intros H; cbn; constructor.
  - apply IH. intros x y Hx Hy. apply H; right; assumption.
  - apply Forall_forall. intros y Hy. apply in_map_iff in Hy. destruct Hy as (b & <- & Hb).
    rewrite Forall_forall in F. apply H; [left; reflexivity|right; exact Hb|apply F, Hb].
Qed.
Lemma sorted_filter {A} (R : A -> A -> Prop) (p : A -> bool) l : StronglySorted R l -> StronglySorted R (filter p l).
Proof.
  induction 1 as [|a l S IH F]; cbn; [constructor|]. destruct (p a); [|exact IH]. constructor; [exact IH|].
  apply Forall_forall. intros b Hb. apply filter_In in Hb. rewrite Forall_forall in F. apply F, Hb.
Qed.

(** * Messages matched by what they are about *)

Section Keyed.
Context {St Msg K B : Type}.
Variables (n : nat) (recvs : nat -> St -> list nat) (sends : nat -> St -> list (nat * Msg)) (f : nat -> St -> list Msg -> option St).
Variables (S S' : nat -> St) (rk : K -> nat) (about : K -> B) (ms mr : nat -> list K) (msg : nat -> nat -> B -> Msg).
Hypothesis Hr : forall p, p < n -> recvs p (S p) = map rk (ms p).
Hypothesis Hs : forall s, s < n -> sends s (S s) = map (fun k => (rk k, msg s (rk k) (about k))) (mr s).
Hypothesis Hn : forall p k, p < n -> In k (ms p) \/ In k (mr p) -> rk k < n.
Hypothesis Ha : forall p s, p < n -> s < n ->
  map about (filter (fun k => Nat.eqb (rk k) s) (ms p)) = map about (filter (fun k => Nat.eqb (rk k) p) (mr s)).
Hypothesis Hf : forall p, p < n -> f p (S p) (map (fun k => msg (rk k) p (about k)) (ms p)) = Some (S' p).

Lemma msgs_keyed p s : s < n -> msgs_to p (sends s (S s)) = map (fun k => msg s p (about k)) (filter (fun k => Nat.eqb (rk k) p) (mr s)).
Proof.
  intros L. rewrite (Hs s L). unfold msgs_to. induction (mr s) as [|k l IH]; [reflexivity|]. cbn [map filter fst].
  destruct (Nat.eqb_spec (rk k) p) as [E|]; [|exact IH]. cbn [map snd]. rewrite IH, E. reflexivity.
Qed.
Lemma count_keyed s l : count s (map rk l) = length (filter (fun k => Nat.eqb (rk k) s) l).
Proof.
  unfold count. induction l as [|k l IH]; [reflexivity|]. cbn [map filter]. rewrite (Nat.eqb_sym s).
  destruct (Nat.eqb (rk k) s); cbn [length]; rewrite IH; reflexivity.
Qed.
Lemma nth_filter (P : K -> bool) : forall l i k, nth_error l i = Some k -> P k = true ->
  nth_error (filter P l) (length (filter P (firstn i l))) = Some k.
Proof.
  induction l as [|a l IH]; intros [|i] k E HP; cbn in *; try discriminate.
  - injection E as ->. rewrite HP. reflexivity.
  - destruct (P a); cbn; apply IH; assumption.
Qed.
Lemma keyed_ok : phase_ok n (wait_all recvs sends f : phase St Msg) S S'.
Proof.
  unfold wait_all, phase_ok. split.
  - intros p Hp. cbn [p_recvs p_sends]. split; [|split].
    + intros s H. rewrite (Hr p Hp) in H. apply in_map_iff in H. destruct H as (k & <- & Hk). apply (Hn p k Hp). left; exact Hk.
    + intros d m H. rewrite (Hs p Hp) in H. apply in_map_iff in H. destruct H as (k & [= <- <-] & Hk). apply (Hn p k Hp). right; exact Hk.
    + intros s Hs'. rewrite (Hr p Hp), count_keyed, (msgs_keyed p s Hs'), map_length.
      rewrite <- (map_length about), (Ha p s Hp Hs'), map_length. reflexivity.
  - intros p l Hp A. cbn [p_done].
    pose proof (buffers_arrival _ S p l (map (fun k => msg (rk k) p (about k)) (ms p)) A) as Bf. cbn [p_recvs] in Bf. rewrite Bf; clear Bf.
    + apply Hf, Hp.
    + rewrite (Hr p Hp), !map_length. reflexivity.
    + rewrite map_length. intros i Hi. unfold recv_msg. cbn [p_recvs p_sends]. rewrite (Hr p Hp).
      destruct (nth_error (ms p) i) as [k|] eqn:E; [|apply nth_error_None in E; lia].
      rewrite !nth_error_map, E. cbn [option_map].
      assert (Lk : rk k < n) by (apply (Hn p k Hp); left; eapply nth_error_In; eauto).
      rewrite (msgs_keyed p (rk k) Lk), nth_error_map.
      rewrite firstn_map, count_keyed.
      pose proof (nth_filter (fun x => Nat.eqb (rk x) (rk k)) (ms p) i k E (Nat.eqb_refl _)) as X.
      pose proof (f_equal (fun y => nth_error y (length (filter (fun x => Nat.eqb (rk x) (rk k)) (firstn i (ms p))))) (Ha p (rk k) Hp Lk)) as Y.
      cbn beta in Y. rewrite !nth_error_map, X in Y. cbn [option_map] in Y.
      match goal with |- option_map _ ?o = _ => destruct o as [k'|] end; [|discriminate Y]. cbn [option_map] in *. injection Y as ->. reflexivity.
Qed.
End Keyed.
