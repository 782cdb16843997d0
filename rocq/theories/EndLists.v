(** Importing XINTOUT files: parts held by ranks are all parts. *)
From Coq Require Import List ZArith Bool Lia Permutation.
From Verif Require Import TupleModel Base ArrayProof HashModel XinModel XinSpec XinChunk XinFile MatModel MatSpec MatFile EndModel EndSpec.
Import ListNotations.
Local Open Scope Z_scope.

Lemma filter_split {A} (f g : A -> bool) l : (forall x, In x l -> f x && g x = false) -> Permutation (filter f l ++ filter g l) (filter (fun x => f x || g x) l).
Proof.
  induction l as [|a l IH]; intros H; [constructor|]. cbn [filter]. pose proof (H a (or_introl eq_refl)) as Ha. specialize (IH (fun x Hx => H x (or_intror Hx))).
  destruct (f a), (g a); cbn in *; try discriminate.
  - now constructor.
  - etransitivity; [symmetry; apply Permutation_middle|]. now constructor.
  - exact IH.
Qed.
Lemma by_key {A} (k : A -> nat) (l : list A) R : NoDup R -> Permutation (flat_map (fun r => filter (fun x => Nat.eqb (k x) r) l) R) (filter (fun x => existsb (Nat.eqb (k x)) R) l).
Proof.
  induction R as [|r R IH]; intros ND; cbn [flat_map existsb].
  - clear. induction l; [constructor|exact IHl].
  - inversion ND; subst. rewrite (IH H2). apply filter_split. intros x _. destruct (Nat.eqb_spec (k x) r) as [E|E]; [|reflexivity]. cbn [andb].
    destruct (existsb (Nat.eqb (k x)) R) eqn:F; [|reflexivity]. apply existsb_exists in F as (y & Y1 & Y2). apply Nat.eqb_eq in Y2. exfalso. apply H1. congruence.
Qed.
Lemma filter_all {A} (f : A -> bool) l : (forall x, In x l -> f x = true) -> filter f l = l.
Proof. induction l as [|a l IH]; intros H; [reflexivity|]. cbn. rewrite (H a (or_introl eq_refl)). f_equal. apply IH. intros x Hx. apply H. now right. Qed.
Lemma flat_map_map {A B C} (f : A -> list B) (g : B -> C) l : flat_map (fun a => map g (f a)) l = map g (flat_map f l).
Proof. induction l; [reflexivity|]. cbn. now rewrite IHl, map_app. Qed.
Lemma snd_numbered {A} (l : list A) : map snd (numbered l) = l.
Proof. unfold numbered. generalize 0%nat. induction l as [|a l IH]; intros s; [reflexivity|]. cbn. now rewrite IH. Qed.
Lemma held_all {A} (h : nat -> nat) (l : list A) R : NoDup R -> (forall k, (k < length l)%nat -> In (h k) R) -> Permutation (flat_map (fun r => held h r l) R) l.
Proof.
  intros ND H. unfold held. rewrite flat_map_map. transitivity (map snd (numbered l)); [|now rewrite snd_numbered]. apply Permutation_map.
  etransitivity; [exact (by_key (fun x : nat * A => h (fst x)) (numbered l) R ND)|]. rewrite filter_all; [reflexivity|].
  intros (k & x) Hx. apply in_numbered in Hx. apply existsb_exists. exists (h k). split; [apply H, nth_error_Some; congruence|]. apply Nat.eqb_refl.
Qed.
Lemma perm_flat_map {A B} (f : A -> list B) l l' : Permutation l l' -> Permutation (flat_map f l) (flat_map f l').
Proof.
  induction 1; cbn.
  - constructor.
  - now apply Permutation_app_head.
  - rewrite !app_assoc. apply Permutation_app_tail, Permutation_app_comm.
  - etransitivity; eauto.
Qed.
Lemma flat_map_twice {A B C} (f : A -> list B) (g : B -> list C) l : flat_map g (flat_map f l) = flat_map (fun a => flat_map g (f a)) l.
Proof. induction l; [reflexivity|]. cbn. now rewrite flat_map_app, IHl. Qed.
Lemma flat_map_length_eq {A B C} (f : A -> list B) (g : A -> list C) l : (forall a, In a l -> length (f a) = length (g a)) -> length (flat_map f l) = length (flat_map g l).
Proof. induction l as [|a l IH]; intros H; [reflexivity|]. cbn. rewrite !app_length, (H a (or_introl eq_refl)), IH; [reflexivity|]. intros; apply H; now right. Qed.

Lemma rank_in_nth r l q : rank_in r l = Some q -> nth_error l q = Some r.
Proof.
  revert q. induction l as [|x l IH]; intros q H; [discriminate|]. cbn in H. destruct (Nat.eqb_spec x r) as [->|]; [now injection H as <-|].
  destruct (rank_in r l) as [k|]; [|discriminate]. injection H as <-. cbn. now apply IH.
Qed.
Lemma nth_rank_in r l q : NoDup l -> nth_error l q = Some r -> rank_in r l = Some q.
Proof.
  revert q. induction l as [|x l IH]; intros q ND H; [destruct q; discriminate|]. inversion ND; subst. cbn. destruct q as [|q]; cbn in H.
  - injection H as ->. now rewrite Nat.eqb_refl.
  - destruct (Nat.eqb_spec x r) as [->|]; [exfalso; apply H2; eapply nth_error_In; eauto|]. now rewrite (IH q H3 H).
Qed.

Lemma nth_numbered {A} (l : list A) k : nth_error (numbered l) k = option_map (pair k) (nth_error l k).
Proof.
  unfold numbered. assert (X : forall s, nth_error (combine (seq s (length l)) l) k = option_map (pair (s + k)%nat) (nth_error l k)).
  { revert k. induction l as [|a l IH]; intros k s; [destruct k; reflexivity|]. destruct k; cbn; [now rewrite Nat.add_0_r|]. rewrite IH. destruct (nth_error l k); [|reflexivity]. cbn. now rewrite Nat.add_succ_r. }
  apply X.
Qed.
Lemma nth_all {A} (l : list A) : forall l', (forall k, nth_error l k = nth_error l' k) -> l = l'.
Proof.
  induction l as [|a l IH]; intros [|b l'] H; auto; try (specialize (H 0%nat); discriminate). f_equal; [specialize (H 0%nat); now injection H|]. apply IH. intros k. exact (H (S k)).
Qed.
Lemma part_numbered {A} c (l : list A) k : map (fun x => ((Z.to_nat c * k + fst x)%nat, snd x)) (numbered (part c l k)) = part c (numbered l) k.
Proof.
  apply nth_all. intros j. rewrite nth_error_map, nth_numbered, !nth_part. destruct (j <? Z.to_nat c)%nat; [|reflexivity]. rewrite nth_numbered. now destruct (nth_error l (Z.to_nat c * k + j)).
Qed.

(** The donors of a part with their IDs. *)
Definition with_ids (c : donor_chunk) : list (Z * donor_entry) := map (fun x => (dc_start c + Z.of_nat (fst x), snd x)) (numbered (dc_data c)).
Lemma items_with_ids g c : donor_items g c = map (fun y => Item (fst y) (g, e_begin (snd y))) (with_ids c).
Proof. unfold donor_items, with_ids. rewrite map_map. reflexivity. Qed.
Lemma data_with_ids c : dc_data c = map snd (with_ids c).
Proof. unfold with_ids. rewrite map_map. cbn. symmetry. apply snd_numbered. Qed.
Lemma numbered_map {A B} (f : A -> B) l : numbered (map f l) = map (fun x => (fst x, f (snd x))) (numbered l).
Proof. unfold numbered. rewrite map_length. generalize 0%nat. induction l as [|a l IH]; intros s; [reflexivity|]. cbn. now rewrite IH. Qed.
Lemma len_numbered {A} (l : list A) : len (numbered l) = len l.
Proof. unfold len. rewrite <- (snd_numbered l) at 2. now rewrite map_length. Qed.

Lemma combine_maps {A B C} (f : A -> B) (g : A -> C) l : combine (map f l) (map g l) = map (fun x => (f x, g x)) l.
Proof. induction l; [reflexivity|]. cbn. now rewrite IHl. Qed.
Lemma forall2_fun {A B} (P : A -> B -> Prop) (f : A -> B) l l' : (forall a b, In a l -> P a b -> b = f a) -> Forall2 P l l' -> l' = map f l.
Proof. intros H F. induction F; [reflexivity|]. cbn. f_equal; [apply H; [now left|assumption]|]. apply IHF. intros a b Ha. apply H. now right. Qed.
Lemma find_first {A} (f : A -> bool) l x : In x l -> f x = true -> (forall y, In y l -> f y = true -> y = x) -> find f l = Some x.
Proof.
  intros H1 H2 H3. destruct (find f l) as [y|] eqn:E.
  - apply find_some in E as [E1 E2]. f_equal. auto.
  - exfalso. pose proof (find_none _ _ E x H1). congruence.
Qed.
Lemma same_id l x y : NoDup (map it_id l) -> In x l -> In y l -> it_id x = it_id y -> x = y.
Proof.
  induction l as [|a l IH]; intros ND Hx Hy E; [destruct Hx|]. cbn in ND. apply NoDup_cons_iff in ND as [N1 N2]. destruct Hx as [<-|Hx], Hy as [<-|Hy]; auto.
  - exfalso. apply N1. rewrite E. now apply in_map.
  - exfalso. apply N1. rewrite <- E. now apply in_map.
Qed.
Lemma consistent_NoDup gs : consistent gs -> NoDup (map it_id (file_donors gs)) /\ NoDup (map it_id (file_receivers gs)).
Proof.
  assert (X : forall t, NoDup (upto t)) by (intros t; unfold upto; apply FinFun.Injective_map_NoDup; [intros a b; lia|apply seq_NoDup]).
  intros [C1 C2]. split; [apply (Permutation_NoDup (Permutation_sym C1)), X|apply (Permutation_NoDup (Permutation_sym C2)), X].
Qed.
Lemma place_unique l x : NoDup (map it_id l) -> In x l -> place_of l (it_id x) = it_place x.
Proof.
  intros ND H. unfold place_of. rewrite (find_first _ l x H); [reflexivity|apply Z.eqb_refl|]. intros y Hy E. apply Z.eqb_eq in E. eapply same_id; eauto.
Qed.
(** Choice for finitely many. *)
Lemma choose {A} (P : nat -> A -> Prop) (a : A) g : (forall i, (i < g)%nat -> exists x, P i x) -> exists f, forall i, (i < g)%nat -> P i (f i).
Proof.
  induction g as [|g IH]; intros H; [exists (fun _ => a); lia|]. destruct IH as [f Hf]; [intros; apply H; lia|]. destruct (H g ltac:(lia)) as [x Hx].
  exists (fun i => if Nat.eqb i g then x else f i). intros i Hi. destruct (Nat.eqb_spec i g) as [->|]; [exact Hx|]. apply Hf. lia.
Qed.
