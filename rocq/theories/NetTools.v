(** Lemmas about the messages of phases. *)
From Coq Require Import List ZArith Bool Lia.
From Verif Require Import ContModel HashModel Base HashProof ContSpec ContProof OMap PairMap ProtoModel ProtoSpec.
From Verif Require Import NetModel NetSpec NetProof NetPhase HandProof.
Import ListNotations.
Local Open Scope nat_scope.
Local Arguments count : simpl never.
Local Arguments Nat.eqb : simpl never.
Local Arguments Nat.ltb : simpl never.

(** ** Lists and messages *)

Lemma set_of_In {K} (lt : K -> K -> bool) (O : swo lt) (EQ : forall a b, eqv lt a b = true -> a = b) l :
  forall s, sok lt s -> sok lt (fold_left (set_insert lt) l s) /\
    forall x, In x (fold_left (set_insert lt) l s) <-> In x l \/ In x s.
Proof.
  induction l as [|a l IH]; intros s G; cbn [fold_left].
  - split; [exact G|]. intros x. split; [auto|intros [[]|]; auto].
  - destruct (IH (set_insert lt s a) (sok_insert lt O s a G)) as [G' H]. split; [exact G'|].
    intros x. rewrite H, (In_set_insert lt O EQ s a x G). cbn. intuition; subst; auto.
Qed.

Lemma nset_In l x : In x (fold_left (set_insert Nat.ltb) l []) <-> In x l.
Proof.
  destruct (set_of_In Nat.ltb nltb_swo nEQ l [] (sok_nil _)) as [_ H]. rewrite H. cbn. intuition.
Qed.
Lemma nset_NoDup l : NoDup (fold_left (set_insert Nat.ltb) l []).
Proof.
  apply (sok_NoDup Nat.ltb nltb_swo). apply (set_of_In Nat.ltb nltb_swo nEQ l [] (sok_nil _)).
Qed.
Lemma zset_In l x : In x (fold_left (set_insert Z.ltb) l []) <-> In x l.
Proof.
  destruct (set_of_In Z.ltb zltb_swo zEQ l [] (sok_nil _)) as [_ H]. rewrite H. cbn. intuition.
Qed.
Lemma zset_NoDup l : NoDup (fold_left (set_insert Z.ltb) l []).
Proof.
  apply (sok_NoDup Z.ltb zltb_swo). apply (set_of_In Z.ltb zltb_swo zEQ l [] (sok_nil _)).
Qed.

Definition memb (r : nat) (l : list nat) : bool := existsb (Nat.eqb r) l.
Lemma memb_In r l : memb r l = true <-> In r l.
Proof.
  unfold memb. rewrite existsb_exists. split.
  - intros (x & H & E). apply Nat.eqb_eq in E. congruence.
  - intros H. exists r. split; [exact H|apply Nat.eqb_refl].
Qed.
Lemma memb_false r l : memb r l = false <-> ~ In r l.
Proof. rewrite <- memb_In. destruct (memb r l); intuition congruence. Qed.

Section Msgs.
Context {Msg : Type}.

Lemma msgs_to_app r (l1 l2 : list (nat * Msg)) : msgs_to r (l1 ++ l2) = msgs_to r l1 ++ msgs_to r l2.
Proof. unfold msgs_to. rewrite filter_app, map_app. reflexivity. Qed.

Lemma msgs_to_none r (l : list (nat * Msg)) : ~ In r (map fst l) -> msgs_to r l = [].
Proof.
  induction l as [|[d m] l IH]; intros H; [reflexivity|]. unfold msgs_to. cbn in *.
  destruct (Nat.eqb_spec d r); [exfalso; auto|]. apply IH. auto.
Qed.

Lemma msgs_single r (g : nat -> Msg) l : NoDup l ->
  msgs_to r (map (fun d => (d, g d)) l) = if memb r l then [g r] else [].
Proof.
  induction l as [|d l IH]; intros N; [reflexivity|]. inversion N; subst. cbn [map].
  change ((d, g d) :: map (fun d => (d, g d)) l) with ([(d, g d)] ++ map (fun d => (d, g d)) l).
  rewrite msgs_to_app, IH by auto. unfold msgs_to. cbn [filter map fst memb existsb].
  rewrite (Nat.eqb_sym r d). destruct (Nat.eqb_spec d r) as [->|E]; cbn [orb map app snd].
  - fold (memb r l). destruct (memb r l) eqn:M; [apply memb_In in M; contradiction|reflexivity].
  - fold (memb r l). reflexivity.
Qed.

Lemma msgs_flat {A} r (P : A -> list nat) (g : A -> nat -> Msg) l : (forall a, In a l -> NoDup (P a)) ->
  msgs_to r (flat_map (fun a => map (fun d => (d, g a d)) (P a)) l) =
  map (fun a => g a r) (filter (fun a => memb r (P a)) l).
Proof.
  induction l as [|a l IH]; intros H; [reflexivity|]. cbn [flat_map filter].
  rewrite msgs_to_app, (msgs_single r (g a)) by (apply H; left; reflexivity).
  rewrite IH by (intros; apply H; right; auto). destruct (memb r (P a)); reflexivity.
Qed.
End Msgs.

Lemma count_memb r l : NoDup l -> count r l = if memb r l then 1 else 0.
Proof.
  induction l as [|d l IH]; intros N; [reflexivity|]. inversion N; subst.
  rewrite count_cons, IH by auto. cbn [memb existsb]. fold (memb r l).
  destruct (Nat.eqb_spec r d) as [->|]; cbn [orb]; [|reflexivity].
  destruct (memb d l) eqn:M; [apply memb_In in M; contradiction|reflexivity].
Qed.

Lemma count_concat {A} r (P : A -> list nat) l : (forall a, In a l -> NoDup (P a)) ->
  count r (concat (map P l)) = length (filter (fun a => memb r (P a)) l).
Proof.
  induction l as [|a l IH]; intros H; [reflexivity|]. cbn [map concat filter].
  rewrite count_app, count_memb, IH by (intros; apply H; cbn; auto).
  destruct (memb r (P a)); reflexivity.
Qed.

Lemma omap_comp {A B D} (f : B -> option D) (g : A -> B) (h : A -> D) l :
  (forall a, In a l -> f (g a) = Some (h a)) -> omap f (map g l) = Some (map h l).
Proof.
  induction l as [|a l IH]; intros H; [reflexivity|]. cbn [map]. rewrite omap_cons.
  rewrite H by (left; reflexivity). rewrite IH by (intros; apply H; right; auto). reflexivity.
Qed.

Lemma nth_map_seq {A} (f : nat -> A) n r : r < n -> nth_error (map f (seq 0 n)) r = Some (f r).
Proof.
  intros H. apply map_nth_error.
  assert (G : forall k b i, i < k -> nth_error (seq b k) i = Some (b + i)).
  { induction k as [|k IH]; intros b i Hi; [lia|]. destruct i; cbn; [f_equal; lia|].
    rewrite IH by lia. f_equal; lia. }
  apply G, H.
Qed.

Lemma flat_map_filter {A B} (f : A -> list B) p l : (forall a, In a l -> p a = false -> f a = []) ->
  flat_map f (filter p l) = flat_map f l.
Proof.
  induction l as [|a l IH]; intros H; [reflexivity|]. cbn [filter flat_map].
  destruct (p a) eqn:E.
  - cbn [flat_map]. rewrite IH by (intros; apply H; cbn; auto). reflexivity.
  - rewrite (H a) by (cbn; auto). cbn [app]. apply IH. intros; apply H; cbn; auto.
Qed.

Lemma flat_map_nil {A B} (f : A -> list B) l : (forall a, In a l -> f a = []) -> flat_map f l = [].
Proof. induction l as [|a l IH]; intros H; cbn; [reflexivity|]. rewrite (H a) by (left; reflexivity). apply IH. intros; apply H; right; auto. Qed.

Lemma map_flat_map {A B D} (g : B -> D) (f : A -> list B) l : map g (flat_map f l) = flat_map (fun a => map g (f a)) l.
Proof. induction l as [|a l IH]; cbn; [reflexivity|]. rewrite map_app, IH. reflexivity. Qed.

Lemma filter_flat_map {A B} (p : B -> bool) (f : A -> list B) l :
  filter p (flat_map f l) = flat_map (fun a => filter p (f a)) l.
Proof. induction l as [|a l IH]; cbn; [reflexivity|]. rewrite filter_app, IH. reflexivity. Qed.

Lemma combine_map_r {A B} (f : A -> B) l : combine l (map f l) = map (fun a => (a, f a)) l.
Proof. induction l as [|a l IH]; cbn; [reflexivity|]. rewrite IH. reflexivity. Qed.

Lemma combine_grouped {A B} (f : A -> list B) l :
  combine (flat_map f l) (flat_map (fun s => repeat s (length (f s))) l) =
  flat_map (fun s => map (fun b => (b, s)) (f s)) l.
Proof.
  induction l as [|s l IH]; [reflexivity|]. cbn [flat_map]. rewrite <- IH.
  generalize (flat_map f l) (flat_map (fun s => repeat s (length (f s))) l). intros x y.
  induction (f s) as [|b q IHq]; cbn; [reflexivity|]. f_equal. exact IHq.
Qed.

Lemma filter_map {A B} (f : A -> B) p l : filter p (map f l) = map f (filter (fun a => p (f a)) l).
Proof. induction l as [|a l IH]; cbn; [reflexivity|]. rewrite IH. destruct (p (f a)); reflexivity. Qed.

Lemma filter_ext_in' {A} (p q : A -> bool) l : (forall a, In a l -> p a = q a) -> filter p l = filter q l.
Proof.
  induction l as [|a l IH]; intros H; [reflexivity|]. cbn. rewrite (H a) by (left; reflexivity). rewrite IH by (intros; apply H; right; auto). reflexivity.
Qed.


(** ** Messages between pairs of ranks *)
Section Pairs.
Context {St Msg : Type}.

Lemma msgs_to_pair r d (l : list Msg) : msgs_to r (map (fun m => (d, m)) l) = if Nat.eqb d r then l else [].
Proof.
  induction l as [|m l IH]; [destruct (Nat.eqb d r); reflexivity|]. unfold msgs_to in *. cbn [map filter fst].
  destruct (Nat.eqb d r); cbn [map snd]; [f_equal|]; exact IH.
Qed.

Lemma msgs_pairs r (g : nat -> list Msg) l : NoDup l ->
  msgs_to r (flat_map (fun d => map (fun m => (d, m)) (g d)) l) = if memb r l then g r else [].
Proof.
  induction l as [|d l IH]; intros N; [reflexivity|]. inversion N; subst. cbn [flat_map].
  rewrite msgs_to_app, IH, msgs_to_pair by auto. cbn [memb existsb]. fold (memb r l).
  rewrite (Nat.eqb_sym r d). destruct (Nat.eqb_spec d r) as [->|E]; cbn [orb app]; [|reflexivity].
  destruct (memb r l) eqn:M; [apply memb_In in M; contradiction|]. apply app_nil_r.
Qed.

(** Rank s sends the messages [g s d] to the ranks d in [dst s]; rank r receives from the
    ranks [src r]. *)
Lemma pair_phase n recvs sends f (S S' : nat -> St) (g : nat -> nat -> list Msg) (src dst : nat -> list nat) :
  (forall r, r < n -> NoDup (src r)) -> (forall r, r < n -> NoDup (dst r)) ->
  (forall r s, r < n -> In s (src r) -> s < n) -> (forall r s, r < n -> In s (dst r) -> s < n) ->
  (forall r s, r < n -> s < n -> (In s (src r) <-> In r (dst s))) ->
  (forall r, r < n -> recvs r (S r) = flat_map (fun s => repeat s (length (g s r))) (src r)) ->
  (forall r, r < n -> sends r (S r) = flat_map (fun d => map (fun m => (d, m)) (g r d)) (dst r)) ->
  (forall r, r < n -> f r (S r) (flat_map (fun s => g s r) (src r)) = Some (S' r)) ->
  phase_ok n (wait_all recvs sends f : phase St Msg) S S'.
Proof.
  intros N1 N2 L1 L2 Sym H1 H2 H3.
  assert (G : forall r s, r < n -> s < n -> msgs_to r (sends s (S s)) = if memb r (dst s) then g s r else []).
  { intros r s Hr Hs. rewrite H2 by exact Hs. apply msgs_pairs, N2, Hs. }
  assert (G' : forall r s, r < n -> In s (src r) -> msgs_to r (sends s (S s)) = g s r).
  { intros r s Hr Hs. rewrite G by eauto. rewrite (proj2 (memb_In r (dst s))); [reflexivity|].
    apply Sym; eauto. }
  apply wait_all_ok with (senders := src); auto.
  - intros r Hr. rewrite H1 by exact Hr. rewrite !flat_map_concat_map. f_equal.
    apply map_ext_in. intros s Hs. rewrite G' by auto. reflexivity.
  - intros r d m Hr H. rewrite H2 in H by exact Hr. apply in_flat_map in H as (q & Hq & H).
    apply in_map_iff in H as (m' & E & _). injection E as -> _. eauto.
  - intros r s Hr Hs H. rewrite G by auto. destruct (memb r (dst s)) eqn:E; [|reflexivity].
    exfalso. apply H. apply Sym; auto. apply memb_In, E.
  - intros r Hr. rewrite <- (H3 r Hr). f_equal. rewrite !flat_map_concat_map. f_equal.
    apply map_ext_in. intros s Hs. apply G'; auto.
Qed.

(** The same with one message for each pair. *)
Lemma single_phase n recvs sends f (S S' : nat -> St) (g : nat -> nat -> Msg) (src dst : nat -> list nat) :
  (forall r, r < n -> NoDup (src r)) -> (forall r, r < n -> NoDup (dst r)) ->
  (forall r s, r < n -> In s (src r) -> s < n) -> (forall r s, r < n -> In s (dst r) -> s < n) ->
  (forall r s, r < n -> s < n -> (In s (src r) <-> In r (dst s))) ->
  (forall r, r < n -> recvs r (S r) = src r) ->
  (forall r, r < n -> sends r (S r) = map (fun d => (d, g r d)) (dst r)) ->
  (forall r, r < n -> f r (S r) (map (fun s => g s r) (src r)) = Some (S' r)) ->
  phase_ok n (wait_all recvs sends f : phase St Msg) S S'.
Proof.
  intros N1 N2 L1 L2 Sym H1 H2 H3.
  apply pair_phase with (g := fun s d => [g s d]) (src := src) (dst := dst); auto.
  - intros r Hr. rewrite H1 by exact Hr. generalize (src r). clear. induction l as [|a l IH]; [reflexivity|]. cbn [flat_map map app repeat length]. f_equal. exact IH.
Qed.
End Pairs.
