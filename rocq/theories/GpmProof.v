(** Proofs about grid parameters. *)
From Coq Require Import List Bool Arith ZArith String Lia.
From Verif Require Import GpmModel GpmSpec.
Import ListNotations.
Local Open Scope Z_scope.

Lemma fold_set_at {V} (g : nat -> V) k : forall lo (f : nat -> V) x,
  fold_left (fun f d x => if Nat.eqb x d then g d else f x) (seq lo k) f x =
  if ((lo <=? x) && (x <? lo + k))%nat then g x else f x.
Proof.
  induction k as [|k IH]; intros lo f x; cbn [seq fold_left].
  - destruct (Nat.leb_spec lo x), (Nat.ltb_spec x (lo + 0)); cbn [andb]; try reflexivity; lia.
  - rewrite IH. destruct (Nat.eqb_spec x lo) as [->|N].
    + destruct (Nat.leb_spec (S lo) lo); [lia|]. cbn [andb].
      destruct (Nat.leb_spec lo lo), (Nat.ltb_spec lo (lo + S k)); cbn [andb]; try reflexivity; lia.
    + destruct (Nat.leb_spec (S lo) x), (Nat.ltb_spec x (S lo + k)), (Nat.leb_spec lo x),
        (Nat.ltb_spec x (lo + S k)); cbn [andb]; try reflexivity; lia.
Qed.

Lemma loop_set_at {V} lo hi (g f : nat -> V) x :
  loop_set lo hi g f x = if ((lo <=? x) && (x <? hi))%nat then g x else f x.
Proof.
  unfold loop_set. rewrite fold_set_at.
  destruct (Nat.leb_spec lo x), (Nat.ltb_spec x (lo + (hi - lo))), (Nat.ltb_spec x hi); cbn;
    try reflexivity; lia.
Qed.

Lemma assert_inv dbg c {A} (x : option A) y : assert_ dbg c x = Some y ->
  x = Some y /\ (dbg = true -> c = true).
Proof. unfold assert_. destruct dbg, c; cbn; intros H; try discriminate; auto. Qed.

Lemma dimension_values dbg junk jb n p p' : set_dimension dbg junk jb n p = Some p' ->
  (dbg = true -> n = 2%nat \/ n = 3%nat) /\ p_dim p' = n /\ p_name p' = p_name p /\ p_comm p' = p_comm p /\
  g_dim (p_cart p') = n /\ g_uniq (p_cart p') = g_uniq (p_cart p) /\
  forall d, (d < 3)%nat ->
    g_rng (p_cart p') d = (if (n <=? d)%nat then (0, 1) else g_rng (p_cart p) d) /\
    p_loc p' d = (if (n <=? d)%nat then (0, 1) else p_loc p d) /\
    g_per (p_cart p') d = (if (n <=? d)%nat then false else g_per (p_cart p) d).
Proof.
  unfold set_dimension. intros H. apply assert_inv in H. destruct H as [H A].
  destruct (Nat.ltb_spec MAX_DIMS n); [discriminate|]. injection H as <-. cbn [p_dim p_name p_comm p_cart g_dim g_uniq g_rng g_per p_loc].
  split; [|repeat (split; [reflexivity|])].
  - intros D. apply A in D. apply orb_prop in D. destruct D as [D|D]; apply Nat.eqb_eq in D; auto.
  - intros d Hd. unfold make_empty_range, make_uniform. rewrite !loop_set_at. unfold MAX_DIMS.
    destruct (Nat.leb_spec 0 d); [|lia]. cbn [andb].
    destruct (Nat.ltb_spec d n), (Nat.leb_spec n d), (Nat.ltb_spec d 3); cbn [andb];
      try (exfalso; lia); repeat split; reflexivity.
Qed.

Lemma last_given_step {V} (f : gop -> option V) (get : gparams -> V) dbg :
  (forall p o p', gstep dbg p o = Some p' ->
     get p' = match f o with Some v => v | None => get p end) ->
  forall l p p', grun dbg p l = Some p' -> last_given f (get p) l (get p').
Proof.
  intros S. induction l as [|o l IH]; intros p p' H; cbn in H.
  - injection H as <-. right. split; [reflexivity|]. intros o [].
  - destruct (gstep dbg p o) as [p1|] eqn:E; [|discriminate].
    destruct (IH p1 p' H) as [(l1 & q & l2 & -> & A & B)|[A B]].
    + left. exists (o :: l1), q, l2. auto.
    + pose proof (S p o p1 E) as G. destruct (f o) as [v|] eqn:Ef.
      * left. exists [], o, l. split; [reflexivity|]. split; [congruence|exact B].
      * right. split; [congruence|]. intros q [<-|Hq]; auto.
Qed.

Ltac strip H := repeat (apply assert_inv in H; destruct H as [H _]).

Ltac step_cases H o :=
  destruct o as [s|junk jb n|c|c|r|r|q|u]; cbn [gstep] in H;
  [injection H as <-
  |apply dimension_values in H; destruct H as (_ & Hd & Hn & Hc & Hg & Hu & Hv)
  |unfold set_comm in H; strip H; injection H as <-
  |unfold set_cart in H; strip H; injection H as <-
  |unfold set_global, check_range in H; strip H; injection H as <-
  |unfold set_local, check_range in H; strip H; injection H as <-
  |unfold set_periodic in H; strip H; injection H as <-
  |unfold set_storage in H; strip H; injection H as <-]; cbn; try reflexivity.

Lemma values_correct dbg l p : grun dbg gp0 l = Some p ->
  last_given gives_name "Grid"%string l (p_name p) /\ last_given gives_dim 2%nat l (p_dim p) /\
  last_given gives_comm None l (p_comm p) /\ last_given gives_storage true l (g_uniq (p_cart p)) /\
  forall d, (d < 3)%nat ->
    last_given (gives_global d) (0, 1) l (g_rng (p_cart p) d) /\
    last_given (gives_local d) (0, 1) l (p_loc p d) /\
    last_given (gives_periodic d) false l (g_per (p_cart p) d).
Proof.
  intros R. split; [|split; [|split; [|split]]].
  - apply (last_given_step gives_name p_name dbg) with (p := gp0) (2 := R).
    intros y o y' H. step_cases H o. exact Hn.
  - apply (last_given_step gives_dim p_dim dbg) with (p := gp0) (2 := R).
    intros y o y' H. step_cases H o. exact Hd.
  - apply (last_given_step gives_comm p_comm dbg) with (p := gp0) (2 := R).
    intros y o y' H. step_cases H o. exact Hc.
  - apply (last_given_step gives_storage (fun p => g_uniq (p_cart p)) dbg) with (p := gp0) (2 := R).
    intros y o y' H. step_cases H o. exact Hu.
  - intros d Ld. split; [|split].
    + apply (last_given_step (gives_global d) (fun p => g_rng (p_cart p) d) dbg) with (p := gp0) (2 := R).
      intros y o y' H. step_cases H o. destruct (Hv d Ld) as (-> & _ & _). destruct (n <=? d)%nat; reflexivity.
    + apply (last_given_step (gives_local d) (fun p => p_loc p d) dbg) with (p := gp0) (2 := R).
      intros y o y' H. step_cases H o. destruct (Hv d Ld) as (_ & -> & _). destruct (n <=? d)%nat; reflexivity.
    + apply (last_given_step (gives_periodic d) (fun p => g_per (p_cart p) d) dbg) with (p := gp0) (2 := R).
      intros y o y' H. step_cases H o. destruct (Hv d Ld) as (_ & _ & ->). destruct (n <=? d)%nat; reflexivity.
Qed.

(** * Which calls are accepted *)

Lemma all_dims_spec lo f : all_dims lo f = true <-> forall d, (d < 3)%nat -> (lo <= d)%nat -> f d = true.
Proof.
  unfold all_dims, MAX_DIMS. rewrite forallb_forall. split; intros H d.
  - intros A B. apply H, in_seq. lia.
  - intros A. apply in_seq in A. apply H; lia.
Qed.

Lemma range_empty_spec r : range_empty r = false <-> forall d, (d < 3)%nat -> fst (r d) < snd (r d).
Proof.
  unfold range_empty, MAX_DIMS. split.
  - intros H d Hd. destruct (Z.ltb_spec (fst (r d)) (snd (r d))); [assumption|exfalso].
    assert (existsb (fun d => snd (r d) <=? fst (r d)) (seq 0 3) = true); [|congruence].
    apply existsb_exists. exists d. split; [apply in_seq; lia|]. apply Z.leb_le. lia.
  - intros H. destruct (existsb _ _) eqn:E; [|reflexivity]. apply existsb_exists in E.
    destruct E as (d & A & B). apply in_seq in A. apply Z.leb_le in B. specialize (H d). lia.
Qed.

Lemma assert_ok c {A} (x : option A) : (exists y, assert_ true c x = Some y) <->
  c = true /\ exists y, x = Some y.
Proof.
  unfold assert_. destruct c; cbn; split.
  - auto.
  - tauto.
  - intros [y H]; discriminate.
  - intros [H _]; discriminate.
Qed.

Lemma some_ok {A} (a : A) : (exists y, Some a = Some y) <-> True.
Proof. split; [auto|]. intros _. exists a. reflexivity. Qed.

Lemma check_ok r p {A} (a : A) : (exists y, check_range true r p (Some a) = Some y) <-> fits (p_dim p) r.
Proof.
  unfold check_range. rewrite !assert_ok, some_ok, negb_true_iff, range_empty_spec, all_dims_spec.
  unfold fits. split.
  - intros (A1 & B & _) d Hd. split; [apply A1, Hd|]. intros Hn. specialize (B d Hd Hn).
    apply andb_prop in B. destruct B as [B C]. apply Z.eqb_eq in B, C. destruct (r d); cbn in *; congruence.
  - intros H. split; [intros d Hd; apply H, Hd|]. split; [|exact I]. intros d Hd Hn.
    rewrite (proj2 (H d Hd) Hn). reflexivity.
Qed.

Lemma accepts_correct p o : (exists p', gstep true p o = Some p') <-> legal (p_dim p) o.
Proof.
  destruct o as [s|junk jb n|c|c|r|r|q|u]; cbn [gstep legal].
  - apply some_ok.
  - unfold set_dimension. rewrite assert_ok. split.
    + intros [A _]. apply orb_prop in A. destruct A as [A|A]; apply Nat.eqb_eq in A; auto.
    + intros [->| ->]; (split; [reflexivity|]); cbn [Nat.ltb Nat.leb MAX_DIMS]; eexists; reflexivity.
  - unfold set_comm. rewrite assert_ok, some_ok. destruct c; split.
    + intros _ E. discriminate E.
    + intros _. split; [reflexivity|exact I].
    + intros [H _]. discriminate H.
    + intros H. destruct (H eq_refl).
  - unfold set_cart. rewrite !assert_ok, some_ok, Nat.eqb_eq, !all_dims_spec. split.
    + intros (A & B & C & D & _). split; [exact A|]. split; [exact D|]. intros d Hd.
      specialize (B d Hd (Nat.le_0_l d)). specialize (C d Hd (Nat.le_0_l d)).
      apply Z.eqb_eq in B. apply Z.ltb_lt in C. lia.
    + intros (A & D & B). split; [exact A|]. split; [|split; [|tauto]]; intros d Hd _.
      * apply Z.eqb_eq, B, Hd.
      * apply Z.ltb_lt. specialize (B d Hd). lia.
  - apply check_ok.
  - apply check_ok.
  - unfold set_periodic. rewrite assert_ok, some_ok, all_dims_spec. split.
    + intros [A _] d Hd Hn. apply negb_true_iff, A; assumption.
    + intros A. split; [|exact I]. intros d Hd Hn. apply negb_true_iff, A; assumption.
  - unfold set_storage. rewrite assert_ok, some_ok. tauto.
Qed.

Lemma valid0 : valid gp0.
Proof.
  unfold valid, fits. cbn. split; [auto|]. repeat (split; [reflexivity|]).
  split; [intros; split; [lia|reflexivity]|]. split; [intros; split; [lia|reflexivity]|reflexivity].
Qed.

Lemma valid_step p o p' : valid p -> flat o -> gstep true p o = Some p' -> valid p'.
Proof.
  intros (V1 & V2 & V3 & V4 & V5 & V6) F H.
  assert (L : legal (p_dim p) o) by (apply accepts_correct; eauto).
  destruct o as [s|junk jb n|c|c|r|r|q|u]; cbn [gstep legal flat] in *.
  - injection H as <-. unfold valid. cbn. tauto.
  - apply dimension_values in H. destruct H as (_ & Hd & Hn & Hc & Hg & Hu & Hv).
    unfold valid. rewrite Hd, Hg, Hu. split; [exact L|]. split; [reflexivity|]. split; [exact V3|].
    unfold fits in *. split; [|split]; intros d Ld; destruct (Hv d Ld) as (E1 & E2 & E3); rewrite ?E1, ?E2, ?E3.
    + destruct (Nat.leb_spec n d); [split; [cbn; lia|auto]|]. split; [apply V4, Ld|lia].
    + destruct (Nat.leb_spec n d); [split; [cbn; lia|auto]|]. split; [apply V5, Ld|lia].
    + intros Hle. destruct (Nat.leb_spec n d); [reflexivity|lia].
  - unfold set_comm in H. strip H. injection H as <-. unfold valid. cbn. tauto.
  - unfold set_cart in H. strip H. injection H as <-. unfold valid. cbn.
    destruct L as (A & B & C). rewrite A in F. unfold fits in *.
    split; [exact V1|]. split; [exact A|]. split; [exact B|]. split; [|split; [exact V5|]].
    + intros d Ld. split; [specialize (C d Ld); lia|]. intros Hn. apply (F d Ld Hn).
    + intros d Ld Hn. apply (F d Ld Hn).
  - unfold set_global, check_range in H. strip H. injection H as <-. unfold valid. cbn. tauto.
  - unfold set_local, check_range in H. strip H. injection H as <-. unfold valid. cbn. tauto.
  - unfold set_periodic in H. strip H. injection H as <-. unfold valid. cbn. tauto.
  - unfold set_storage in H. strip H. injection H as <-. unfold valid. cbn. tauto.
Qed.

Lemma valid_correct l : Forall flat l -> forall p, grun true gp0 l = Some p -> valid p.
Proof.
  intros F. assert (G : forall q, valid q -> forall p, grun true q l = Some p -> valid p); [|apply G, valid0].
  induction F as [|o l Fo _ IH]; intros q V p H; cbn [grun] in H.
  - injection H as <-. exact V.
  - destruct (gstep true q o) as [q1|] eqn:E; [|discriminate].
    apply (IH q1 (valid_step q o q1 V Fo E) p H).
Qed.
