From Coq Require Import ZArith List Bool Arith Lia.
From Verif Require Import FRefModel FRefSpec.
Import ListNotations.

Lemma upd_same {A} (f : nat -> A) n v : upd f n v n = v.
Proof. unfold upd. rewrite Nat.eqb_refl. reflexivity. Qed.
Lemma upd_other {A} (f : nat -> A) n v m : m <> n -> upd f n v m = f m.
Proof. unfold upd. intros H. apply Nat.eqb_neq in H. rewrite H. reflexivity. Qed.

Ltac upds := unfold upd in *;
  repeat match goal with
  | H : context [Nat.eqb ?a ?b] |- _ => destruct (Nat.eqb_spec a b); subst
  | |- context [Nat.eqb ?a ?b] => destruct (Nat.eqb_spec a b); subst
  end; try congruence.

Section P.
Context (addr : nat -> Z).
Notation fstep := (fstep addr).
Notation frun := (frun addr).

Record finv (s : fst_) : Prop := {
  fi_gen : forall n l, f_gen s n = Some (Some l) -> f_heap s l = Some (addr n) /\ l < f_next s;
  fi_inj : forall n n' l, f_gen s n = Some (Some l) -> f_gen s n' = Some (Some l) -> n = n';
  fi_next : forall l, f_next s <= l -> f_heap s l = None;
  fi_ref : forall r l o, f_ref s r = Some (l, o) -> l < f_next s }.

Lemma finv0 : finv fst0.
Proof. split; cbn; discriminate || reflexivity. Qed.

Lemma gen_new_inv s n s' : finv s -> gen_new addr s n = Some s' -> finv s'.
Proof.
  intros I. unfold gen_new. destruct (f_gen s n) eqn:G; [discriminate|]. intros [= <-].
  split; cbn.
  - intros m l. unfold upd. destruct (Nat.eqb_spec m n) as [->|N].
    + intros [= <-]. rewrite Nat.eqb_refl. split; [reflexivity|lia].
    + intros Hl. destruct (fi_gen s I m l Hl) as [A B].
      destruct (Nat.eqb_spec l (f_next s)); [lia|]. split; [exact A|lia].
  - intros m m' l. unfold upd. destruct (Nat.eqb_spec m n) as [->|N], (Nat.eqb_spec m' n) as [->|N'].
    + auto.
    + intros [= <-] H. apply (fi_gen s I) in H. lia.
    + intros H [= <-]. apply (fi_gen s I) in H. lia.
    + apply (fi_inj s I).
  - intros l Hl. rewrite upd_other by lia. apply (fi_next s I). lia.
  - intros r l o H. apply (fi_ref s I) in H. lia.
Qed.

Lemma fstep_inv s o s' : finv s -> fstep s o = Some s' -> finv s'.
Proof.
  intros I. destruct o as [n|n m|n m|n m|n m|n|r n off|r q|r q|r]; cbn.
  - apply gen_new_inv, I.
  - destruct (f_gen s m); [|discriminate]. apply gen_new_inv, I.
  - unfold gen_move_new. destruct (f_gen s n) eqn:Gn; [discriminate|].
    destruct (f_gen s m) as [[l|]|] eqn:Gm; try discriminate. intros [= <-].
    assert (N : n <> m) by congruence. destruct (fi_gen s I m l Gm) as [Hl Ll].
    split; cbn.
    + intros k j. unfold upd. destruct (Nat.eqb_spec k m); [discriminate|].
      destruct (Nat.eqb_spec k n) as [->|].
      * intros [= <-]. rewrite Nat.eqb_refl. auto.
      * intros Hj. destruct (Nat.eqb_spec j l) as [->|]; [|apply (fi_gen s I); exact Hj].
        exfalso. pose proof (fi_inj s I k m l Hj Gm). congruence.
    + intros k k' j. unfold upd. destruct (Nat.eqb_spec k m); [discriminate|].
      destruct (Nat.eqb_spec k' m); [discriminate|].
      destruct (Nat.eqb_spec k n) as [->|], (Nat.eqb_spec k' n) as [->|]; auto.
      * intros [= <-] H. pose proof (fi_inj s I k' m l H Gm). congruence.
      * intros H [= <-]. pose proof (fi_inj s I k m l H Gm). congruence.
      * apply (fi_inj s I).
    + intros j Hj. rewrite upd_other by lia. apply (fi_next s I), Hj.
    + apply (fi_ref s I).
  - destruct (f_gen s n), (f_gen s m); try discriminate. intros [= <-]. exact I.
  - unfold gen_move_assign. destruct (f_gen s n) as [own|] eqn:Gn; [|discriminate].
    destruct (f_gen s m) as [[l|]|] eqn:Gm; try discriminate.
    destruct (fi_gen s I m l Gm) as [Hl Ll].
    destruct (Nat.eqb_spec n m) as [->|N]; intros [= <-].
    + split; cbn; try apply I.
      * intros k j Hj. unfold upd. destruct (Nat.eqb_spec j l) as [->|]; [|apply (fi_gen s I); exact Hj].
        pose proof (fi_inj s I k m l Hj Gm). subst. auto.
      * intros j Hj. rewrite upd_other by lia. apply (fi_next s I), Hj.
    + split; cbn.
      * intros k j. unfold upd at 1 2. destruct (Nat.eqb_spec k m); [discriminate|].
        destruct (Nat.eqb_spec k n) as [->|].
        -- intros [= <-]. rewrite upd_same. auto.
        -- intros Hj. destruct (fi_gen s I k j Hj) as [Hh Lj]. split; [|exact Lj].
           rewrite upd_other.
           2: { intros ->. pose proof (fi_inj s I k m l Hj Gm). congruence. }
           destruct own as [lo|]; [|exact Hh]. cbn. rewrite upd_other; [exact Hh|].
           intros ->. pose proof (fi_inj s I k n lo Hj Gn). congruence.
      * intros k k' j. unfold upd. destruct (Nat.eqb_spec k m); [discriminate|].
        destruct (Nat.eqb_spec k' m); [discriminate|].
        destruct (Nat.eqb_spec k n) as [->|], (Nat.eqb_spec k' n) as [->|]; auto.
        -- intros [= <-] H. pose proof (fi_inj s I k' m l H Gm). congruence.
        -- intros H [= <-]. pose proof (fi_inj s I k m l H Gm). congruence.
        -- apply (fi_inj s I).
      * intros j Hj. rewrite upd_other by lia. destruct own as [lo|]; [|apply (fi_next s I), Hj].
        cbn. unfold upd. destruct (Nat.eqb j lo); [reflexivity|apply (fi_next s I), Hj].
      * apply (fi_ref s I).
  - destruct (f_gen s n) as [own|] eqn:Gn; [|discriminate]. intros [= <-]. split; cbn.
    + intros k j. unfold upd at 1. destruct (Nat.eqb_spec k n); [discriminate|]. intros Hj.
      destruct (fi_gen s I k j Hj) as [Hh Lj]. split; [|exact Lj].
      destruct own as [lo|]; [|exact Hh]. cbn. rewrite upd_other; [exact Hh|].
      intros ->. pose proof (fi_inj s I k n lo Hj Gn). congruence.
    + intros k k' j. unfold upd. destruct (Nat.eqb_spec k n); [discriminate|].
      destruct (Nat.eqb_spec k' n); [discriminate|]. apply (fi_inj s I).
    + intros j Hj. destruct own as [lo|]; [|apply (fi_next s I), Hj].
      cbn. unfold upd. destruct (Nat.eqb j lo); [reflexivity|apply (fi_next s I), Hj].
    + apply (fi_ref s I).
  - destruct (f_gen s n) as [[l|]|] eqn:Gn; try discriminate.
    destruct (f_heap s l) as [p|] eqn:Hp; [|discriminate]. intros [= <-]. split; cbn; try apply I.
    intros q j o. unfold upd. destruct (Nat.eqb_spec q r); [|apply (fi_ref s I)].
    intros [= <- _]. apply (fi_gen s I n l Gn).
  - intros [= <-]. split; cbn; try apply I. intros x j o. unfold upd.
    destruct (Nat.eqb_spec x r); apply (fi_ref s I).
  - intros [= <-]. split; cbn; try apply I. intros x j o. unfold upd.
    destruct (Nat.eqb_spec x q); [discriminate|].
    destruct (Nat.eqb_spec x r); apply (fi_ref s I).
  - intros [= <-]. split; cbn; try apply I. intros x j o. unfold upd.
    destruct (Nat.eqb_spec x r); [discriminate|apply (fi_ref s I)].
Qed.

(** The object whose cell is [l] is in variable [p]. *)
Definition at_ (s : fst_) (l : nat) (p : option nat) : Prop :=
  match p with Some n => f_gen s n = Some (Some l) | None => f_heap s l = None /\ l < f_next s end.

Lemma follow_step s o s' l p : finv s -> fstep s o = Some s' -> at_ s l p -> at_ s' l (follow o p).
Proof.
  intros I. destruct o as [a|a b|a b|a b|a b|a|r a off|r q|r q|r]; cbn [FRefModel.fstep].
  - unfold gen_new. destruct (f_gen s a) eqn:G; [discriminate|]. intros [= <-].
    destruct p as [n|]; cbn.
    + intros H. rewrite upd_other; [exact H|congruence].
    + intros [H L]. rewrite upd_other by lia. split; [exact H|lia].
  - destruct (f_gen s b); [|discriminate].
    unfold gen_new. destruct (f_gen s a) eqn:G; [discriminate|]. intros [= <-].
    destruct p as [n|]; cbn.
    + intros H. rewrite upd_other; [exact H|congruence].
    + intros [H L]. rewrite upd_other by lia. split; [exact H|lia].
  - unfold gen_move_new. destruct (f_gen s a) eqn:Ga; [discriminate|].
    destruct (f_gen s b) as [[lb|]|] eqn:Gb; try discriminate. intros [= <-].
    destruct p as [n|]; cbn.
    + intros H. destruct (Nat.eqb_spec n b) as [->|Nb]; cbn.
      * rewrite upd_other by congruence. rewrite upd_same. congruence.
      * rewrite upd_other by congruence. rewrite upd_other; [exact H|congruence].
    + intros [H L]. destruct (fi_gen s I b lb Gb). rewrite upd_other by congruence. auto.
  - destruct (f_gen s a), (f_gen s b); try discriminate. intros [= <-]. destruct p; auto.
  - unfold gen_move_assign. destruct (f_gen s a) as [own|] eqn:Ga; [|discriminate].
    destruct (f_gen s b) as [[lb|]|] eqn:Gb; try discriminate.
    destruct (fi_gen s I b lb Gb) as [Hb Lb]. unfold follow.
    destruct (Nat.eqb_spec a b) as [->|N]; intros [= <-].
    + destruct p as [n|]; cbn; [auto|]. intros [H L]. rewrite upd_other by congruence. auto.
    + destruct p as [n|]; cbn.
      * intros H. destruct (Nat.eqb_spec n b) as [->|Nb]; cbn.
        -- rewrite upd_other by congruence. rewrite upd_same. congruence.
        -- destruct (Nat.eqb_spec n a) as [->|Na]; cbn.
           ++ assert (own = Some l) as -> by congruence. cbn.
              assert (l <> lb) by (intros ->; pose proof (fi_inj s I a b lb H Gb); congruence).
              rewrite upd_other by assumption. rewrite upd_same.
              split; [reflexivity|]. apply (fi_gen s I a l H).
           ++ rewrite upd_other by congruence. rewrite upd_other by congruence. exact H.
      * intros [H L]. rewrite upd_other by congruence. split; [|exact L].
        destruct own as [lo|]; [|exact H]. cbn. unfold upd. destruct (Nat.eqb l lo); auto.
  - destruct (f_gen s a) as [own|] eqn:Ga; [|discriminate]. intros [= <-].
    destruct p as [n|]; cbn.
    + intros H. destruct (Nat.eqb_spec n a) as [->|Na]; cbn.
      * assert (own = Some l) as -> by congruence. cbn. rewrite upd_same. split; [reflexivity|].
        apply (fi_gen s I a l H).
      * rewrite upd_other by congruence. exact H.
    + intros [H L]. split; [|exact L]. destruct own as [lo|]; [|exact H]. cbn. unfold upd.
      destruct (Nat.eqb l lo); auto.
  - destruct (f_gen s a) as [[la|]|] eqn:Gn; try discriminate.
    destruct (f_heap s la) as [x|] eqn:Hp; [|discriminate]. intros [= <-]. destruct p; auto.
  - intros [= <-]. destruct p; auto.
  - intros [= <-]. destruct p; auto.
  - intros [= <-]. destruct p; auto.
Qed.

Lemma refers_step s o s' l off h : fstep s o = Some s' ->
  (forall r, h r = true -> f_ref s r = Some (l, off)) ->
  forall r, refers o h r = true -> f_ref s' r = Some (l, off).
Proof.
  intros E H r. destruct o as [a|a b|a b|a b|a b|a|r' a off'|r' q|r' q|r']; cbn in *.
  - unfold gen_new in E. destruct (f_gen s a); [discriminate|]. injection E as <-. apply H.
  - destruct (f_gen s b); [|discriminate].
    unfold gen_new in E. destruct (f_gen s a); [discriminate|]. injection E as <-. apply H.
  - unfold gen_move_new in E. destruct (f_gen s a), (f_gen s b) as [[]|]; try discriminate.
    injection E as <-. apply H.
  - destruct (f_gen s a), (f_gen s b); try discriminate. injection E as <-. apply H.
  - unfold gen_move_assign in E. destruct (f_gen s a), (f_gen s b) as [[]|]; try discriminate.
    destruct (Nat.eqb a b); injection E as <-; apply H.
  - destruct (f_gen s a); [|discriminate]. injection E as <-. apply H.
  - destruct (f_gen s a) as [[la|]|]; try discriminate. destruct (f_heap s la); [|discriminate].
    injection E as <-. cbn. unfold upd. destruct (Nat.eqb r r'); [discriminate|apply H].
  - injection E as <-. cbn. unfold upd. destruct (Nat.eqb r r'); apply H.
  - injection E as <-. cbn. unfold upd. destruct (Nat.eqb r q); [discriminate|].
    destruct (Nat.eqb r r'); apply H.
  - injection E as <-. cbn. unfold upd. destruct (Nat.eqb r r'); [discriminate|apply H].
Qed.

Lemma follows_run l : forall s s' c off p h, finv s -> frun s l = Some s' -> at_ s c p ->
  (forall r, h r = true -> f_ref s r = Some (c, off)) ->
  at_ s' c (follows l p) /\ finv s' /\
  forall r, all_refer l h r = true -> f_ref s' r = Some (c, off).
Proof.
  induction l as [|o l IH]; intros s s' c off p h I E A H; cbn in *.
  - injection E as <-. auto.
  - destruct (fstep s o) as [s1|] eqn:E1; [|discriminate].
    eapply (IH s1 s'); eauto.
    + eapply fstep_inv; eauto.
    + eapply follow_step; eauto.
    + eapply refers_step; eauto.
Qed.

Lemma frun_inv l : forall s s', finv s -> frun s l = Some s' -> finv s'.
Proof.
  induction l as [|o l IH]; intros s s' I E; cbn in *; [injection E as <-; exact I|].
  destruct (fstep s o) as [s1|] eqn:E1; [|discriminate]. apply (IH s1 s'); [eapply fstep_inv; eauto|exact E].
Qed.

Lemma floating_follows l1 s1 r0 n off l2 s2 : frun fst0 l1 = Some s1 ->
  frun s1 (FGen r0 n off :: l2) = Some s2 ->
  forall r, all_refer l2 (fun x => Nat.eqb x r0) r = true ->
  deref s2 r = option_map (fun m => (addr m + off)%Z) (follows l2 (Some n)).
Proof.
  intros E1 E2 r Hr. pose proof (frun_inv l1 _ _ finv0 E1) as I1. cbn [FRefModel.frun] in E2.
  destruct (fstep s1 (FGen r0 n off)) as [s|] eqn:E; [|discriminate].
  pose proof (fstep_inv _ _ _ I1 E) as I. cbn in E.
  destruct (f_gen s1 n) as [[c|]|] eqn:G; try discriminate.
  destruct (fi_gen s1 I1 n c G) as [Hc Lc]. rewrite Hc in E. injection E as <-.
  destruct (follows_run l2 _ s2 c off (Some n) (fun x => Nat.eqb x r0) I E2) as (A & I2 & R).
  - cbn. exact G.
  - intros x Hx. apply Nat.eqb_eq in Hx. subst. cbn. rewrite upd_same. f_equal. f_equal. lia.
  - unfold deref. rewrite (R r Hr). unfold at_ in A. destruct (follows l2 (Some n)) as [m|]; cbn.
    + destruct (fi_gen s2 I2 m c A) as [-> _]. reflexivity.
    + destruct A as [-> _]. reflexivity.
Qed.

(** * Which histories are defined *)

Definition stat (s : fst_) (n : nat) : option bool :=
  match f_gen s n with None => None | Some None => Some false | Some (Some _) => Some true end.

Lemma fstatus_step s t o : finv s -> (forall n, t n = stat s n) ->
  match fstep s o, fstatus t o with
  | Some s', Some t' => forall n, t' n = stat s' n
  | None, None => True
  | _, _ => False
  end.
Proof.
  intros I H. destruct o as [n|n m|n m|n m|n m|n|r n off|r q|r q|r];
    cbn [FRefModel.fstep fstatus]; unfold gen_new, gen_move_new, gen_move_assign;
    rewrite ?(H n), ?(H m); unfold stat.
  - destruct (f_gen s n) as [[]|] eqn:G; auto. intros k. cbn. unfold stat. cbn. unfold upd.
    destruct (Nat.eqb_spec k n); auto. apply H.
  - destruct (f_gen s m) as [[]|] eqn:Gm, (f_gen s n) as [[]|] eqn:G; auto;
    intros k; cbn; unfold stat; cbn; unfold upd; destruct (Nat.eqb_spec k n); auto; apply H.
  - destruct (f_gen s m) as [[]|] eqn:Gm, (f_gen s n) as [[]|] eqn:G; auto;
    intros k; cbn; unfold stat; cbn; unfold upd; destruct (Nat.eqb_spec k m); auto;
      destruct (Nat.eqb_spec k n); auto; apply H.
  - destruct (f_gen s m) as [[]|] eqn:Gm, (f_gen s n) as [[]|] eqn:G; auto; apply H.
  - destruct (f_gen s m) as [[]|] eqn:Gm, (f_gen s n) as [[]|] eqn:G; auto;
    destruct (Nat.eqb_spec n m); auto;
    intros k; cbn; unfold stat; cbn; unfold upd; destruct (Nat.eqb_spec k m); auto;
      destruct (Nat.eqb_spec k n); auto; apply H.
  - destruct (f_gen s n) as [[]|] eqn:G; auto; intros k; cbn; unfold stat; cbn; unfold upd;
    destruct (Nat.eqb_spec k n); auto; apply H.
  - destruct (f_gen s n) as [[l|]|] eqn:G; auto.
    destruct (fi_gen s I n l G) as [-> _]. apply H.
  - apply H.
  - apply H.
  - apply H.
Qed.

Lemma fstatus_runs l : forall s t, finv s -> (forall n, t n = stat s n) ->
  (exists s', frun s l = Some s') <-> (exists t', fstatus_run t l = Some t').
Proof.
  induction l as [|o l IH]; intros s t I H; cbn.
  - split; eauto.
  - pose proof (fstatus_step s t o I H) as S. destruct (fstep s o) as [s1|] eqn:E1.
    + destruct (fstatus t o) as [t1|]; [|contradiction]. apply IH; auto. eapply fstep_inv; eauto.
    + destruct (fstatus t o) as [t1|]; [contradiction|]. split; intros [x X]; discriminate.
Qed.

Lemma floating_defined l :
  (exists s, frun fst0 l = Some s) <-> (exists t, fstatus_run no_vars l = Some t).
Proof. apply fstatus_runs; [apply finv0|reflexivity]. Qed.

End P.

Lemma frun_app addr l1 : forall l2 s,
  frun addr s (l1 ++ l2) = match frun addr s l1 with Some s' => frun addr s' l2 | None => None end.
Proof.
  induction l1 as [|o l1 IH]; intros l2 s; cbn; [reflexivity|]. destruct (fstep addr s o); [apply IH|reflexivity].
Qed.

Lemma reuse_after_move addr l s n m : frun addr fst0 l = Some s ->
  f_gen s n <> None -> (exists c, f_gen s m = Some (Some c)) ->
  exists s', frun addr fst0 (l ++ [FMoveAssign n m]) = Some s' /\
  forall r off, exists s'', fstep addr s' (FGen r n off) = Some s'' /\ deref s'' r = Some (addr n + off)%Z.
Proof.
  intros E Hn (c & Hm). rewrite frun_app, E. cbn. unfold gen_move_assign. rewrite Hm.
  destruct (f_gen s n) as [own|] eqn:En; [|congruence]. destruct (Nat.eqb_spec n m) as [->|N].
  - eexists. split; [reflexivity|]. intros r off. cbn. rewrite Hm, upd_same. eexists. split; [reflexivity|].
    unfold deref. cbn. rewrite !upd_same. f_equal. lia.
  - eexists. split; [reflexivity|]. intros r off. cbn. rewrite upd_other by exact N. rewrite !upd_same.
    eexists. split; [reflexivity|]. unfold deref. cbn. rewrite !upd_same. f_equal. lia.
Qed.
