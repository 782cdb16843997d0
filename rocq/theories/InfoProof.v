(** RetrieveDecompInfo gives every rank the ranges of the ranks it asks for. *)
From Coq Require Import List ZArith Bool Lia.
From Verif Require Import TupleModel RangeModel ContModel ContSpec ContProof OMap PairMap HashModel HashProof.
From Verif Require Import ProtoModel ProtoSpec HandProof NetModel NetSpec NetProof NetPhase NetTools AnyPhase HaloModel.
Import ListNotations.
Local Open Scope nat_scope.

(** ** Filling a map *)

Section Fill.
Context {V : Type}.
Notation mget := (mget Nat.ltb).
Notation mok := (mok Nat.ltb).

Lemma nkq a b : kq Nat.ltb a b = Nat.eqb a b.
Proof.
  destruct (Nat.eqb_spec a b) as [->|N]; [apply kq_refl, nltb_swo|]. apply kq_neq; [exact nEQ|exact N].
Qed.

Lemma fetch_write (m : smap nat V) k v0 v : mok m ->
  let x := map_fetch Nat.ltb m k v0 in
  mok (map_write (fst x) (snd x) v) /\
  forall q, mget (map_write (fst x) (snd x) v) q = if Nat.eqb q k then Some v else mget m q.
Proof.
  intros G x. pose proof (mok_fetch Nat.ltb nltb_swo m k v0 G) as G1.
  pose proof (mget_fetch Nat.ltb nltb_swo nEQ m k v0) as F.
  assert (N : mget (fst x) k <> None).
  { unfold x. rewrite F by exact G. rewrite nkq, Nat.eqb_refl. destruct (mget m k); discriminate. }
  unfold x in *. rewrite (fetch_pos Nat.ltb nltb_swo m k v0 G). split.
  - apply (mok_write Nat.ltb nltb_swo); auto.
  - intros q. rewrite (mget_write Nat.ltb nltb_swo nEQ) by auto. rewrite nkq.
    destruct (Nat.eqb_spec q k) as [->|E]; [reflexivity|]. rewrite F by exact G. rewrite nkq.
    destruct (Nat.eqb_spec q k); [congruence|reflexivity].
Qed.
End Fill.

(** The map of the ranks in a list. *)
Definition info_map (v : nat -> info) (ranks : list nat) : smap nat info :=
  fold_left (fun m q => fst (map_insert Nat.ltb m q (v q))) ranks map_empty.

Lemma info_map_ok v ranks : mok Nat.ltb (info_map v ranks) /\
  forall q, mget Nat.ltb (info_map v ranks) q = if memb q ranks then Some (v q) else None.
Proof.
  assert (G : forall m, mok Nat.ltb m ->
    mok Nat.ltb (fold_left (fun m q => fst (map_insert Nat.ltb m q (v q))) ranks m) /\
    forall q, mget Nat.ltb (fold_left (fun m q => fst (map_insert Nat.ltb m q (v q))) ranks m) q =
      if memb q ranks then Some (v q) else mget Nat.ltb m q).
  { induction ranks as [|a l IH]; intros m M; cbn [fold_left]; [split; [exact M|reflexivity]|].
    destruct (IH _ (mok_insert Nat.ltb nltb_swo m a (v a) M)) as [A B]. split; [exact A|].
    intros q. rewrite B. rewrite (mget_insert Nat.ltb nltb_swo m a (v a) q M), nkq.
    unfold memb. cbn [existsb]. destruct (existsb (Nat.eqb q) l); [rewrite orb_true_r; reflexivity|].
    rewrite orb_false_r. destruct (Nat.eqb_spec q a) as [->|]; reflexivity. }
  apply (G map_empty). apply mok_empty.
Qed.

Lemma fill_any v ranks l : NoDup ranks -> arrives ranks v l -> forall m0, mok Nat.ltb m0 ->
  (forall q, mget Nat.ltb m0 q = None) ->
  ofoldl (if_fetch ranks) l m0 = Some (info_map v ranks).
Proof.
  intros ND [N A].
  assert (G : forall l1 l2 m, l = l1 ++ l2 -> mok Nat.ltb m ->
    (forall q, mget Nat.ltb m q = if existsb (fun x => match nth_error ranks (fst x) with Some s => Nat.eqb s q | None => false end) l1 then Some (v q) else None) ->
    ofoldl (if_fetch ranks) l2 m = Some (info_map v ranks)).
  { intros l1 l2. revert l1. induction l2 as [|[i x] l2 IH]; intros l1 m E M Q.
    - cbn [ofoldl]. f_equal. apply (mext Nat.ltb nltb_swo nEQ); [exact M|apply info_map_ok|].
      intros q. rewrite (proj2 (info_map_ok v ranks)), Q. rewrite app_nil_r in E. subst l1.
      destruct (memb q ranks) eqn:Eq.
      + apply memb_In in Eq. apply In_nth_error in Eq as [i Ei].
        assert (I : In (i, v q) l) by (apply A; eauto).
        destruct (existsb _ l) eqn:X; [reflexivity|]. exfalso. rewrite <- not_true_iff_false in X. apply X.
        apply existsb_exists. exists (i, v q). split; [exact I|]. cbn [fst]. rewrite Ei. apply Nat.eqb_refl.
      + destruct (existsb _ l) eqn:X; [|reflexivity]. exfalso. apply existsb_exists in X as ([i x] & I & X). cbn [fst] in X.
        destruct (nth_error ranks i) as [s|] eqn:Ei; [|discriminate]. apply Nat.eqb_eq in X. subst s.
        apply memb_false in Eq. apply Eq. eapply nth_error_In; eauto.
    - cbn [ofoldl]. assert (I : In (i, x) l) by (rewrite E; apply in_or_app; right; left; reflexivity).
      apply A in I as (s & Es & ->). unfold if_fetch at 1. cbn [fst snd]. rewrite Es.
      pose proof (fetch_write m s (make_empty_range 1, make_empty_range 1) (v s) M) as F. cbn zeta in F.
      destruct (map_fetch Nat.ltb m s (make_empty_range 1, make_empty_range 1)) as [m' j]. cbn [fst snd] in F. destruct F as [F1 F2].
      apply (IH (l1 ++ [(i, v s)])).
      + rewrite <- app_assoc. exact E.
      + exact F1.
      + intros q. rewrite F2, Q, existsb_app. cbn [existsb fst]. rewrite Es, orb_false_r.
        rewrite (Nat.eqb_sym s q). destruct (Nat.eqb_spec q s) as [->|]; [rewrite orb_true_r; reflexivity|].
        rewrite orb_false_r. reflexivity. }
  intros m0 M0 Q0. apply (G [] l m0); auto.
Qed.

Theorem retrieve_info_ok n (self : nat -> info) (N : nat -> list nat) :
  (forall r, r < n -> NoDup (N r)) -> (forall r q, r < n -> In q (N r) -> q < n) ->
  prog_ok n (retrieve_info n) (fun r => I0 (self r) (N r)) (fun r => I2 (self r) (info_map self (N r))).
Proof.
  intros ND NB. unfold retrieve_info. cbn [prog_ok].
  exists (fun r => I1 (self r) (N r) (named n N r)). split.
  - intros r Hr. unfold if_handshake.
    rewrite (omap_comp _ _ (fun q => N q)) by reflexivity. rewrite nth_map_seq by exact Hr. do 2 f_equal.
    unfold named. apply filter_ext_in'. intros q Hq. apply in_seq in Hq. rewrite nth_map_seq by lia. reflexivity.
  - exists (fun r => I2 (self r) (info_map self (N r))). split; [|reflexivity].
    apply any_phase with (g := fun s _ => self s) (src := N) (dst := named n N); auto.
    + intros r Hr. unfold named. apply NoDup_filter, seq_NoDup.
    + intros r s Hr H. unfold named in H. apply filter_In in H as [H _]. apply in_seq in H. lia.
    + intros r s Hr Hs. unfold named. rewrite filter_In, in_seq. fold (memb s (N r)). rewrite memb_In. intuition lia.
    + intros r l Hr A. cbn [p_done]. rewrite (fill_any self (N r) l (ND r Hr) A map_empty (mok_empty Nat.ltb) (mget_empty Nat.ltb)). reflexivity.
Qed.
