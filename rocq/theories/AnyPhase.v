(** Phases whose messages are used in the order of arrival, one message for each pair. *)
From Coq Require Import List Arith Bool Lia.
From Verif Require Import ProtoModel ProtoSpec NetModel NetSpec NetProof NetPhase NetTools.
Import ListNotations.
Local Open Scope nat_scope.
Local Arguments count : simpl never.
Local Arguments Nat.eqb : simpl never.

Section Any.
Context {St Msg : Type}.

(** [l] has each message for the receives [src], with the number of the receive, once. *)
Definition arrives (src : list nat) (g : nat -> Msg) (l : list (nat * Msg)) : Prop :=
  NoDup (map fst l) /\
  (forall i m, In (i, m) l <-> exists s, nth_error src i = Some s /\ m = g s).

Lemma any_phase n (p : p2p St Msg) (S S' : nat -> St) (g : nat -> nat -> Msg) (src dst : nat -> list nat) :
  (forall r, r < n -> NoDup (src r)) -> (forall r, r < n -> NoDup (dst r)) ->
  (forall r s, r < n -> In s (src r) -> s < n) -> (forall r s, r < n -> In s (dst r) -> s < n) ->
  (forall r s, r < n -> s < n -> (In s (src r) <-> In r (dst s))) ->
  (forall r, r < n -> p_recvs p r (S r) = src r) ->
  (forall r, r < n -> p_sends p r (S r) = map (fun d => (d, g r d)) (dst r)) ->
  (forall r l, r < n -> arrives (src r) (fun s => g s r) l -> p_done p r (S r) l = Some (S' r)) ->
  phase_ok n (Exch p) S S'.
Proof.
  intros N1 N2 L1 L2 Sym H1 H2 H3.
  assert (M : forall r s, r < n -> s < n -> msgs_to r (p_sends p s (S s)) = if memb r (dst s) then [g s r] else []).
  { intros r s Hr Hs. rewrite H2 by exact Hs. apply (msgs_single r (g s)), N2, Hs. }
  assert (R : forall r i s, r < n -> nth_error (src r) i = Some s -> recv_msg p S r i = Some (g s r)).
  { intros r i s Hr E. unfold recv_msg. rewrite H1 by exact Hr. rewrite E.
    assert (Is : In s (src r)) by (eapply nth_error_In; eauto). assert (Hs : s < n) by eauto.
    rewrite M by auto. rewrite (proj2 (memb_In r (dst s))) by (apply Sym; auto).
    pose proof (count_firstn_lt s (src r) i E) as C. rewrite (count_memb s _ (N1 r Hr)) in C.
    rewrite (proj2 (memb_In s (src r))) in C by exact Is.
    replace (count s (firstn i (src r))) with 0 by lia. reflexivity. }
  split.
  - intros r Hr. rewrite H1 by exact Hr. split; [eauto|]. split.
    + intros d m H. rewrite H2 in H by exact Hr. apply in_map_iff in H as (x & [= -> _] & H). eauto.
    + intros s Hs. rewrite M by auto. rewrite (count_memb s _ (N1 r Hr)).
      destruct (memb s (src r)) eqn:E1, (memb r (dst s)) eqn:E2; auto; exfalso.
      * apply memb_In, Sym in E1; auto. apply memb_In in E1. congruence.
      * apply memb_In, Sym in E2; auto. apply memb_In in E2. congruence.
  - intros r l Hr A. apply H3; [exact Hr|]. pose proof A as (A1 & A2 & A3). split; [exact A1|].
    intros i m. split.
    + intros I. specialize (A3 i m I). unfold recv_msg in A3. destruct (nth_error (p_recvs p r (S r)) i) as [s|] eqn:E; [|discriminate].
      rewrite H1 in E by exact Hr. exists s. split; [exact E|].
      assert (X : recv_msg p S r i = Some m) by (apply A; exact I). rewrite (R r i s Hr E) in X. congruence.
    + intros (s & E & ->). destruct (arrival_all p S r l A i) as (m & I & X).
      { rewrite H1 by exact Hr. apply nth_error_Some. congruence. }
      rewrite (R r i s Hr E) in X. injection X as <-. exact I.
Qed.
End Any.
