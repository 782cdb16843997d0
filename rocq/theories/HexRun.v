(** Exchanges in progress at the same time: executions. *)
From Coq Require Import List ZArith Bool Lia Permutation.
From Verif Require Import ArrayModel HashModel HaloModel NetModel NetSpec HexModel HexSpec HexProof.
Import ListNotations.
Local Open Scope nat_scope.

Lemma sum_change (f g : nat -> nat) n r : r < n -> (forall q, q < n -> q <> r -> f q = g q) ->
  list_sum (map f (seq 0 n)) + g r = list_sum (map g (seq 0 n)) + f r.
Proof.
  induction n as [|n IH]; intros L E; [lia|]. rewrite seq_S, !map_app, !list_sum_app. cbn [map list_sum fold_right plus].
  destruct (Nat.eq_dec r n) as [->|N].
  - assert (Q : map f (seq 0 n) = map g (seq 0 n)). { apply map_ext_in. intros q I. apply in_seq in I. apply E; lia. }
    rewrite Q. lia.
  - assert (Q : f n = g n) by (apply E; lia). specialize (IH ltac:(lia) ltac:(intros; apply E; lia)). lia.
Qed.
Lemma argmin (f : nat -> nat) n : 0 < n -> exists r, r < n /\ forall q, q < n -> f r <= f q.
Proof.
  induction n as [|n IH]; intros L; [lia|]. destruct n as [|n].
  - exists 0. split; [lia|]. intros q Q. replace q with 0 by lia. lia.
  - destruct (IH ltac:(lia)) as (r & Lr & M). destruct (le_lt_dec (f r) (f (S n))) as [a|a].
    + exists r. split; [lia|]. intros q Q. destruct (Nat.eq_dec q (S n)) as [->|]; [lia|]. apply M; lia.
    + exists (S n). split; [lia|]. intros q Q. destruct (Nat.eq_dec q (S n)) as [->|]; [lia|]. pose proof (M q ltac:(lia)). lia.
Qed.

Section P.
Context {V : Type}.
Variable n : nat.
Variable H : nat -> hmap.
Hypothesis HN : forall r, r < n -> NoDup (h_ranks (H r)).
Variable K : nat.
Variable fld : nat -> nat.
Variable P : nat -> nat -> list (cmd V).
Variable A B : nat -> nat -> nat -> list V.
Variable X : nat -> nat -> list V.
Variable F' : nat -> nat -> list V.
Hypothesis HE : forall j, j < K -> phase_ok n halo_exchange (fun r => (H r, A j r (fld j))) (fun r => (H r, X j r)).
Hypothesis HU : forall j r, j < K -> r < n -> upto (P j r) (B j r) = (A j r, Some (fld j, P (S j) r)).
Hypothesis HB : forall j r, j < K -> r < n -> B (S j) r = fset (A j r) (fld j) (X j r).
Hypothesis HK : forall r, r < n -> upto (P K r) (B K r) = (F' r, None).
Variable eager : bool.
Notation ok := (hexok n H K fld P A B X).
Notation rok := (rankok H K fld P A B X).

Lemma done_rank r k : r < n -> rok r k -> k_prog k = [] -> k_num k = K /\ forall f, k_fields k f = F' r f.
Proof.
  intros Hr [O1 O2 O3 O4 (phi & R1 & R2 & R3)] E. rewrite E in *. cbn in *.
  assert (L : k_num k = K). { destruct (Nat.eq_dec (k_num k) K) as [e|e]; [exact e|]. rewrite HU in R1 by lia. discriminate. }
  split; [exact L|]. rewrite L, HK in R1 by exact Hr. injection R1 as ->. destruct (k_reqs k); [|discriminate]. intros f. apply R3. intros [].
Qed.

Lemma progress s : ok s -> (forall l, xstep H eager n s l = None) -> all_done n s.
Proof.
  intros O St.
  assert (St1 : forall r, step_cmd H eager n r s = None) by (intros r; apply (St (LCmd r))).
  assert (St2 : forall q r, step_match H n q r s = None) by (intros q r; apply (St (LMatch q r))).
  assert (St3 : forall r j i, step_unpack H n r j i s = None) by (intros r j i; apply (St (LUnpack r j i))).
  assert (Mt : forall q r j, q < n -> r < n -> In q (h_ranks (H r)) -> j < k_num (x_rank s q) -> j < k_num (x_rank s r) -> j < x_mt s q r).
  { intros q r j Hq Hr I J1 J2. destruct (le_lt_dec (x_mt s q r) j) as [a|a]; [|exact a]. exfalso. specialize (St2 q r). unfold step_match in St2.
    rewrite (proj2 (Nat.ltb_lt q n) Hq), (proj2 (Nat.ltb_lt r n) Hr), (proj2 (memb_In _ _) I) in St2.
    rewrite (h_sent _ _ _ _ _ _ _ _ s O q r Hq) in St2. rewrite (logged_len n H HN K fld A X HE) in St2; auto; [|exact (o_num _ _ _ _ _ _ _ q _ (h_rank _ _ _ _ _ _ _ _ s O q Hq))].
    rewrite (proj2 (Nat.ltb_lt _ (k_num (x_rank s q)))) in St2 by lia. rewrite (proj2 (Nat.ltb_lt _ (k_num (x_rank s r)))) in St2 by lia. discriminate. }
  assert (Go : forall r, r < n -> (forall q, q < n -> k_num (x_rank s r) <= k_num (x_rank s q)) -> k_prog (x_rank s r) = []).
  { intros r Hr M. destruct (k_prog (x_rank s r)) as [|[f|js|f fs g] p] eqn:E; [reflexivity| | |]; exfalso; pose proof (St1 r) as S1; unfold step_cmd in S1;
      rewrite (proj2 (Nat.ltb_lt r n) Hr), E in S1; try discriminate.
    destruct (forallb _ _) eqn:C; [discriminate|]. clear S1.
    assert (Q : exists q, In q (k_reqs (x_rank s r)) /\ negb (memb (q_id q) js) || complete H eager r s q = false).
    { revert C. induction (k_reqs (x_rank s r)) as [|q l IH]; intros C; [discriminate|]. cbn in C. destruct (negb (memb (q_id q) js) || complete H eager r s q) eqn:Eq.
      - cbn in C. destruct (IH C) as (x & I & Ex). exists x. split; [now right|exact Ex].
      - exists q. split; [now left|exact Eq]. }
    destruct Q as (q & Iq & Eq). apply orb_false_iff in Eq as [Ej Ec]. apply negb_false_iff in Ej.
    pose proof (h_rank _ _ _ _ _ _ _ _ s O r Hr) as R. destruct R as [O1 O2 O3 O4 (phi & R1 & R2 & R3)]. destruct (R2 q Iq) as (Q1 & Q2 & Q3).
    assert (L : q_id q < K) by lia.
    unfold complete in Ec. destruct (q_todo q) as [|i t] eqn:Et.
    - rewrite andb_true_l in Ec. apply orb_false_iff in Ec as [_ Ec].
      assert (G : forallb (fun d => q_id q <? x_mt s r d) (h_ranks (H r)) = true); [|congruence].
      apply forallb_forall. intros d Id. apply Nat.ltb_lt. assert (Hd : d < n) by (eapply (ranks_lt n H _ _ (HE _ L)); eauto).
      apply Mt; auto; [|apply (Nat.lt_le_trans _ _ _ Q1), M; auto]. eapply (ranks_sym n H HN _ _ (HE _ L)); eauto.
    - destruct Q3 as (l & d0 & Ec' & Eu & N & Cv & Mm). assert (Li : i < length (h_ranks (H r))). { apply Cv, in_or_app. right. rewrite Et. now left. }
      destruct (nth_error (h_ranks (H r)) i) as [d|] eqn:Ei; [|apply nth_error_None in Ei; lia].
      pose proof (nth_error_In _ _ Ei) as Id. assert (Hd : d < n) by (eapply (ranks_lt n H _ _ (HE _ L)); eauto).
      pose proof (St3 r (q_id q) i) as S3. unfold step_unpack in S3. rewrite E, (find_id q_id _ q O3 Iq), Ei, (proj2 (Nat.ltb_lt r n) Hr), Ej, Et in S3.
      rewrite (proj2 (memb_In i (i :: t)) (or_introl eq_refl)) in S3. rewrite (proj2 (Nat.ltb_lt (q_id q) (x_mt s d r))) in S3; [discriminate|].
      apply Mt; auto. apply (Nat.lt_le_trans _ _ _ Q1), M; auto. }
  intros r Hr. destruct (argmin (fun q => k_num (x_rank s q)) n) as (m & Hm & M); [lia|]. pose proof (Go m Hm M) as Em.
  destruct (done_rank m _ Hm (h_rank _ _ _ _ _ _ _ _ s O m Hm) Em) as [Nm _]. apply Go; auto. intros q Hq.
  pose proof (o_num _ _ _ _ _ _ _ r _ (h_rank _ _ _ _ _ _ _ _ s O r Hr)). pose proof (M q Hq). cbn in H1. lia.
Qed.

(** ** Executions are bounded *)
Definition wid : nat := list_sum (map (fun r => length (h_ranks (H r))) (seq 0 n)).
Fixpoint todos (l : list req) : nat := match l with [] => 0 | q :: l => length (q_todo q) + todos l end.
Lemma todos_app a b : todos (a ++ b) = todos a + todos b.
Proof. induction a as [|q a IH]; [reflexivity|]. cbn. lia. Qed.
Definition mrank (k : rank V) : nat := length (k_prog k) * S wid + todos (k_reqs k).
Definition measure (s : hex V) : nat :=
  list_sum (map (fun r => mrank (x_rank s r)) (seq 0 n)) + list_sum (map (fun q => list_sum (map (fun r => K - x_mt s q r) (seq 0 n))) (seq 0 n)).

Lemma wid_le r : r < n -> length (h_ranks (H r)) <= wid.
Proof.
  intros L. unfold wid. pose proof (sum_change (fun q => if Nat.eqb q r then 0 else length (h_ranks (H q))) (fun q => length (h_ranks (H q))) n r L) as E.
  cbn beta in E. specialize (E ltac:(intros q _ N; destruct (Nat.eqb_spec q r); [contradiction|reflexivity])). rewrite Nat.eqb_refl in E. lia.
Qed.

Lemma measure_rank s s' r : r < n -> (forall q, q <> r -> x_rank s' q = x_rank s q) -> x_mt s' = x_mt s -> mrank (x_rank s' r) < mrank (x_rank s r) -> measure s' < measure s.
Proof.
  intros Hr E M L. unfold measure. rewrite M.
  pose proof (sum_change (fun r => mrank (x_rank s' r)) (fun r => mrank (x_rank s r)) n r Hr ltac:(intros q _ Nq; cbn; now rewrite E)) as Q. cbn beta in Q. lia.
Qed.

Lemma todos_filter p l : todos (filter p l) <= todos l.
Proof. induction l as [|q l IH]; [cbn; lia|]. cbn. destruct (p q); cbn in *; lia. Qed.
Lemma filter_le {T} (p : T -> bool) l : length (filter p l) <= length l.
Proof. induction l as [|q l IH]; [cbn; lia|]. cbn. destruct (p q); cbn in *; lia. Qed.
Lemma filter_less i l : In i l -> length (filter (fun u => negb (Nat.eqb u i)) l) < length l.
Proof.
  induction l as [|x l IH]; intros I; [destruct I|]. cbn. destruct (Nat.eqb_spec x i) as [->|N]; cbn.
  - pose proof (filter_le (fun u => negb (u =? i)) l). lia.
  - destruct I as [->|I]; [contradiction|]. specialize (IH I). lia.
Qed.
Lemma todos_unpack q i l : In q l -> In i (q_todo q) ->
  todos (map (fun x => if Nat.eqb (q_id x) (q_id q) then RQ (q_id x) (q_field x) (filter (fun u => negb (Nat.eqb u i)) (q_todo x)) else x) l) < todos l.
Proof.
  intros Iq Ii.
  assert (G : forall l, todos (map (fun x => if Nat.eqb (q_id x) (q_id q) then RQ (q_id x) (q_field x) (filter (fun u => negb (Nat.eqb u i)) (q_todo x)) else x) l) <= todos l).
  { clear l Iq. induction l as [|x l IH]; [cbn; lia|]. cbn in *. destruct (q_id x =? q_id q); cbn; [|lia]. pose proof (filter_le (fun u => negb (u =? i)) (q_todo x)). lia. }
  induction l as [|x l IH]; [destruct Iq|]. cbn in *. destruct Iq as [->|Iq].
  - rewrite Nat.eqb_refl. cbn. pose proof (filter_less i (q_todo q) Ii). pose proof (G l). cbn in *. lia.
  - specialize (IH Iq). destruct (q_id x =? q_id q); cbn; [|lia]. pose proof (filter_le (fun u => negb (u =? i)) (q_todo x)). lia.
Qed.

Lemma step_ok s l s' : ok s -> xstep H eager n s l = Some s' -> exists t, s' = Some t /\ ok t /\ measure t < measure s.
Proof.
  intros O E. destruct l as [r|q r|r j i]; cbn in E.
  - unfold step_cmd in E. destruct (Nat.ltb_spec r n) as [Hr|]; [|discriminate]. destruct (k_prog (x_rank s r)) as [|[f|js|f fs g] p] eqn:Ep; [discriminate| | |].
    + injection E as <-. destruct (start_ok n H HN K fld P A B X F' HE HU HB HK r f p s O Hr Ep) as (t & Et & Ot & M & Q & Pp & (d & Rq)).
      exists t. split; [exact Et|]. split; [exact Ot|]. apply (measure_rank s t r); auto. unfold mrank. rewrite Pp, Rq, Ep. rewrite todos_app. cbn [todos q_todo length].
      rewrite seq_length. pose proof (wid_le r Hr). cbn [Nat.mul]. lia.
    + destruct (forallb _ _) eqn:C; [|discriminate]. injection E as <-. eexists. split; [reflexivity|]. split; [eapply wait_ok; eauto|].
      apply (measure_rank s _ r); cbn; auto; [intros q Nq; now rewrite fset_ne by exact Nq|]. rewrite fset_eq. unfold mrank. rewrite Ep. cbn [k_prog k_reqs length Nat.mul].
      pose proof (todos_filter (fun q => negb (memb (q_id q) js)) (k_reqs (x_rank s r))). lia.
    + injection E as <-. eexists. split; [reflexivity|]. split; [eapply comp_ok; eauto|].
      apply (measure_rank s _ r); cbn; auto; [intros q Nq; now rewrite fset_ne by exact Nq|]. rewrite fset_eq. unfold mrank. rewrite Ep. cbn [k_prog k_reqs length Nat.mul]. lia.
  - destruct (match_ok n H HN K fld P A B X HE q r s s' O E) as (t & Et & Ot & Hq & Hr & Rk & Mt & L). exists t. split; [exact Et|]. split; [exact Ot|].
    unfold measure. rewrite Rk. apply Nat.add_lt_mono_l.
    pose proof (sum_change (fun q => list_sum (map (fun r => K - x_mt t q r) (seq 0 n))) (fun q => list_sum (map (fun r => K - x_mt s q r) (seq 0 n))) n q Hq) as Q1. cbn beta in Q1.
    pose proof (sum_change (fun r => K - x_mt t q r) (fun r => K - x_mt s q r) n r Hr) as Q2. cbn beta in Q2.
    rewrite Mt in Q1, Q2 |- *. rewrite !fset_eq in Q2. rewrite fset_eq in Q1.
    specialize (Q1 ltac:(intros a _ Na; rewrite fset_ne by exact Na; reflexivity)). specialize (Q2 ltac:(intros a _ Na; rewrite fset_ne by exact Na; reflexivity)). lia.
  - destruct (unpack_ok n H HN K fld P A B X HE r j i s s' O E) as (t & q & Et & Ot & Hr & M & Q & Pp & Iq & Ii & Rq). exists t. split; [exact Et|]. split; [exact Ot|].
    apply (measure_rank s t r); auto. unfold mrank. rewrite Pp, Rq. pose proof (todos_unpack q i _ Iq Ii). lia.
Qed.

Lemma runs_ok ls : forall s o, ok s -> xruns H eager n s ls = Some o -> length ls <= measure s /\ exists t, o = Some t /\ ok t.
Proof.
  induction ls as [|l ls IH]; intros s o O E; cbn in E.
  - injection E as <-. split; [cbn; lia|]. eauto.
  - destruct (xstep H eager n s l) as [s'|] eqn:Es; [|discriminate]. destruct (step_ok s l s' O Es) as (t & -> & Ot & L).
    destruct (IH t o Ot E) as [L' R]. split; [cbn; lia|exact R].
Qed.

Lemma init_ok F progs : (forall r, r < n -> P 0 r = progs r /\ B 0 r = F r) -> (forall r, r < n -> orderly 0 [] (progs r)) -> ok (hex0 progs F).
Proof.
  intros E Od. constructor; cbn.
  - intros r Hr. destruct (E r Hr) as [E1 E2]. constructor; cbn; auto; try constructor; [lia|].
    exists (F r). rewrite E1, E2. split; [reflexivity|]. split; [intros q []|reflexivity].
  - intros q r _. reflexivity.
  - intros; lia.
Qed.
End P.

(** The steps of the reference, numbered *)
Lemma unfolded {V} n (H : nat -> hmap) progs F F' : @blocking V n H progs F F' ->
  exists K fld P A B X, (forall j, j < K -> phase_ok n halo_exchange (fun r => (H r, A j r (fld j))) (fun r => (H r, X j r))) /\
    (forall j r, j < K -> r < n -> upto (P j r) (B j r) = (A j r, Some (fld j, P (S j) r))) /\
    (forall j r, j < K -> r < n -> B (S j) r = fset (A j r) (fld j) (X j r)) /\
    (forall r, r < n -> upto (P K r) (B K r) = (F' r, None)) /\
    (forall r, P 0 r = progs r /\ B 0 r = F r).
Proof.
  induction 1 as [progs F F' D|progs F A0 f progs' X0 F' U E _ (K & fld & P & A & B & X & G1 & G2 & G3 & G4 & G5)].
  - exists 0, (fun _ => 0), (fun _ => progs), (fun _ => F), (fun _ => F), (fun _ _ => []). repeat split; intros; try lia. auto.
  - exists (S K), (fun j => match j with O => f | S j => fld j end), (fun j => match j with O => progs | S j => P j end),
      (fun j => match j with O => A0 | S j => A j end), (fun j => match j with O => F | S j => B j end), (fun j => match j with O => X0 | S j => X j end).
    split; [|split; [|split; [|split]]].
    + intros [|j] L; [exact E|]. apply G1. lia.
    + intros [|j] r L Hr; [|apply G2; auto; lia]. rewrite U by exact Hr. destruct (G5 r) as [-> _]. reflexivity.
    + intros [|j] r L Hr; [|apply G3; auto; lia]. apply G5.
    + exact G4.
    + auto.
Qed.

Theorem exchanges_ok {V} n (H : nat -> hmap) (progs : nat -> list (cmd V)) F F' :
  (forall r, r < n -> NoDup (h_ranks (H r))) -> (forall r, r < n -> orderly 0 [] (progs r)) -> blocking n H progs F F' ->
  exists bound, forall eager ls o, xruns H eager n (hex0 progs F) ls = Some o ->
    length ls <= bound /\ exists s, o = Some s /\
      (forall r f, r < n -> k_prog (x_rank s r) = [] -> k_fields (x_rank s r) f = F' r f) /\
      ((forall l, xstep H eager n s l = None) -> all_done n s).
Proof.
  intros N Od Bl. destruct (unfolded _ _ _ _ _ Bl) as (K & fld & P & A & B & X & G1 & G2 & G3 & G4 & G5).
  exists (measure n H K (hex0 progs F)). intros eager ls o E.
  destruct (runs_ok n H N K fld P A B X F' G1 G2 G3 G4 eager ls (hex0 progs F) o) as (L & s & -> & O); auto; [apply init_ok; auto|].
  split; [exact L|]. exists s. split; [reflexivity|]. split.
  - intros r f Hr Ep. eapply (done_rank n H K fld P A B X F'); eauto. apply O. exact Hr.
  - intros St. eapply (progress n H N K fld P A B X F'); eauto.
Qed.
