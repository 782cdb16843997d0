(** Exchanges in progress at the same time: proofs. *)
From Coq Require Import List ZArith Bool Lia Permutation.
From Verif Require Import ArrayModel HashModel HaloModel NetModel NetSpec HexModel HexSpec.
Import ListNotations.
Local Open Scope nat_scope.

Lemma fset_eq {A} (f : nat -> A) i a : fset f i a i = a.
Proof. unfold fset. now rewrite Nat.eqb_refl. Qed.
Lemma fset_ne {A} (f : nat -> A) i a j : j <> i -> fset f i a j = f j.
Proof. unfold fset. intros N. destruct (Nat.eqb_spec j i); [contradiction|reflexivity]. Qed.
Lemma memb_In i l : memb i l = true <-> In i l.
Proof.
  unfold memb. rewrite existsb_exists. split.
  - intros (x & I & E). apply Nat.eqb_eq in E. now subst.
  - intros I. exists i. split; [exact I|apply Nat.eqb_refl].
Qed.
Lemma memb_false i l : memb i l = false <-> ~ In i l.
Proof. rewrite <- memb_In. destruct (memb i l); split; intros; try discriminate; auto; now exfalso. Qed.

Lemma ofoldl_app {S A} (f : S -> A -> option S) a : forall b s, ofoldl f (a ++ b) s = let! s' := ofoldl f a s in ofoldl f b s'.
Proof. induction a as [|x a IH]; intros b s; [reflexivity|]. cbn. destruct (f s x); [apply IH|reflexivity]. Qed.

Lemma find_id {A} (f : A -> nat) l q : NoDup (map f l) -> In q l -> find (fun x => Nat.eqb (f x) (f q)) l = Some q.
Proof.
  induction l as [|x l IH]; intros N I; [destruct I|]. cbn in *. inversion N as [|? ? N1 N2]; subst. destruct I as [->|I].
  - now rewrite Nat.eqb_refl.
  - destruct (Nat.eqb_spec (f x) (f q)) as [E|E]; [|now apply IH]. exfalso. apply N1. rewrite E. now apply in_map.
Qed.

Lemma map_In_inj {A B} (f : A -> B) l x y : NoDup (map f l) -> In x l -> In y l -> f x = f y -> x = y.
Proof.
  induction l as [|a l IH]; intros N I J E; [destruct I|]. cbn in N. inversion N as [|? ? N1 N2]; subst. destruct I as [->|I], J as [->|J]; auto.
  - exfalso. apply N1. rewrite E. now apply in_map.
  - exfalso. apply N1. rewrite <- E. now apply in_map.
Qed.

Lemma NoDup_map_filter {A B} (f : A -> B) (p : A -> bool) l : NoDup (map f l) -> NoDup (map f (filter p l)).
Proof.
  induction l as [|a l IH]; intros N; [constructor|]. cbn in *. inversion N as [|? ? N1 N2]; subst. destruct (p a); [|now apply IH].
  cbn. constructor; [|now apply IH]. intros I. apply N1. apply in_map_iff in I as (x & E & I). apply filter_In in I as [I _]. apply in_map_iff. eauto.
Qed.

Lemma NoDup_snoc {A} (l : list A) x : NoDup l -> ~ In x l -> NoDup (l ++ [x]).
Proof. intros N I. apply (Permutation_NoDup (l := x :: l)); [apply Permutation_cons_append|now constructor]. Qed.

Lemma count_nodup s l : NoDup l -> count s l = if memb s l then 1 else 0.
Proof.
  induction l as [|x l IH]; intros N; [reflexivity|]. inversion N as [|? ? N1 N2]; subst. unfold count, memb in *. cbn.
  destruct (Nat.eqb_spec s x) as [->|E]; cbn; [|now apply IH]. rewrite IH by exact N2.
  destruct (existsb (Nat.eqb x) l) eqn:M; [|reflexivity]. exfalso. apply N1. now apply memb_In.
Qed.

Lemma NoDup_firstn {A} k (l : list A) : NoDup l -> NoDup (firstn k l).
Proof.
  revert k. induction l as [|x l IH]; intros [|k] N; try constructor; inversion N; subst; cbn; auto.
  intros I. apply H1. rewrite <- (firstn_skipn k l). apply in_or_app. now left.
Qed.
Lemma firstn_not {A} (l : list A) : forall i x, NoDup l -> nth_error l i = Some x -> ~ In x (firstn i l).
Proof.
  induction l as [|y l IH]; intros [|i] x N E I; cbn in *; auto; try discriminate. inversion N as [|? ? N1 N2]; subst. destruct I as [->|I].
  - apply N1. eapply nth_error_In; eauto.
  - eapply IH; eauto.
Qed.

Section P.
Context {V : Type}.
Variable n : nat.
Variable H : nat -> hmap.
Hypothesis HN : forall r, r < n -> NoDup (h_ranks (H r)).

Definition sds (r : nat) (d : list V) : list (nat * list V) :=
  match halo_messages (H r, d) with Some l => combine (h_ranks (H r)) l | None => [] end.

Lemma msgs_to_In (d : nat) (l : list (nat * list V)) m : In m (msgs_to d l) -> In d (map fst l).
Proof.
  unfold msgs_to. intros I. apply in_map_iff in I as ((e, x) & E & I). apply filter_In in I as [I J]. cbn in *. apply Nat.eqb_eq in J. subst.
  apply in_map_iff. exists (d, m). auto.
Qed.
Lemma combine_fst_In {A B} (a : list A) : forall (b : list B) x, In x (map fst (combine a b)) -> In x a.
Proof. induction a as [|y a IH]; intros [|z b] x I; cbn in *; try (now destruct I). destruct I as [->|I]; [now left|]. right. eapply IH; eauto. Qed.
Lemma sds_In r d q m : In m (msgs_to q (sds r d)) -> In q (h_ranks (H r)).
Proof. unfold sds. intros I. apply msgs_to_In in I. destruct (halo_messages _); [|destruct I]. now apply combine_fst_In in I. Qed.

(** One exchange *)
Section One.
Variable D X : nat -> list V.
Hypothesis HE : phase_ok n halo_exchange (fun r => (H r, D r)) (fun r => (H r, X r)).

Lemma ranks_lt r q : r < n -> In q (h_ranks (H r)) -> q < n.
Proof. intros Hr I. destruct HE as [M _]. apply (proj1 (M r Hr)). exact I. Qed.

Lemma one_message r q : r < n -> In q (h_ranks (H r)) -> exists m, msgs_to r (sds q (D q)) = [m].
Proof.
  intros Hr I. pose proof (ranks_lt r q Hr I) as Hq. destruct HE as [M _]. destruct (M r Hr) as (_ & _ & M3). specialize (M3 q Hq).
  cbn [p_recvs p_sends fst] in M3. rewrite count_nodup in M3 by auto. rewrite (proj2 (memb_In _ _) I) in M3.
  fold (sds q (D q)) in M3. destruct (msgs_to r (sds q (D q))) as [|m [|? ?]]; try discriminate. eauto.
Qed.
Lemma ranks_sym r q : r < n -> In q (h_ranks (H r)) -> In r (h_ranks (H q)).
Proof. intros Hr I. destruct (one_message r q Hr I) as [m E]. apply (sds_In q (D q) r m). rewrite E. now left. Qed.

(** What the i-th receive of rank r gets *)
Definition rmsg (r i : nat) : option (list V) :=
  match nth_error (h_ranks (H r)) i with Some q => nth_error (msgs_to r (sds q (D q))) 0 | None => None end.
Lemma rmsg_recv r i : r < n -> recv_msg (match halo_exchange with Exch p => p | _ => P2P (fun _ _ => []) (fun _ _ => []) (fun _ _ _ => None) end) (fun r => (H r, D r)) r i = rmsg r i.
Proof.
  intros Hr. unfold recv_msg, rmsg. cbn [halo_exchange p_recvs p_sends fst]. destruct (nth_error (h_ranks (H r)) i) as [q|] eqn:E; [|reflexivity].
  rewrite count_nodup by (apply NoDup_firstn; auto). rewrite (proj2 (memb_false _ _)); [reflexivity|]. apply firstn_not; auto.
Qed.
Lemma rmsg_some r i : r < n -> i < length (h_ranks (H r)) -> exists m, rmsg r i = Some m.
Proof.
  intros Hr L. unfold rmsg. destruct (nth_error (h_ranks (H r)) i) as [q|] eqn:E; [|apply nth_error_None in E; lia].
  destruct (one_message r q Hr) as [m Em]; [eapply nth_error_In; eauto|]. rewrite Em. exists m. reflexivity.
Qed.

(** Messages that have come in, and those still to come *)
Lemma full r l : r < n -> NoDup (map fst l) -> (forall i, In i (map fst l) <-> i < length (h_ranks (H r))) ->
  (forall i m, In (i, m) l -> rmsg r i = Some m) ->
  exists ms d0, halo_messages (H r, D r) = Some ms /\ copy_local (D r) (h_local (H r)) = Some d0 /\ ofoldl (unpack (h_recv (H r))) l d0 = Some (X r).
Proof.
  intros Hr N C M. destruct HE as [_ Z]. specialize (Z r l Hr). cbn [p_done fst snd] in Z.
  destruct (halo_messages (H r, D r)) as [ms|] eqn:Em.
  2:{ exfalso. cbn in Z. discriminate Z. split; [exact N|]. split.
      - rewrite <- (map_length fst). cbn [p_recvs fst]. rewrite <- (seq_length (length (h_ranks (H r))) 0). apply Permutation_length, NoDup_Permutation; auto; [apply seq_NoDup|].
        intros i. rewrite in_seq, C. lia.
      - intros i m I. rewrite <- (M i m I). apply (rmsg_recv r i Hr). }
  assert (A : arrival (match halo_exchange with Exch p => p | _ => P2P (fun _ _ => []) (fun _ _ => []) (fun _ _ _ => None) end) (fun r => (H r, D r)) r l).
  { split; [exact N|]. split.
    - rewrite <- (map_length fst). cbn [halo_exchange p_recvs fst]. rewrite <- (seq_length (length (h_ranks (H r))) 0). apply Permutation_length, NoDup_Permutation; auto; [apply seq_NoDup|].
      intros i. rewrite in_seq, C. lia.
    - intros i m I. rewrite <- (M i m I). apply (rmsg_recv r i Hr). }
  specialize (Z A). cbn in Z. destruct (copy_local _ _) as [d0|]; [|discriminate]. cbn in Z. destruct (ofoldl _ l d0) as [d'|] eqn:E; [|discriminate].
  cbn in Z. injection Z as Z. subst d'. eauto.
Qed.

Definition rest (r : nat) (todo : list nat) : list (nat * list V) := map (fun i => (i, match rmsg r i with Some m => m | None => [] end)) todo.
Lemma part r l todo : r < n -> NoDup (map fst l ++ todo) -> (forall i, In i (map fst l ++ todo) <-> i < length (h_ranks (H r))) ->
  (forall i m, In (i, m) l -> rmsg r i = Some m) ->
  exists ms d0, halo_messages (H r, D r) = Some ms /\ copy_local (D r) (h_local (H r)) = Some d0 /\ ofoldl (unpack (h_recv (H r))) (l ++ rest r todo) d0 = Some (X r).
Proof.
  intros Hr N C M.
  assert (E : map fst (l ++ rest r todo) = map fst l ++ todo).
  { rewrite map_app. f_equal. unfold rest. rewrite map_map. cbn. apply map_id. }
  apply full; auto; rewrite ?E; auto.
  intros i m I. apply in_app_or in I as [I|I]; [now apply M|]. unfold rest in I. apply in_map_iff in I as (j & Ej & I). injection Ej as -> <-.
  destruct (rmsg_some r i Hr) as [m Em]; [apply C, in_or_app; now right|]. now rewrite Em.
Qed.
End One.

(** ** A reference execution *)
Variable K : nat.
Variable fld : nat -> nat.
Variable P : nat -> nat -> list (cmd V).
Variable A B : nat -> nat -> nat -> list V.
Variable X : nat -> nat -> list V.
Variable F' : nat -> nat -> list V.
Hypothesis HE : forall j, j < K -> phase_ok n halo_exchange (fun r => (H r, A j r (fld j))) (fun r => (H r, X j r)).
Hypothesis HU : forall j r, j < K -> r < n -> upto (P j r) (B j r) = (A j r, Some (fld j, P (S j) r)).
Hypothesis HB : forall j r, j < K -> r < n -> B (S j) r = fset (A j r) (fld j) (X j r).
Hypothesis HK : forall r, r < n -> upto (P K r) (B K r) = (F' r, None).

Definition dat (j r : nat) : list V := A j r (fld j).

Definition reqok (r : nat) (d : list V) (q : req) : Prop :=
  exists l d0, copy_local (dat (q_id q) r) (h_local (H r)) = Some d0 /\ ofoldl (unpack (h_recv (H r))) l d0 = Some d /\
    NoDup (map fst l ++ q_todo q) /\ (forall i, In i (map fst l ++ q_todo q) <-> i < length (h_ranks (H r))) /\
    (forall i m, In (i, m) l -> rmsg (dat (q_id q)) r i = Some m).

Definition acts (l : list req) : list (nat * nat) := map (fun q => (q_id q, q_field q)) l.
Record rankok (r : nat) (k : rank V) : Prop := {
  o_num : k_num k <= K;
  o_ord : orderly (k_num k) (acts (k_reqs k)) (k_prog k);
  o_id : NoDup (map q_id (k_reqs k));
  o_fld : NoDup (map q_field (k_reqs k));
  o_ref : exists phi, upto (k_prog k) phi = upto (P (k_num k) r) (B (k_num k) r) /\
    (forall q, In q (k_reqs k) -> q_id q < k_num k /\ phi (q_field q) = X (q_id q) r /\ reqok r (k_fields k (q_field q)) q) /\
    (forall f, ~ In f (map q_field (k_reqs k)) -> k_fields k f = phi f) }.

Definition logged (q r k : nat) : list (list V) := flat_map (fun j => msgs_to r (sds q (dat j q))) (seq 0 k).
Arguments logged : simpl never.
Record hexok (s : hex V) : Prop := {
  h_rank : forall r, r < n -> rankok r (x_rank s r);
  h_sent : forall q r, q < n -> x_sent s q r = logged q r (k_num (x_rank s q));
  h_mt : forall q r, q < n -> r < n -> x_mt s q r <= k_num (x_rank s q) /\ x_mt s q r <= k_num (x_rank s r) }.

Lemma logged_nth q r k j : r < n -> In q (h_ranks (H r)) -> k <= K -> j < k -> exists m, msgs_to r (sds q (dat j q)) = [m] /\ nth_error (logged q r k) j = Some m.
Proof.
  intros Hr I Lk Lj.
  assert (G : forall a k j, a + k <= K -> j < k -> exists m, msgs_to r (sds q (dat (a + j) q)) = [m] /\ nth_error (flat_map (fun j => msgs_to r (sds q (dat j q))) (seq a k)) j = Some m).
  { clear k j Lk Lj. intros a k. revert a. induction k as [|k IH]; intros a j L L'; [lia|]. cbn [seq flat_map].
    destruct (one_message (dat a) (X a) (HE a ltac:(lia)) r q Hr I) as [m0 E0]. rewrite E0. destruct j as [|j].
    - exists m0. rewrite Nat.add_0_r. auto.
    - destruct (IH (S a) j) as (m & E & E'); [lia|lia|]. exists m. rewrite <- E'. split; [|reflexivity]. replace (a + S j) with (S a + j) by lia. exact E. }
  exact (G 0 k j Lk Lj).
Qed.
Lemma logged_len q r k : r < n -> In q (h_ranks (H r)) -> k <= K -> length (logged q r k) = k.
Proof.
  intros Hr I Lk. unfold logged.
  assert (G : forall a k, a + k <= K -> length (flat_map (fun j => msgs_to r (sds q (dat j q))) (seq a k)) = k).
  { clear k Lk. intros a k. revert a. induction k as [|k IH]; intros a L; [reflexivity|]. cbn [seq flat_map].
    destruct (one_message (dat a) (X a) (HE a ltac:(lia)) r q Hr I) as [m0 E0]. rewrite E0. cbn. rewrite IH; lia. }
  now apply G.
Qed.
Lemma logged_S q r k : logged q r (S k) = logged q r k ++ msgs_to r (sds q (dat k q)).
Proof. unfold logged. rewrite seq_S, flat_map_app. cbn. now rewrite app_nil_r. Qed.

Lemma posted (l : list (nat * list V)) : forall (f : nat -> list (list V)) d, fold_left (fun sent qm => fset sent (fst qm) (sent (fst qm) ++ [snd qm])) l f d = f d ++ msgs_to d l.
Proof.
  induction l as [|[e m] l IH]; intros f d; cbn; [now rewrite app_nil_r|]. rewrite IH. unfold msgs_to. cbn.
  destruct (Nat.eqb_spec e d) as [->|N].
  - rewrite fset_eq, <- app_assoc. reflexivity.
  - rewrite fset_ne by auto. reflexivity.
Qed.

(** ** Steps keep the invariant *)
Variable eager : bool.

Lemma set_rank r (s : hex V) k sent : hexok s -> r < n -> rankok r k ->
  (forall d, sent r d = logged r d (k_num k)) -> (forall q d, q <> r -> sent q d = x_sent s q d) -> k_num (x_rank s r) <= k_num k ->
  hexok (HX (fset (x_rank s) r k) sent (x_mt s)).
Proof.
  intros [O1 O2 O3] Hr Ok E1 E2 L. constructor; cbn.
  - intros q Hq. destruct (Nat.eq_dec q r) as [->|N]; [rewrite fset_eq|rewrite fset_ne]; auto.
  - intros q d Hq. destruct (Nat.eq_dec q r) as [->|N]; [rewrite fset_eq|rewrite fset_ne by auto]; auto. rewrite E2 by auto. auto.
  - intros q d Hq Hd. destruct (O3 q d Hq Hd). split.
    + destruct (Nat.eq_dec q r) as [->|N]; [rewrite fset_eq; lia|rewrite fset_ne; auto].
    + destruct (Nat.eq_dec d r) as [->|N]; [rewrite fset_eq; lia|rewrite fset_ne; auto].
Qed.

Lemma start_ok r f p s : hexok s -> r < n -> k_prog (x_rank s r) = Start f :: p ->
  exists s', start H r f p s = Some s' /\ hexok s' /\ x_mt s' = x_mt s /\
    (forall q, q <> r -> x_rank s' q = x_rank s q) /\ k_prog (x_rank s' r) = p /\
    (exists d, k_reqs (x_rank s' r) = k_reqs (x_rank s r) ++ [RQ (k_num (x_rank s r)) d (seq 0 (length (h_ranks (H r))))]).
Proof.
  intros O Hr E. destruct (h_rank s O r Hr) as [O1 O2 O3 O4 (phi & R1 & R2 & R3)]. set (k := x_rank s r) in *. rewrite E in *. cbn in O2, R1. destruct O2 as [O2 O2'].
  assert (L : k_num k < K).
  { destruct (Nat.eq_dec (k_num k) K) as [e|e]; [|lia]. rewrite e, HK in R1 by exact Hr. discriminate. }
  rewrite (HU _ r L Hr) in R1. injection R1 as -> Ef Ep.
  assert (Nf : ~ In f (map q_field (k_reqs k))).
  { unfold acts in O2. rewrite map_map in O2. exact O2. }
  assert (Ed : k_fields k f = dat (k_num k) r). { rewrite R3 by exact Nf. unfold dat. now rewrite Ef. }
  destruct (part (dat (k_num k)) (X (k_num k)) (HE _ L) r [] (seq 0 (length (h_ranks (H r)))) Hr) as (ms & d0 & Em & Ec & Eu).
  { apply seq_NoDup. } { intros i. cbn. rewrite in_seq. lia. } { intros i m []. }
  unfold start. fold k. rewrite Ed, Em. cbn. rewrite Ec. eexists. split; [reflexivity|]. split; [|split; [reflexivity|split; [|split]]].
  - apply set_rank; auto; cbn.
    + constructor; cbn.
      * lia.
      * unfold acts. rewrite map_app. exact O2'.
      * rewrite map_app. apply NoDup_snoc; auto. cbn. intros I. apply in_map_iff in I as (q & Eq & I). destruct (R2 q I). lia.
      * rewrite map_app. apply NoDup_snoc; auto.
      * exists (B (S (k_num k)) r). rewrite Ep. split; [reflexivity|]. rewrite (HB _ r L Hr). split.
        -- intros q I. apply in_app_or in I as [I|[<-|[]]]; cbn.
           ++ destruct (R2 q I) as (Q1 & Q2 & Q3). assert (Ne : q_field q <> f) by (intros e; apply Nf; rewrite <- e; now apply in_map).
              rewrite !fset_ne by congruence. auto.
           ++ rewrite <- Ef, !fset_eq. split; [lia|]. split; [reflexivity|]. exists [], d0. split; [exact Ec|]. split; [reflexivity|]. split; [apply seq_NoDup|].
              split; [intros i; cbn; rewrite in_seq; lia|intros i m []].
        -- intros g I. rewrite map_app in I. cbn in I. assert (Ne : g <> f) by (intros ->; apply I, in_or_app; right; now left).
           rewrite !fset_ne by congruence. apply R3. intros J. apply I, in_or_app. now left.
    + intros d. rewrite fset_eq, posted. rewrite (h_sent s O r d Hr). rewrite logged_S. fold k. f_equal. unfold sds. now rewrite Em.
    + intros q d Nq. now rewrite fset_ne by exact Nq.
    + fold k. lia.
  - intros q Nq. cbn. now rewrite fset_ne by exact Nq.
  - cbn. now rewrite fset_eq.
  - exists f. cbn. now rewrite fset_eq.
Qed.

Lemma req_done r d q : r < n -> q_id q < K -> reqok r d q -> q_todo q = [] -> d = X (q_id q) r.
Proof.
  intros Hr L (l & d0 & Ec & Eu & N & C & M) T. rewrite T in *. rewrite app_nil_r in *.
  destruct (full _ _ (HE _ L) r l Hr N C M) as (ms & d1 & _ & Ec' & Eu'). fold (dat (q_id q)) in *. unfold dat in Ec. rewrite Ec in Ec'. injection Ec' as <-. congruence.
Qed.

Lemma wait_ok r js p s : hexok s -> r < n -> k_prog (x_rank s r) = Wait js :: p ->
  forallb (fun q => negb (memb (q_id q) js) || complete H eager r s q) (k_reqs (x_rank s r)) = true ->
  hexok (HX (fset (x_rank s) r (RK p (k_num (x_rank s r)) (k_fields (x_rank s r)) (filter (fun q => negb (memb (q_id q) js)) (k_reqs (x_rank s r))))) (x_sent s) (x_mt s)).
Proof.
  intros O Hr E C. destruct (h_rank s O r Hr) as [O1 O2 O3 O4 (phi & R1 & R2 & R3)]. set (k := x_rank s r) in *. rewrite E in *. cbn in O2, R1.
  apply set_rank; auto; cbn; [|intros d; apply h_sent; auto]. constructor; cbn; auto.
  - revert O2. unfold acts. generalize (k_num k) p. intros u p'. replace (filter _ (map _ _)) with (map (fun q => (q_id q, q_field q)) (filter (fun q => negb (memb (q_id q) js)) (k_reqs k))); [auto|].
    clear. induction (k_reqs k) as [|q l IH]; [reflexivity|]. cbn. destruct (negb _); cbn; now rewrite IH.
  - now apply NoDup_map_filter.
  - now apply NoDup_map_filter.
  - exists phi. split; [exact R1|]. split.
    + intros q I. apply filter_In in I as [I _]. auto.
    + intros f I. destruct (in_dec Nat.eq_dec f (map q_field (k_reqs k))) as [J|J]; [|now apply R3].
      apply in_map_iff in J as (q & <- & J). destruct (R2 q J) as (Q1 & Q2 & Q3). rewrite Q2. apply (req_done r); auto; [lia|].
      rewrite forallb_forall in C. specialize (C q J). destruct (memb (q_id q) js) eqn:M.
      * cbn in C. unfold complete in C. destruct (q_todo q); [reflexivity|discriminate].
      * exfalso. apply I. apply in_map. apply filter_In. split; [exact J|now rewrite M].
Qed.

Lemma comp_ok r f fs g p s : hexok s -> r < n -> k_prog (x_rank s r) = Comp f fs g :: p ->
  hexok (HX (fset (x_rank s) r (RK p (k_num (x_rank s r)) (fset (k_fields (x_rank s r)) f (g (map (k_fields (x_rank s r)) fs))) (k_reqs (x_rank s r)))) (x_sent s) (x_mt s)).
Proof.
  intros O Hr E. destruct (h_rank s O r Hr) as [O1 O2 O3 O4 (phi & R1 & R2 & R3)]. set (k := x_rank s r) in *. rewrite E in *. cbn in O2, R1.
  destruct O2 as (N1 & N2 & O2). unfold acts in N1, N2. rewrite map_map in N1, N2. cbn in N1, N2.
  apply set_rank; auto; cbn; [|intros d; apply h_sent; auto]. constructor; cbn; auto.
  exists (fset phi f (g (map phi fs))). split; [exact R1|]. split.
  - intros q I. destruct (R2 q I) as (Q1 & Q2 & Q3). assert (Ne : q_field q <> f) by (intros e; apply N1; rewrite <- e; now apply in_map).
    rewrite !fset_ne by exact Ne. auto.
  - intros h I. destruct (Nat.eq_dec h f) as [->|Ne]; [rewrite !fset_eq|rewrite !fset_ne by exact Ne; auto].
    f_equal. apply map_ext_in. intros a J. apply R3. auto.
Qed.

Lemma match_ok q r s s' : hexok s -> step_match H n q r s = Some s' -> exists t, s' = Some t /\ hexok t /\ q < n /\ r < n /\ x_rank t = x_rank s /\
  x_mt t = fset (x_mt s) q (fset (x_mt s q) r (S (x_mt s q r))) /\ S (x_mt s q r) <= K.
Proof.
  intros O E. unfold step_match in E. destruct (_ && _) eqn:C; [|discriminate]. injection E as <-.
  repeat (apply andb_true_iff in C as [C ?]). apply Nat.ltb_lt in C, H0, H1, H3. apply memb_In in H2.
  eexists. split; [reflexivity|]. rewrite (h_sent s O q r C) in H1. rewrite logged_len in H1; auto; [|apply (o_num q), h_rank; auto].
  pose proof (o_num q _ (h_rank s O q C)). split; [|repeat split; auto; lia].
  constructor; cbn; [apply O|apply O|]. intros a b Ha Hb. destruct (h_mt s O a b Ha Hb). unfold fset. destruct (Nat.eqb_spec a q) as [->|]; [|auto].
  destruct (Nat.eqb_spec b r) as [->|]; [|auto]. lia.
Qed.

Lemma unpack_ok r j i s s' : hexok s -> step_unpack H n r j i s = Some s' -> exists t q, s' = Some t /\ hexok t /\ r < n /\ x_mt t = x_mt s /\
  (forall q, q <> r -> x_rank t q = x_rank s q) /\ k_prog (x_rank t r) = k_prog (x_rank s r) /\ In q (k_reqs (x_rank s r)) /\ In i (q_todo q) /\
  k_reqs (x_rank t r) = map (fun x => if Nat.eqb (q_id x) (q_id q) then RQ (q_id x) (q_field x) (filter (fun u => negb (Nat.eqb u i)) (q_todo x)) else x) (k_reqs (x_rank s r)).
Proof.
  intros O E. unfold step_unpack in E. destruct (k_prog (x_rank s r)) as [|[f|js|? ? ?] p] eqn:Ep; try discriminate.
  destruct (find _ _) as [q|] eqn:Fq; [|discriminate]. destruct (nth_error _ i) as [d|] eqn:Ei; [|discriminate].
  destruct (_ && _) eqn:C; [|discriminate]. injection E as <-. repeat (apply andb_true_iff in C as [C ?]). apply Nat.ltb_lt in C, H0. apply memb_In in H1, H2.
  rename C into Hr. apply find_some in Fq as [Iq Eq]. apply Nat.eqb_eq in Eq. subst j.
  pose proof (nth_error_In _ _ Ei) as Id. destruct (h_rank s O r Hr) as [O1 O2 O3 O4 (phi & R1 & R2 & R3)]. set (k := x_rank s r) in *.
  destruct (R2 q Iq) as (Q1 & Q2 & Q3). assert (L : q_id q < K) by lia. assert (Hd : d < n) by (eapply (ranks_lt _ _ (HE _ L)); eauto).
  destruct (h_mt s O d r Hd Hr) as [T1 T2].
  destruct (logged_nth d r (k_num (x_rank s d)) (q_id q) Hr Id) as (m & Em & En); [apply (o_num d), h_rank; auto|lia|].
  rewrite (h_sent s O d r Hd), En. cbn.
  assert (Rm : rmsg (dat (q_id q)) r i = Some m). { unfold rmsg. now rewrite Ei, Em. }
  destruct Q3 as (l & d0 & Ec & Eu & N & Cv & M).
  apply in_split in H1 as (t1 & t2 & Et).
  assert (Ef : filter (fun u => negb (Nat.eqb u i)) (q_todo q) = t1 ++ t2).
  { rewrite Et in N |- *. assert (N' : NoDup (t1 ++ i :: t2)). { clear - N. induction (map fst l) as [|? ? IH]; [exact N|]. inversion N; auto. }
    pose proof (NoDup_remove_2 _ _ _ N') as N2. rewrite filter_app. cbn. rewrite Nat.eqb_refl. cbn.
    assert (G : forall t, ~ In i t -> filter (fun u => negb (Nat.eqb u i)) t = t).
    { induction t as [|u t IH]; [reflexivity|]. intros Z. cbn. destruct (Nat.eqb_spec u i) as [->|]; [exfalso; apply Z; now left|]. cbn. f_equal. apply IH. intros J. apply Z. now right. }
    rewrite !G; auto; intros J; apply N2, in_or_app; auto. }
  assert (Pm : Permutation (map fst l ++ q_todo q) (map fst (l ++ [(i, m)]) ++ (t1 ++ t2))).
  { rewrite map_app. cbn. rewrite <- app_assoc. rewrite Et. apply Permutation_app_head. cbn. symmetry. apply Permutation_middle. }
  assert (N' := Permutation_NoDup Pm N).
  assert (C' : forall x, In x (map fst (l ++ [(i, m)]) ++ (t1 ++ t2)) <-> x < length (h_ranks (H r))).
  { intros x. rewrite <- Cv. split; apply Permutation_in; [symmetry|]; exact Pm. }
  assert (M' : forall x y, In (x, y) (l ++ [(i, m)]) -> rmsg (dat (q_id q)) r x = Some y).
  { intros x y I. apply in_app_or in I as [I|[I|[]]]; [auto|]. injection I as <- <-. exact Rm. }
  destruct (part _ _ (HE _ L) r (l ++ [(i, m)]) (t1 ++ t2) Hr N' C' M') as (ms & d1 & _ & Ec' & Eu').
  unfold dat in Ec. rewrite Ec in Ec'. injection Ec' as <-. rewrite <- app_assoc, ofoldl_app, Eu in Eu'. cbn in Eu'.
  unfold unpack1. fold k. destruct (unpack (h_recv (H r)) (k_fields k (q_field q)) (i, m)) as [d2|] eqn:E2; [|discriminate]. cbn.
  eexists; exists q; split; [reflexivity|]. split; [|split; [exact Hr|split; [reflexivity|split; [|split; [|split; [exact Iq|split]]]]]].
  2:{ intros a Na. cbn. now rewrite fset_ne by exact Na. }
  2:{ cbn. rewrite fset_eq. cbn. exact Ep. }
  2:{ rewrite Et. apply in_or_app. right. now left. }
  2:{ cbn. now rewrite fset_eq. }
  assert (G : forall {T} (h : req -> T), (forall a b t t', h (RQ a b t) = h (RQ a b t')) -> map h (map (fun x => if Nat.eqb (q_id x) (q_id q) then RQ (q_id x) (q_field x) (filter (fun u => negb (Nat.eqb u i)) (q_todo x)) else x) (k_reqs k)) = map h (k_reqs k)).
  { intros T h Hh. rewrite map_map. apply map_ext. intros [a b t]. cbn. destruct (Nat.eqb a (q_id q)); [apply Hh|reflexivity]. }
  apply set_rank; auto; cbn; [|intros b; apply h_sent; auto].
  constructor; cbn; auto.
  - unfold acts. rewrite (G _ (fun q => (q_id q, q_field q))) by reflexivity. exact O2.
  - rewrite (G _ q_id) by reflexivity. exact O3.
  - rewrite (G _ q_field) by reflexivity. exact O4.
  - exists phi. split; [exact R1|]. split.
    + intros x I. apply in_map_iff in I as (y & <- & I). destruct (Nat.eqb_spec (q_id y) (q_id q)) as [e|e].
      * assert (y = q) by (eapply (map_In_inj q_id); eauto). subst y. cbn. rewrite fset_eq. split; [exact Q1|]. split; [exact Q2|].
        exists (l ++ [(i, m)]), d0. cbn [q_id q_todo]. rewrite Ef. split; [exact Ec|]. split; [|split; [exact N'|split; [exact C'|exact M']]].
        rewrite ofoldl_app, Eu. cbn. rewrite E2. reflexivity.
      * destruct (R2 y I) as (Y1 & Y2 & Y3). rewrite fset_ne; [auto|]. intros e'. apply e. f_equal. eapply (map_In_inj q_field); eauto.
    + rewrite (G _ q_field) by reflexivity. intros f I. rewrite fset_ne; [auto|]. intros ->. apply I. now apply in_map.
Qed.
End P.
