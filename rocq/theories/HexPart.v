(** Exchanges in progress at the same time on a partition, and the pool of exchangers. *)
From Coq Require Import List ZArith Bool Lia.
From Verif Require Import TupleModel RangeModel RangeProof CartModel IndexerModel ArrayModel ArrayProof HashModel HaloModel NetModel NetSpec NeighSpec NeighProof FieldSpec AsmRep.
From Verif Require Import HashProof IndexerProof HexModel HexSpec HexProof HexRun.
Import ListNotations.
Local Open Scope nat_scope.

Lemma last_op_start {V} f (p : list (cmd V)) : (last_op f p = Some true -> In f (starts p)) /\ (last_op f p = None -> ~ In f (starts p)).
Proof.
  induction p as [|c p [IH1 IH2]]; [split; [discriminate|intros _ []]|]. cbn. destruct (last_op f p) as [[|]|] eqn:E.
  - split; [|discriminate]. intros _. apply in_or_app. right. auto.
  - split; discriminate.
  - destruct c as [g|js|g gs h]; cbn; auto.
    + destruct (Nat.eqb_spec g f) as [->|N]; split; intros; try discriminate; auto. intros [e|I]; [contradiction|]. now apply IH2.
    + destruct (Nat.eqb_spec g f); split; try discriminate; auto.
Qed.

Section P.
Context {V : Type}.
Variable v0 : V.
Variable c : cart.
Variable n : nat.
Variable L E : nat -> range.
Variable N : nat -> list nat.
Variable H : nat -> hmap.
Hypothesis P : partitioned c n L E N H.

Definition sized (F : nat -> nat -> list V) : Prop := forall r f, r < n -> Z.of_nat (length (F r f)) = rcount (E r).
Definition kept_by (r : nat) (p : list (cmd V)) : Prop := keeps (Z.to_nat (rcount (E r))) p.

Lemma any_holds (D : nat -> list V) : (forall r, r < n -> Z.of_nat (length (D r)) = rcount (E r)) -> exists m, holds n L E D m.
Proof.
  intros S. exists (fun p => match vread (D (ownerf n L p)) (rindex ColMajor (E (ownerf n L p)) p) with Some v => v | None => v0 end).
  intros r Hr. split; [auto|]. intros p Hp. rewrite (ownerf_spec c n L (decomp c n L E N H P) p r Hr Hp).
  destruct (proj2 (vread_some (D r) (rindex ColMajor (E r) p))) as [v Ev]; [|now rewrite Ev].
  rewrite S by exact Hr. apply rindex_bounds. eapply (L_in_E c n L E N H P); eauto.
Qed.

Lemma agrees_ext (F G : nat -> list V) m : (forall r, r < n -> F r = G r) -> agrees c n L E N F m -> agrees c n L E N G m.
Proof.
  intros Q [A1 A2]. split.
  - intros r Hr. rewrite <- Q by exact Hr. auto.
  - intros r p q u Hr. rewrite <- Q by exact Hr. eauto.
Qed.

(** Up to the next exchange *)
Lemma upto_end (p : list (cmd V)) : forall (F : nat -> list V) k, starts p = [] -> keeps k p -> (forall f, length (F f) = k) ->
  exists G, upto p F = (G, None) /\ (forall f, length (G f) = k) /\ forall f, last_op f p = None -> G f = F f.
Proof.
  induction p as [|[f|js|f fs g] p IH]; intros F k St Ke Le; cbn in *.
  - eauto.
  - discriminate.
  - destruct (IH F k St) as (G & U & G1 & G2); auto; [intros f fs g I; apply (Ke f fs g); now right|]. exists G. repeat split; auto.
    intros f Lf. apply G2. destruct (last_op f p); [discriminate|reflexivity].
  - destruct (IH (fset F f (g (map F fs))) k St) as (G & U & G1 & G2); [intros f' fs' g' I; apply (Ke f' fs' g'); now right| |].
    { intros h. unfold fset. destruct (Nat.eqb h f); [|auto]. apply (Ke f fs g (or_introl eq_refl)); [apply map_length|]. intros l I. apply in_map_iff in I as (a & <- & _). auto. }
    exists G. repeat split; auto. intros h Lh. destruct (last_op h p) eqn:E1; [discriminate|]. rewrite G2 by exact E1. destruct (Nat.eqb_spec f h) as [->|Ne]; [discriminate|].
    now rewrite fset_ne by auto.
Qed.
Lemma upto_start (p : list (cmd V)) : forall (F : nat -> list V) k f0 fs0, starts p = f0 :: fs0 -> keeps k p -> (forall f, length (F f) = k) ->
  exists G p', upto p F = (G, Some (f0, p')) /\ starts p' = fs0 /\ keeps k p' /\ (forall f, length (G f) = k) /\
    (forall f, last_op f p = None -> G f = F f) /\ (forall f, last_op f (Start f0 :: p') = None -> last_op f p <> Some true) /\
    (forall f b, last_op f (Start f0 :: p') = Some b -> last_op f p = Some b).
Proof.
  induction p as [|[f|js|f fs g] p IH]; intros F k f0 fs0 St Ke Le; cbn [starts flat_map app] in St.
  - discriminate.
  - injection St as -> <-. exists F, p. cbn [upto]. repeat split; auto; [intros f fs g I; apply (Ke f fs g); now right|]. intros f Lf. rewrite Lf. discriminate.
  - destruct (IH F k f0 fs0 St) as (G & p' & U & G1 & G2 & G3 & G4 & G5 & G6); auto; [intros f fs g I; apply (Ke f fs g); now right|].
    exists G, p'. cbn [upto]. repeat split; auto.
    + intros f Lf. cbn [last_op] in Lf. apply G4. destruct (last_op f p); [discriminate|reflexivity].
    + intros f Lf. cbn [last_op]. specialize (G5 f Lf). destruct (last_op f p); [exact G5|discriminate].
    + intros f b Lf. cbn [last_op]. now rewrite (G6 f b Lf).
  - destruct (IH (fset F f (g (map F fs))) k f0 fs0 St) as (G & p' & U & G1 & G2 & G3 & G4 & G5 & G6); [intros f' fs' g' I; apply (Ke f' fs' g'); now right| |].
    { intros h. unfold fset. destruct (Nat.eqb h f); [|auto]. apply (Ke f fs g (or_introl eq_refl)); [apply map_length|]. intros l I. apply in_map_iff in I as (a & <- & _). auto. }
    exists G, p'. cbn [upto]. repeat split; auto.
    + intros h Lh. cbn [last_op] in Lh. destruct (last_op h p) eqn:E1; [discriminate|]. rewrite G4 by exact E1. destruct (Nat.eqb_spec f h) as [->|Ne]; [discriminate|].
      now rewrite fset_ne by auto.
    + intros h Lh. cbn [last_op]. specialize (G5 h Lh). destruct (last_op h p); [exact G5|]. destruct (Nat.eqb f h); discriminate.
    + intros h b Lh. cbn [last_op]. now rewrite (G6 h b Lh).
Qed.

Lemma choose {T} (Q : nat -> T -> Prop) (d : T) : forall m, (forall r, r < m -> exists t, Q r t) -> exists f, forall r, r < m -> Q r (f r).
Proof.
  induction m as [|m IH]; intros G; [exists (fun _ => d); intros; lia|]. destruct IH as [f Hf]; [auto|]. destruct (G m ltac:(lia)) as [t Ht].
  exists (fset f m t). intros r Hr. destruct (Nat.eq_dec r m) as [->|Ne]; [now rewrite fset_eq|]. rewrite fset_ne by exact Ne. apply Hf. lia.
Qed.

Lemma partition_blocking fs : forall (progs : nat -> list (cmd V)) F, (forall r, r < n -> starts (progs r) = fs) -> (forall r, r < n -> kept_by r (progs r)) -> sized F ->
  exists F', blocking n H progs F F' /\ sized F' /\
    (forall f, (forall r, r < n -> last_op f (progs r) = Some true) \/
               ((forall r, r < n -> last_op f (progs r) = None) /\ exists m, agrees c n L E N (fun r => F r f) m) ->
               exists m, agrees c n L E N (fun r => F' r f) m).
Proof.
  assert (Sz : forall F, sized F <-> forall r, r < n -> forall f, length (F r f) = Z.to_nat (rcount (E r))).
  { intros F. split; [intros S r Hr f; specialize (S r f Hr); lia|]. intros S r f Hr. rewrite (S r Hr f). pose proof (count_nonneg (E r)). lia. }
  induction fs as [|f0 fs IH]; intros progs F St Ke S; rewrite Sz in S.
  - destruct (choose (fun r G => upto (progs r) (F r) = (G, None) /\ (forall f, length (G f) = Z.to_nat (rcount (E r))) /\ forall f, last_op f (progs r) = None -> G f = F r f) (fun _ => []) n) as [F' HF].
    { intros r Hr. apply upto_end; auto. apply (Ke r Hr). }
    exists F'. split; [apply BDone; intros r Hr; apply HF, Hr|]. split; [apply Sz; intros r Hr; apply HF, Hr|].
    intros f [A|[A (m & Am)]].
    + exfalso. destruct (decomp c n L E N H P) as (_ & Hn & _). specialize (A 0 ltac:(lia)). apply last_op_start in A. rewrite (St 0) in A by lia. destruct A.
    + exists m. eapply agrees_ext; [|exact Am]. intros r Hr. cbn. symmetry. apply HF; auto.
  - destruct (choose (fun r (x : (nat -> list V) * list (cmd V)) => upto (progs r) (F r) = (fst x, Some (f0, snd x)) /\ starts (snd x) = fs /\ keeps (Z.to_nat (rcount (E r))) (snd x) /\
        (forall f, length (fst x f) = Z.to_nat (rcount (E r))) /\
        (forall f, last_op f (progs r) = None -> fst x f = F r f) /\ (forall f, last_op f (Start f0 :: snd x) = None -> last_op f (progs r) <> Some true) /\
        (forall f b, last_op f (Start f0 :: snd x) = Some b -> last_op f (progs r) = Some b)) (fun _ => [], []) n) as [G HG].
    { intros r Hr. destruct (upto_start (progs r) (F r) (Z.to_nat (rcount (E r))) f0 fs) as (G & p' & U); auto; [apply (Ke r Hr)|]. exists (G, p'). exact U. }
    destruct (any_holds (fun r => fst (G r) f0)) as [m Hm].
    { intros r Hr. destruct (HG r Hr) as (_ & _ & _ & Lr & _). rewrite Lr. pose proof (count_nonneg (E r)). lia. }
    pose proof P as (_ & _ & _ & _ & _ & Px). destruct (Px V _ m Hm) as (X & Ex & Ag).
    destruct (IH (fun r => snd (G r)) (fun r => fset (fst (G r)) f0 (X r))) as (F' & Bl & S' & Fin).
    { intros r Hr. apply HG, Hr. } { intros r Hr. apply HG, Hr. }
    { apply Sz. intros r Hr f. unfold fset. destruct (Nat.eqb f f0); [|apply HG, Hr]. destruct Ag as [Ag _]. destruct (Ag r Hr) as [Lx _]. lia. }
    exists F'. split; [|split; [exact S'|]].
    + apply (BExchange n H progs F (fun r => fst (G r)) f0 (fun r => snd (G r)) X F'); auto. intros r Hr. apply HG, Hr.
    + intros f A. apply Fin. destruct (decomp c n L E N H P) as (_ & Hn & _).
      destruct A as [A|[A (m' & Am)]].
      * (* the last thing done is an exchange, this one or a later one *)
        assert (T : forall r, r < n -> last_op f (Start f0 :: snd (G r)) = Some true).
        { intros r Hr. destruct (HG r Hr) as (_ & _ & _ & _ & _ & G5 & G6). specialize (A r Hr). destruct (last_op f (Start f0 :: snd (G r))) as [b|] eqn:El; [|exfalso; eapply G5; eauto].
          specialize (G6 f b El). congruence. }
        destruct (in_dec Nat.eq_dec f fs) as [I|I].
        -- left. intros r Hr. specialize (T r Hr). cbn [last_op] in T. destruct (last_op f (snd (G r))) as [b|] eqn:El; [exact T|].
           exfalso. apply (proj2 (last_op_start f (snd (G r))) El). destruct (HG r Hr) as (_ & -> & _). exact I.
        -- right. assert (T' : forall r, r < n -> last_op f (snd (G r)) = None /\ f0 = f).
           { intros r Hr. specialize (T r Hr). cbn [last_op] in T. destruct (last_op f (snd (G r))) as [b|] eqn:El.
             - exfalso. injection T as ->. apply I. destruct (HG r Hr) as (_ & <- & _). now apply last_op_start.
             - split; [reflexivity|]. destruct (Nat.eqb_spec f0 f); [auto|discriminate]. }
           split; [intros r Hr; apply T', Hr|]. exists m. destruct (T' 0 ltac:(lia)) as [_ <-]. eapply agrees_ext; [|exact Ag]. intros r Hr. now rewrite fset_eq.
      * right.
        assert (T : forall r, r < n -> last_op f (Start f0 :: snd (G r)) = None).
        { intros r Hr. destruct (HG r Hr) as (_ & _ & _ & _ & _ & G5 & G6). specialize (A r Hr). destruct (last_op f (Start f0 :: snd (G r))) as [b|] eqn:El; [|reflexivity].
          specialize (G6 f b El). congruence. }
        assert (T' : forall r, r < n -> last_op f (snd (G r)) = None /\ f0 <> f).
        { intros r Hr. specialize (T r Hr). cbn [last_op] in T. destruct (last_op f (snd (G r))); [discriminate|]. split; [reflexivity|]. destruct (Nat.eqb_spec f0 f); [discriminate|auto]. }
        split; [intros r Hr; apply T', Hr|]. exists m'. eapply agrees_ext; [|exact Am]. intros r Hr. cbn. destruct (T' r Hr) as [_ Ne]. rewrite fset_ne by auto.
        symmetry. apply HG; auto.
Qed.

Theorem partition_exchanges fs (progs : nat -> list (cmd V)) F : (forall r, r < n -> NoDup (h_ranks (H r))) ->
  (forall r, r < n -> starts (progs r) = fs) -> (forall r, r < n -> orderly 0 [] (progs r)) -> (forall r, r < n -> keeps (Z.to_nat (rcount (E r))) (progs r)) ->
  (forall r f, r < n -> Z.of_nat (length (F r f)) = rcount (E r)) ->
  exists bound F', (forall f, (forall r, r < n -> last_op f (progs r) = Some true) -> exists m, agrees c n L E N (fun r => F' r f) m) /\
    forall eager ls o, xruns H eager n (hex0 progs F) ls = Some o ->
      length ls <= bound /\ exists s, o = Some s /\
        (forall r f, r < n -> k_prog (x_rank s r) = [] -> k_fields (x_rank s r) f = F' r f) /\
        ((forall l, xstep H eager n s l = None) -> all_done n s).
Proof.
  intros Nd St Od Ke S. destruct (partition_blocking fs progs F St Ke S) as (F' & Bl & _ & Fin).
  destruct (exchanges_ok n H progs F F' Nd Od Bl) as [bound R]. exists bound, F'. split; [|exact R]. intros f A. apply Fin. now left.
Qed.
End P.

(** ** The pool *)
Definition pool_run (es : list (option nat)) : list bool * list nat := fold_left pool_step es ([], []).

Lemma take_spec p : forall i p', take p = (i, p') -> i < length p' /\ nth i p' false = true /\ nth i p false = false /\
  (forall j, j <> i -> nth j p' false = nth j p false).
Proof.
  induction p as [|[|] p IH]; intros i p' E; cbn in E.
  - injection E as <- <-. cbn. repeat split; auto. intros [|[|j]] Nj; try reflexivity. lia.
  - destruct (take p) as [i0 p0]. injection E as <- <-. destruct (IH i0 p0 eq_refl) as (A & B & C & D). cbn. repeat split; auto; [lia|].
    intros [|j] Nj; [reflexivity|]. apply D. lia.
  - injection E as <- <-. cbn. repeat split; auto; [lia|]. intros [|j] Nj; [lia|reflexivity].
Qed.
Lemma give_spec p : forall i, (nth i (give p i) false = false) /\ forall j, j <> i -> nth j (give p i) false = nth j p false.
Proof.
  induction p as [|b p IH]; intros i; [split; [now destruct i|auto]|]. destruct i as [|i]; cbn.
  - split; [reflexivity|]. intros [|j] Nj; [lia|reflexivity].
  - destruct (IH i) as [A B]. split; [exact A|]. intros [|j] Nj; [reflexivity|]. apply B. lia.
Qed.

Lemma nth_cut {A} (l : list A) k x : nth_error l k = Some x -> l = firstn k l ++ x :: skipn (S k) l.
Proof.
  revert k. induction l as [|y l IH]; intros [|k] E; cbn in *; try discriminate.
  - now injection E as ->.
  - f_equal. now apply IH.
Qed.

Lemma pool_inv es : forall p u, NoDup u -> (forall i, In i u <-> nth i p false = true) ->
  let s := fold_left pool_step es (p, u) in NoDup (snd s) /\ forall i, In i (snd s) <-> nth i (fst s) false = true.
Proof.
  induction es as [|[k|] es IH]; intros p u N A; cbn [fold_left]; [now split| |].
  - cbn [pool_step fst snd]. destruct (nth_error u k) as [i|] eqn:E; [|now apply IH]. pose proof (nth_cut u k i E) as C. apply IH.
    + rewrite C in N. now apply NoDup_remove_1 in N.
    + intros j. destruct (give_spec p i) as [G1 G2]. destruct (Nat.eq_dec j i) as [->|Nj].
      * rewrite G1. split; [|discriminate]. intros I. exfalso. rewrite C in N. now apply NoDup_remove_2 in N.
      * rewrite G2 by exact Nj. rewrite <- A. rewrite C at 3. rewrite !in_app_iff. cbn. intuition congruence.
  - cbn [pool_step fst snd]. destruct (take p) as [i p'] eqn:E. destruct (take_spec p i p' E) as (_ & T1 & T2 & T3). apply IH.
    + apply NoDup_snoc; auto. intros I. apply A in I. congruence.
    + intros j. rewrite in_app_iff. cbn. destruct (Nat.eq_dec j i) as [->|Nj]; [rewrite T1; intuition|]. rewrite T3 by exact Nj. rewrite <- A. intuition congruence.
Qed.
(** Exchanges in progress have different exchangers. *)
Lemma pool_ok es : NoDup (snd (pool_run es)).
Proof. apply (pool_inv es [] []); [constructor|]. intros i. destruct i; split; intros; try contradiction; discriminate. Qed.

Lemma take_length p : forall i p', take p = (i, p') -> length p' = length p \/ (length p' = S (length p) /\ forall j, j < length p -> nth j p false = true).
Proof.
  induction p as [|[|] p IH]; intros i p' E; cbn in E.
  - injection E as <- <-. right. split; [reflexivity|]. intros j L. inversion L.
  - destruct (take p) as [i0 p0]. injection E as <- <-. destruct (IH i0 p0 eq_refl) as [Q|[Q A]]; cbn; [left; lia|]. right. split; [lia|]. intros [|j] L; [reflexivity|]. apply A. lia.
  - injection E as <- <-. now left.
Qed.
Lemma give_length p : forall i, length (give p i) = length p.
Proof. induction p as [|b p IH]; intros [|i]; cbn; auto. Qed.

(** There are never more exchangers than exchanges in progress at some time. *)
Lemma pool_size es : forall M, (forall k, length (snd (pool_run (firstn k es))) <= M) -> length (fst (pool_run es)) <= M.
Proof.
  induction es as [|e es IH] using rev_ind; intros M Q; [cbn; lia|].
  assert (L : length (fst (pool_run es)) <= M).
  { apply IH. intros k. destruct (le_lt_dec k (length es)) as [a|a].
    - specialize (Q k). rewrite firstn_app in Q. replace (k - length es) with 0 in Q by lia. cbn [firstn] in Q. now rewrite app_nil_r in Q.
    - rewrite firstn_all2 by lia. specialize (Q (length es)). rewrite firstn_app, Nat.sub_diag in Q. cbn [firstn] in Q. rewrite app_nil_r, firstn_all in Q. exact Q. }
  specialize (Q (length (es ++ [e]))). rewrite firstn_all in Q. unfold pool_run in Q, L |- *. rewrite fold_left_app in *. cbn [fold_left] in *.
  assert (Inv : NoDup (snd (fold_left pool_step es ([], []))) /\ forall i, In i (snd (fold_left pool_step es ([], []))) <-> nth i (fst (fold_left pool_step es ([], []))) false = true).
  { apply (pool_inv es [] []); [constructor|]. intros i. destruct i; split; intros; try contradiction; discriminate. }
  destruct (fold_left pool_step es ([], [])) as [p u]. cbn [fst snd] in *. destruct e as [k|]; cbn [pool_step fst snd] in *.
  - destruct (nth_error u k); cbn [fst snd] in *; [rewrite give_length; exact L|exact L].
  - destruct (take p) as [i p'] eqn:T. cbn [fst snd] in *. destruct (take_length p i p' T) as [->|[-> A]]; [exact L|]. rewrite app_length in Q. cbn in Q.
    assert (I : incl (seq 0 (length p)) u). { intros j J. apply in_seq in J. apply Inv, A. lia. }
    apply (NoDup_incl_length (seq_NoDup _ _)) in I. rewrite seq_length in I. lia.
Qed.
