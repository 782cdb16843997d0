(** Threads that access elements of their own only. *)
From Coq Require Import List ZArith Bool Lia Arith.
From Verif Require Import TupleModel RangeModel CartModel IndexerModel ArrayModel HashModel HashProof SendModel CollectModel ThrModel ThrSpec.
Import ListNotations.
Local Open Scope nat_scope.

Lemma loc_eqb_eq a b : loc_eqb a b = true <-> a = b.
Proof.
  split; [|intros <-; destruct a; cbn; rewrite ?Z.eqb_refl; reflexivity].
  destruct a, b; cbn; try discriminate; rewrite ?andb_true_iff, ?Z.eqb_eq; intros H; decompose [and] H; subst; reflexivity.
Qed.
Section Gen.
Context {V D : Type}.
Notation mem := (mem V D).
Notation instr := (instr V D).
Lemma mset_same (m : mem) l w : mset m l w l = w.
Proof. unfold mset. now rewrite (proj2 (loc_eqb_eq l l) eq_refl). Qed.
Lemma mset_other (m : mem) l w l' : l <> l' -> mset m l w l' = m l'.
Proof. intros H. unfold mset. destruct (loc_eqb l l') eqn:E; [apply loc_eqb_eq in E; contradiction|reflexivity]. Qed.

Variable ok : loc -> bool.
Definition step1 (m : mem) (i : instr) : option mem :=
  if forallb ok (i_loads i) then match i_store i (map m (i_loads i)) with Some (l, w) => if ok l then Some (mset m l w) else None | None => None end else None.
Definition exec (is : list instr) (m : mem) : option mem := ofoldl step1 is m.
Lemma exec_app a b m : exec (a ++ b) m = match exec a m with Some m' => exec b m' | None => None end.
Proof. unfold exec. revert m. induction a as [|i a IH]; intros m; cbn; [reflexivity|]. destruct (step1 m i); [apply IH|reflexivity]. Qed.

Variables (n : nat) (own : nat -> loc -> Prop) (prog : nat -> list instr) (m0 : mem).
Definition confined (t : nat) (i : instr) : Prop := (forall l, In l (i_loads i) -> own t l) /\ (forall ws l w, i_store i ws = Some (l, w) -> own t l).
Hypothesis Hown : forall t u l, t < n -> u < n -> own t l -> own u l -> t = u.
Hypothesis Hconf : forall t i, t < n -> In i (prog t) -> confined t i.
Hypothesis Hexec : forall t, t < n -> exec (prog t) m0 <> None.

Definition agree (t : nat) (m m' : mem) : Prop := forall l, own t l -> m l = m' l.
Definition cost (is : list instr) : nat := list_sum (map (fun i => S (length (i_loads i))) is).
Lemma cost_cons i p : cost (i :: p) = S (length (i_loads i)) + cost p.
Proof. reflexivity. Qed.
Definition mu (s : thst V D) : nat := list_sum (map (fun t => cost (t_prog s t) - length (t_regs s t)) (seq 0 n)).
Definition at_head (s : thst V D) (t : nat) : Prop :=
  match t_prog s t with
  | [] => t_regs s t = []
  | i :: _ => length (t_regs s t) <= length (i_loads i) /\ t_regs s t = map (t_mem s) (firstn (length (t_regs s t)) (i_loads i))
  end.
Definition J (s : thst V D) : Prop := forall t, t < n -> at_head s t /\
  exists don mt, don ++ t_prog s t = prog t /\ exec don m0 = Some mt /\ agree t (t_mem s) mt.

Lemma start_J : J (start m0 prog).
Proof.
  intros t Ht. split.
  - unfold at_head. cbn. destruct (prog t); [reflexivity|]. cbn. split; [lia|reflexivity].
  - exists [], m0. split; [reflexivity|]. split; [reflexivity|]. intros l _. reflexivity.
Qed.
Lemma head_in s t i p : J s -> t < n -> t_prog s t = i :: p -> In i (prog t).
Proof. intros Hj Ht E. destruct (Hj t Ht) as (_ & don & mt & A & _). rewrite <- A, E. apply in_or_app. right. now left. Qed.

Lemma set_same {A} (f : nat -> A) t a : ThrModel.set f t a t = a.
Proof. unfold ThrModel.set. now rewrite Nat.eqb_refl. Qed.
Lemma set_other {A} (f : nat -> A) t a u : u <> t -> ThrModel.set f t a u = f u.
Proof. intros H. unfold ThrModel.set. destruct (Nat.eqb_spec u t); [contradiction|reflexivity]. Qed.

Lemma sum_one (f g : nat -> nat) t : t < n -> (forall u, u <> t -> f u = g u) -> g t = S (f t) ->
  list_sum (map g (seq 0 n)) = S (list_sum (map f (seq 0 n))).
Proof.
  intros Ht H E. assert (Ls : forall a l, list_sum (a :: l) = a + list_sum l) by reflexivity. assert (X : forall a k, (a <= t < a + k -> list_sum (map g (seq a k)) = S (list_sum (map f (seq a k)))) /\ (~ a <= t < a + k -> list_sum (map g (seq a k)) = list_sum (map f (seq a k)))).
  { intros a k. revert a. induction k as [|k IH]; intros a; [cbn; lia|]. cbn [seq map]. rewrite !Ls. destruct (IH (S a)) as [I1 I2]. destruct (Nat.eq_dec a t) as [->|Ne].
    - split; [|lia]. intros _. rewrite E, I2 by lia. lia.
    - rewrite (H a Ne). split; intros B; [rewrite I1 by lia; lia|rewrite I2 by lia; lia]. }
  apply (X 0 n). lia.
Qed.

Lemma exec_prefix don i p m mt : exec (don ++ i :: p) m <> None -> exec don m = Some mt -> exists m', step1 mt i = Some m'.
Proof. intros H E. rewrite exec_app, E in H. unfold exec in H. cbn in H. destruct (step1 mt i); [eauto|contradiction]. Qed.

Lemma step_J s t r : J s -> tstep ok n s t = Some r -> exists s', r = Some s' /\ J s' /\ mu s = S (mu s').
Proof.
  intros Hj. unfold tstep. destruct (Nat.ltb_spec t n) as [Ht|]; [|discriminate]. destruct (t_prog s t) as [|i p] eqn:Ep; [discriminate|].
  destruct (Hj t Ht) as (Hh & don & mt & A & B & C). unfold at_head in Hh. rewrite Ep in Hh. destruct Hh as [H1 H2].
  pose proof (Hconf t i Ht (head_in s t i p Hj Ht Ep)) as [Cl Cs].
  rewrite Ep in A. pose proof (Hexec t Ht) as Hx. rewrite <- A in Hx. destruct (exec_prefix don i p m0 mt Hx B) as [m' Hm'].
  unfold step1 in Hm'. destruct (forallb ok (i_loads i)) eqn:Fo; [|discriminate]. rewrite forallb_forall in Fo.
  destruct (nth_error (i_loads i) (length (t_regs s t))) as [l|] eqn:En.
  - intros [= <-]. pose proof (nth_error_In _ _ En) as Il. rewrite (Fo l Il). eexists. split; [reflexivity|]. assert (Lt : length (t_regs s t) < length (i_loads i)) by (apply nth_error_Some; congruence). split.
    + intros u Hu. destruct (Nat.eq_dec u t) as [->|Ne].
      * split; [|exists don, mt; cbn; rewrite Ep; auto]. unfold at_head. cbn. rewrite Ep, set_same, app_length. cbn. split; [lia|].
        rewrite H2 at 1. replace (length (t_regs s t) + 1) with (S (length (t_regs s t))) by lia.
        assert (F : forall (l0 : list loc) k x, nth_error l0 k = Some x -> firstn (S k) l0 = firstn k l0 ++ [x]).
        { induction l0 as [|y l0 IH]; intros [|k] x; cbn; try discriminate; [now intros [= ->]|]. intros Q. f_equal. now apply IH. }
        rewrite (F _ _ _ En), map_app. reflexivity.
      * destruct (Hj u Hu) as (Hh & don' & mt' & A' & B' & C'). split; [|exists don', mt'; cbn; auto]. unfold at_head in *. cbn. rewrite set_other by exact Ne. exact Hh.
    + unfold mu. apply sum_one with (t := t); [exact Ht| |]; cbn [t_prog t_regs t_mem].
      * intros u Ne. now rewrite set_other.
      * rewrite Ep, set_same, app_length, cost_cons. cbn [length]. lia.
  - apply nth_error_None in En. assert (Er : t_regs s t = map (t_mem s) (i_loads i)).
    { rewrite H2. f_equal. apply firstn_all2. lia. }
    assert (Em : map (t_mem s) (i_loads i) = map mt (i_loads i)) by (apply map_ext_in; intros l Il; apply C, Cl, Il).
    rewrite <- Em, <- Er in Hm'. destruct (i_store i (t_regs s t)) as [[l w]|] eqn:Es; [|discriminate]. destruct (ok l) eqn:Ol; [|discriminate].
    intros [= <-]. eexists. split; [reflexivity|]. pose proof (Cs _ _ _ Es) as Ol'. split.
    + intros u Hu. destruct (Nat.eq_dec u t) as [->|Ne].
      * split. { unfold at_head. cbn. rewrite !set_same. destruct p; [reflexivity|]. cbn. split; [lia|reflexivity]. }
        exists (don ++ [i]), (mset mt l w). cbn. rewrite set_same. split; [rewrite <- app_assoc; exact A|]. split.
        { rewrite exec_app, B. unfold exec. cbn. unfold step1. replace (forallb ok (i_loads i)) with true by (symmetry; now apply forallb_forall). rewrite <- Em, <- Er, Es, Ol. reflexivity. }
        intros l' Ol2. destruct (loc_eqb l l') eqn:El; [apply loc_eqb_eq in El; subst l'; now rewrite !mset_same|].
        assert (l <> l') by (intros X; apply loc_eqb_eq in X; congruence). rewrite !mset_other by assumption. apply C, Ol2.
      * destruct (Hj u Hu) as (Hh & don' & mt' & A' & B' & C').
        assert (K : forall l', own u l' -> mset (t_mem s) l w l' = t_mem s l').
        { intros l' Ol2. apply mset_other. intros X. subst l'. apply Ne. eapply Hown; eauto. }
        split.
        { unfold at_head in *. cbn. rewrite !set_other by exact Ne. destruct (t_prog s u) as [|j q] eqn:Eq; [exact Hh|]. destruct Hh as [X1 X2]. split; [exact X1|]. rewrite X2 at 1.
          apply map_ext_in. intros l' Il. symmetry. apply K. apply (Hconf u j Hu (head_in s u j q Hj Hu Eq)). rewrite <- (firstn_skipn (length (t_regs s u)) (i_loads j)). apply in_or_app. now left. }
        exists don', mt'. cbn. rewrite set_other by exact Ne. split; [exact A'|]. split; [exact B'|]. intros l' Ol2. rewrite K by exact Ol2. apply C', Ol2.
    + unfold mu. apply sum_one with (t := t); [exact Ht| |]; cbn [t_prog t_regs t_mem].
      * intros u Ne. now rewrite !set_other.
      * rewrite Ep, !set_same, cost_cons. cbn [length]. rewrite Er, map_length. lia.
Qed.

Lemma runs_J ts : forall s r, J s -> truns ok n s ts = Some r -> exists s', r = Some s' /\ J s' /\ mu s = length ts + mu s'.
Proof.
  induction ts as [|t ts IH]; intros s r Hj; cbn [truns].
  - intros [= <-]. exists s. auto.
  - destruct (tstep ok n s t) as [r1|] eqn:E; [|discriminate]. destruct (step_J s t r1 Hj E) as (s1 & -> & Hj1 & M). intros R. destruct (IH s1 r Hj1 R) as (s' & -> & Hj' & M'). exists s'. split; [reflexivity|]. split; [exact Hj'|]. cbn. lia.
Qed.

Lemma J_race s : J s -> ~ race n s.
Proof.
  intros Hj (t & u & l & a & b & Ht & Hu & Ne & At & Au & _).
  assert (X : forall t a, t < n -> access s t = Some (l, a) -> own t l).
  { clear At Au Ht Hu Ne t u a b. intros t a Ht. unfold access. destruct (t_prog s t) as [|i p] eqn:Ep; [discriminate|]. destruct (Hconf t i Ht (head_in s t i p Hj Ht Ep)) as [Cl Cs].
    destruct (nth_error (i_loads i) (length (t_regs s t))) as [l'|] eqn:En.
    - intros [= -> _]. apply Cl. eapply nth_error_In; eauto.
    - destruct (i_store i (t_regs s t)) as [[l' w]|] eqn:Es; [|discriminate]. cbn. intros [= -> _]. eapply Cs; eauto. }
  apply Ne. apply (Hown t u l); eauto.
Qed.
Theorem threads_ok : exists bound, forall ts r, truns ok n (start m0 prog) ts = Some r ->
  exists s, r = Some s /\ length ts <= bound /\ ~ race n s /\ (finished n s \/ exists t, tstep ok n s t <> None) /\
  (finished n s -> forall t, t < n -> exists mt, exec (prog t) m0 = Some mt /\ agree t (t_mem s) mt).
Proof.
  exists (mu (start m0 prog)). intros ts r R. destruct (runs_J ts _ r start_J R) as (s & -> & Hj & M). exists s. split; [reflexivity|]. split; [lia|]. split; [apply J_race, Hj|]. split.
  - assert (X : (forall t, In t (seq 0 n) -> t_prog s t = []) \/ exists t, In t (seq 0 n) /\ t_prog s t <> []).
    { induction (seq 0 n) as [|t l IH]; [left; intros t []|]. destruct (t_prog s t) as [|i p] eqn:E; [|right; exists t; split; [now left|congruence]].
      destruct IH as [IH|(u & Iu & Eu)]; [left; intros u [<-|Iu]; auto|right; exists u; split; [now right|exact Eu]]. }
    destruct X as [X|(t & It & Et)]; [left; intros t Ht; apply X, in_seq; lia|right]. exists t. apply in_seq in It. unfold tstep. destruct (Nat.ltb_spec t n); [|lia]. destruct (t_prog s t) as [|i p]; [contradiction|].
    destruct (nth_error _ _); discriminate.
  - intros F t Ht. destruct (Hj t Ht) as (_ & don & mt & A & B & C). rewrite (F t Ht), app_nil_r in A. subst don. eauto.
Qed.
End Gen.

(** ** A thread on its own *)
Section Solo.
Context {V D : Type}.
Variables (ok : loc -> bool) (n t : nat).
Hypothesis Ht : t < n.
Notation tstep := (@tstep V D ok n).
Notation truns := (@truns V D ok n).
Lemma truns_app a : forall (s s' : thst V D) b, truns s a = Some (Some s') -> truns s (a ++ b) = truns s' b.
Proof.
  induction a as [|u a IH]; intros s s' b; cbn; [now intros [= <-]|]. destruct (tstep s u) as [[s1|]|]; [apply IH| |discriminate]. destruct a; discriminate.
Qed.
Lemma solo_ins i p rest : forall pre (s : thst V D), t_prog s t = i :: p -> i_loads i = pre ++ rest -> forallb ok pre = true -> t_regs s t = map (t_mem s) pre ->
  match step1 ok (t_mem s) i with
  | None => exists ts, truns s ts = Some None
  | Some m' => exists ts s', truns s ts = Some (Some s') /\ t_mem s' = m' /\ t_prog s' t = p /\ t_regs s' t = []
  end.
Proof.
  assert (Lt : Nat.ltb t n = true) by now apply Nat.ltb_lt.
  induction rest as [|l rest IH]; intros pre s Ep El Eo Er.
  - rewrite app_nil_r in El. unfold step1. rewrite El, Eo. assert (En : nth_error (i_loads i) (length (t_regs s t)) = None) by (apply nth_error_None; rewrite El, Er, map_length; lia).
    assert (St : tstep s t = Some (match i_store i (t_regs s t) with Some (l, w) => if ok l then Some (TS (mset (t_mem s) l w) (ThrModel.set (t_prog s) t p) (ThrModel.set (t_regs s) t [])) else None | None => None end)).
    { unfold ThrModel.tstep. rewrite Lt, Ep, En. reflexivity. }
    rewrite Er in St. destruct (i_store i (map (t_mem s) pre)) as [[l w]|]; [destruct (ok l)|].
    + exists [t]. eexists. cbn. rewrite St. split; [reflexivity|]. cbn. rewrite !set_same. auto.
    + exists [t]. cbn. now rewrite St.
    + exists [t]. cbn. now rewrite St.
  - assert (En : nth_error (i_loads i) (length (t_regs s t)) = Some l) by (rewrite El, Er, map_length, nth_error_app2, Nat.sub_diag by lia; reflexivity).
    assert (St : tstep s t = Some (if ok l then Some (TS (t_mem s) (t_prog s) (ThrModel.set (t_regs s) t (t_regs s t ++ [t_mem s l]))) else None)).
    { unfold ThrModel.tstep. rewrite Lt, Ep, En. reflexivity. }
    destruct (ok l) eqn:Ol.
    + specialize (IH (pre ++ [l]) (TS (t_mem s) (t_prog s) (ThrModel.set (t_regs s) t (t_regs s t ++ [t_mem s l])))). cbn [t_mem t_prog t_regs] in IH.
      assert (X := IH Ep ltac:(rewrite El, <- app_assoc; reflexivity) ltac:(rewrite forallb_app, Eo; cbn; now rewrite Ol) ltac:(rewrite set_same, Er, map_app; reflexivity)).
      destruct (step1 ok (t_mem s) i) as [m'|].
      * destruct X as (ts & s' & R & Q). exists (t :: ts), s'. cbn. rewrite St. auto.
      * destruct X as (ts & R). exists (t :: ts). cbn. rewrite St. auto.
    + unfold step1. rewrite El, forallb_app. cbn. rewrite Ol, andb_false_r. exists [t]. cbn. now rewrite St.
Qed.
Lemma solo p : forall (s : thst V D), t_prog s t = p -> t_regs s t = [] -> exec ok p (t_mem s) = None -> exists ts, truns s ts = Some None.
Proof.
  induction p as [|i p IH]; intros s Ep Er E; [discriminate|]. pose proof (solo_ins i p (i_loads i) [] s Ep eq_refl eq_refl Er) as X. unfold exec in E. cbn in E.
  destruct (step1 ok (t_mem s) i) as [m'|]; [|exact X]. destruct X as (ts & s' & R & Em & Ep' & Er'). subst m'. destruct (IH s' Ep' Er' E) as (ts' & R'). exists (ts ++ ts'). rewrite (truns_app ts s s' ts' R). exact R'.
Qed.
Lemma exec_bad is i m : In i is -> (forall m', step1 (V := V) (D := D) ok m' i = None) -> exec ok is m = None.
Proof.
  intros Hi H. apply in_split in Hi. destruct Hi as (a & b & ->). rewrite exec_app. destruct (exec ok a m); [|reflexivity]. unfold exec. cbn. now rewrite H.
Qed.
End Solo.
