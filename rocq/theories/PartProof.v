(** Setting up a decomposed domain and exchanging a field. *)
From Coq Require Import List ZArith Bool Lia Arith QArith_base.
From Coq Require Import Sorting.Sorted.
From Verif Require Import TupleModel RangeModel CartModel Base RangeProof CartProof IndexerModel ArrayModel ArrayProof BoxModel BoxProof.
From Verif Require Import ContModel ContSpec ContProof OMap PairMap HashModel HashSpec HashProof DecompModel DecompProof.
From Verif Require Import ProtoModel ProtoSpec HandProof NetModel NetSpec NetProof NetPhase NetTools AnyPhase.
From Verif Require Import DHashModel DDecompProof LiftModel LiftProof NeighModel NeighSpec NeighProof HaloModel InfoProof HaloProof PartModel.
Import ListNotations.
Local Open Scope Z_scope.

Section Own.
Variables (c : cart) (n : nat) (L : nat -> range).
Hypothesis D : decomposed c n L.
Hypothesis SO : stored_once c.
Notation N := (nb c n L).

Lemma N_ok r : (r < n)%nat -> NoDup (N r) /\ (forall q, In q (N r) -> (q < n)%nat /\ q <> r).
Proof.
  intros Hr. destruct (neighbors_spec c n L D r Hr) as [A B]. split.
  - clear B. induction A as [|x l A IH H]; constructor; [|exact IH]. intros I. rewrite Forall_forall in H.
    specialize (H x I). lia.
  - intros q Hq. apply B in Hq. tauto.
Qed.

Lemma HN_sym r q : (r < n)%nat -> (q < n)%nat -> In q (N r) -> In r (N q).
Proof. intros Hr Hq H. apply (proj1 (neighbors_sym c n L D r q SO Hr Hq)), H. Qed.

Lemma tgt_image p u q : (q < n)%nat -> pt_in (L q) u -> is_image c p u -> tgt c p = u.
Proof.
  intros Hq Hu I. pose proof D as (_ & _ & Hok & _). assert (Bu : in_base c u).
  { apply base_of_in; auto. apply (L_sub c n L D q Hq u Hu). }
  unfold tgt. destruct (rcontains (c_range c) p) eqn:C.
  - apply rcontains_spec in C. apply (base_unique c p); auto using is_image_refl. apply base_of_in; auto.
  - unfold adj. rewrite (proj2 (periodic_adjust_iff c p u Hok)); auto.
Qed.

(** ** Which points have their owner among the neighbours *)

Lemma ring_owner r p q u : (r < n)%nat -> (q < n)%nat -> pt_in (extend_local_range c (L r) 1) p ->
  pt_in (L q) u -> is_image c p u -> q = r \/ In q (N r).
Proof.
  intros Hr Hq Hp Hu I. pose proof D as (_ & _ & Hok & _). destruct (Nat.eq_dec q r) as [|Ne]; [auto|right].
  assert (Bu : in_base c u) by (apply base_of_in; auto; apply (L_sub c n L D q Hq u Hu)).
  apply (neighbors_spec c n L D r Hr). split; [exact Hq|]. split; [exact Ne|]. exists p, u. split; [exact Hp|]. split; [|auto].
  intros C. apply Ne. assert (p = u).
  { apply (base_unique c p); auto using is_image_refl. apply base_of_in; auto. apply (L_sub c n L D r Hr p C). }
  subst u. eapply (L_unique c n L D); eauto.
Qed.

Section Thick.
Variable k : Z.
Hypothesis Hk : 1 <= k.
Hypothesis Gr : grid_of (c_nd c) n L k.

Lemma point_at r d x : (r < n)%nat -> (d < 3)%nat -> tget (rb (c_range c)) d <= x < tget (re (c_range c)) d ->
  exists t, (t < n)%nat /\ tget (rb (L t)) d <= x < tget (re (L t)) d.
Proof.
  intros Hr Hd Hx. pose proof D as (_ & _ & Hok & _ & _ & _ & NE).
  pose proof (NE r Hr) as NEr. rewrite rempty_false in NEr.
  destruct (L_owner c n L D (tset (rb (L r)) d x)) as (t & Ht & It).
  - apply pt_in_tget. intros d' Hd'. destruct (Nat.eq_dec d' d) as [->|Nd].
    + rewrite tget_tset, Nat.eqb_refl by exact Hd. exact Hx.
    + rewrite tget_tset by exact Hd'. destruct (Nat.eqb_spec d' d); [congruence|]. pose proof (proj1 (pt_in_tget _ _) NEr d' Hd'). pose proof (L_within c n L D r Hr d' Hd'). lia.
  - exists t. split; [exact Ht|]. pose proof (proj1 (pt_in_tget _ _) It d Hd) as X. rewrite tget_tset, Nat.eqb_refl in X by exact Hd. exact X.
Qed.

Lemma thick_dim r q d x y : (r < n)%nat -> (q < n)%nat -> (d < 3)%nat ->
  (let a := if Nat.ltb d (c_nd c) then k else 0 in tget (rb (L r)) d - a <= x < tget (re (L r)) d + a) ->
  (tget (c_per c) d = true -> exists j, y = x + j * per_len c d) -> (tget (c_per c) d = false -> y = x) ->
  tget (rb (L q)) d <= y < tget (re (L q)) d ->
  exists x' y', tget (rb (L r)) d <= x' < tget (re (L r)) d /\ tget (rb (L q)) d <= y' < tget (re (L q)) d /\
    Z.abs (x' - (y' - (y - x))) <= 1.
Proof.
  intros Hr Hq Hd Hx Hp Hn Hy. pose proof D as (_ & _ & Hok & HD & _ & _ & NE). destruct Gr as [Al Th].
  pose proof (L_within c n L D r Hr d Hd) as Wr. pose proof (L_within c n L D q Hq d Hd) as Wq.
  pose proof (NE r Hr) as NEr. rewrite rempty_false in NEr. pose proof (proj1 (pt_in_tget _ _) NEr d Hd) as Nr.
  destruct (Z_le_gt_dec (tget (re (L r)) d) x) as [C|C]; [|destruct (Z_le_gt_dec (tget (rb (L r)) d) x) as [C'|C']].
  3: {
    (* below *)
    cbn zeta in Hx. destruct (Nat.ltb_spec d (c_nd c)) as [Ld|Ld]; [|lia].
    set (b := tget (rb (L r)) d) in *.
    assert (X : exists s, tget (rb (c_range c)) d <= b - 1 + s < tget (re (c_range c)) d /\
      (s = 0 \/ tget (c_per c) d = true /\ s = per_len c d /\ b = tget (rb (c_range c)) d)).
    { destruct (tget (c_per c) d) eqn:P.
      - specialize (SO d Hd). destruct (Z.eq_dec b (tget (rb (c_range c)) d)) as [Eb|Eb].
        + exists (per_len c d). split; [lia|]. right. auto.
        + exists 0. split; [lia|]. left. reflexivity.
      - exists 0. specialize (Hn eq_refl). split; [|left; reflexivity]. lia. }
    destruct X as (s & Hs & Hs'). destruct (point_at r d _ Hr Hd Hs) as (t & Ht & It).
    pose proof (L_within c n L D t Ht d Hd) as Wt. pose proof (Th t d Ht Ld) as Tt.
    assert (Et : tget (re (L t)) d = b + s).
    { destruct Hs' as [->|(P & -> & Eb)].
      - destruct (Al r t d Hr Ht Hd) as [A|[A|A]]; lia.
      - specialize (SO d Hd). lia. }
    assert (Ey : y = x + s).
    { destruct (tget (c_per c) d) eqn:P.
      - destruct (Hp eq_refl) as [j Ej]. specialize (SO d Hd). pose proof (Hok d Hd).
        assert (tget (rb (L t)) d <= x + s < tget (re (L t)) d) by lia.
        destruct Hs' as [->|(_ & -> & Eb)]; [assert (j = 0) by nia|assert (j = 1) by nia]; subst j; lia.
      - specialize (Hn eq_refl). destruct Hs' as [->|(Q & _)]; [lia|discriminate]. }
    exists b, (b - 1 + s). split; [lia|]. split; [|lia].
    destruct (Al t q d Ht Hq Hd) as [A|[A|A]]; lia. }
  { (* above *)
    cbn zeta in Hx. destruct (Nat.ltb_spec d (c_nd c)) as [Ld|Ld]; [|lia].
    set (e := tget (re (L r)) d) in *.
    assert (X : exists s, tget (rb (c_range c)) d <= e + s < tget (re (c_range c)) d /\
      (s = 0 \/ tget (c_per c) d = true /\ s = - per_len c d /\ e = tget (re (c_range c)) d)).
    { destruct (tget (c_per c) d) eqn:P.
      - specialize (SO d Hd). destruct (Z.eq_dec e (tget (re (c_range c)) d)) as [Eb|Eb].
        + exists (- per_len c d). split; [lia|]. right. auto.
        + exists 0. split; [lia|]. left. reflexivity.
      - exists 0. specialize (Hn eq_refl). split; [|left; reflexivity]. lia. }
    destruct X as (s & Hs & Hs'). destruct (point_at r d _ Hr Hd Hs) as (t & Ht & It).
    pose proof (L_within c n L D t Ht d Hd) as Wt. pose proof (Th t d Ht Ld) as Tt.
    assert (Et : tget (rb (L t)) d = e + s).
    { destruct Hs' as [->|(P & -> & Eb)].
      - destruct (Al r t d Hr Ht Hd) as [A|[A|A]]; lia.
      - specialize (SO d Hd). lia. }
    assert (Ey : y = x + s).
    { destruct (tget (c_per c) d) eqn:P.
      - destruct (Hp eq_refl) as [j Ej]. specialize (SO d Hd). pose proof (Hok d Hd).
        assert (tget (rb (L t)) d <= x + s < tget (re (L t)) d) by lia.
        destruct Hs' as [->|(_ & -> & Eb)]; [assert (j = 0) by nia|assert (j = -1) by nia]; subst j; lia.
      - specialize (Hn eq_refl). destruct Hs' as [->|(Q & _)]; [lia|discriminate]. }
    exists (e - 1), (e + s). split; [lia|]. split; [|lia].
    destruct (Al t q d Ht Hq Hd) as [A|[A|A]]; lia. }
  exists x, y. split; [lia|]. split; [exact Hy|]. lia.
Qed.

Lemma thick_owner r e p q u : (r < n)%nat -> (q < n)%nat -> grown (c_nd c) k (L r) e -> pt_in e p ->
  pt_in (L q) u -> is_image c p u -> q = r \/ In q (N r).
Proof.
  intros Hr Hq [_ Hg] Hp Hu I. destruct (Nat.eq_dec q r) as [|Ne]; [auto|right].
  apply (neighbors_near c n L D r q SO Hr). split; [exact Hq|]. split; [exact Ne|].
  assert (X : forall d, (d < 3)%nat -> exists x' y', tget (rb (L r)) d <= x' < tget (re (L r)) d /\
    tget (rb (L q)) d <= y' < tget (re (L q)) d /\ Z.abs (x' - (y' - (tget u d - tget p d))) <= 1).
  { intros d Hd. apply thick_dim; auto.
    - specialize (Hg d Hd). pose proof (proj1 (pt_in_tget _ _) Hp d Hd). cbn zeta in *. destruct (Nat.ltb d (c_nd c)); lia.
    - intros P. apply (I d Hd), P.
    - intros P. apply (I d Hd), P.
    - apply (proj1 (pt_in_tget _ _) Hu d Hd). }
  destruct (X 0%nat ltac:(lia)) as (x0 & y0 & A0 & B0 & C0).
  destruct (X 1%nat ltac:(lia)) as (x1 & y1 & A1 & B1 & C1).
  destruct (X 2%nat ltac:(lia)) as (x2 & y2 & A2 & B2 & C2).
  exists (T3 x0 x1 x2), (T3 y0 y1 y2). split; [|split].
  - apply pt_in_tget. intros d Hd. destruct d as [|[|[|d]]]; [exact A0|exact A1|exact A2|lia].
  - apply pt_in_tget. intros d Hd. destruct d as [|[|[|d]]]; [exact B0|exact B1|exact B2|lia].
  - exists (tmake (fun d => tget (T3 y0 y1 y2) d - (tget u d - tget p d))). split.
    + intros d Hd. rewrite tget_tmake by exact Hd. destruct (I d Hd) as [I1 I2]. split.
      * intros P. destruct (I1 P) as [j Hj]. exists (- j). lia.
      * intros P. rewrite (I2 P). lia.
    + intros d Hd. rewrite tget_tmake by exact Hd. destruct d as [|[|[|d]]]; [exact C0|exact C1|exact C2|lia].
Qed.
End Thick.
End Own.

Section Part.
Context {V : Type}.
Variables (c : cart) (n : nat) (L E : nat -> range) (F : nat -> list V).
Hypothesis D : decomposed c n L.
Hypothesis SO : stored_once c.
Hypothesis Hext : forall r, (r < n)%nat -> pt_subset (L r) (E r).
Hypothesis HF : forall r, (r < n)%nat -> Z.of_nat (length (F r)) = rcount (E r).
Notation N := (nb c n L).

Section Prog.
Variables (guess : list Q -> Z -> Z) (rnd : Q -> Q).
Hypothesis Gu : forall l m, 1 <= m -> guess l m <= m.
Hypothesis HR : rounding rnd.
Hypothesis R1 : (rnd 1 == 1)%Q.

Theorem setup_and_exchange_ok :
  prog_ok n (setup_and_exchange c n (range_decomp guess (c_nd c)) (range_ratio rnd (c_nd c)))
    (fun r => P0 (L r) (E r) (F r))
    (fun r => PHalo (hm c L E N r, res c L E N F r)).
Proof.
  pose proof D as (Hnd & Hn & Hok & HD & Hper & _ & NE). unfold setup_and_exchange.
  apply prog_ok_app. exists (fun r => PNeigh (N0 (L r)) (E r) (F r)). split.
  { eexists. split; [intros r Hr; reflexivity|]. cbn [prog_ok]. reflexivity. }
  apply prog_ok_app. exists (fun r => PNeigh (NDone (L r) (N r)) (E r) (F r)). split.
  { apply (lift_ok p_neigh p_put_neigh n _ (fun r => PNeigh (N0 (L r)) (E r) (F r)) (fun r => N0 (L r)) (fun r => NDone (L r) (N r)));
      [reflexivity|reflexivity|]. apply remsg_ok; [reflexivity|]. apply neighbors_ok; auto. }
  apply prog_ok_app. exists (fun r => PInfo (I0 (L r, E r) (N r)) (F r)). split.
  { eexists. split; [intros r Hr; reflexivity|]. cbn [prog_ok]. reflexivity. }
  apply prog_ok_app. exists (fun r => PInfo (I2 (L r, E r) (info_map (self L E) (N r))) (F r)). split.
  { apply (lift_ok p_info p_put_info n _ (fun r => PInfo (I0 (L r, E r) (N r)) (F r)) (fun r => I0 (self L E r) (N r))
      (fun r => I2 (self L E r) (info_map (self L E) (N r)))); [reflexivity|reflexivity|].
    apply remsg_ok; [reflexivity|]. apply retrieve_info_ok.
    - intros r Hr. apply (N_ok c n L D), Hr.
    - intros r q Hr Hq. eapply (N_ok c n L D); eauto. }
  apply prog_ok_app. exists (fun r => PHalo (hm c L E N r, F r)). split.
  { eexists. split; [|cbn [prog_ok]; reflexivity]. intros r Hr. cbn [part_map].
    change (L r, E r) with (self L E r). rewrite (halo_map_ok c L E N Hok). reflexivity. }
  apply (lift_ok p_halo p_put_halo n _ (fun r => PHalo (hm c L E N r, F r)) (fun r => (hm c L E N r, F r))
    (fun r => (hm c L E N r, res c L E N F r))); [reflexivity|reflexivity|].
  apply remsg_ok; [reflexivity|]. eexists. split; [|cbn [prog_ok]; reflexivity].
  apply halo_exchange_ok; auto.
  - intros r p Hr. apply (L_sub c n L D); auto.
  - intros r s p Hr Hs. apply (L_unique c n L D); auto.
  - intros r p Hr. apply Hext, Hr.
  - intros r Hr. apply (N_ok c n L D), Hr.
  - intros r q Hr Hq. eapply (N_ok c n L D); eauto.
  - intros r Hr I. apply (N_ok c n L D r Hr) in I. tauto.
  - apply (HN_sym c n L D SO).
Qed.

End Prog.

(** A point whose owner is the rank or a neighbour holds its owner's value. *)
Theorem exchange_value r p q u : (r < n)%nat -> (q < n)%nat -> pt_in (E r) p -> pt_in (L q) u -> is_image c p u ->
  q = r \/ In q (N r) ->
  vread (res c L E N F r) (rindex ColMajor (E r) p) = vread (F q) (rindex ColMajor (E q) u).
Proof.
  intros Hr Hq Hp Hu I Nq. pose proof D as (_ & _ & Hok & _).
  fold (ix E r p). rewrite (res_ok c n L E N F); auto.
  2: { intros s' x' Hr'. apply Hext, Hr'. }
  2: { intros s' q' Hr' Hq'. eapply (N_ok c n L D); eauto. }
  2: { intros s' Hr' Hq'. apply (N_ok c n L D s' Hr') in Hq'. tauto. }
  pose proof (tgt_image c n L D SO p u q Hq Hu I) as T. unfold val. rewrite T.
  destruct (rcontains (L r) p) eqn:C.
  - apply rcontains_spec in C. rewrite tgt_in in T by (apply (L_sub c n L D r Hr p C)). subst u.
    assert (r = q) by (eapply (L_unique c n L D); eauto). subst q. reflexivity.
  - destruct (find (fun s => rcontains (L s) u) (K L E N r)) as [s|] eqn:Fs.
    + apply find_some in Fs as [Is Cs]. apply rcontains_spec in Cs. apply K_In in Is.
      assert (Hs : (s < n)%nat) by apply (proj2 (N_ok c n L D r Hr) s Is). assert (s = q) by (eapply (L_unique c n L D); eauto). subst s. reflexivity.
    + assert (q = r).
      { destruct Nq as [Nq|Nq]; [exact Nq|]. exfalso. apply (K_In L E) in Nq. pose proof (find_none _ _ Fs q Nq) as X.
        cbn beta in X. apply rcontains_spec in Hu. congruence. }
      subst q.
      assert (NC : rcontains (c_range c) p = false).
      { destruct (rcontains (c_range c) p) eqn:C'; [|reflexivity]. unfold tgt in T. rewrite C' in T. subst u.
        apply rcontains_spec in Hu. congruence. }
      unfold tgt in T. rewrite NC in T. rewrite T. rewrite (proj2 (rcontains_spec _ _) Hu), andb_true_r.
      destruct (rincludes (c_range c) (E r)) eqn:Inc; [|reflexivity].
      rewrite includes_spec in Inc. apply Inc in Hp. apply rcontains_spec in Hp. congruence.
Qed.

(** All other points of the extended range are unchanged. *)
Theorem exchange_other r p : (r < n)%nat -> pt_in (E r) p ->
  (forall q u, (q < n)%nat -> pt_in (L q) u -> is_image c p u -> q <> r /\ ~ In q (N r)) ->
  vread (res c L E N F r) (rindex ColMajor (E r) p) = vread (F r) (rindex ColMajor (E r) p).
Proof.
  intros Hr Hp H. pose proof D as (_ & _ & Hok & _).
  fold (ix E r p). rewrite (res_ok c n L E N F); auto.
  2: { intros s' x' Hr'. apply Hext, Hr'. }
  2: { intros s' q' Hr' Hq'. eapply (N_ok c n L D); eauto. }
  2: { intros s' Hr' Hq'. apply (N_ok c n L D s' Hr') in Hq'. tauto. }
  assert (A : is_image c p (adj c p)).
  { unfold adj. destruct (periodic_adjust_full c p Hok) as (u & -> & I & _). exact I. }
  assert (T : is_image c p (tgt c p)).
  { unfold tgt. destruct (rcontains (c_range c) p); [apply is_image_refl|exact A]. }
  unfold val. destruct (rcontains (L r) p) eqn:C; [reflexivity|].
  destruct (find _ _) as [s|] eqn:Fs.
  - exfalso. apply find_some in Fs as [Is Cs]. apply rcontains_spec in Cs. apply K_In in Is.
    assert (Hs : (s < n)%nat) by apply (proj2 (N_ok c n L D r Hr) s Is). apply (H s (tgt c p) Hs Cs T). exact Is.
  - destruct (rcontains (L r) (adj c p)) eqn:Ca; [|rewrite andb_false_r; reflexivity].
    exfalso. apply rcontains_spec in Ca. apply (proj1 (H r (adj c p) Hr Ca A)). reflexivity.
Qed.

End Part.

(** ** Statements for all executions *)

Theorem neighbors_computes c n L guess rnd : decomposed c n L ->
  (forall l m, 1 <= m -> guess l m <= m) -> rounding rnd -> (rnd 1 == 1)%Q ->
  exists N,
  computes n (detect_neighbors c n (range_decomp guess (c_nd c)) (range_ratio rnd (c_nd c)))
    (fun r => N0 (L r)) (fun r => NDone (L r) (N r)) /\
  (forall r, (r < n)%nat -> StronglySorted lt (N r)) /\
  (forall r q, (r < n)%nat -> (In q (N r) <-> (q < n)%nat /\ q <> r /\
     exists p u, pt_in (extend_local_range c (L r) 1) p /\ ~ pt_in (L r) p /\
       is_image c p u /\ in_base c u /\ pt_in (L q) u)) /\
  (forall r p, (r < n)%nat -> pt_in (extend_local_range c (L r) 1) p -> ~ pt_in (L r) p ->
     exists q u, (q = r \/ In q (N r)) /\ is_image c p u /\ in_base c u /\ pt_in (L q) u) /\
  (stored_once c ->
     (forall r q, (r < n)%nat -> (In q (N r) <-> (q < n)%nat /\ q <> r /\
        exists p u, pt_in (L r) p /\ pt_in (L q) u /\ near c p u)) /\
     (forall r q, (r < n)%nat -> (q < n)%nat -> (In q (N r) <-> In r (N q)))).
Proof.
  intros D G HR R1. exists (nb c n L). split; [apply prog_computes, neighbors_ok; auto|].
  split; [intros r Hr; apply (neighbors_spec c n L D r Hr)|].
  split; [intros r q Hr; apply (neighbors_spec c n L D r Hr)|].
  split; [intros r p Hr; apply (neighbors_cover c n L D r p Hr)|]. intros SO. split.
  - intros r q Hr. apply (neighbors_near c n L D r q SO Hr).
  - intros r q Hr Hq. apply (neighbors_sym c n L D r q SO Hr Hq).
Qed.

Section Computes.
Context {V : Type}.

Lemma exchange_computes c n L E (F : nat -> list V) guess rnd : decomposed c n L -> stored_once c ->
  (forall r, (r < n)%nat -> pt_subset (L r) (E r)) ->
  (forall r p q u, (r < n)%nat -> (q < n)%nat -> pt_in (E r) p -> pt_in (L q) u -> is_image c p u ->
     q = r \/ In q (nb c n L r)) ->
  (forall r, (r < n)%nat -> Z.of_nat (length (F r)) = rcount (E r)) ->
  (forall l m, 1 <= m -> guess l m <= m) -> rounding rnd -> (rnd 1 == 1)%Q ->
  exists H F',
  computes n (setup_and_exchange c n (range_decomp guess (c_nd c)) (range_ratio rnd (c_nd c)))
    (fun r => P0 (L r) (E r) (F r)) (fun r => PHalo (H r, F' r)) /\
  (forall r, (r < n)%nat -> length (F' r) = length (F r)) /\
  (forall r p q u, (r < n)%nat -> (q < n)%nat -> pt_in (E r) p -> pt_in (L q) u -> is_image c p u ->
     vread (F' r) (rindex ColMajor (E r) p) = vread (F q) (rindex ColMajor (E q) u)) /\
  (forall r p, (r < n)%nat -> pt_in (E r) p -> (forall u, is_image c p u -> ~ pt_in (c_range c) u) ->
     vread (F' r) (rindex ColMajor (E r) p) = vread (F r) (rindex ColMajor (E r) p)).
Proof.
  intros D SO Hext HO HF G HR R1. exists (hm c L E (nb c n L)), (res c L E (nb c n L) F).
  split; [apply prog_computes, setup_and_exchange_ok; auto|]. split; [|split].
  - intros r Hr. apply (res_length c n); auto.
    + intros s p Hs Hp. exact (L_sub c n L D s Hs p Hp).
    + intros s q p Hs Hq. apply (L_unique c n L D); auto.
    + intros s p Hs Hp. exact (Hext s Hs p Hp).
    + intros s Hs. apply (N_ok c n L D s Hs).
    + intros s q Hs Hq. apply (N_ok c n L D s Hs), Hq.
    + intros s Hs Hq. apply (N_ok c n L D s Hs) in Hq. tauto.
    + apply (HN_sym c n L D SO).
  - intros r p q u Hr Hq Hp Hu I. apply (exchange_value c n L E F); eauto.
  - intros r p Hr Hp Hn. apply (exchange_other c n L E F); auto. intros q u Hq Hu I. exfalso.
    apply (Hn u I). apply (L_sub c n L D q Hq u Hu).
Qed.

Theorem exchange_grid_computes c n L E (F : nat -> list V) k guess rnd : decomposed c n L -> stored_once c ->
  1 <= k -> grid_of (c_nd c) n L k ->
  (forall r, (r < n)%nat -> grown (c_nd c) k (L r) (E r)) ->
  (forall r, (r < n)%nat -> Z.of_nat (length (F r)) = rcount (E r)) ->
  (forall l m, 1 <= m -> guess l m <= m) -> rounding rnd -> (rnd 1 == 1)%Q ->
  exists H F',
  computes n (setup_and_exchange c n (range_decomp guess (c_nd c)) (range_ratio rnd (c_nd c)))
    (fun r => P0 (L r) (E r) (F r)) (fun r => PHalo (H r, F' r)) /\
  (forall r, (r < n)%nat -> length (F' r) = length (F r)) /\
  (forall r p q u, (r < n)%nat -> (q < n)%nat -> pt_in (E r) p -> pt_in (L q) u -> is_image c p u ->
     vread (F' r) (rindex ColMajor (E r) p) = vread (F q) (rindex ColMajor (E q) u)) /\
  (forall r p, (r < n)%nat -> pt_in (E r) p -> (forall u, is_image c p u -> ~ pt_in (c_range c) u) ->
     vread (F' r) (rindex ColMajor (E r) p) = vread (F r) (rindex ColMajor (E r) p)).
Proof.
  intros D SO Hk Gr Hg. apply exchange_computes; auto.
  - intros r Hr. apply (Hg r Hr).
  - intros r p q u Hr Hq Hp Hu I. apply (thick_owner c n L D SO k Hk Gr r (E r) p q u); auto.
Qed.

Theorem exchange_ring_computes c n L E (F : nat -> list V) guess rnd : decomposed c n L -> stored_once c ->
  (forall r, (r < n)%nat -> pt_subset (L r) (E r) /\ pt_subset (E r) (extend_local_range c (L r) 1)) ->
  (forall r, (r < n)%nat -> Z.of_nat (length (F r)) = rcount (E r)) ->
  (forall l m, 1 <= m -> guess l m <= m) -> rounding rnd -> (rnd 1 == 1)%Q ->
  exists H F',
  computes n (setup_and_exchange c n (range_decomp guess (c_nd c)) (range_ratio rnd (c_nd c)))
    (fun r => P0 (L r) (E r) (F r)) (fun r => PHalo (H r, F' r)) /\
  (forall r, (r < n)%nat -> length (F' r) = length (F r)) /\
  (forall r p, (r < n)%nat -> pt_in (E r) p -> exists q u, (q < n)%nat /\ pt_in (L q) u /\ is_image c p u) /\
  (forall r p q u, (r < n)%nat -> (q < n)%nat -> pt_in (E r) p -> pt_in (L q) u -> is_image c p u ->
     vread (F' r) (rindex ColMajor (E r) p) = vread (F q) (rindex ColMajor (E q) u)).
Proof.
  intros D SO Hg HF G HR R1. destruct (exchange_computes c n L E F guess rnd) as (H & F' & A & B & C & _); auto.
  - intros r Hr. apply (Hg r Hr).
  - intros r p q u Hr Hq Hp Hu I. destruct (Hg r Hr) as [_ X]. apply (ring_owner c n L D SO r p q u); auto.
  - exists H, F'. split; [exact A|]. split; [exact B|]. split; [|exact C].
    intros r p Hr Hp. destruct (Hg r Hr) as [_ X]. destruct (rcontains (L r) p) eqn:Cp.
    + apply rcontains_spec in Cp. exists r, p. split; [exact Hr|]. split; [exact Cp|apply is_image_refl].
    + assert (Np : ~ pt_in (L r) p) by (intros Y; apply rcontains_spec in Y; congruence).
      destruct (neighbors_cover c n L D r p Hr (X p Hp) Np) as (q & u & Q & I & _ & J). exists q, u.
      split; [|auto]. destruct Q as [->|Q]; [exact Hr|apply (N_ok c n L D r Hr), Q].
Qed.

(** The two index lists of a message. *)
Theorem halo_lists c n L E a b : cart_ok c ->
  (forall r p, (r < n)%nat -> pt_in (L r) p -> pt_in (c_range c) p) ->
  (forall r s p, (r < n)%nat -> (s < n)%nat -> pt_in (L r) p -> pt_in (L s) p -> r = s) ->
  (a < n)%nat -> (b < n)%nat -> a <> b ->
  exists pts : list (tup Z * tup Z),
    send_indices c (L b) (E b) (L a, E a) = Some (map (fun x => rindex ColMajor (E b) (snd x)) pts) /\
    recv_indices c (L a) (E a) (L b, E b) = Some (map (fun x => rindex ColMajor (E a) (fst x)) pts) /\
    NoDup (map fst pts) /\
    forall p u, In (p, u) pts <-> pt_in (E a) p /\ ~ pt_in (L a) p /\ pt_in (L b) u /\
      (pt_in (c_range c) p -> u = p) /\ (~ pt_in (c_range c) p -> is_image c p u /\ in_base c u).
Proof.
  intros Hok Hin Hdis Ha Hb Ne. exists (hp c L E a b). split; [apply send_ok; auto|]. split; [apply recv_ok; auto|]. split.
  - unfold hp. destruct (rincludes (c_range c) (E a)).
    + rewrite map_map. cbn [fst]. rewrite map_id. apply foreach_col_NoDup.
    + assert (X : forall l, NoDup (map fst l) -> NoDup (map fst (filter (fun x : tup Z * tup Z => rcontains (L b) (snd x)) l))).
      { induction l as [|x l IH]; intros Nd; cbn [filter]; [exact Nd|]. cbn [map] in Nd. inversion Nd as [|? ? X1 X2]; subst.
        destruct (rcontains (L b) (snd x)); [|apply IH, X2]. cbn [map]. constructor; [|apply IH, X2].
        intros I. apply X1. apply in_map_iff in I as (y & <- & I). apply filter_In in I as [I _]. apply in_map, I. }
      apply X. rewrite map_map. cbn [fst]. rewrite map_id. apply NoDup_filter, foreach_col_NoDup.
  - intros p u. rewrite (hp_In c n L E Hin Hdis a b p u Ha Hb Ne). unfold tgt. split.
    + intros (H1 & H2 & -> & H3). split; [exact H1|]. split; [exact H2|]. split; [exact H3|].
      destruct (rcontains (c_range c) p) eqn:C.
      * split; [reflexivity|]. intros X. exfalso. apply X, rcontains_spec, C.
      * split; [intros X; apply rcontains_spec in X; congruence|]. intros _. unfold adj.
        destruct (periodic_adjust_full c p Hok) as (u & -> & I). exact I.
    + intros (H1 & H2 & H3 & H4 & H5). split; [exact H1|]. split; [exact H2|]. split; [|exact H3].
      destruct (rcontains (c_range c) p) eqn:C.
      * apply rcontains_spec in C. auto.
      * assert (X : ~ pt_in (c_range c) p) by (intros X; apply rcontains_spec in X; congruence).
        unfold adj. rewrite (proj2 (periodic_adjust_iff c p u Hok) (H5 X)). reflexivity.
Qed.
End Computes.

(** ** Counterexamples *)
From Verif Require Import HaloEx.

Lemma ex_guess_ok l m : 1 <= m -> ex_guess l m <= m.
Proof. unfold ex_guess. lia. Qed.

Lemma id_rounding : rounding (fun x => x).
Proof. split; [intros x y H; exact H|]. intros; reflexivity. Qed.

Theorem duplicated_asymmetric : exists c n L guess rnd N r q,
  decomposed c n L /\ (forall l m, 1 <= m -> guess l m <= m) /\ rounding rnd /\ (rnd 1 == 1)%Q /\
  computes n (detect_neighbors c n (range_decomp guess (c_nd c)) (range_ratio rnd (c_nd c)))
    (fun r => N0 (L r)) (fun r => NDone (L r) (N r)) /\
  (r < n)%nat /\ (q < n)%nat /\ In q (N r) /\ ~ In r (N q).
Proof.
  assert (Dc : decomposed (ex_circle DUPLICATED) 3 (ex_L1 3 5)) by (apply ex_circle_decomposed; lia).
  destruct (neighbors_computes _ _ _ ex_guess (fun x => x) Dc ex_guess_ok id_rounding ltac:(reflexivity))
    as (N & HN & _ & HI & _).
  exists (ex_circle DUPLICATED), 3%nat, (ex_L1 3 5), ex_guess, (fun x => x), N, 2%nat, 1%nat.
  split; [exact Dc|]. split; [exact ex_guess_ok|]. split; [exact id_rounding|]. split; [reflexivity|].
  split; [exact HN|]. split; [lia|]. split; [lia|]. split.
  - apply HI; [lia|]. split; [lia|]. split; [lia|]. exists (T3 4 0 0), (T3 4 0 0).
    split; [vm_compute; repeat split; discriminate|]. split; [vm_compute; intros [[H _] _]; apply H; reflexivity|].
    split; [apply is_image_refl|]. split; [|vm_compute; repeat split; discriminate].
    intros d Hd P. destruct d as [|[|[|d]]]; cbn in P |- *; try discriminate; lia.
  - intros H. apply HI in H as (_ & _ & p & u & H1 & H2 & H3 & H4 & H5); [|lia].
    specialize (H4 0%nat ltac:(lia) eq_refl). destruct H5 as [H5 _]. cbn in H4, H5. lia.
Qed.

Definition ex_F (E : nat -> range) (r : nat) : list Z := repeat (Z.of_nat r) (Z.to_nat (rcount (E r))).

Theorem depth_stale : exists c n L guess rnd H F' r p q,
  let E := fun r => grid_extended c (L r) in
  let F := ex_F E in
  decomposed c n L /\ stored_once c /\
  (forall r, (r < n)%nat -> pt_subset (L r) (E r) /\ Z.of_nat (length (F r)) = rcount (E r)) /\
  (forall l m, 1 <= m -> guess l m <= m) /\ rounding rnd /\ (rnd 1 == 1)%Q /\
  computes n (setup_and_exchange c n (range_decomp guess (c_nd c)) (range_ratio rnd (c_nd c)))
    (fun r => P0 (L r) (E r) (F r)) (fun r => PHalo (H r, F' r)) /\
  (r < n)%nat /\ (q < n)%nat /\ pt_in (E r) p /\ pt_in (L q) p /\
  vread (F' r) (rindex ColMajor (E r) p) <> vread (F q) (rindex ColMajor (E q) p).
Proof.
  assert (Dc : decomposed ex_line 3 (ex_L1 2 3)) by (apply ex_line_decomposed; lia).
  set (E := fun r => grid_extended ex_line (ex_L1 2 3 r)).
  set (N := nb ex_line 3 (ex_L1 2 3)).
  exists ex_line, 3%nat, (ex_L1 2 3), ex_guess, (fun x => x).
  exists (hm ex_line (ex_L1 2 3) E N), (res ex_line (ex_L1 2 3) E N (ex_F E)), 0%nat, (T3 3 0 0), 2%nat.
  intros E' F. change E' with E in *. unfold F. clear E' F.
  assert (X : forall r, (r < 3)%nat -> pt_subset (ex_L1 2 3 r) (E r)).
  { intros r Hr p Hp. destruct r as [|[|[|r]]]; [| | |lia]; unfold pt_in in *; cbn in *; lia. }
  assert (Y : forall r, (r < 3)%nat -> Z.of_nat (length (ex_F E r)) = rcount (E r)).
  { intros r Hr. destruct r as [|[|[|r]]]; [| | |lia]; reflexivity. }
  split; [exact Dc|]. split; [exact ex_line_once|]. split; [auto|]. split; [exact ex_guess_ok|]. split; [exact id_rounding|].
  split; [reflexivity|]. split.
  { apply prog_computes. apply (setup_and_exchange_ok ex_line 3 (ex_L1 2 3) E (ex_F E) Dc ex_line_once X Y ex_guess (fun x => x) ex_guess_ok id_rounding ltac:(reflexivity)). }
  split; [lia|]. split; [lia|]. split; [unfold pt_in; cbn; lia|]. split; [unfold pt_in; cbn; lia|].
  pose proof (exchange_other ex_line 3 (ex_L1 2 3) E (ex_F E) Dc X Y 0%nat (T3 3 0 0)) as EO. fold N in EO.
  intros Q. rewrite EO in Q; [vm_compute in Q; discriminate Q|..]; clear Q EO.
  - lia.
  - unfold pt_in; cbn; lia.
  - intros q u Hq Hu I.
    assert (u = T3 3 0 0).
    { apply tup_ext. intros d Hd. destruct (I d Hd) as [_ J]. destruct d as [|[|[|d]]]; try lia; apply J; reflexivity. }
    subst u. assert (q = 2%nat) by (destruct q as [|[|[|q]]]; unfold pt_in in Hu; cbn in Hu; lia). subst q.
    split; [lia|]. intros In2. apply (neighbors_spec ex_line 3 (ex_L1 2 3) Dc 0%nat) in In2 as (_ & _ & p & v & P1 & P2 & P3 & P4 & P5); [|lia].
    destruct (P3 0%nat ltac:(lia)) as [_ P3']. specialize (P3' eq_refl).
    unfold pt_in in P1, P5. cbn in P1, P5, P3'. lia.
Qed.
