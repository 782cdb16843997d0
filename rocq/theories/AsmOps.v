(** The communicating statements of AsmModel.v: on all ranks, each does to the fields what the
    corresponding operation does to the values on the whole domain. *)
From Coq Require Import List ZArith Bool Lia.
From Verif Require Import TupleModel RangeModel Base RangeProof CartModel CartProof DecompModel DecompProof IndexerModel ArrayModel ArrayProof.
From Verif Require Import ContModel HashModel HashProof ProtoModel ProtoSpec NetModel NetSpec NetPhase LiftModel LiftProof.
From Verif Require Import NeighModel NeighSpec NeighProof HaloModel HaloProof PartModel FieldModel FieldSpec FieldProof EdgeProof ExtProof.
From Verif Require Import AsmModel AsmRep.
Import ListNotations.
Local Open Scope Z_scope.

Section Ops.
Variables (c : cart) (n : nat) (L E : nat -> range) (N : nat -> list nat) (H : nat -> hmap).
Hypothesis P : partitioned c n L E N H.
Variables (KO : nat).
Notation c' := (cart_include_exterior c).
Notation L' := (fun r => range_include_exterior c (L r)).
Notation E' := (fun r => range_include_exterior c (E r)).
Notation H' := (hm c' L' E' N).
Notation rep := (rep c n L E N H KO).

Lemma regs_m S g r : rep S g -> (r < n)%nat -> length (a_m (S r)) = NUM_M.
Proof. intros R Hr. apply (r_wf _ _ _ _ _ _ _ _ _ R r Hr). Qed.
Lemma regs_x S g r : rep S g -> (r < n)%nat -> length (a_x (S r)) = NUM_X.
Proof. intros R Hr. apply (r_wf _ _ _ _ _ _ _ _ _ R r Hr). Qed.
Lemma regs_o S g r : rep S g -> (r < n)%nat -> length (a_o (S r)) = KO.
Proof. intros R Hr. apply (r_wf _ _ _ _ _ _ _ _ _ R r Hr). Qed.
Lemma regs_cnt S g r : rep S g -> (r < n)%nat -> length (a_cnt (S r)) = 2%nat.
Proof. intros R Hr. apply (r_wf _ _ _ _ _ _ _ _ _ R r Hr). Qed.
Lemma regs_map S g r : rep S g -> (r < n)%nat -> a_map (S r) = H r.
Proof. intros R Hr. apply (r_wf _ _ _ _ _ _ _ _ _ R r Hr). Qed.
Lemma regs_len S g r k : rep S g -> (r < n)%nat -> (k < NUM_M)%nat -> Z.of_nat (length (mreg S k r)) = rcount (E r).
Proof. intros R Hr Hk. apply (r_wf _ _ _ _ _ _ _ _ _ R r Hr), Hk. Qed.

(** States that differ in the scratch fields only. *)
Definition same (s t : ast) : Prop :=
  a_map s = a_map t /\ a_ranks s = a_ranks t /\ a_pool s = a_pool t /\ a_cnt s = a_cnt t /\ a_m s = a_m t /\ a_x s = a_x t /\
  a_z s = a_z t /\ a_o s = a_o t.

Lemma rep_same S T g : (forall r, (r < n)%nat -> same (S r) (T r)) -> rep S g -> rep T g.
Proof.
  intros X [R1 R2 R3 R4 R5 R6 R7]. split.
  - intros r Hr. destruct (X r Hr) as (A1 & A2 & A3 & A4 & A5 & A6 & A7 & A8). specialize (R1 r Hr). unfold wf1 in *.
    rewrite <- A1, <- A2, <- A4, <- A5, <- A6, <- A7, <- A8. exact R1.
  - intros k m Q. destruct (R2 k m Q) as [K A]. split; [exact K|]. refine (agrees_fields _ _ _ _ _ _ _ _ _ A).
    intros r Hr. unfold mreg. destruct (X r Hr) as (A1 & A2 & A3 & A4 & A5 & A6 & A7 & A8). rewrite A5. reflexivity.
  - intros k m Q. destruct (R3 k m Q) as [K A]. split; [exact K|]. refine (agrees_fields _ _ _ _ _ _ _ _ _ A).
    intros r Hr. unfold xreg. destruct (X r Hr) as (A1 & A2 & A3 & A4 & A5 & A6 & A7 & A8). rewrite A6. reflexivity.
  - intros k m Q. destruct (R4 k m Q) as [K A]. split; [exact K|]. refine (agrees_fields _ _ _ _ _ _ _ _ _ A).
    intros r Hr. unfold zreg. destruct (X r Hr) as (A1 & A2 & A3 & A4 & A5 & A6 & A7 & A8). rewrite A7. reflexivity.
  - intros k m Q. destruct (R5 k m Q) as [K A]. split; [exact K|]. intros r Hr. specialize (A r Hr). unfold oreg in *.
    destruct (X r Hr) as (A1 & A2 & A3 & A4 & A5 & A6 & A7 & A8). rewrite <- A8. exact A.
  - intros Q r Hr. destruct (X r Hr) as (A1 & A2 & A3 & A4 & A5 & A6 & A7 & A8). rewrite <- A3. apply R6; auto.
  - intros k v Q r Hr. destruct (X r Hr) as (A1 & A2 & A3 & A4 & A5 & A6 & A7 & A8). rewrite <- A4. apply R7; auto.
Qed.

Lemma rep_set_cnt S S' g k v : rep S g -> (k < 2)%nat -> (forall r, (r < n)%nat -> S' r = set_cnt k (CCount v) (S r)) ->
  rep S' (g_set_cnt k v g).
Proof.
  intros R Hk X. pose proof (regs_cnt S g) as LC. destruct R as [R1 R2 R3 R4 R5 R6 R7] eqn:RE. split.
  - intros r Hr. destruct (R1 r Hr) as (W1 & W2 & W3 & W4 & W5 & W6 & W7 & W8). rewrite (X r Hr).
    split; [exact W1|]. split; [exact W2|]. split; [exact W3|]. split; [exact W4|].
    split; [exact W5|]. split; [exact W6|]. split; [cbn [a_cnt set_cnt]; rewrite rput_length; exact W7|exact W8].
  - intros j mj Q. destruct (R2 j mj Q) as [Kj Aj]. split; [exact Kj|]. refine (agrees_fields _ _ _ _ _ _ _ _ _ Aj).
    intros r Hr. unfold mreg. rewrite (X r Hr). reflexivity.
  - intros j mj Q. destruct (R3 j mj Q) as [Kj Aj]. split; [exact Kj|]. refine (agrees_fields _ _ _ _ _ _ _ _ _ Aj).
    intros r Hr. unfold xreg. rewrite (X r Hr). reflexivity.
  - intros j mj Q. destruct (R4 j mj Q) as [Kj Aj]. split; [exact Kj|]. refine (agrees_fields _ _ _ _ _ _ _ _ _ Aj).
    intros r Hr. unfold zreg. rewrite (X r Hr). reflexivity.
  - intros j mj Q. destruct (R5 j mj Q) as [Kj Aj]. split; [exact Kj|]. intros r Hr. specialize (Aj r Hr).
    unfold oreg in *. rewrite (X r Hr). exact Aj.
  - intros Q r Hr. rewrite (X r Hr). apply R6; auto.
  - intros j w. cbn [g_cnt g_set_cnt]. unfold upd. intros Q r Hr. rewrite (X r Hr). cbn [a_cnt set_cnt].
    assert (Lc : length (a_cnt (S r)) = 2%nat) by (apply (R1 r Hr)).
    destruct (Nat.eqb_spec j k) as [->|Nk].
    + injection Q as <-. rewrite (nth_error_reg (CCount 0)) by (rewrite rput_length, Lc; exact Hk).
      rewrite rput_same by (rewrite Lc; exact Hk). reflexivity.
    + pose proof (R7 j w Q r Hr) as W. assert (j < length (a_cnt (S r)))%nat as Hj by (apply nth_error_Some; rewrite W; discriminate).
      rewrite (nth_error_reg (CCount 0)) by (rewrite rput_length; exact Hj). rewrite rput_other by exact Nk.
      rewrite <- W. symmetry. apply nth_error_reg, Hj.
Qed.

Lemma rep_set_pool S S' g : rep S g -> (forall r, (r < n)%nat -> S' r = set_pool (H' r) (S r)) -> rep S' (g_set_pool g).
Proof.
  intros [R1 R2 R3 R4 R5 R6 R7] X. split.
  - intros r Hr. rewrite (X r Hr). exact (R1 r Hr).
  - intros j mj Q. destruct (R2 j mj Q) as [Kj Aj]. split; [exact Kj|]. refine (agrees_fields _ _ _ _ _ _ _ _ _ Aj).
    intros r Hr. unfold mreg. rewrite (X r Hr). reflexivity.
  - intros j mj Q. destruct (R3 j mj Q) as [Kj Aj]. split; [exact Kj|]. refine (agrees_fields _ _ _ _ _ _ _ _ _ Aj).
    intros r Hr. unfold xreg. rewrite (X r Hr). reflexivity.
  - intros j mj Q. destruct (R4 j mj Q) as [Kj Aj]. split; [exact Kj|]. refine (agrees_fields _ _ _ _ _ _ _ _ _ Aj).
    intros r Hr. unfold zreg. rewrite (X r Hr). reflexivity.
  - intros j mj Q. destruct (R5 j mj Q) as [Kj Aj]. split; [exact Kj|]. intros r Hr. specialize (Aj r Hr).
    unfold oreg in *. rewrite (X r Hr). exact Aj.
  - intros Q r Hr. rewrite (X r Hr). reflexivity.
  - intros j w Q r Hr. rewrite (X r Hr). apply R7; auto.
Qed.

(** ** Edges *)

Lemma lift_run {A M} (get : ast -> option A) (put : ast -> A -> ast) (inj : M -> amsg) (prj : amsg -> option M) prog S (A0 A1 : nat -> A) :
  (forall m, prj (inj m) = Some m) ->
  (forall r a, (r < n)%nat -> get (put (S r) a) = Some a) -> (forall r a a', (r < n)%nat -> put (put (S r) a) a' = put (S r) a') ->
  (forall r, (r < n)%nat -> put (S r) (A0 r) = S r) -> prog_ok n prog A0 A1 ->
  prog_ok n (lift get put (remsg inj prj prog)) S (fun r => put (S r) (A1 r)).
Proof.
  intros IP G1 G2 Q R. apply (prog_ok_start n _ (fun r => put (S r) (A0 r))); [exact Q|].
  apply (lift_ok get put n (remsg inj prj prog) S A0 A1 G1 G2). apply remsg_ok; assumption.
Qed.

Lemma set_m_id s k : (k < length (a_m s))%nat -> set_m k (nth k (a_m s) []) s = s.
Proof. intros Hk. unfold set_m. rewrite rput_id by exact Hk. destruct s. reflexivity. Qed.

Lemma edge_rep S g src dst ty bc m : rep S g -> g_m g src = Some m -> src <> dst -> (dst < NUM_M)%nat ->
  exists S', prog_ok n (edge c L E src dst ty bc) S S' /\ rep S' (g_set_m dst (edgeb c m bc ty) g).
Proof.
  intros R Hm Ne Hd. destruct (r_m _ _ _ _ _ _ _ S g R src m Hm) as [Hs A].
  destruct (detect_edge_ok c n L E N H P (mreg S src) m A bc ty (mreg S dst)) as (F' & Q & A').
  assert (LM : forall r, (r < n)%nat -> length (a_m (S r)) = NUM_M) by (intros r; apply (regs_m S g r R)).
  set (S1 := fun r => ed_put src dst (S r) (ES (H r) (mreg S src r) (F' r))). exists S1. split.
  - apply (lift_run _ _ _ _ _ S (fun r => ES (H r) (mreg S src r) (mreg S dst r))); [reflexivity| | | |exact Q].
    + intros r a Hr. unfold ed_get, ed_put, set_m. destruct a as [h x y]. cbn [a_map a_m e_map e_mask e_edge].
      specialize (LM r Hr). rewrite (nth_error_reg []) by (rewrite !rput_length; lia).
      rewrite (nth_error_reg []) by (rewrite !rput_length; lia).
      rewrite rput_other by exact Ne. rewrite !rput_same by (rewrite ?rput_length; lia). reflexivity.
    + intros r a a' Hr. unfold ed_put, set_m. cbn. f_equal. rewrite (rput_swap (e_mask a') (e_edge a) _ src dst Ne), !rput_put. reflexivity.
    + intros r Hr. unfold ed_put. cbn [e_map e_mask e_edge]. unfold mreg. specialize (LM r Hr).
      rewrite set_m_id by lia. rewrite set_m_id by lia. rewrite <- (regs_map S g r R Hr). destruct (S r). reflexivity.
  - assert (SM : forall r, (r < n)%nat -> ed_put src dst (S r) (ES (H r) (mreg S src r) (F' r)) = set_m dst (F' r) (S r)).
    { intros r Hr. unfold ed_put. cbn [e_map e_mask e_edge]. unfold mreg. rewrite set_m_id by (rewrite LM; auto).
      rewrite <- (regs_map S g r R Hr). destruct (S r). reflexivity. }
    apply (rep_set_m c n L E N H KO S); auto.
    + intros r Hr. exists (F' r). apply SM, Hr.
    + refine (agrees_fields _ _ _ _ _ _ _ _ _ A'). intros r Hr. unfold mreg at 1. change (S1 r) with (ed_put src dst (S r) (ES (H r) (mreg S src r) (F' r))).
      rewrite (SM r Hr). cbn [a_m set_m].
      rewrite rput_same; [reflexivity|rewrite LM; auto].
Qed.

(** ** Dilating and eroding *)

Lemma dilate_erode_rep S g k amount bc m : rep S g -> g_m g k = Some m ->
  exists S' m1, prog_ok n (lift (di_get k) (di_put k) (remsg MData m_data (dilate_erode c L E bc amount))) S S' /\ rep S' (g_set_m k m1 g) /\
    forall u, pt_in (c_range c) u -> m1 u = (0 <? amount) <-> reached c bc m (0 <? amount) (Z.abs amount) u.
Proof.
  intros R Hm. destruct (r_m _ _ _ _ _ _ _ S g R k m Hm) as [Hk A].
  destruct (dilate_erode_ok c n L E N H bc amount (mreg S k) m (fun r => a_tmp (S r)) P A) as (F1 & G1 & m1 & Q & A' & X).
  assert (LM : forall r, (r < n)%nat -> length (a_m (S r)) = NUM_M) by (intros r; apply (regs_m S g r R)).
  set (S1 := fun r => di_put k (S r) (ES (H r) (F1 r) (G1 r))).
  exists S1, m1. split; [|split; [|exact X]].
  - apply (lift_run _ _ _ _ _ S (fun r => ES (H r) (mreg S k r) (a_tmp (S r)))); [reflexivity| | | |exact Q].
    + intros r a Hr. unfold di_get, di_put. destruct a as [h x y]. cbn [a_map a_m a_tmp e_map e_mask e_edge].
      specialize (LM r Hr). rewrite (nth_error_reg []) by (rewrite !rput_length; lia). rewrite rput_same by lia. reflexivity.
    + intros r a a' Hr. unfold di_put. cbn. rewrite rput_put. reflexivity.
    + intros r Hr. unfold di_put. cbn [e_map e_mask e_edge]. unfold mreg. specialize (LM r Hr). rewrite rput_id by lia.
      rewrite <- (regs_map S g r R Hr). destruct (S r). reflexivity.
  - apply (rep_same (fun r => set_m k (F1 r) (S r))).
    { intros r Hr. unfold same, S1, di_put, set_m. cbn. rewrite (regs_map S g r R Hr). repeat split; reflexivity. }
    apply (rep_set_m c n L E N H KO S); auto; [intros r Hr; eauto|].
    refine (agrees_fields _ _ _ _ _ _ _ _ _ A'). intros r Hr. unfold mreg. cbn [a_m set_m].
    rewrite rput_same; [reflexivity|rewrite LM; auto].
Qed.

Lemma dilate_rep S g k amount bc m : rep S g -> g_m g k = Some m -> 0 < amount ->
  exists S' m1, prog_ok n (dilate c L E k amount bc) S S' /\ rep S' (g_set_m k m1 g) /\
    forall u, pt_in (c_range c) u -> m1 u = true <-> reached c bc m true amount u.
Proof.
  intros R Hm Ha. destruct (dilate_erode_rep S g k amount bc m R Hm) as (S' & m1 & Q & R' & X). exists S', m1. split; [exact Q|]. split; [exact R'|].
  intros u Hu. specialize (X u Hu). destruct (Z.ltb_spec 0 amount); [|lia]. rewrite Z.abs_eq in X by lia. exact X.
Qed.
Lemma erode_rep S g k amount bc m : rep S g -> g_m g k = Some m -> 0 <= amount ->
  exists S' m1, prog_ok n (erode c L E k amount bc) S S' /\ rep S' (g_set_m k m1 g) /\
    forall u, pt_in (c_range c) u -> m1 u = false <-> reached c bc m false amount u.
Proof.
  intros R Hm Ha. destruct (dilate_erode_rep S g k (- amount) bc m R Hm) as (S' & m1 & Q & R' & X). exists S', m1. split; [exact Q|]. split; [exact R'|].
  intros u Hu. specialize (X u Hu). destruct (Z.ltb_spec 0 (- amount)); [lia|]. rewrite Z.abs_opp, Z.abs_eq in X by lia. exact X.
Qed.

(** ** Exchange *)

Lemma exchange_rep S g k m : rep S g -> (k < NUM_M)%nat -> FieldSpec.holds n L E (mreg S k) m ->
  exists S', prog_ok n (exchange k) S S' /\ rep S' (g_set_m k m g).
Proof.
  intros R Hk A. pose proof P as (_ & _ & _ & _ & _ & X). destruct (X bool (mreg S k) m A) as (F' & Q & A').
  assert (LM : forall r, (r < n)%nat -> length (a_m (S r)) = NUM_M) by (intros r; apply (regs_m S g r R)).
  set (S1 := fun r => ex_put k (S r) (H r, F' r)). exists S1. split.
  - apply (lift_run _ _ _ _ _ S (fun r => (H r, mreg S k r))); [reflexivity| | | |].
    + intros r a Hr. unfold ex_get, ex_put. destruct a as [h x]. cbn [a_map a_m fst snd].
      specialize (LM r Hr). rewrite (nth_error_reg []) by (rewrite !rput_length; lia). rewrite rput_same by lia. reflexivity.
    + intros r a a' Hr. unfold ex_put. cbn. rewrite rput_put. reflexivity.
    + intros r Hr. unfold ex_put. cbn [fst snd]. unfold mreg. specialize (LM r Hr). rewrite rput_id by lia.
      rewrite <- (regs_map S g r R Hr). destruct (S r). reflexivity.
    + eexists. split; [exact Q|]. intros r Hr. reflexivity.
  - apply (rep_same (fun r => set_m k (F' r) (S r))).
    { intros r Hr. unfold same, S1, ex_put, set_m. cbn. rewrite (regs_map S g r R Hr). repeat split; reflexivity. }
    apply (rep_set_m c n L E N H KO S); auto; [intros r Hr; eauto|].
    refine (agrees_fields _ _ _ _ _ _ _ _ _ A'). intros r Hr. unfold mreg. cbn [a_m set_m].
    rewrite rput_same; [reflexivity|rewrite LM; auto].
Qed.

(** ** Counting *)

Lemma count_rep S g w k m : rep S g -> g_m g k = Some m -> (w < 2)%nat ->
  exists S' v, prog_ok n (count_reg L E w k) S S' /\ rep S' (g_set_cnt w v g) /\ 0 <= v /\
    (v = 0 <-> forall u, pt_in (c_range c) u -> m u = false) /\
    exists pts, NoDup pts /\ (forall p, In p pts <-> pt_in (c_range c) p /\ m p = true) /\ v = Z.of_nat (length pts).
Proof.
  intros R Hm Hw. destruct (r_m _ _ _ _ _ _ _ S g R k m Hm) as [Hk A].
  destruct (count_ok c n L E (mreg S k) m (decomp c n L E N H P) (fun r Hr p Hp => L_in_E c n L E N H P r p Hr Hp) (proj1 A)) as (pts & ND & I & Q).
  assert (LM : forall r, (r < n)%nat -> length (a_m (S r)) = NUM_M) by (intros r; apply (regs_m S g r R)).
  assert (LC : forall r, (r < n)%nat -> length (a_cnt (S r)) = 2%nat) by (intros r; apply (regs_cnt S g r R)).
  set (v := Z.of_nat (length pts)). set (T := fun r => set_cnt w (CMask (mreg S k r)) (S r)).
  exists (fun r => set_cnt w (CCount v) (T r)), v. split; [|split; [|split; [lia|split]]].
  - unfold count_reg. apply (prog_ok_seq n _ _ S T).
    + exists T. split; [|intros r Hr; reflexivity]. intros r Hr. rewrite (nth_error_reg []) by (rewrite LM; auto). reflexivity.
    + apply (lift_run (fun s => nth_error (a_cnt s) w) (fun s a => set_cnt w a s) _ _ _ T (fun r => CMask (mreg S k r)) (fun _ => CCount v)).
      * intros []. reflexivity.
      * intros r a Hr. cbn [a_cnt set_cnt T]. rewrite (nth_error_reg a) by (rewrite !rput_length, LC; auto).
        rewrite rput_same by (rewrite rput_length, LC; auto). reflexivity.
      * intros r a a' Hr. unfold set_cnt. cbn. rewrite rput_put. reflexivity.
      * intros r Hr. unfold T, set_cnt. cbn. rewrite rput_put. reflexivity.
      * exact Q.
  - apply (rep_set_cnt S); auto. intros r Hr. unfold T, set_cnt. cbn. rewrite rput_put. reflexivity.
  - unfold v. split.
    + intros Z0 u Hu. destruct (m u) eqn:Mu; [|reflexivity]. assert (In u pts) as Iu by (apply I; auto).
      destruct pts; [destruct Iu|cbn in Z0; lia].
    + intros F. destruct pts as [|p pts]; [reflexivity|]. destruct (proj1 (I p) (or_introl eq_refl)) as [Hp Mp]. rewrite (F p Hp) in Mp. discriminate.
  - exists pts. auto.
Qed.

Lemma counted_rep S g w v r : rep S g -> g_cnt g w = Some v -> (r < n)%nat -> counted w (S r) = Some v.
Proof. intros R Q Hr. unfold counted. rewrite (r_cnt _ _ _ _ _ _ _ S g R w v Q r Hr). reflexivity. Qed.

(** A statement that changes nothing when the count is zero may as well be executed. *)
Lemma when1_rep S g w v f S1 (G : (nat -> ast) -> Prop) : rep S g -> g_cnt g w = Some v -> (forall r, (r < n)%nat -> f r (S r) = Some (S1 r)) ->
  (v <> 0 -> G S1) -> (v = 0 -> G S) -> exists S', prog_ok n (when1 w f) S S' /\ G S'.
Proof.
  intros R Q X A B. destruct (Z.eq_dec v 0) as [Z0|Nz].
  - exists S. split; [|apply B, Z0]. exists S. split; [|intros r Hr; reflexivity]. intros r Hr.
    rewrite (counted_rep S g w v r R Q Hr), Z0. reflexivity.
  - exists S1. split; [|apply A, Nz]. exists S1. split; [|intros r Hr; reflexivity]. intros r Hr.
    rewrite (counted_rep S g w v r R Q Hr). apply Z.eqb_neq in Nz. rewrite Nz. apply X, Hr.
Qed.
Lemma when2_rep S g w1 w2 v1 v2 f S1 (G : (nat -> ast) -> Prop) : rep S g -> g_cnt g w1 = Some v1 -> g_cnt g w2 = Some v2 ->
  (forall r, (r < n)%nat -> f r (S r) = Some (S1 r)) ->
  (v1 <> 0 \/ v2 <> 0 -> G S1) -> (v1 = 0 -> v2 = 0 -> G S) -> exists S', prog_ok n (when2 w1 w2 f) S S' /\ G S'.
Proof.
  intros R Q1 Q2 X A B. destruct ((v1 =? 0) && (v2 =? 0)) eqn:Z0.
  - pose proof Z0 as Z1. apply andb_true_iff in Z0 as [Za Zb]. apply Z.eqb_eq in Za, Zb.
    exists S. split; [|auto]. exists S. split; [|intros r Hr; reflexivity]. intros r Hr.
    rewrite (counted_rep S g w1 v1 r R Q1 Hr), (counted_rep S g w2 v2 r R Q2 Hr), Z1. reflexivity.
  - exists S1. split.
    + exists S1. split; [|intros r Hr; reflexivity]. intros r Hr.
      rewrite (counted_rep S g w1 v1 r R Q1 Hr), (counted_rep S g w2 v2 r R Q2 Hr), Z0. apply X, Hr.
    + apply A. apply andb_false_iff in Z0 as [Za|Za]; apply Z.eqb_neq in Za; auto.
Qed.

(** ** Masks with exterior points *)

Lemma edge_ext_new_rep S g src dst ty bc m : rep S g -> g_m g src = Some m -> (dst < NUM_X)%nat ->
  exists S', prog_ok n (edge_ext_new c n L E src dst ty bc) S S' /\ rep S' (g_set_x dst (edgeb c m bc ty) (g_set_pool g)).
Proof.
  intros R Hm Hd. destruct (r_m _ _ _ _ _ _ _ S g R src m Hm) as [Hs A].
  destruct (detect_edge_exterior_ok c n L E N H P (mreg S src) m A bc ty) as (F' & Q & A').
  assert (LM : forall r, (r < n)%nat -> length (a_m (S r)) = NUM_M) by (intros r; apply (regs_m S g r R)).
  assert (LX : forall r, (r < n)%nat -> length (a_x (S r)) = NUM_X) by (intros r; apply (regs_x S g r R)).
  set (T := fun r => set_new (PInfo (I0 (L r, E r) (N r)) (mreg S src r)) (S r)).
  set (T1 := fun r => set_new (PHalo (H' r, F' r)) (T r)).
  set (T2 := fun r => set_x dst (F' r) (set_pool (H' r) (T1 r))).
  exists T2. split.
  - unfold edge_ext_new. apply (prog_ok_seq n _ _ S T); [|apply (prog_ok_seq n _ _ T T1)].
    + exists T. split; [|intros r Hr; reflexivity]. intros r Hr. rewrite (nth_error_reg []) by (rewrite LM; auto).
      destruct (r_wf _ _ _ _ _ _ _ S g R r Hr) as (_ & -> & _). reflexivity.
    + apply (prog_ok_start n _ (fun r => set_new (PInfo (I0 (L r, E r) (N r)) (mreg S src r)) (T r))); [reflexivity|].
      refine (lift_ok _ _ n _ T _ _ _ _ Q); reflexivity.
    + exists T2. split; [|intros r Hr; reflexivity]. intros r Hr. reflexivity.
  - apply (rep_same (fun r => set_x dst (F' r) (set_pool (H' r) (S r)))).
    { intros r Hr. unfold same, T2, T1, T, set_x, set_pool, set_new. cbn. repeat split; reflexivity. }
    apply (rep_set_x c n L E N H KO (fun r => set_pool (H' r) (S r))); auto.
    + apply (rep_set_pool S); auto.
    + intros r Hr. eauto.
    + refine (agrees_fields _ _ _ _ _ _ _ _ _ A'). intros r Hr. unfold xreg. cbn [a_x set_x set_pool].
      rewrite rput_same; [reflexivity|rewrite LX; auto].
Qed.

Lemma edge_ext_rep S g src dst ty bc m : rep S g -> g_pool g = true -> g_m g src = Some m -> (dst < NUM_X)%nat ->
  exists S', prog_ok n (edge_ext c L E src dst ty bc) S S' /\ rep S' (g_set_x dst (edgeb c m bc ty) g).
Proof.
  intros R Hp Hm Hd. destruct (r_m _ _ _ _ _ _ _ S g R src m Hm) as [Hs A].
  pose proof (P' c n L E N H P) as PX. pose proof PX as (D' & _ & X' & _ & _ & EX).
  assert (SE : forall r, (r < n)%nat -> pt_subset (L' r) (E' r)) by (intros r Hr; apply (extended_sub c' n L' (E' r) r D' Hr (X' r Hr))).
  assert (LM : forall r, (r < n)%nat -> length (a_m (S r)) = NUM_M) by (intros r; apply (regs_m S g r R)).
  assert (LX : forall r, (r < n)%nat -> length (a_x (S r)) = NUM_X) by (intros r; apply (regs_x S g r R)).
  set (F0 := fun r => match edge_local c (E r) bc ty (L' r) (E' r) (mreg S src r) with Some d => d | None => [] end).
  assert (Y : forall r, (r < n)%nat -> edge_local c (E r) bc ty (L' r) (E' r) (mreg S src r) = Some (F0 r) /\
            Z.of_nat (length (F0 r)) = rcount (E' r) /\ forall u, pt_in (L' r) u -> vread (F0 r) (rindex ColMajor (E' r) u) = Some (edgeb c m bc ty u)).
  { intros r Hr. destruct (edge_local_ok c n L E N H P (mreg S src) m A bc ty r (L' r) (E' r) Hr) as (d & Q & Ld & V); [intros p Hp'; exact Hp'|apply SE, Hr|].
    unfold F0. rewrite Q. auto. }
  destruct (EX bool F0 (edgeb c m bc ty)) as (F' & Q & A').
  { intros r Hr. destruct (Y r Hr) as (_ & Y2 & Y3). auto. }
  set (T := fun r => set_x dst (F0 r) (S r)). set (T1 := fun r => xx_put dst (T r) (H' r, F' r)).
  exists T1. split.
  - unfold edge_ext. apply (prog_ok_seq n _ _ S T).
    + exists T. split; [|intros r Hr; reflexivity]. intros r Hr. rewrite (nth_error_reg []) by (rewrite LM; auto).
      destruct (Y r Hr) as (Y1 & _). unfold mreg in Y1. rewrite Y1. reflexivity.
    + apply (lift_run (xx_get dst) (xx_put dst) _ _ _ T (fun r => (H' r, F0 r))); [reflexivity| | | |].
      * intros r [h x] Hr. unfold xx_get, xx_put, T, set_x. cbn [a_pool a_x fst snd].
        rewrite (nth_error_reg []) by (rewrite !rput_length, LX; auto). rewrite rput_same by (rewrite !rput_length, LX; auto). reflexivity.
      * intros r a a' Hr. unfold xx_put. cbn. rewrite rput_put. reflexivity.
      * intros r Hr. unfold xx_put, T, set_x. cbn [a_map a_ranks a_pool a_tmp a_new a_cnt a_m a_x a_z a_o fst snd]. rewrite rput_put.
        rewrite (r_pool _ _ _ _ _ _ _ S g R Hp r Hr). reflexivity.
      * eexists. split; [exact Q|]. intros r Hr. reflexivity.
  - apply (rep_same (fun r => set_x dst (F' r) (S r))).
    { intros r Hr. unfold same, T1, T, xx_put, set_x. cbn [a_map a_ranks a_pool a_cnt a_m a_x a_z a_o fst snd]. rewrite rput_put.
      rewrite (r_pool _ _ _ _ _ _ _ S g R Hp r Hr). repeat split; reflexivity. }
    apply (rep_set_x c n L E N H KO S); auto; [intros r Hr; eauto|].
    refine (agrees_fields _ _ _ _ _ _ _ _ _ A'). intros r Hr. unfold xreg. cbn [a_x set_x].
    rewrite rput_same; [reflexivity|rewrite LX; auto].
Qed.

Lemma dilate_ext_rep S g k amount bc m : rep S g -> g_pool g = true -> g_x g k = Some m -> 0 < amount ->
  exists S' m1, prog_ok n (dilate_ext c L E k amount bc) S S' /\ rep S' (g_set_x k m1 g) /\
    forall u, pt_in (c_range c') u -> m1 u = true <-> reached c' bc m true amount u.
Proof.
  intros R Hp Hm Ha. destruct (r_x _ _ _ _ _ _ _ S g R k m Hm) as [Hk A].
  destruct (dilate_erode_ok c' n L' E' N H' bc amount (xreg S k) m (fun r => a_tmp (S r)) (P' c n L E N H P) A) as (F1 & G1 & m1 & Q & A' & X).
  assert (LX : forall r, (r < n)%nat -> length (a_x (S r)) = NUM_X) by (intros r; apply (regs_x S g r R)).
  set (S1 := fun r => dx_put k (S r) (ES (H' r) (F1 r) (G1 r))).
  exists S1, m1. split; [|split].
  - apply (lift_run _ _ _ _ _ S (fun r => ES (H' r) (xreg S k r) (a_tmp (S r)))); [reflexivity| | | |exact Q].
    + intros r a Hr. unfold dx_get, dx_put. destruct a as [h x y]. cbn [a_pool a_x a_tmp e_map e_mask e_edge].
      specialize (LX r Hr). rewrite (nth_error_reg []) by (rewrite !rput_length; lia). rewrite rput_same by lia. reflexivity.
    + intros r a a' Hr. unfold dx_put. cbn. rewrite rput_put. reflexivity.
    + intros r Hr. unfold dx_put. cbn [e_map e_mask e_edge]. unfold xreg. specialize (LX r Hr). rewrite rput_id by lia.
      rewrite <- (r_pool _ _ _ _ _ _ _ S g R Hp r Hr). destruct (S r). reflexivity.
  - apply (rep_same (fun r => set_x k (F1 r) (S r))).
    { intros r Hr. unfold same, S1, dx_put, set_x. cbn [a_map a_ranks a_pool a_cnt a_m a_x a_z a_o e_map e_mask].
      rewrite (r_pool _ _ _ _ _ _ _ S g R Hp r Hr). repeat split; reflexivity. }
    apply (rep_set_x c n L E N H KO S); auto; [intros r Hr; eauto|].
    refine (agrees_fields _ _ _ _ _ _ _ _ _ A'). intros r Hr. unfold xreg. cbn [a_x set_x].
    rewrite rput_same; [reflexivity|rewrite LX; auto].
  - intros u Hu. specialize (X u Hu). destruct (Z.ltb_spec 0 amount); [|lia]. rewrite Z.abs_eq in X by lia. exact X.
Qed.

Lemma E_sub_ext r : (r < n)%nat -> pt_subset (E r) (E' r).
Proof.
  intros Hr p Hp. apply pt_in_tget. intros d Hd. apply pt_in_tget with (d := d) in Hp; [|exact Hd].
  destruct (Nat.lt_ge_cases d (c_nd c)) as [Hn|Hn].
  - destruct (ext_get c (E r) d Hd Hn) as [-> ->].
    destruct (negb (tget (c_per c) d) && (tget (rb (E r)) d =? tget (rb (c_range c)) d)),
      (negb (tget (c_per c) d) && (tget (re (E r)) d =? tget (re (c_range c)) d)); lia.
  - destruct (ext_get0 c (E r) d Hd Hn) as [-> ->]. pose proof P as (_ & _ & X & _). destruct (proj1 (X r Hr) d ltac:(lia)) as [X1 X2].
    destruct (L_dims c n L E N H P r Hr d Hd) as (B1 & B2 & B3 & B4). rewrite X1, X2 in Hp.
    destruct (C_dim0 c n L E N H P d Hd Hn) as (Y1 & Y2 & _). lia.
Qed.

Lemma mask_and_ext_rep S g dst a x f ma mx : rep S g -> g_m g a = Some ma -> g_x g x = Some mx -> (dst < NUM_M)%nat ->
  exists S', prog_ok n (mask_and_ext c E dst a x f) S S' /\ rep S' (g_set_m dst (fun u => f (ma u) (mx u)) g).
Proof.
  intros R Ha Hx Hd. destruct (r_m _ _ _ _ _ _ _ S g R a ma Ha) as [Ka Aa]. destruct (r_x _ _ _ _ _ _ _ S g R x mx Hx) as [Kx Ax].
  assert (LM : forall r, (r < n)%nat -> length (a_m (S r)) = NUM_M) by (intros r; apply (regs_m S g r R)).
  assert (LX : forall r, (r < n)%nat -> length (a_x (S r)) = NUM_X) by (intros r; apply (regs_x S g r R)).
  set (body := fun r p => let! u := fread (E r) (mreg S a r) p in let! v := fread (E' r) (xreg S x r) p in Some (f u v)).
  assert (RD : forall r p, (r < n)%nat -> pt_in (E r) p -> exists u v,
            vread (mreg S a r) (rindex ColMajor (E r) p) = Some u /\ vread (xreg S x r) (rindex ColMajor (E' r) p) = Some v /\ body r p = Some (f u v)).
  { intros r p Hr Hp. pose proof (E_sub_ext r Hr p Hp) as Hp'. unfold body. rewrite !fread_in by assumption.
    destruct (proj2 (vread_some (mreg S a r) (rindex ColMajor (E r) p))) as [u Eu].
    { pose proof (proj1 (proj1 Aa r Hr)). pose proof (rindex_bounds ColMajor (E r) p Hp). lia. }
    destruct (proj2 (vread_some (xreg S x r) (rindex ColMajor (E' r) p))) as [v Ev].
    { pose proof (proj1 (proj1 Ax r Hr)). pose proof (rindex_bounds ColMajor (E' r) p Hp'). lia. }
    rewrite Eu, Ev. eauto. }
  assert (X : forall r, (r < n)%nat -> exists d, omap (body r) (RangeModel.foreach_col (E r)) = Some d).
  { intros r Hr. apply omap_total. intros p Hp. apply foreach_col_In in Hp. destruct (RD r p Hr Hp) as (u & v & _ & _ & Q). eauto. }
  set (F := fun r => match omap (body r) (RangeModel.foreach_col (E r)) with Some d => d | None => [] end).
  assert (Y : forall r, (r < n)%nat -> omap (body r) (RangeModel.foreach_col (E r)) = Some (F r)) by (intros r Hr; unfold F; destruct (X r Hr) as [d ->]; reflexivity).
  exists (fun r => set_m dst (F r) (S r)). split.
  - eexists. split; [|intros r Hr; reflexivity]. intros r Hr.
    rewrite (nth_error_reg []) by (rewrite LM; auto). rewrite (nth_error_reg []) by (rewrite LX; auto).
    specialize (Y r Hr). unfold body, mreg, xreg in Y. rewrite Y. reflexivity.
  - apply (rep_set_m c n L E N H KO S); auto; [intros r Hr; eauto|].
    apply (agrees_fields c n L E N F).
    { intros r Hr. unfold mreg. cbn [a_m set_m]. rewrite rput_same; [reflexivity|rewrite LM; auto]. }
    assert (LF : forall r, (r < n)%nat -> Z.of_nat (length (F r)) = rcount (E r)).
    { intros r Hr. rewrite (omap_length _ _ _ (Y r Hr)). rewrite foreach_col_length. reflexivity. }
    split.
    + intros r Hr. split; [apply LF, Hr|]. intros p Hp. pose proof (L_in_E c n L E N H P r p Hr Hp) as Hp'.
      rewrite (field_of (E r) (body r) (F r) (Y r Hr) p Hp'). destruct (RD r p Hr Hp') as (u & v & Q1 & Q2 & ->).
      rewrite (proj2 (proj1 Aa r Hr) p Hp) in Q1. rewrite (proj2 (proj1 Ax r Hr) p) in Q2; [congruence|].
      apply (L_in_ext c n L E N H P r Hr), Hp.
    + intros r p q u Hr Hq Hp Hu I O. rewrite (field_of (E r) (body r) (F r) (Y r Hr) p Hp).
      destruct (RD r p Hr Hp) as (w & v & Q1 & Q2 & ->). rewrite (proj2 Aa r p q u Hr Hq Hp Hu I O) in Q1.
      rewrite (proj2 Ax r p q u Hr Hq (E_sub_ext r Hr p Hp)) in Q2; [congruence| | |exact O].
      * apply (L_in_ext c n L E N H P q Hq), Hu.
      * apply (c'_image c n L E N H P), I.
Qed.

(** ** Loops over the points of the local range *)

Lemma fold_update {V} e (h : list V -> tup Z -> option V) w pts : forall d, NoDup pts -> (forall p, In p pts -> pt_in e p) ->
  Z.of_nat (length d) = rcount e ->
  (forall d' p, In p pts -> vread d' (rindex ColMajor e p) = vread d (rindex ColMajor e p) -> h d' p = Some (w p)) ->
  exists d', ofoldl (fun d p => let! v := h d p in fwrite e d p v) pts d = Some d' /\ length d' = length d /\
    forall q, pt_in e q -> (In q pts -> vread d' (rindex ColMajor e q) = Some (w q)) /\
                           (~ In q pts -> vread d' (rindex ColMajor e q) = vread d (rindex ColMajor e q)).
Proof.
  induction pts as [|a pts IH]; intros d ND Hin Ld X; cbn [ofoldl].
  - exists d. split; [reflexivity|]. split; [reflexivity|]. intros q Hq. split; [intros []|reflexivity].
  - rewrite (X d a) by (try reflexivity; left; reflexivity). pose proof (Hin a (or_introl eq_refl)) as Ha.
    unfold fwrite at 1. rewrite (proj2 (rcontains_spec _ _) Ha).
    destruct (vwrite_spec d (rindex ColMajor e a) (w a)) as (d1 & -> & L1 & R1); [rewrite Ld; apply rindex_bounds, Ha|].
    inversion ND as [|? ? Na ND']; subst.
    assert (NI : forall p, In p pts -> vread d1 (rindex ColMajor e p) = vread d (rindex ColMajor e p)).
    { intros p Hp. rewrite R1. destruct (Z.eqb_spec (rindex ColMajor e p) (rindex ColMajor e a)) as [Q|]; [|reflexivity].
      apply rindex_inj in Q; [subst p; contradiction|apply Hin; right; exact Hp|exact Ha]. }
    destruct (IH d1 ND') as (d' & Q & L2 & R2).
    + intros p Hp. apply Hin. right. exact Hp.
    + rewrite L1. exact Ld.
    + intros d'' p Hp Y. apply X; [right; exact Hp|]. rewrite Y. apply NI, Hp.
    + exists d'. split; [exact Q|]. split; [congruence|]. intros q Hq. destruct (R2 q Hq) as [R3 R4]. split.
      * intros [<-|I]; [|apply R3, I]. rewrite R4 by exact Na. rewrite R1, Z.eqb_refl. reflexivity.
      * intros NI'. rewrite R4 by (intros I; apply NI'; right; exact I). rewrite R1.
        destruct (Z.eqb_spec (rindex ColMajor e q) (rindex ColMajor e a)) as [Y|]; [|reflexivity].
        apply rindex_inj in Y; auto. subst q. exfalso. apply NI'. left. reflexivity.
Qed.

Definition g_drop_m (k : nat) (g : env) : env :=
  Env (fun j => if Nat.eqb j k then None else g_m g j) (g_x g) (g_z g) (g_o g) (g_pool g) (g_cnt g).

Lemma rep_drop_m S S' g k : rep S g -> (forall r, (r < n)%nat -> exists d, S' r = set_m k d (S r) /\ Z.of_nat (length d) = rcount (E r)) ->
  rep S' (g_drop_m k g).
Proof.
  intros R X. destruct R as [R1 R2 R3 R4 R5 R6 R7]. split.
  - intros r Hr. destruct (R1 r Hr) as (W1 & W2 & W3 & W4 & W5 & W6 & W7 & W8). pose proof (X r Hr) as (d & Q & Ld).
    split; [rewrite Q; exact W1|]. split; [rewrite Q; exact W2|]. split; [rewrite Q; cbn [a_m set_m]; rewrite rput_length; exact W3|].
    split; [rewrite Q; exact W4|]. split; [rewrite Q; exact W5|]. split; [rewrite Q; exact W6|]. split; [rewrite Q; exact W7|].
    intros j Hj. rewrite Q. cbn [a_m set_m]. destruct (Nat.eq_dec j k) as [->|Nk].
    + rewrite rput_same by (rewrite W3; exact Hj). exact Ld.
    + rewrite rput_other by exact Nk. apply W8, Hj.
  - intros j mj. cbn [g_m g_drop_m]. destruct (Nat.eqb_spec j k) as [->|Nk]; [discriminate|].
    intros Q. destruct (R2 j mj Q) as [Kj Aj]. split; [exact Kj|]. refine (agrees_fields _ _ _ _ _ _ _ _ _ Aj).
    intros r Hr. unfold mreg. destruct (X r Hr) as (d & -> & _). cbn [a_m set_m]. rewrite rput_other by exact Nk. reflexivity.
  - intros j mj Q. destruct (R3 j mj Q) as [Kj Aj]. split; [exact Kj|]. refine (agrees_fields _ _ _ _ _ _ _ _ _ Aj).
    intros r Hr. unfold xreg. destruct (X r Hr) as (d & -> & _). reflexivity.
  - intros j mj Q. destruct (R4 j mj Q) as [Kj Aj]. split; [exact Kj|]. refine (agrees_fields _ _ _ _ _ _ _ _ _ Aj).
    intros r Hr. unfold zreg. destruct (X r Hr) as (d & -> & _). reflexivity.
  - intros j mj Q. destruct (R5 j mj Q) as [Kj Aj]. split; [exact Kj|]. intros r Hr. specialize (Aj r Hr).
    unfold oreg in *. destruct (X r Hr) as (d & -> & _). exact Aj.
  - intros Q r Hr. destruct (X r Hr) as (d & -> & _). apply R6; auto.
  - intros j v Q r Hr. destruct (X r Hr) as (d & -> & _). apply R7; auto.
Qed.

(** The loop reads a field on the extended range and one on the local range, and writes one on the extended range. *)
Lemma local_loop_rep S g dst (h : nat -> list bool -> tup Z -> option bool) w : rep S g -> (dst < NUM_M)%nat ->
  (forall r d p, (r < n)%nat -> pt_in (L r) p -> vread d (rindex ColMajor (E r) p) = vread (mreg S dst r) (rindex ColMajor (E r) p) -> h r d p = Some (w p)) ->
  exists F, (forall r, (r < n)%nat -> ofoldl (fun d p => let! v := h r d p in fwrite (E r) d p v) (RangeModel.foreach_col (L r)) (mreg S dst r) = Some (F r)) /\
    rep (fun r => set_m dst (F r) (S r)) (g_drop_m dst g) /\ FieldSpec.holds n L E (mreg (fun r => set_m dst (F r) (S r)) dst) w.
Proof.
  intros R Hd X. assert (Ln : forall r, (r < n)%nat -> Z.of_nat (length (mreg S dst r)) = rcount (E r)) by (intros r Hr; apply (regs_len S g r dst R Hr Hd)).
  assert (LM : forall r, (r < n)%nat -> length (a_m (S r)) = NUM_M) by (intros r; apply (regs_m S g r R)).
  assert (Y : forall r, (r < n)%nat -> exists d', ofoldl (fun d p => let! v := h r d p in fwrite (E r) d p v) (RangeModel.foreach_col (L r)) (mreg S dst r) = Some d' /\
             length d' = length (mreg S dst r) /\ forall p, pt_in (L r) p -> vread d' (rindex ColMajor (E r) p) = Some (w p)).
  { intros r Hr. destruct (fold_update (E r) (h r) w (RangeModel.foreach_col (L r)) (mreg S dst r)) as (d' & Q & Ld & V).
    - apply foreach_col_NoDup.
    - intros p Hp. apply foreach_col_In in Hp. apply (L_in_E c n L E N H P r p Hr Hp).
    - apply Ln, Hr.
    - intros d p Hp Q. apply foreach_col_In in Hp. apply X; auto.
    - exists d'. split; [exact Q|]. split; [exact Ld|]. intros p Hp. apply V; [apply (L_in_E c n L E N H P r p Hr Hp)|]. apply foreach_col_In, Hp. }
  set (F := fun r => match ofoldl (fun d p => let! v := h r d p in fwrite (E r) d p v) (RangeModel.foreach_col (L r)) (mreg S dst r) with Some d => d | None => [] end).
  assert (Z : forall r, (r < n)%nat -> ofoldl (fun d p => let! v := h r d p in fwrite (E r) d p v) (RangeModel.foreach_col (L r)) (mreg S dst r) = Some (F r) /\
             Z.of_nat (length (F r)) = rcount (E r) /\ forall p, pt_in (L r) p -> vread (F r) (rindex ColMajor (E r) p) = Some (w p)).
  { intros r Hr. unfold F. destruct (Y r Hr) as (d' & -> & Q1 & Q2). split; [reflexivity|]. split; [|exact Q2]. rewrite Q1. apply Ln, Hr. }
  exists F. split; [intros r Hr; apply Z, Hr|]. split.
  - apply (rep_drop_m S); auto. intros r Hr. exists (F r). split; [reflexivity|]. apply Z, Hr.
  - intros r Hr. unfold mreg. cbn [a_m set_m]. rewrite rput_same by (rewrite LM; auto). apply Z, Hr.
Qed.

Lemma update_local_rep S g dst f o m mo : rep S g -> (dst < NUM_M)%nat -> FieldSpec.holds n L E (mreg S dst) m -> g_o g o = Some mo ->
  exists S', prog_ok n (update_local L E dst f o) S S' /\ rep S' (g_drop_m dst g) /\ FieldSpec.holds n L E (mreg S' dst) (fun u => f (m u) (mo u)).
Proof.
  intros R Hd A Ho. destruct (r_o _ _ _ _ _ _ _ S g R o mo Ho) as [Ko Ao].
  destruct (local_loop_rep S g dst (fun r d p => let! u := fread (E r) d p in let! v := fread (L r) (oreg S o r) p in Some (f u v))
             (fun u => f (m u) (mo u)) R Hd) as (F & Q & R' & A').
  { intros r d p Hr Hp Q. rewrite fread_in by (apply (L_in_E c n L E N H P r p Hr Hp)). rewrite Q.
    destruct (A r Hr) as [_ ->]; [|exact Hp]. rewrite fread_in by exact Hp. destruct (Ao r Hr) as [_ ->]; [|exact Hp]. reflexivity. }
  exists (fun r => set_m dst (F r) (S r)). split; [|auto]. eexists. split; [|intros r Hr; reflexivity]. intros r Hr.
  rewrite (nth_error_reg []) by (rewrite (regs_o S g r R Hr); exact Ko). rewrite (nth_error_reg []) by (rewrite (regs_m S g r R Hr); exact Hd).
  specialize (Q r Hr). unfold mreg at 1 in Q. rewrite <- Q || idtac.
  match goal with |- (let! d := ?x in Some (set_m dst d (S r))) = _ => assert (QQ : x = Some (F r)) end.
  { rewrite <- Q. apply ofoldl_ext. intros s a _. destruct (fread (E r) s a); [|reflexivity].
    unfold oreg. destruct (fread (L r) (nth o (a_o (S r)) []) a); reflexivity. }
  rewrite QQ. reflexivity.
Qed.

Lemma orphan_local_rep S g o mr mo : rep S g -> g_m g R_RECV = Some mr -> g_o g o = Some mo ->
  exists S', prog_ok n (orphan_local L E o) S S' /\ rep S' (g_drop_m R_ORPHAN g) /\
    FieldSpec.holds n L E (mreg S' R_ORPHAN) (fun u => mr u && mo u).
Proof.
  intros R Hr' Ho. destruct (r_o _ _ _ _ _ _ _ S g R o mo Ho) as [Ko Ao]. destruct (r_m _ _ _ _ _ _ _ S g R R_RECV mr Hr') as [Kr Ar].
  assert (Hd : (R_ORPHAN < NUM_M)%nat) by (unfold R_ORPHAN, NUM_M; lia).
  destruct (local_loop_rep S g R_ORPHAN (fun r d p => let! u := fread (E r) (mreg S R_RECV r) p in let! v := fread (L r) (oreg S o r) p in Some (u && v))
             (fun u => mr u && mo u) R Hd) as (F & Q & R' & A').
  { intros r d p Hr Hp Q. rewrite fread_in by (apply (L_in_E c n L E N H P r p Hr Hp)).
    destruct (proj1 Ar r Hr) as [_ ->]; [|exact Hp]. rewrite fread_in by exact Hp. destruct (Ao r Hr) as [_ ->]; [|exact Hp]. reflexivity. }
  exists (fun r => set_m R_ORPHAN (F r) (S r)). split; [|auto]. eexists. split; [|intros r Hr; reflexivity]. intros r Hr.
  rewrite (nth_error_reg []) by (rewrite (regs_o S g r R Hr); exact Ko).
  rewrite (nth_error_reg [] _ R_RECV) by (rewrite (regs_m S g r R Hr); exact Kr).
  rewrite (nth_error_reg [] _ R_ORPHAN) by (rewrite (regs_m S g r R Hr); exact Hd).
  specialize (Q r Hr).
  match goal with |- (let! d := ?x in Some (set_m R_ORPHAN d (S r))) = _ => assert (QQ : x = Some (F r)) end.
  { rewrite <- Q. apply ofoldl_ext. intros s a _. unfold mreg. destruct (fread (E r) (nth R_RECV (a_m (S r)) []) a); [|reflexivity].
    unfold oreg. destruct (fread (L r) (nth o (a_o (S r)) []) a); reflexivity. }
  rewrite QQ. reflexivity.
Qed.
End Ops.
