(** The whole assembly of one grid: all phases in sequence, and the flags that come out. *)
From Coq Require Import List ZArith Bool Lia.
From Verif Require Import TupleModel RangeModel Base RangeProof CartModel CartProof DecompModel DecompProof IndexerModel ArrayModel ArrayProof.
From Verif Require Import ContModel HashModel HashProof ProtoModel ProtoSpec NetModel NetSpec NetPhase LiftModel LiftProof.
From Verif Require Import NeighModel NeighSpec NeighProof HaloModel HaloProof PartModel FieldModel FieldSpec FieldProof EdgeProof ExtProof.
From Verif Require Import AsmModel AsmRep AsmOps AsmSpec AsmFlags AsmGeom AsmPhase.
Import ListNotations.
Local Open Scope Z_scope.

Ltac bits := repeat match goal with |- context [?a =? ?b] => let r := eval vm_compute in (a =? b) in change (a =? b) with r end; cbn [orb andb negb].

Section Assembled.
Variables (c : cart) (n : nat) (L E : nat -> range) (N : nat -> list nat) (H : nat -> hmap).
Hypothesis P : partitioned c n L E N H.
Notation dom u := (pt_in (c_range c) u).

Lemma continued_ext (m m' : pmask) w : (forall x, dom x -> m x = m' x) -> continued c BC_FALSE m w = continued c BC_FALSE m' w.
Proof.
  intros X. unfold continued. destruct (rcontains (c_range c) (wrap c w)) eqn:R; [|reflexivity]. apply X, rcontains_spec, R.
Qed.

Lemma is_edge_ext (m m' : pmask) ty w : (forall x, dom x -> m x = m' x) -> is_edge c BC_FALSE m ty w <-> is_edge c BC_FALSE m' ty w.
Proof.
  intros X. unfold is_edge. rewrite (continued_ext m m' w X). split; intros [A (q & Aq & Cq)]; (split; [exact A|]); exists q; (split; [exact Aq|]);
    [rewrite <- (continued_ext m m' q X)|rewrite (continued_ext m m' q X)]; exact Cq.
Qed.

Lemma dom_dims u : dom u -> forall d, (c_nd c <= d < 3)%nat -> tget u d = 0.
Proof.
  intros Hu d Hd. pose proof (range_dim c u d Hu ltac:(lia)). destruct (C_dim0 c n L E N H P d ltac:(lia) ltac:(lia)) as (A & B & _). lia.
Qed.

(** ** What is known at the beginning *)

Fixpoint lookup (k : nat) (ks : list nat) (ms : list pmask) {struct ks} : option pmask :=
  match ks, ms with
  | j :: ks', m :: ms' => if Nat.eqb k j then Some m else lookup k ks' ms'
  | _, _ => None
  end.

Lemma forall2_weaken {A B} (R R' : A -> B -> Prop) l l' : Forall2 R l l' -> (forall a b, In a l -> R a b -> R' a b) -> Forall2 R' l l'.
Proof. induction 1; intros X; constructor; [apply X; [left; reflexivity|assumption]|]. apply IHForall2. intros a b Ha. apply X. right. exact Ha. Qed.

Lemma lookup_all ks ms : NoDup ks -> length ks = length ms -> Forall2 (fun k m => lookup k ks ms = Some m) ks ms.
Proof.
  revert ms. induction ks as [|k ks IH]; intros [|m ms] ND Q; try discriminate; [constructor|]. inversion ND as [|? ? Nk ND']; subst. constructor.
  - cbn. rewrite Nat.eqb_refl. reflexivity.
  - assert (X : Forall2 (fun k m => lookup k ks ms = Some m) ks ms) by (apply IH; [exact ND'|cbn in Q; lia]).
    apply (forall2_weaken _ _ _ _ X). intros j m' Hj Q'. cbn [lookup]. destruct (Nat.eqb_spec j k) as [->|]; [contradiction|exact Q'].
Qed.

Lemma lookup_in ks ms k m : lookup k ks ms = Some m -> In (k, m) (combine ks ms).
Proof.
  revert ms. induction ks as [|j ks IH]; intros [|m' ms]; try discriminate. cbn. destruct (Nat.eqb_spec k j) as [->|]; [intros Q; injection Q as ->; auto|auto].
Qed.

Lemma forall2_combine {A B} (R : A -> B -> Prop) l l' a b : Forall2 R l l' -> In (a, b) (combine l l') -> R a b.
Proof. induction 1; cbn; [contradiction|]. intros [Q|Q]; [injection Q as -> ->; assumption|auto]. Qed.

Lemma forall2_len {A B} (R : A -> B -> Prop) l l' : Forall2 R l l' -> length l = length l'.
Proof. induction 1; cbn; congruence. Qed.

Lemma loaded_rep KO overlaps o S fl v : loaded c n L E N H KO overlaps o S fl v ->
  exists go, go o = Some (v_no_donor v) /\ Forall2 (fun k m => go k = Some m) overlaps (v_overlaps v) /\
    rep c n L E N H KO S (Env (fun k => match k with 4 => Some (v_occluded v) | 5 => Some (v_minimize v) | 11 => Some (v_overlap v) | 12 => Some (v_hole v) | _ => None end)%nat
      (fun _ => None) (fun k => match k with 0%nat => Some fl | _ => None end) go false (fun _ => None)).
Proof.
  intros (W & ND & In_ko & A1 & A2 & A3 & A4 & A5 & A6 & A7). inversion ND as [|? ? No ND']; subst.
  exists (fun k => lookup k (o :: overlaps) (v_no_donor v :: v_overlaps v)).
  assert (F : Forall2 (fun k m => FieldSpec.holds n L L (ofield S k) m) (o :: overlaps) (v_no_donor v :: v_overlaps v)) by (constructor; assumption).
  pose proof (lookup_all _ _ ND (forall2_len _ _ _ F)) as LA. inversion LA as [|? ? ? ? Lo Ls]; subst.
  split; [exact Lo|]. split; [exact Ls|]. split.
  - intros r Hr. apply (W r Hr).
  - intros k m. cbn [g_m]. do 13 (destruct k as [|k]; [try discriminate; intros Q; injection Q as <-; (split; [unfold NUM_M; lia|assumption])|]). discriminate.
  - intros k m. discriminate.
  - intros k m. cbn [g_z]. destruct k; [|discriminate]. intros Q. injection Q as <-. split; [unfold NUM_Z; lia|exact A1].
  - intros k m Q. cbn [g_o] in Q. apply lookup_in in Q. split; [apply In_ko, (in_combine_l _ _ _ _ Q)|apply (forall2_combine _ _ _ _ _ F Q)].
  - discriminate.
  - intros k w. discriminate.
Qed.

(** ** The flags that come out *)

Section Flags.
Variables (infer : bool) (fl : tup Z -> Z) (v : given) (mn inner out recv : pmask).
Let f0 : tup Z -> Z := fun u => reset_flags (fl u).
Let f1 := fl_overlapped v f0.
Let f2 := fl_inferred c v infer f1.
Let f3 := fl_hole v f2.
Let f4 := fl_outer out f3.
Let f5 := fl_occluded v f4.
Let f6 := fl_minimized mn inner f5.
Let f7 := fl_receiver v recv f6.

Lemma final_bit k u : 0 <= k -> Z.testbit (f7 u) k =
  ((((Z.testbit (reset_flags (fl u)) k || (v_overlap v u && (OVERLAPPED =? k)))
     || (inf c v infer f1 u && ((DOMAIN_BOUNDARY =? k) || (INFERRED_DOMAIN_BOUNDARY =? k))))
     && negb (v_hole v u && (ACTIVE =? k)) || (v_hole v u && (BOUNDARY_HOLE =? k))
     || (out u && ((FRINGE =? k) || (OUTER_FRINGE =? k)))
     || (v_occluded v u && (OCCLUDED =? k)))
     && negb (mn u && ((ACTIVE =? k) || (OUTER_FRINGE =? k))) || (mn u && (OVERLAP_MINIMIZED =? k))
     || (negb (mn u) && inner u && ((FRINGE =? k) || (INNER_FRINGE =? k))))
  || (recv u && (RECEIVER =? k)) || (recv u && v_no_donor v u && (ORPHAN =? k)).
Proof.
  intros Hk. unfold f7, fl_receiver. rewrite flag_receiver_bit by exact Hk. unfold f6, fl_minimized. rewrite flag_minimized_bit by exact Hk.
  unfold f5, fl_occluded. rewrite flag_occluded_bit by exact Hk. unfold f4, fl_outer. rewrite flag_outer_bit by exact Hk.
  unfold f3, fl_hole. rewrite flag_hole_bit by exact Hk. unfold f2, fl_inferred. rewrite flag_inferred_bit by exact Hk.
  unfold f1, fl_overlapped. rewrite flag_overlapped_bit by exact Hk. reflexivity.
Qed.

Lemma act1 u : active_of (f1 u) = was_active fl u.
Proof.
  rewrite active_bit. unfold f1, fl_overlapped. rewrite flag_overlapped_bit by discriminate. unfold f0. rewrite reset_bit by discriminate. bits.
  rewrite andb_false_r, orb_false_r. reflexivity.
Qed.
Lemma bnd1 u : domain_boundary_of (f1 u) = was_active fl u && was_boundary fl u.
Proof.
  rewrite domain_bit. unfold f1, fl_overlapped. rewrite !flag_overlapped_bit by discriminate. unfold f0. rewrite !reset_bit by discriminate. bits.
  rewrite !andb_false_r, !orb_false_r. reflexivity.
Qed.

Lemma inf_spec u : dom u -> inf c v infer f1 u = true <->
  infer = true /\ was_active fl u = true /\ was_boundary fl u = false /\
  (exists q, apart (c_nd c) 1 u q /\ continued c BC_FALSE (was_active fl) q = false) /\ Forall (fun m => m u = false) (v_overlaps v).
Proof.
  intros Hu. unfold inf. rewrite !andb_true_iff, negb_true_iff, bnd1, (edgeb_spec c _ _ _ u (dom_dims u Hu)), forallb_forall, Forall_forall.
  rewrite (is_edge_ext _ (was_active fl)) by (intros x _; apply act1). unfold is_edge. cbn [negb].
  rewrite (continued_in c n L E N H P) by exact Hu. split.
  - intros [I [[[A (q & Aq & Cq)] B] F]]. split; [exact I|]. rewrite A in B. cbn in B. split; [exact A|]. split; [exact B|]. split; [exists q; auto|].
    intros m Hm. specialize (F m Hm). apply negb_true_iff, F.
  - intros (I & A & B & (q & Aq & Cq) & F). split; [exact I|]. rewrite A, B. split; [split; [|reflexivity]|].
    + split; [reflexivity|]. exists q. auto.
    + intros m Hm. rewrite (F m Hm). reflexivity.
Qed.

Lemma act3 u : active_of (f3 u) = kept fl v u.
Proof.
  rewrite active_bit. unfold f3, fl_hole. rewrite flag_hole_bit by discriminate. unfold f2, fl_inferred. rewrite flag_inferred_bit by discriminate.
  rewrite <- active_bit, act1. bits. rewrite !andb_false_r, !orb_false_r, andb_true_r. reflexivity.
Qed.
Lemma act5 u : active_of (f5 u) = kept fl v u.
Proof.
  rewrite <- act3, !active_bit. unfold f5, fl_occluded. rewrite flag_occluded_bit by discriminate. unfold f4, fl_outer.
  rewrite flag_outer_bit by discriminate. bits. rewrite !andb_false_r, !orb_false_r. reflexivity.
Qed.
Lemma act6 u : active_of (f6 u) = kept fl v u && negb (mn u).
Proof. unfold f6. rewrite minimized_active, act5. reflexivity. Qed.

Lemma bnd3 u : bnd_of f3 u = kept fl v u && boundary f7 u.
Proof.
  unfold bnd_of. rewrite domain_bit, internal_bit, <- active_bit, act3, <- andb_orb_distrib_r. f_equal. unfold boundary, flag.
  rewrite !final_bit by discriminate. unfold f3, fl_hole. rewrite !flag_hole_bit by discriminate. unfold f2, fl_inferred. rewrite !flag_inferred_bit by discriminate.
  unfold f1, fl_overlapped. rewrite !flag_overlapped_bit by discriminate. fold f0. bits. rewrite ?andb_false_r, ?orb_false_r, ?andb_true_r. reflexivity.
Qed.

Variables (fringe max : Z) (dist : tup Z -> Z).

Hypothesis Xout : forall u, dom u -> out u = true <->
      active_of (f3 u) = true /\ exists q, apart (c_nd c) fringe u q /\ opening c (fun x => active_of (f3 x)) (bnd_of f3) q.
Hypothesis Xmin : forall u, dom u ->
      (0 < fringe -> (mn u = true <-> v_minimize v u = true /\ active_of (f5 u) = true /\
         forall x, dom x -> within c fringe u x -> v_occluded v x = true \/ active_of (f5 x) = false)) /\
      (fringe = 0 -> mn u = v_minimize v u) /\
      (inner u = true <-> active_of (f5 u) = true /\ mn u = false /\ exists x, dom x /\ within c fringe u x /\ mn x = true).
Hypothesis Xrecv : forall u, dom u -> recv u = (out u && negb (mn u)) || inner u || (v_occluded v u && active_of (f6 u)).
Hypothesis Xdist : measured c max recv (edgeb c recv BC_FALSE INNER) max dist.

Lemma out_outer u : dom u -> out u = true <-> outer c fringe fl v f7 u.
Proof.
  intros Hu. rewrite (Xout u Hu), act3. unfold outer, opening. split; intros [A B]; (split; [exact A|]).
  - destruct B as (q & Aq & C & w & Aw & Cw). exists q, w. split; [exact Aq|]. split; [exact Aw|].
    rewrite <- C, <- Cw. split; apply continued_ext; intros x _; rewrite act3; [reflexivity|]. rewrite bnd3. destruct (kept fl v x); reflexivity.
  - destruct B as (q & w & Aq & Aw & C & Cw). exists q. split; [exact Aq|].
    split; [rewrite <- C; apply continued_ext; intros x _; apply act3|]. exists w. split; [exact Aw|].
    rewrite <- Cw. apply continued_ext; intros x _; rewrite act3, bnd3. destruct (kept fl v x); reflexivity.
Qed.

Lemma out_kept u : dom u -> out u = true -> kept fl v u = true.
Proof. intros Hu Q. apply (out_outer u Hu) in Q as [A _]. exact A. Qed.
Lemma inner_kept u : dom u -> inner u = true -> kept fl v u = true /\ mn u = false.
Proof. intros Hu Q. apply (proj2 (proj2 (Xmin u Hu))) in Q as (A & B & _). rewrite act5 in A. auto. Qed.

Lemma min_bit u : dom u -> flag OVERLAP_MINIMIZED f7 u = mn u.
Proof.
  intros Hu. unfold flag. rewrite final_bit, reset_bit by discriminate. bits. change (ORPHAN <? OVERLAP_MINIMIZED) with false. cbn [orb].
  rewrite ?andb_false_r, ?orb_false_r, ?andb_true_r. reflexivity.
Qed.

Lemma active_bit' u : dom u -> flag ACTIVE f7 u = kept fl v u && negb (mn u).
Proof.
  intros Hu. rewrite <- act6, active_bit. unfold flag, f7, fl_receiver. rewrite flag_receiver_bit by discriminate. bits.
  rewrite ?andb_false_r, ?orb_false_r. reflexivity.
Qed.

Lemma receiver_bit u : dom u -> flag RECEIVER f7 u = recv u.
Proof.
  intros Hu. unfold flag. rewrite final_bit, reset_bit by discriminate. bits. change (ORPHAN <? RECEIVER) with false. cbn [orb].
  rewrite ?andb_false_r, ?orb_false_r, ?andb_true_r. reflexivity.
Qed.

Lemma inner_bit u : dom u -> flag INNER_FRINGE f7 u = inner u.
Proof.
  intros Hu. unfold flag. rewrite final_bit, reset_bit by discriminate. bits. change (ORPHAN <? INNER_FRINGE) with false. cbn [orb].
  rewrite ?andb_false_r, ?orb_false_r, ?andb_true_r. destruct (inner u) eqn:Q; [|rewrite andb_false_r; reflexivity].
  destruct (inner_kept u Hu Q) as [_ ->]. reflexivity.
Qed.

Lemma final_outcome : outcome c infer fringe fl v f7 max dist.
Proof.
  split; [|split; [|split; [|split; [|split; [|split]]]]].
  - intros u k Hu Hk. unfold flag. assert (0 <= k) by (unfold INTERNAL_BOUNDARY, ORPHAN in Hk; lia). rewrite final_bit, reset_bit by assumption.
    destruct Hk as [->|Hk].
    + bits. rewrite ?andb_false_r, ?orb_false_r, ?andb_true_r. reflexivity.
    + assert (K : forall j, j <= ORPHAN -> (j =? k) = false) by (intros j Hj; apply Z.eqb_neq; lia).
      assert (K' : forall j, j <= ORPHAN -> (k =? j) = false) by (intros j Hj; apply Z.eqb_neq; lia).
      rewrite !K, !K' by discriminate. apply Z.ltb_lt in Hk. rewrite Hk. cbn [orb]. rewrite ?andb_false_r, ?orb_false_r, ?andb_true_r. reflexivity.
  - intros u Hu. unfold flag. rewrite !final_bit, !reset_bit by discriminate. bits.
    change (ORPHAN <? OVERLAPPED) with false. change (ORPHAN <? BOUNDARY_HOLE) with false. change (ORPHAN <? OCCLUDED) with false. cbn [orb].
    rewrite ?andb_false_r, ?orb_false_r, ?andb_true_r. auto.
  - intros u Hu. unfold flag. rewrite !final_bit, !reset_bit by discriminate. bits.
    change (ORPHAN <? INFERRED_DOMAIN_BOUNDARY) with false. cbn [orb]. rewrite ?andb_false_r, ?orb_false_r, ?andb_true_r.
    rewrite (inf_spec u Hu). split; [reflexivity|]. reflexivity.
  - intros u Hu. rewrite (min_bit u Hu), (inner_bit u Hu), <- (out_outer u Hu). unfold flag. rewrite !final_bit, !reset_bit by discriminate. bits.
    change (ORPHAN <? FRINGE) with false. change (ORPHAN <? OUTER_FRINGE) with false. cbn [orb]. rewrite ?andb_false_r, ?orb_false_r, ?andb_true_r. split.
    + rewrite andb_true_iff, negb_true_iff. reflexivity.
    + rewrite orb_true_iff. destruct (inner u) eqn:Q; [|rewrite andb_false_r; reflexivity]. destruct (inner_kept u Hu Q) as [_ ->]. reflexivity.
  - intros u Hu. destruct (Xmin u Hu) as (X1 & X2 & X3). rewrite (min_bit u Hu), (inner_bit u Hu), (active_bit' u Hu). rewrite act5 in X1, X3.
    split; [|split; [exact X2|split; [reflexivity|]]].
    + intros F. rewrite (X1 F). split; intros (A & B & C); (split; [exact A|]); (split; [exact B|]); intros x Hx W; specialize (C x Hx W); rewrite act5 in *; exact C.
    + rewrite X3, andb_true_iff, negb_true_iff. split.
      * intros (A & B & x & Hx & W & M). split; [auto|]. exists x. rewrite (min_bit x Hx). auto.
      * intros ((A & B) & x & Hx & W & M). rewrite (min_bit x Hx) in M. split; [exact A|]. split; [exact B|]. exists x. auto.
  - intros u Hu. rewrite (receiver_bit u Hu), (inner_bit u Hu), (active_bit' u Hu). rewrite (Xrecv u Hu), act6. split.
    + unfold flag. rewrite !final_bit, !reset_bit by discriminate. bits.
      change (ORPHAN <? OCCLUDED) with false. change (ORPHAN <? OUTER_FRINGE) with false. cbn [orb]. rewrite ?andb_false_r, ?orb_false_r, ?andb_true_r.
      pose proof (out_kept u Hu) as OK. pose proof (inner_kept u Hu) as IK.
      revert OK IK. destruct (kept fl v u), (mn u), (out u), (inner u), (v_occluded v u); intros OK IK; try reflexivity; exfalso;
        first [discriminate (OK eq_refl)|destruct (IK eq_refl); discriminate].
    + unfold flag. rewrite !final_bit, !reset_bit by discriminate. bits.
      change (ORPHAN <? ORPHAN) with false. cbn [orb]. rewrite ?andb_false_r, ?orb_false_r, ?andb_true_r. rewrite (Xrecv u Hu), act6. reflexivity.
  - assert (XR : forall k u, dom u -> edge_within c f7 k u <-> reached c BC_FALSE (edgeb c recv BC_FALSE INNER) true k u).
    { intros k u Hu. rewrite (reached_within c BC_FALSE _ true) by reflexivity. unfold edge_within.
      split; intros (x & Hx & W & M); exists x; (split; [exact Hx|]); (split; [exact W|]).
      - apply edgeb_spec; [apply dom_dims, Hx|]. apply (is_edge_ext (flag RECEIVER f7)); [apply receiver_bit|exact M].
      - apply edgeb_spec in M; [|apply dom_dims, Hx]. apply (is_edge_ext recv); [intros y Hy; symmetry; apply receiver_bit, Hy|exact M]. }
    intros u Hu. rewrite (receiver_bit u Hu). split.
    + intros k Hk A B. destruct (Xdist u Hu) as [[D Nr]|(i & Hi & Ri & Fi & Di)].
      * exfalso. apply (Nr k Hk). apply XR; assumption.
      * assert (i = k); [|subst i; exact Di]. destruct (Z.lt_trichotomy i k) as [C|[C|C]]; [|exact C|].
        -- exfalso. apply (B i); [lia|]. apply XR; assumption.
        -- exfalso. apply (Fi k); [lia|]. apply XR; assumption.
    + intros A. destruct (Xdist u Hu) as [[D Nr]|(i & Hi & Ri & Fi & Di)]; [exact D|]. exfalso. apply (A i Hi). apply XR; assumption.
Qed.
End Flags.

Theorem assemble_ok KO infer overlaps fringe max o S fl v : loaded c n L E N H KO overlaps o S fl v -> 0 <= fringe -> 1 <= max ->
  exists S' fl' dist, prog_ok n (assemble c n L E infer overlaps fringe max o) S S' /\
    agrees c n L E N (zfield S' Z_FLAGS) fl' /\ agrees c n L E N (zfield S' Z_DIST) dist /\ outcome c infer fringe fl v fl' max dist.
Proof.
  intros LD Hf Hmax. destruct (loaded_rep KO overlaps o S fl v LD) as (go & Go & Gs & R).
  destruct (init_ok c n L E N H P KO v go S _ fl R eq_refl eq_refl eq_refl eq_refl eq_refl (fun k m Q => Q)) as (S0 & Q0 & R0).
  destruct (overlap_ok c n L E N H P KO v go S0 _ _ R0) as (S1 & Q1 & R1).
  destruct (infer_ok c n L E N H P KO v go S1 _ _ infer overlaps R1 Gs) as (S2 & Q2 & R2).
  destruct (holes_ok c n L E N H P KO v go S2 _ _ R2) as (S3 & Q3 & R3).
  destruct (outer_ok c n L E N H P KO v go S3 _ _ fringe R3 Hf) as (S4 & out & Q4 & R4 & X4).
  destruct (occlusion_ok c n L E N H P KO v go S4 _ _ _ R4) as (S5 & Q5 & R5).
  destruct (minimize_ok c n L E N H P KO v go S5 _ _ fringe R5 Hf) as (S6 & mn & inner & Q6 & R6 & X6).
  { intros u Hu Q. apply (X4 u Hu) in Q as [A _]. rewrite act5. rewrite act3 in A. exact A. }
  destruct (receivers_ok c n L E N H P KO v go S6 _ _ _ _ R6) as (S7 & Q7 & R7).
  destruct (distances_ok c n L E N H P KO v go S7 _ _ _ _ _ max R7 Hmax) as (S8 & dist & Q8 & R8 & X8).
  destruct (flag_receivers_ok c n L E N H P KO v go S8 _ _ _ _ _ _ o R8 Go) as (S9 & Q9 & R9).
  eexists S9, _, dist. split; [|split; [|split]].
  - unfold assemble. apply (prog_ok_seq n _ _ S S0); [exact Q0|]. apply (prog_ok_seq n _ _ S0 S1); [exact Q1|]. apply (prog_ok_seq n _ _ S1 S2); [exact Q2|].
    apply (prog_ok_seq n _ _ S2 S3); [exact Q3|]. apply (prog_ok_seq n _ _ S3 S4); [exact Q4|]. apply (prog_ok_seq n _ _ S4 S5); [exact Q5|].
    apply (prog_ok_seq n _ _ S5 S6); [exact Q6|]. apply (prog_ok_seq n _ _ S6 S7); [exact Q7|]. apply (prog_ok_seq n _ _ S7 S8); [exact Q8|exact Q9].
  - apply (r_z _ _ _ _ _ _ _ S9 _ R9 Z_FLAGS _ eq_refl).
  - apply (r_z _ _ _ _ _ _ _ S9 _ R9 Z_DIST _ eq_refl).
  - apply (final_outcome infer fl v mn inner out _ fringe max dist X4 X6); [|exact X8]. intros u Hu. reflexivity.
Qed.
End Assembled.
