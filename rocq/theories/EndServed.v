(** Importing XINTOUT files: both sides of every connection are there. *)
From Coq Require Import List ZArith QArith Bool Lia Permutation.
From Verif Require Import TupleModel RangeModel CartModel Base RangeProof CartProof DecompModel DecompProof NeighSpec NeighProof.
From Verif Require Import XinModel XinSpec MatModel MatSpec MatFile DistModel DistSpec DistProof ImpModel ImpSpec EndModel EndSpec EndLists EndProof EndMain.
Import ListNotations.
Local Open Scope Z_scope.

Lemma someone_reached c n own x : decomposed c n own -> (exists p, pt_in x p) ->
  (forall p k, pt_in x p -> (k < 3)%nat -> tget (c_per c) k = false -> tget (rb (c_range c)) k <= tget p k < tget (re (c_range c)) k) ->
  exists q, (q < n)%nat /\ reached c (own q) x.
Proof.
  intros D (p & Hp) F. destruct (rincludes (c_range c) x) eqn:I.
  - apply includes_spec in I. destruct (L_owner c n own D p (I p Hp)) as (q & Hq & O). exists q. split; [exact Hq|]. left. eauto.
  - assert (NI : ~ pt_subset x (c_range c)) by (rewrite <- includes_spec; congruence). pose proof D as D'. destruct D' as (_ & _ & Hok & _).
    destruct (periodic_adjust_full c p Hok) as (u & _ & Im & Ba). destruct (L_owner c n own D u) as (q & Hq & O).
    + apply pt_in_tget. intros d Hd. destruct (Im d Hd) as [I1 I2]. destruct (tget (c_per c) d) eqn:P.
      * specialize (Ba d Hd P). unfold per_len in Ba. destruct (c_stor c); rewrite ?P in Ba; lia.
      * rewrite (I2 eq_refl). apply F; auto.
    + exists q. split; [exact Hq|]. right. split; [exact NI|]. exists p, u. auto.
Qed.
Lemma has_key {A B} (l : list (A * B)) k : In k (map fst l) -> exists v, In (k, v) l.
Proof. intros H. apply in_map_iff in H as ((a & b) & <- & H). eauto. Qed.

Theorem both_sides n gs gr c own (O : nat -> nat -> imported) : consistent gs -> laid_out n gs gr c own ->
  (forall i q, (i < length gs)%nat -> (q < length (gr i))%nat -> as_in_files gs (c i) (own i q) i (O i q)) ->
  forall i g k d, nth_error gs i = Some g -> nth_error (g_donors g) k = Some d -> exists j h y, nth_error gs j = Some h /\ In y (g_receivers h) /\ r_connection y = g_first g + Z.of_nat k /\
    ((exists p, pt_in (cell_of d) p) -> exists q m, (q < length (gr i))%nat /\ In (Z.of_nat j + 1, m) (fst (O i q)) /\ In (stored (cm_max m) (donor_read d, (Z.of_nat j + 1, r_point y))) (cm_cells m)) /\
    (exists q l, (q < length (gr j))%nat /\ In (Z.of_nat i + 1, l) (snd (O j q)) /\ In (r_point y, (Z.of_nat i + 1, d_cell d)) l).
Proof.
  intros Hc LO HO i g k d Hg Hk. destruct (donor_link gs Hc i g k d Hg Hk) as (j & h & y & Hj & Hy & E & P1 & P2). exists j, h, y. split; [exact Hj|]. split; [exact Hy|]. split; [exact E|].
  assert (Hi : (i < length gs)%nat) by (apply nth_error_Some; congruence). assert (Hjl : (j < length gs)%nat) by (apply nth_error_Some; congruence).
  assert (J : joined gs (Z.of_nat i + 1) j).
  { exists (r_point y, place_of (file_donors gs) (r_connection y)). split; [apply in_receiver_links; eauto|]. unfold gid. cbn [snd]. now rewrite P2. }
  split.
  - intros Hp. destruct (someone_reached (c i) (length (gr i)) (own i) (cell_of d) (lo_range _ _ _ _ _ LO i Hi) Hp) as (q & Hq & R).
    { intros p kd Hp'. apply (lo_cells _ _ _ _ _ LO i g d p kd Hg (nth_error_In _ _ Hk) Hp'). }
    destruct (HO i q Hi Hq) as (_ & _ & A3 & _ & A5 & _). destruct (has_key _ (Z.of_nat j + 1) (proj2 (A3 (Z.of_nat j + 1)) (ex_intro _ j (conj eq_refl J)))) as (m & Hm).
    exists q, m. split; [exact Hq|]. split; [exact Hm|]. destruct (A5 _ _ Hm) as (l & Cl & P & _). apply (Permutation_in _ (Permutation_sym P)). apply in_map_iff.
    exists (d, (Z.of_nat j + 1, r_point y)). split; [reflexivity|]. apply (chosen_In _ _ _ _ Cl). split; [|split; [reflexivity|exact R]].
    apply in_donor_links. exists g, k, d. rewrite P1. auto.
  - destruct (L_owner (c j) (length (gr j)) (own j) (lo_range _ _ _ _ _ LO j Hjl) (r_point y) (lo_points _ _ _ _ _ LO j h y Hj Hy)) as (q & Hq & I).
    destruct (HO j q Hjl Hq) as (_ & _ & _ & A4 & _ & A6). destruct (has_key _ (Z.of_nat i + 1) (proj2 (A4 (Z.of_nat i + 1)) J)) as (l & Hl).
    exists q, l. split; [exact Hq|]. split; [exact Hl|]. destruct (A6 _ _ Hl) as (l2 & Cl & P). apply (Permutation_in _ (Permutation_sym P)). apply (chosen_In _ _ _ _ Cl).
    split; [|split; [reflexivity|exact I]]. apply in_receiver_links. exists h, y. rewrite P2. auto.
Qed.
