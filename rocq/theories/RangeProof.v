(** Specifications and proofs for ranges. *)
From Coq Require Import List ZArith Bool Lia ZifyBool ZifyNat.
From Verif Require Import TupleModel RangeModel Base.
Import ListNotations.
Open Scope Z_scope.

(** Specification: the point set of a range, a subset of Z^3, written without
    any function of the model. *)
Definition pt_in (r : range) (p : tup Z) : Prop :=
  (c0 (rb r) <= c0 p < c0 (re r)) /\ (c1 (rb r) <= c1 p < c1 (re r)) /\
  (c2 (rb r) <= c2 p < c2 (re r)).

Definition pt_subset (r s : range) : Prop := forall p, pt_in r p -> pt_in s p.

Ltac destr_tups :=
  repeat match goal with
         | r : range |- _ =>
             let b := fresh "b" in let e := fresh "e" in destruct r as [b e]
         | t : tup _ |- _ =>
             let x := fresh "x" in let y := fresh "y" in let z := fresh "z" in
             destruct t as [x y z]
         end.

Ltac rcrush :=
  destr_tups;
  unfold pt_in, rcontains, rincludes, ranges_overlap, union_ranges,
    intersect_ranges, extend_range, clamp_to_range in *;
  unfold rempty in *; unfold tall, tany, tmake, tget in *;
  cbn [rb re c0 c1 c2] in *.

Lemma rcontains_spec r p : rcontains r p = true <-> pt_in r p.
Proof. rcrush; lia. Qed.

Lemma rempty_spec r : rempty r = true <-> (forall p, ~ pt_in r p).
Proof.
  split.
  - intros H p Hp; rcrush; lia.
  - intros H. specialize (H (rb r)). rcrush; lia.
Qed.

Lemma rempty_false r : rempty r = false <-> pt_in r (rb r).
Proof. rcrush; lia. Qed.

Lemma rempty_false_ex r : rempty r = false <-> exists p, pt_in r p.
Proof.
  split.
  - intros H; exists (rb r); apply rempty_false; auto.
  - intros [p Hp]; rcrush; lia.
Qed.

Lemma intersect_spec l r p : pt_in (intersect_ranges l r) p <-> pt_in l p /\ pt_in r p.
Proof. rcrush; lia. Qed.

Lemma overlap_spec l r : ranges_overlap l r = true <-> exists p, pt_in l p /\ pt_in r p.
Proof.
  split.
  - intros H.
    exists (rb (intersect_ranges l r)).
    rcrush; b2p; lia.
  - intros [p [Hl Hr]]; rcrush; lia.
Qed.

Lemma includes_spec r o : rincludes r o = true <-> pt_subset o r.
Proof.
  split.
  - intros H p Hp; rcrush; lia.
  - intros H.
    unfold rincludes; destruct (rempty o) eqn:E; [reflexivity|cbn [orb]].
    assert (Hb : pt_in r (rb o)) by (apply H; apply rempty_false; exact E).
    assert (He : pt_in r (tmake (fun d => tget (re o) d - 1))).
    { apply H. rcrush; lia. }
    clear H; rcrush; lia.
Qed.

Lemma union_upper_l l r : pt_subset l (union_ranges l r).
Proof.
  intros p Hp; unfold union_ranges.
  destruct (rempty l) eqn:El.
  - exfalso; eapply rempty_spec; eauto.
  - destruct (rempty r) eqn:Er; [exact Hp|]. clear El Er; rcrush; lia.
Qed.

Lemma union_upper_r l r : pt_subset r (union_ranges l r).
Proof.
  intros p Hp; unfold union_ranges.
  destruct (rempty l) eqn:El; [exact Hp|].
  destruct (rempty r) eqn:Er.
  - exfalso; eapply rempty_spec; eauto.
  - clear El Er; rcrush; lia.
Qed.

Definition hull3 (l r : range) : range :=
  mkR (tmake (fun d => Z.min (tget (rb l) d) (tget (rb r) d)))
      (tmake (fun d => Z.max (tget (re l) d) (tget (re r) d))).

Lemma subset_bounds o r : rempty o = false -> pt_subset o r ->
  (c0 (rb r) <= c0 (rb o) /\ c0 (re o) <= c0 (re r)) /\
  (c1 (rb r) <= c1 (rb o) /\ c1 (re o) <= c1 (re r)) /\
  (c2 (rb r) <= c2 (rb o) /\ c2 (re o) <= c2 (re r)).
Proof.
  intros E H.
  assert (Hi : rincludes r o = true) by (apply includes_spec; exact H).
  unfold rincludes in Hi; rewrite E in Hi; clear H; rcrush; lia.
Qed.

Lemma union_least l r s : pt_subset l s -> pt_subset r s -> pt_subset (union_ranges l r) s.
Proof.
  intros Hl Hr p Hp; unfold union_ranges in Hp.
  destruct (rempty l) eqn:El; [auto|].
  destruct (rempty r) eqn:Er; [auto|].
  pose proof (subset_bounds l s El Hl) as Bl.
  pose proof (subset_bounds r s Er Hr) as Br.
  clear Hl Hr El Er; rcrush; lia.
Qed.

Lemma extend_contains r p : pt_in (extend_range r p) p.
Proof. unfold extend_range; destruct (rempty r) eqn:E; cbn [negb]; clear E; rcrush; lia. Qed.

Lemma extend_upper r p : pt_subset r (extend_range r p).
Proof.
  intros q Hq; unfold extend_range; destruct (rempty r) eqn:E; cbn [negb].
  - exfalso; eapply rempty_spec; eauto.
  - clear E; rcrush; lia.
Qed.

Lemma extend_least r p s : pt_subset r s -> pt_in s p -> pt_subset (extend_range r p) s.
Proof.
  intros Hr Hp q Hq; unfold extend_range in Hq; destruct (rempty r) eqn:E; cbn [negb] in Hq.
  - clear Hr E; rcrush; lia.
  - pose proof (subset_bounds r s E Hr) as B; clear Hr E; rcrush; lia.
Qed.

Lemma make_empty_range_empty nd : (1 <= nd)%nat -> rempty (make_empty_range nd) = true.
Proof.
  intros H; destruct nd as [|nd]; [lia|reflexivity].
Qed.

(** Counting *)
Lemma rcount_empty r : rcount r = 0 <-> rempty r = true.
Proof.
  unfold rcount, rsize1, rempty, tany; destr_tups; cbn [rb re tget c0 c1 c2]; nia.
Qed.

Lemma foreach_row_In r p : In p (foreach_row r) <-> pt_in r p.
Proof.
  unfold foreach_row; rewrite in_flat_map; split.
  - intros [i [Hi H]]; apply in_flat_map in H as [j [Hj H]];
      apply in_map_iff in H as [k [<- Hk]].
    rewrite zrange_In in *; unfold pt_in; cbn; auto.
  - intros [H0 [H1 H2]]. exists (c0 p); rewrite zrange_In; split; auto.
    apply in_flat_map; exists (c1 p); rewrite zrange_In; split; auto.
    apply in_map_iff; exists (c2 p); rewrite zrange_In; split; auto.
    destruct p; reflexivity.
Qed.

Lemma foreach_col_In r p : In p (foreach_col r) <-> pt_in r p.
Proof.
  unfold foreach_col; rewrite in_flat_map; split.
  - intros [i [Hi H]]; apply in_flat_map in H as [j [Hj H]];
      apply in_map_iff in H as [k [<- Hk]].
    rewrite zrange_In in *; unfold pt_in; cbn; auto.
  - intros [H0 [H1 H2]]. exists (c2 p); rewrite zrange_In; split; auto.
    apply in_flat_map; exists (c1 p); rewrite zrange_In; split; auto.
    apply in_map_iff; exists (c0 p); rewrite zrange_In; split; auto.
    destruct p; reflexivity.
Qed.

Lemma foreach_row_NoDup r : NoDup (foreach_row r).
Proof.
  unfold foreach_row; apply NoDup_flat_map; [apply zrange_NoDup| |].
  - intros i _; apply NoDup_flat_map; [apply zrange_NoDup| |].
    + intros j _; apply NoDup_map_inj; [congruence|apply zrange_NoDup].
    + intros j j' b _ _ H H'; apply in_map_iff in H as [k [<- _]];
        apply in_map_iff in H' as [k' [E _]]; congruence.
  - intros i i' b _ _ H H'.
    apply in_flat_map in H as [j [_ H]]; apply in_map_iff in H as [k [<- _]].
    apply in_flat_map in H' as [j' [_ H']]; apply in_map_iff in H' as [k' [E _]].
    congruence.
Qed.

Lemma foreach_col_NoDup r : NoDup (foreach_col r).
Proof.
  unfold foreach_col; apply NoDup_flat_map; [apply zrange_NoDup| |].
  - intros i _; apply NoDup_flat_map; [apply zrange_NoDup| |].
    + intros j _; apply NoDup_map_inj; [congruence|apply zrange_NoDup].
    + intros j j' b _ _ H H'; apply in_map_iff in H as [k [<- _]];
        apply in_map_iff in H' as [k' [E _]]; congruence.
  - intros i i' b _ _ H H'.
    apply in_flat_map in H as [j [_ H]]; apply in_map_iff in H as [k [<- _]].
    apply in_flat_map in H' as [j' [_ H']]; apply in_map_iff in H' as [k' [E _]].
    congruence.
Qed.

Lemma rsize1_nat r d : rsize1 r d = Z.of_nat (Z.to_nat (tget (re r) d - tget (rb r) d)).
Proof. unfold rsize1; lia. Qed.

Lemma foreach_row_length r : Z.of_nat (length (foreach_row r)) = rcount r.
Proof.
  unfold foreach_row, rcount; rewrite !rsize1_nat.
  rewrite flat_map_length_const with
    (n := (Z.to_nat (c1 (re r) - c1 (rb r)) * Z.to_nat (c2 (re r) - c2 (rb r)))%nat).
  - rewrite zrange_length; cbn [tget]; lia.
  - intros i _. rewrite flat_map_length_const with (n := Z.to_nat (c2 (re r) - c2 (rb r))).
    + rewrite zrange_length; reflexivity.
    + intros j _; rewrite map_length, zrange_length; reflexivity.
Qed.

Lemma foreach_col_length r : Z.of_nat (length (foreach_col r)) = rcount r.
Proof.
  unfold foreach_col, rcount; rewrite !rsize1_nat.
  rewrite flat_map_length_const with
    (n := (Z.to_nat (c1 (re r) - c1 (rb r)) * Z.to_nat (c0 (re r) - c0 (rb r)))%nat).
  - rewrite zrange_length; cbn [tget]; lia.
  - intros i _. rewrite flat_map_length_const with (n := Z.to_nat (c0 (re r) - c0 (rb r))).
    + rewrite zrange_length; reflexivity.
    + intros j _; rewrite map_length, zrange_length; reflexivity.
Qed.

(** Clamping *)
Lemma clamp_in r p : rempty r = false -> pt_in r (clamp_to_range r p).
Proof.
  intros E; unfold clamp_to_range, pt_in, tmake; cbn [c0 c1 c2].
  unfold rempty, tany in E.
  destr_tups; cbn [rb re c0 c1 c2 tget] in *.
  repeat match goal with |- context [if ?b then _ else _] => destruct b eqn:? end; lia.
Qed.

Lemma clamp_fixed r p : pt_in r p -> clamp_to_range r p = p.
Proof.
  intros Hp; unfold clamp_to_range, tmake; apply tup_eq; destr_tups;
    unfold pt_in in Hp; cbn [rb re c0 c1 c2 tget] in *;
    repeat match goal with |- context [if ?b then _ else _] => destruct b eqn:? end; lia.
Qed.

Lemma clamp_nearest r p q d : rempty r = false -> pt_in r q -> (d < 3)%nat ->
  Z.abs (tget (clamp_to_range r p) d - tget p d) <= Z.abs (tget q d - tget p d).
Proof.
  intros E Hq Hd; unfold clamp_to_range; rewrite tget_tmake by exact Hd.
  unfold pt_in in Hq.
  destruct d as [|[|[|d]]]; try lia; destr_tups; cbn [rb re c0 c1 c2 tget] in *;
    repeat match goal with |- context [if ?b then _ else _] => destruct b eqn:? end; lia.
Qed.

(** Uniform cells *)
Lemma floor_cell_spec o s p : 0 < s ->
  exists c, floor_cell o s p = Some c /\ o + c * s <= p < o + (c + 1) * s.
Proof.
  intros Hs; unfold floor_cell.
  destruct (Z.eqb_spec s 0); [lia|].
  eexists; split; [reflexivity|].
  rewrite quot_floor by exact Hs.
  pose proof (Z.div_mod (p - o) s ltac:(lia)).
  pose proof (Z.mod_pos_bound (p - o) s Hs). nia.
Qed.

Lemma floor_cell_unique o s p c : 0 < s ->
  o + c * s <= p < o + (c + 1) * s -> floor_cell o s p = Some c.
Proof.
  intros Hs Hc.
  destruct (floor_cell_spec o s p Hs) as [c' [-> Hc']].
  f_equal; nia.
Qed.

Lemma floor_cell_mono o s p q c c' : 0 < s -> p <= q ->
  floor_cell o s p = Some c -> floor_cell o s q = Some c' -> c <= c'.
Proof.
  intros Hs Hpq H H'.
  destruct (floor_cell_spec o s p Hs) as [x [Hx Bx]].
  destruct (floor_cell_spec o s q Hs) as [y [Hy By]].
  assert (x = c) by congruence; assert (y = c') by congruence; subst. nia.
Qed.

Lemma uniform_cell_spec nd o s p : (nd <= 3)%nat ->
  (forall d, (d < nd)%nat -> 0 < tget s d) ->
  exists c, map_to_uniform_grid_cell nd o s p = Some c /\
    (forall d, (d < nd)%nat ->
       tget o d + tget c d * tget s d <= tget p d < tget o d + (tget c d + 1) * tget s d) /\
    (forall d, (nd <= d < 3)%nat -> tget c d = 0).
Proof.
  intros Hnd Hs.
  assert (H : forall d, (d < 3)%nat -> exists x,
    (if Nat.ltb d nd then floor_cell (tget o d) (tget s d) (tget p d) else Some 0) = Some x /\
    ((d < nd)%nat -> tget o d + x * tget s d <= tget p d < tget o d + (x + 1) * tget s d) /\
    ((nd <= d)%nat -> x = 0)).
  { intros d Hd; destruct (Nat.ltb_spec d nd) as [Hl|Hl].
    - destruct (floor_cell_spec (tget o d) (tget s d) (tget p d) (Hs d Hl)) as [x [E B]].
      exists x; repeat split; auto; lia.
    - exists 0; repeat split; auto; lia. }
  destruct (H 0%nat ltac:(lia)) as [x [Ex [Bx Zx]]].
  destruct (H 1%nat ltac:(lia)) as [y [Ey [By Zy]]].
  destruct (H 2%nat ltac:(lia)) as [z [Ez [Bz Zz]]].
  exists (T3 x y z); unfold map_to_uniform_grid_cell.
  rewrite Ex, Ey, Ez; split; [reflexivity|split].
  - intros d Hd; destruct d as [|[|[|d]]]; cbn [tget c0 c1 c2] in *; auto; lia.
  - intros d Hd; destruct d as [|[|[|d]]]; cbn [tget c0 c1 c2] in *;
      [apply Zx|apply Zy|apply Zz|]; lia.
Qed.

Lemma uniform_cell_unique nd o s p c c' : (nd <= 3)%nat ->
  (forall d, (d < nd)%nat -> 0 < tget s d) ->
  map_to_uniform_grid_cell nd o s p = Some c ->
  (forall d, (d < nd)%nat ->
     tget o d + tget c' d * tget s d <= tget p d < tget o d + (tget c' d + 1) * tget s d) ->
  forall d, (d < nd)%nat -> tget c' d = tget c d.
Proof.
  intros Hnd Hs H H' d Hd.
  destruct (uniform_cell_spec nd o s p Hnd Hs) as [c'' [E [B _]]].
  assert (c'' = c) by congruence; subst c''.
  specialize (B d Hd); specialize (H' d Hd); specialize (Hs d Hd); nia.
Qed.
