(** Cases and counterexamples for geometry and state components. *)
From Coq Require Import List ZArith NArith Bool Lia Sorting.Sorted.
From Verif Require Import DomainModel DomainSpec DomainProof GcoModel GcoSpec GcoProof GcoRun.
Import ListNotations.
Local Open Scope Z_scope.

Lemma gco_exact debug n h s : covered_run n h s -> exists c, crun debug n h = Some c /\ shows n c s.
Proof. intros R. destruct (run_covered debug n h s R) as (c & recs & E & I & LG). exists c. split; [exact E|]. apply (inv_shows n c s recs I LG). Qed.
Lemma gco_total n h s o : sp_run n h s -> clegal n s o -> exists s', sp_step s o s'.
Proof. intros R L. destruct (run_release n h s R) as (c & recs & _ & I). apply (step_total n c s recs o I L). Qed.
Lemma gco_release n h s : sp_run n h s -> exists c, crun false n h = Some c /\ length (cd_ranks c) = n /\ cd_grids c = p_grids s /\
  forall r k, nth_error (cd_ranks c) r = Some k -> StronglySorted Z.lt (cr_recs k) /\ (forall g, In g (cr_recs k) <-> p_ids s g) /\
    (forall g, In g (map fst (cr_loc k)) <-> p_ids s g /\ exists at_, In (g, at_) (p_grids s) /\ at_ r = true).
Proof.
  intros R. destruct (run_release n h s R) as (c & recs & E & I). exists c. split; [exact E|]. split; [apply (i_len _ _ _ _ I)|]. split; [apply (i_grids _ _ _ _ I)|].
  intros r k Hk. destruct (i_rank _ _ _ _ I r k Hk) as [Er L]. rewrite Er. split; [apply (i_ss _ _ _ _ I)|]. split; [apply (i_recs _ _ _ _ I)|exact L].
Qed.

Lemma covered_legal n h s : covered_run n h s -> sp_run n h s.
Proof. induction 1; [constructor|]. econstructor; eauto. Qed.

Lemma has_geometry_snoc g h o : forall b, has_geometry g (h ++ [o]) b = has_geometry g [o] (has_geometry g h b).
Proof. induction h as [|x h IH]; intros b; [reflexivity|]. cbn [app has_geometry]. rewrite IH. reflexivity. Qed.
Lemma spec_ids n h s : sp_run n h s -> forall g, p_ids s g <-> has_geometry g h False.
Proof.
  induction 1 as [|h s o s' R IH L St]; intros g; [cbn; tauto|]. rewrite has_geometry_snoc. cbn [has_geometry]. destruct St; cbn [p_ids]; rewrite ?IH; tauto.
Qed.
Lemma gco_scan n h s : sp_run n h s -> exists c, crun false n h = Some c /\ length (cd_ranks c) = n /\
  forall k, In k (cd_ranks c) -> forall g, In g (cr_recs k) <-> has_geometry g h False.
Proof.
  intros R. destruct (gco_release n h s R) as (c & E & L & _ & K). exists c. split; [exact E|]. split; [exact L|]. intros k Hk g. destruct (in_rank _ _ Hk) as [r Hr]. rewrite <- (spec_ids n h s R). apply (K r k Hr).
Qed.

(** Edits are announced once: nothing is pending after any call except an edit. *)
Lemma gco_once debug n h s o s1 s2 : covered_run n h s -> clegal n s o -> (forall ids, o = DropGrids ids -> forall g, In g ids -> p_ids s g) -> sp_step s o s1 ->
  (forall r g f, o <> Edit r g f) -> sp_step s1 Sync s2 -> p_log s2 = p_log s1 /\ exists c1 c2, crun debug n (h ++ [o]) = Some c1 /\ crun debug n (h ++ [o; Sync]) = Some c2 /\
    forall r k1 k2, nth_error (cd_ranks c1) r = Some k1 -> nth_error (cd_ranks c2) r = Some k2 -> cr_log k2 = cr_log k1.
Proof.
  intros R L C S1 Ne S2. assert (E : p_log s2 = p_log s1).
  { assert (P0 : forall g, p_pend s1 g = 0%N) by (destruct S1; cbn; auto; exfalso; eapply Ne; reflexivity). inversion S2 as [| | | | | |ed Ed]; subst. cbn [p_log]. destruct Ed as (es & -> & _ & I).
    destruct es as [|g es]; [cbn; apply app_nil_r|]. exfalso. apply (proj2 (proj1 (I g) (or_introl eq_refl))), P0. }
  split; [exact E|]. pose proof (CSnoc n h s o s1 R L C S1) as R1.
  assert (R2 : covered_run n ((h ++ [o]) ++ [Sync]) s2) by (apply (CSnoc n _ s1 Sync s2 R1); [exact Logic.I|discriminate|exact S2]).
  destruct (gco_exact debug _ _ _ R1) as (c1 & E1 & _ & _ & K1). destruct (gco_exact debug _ _ _ R2) as (c2 & E2 & _ & _ & K2). exists c1, c2. split; [exact E1|]. split; [rewrite <- app_assoc in E2; exact E2|].
  intros r k1 k2 H1 H2. destruct (K1 r k1 H1) as (_ & _ & _ & A). destruct (K2 r k2 H2) as (_ & _ & _ & B). congruence.
Qed.

(** * A case: two grids on two ranks, one of them on both; edits by both ranks *)
Definition both : nat -> bool := fun _ => true.
Definition first : nat -> bool := Nat.eqb 0.
Definition hist : list cop := [NewGrids [(7, both); (4, first)]; Make [7; 4]; Edit 0 4 8; Edit 1 7 4; Edit 0 7 8; DropGrids [7]; DropAll].
Definition hist_end : sp := SP [(4, first)] (fun _ => False) (fun _ => 0%N)
  [(7, GCREATE, false); (4, GCREATE, true); (4, 8%N, false); (7, 12%N, true); (7, GDESTROY, true); (4, GDESTROY, true)].

Lemma ev_none (ids : Z -> Prop) p : (forall g, ids g -> p g = 0%N) -> edit_events_of ids p [].
Proof. intros H. exists []. split; [reflexivity|]. split; [constructor|]. intros g. split; [intros []|]. intros [A B]. exfalso. auto. Qed.
Ltac sorted := repeat (constructor; cbn; try lia).

Lemma hist_run : exists s, covered_run 2 hist s /\ p_grids s = p_grids hist_end /\ p_log s = p_log hist_end /\ forall g, ~ p_ids s g.
Proof.
  set (s1 := SP ([] ++ [(7, both); (4, first)]) (fun _ : Z => False) (fun _ => 0%N) ([] ++ [])).
  assert (S1 : sp_step sp0 (NewGrids [(7, both); (4, first)]) s1) by (apply (SNew sp0 _ []), ev_none; intros g []).
  assert (R1 : covered_run 2 ([] ++ [NewGrids [(7, both); (4, first)]]) s1).
  { eapply CSnoc; [constructor| |discriminate|exact S1]. split; [discriminate|]. split; [repeat constructor; cbn; intuition lia|]. cbn. intros g H. split; [intuition lia|intros []]. }
  set (s2 := SP (p_grids s1) (fun g => p_ids s1 g \/ In g [7; 4]) (fun _ => 0%N) (p_log s1 ++ [] ++ mark_last (map (fun g => (g, GCREATE)) [7; 4]))).
  assert (R2 : covered_run 2 (([] ++ [NewGrids [(7, both); (4, first)]]) ++ [Make [7; 4]]) s2).
  { eapply CSnoc; [exact R1| |discriminate|]. { split; [repeat constructor; cbn; intuition lia|]. cbn. intros g H. split; [intuition lia|tauto]. } apply (SMake s1), ev_none. reflexivity. }
  assert (Ids : forall g, p_ids s2 g <-> g = 7 \/ g = 4) by (intros g; cbn; intuition lia).
  eassert (R3 : covered_run 2 ((([] ++ [_]) ++ [_]) ++ [Edit 0 4 8]) _).
  { eapply CSnoc; [exact R2| |discriminate|apply SEdit]. split; [lia|]. split; [apply Ids; auto|]. exists first. split; [cbn; auto|reflexivity]. }
  eassert (R4 : covered_run 2 (_ ++ [Edit 1 7 4]) _).
  { eapply CSnoc; [exact R3| |discriminate|apply SEdit]. split; [lia|]. split; [apply Ids; auto|]. exists both. split; [cbn; auto|reflexivity]. }
  eassert (R5 : covered_run 2 (_ ++ [Edit 0 7 8]) _).
  { eapply CSnoc; [exact R4| |discriminate|apply SEdit]. split; [lia|]. split; [apply Ids; auto|]. exists both. split; [cbn; auto|reflexivity]. }
  eassert (R6 : covered_run 2 (_ ++ [DropGrids [7]]) _).
  { eapply CSnoc; [exact R5| | |eapply (SDropGrids _ [7] (mark_last [(4, 8%N); (7, 12%N)]) [7])].
    - split; [discriminate|]. split; [repeat constructor; cbn; intuition lia|]. cbn. intuition lia.
    - intros ids E g H. injection E as <-. destruct H as [<-|[]]. apply Ids. auto.
    - exists [4; 7]. split; [reflexivity|]. split; [sorted|]. intros g. cbn [p_ids p_pend]. rewrite Ids. cbn [In]. split.
      + intros [<-|[<-|[]]]; (split; [tauto|vm_compute; discriminate]).
      + intuition lia.
    - sorted.
    - intros g. cbn [p_ids]. rewrite Ids. cbn [In]. intuition lia. }
  eassert (R7 : covered_run 2 (_ ++ [DropAll]) _).
  { eapply CSnoc; [exact R6|exact Logic.I|discriminate|eapply (SDropAll _ [] [4])].
    - apply ev_none. reflexivity.
    - sorted.
    - intros g. cbn [p_ids]. rewrite Ids. cbn [In]. intuition lia. }
  eexists. split; [exact R7|]. split; [reflexivity|]. split; [reflexivity|]. intros g []. 
Qed.
(** The same on the model *)
Lemma hist_model : exists c, crun true 2 hist = Some c /\ map cr_log (cd_ranks c) = [p_log hist_end; p_log hist_end] /\ map cr_recs (cd_ranks c) = [[]; []].
Proof. eexists. split; [vm_compute; reflexivity|]. split; reflexivity. Qed.

(** * Destroying a grid that has no geometry *)
Definition bare : list cop := [NewGrids [(7, both)]; DropGrids [7]].
Lemma bare_run n : exists s, sp_run n bare s /\ p_log s = [].
Proof.
  set (s1 := SP ([] ++ [(7, both)]) (fun _ : Z => False) (fun _ => 0%N) ([] ++ [])).
  assert (S1 : sp_step sp0 (NewGrids [(7, both)]) s1) by (apply (SNew sp0 _ []), ev_none; intros g []).
  assert (R1 : sp_run n ([] ++ [NewGrids [(7, both)]]) s1).
  { eapply RSnoc; [constructor| |exact S1]. split; [discriminate|]. split; [repeat constructor; cbn; intuition lia|]. cbn. intros g H. split; [intuition lia|intros []]. }
  eexists. split.
  { change bare with (([] ++ [NewGrids [(7, both)]]) ++ [DropGrids [7]]). eapply RSnoc; [exact R1| |eapply (SDropGrids _ [7] [] [])].
    - split; [discriminate|]. split; [repeat constructor; cbn; intuition lia|]. cbn. intuition lia.
    - apply ev_none. reflexivity.
    - constructor.
    - intros g. cbn. tauto. }
  reflexivity.
Qed.
Lemma gco_bare_refuted : exists h s, sp_run 2 h s /\ p_log s = [] /\ crun true 2 h = None /\
  exists c, crun false 2 h = Some c /\ map cr_log (cd_ranks c) = [[(7, GDESTROY, true)]; [(7, GDESTROY, true)]].
Proof.
  destruct (bare_run 2) as (s & R & E). exists bare, s. split; [exact R|]. split; [exact E|]. split; [vm_compute; reflexivity|]. eexists. split; [vm_compute; reflexivity|]. reflexivity.
Qed.
(** In general: the call stops in debug builds. *)
Lemma gco_bare n h s ids g : covered_run n h s -> (0 < n)%nat -> clegal n s (DropGrids ids) -> In g ids -> ~ p_ids s g -> crun true n (h ++ [DropGrids ids]) = None.
Proof.
  intros R Hn L Hg N. destruct (run_covered true n h s R) as (c & recs & E & I & _). unfold crun in *. rewrite ofold_app, E. cbn [ofold cstep]. unfold cdying, cdestroy.
  destruct (insz_all ids [] (SSorted_nil _)) as [_ Ix]. set (dy := fold_left (fun l g => insz g l) ids []) in *.
  match goal with |- context [forallb ?f dy] => replace (forallb f dy) with false end; [reflexivity|].
  symmetry. apply not_true_iff_false. intros T. rewrite forallb_forall in T. specialize (T g (proj2 (Ix g) (or_introl Hg))). apply andb_true_iff in T. destruct T as [_ T]. rewrite forallb_forall in T.
  destruct (cd_ranks c) as [|k ks] eqn:Ec; [pose proof (i_len _ _ _ _ I) as X; rewrite Ec in X; cbn in X; lia|]. specialize (T k (or_introl eq_refl)). apply memz_In in T.
  destruct (i_rank _ _ _ _ I 0%nat k ltac:(rewrite Ec; reflexivity)) as [Er _]. rewrite Er in T. apply N, (i_recs _ _ _ _ I), T.
Qed.
(** In release builds, listeners are told of geometries that never were. *)
Lemma gco_ghost n h s ids g : covered_run n h s -> clegal n s (DropGrids ids) -> In g ids -> ~ p_ids s g -> exists c, crun false n (h ++ [DropGrids ids]) = Some c /\
  forall k, In k (cd_ranks c) -> exists l b l', cr_log k = p_log s ++ l ++ (g, GDESTROY, b) :: l'.
Proof.
  intros R L Hg N. destruct (run_covered false n h s R) as (c & recs & E & I & LG). unfold crun in *. rewrite ofold_app, E. cbn [ofold cstep]. unfold cdying.
  destruct (insz_all ids [] (SSorted_nil _)) as [_ Ix]. set (dy := fold_left (fun l g => insz g l) ids []) in *.
  pose proof (inv_destroy false n c s recs (cd_grids c) dy I) as D. rewrite cd_eta in D. rewrite D; [|discriminate|rewrite (i_grids _ _ _ _ I); apply (i_pos _ _ _ _ I)].
  eexists. split; [reflexivity|]. cbn [cd_ranks]. intros k' Hk'. destruct (in_rank _ _ Hk') as [r Hr]. destruct (nth_map2 _ _ _ _ _ Hr) as (k & Hk & ->). destruct (destroyed_rank n c s recs dy r k I Hk) as (_ & _ & _ & El).
  rewrite El, (LG k (nth_error_In _ _ Hk)). assert (Hd : In g dy) by (apply Ix; left; exact Hg). destruct (in_split _ _ Hd) as (d1 & d2 & ->). clear.
  assert (X : exists l b l', mark_last (map (fun g => (g, GDESTROY)) (d1 ++ g :: d2)) = l ++ (g, GDESTROY, b) :: l').
  { induction d1 as [|x d1 IH]; cbn [app map]; [rewrite mark_last_cons; eexists [], _, _; reflexivity|]. destruct IH as (l & b & l' & E). rewrite mark_last_cons, E. eexists (_ :: l), b, l'. reflexivity. }
  destruct X as (l & b & l' & ->). exists (told (p_pend s) recs ++ l), b, l'. rewrite <- !app_assoc. reflexivity.
Qed.
