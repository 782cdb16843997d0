(** C100: geometry and state components. *)
From Coq Require Import List ZArith NArith Bool Sorting.Sorted.
From Verif Require Import DomainSpec GcoModel GcoSpec GcoProof GcoRun GcoEx.
Import ListNotations.
Local Open Scope Z_scope.

(** All ranks hold the same geometries and are told the same, in debug and release builds, as long as every grid that is destroyed has a geometry. *)
Theorem C100_exact : forall debug n h s, covered_run n h s -> exists c, crun debug n h = Some c /\ shows n c s.
Proof. exact gco_exact. Qed.
Print Assumptions C100_exact.

(** The specification says what happens after every legal call. *)
Theorem C100_total : forall n h s o, sp_run n h s -> clegal n s o -> exists s', sp_step s o s'.
Proof. exact gco_total. Qed.
Print Assumptions C100_total.

(** In release builds, the geometries (not what listeners are told) are right after all legal calls. *)
Theorem C100_release : forall n h s, sp_run n h s -> exists c, crun false n h = Some c /\ length (cd_ranks c) = n /\ cd_grids c = p_grids s /\
  forall r k, nth_error (cd_ranks c) r = Some k -> StronglySorted Z.lt (cr_recs k) /\ (forall g, In g (cr_recs k) <-> p_ids s g) /\
    (forall g, In g (map fst (cr_loc k)) <-> p_ids s g /\ exists at_, In (g, at_) (p_grids s) /\ at_ r = true).
Proof. exact gco_release. Qed.
Print Assumptions C100_release.

(** They are those that have been made and not dropped since. *)
Theorem C100_scan : forall n h s, sp_run n h s -> exists c, crun false n h = Some c /\ length (cd_ranks c) = n /\
  forall k, In k (cd_ranks c) -> forall g, In g (cr_recs k) <-> has_geometry g h False.
Proof. exact gco_scan. Qed.
Print Assumptions C100_scan.

(** Edits are announced once. *)
Theorem C100_once : forall debug n h s o s1 s2, covered_run n h s -> clegal n s o -> (forall ids, o = DropGrids ids -> forall g, In g ids -> p_ids s g) -> sp_step s o s1 ->
  (forall r g f, o <> Edit r g f) -> sp_step s1 Sync s2 -> p_log s2 = p_log s1 /\ exists c1 c2, crun debug n (h ++ [o]) = Some c1 /\ crun debug n (h ++ [o; Sync]) = Some c2 /\
    forall r k1 k2, nth_error (cd_ranks c1) r = Some k1 -> nth_error (cd_ranks c2) r = Some k2 -> cr_log k2 = cr_log k1.
Proof. exact gco_once. Qed.
Print Assumptions C100_once.

(** Destroying a grid that has no geometry stops debug builds, *)
Theorem C100_bare : forall n h s ids g, covered_run n h s -> (0 < n)%nat -> clegal n s (DropGrids ids) -> In g ids -> ~ p_ids s g -> crun true n (h ++ [DropGrids ids]) = None.
Proof. exact gco_bare. Qed.
Print Assumptions C100_bare.

(** and in release builds announces the end of a geometry that never was. *)
Theorem C100_ghost : forall n h s ids g, covered_run n h s -> clegal n s (DropGrids ids) -> In g ids -> ~ p_ids s g -> exists c, crun false n (h ++ [DropGrids ids]) = Some c /\
  forall k, In k (cd_ranks c) -> exists l b l', cr_log k = p_log s ++ l ++ (g, GDESTROY, b) :: l'.
Proof. exact gco_ghost. Qed.
Print Assumptions C100_ghost.

Theorem C100_bare_refuted : exists h s, sp_run 2 h s /\ p_log s = [] /\ crun true 2 h = None /\
  exists c, crun false 2 h = Some c /\ map cr_log (cd_ranks c) = [[(7, GDESTROY, true)]; [(7, GDESTROY, true)]].
Proof. exact gco_bare_refuted. Qed.
Print Assumptions C100_bare_refuted.

(** Two grids, one of them on both ranks, edited by both, then destroyed with its geometry; the other geometry is cleared. *)
Example C100_case : exists s, covered_run 2 hist s /\ p_grids s = p_grids hist_end /\ p_log s = p_log hist_end /\ forall g, ~ p_ids s g.
Proof. exact hist_run. Qed.
Example C100_case_model : exists c, crun true 2 hist = Some c /\ map cr_log (cd_ranks c) = [p_log hist_end; p_log hist_end] /\ map cr_recs (cd_ranks c) = [[]; []].
Proof. exact hist_model. Qed.
