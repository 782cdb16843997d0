(** Claim C86. *)
From Coq Require Import List ZArith QArith Bool Lia.
From Verif Require Import TupleModel RangeModel RangeProof CartModel CartProof FieldSpec AsmSpec NeighSpec OccModel OccSpec OccProof OccLaws OccEx.
Import ListNotations.
Local Open Scope Z_scope.

(** The points of a grid that come out as occluded, for all overlaps, volumes and options, whatever the memory for values that are not
    set contains. *)
Theorem C86_result X junk : odata_ok X -> complete X -> exists r, detect_occluded X junk = Some r /\ result_is X r (occluded X).
Proof. exact (detect_ok X junk). Qed.
Print Assumptions C86_result.

(** It does not work if one of two grids that are asked to occlude each other overlaps the other, but is not overlapped by it. *)
Theorem C86_complete X junk r : odata_ok X -> detect_occluded X junk = Some r -> complete X.
Proof. exact (detect_needs X junk r). Qed.
Print Assumptions C86_complete.

Theorem C86_complete_refuted : exists X junk, odata_ok X /\ (forall k, od_occludes X k = O_COARSE) /\ detect_occluded X junk = None.
Proof. exact (ex_intro _ patch (ex_intro _ none (conj patch_ok (conj (fun _ => eq_refl) patch_fails)))). Qed.
Print Assumptions C86_complete_refuted.

(** An occluded point lies in a cell of a grid that is asked to occlude its grid. *)
Theorem C86_cell X junk r : odata_ok X -> detect_occluded X junk = Some r -> forall g m p, In (g, m) r -> pt_in (c_range (od_cart X g)) p -> m p = true ->
  exists k, occluding X (k, g) /\ od_vertices X (k, g) p <> None.
Proof. exact (occluded_cell X junk r). Qed.
Print Assumptions C86_cell.

(** A grid that is asked to occlude coarser points, and that is not itself to be occluded like that, occludes only coarser points. *)
Theorem C86_coarse_partial X junk r : odata_ok X -> detect_occluded X junk = Some r -> forall g m p, In (g, m) r -> pt_in (c_range (od_cart X g)) p ->
  (forall k, occluding X (k, g) -> od_occludes X (k, g) = O_COARSE /\ od_occludes X (g, k) <> O_COARSE) ->
  m p = true -> exists k, occluding X (k, g) /\ coarser X (k, g) p.
Proof. exact (occluded_coarse X junk r). Qed.
Print Assumptions C86_coarse_partial.

(** Two grids that are asked to occlude coarser points of each other: a point that is finer than the
    other grid is occluded. *)
Theorem C86_coarse_refuted : exists X junk g p, odata_ok X /\ (forall k, occluding X k -> od_occludes X k = O_COARSE) /\
  (exists r m, detect_occluded X junk = Some r /\ In (g, m) r /\ m p = true) /\
  (forall k, occluding X (k, g) -> (od_volume X g p < od_interp X (k, g) p)%Q).
Proof. exact (ex_intro _ (diamond mutually 0 0) (ex_intro _ none (ex_intro _ 2 (ex_intro _ (T3 0 0 0) dm_finer)))). Qed.
Print Assumptions C86_coarse_refuted.

(** Without smoothing, an occluded point has a cell away from the outer fringe of an occluding grid; if that grid may be occluded too,
    also away from its inactive points and from what its own grid occludes of it. *)
Theorem C86_away X junk r : odata_ok X -> detect_occluded X junk = Some r -> forall g m p, In (g, m) r -> pt_in (c_range (od_cart X g)) p ->
  od_smoothing X g = 0 -> m p = true ->
  exists k, occluding X (k, g) /\ on_cell X (k, g) p (fun v => forall w, pt_in (c_range (od_cart X k)) w -> within (od_cart X k) (od_padding X (k, g)) v w ->
    od_fringe X k w = false /\
    (od_occludes X (g, k) <> O_NONE -> od_active X k w = true /\
       ((forall k', occluding X (k', k) -> k' = g) -> forall mk, In (k, mk) r -> mk w = false))).
Proof. exact (occluded_away X junk r). Qed.
Print Assumptions C86_away.

(** With smoothing, a point in a hole of the only other grid is occluded. *)
Theorem C86_away_refuted : exists X junk g p, odata_ok X /\
  (exists r m, detect_occluded X junk = Some r /\ In (g, m) r /\ m p = true) /\
  (forall k, occluding X (k, g) -> od_overlap X (k, g) p = false /\ on_cell X (k, g) p (fun v => od_active X k v = false)).
Proof. exact (ex_intro _ line (ex_intro _ none (ex_intro _ 2 (ex_intro _ (T3 4 0 0) (conj line_ok (conj line_hole line_inactive)))))). Qed.
Print Assumptions C86_away_refuted.

(** Every point of every grid can be occluded. *)
Theorem C86_remain_refuted : exists X junk r, odata_ok X /\ (forall g p, od_active X g p = true) /\ od_grids X <> [] /\ detect_occluded X junk = Some r /\
  forall g m p, In (g, m) r -> pt_in (c_range (od_cart X g)) p -> m p = true.
Proof. exact cycle_refuted. Qed.
Print Assumptions C86_remain_refuted.

(** A grid without an outer fringe that occludes all and is not occluded: all points it overlaps are occluded. *)
Theorem C86_all X junk r : odata_ok X -> detect_occluded X junk = Some r -> forall g k m p, In (g, m) r -> pt_in (c_range (od_cart X g)) p ->
  occluding X (k, g) -> od_occludes X (k, g) = O_ALL -> od_occludes X (g, k) = O_NONE ->
  (forall v, pt_in (c_range (od_cart X k)) v -> od_fringe X k v = false) -> od_overlap X (k, g) p = true -> m p = true.
Proof. exact (occluded_all X junk r). Qed.
Print Assumptions C86_all.

(** Smoothing only adds points, and none further than asked for. *)
Theorem C86_smoothing X junk r : odata_ok X -> detect_occluded X junk = Some r -> forall r0, detect_occluded (unsmoothed X) junk = Some r0 ->
  forall g m m0 p, In (g, m) r -> In (g, m0) r0 -> pt_in (c_range (od_cart X g)) p ->
  (m0 p = true -> m p = true) /\
  (m p = true -> exists q, pt_in (c_range (od_cart X g)) q /\ within (od_cart X g) (od_smoothing X g) p q /\ m0 q = true).
Proof. exact (smoothing_both X junk r). Qed.
Print Assumptions C86_smoothing.

(** Dilating and eroding masks of a whole grid: as the processes do with their parts (C47_dilate_erode). *)
Theorem C86_masks c k m u : cart_ok c -> stored_once c -> (forall d, (c_nd c <= d < 3)%nat -> tget (c_per c) d = false) -> 0 <= k -> pt_in (c_range c) u ->
  (dilate c k m u = true <-> reached c FieldModel.BC_MIRROR m true k u) /\ (erode c k m u = false <-> reached c FieldModel.BC_MIRROR m false k u).
Proof. exact (as_reached c k m u). Qed.
Print Assumptions C86_masks.

(** A coarse grid and a finer one turned by 45 degrees which occludes it; two lines with smoothing and without. *)
Example C86_example :
  (odata_ok (diamond finer_only 0 0) /\ masks_of (diamond finer_only 0 0) (detect_occluded (diamond finer_only 0 0) none) = Some [[(2, 2); (3, 2); (2, 3); (3, 3)]; []]) /\
  (odata_ok line /\ masks_of line (detect_occluded line none) = Some [[]; map (fun i => (i, 0)) [0; 1; 2; 3; 4; 5; 6; 7; 8]] /\
   masks_of line (detect_occluded (unsmoothed line) none) = Some [[]; map (fun i => (i, 0)) [0; 1; 2; 6; 7; 8]]).
Proof. exact (conj dm_result line_result). Qed.
