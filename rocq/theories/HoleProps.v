(** Claim C87. *)
From Coq Require Import List ZArith Bool Lia.
From Verif Require Import TupleModel RangeModel RangeProof CartModel CartProof AsmSpec OccModel HoleModel HoleSpec HoleLaws HoleEx.
Import ListNotations.
Local Open Scope Z_scope.

(** The points that are removed as boundary holes, for all grids and overlaps. *)
Theorem C87_result X : hdata_ok X -> forall fuel r, cut_holes X fuel = Some r -> holes_are X r (hole X).
Proof. exact (cut_result X). Qed.
Print Assumptions C87_result.

(** The loops end exactly if, whenever some point of a grid that is cut lies beyond the overlap, there are points of the cutting grid in its cells. *)
Theorem C87_ends X : hdata_ok X -> finite X -> exists f0, forall fuel, (f0 <= fuel)%nat -> exists r, cut_holes X fuel = Some r.
Proof. exact (cut_ends X). Qed.
Print Assumptions C87_ends.
Theorem C87_needs X : hdata_ok X -> forall fuel r, cut_holes X fuel = Some r -> finite X.
Proof. exact (cut_needs X). Qed.
Print Assumptions C87_needs.
(** They do not always. *)
Theorem C87_ends_refuted : exists X, hdata_ok X /\ (exists k, cuts X k /\ exists p, pt_in (c_range (hd_cart X (snd k))) p /\ hd_overlap X k p = true) /\
  forall fuel, cut_holes X fuel = None.
Proof. exact strip_refuted. Qed.
Print Assumptions C87_ends_refuted.

(** Only active points are removed, and only from a grid that is overlapped by a grid that cuts it and has a boundary. *)
Theorem C87_active X : hdata_ok X -> forall fuel r g m p, cut_holes X fuel = Some r -> In (g, m) r -> pt_in (c_range (hd_cart X g)) p -> m p = true -> hd_active X g p = true.
Proof. exact (hole_active X). Qed.
Print Assumptions C87_active.
Theorem C87_cut X : hdata_ok X -> forall fuel r g m p, cut_holes X fuel = Some r -> In (g, m) r -> pt_in (c_range (hd_cart X g)) p -> m p = true ->
  exists k, cuts X k /\ snd k = g /\ exists s b, pt_in (c_range (hd_cart X g)) s /\ hd_overlap X k s = true /\
    pt_in (c_range (hd_cart X (fst k))) b /\ hd_boundary X (fst k) b = true.
Proof. exact (hole_cut X). Qed.
Print Assumptions C87_cut.

(** A hole ends at boundaries: a point next to a removed point that is not on a boundary of its grid is removed too, or was inactive, or lies on a boundary. *)
Theorem C87_walled X : hdata_ok X -> forall fuel r g m p q, cut_holes X fuel = Some r -> In (g, m) r -> pt_in (c_range (hd_cart X g)) p -> pt_in (c_range (hd_cart X g)) q ->
  within (hd_cart X g) 1 p q -> m p = true -> hd_boundary X g p = false -> m q = true \/ hd_active X g q = false \/ wall X g q.
Proof. exact (hole_walled X). Qed.
Print Assumptions C87_walled.

(** Points are removed although they are on the same side of all boundaries as points that stay. *)
Theorem C87_side_refuted : exists X g r m s p b, hdata_ok X /\ (forall q, hd_active X g q = true /\ hd_boundary X g q = false) /\
  (forall k q, cuts X k -> snd k = g -> touched X k (fun q => hd_boundary X (fst k) q = true) q -> c0 q <= b) /\
  (exists fuel, cut_holes X fuel = Some r) /\ In (g, m) r /\ pt_in (c_range (hd_cart X g)) s /\ pt_in (c_range (hd_cart X g)) p /\ b < c0 s < c0 p /\
  (exists k, cuts X k /\ snd k = g /\ hd_overlap X k s = true) /\ m s = false /\ m p = true.
Proof. exact band_refuted. Qed.
Print Assumptions C87_side_refuted.

(** Nothing is removed if the overlap between boundaries is two points wide, although there are points beyond them. *)
Theorem C87_thin_refuted : exists X g r m, hdata_ok X /\ (exists fuel, cut_holes X fuel = Some r) /\ In (g, m) r /\ (forall p, pt_in (c_range (hd_cart X g)) p -> m p = false) /\
  exists k, cuts X k /\ snd k = g /\ (exists p, pt_in (c_range (hd_cart X g)) p /\ boundary_of X k p) /\
  exists p, pt_in (c_range (hd_cart X g)) p /\ hd_active X g p = true /\ ~ wall X g p /\ hd_overlap X k p = false.
Proof. exact thin_refuted. Qed.
Print Assumptions C87_thin_refuted.

(** A box whose sides are boundaries, inside a larger grid: all points outside are removed. *)
Example C87_example : hdata_ok bx /\ finite bx /\ hmasks bx (cut_holes bx 1) = Some [[]; outside].
Proof. exact bx_result. Qed.
