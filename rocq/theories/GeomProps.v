(** Properties C74 to C76: points in cells, their coordinates there, and volumes and bounds of cells. *)
From Coq Require Import List ZArith QArith Qabs Bool Lia Lqa.
From Verif Require Import TupleModel RangeModel GeomModel GeomSpec GeomProof GeomNewton GeomLattice GeomVolume GeomEx.
Import ListNotations.
Local Open Scope Q_scope.

(** C74. In a cell with parallel edges along the axes (or perpendicular, for the oriented types) the test accepts exactly
    the points whose coordinates in the cell are within the tolerance of the unit interval... *)
Theorem C74_regular_cells : forall g nd X tol cell x, (1 <= nd <= 3)%nat -> regular g nd X cell -> parallel nd X cell ->
  overlaps_cell g nd X tol cell x = true <-> exists u, within nd tol u /\ located nd X cell u x.
Proof. exact regular_overlaps. Qed.
Print Assumptions C74_regular_cells.

(** ... which without a tolerance are the convex combinations of the vertices. *)
Theorem C74_parallel_hull : forall nd X cell x, (1 <= nd <= 3)%nat -> parallel nd X cell ->
  (exists u, within nd 0 u /\ located nd X cell u x) <-> hull nd (at_corners X cell (corners nd)) x.
Proof. exact parallel_hull. Qed.
Print Assumptions C74_parallel_hull.

(** C74. In a curvilinear cell the test without tolerance accepts exactly the points of the triangles or tetrahedra into which the
    cell is divided, and only points between its vertices... *)
Theorem C74_curvilinear_parts : forall nd X cell x, (nd = 2 \/ nd = 3)%nat -> proper nd X cell ->
  overlaps_cell CURVILINEAR nd X 0 cell x = true <-> exists part, In part (parts nd) /\ hull nd (at_corners X cell part) x.
Proof. exact overlaps_parts. Qed.
Print Assumptions C74_curvilinear_parts.

Theorem C74_curvilinear_within : forall nd X cell x, (nd = 2 \/ nd = 3)%nat -> proper nd X cell ->
  overlaps_cell CURVILINEAR nd X 0 cell x = true -> hull nd (at_corners X cell (corners nd)) x.
Proof. exact overlaps_hull. Qed.
Print Assumptions C74_curvilinear_within.

(** ... all of them in a convex quadrilateral and in a cell with parallel edges. *)
Theorem C74_convex : forall X cell x, convex X cell ->
  overlaps_cell CURVILINEAR 2 X 0 cell x = true <-> hull 2 (at_corners X cell (corners 2)) x.
Proof. exact convex_overlaps. Qed.
Print Assumptions C74_convex.

Theorem C74_curvilinear_hull : forall nd X cell x, (2 <= nd <= 3)%nat -> parallel nd X cell -> full nd X cell ->
  overlaps_cell CURVILINEAR nd X 0 cell x = true <-> hull nd (at_corners X cell (corners nd)) x.
Proof. exact curvilinear_parallel_hull. Qed.
Print Assumptions C74_curvilinear_hull.

(** With a tolerance it accepts all points within the tolerance, and none beyond nd times the tolerance. *)
Theorem C74_curvilinear_tolerance : forall nd X tol cell x, (2 <= nd <= 3)%nat -> parallel nd X cell -> full nd X cell -> 0 <= tol ->
  ((exists u, within nd tol u /\ located nd X cell u x) -> overlaps_cell CURVILINEAR nd X tol cell x = true) /\
  (overlaps_cell CURVILINEAR nd X tol cell x = true -> exists u, within nd (inject_Z (Z.of_nat nd) * tol) u /\ located nd X cell u x).
Proof. exact curvilinear_parallel. Qed.
Print Assumptions C74_curvilinear_tolerance.

(** There is no gap between neighbours: a point of the common face is in both cells. *)
Theorem C74_no_gap : forall nd d face X cell x, (nd = 2 \/ nd = 3)%nat -> (d < nd)%nat -> In face (lower_face nd d) ->
  let next := tadd cell (unit_step d) in
  proper nd X cell -> proper nd X next -> hull nd (at_corners X next face) x ->
  overlaps_cell CURVILINEAR nd X 0 cell x = true /\ overlaps_cell CURVILINEAR nd X 0 next x = true.
Proof. exact no_gap. Qed.
Print Assumptions C74_no_gap.

(** Refuted: that the tolerance is a bound for curvilinear cells, as for the others.  A point accepted in a unit square
    with the tolerance 1/10 although it is 1/5 outside. *)
Theorem C74_tolerance_refuted : exists X tol cell x, parallel 2 X cell /\ full 2 X cell /\ 0 <= tol /\
  overlaps_cell CURVILINEAR 2 X tol cell x = true /\ overlaps_cell UNIFORM 2 X tol cell x = false /\
  ~ exists u, within 2 tol u /\ located 2 X cell u x.
Proof.
  exists unit, (1 # 10), origin, (T3 (- (1 # 10)) (12 # 10) 0).
  split; [apply unit_parallel; lia|]. split; [vm_compute; discriminate|]. split; [vm_compute; discriminate|]. split; [vm_compute; reflexivity|].
  split; [vm_compute; reflexivity|].
  intros H. apply (regular_overlaps UNIFORM) in H; [vm_compute in H; discriminate|lia|apply unit_along; lia|apply unit_parallel; lia].
Qed.
Print Assumptions C74_tolerance_refuted.

(** Refuted: that a point far away is never accepted.  In a cell at a polar axis, where two vertices coincide, one triangle is flat,
    the solution of its equations is 0/0, and the comparisons with it are all false: the point (100, 0) is in the cell. *)
Theorem C74_collapsed_refuted : exists X cell x, overlaps_cell CURVILINEAR 2 X 0 cell x = true /\ ~ hull 2 (at_corners X cell (corners 2)) x.
Proof.
  exists polar, origin, (T3 100 0 0). split; [vm_compute; reflexivity|]. intros H.
  assert (B : 0 <= tget (T3 100 0 0) 0 <= 1).
  { apply (hull_bounds 2 _ _ 0%nat 0 1 H); [lia|]. intros v Hv. cbn in Hv. repeat (destruct Hv as [<-|Hv]; [vm_compute; split; discriminate|]). contradiction. }
  destruct B as [_ B]. vm_compute in B. apply B. reflexivity.
Qed.
Print Assumptions C74_collapsed_refuted.

(** A sheared cell, a turned one, a quadrilateral and a hexahedron without parallel edges, with points inside and outside. *)
Example C74_example :
  (parallel 3 shear3 origin /\ full 3 shear3 origin /\ overlaps_cell CURVILINEAR 3 shear3 0 origin (T3 (5 # 4) (0) 1) = true /\
   overlaps_cell CURVILINEAR 3 shear3 0 origin (T3 (1 # 8) 0 1) = false) /\
  (parallel 2 turned origin /\ regular ORIENTED_UNIFORM 2 turned origin /\ overlaps_cell ORIENTED_UNIFORM 2 turned 0 origin (T3 0 3 0) = true /\
   overlaps_cell ORIENTED_UNIFORM 2 turned 0 origin (T3 3 3 0) = false) /\
  (convex skewed origin /\ overlaps_cell CURVILINEAR 2 skewed 0 origin (T3 (6 # 5) (21 # 20) 0) = true /\ overlaps_cell CURVILINEAR 2 skewed 0 origin (T3 (11 # 10) (1 # 2) 0) = true /\
   overlaps_cell CURVILINEAR 2 skewed 0 origin (T3 (6 # 5) (1 # 2) 0) = false) /\
  (proper 3 skewed origin /\ proper 3 skewed (tadd origin (unit_step 0)) /\
   hull 3 (at_corners skewed (tadd origin (unit_step 0)) [T3 0 0 0; T3 0 1 0; T3 0 0 1]%Z) (T3 (9 # 8) (9 # 16) 0) /\
   overlaps_cell CURVILINEAR 3 skewed 0 origin (T3 (9 # 8) (9 # 16) 0) = true).
Proof.
  split; [|split; [|split]].
  - split; [exact shear3_parallel|]. split; [exact shear3_full|]. split; vm_compute; reflexivity.
  - split; [exact turned_parallel|]. split; [exact turned_perpendicular|]. split; vm_compute; reflexivity.
  - split; [exact skewed_convex|]. repeat split; vm_compute; reflexivity.
  - split; [exact skewed_proper|]. split; [exact skewed_proper'|]. split; [|vm_compute; reflexivity].
    exists [1 # 2; 1 # 2; 0]. split; [reflexivity|]. split; [repeat constructor; vm_compute; discriminate|]. split; [vm_compute; reflexivity|].
    intros d Hd. dims d; vm_compute; reflexivity.
Qed.

(** C75. In a uniform cell the coordinates found are the ones of the point, and the only ones. *)
Theorem C75_uniform : forall g nd E X cell x, (1 <= nd <= 3)%nat -> g = UNIFORM \/ g = ORIENTED_UNIFORM -> regular g nd X cell -> parallel nd X cell ->
  exists u, coords_in_cell g nd E X cell x = Some u /\ located nd X cell u x /\
    forall u', located nd X cell u' x -> forall d, (d < nd)%nat -> tget u' d == tget u d.
Proof. exact regular_coords. Qed.
Print Assumptions C75_uniform.

(** C75. In other cells, the cubic through the points around the cell (or the nearest cell with enough points around it)
    takes the coordinates found to the point, up to 10^-12. *)
Theorem C75_sound : forall g nd E X cell x u, cubic_geometry g -> (2 <= nd <= 3)%nat -> corner_zero nd cell ->
  coords_in_cell g nd E X cell x = Some u ->
  exists s, centered nd E cell s /\ forall d, (d < nd)%nat ->
    Qabs (tget x d - cubic_map nd X s (tmake (fun e => tget u e - inject_Z (tget s e - tget cell e))) d) <= 1 # 1000000000000.
Proof. exact coords_sound. Qed.
Print Assumptions C75_sound.

(** C75. On a lattice of any shape, of at least four points in each direction, they are always found. *)
Theorem C75_lattice : forall g nd E X A B cell x, cubic_geometry g -> (2 <= nd <= 3)%nat ->
  lattice nd E X A B -> solid_lattice nd B -> in_extents nd E cell ->
  (forall d, (d < nd)%nat -> tget (rb E) d + 4 <= tget (re E) d)%Z ->
  exists u, coords_in_cell g nd E X cell x = Some u /\
    forall d, (d < nd)%nat -> Qabs (tget x d - at_lattice nd A B (tmake (fun e => inject_Z (tget cell e) + tget u e)) d) <= 1 # 1000000000000.
Proof. exact coords_lattice. Qed.
Print Assumptions C75_lattice.

(** C75. They do not depend on the part of the grid that is known: any part with the points around the cell, and four points
    in each direction, gives the same coordinates, or none, as the whole grid. *)
Theorem C75_decomposition : forall g nd E E' X X' cell x, (1 <= nd <= 3)%nat -> same_stencil nd E E' cell ->
  (forall p, in_extents nd E' p -> X' p = X p) -> coords_in_cell g nd E' X' cell x = coords_in_cell g nd E X cell x.
Proof. exact coords_same. Qed.
Print Assumptions C75_decomposition.

(** Refuted: that coordinates are found in one dimension.  For every grid that is not uniform, they are not: the test whether
    the points around the cell are known is never passed. *)
Theorem C75_line_refuted : exists X cell x, parallel 1 X cell /\ along_axes 1 X cell /\ hull 1 (at_corners X cell (corners 1)) x /\
  forall g, cubic_geometry g -> overlaps_cell g 1 X 0 cell x = true /\ forall E, coords_in_cell g 1 E X cell x = None.
Proof.
  exists unit, origin, (T3 (1 # 2) 0 0). split; [apply unit_parallel; lia|]. split; [apply unit_along; lia|]. split.
  - apply hull2. exists (1 # 2). split; [split; discriminate|]. intros d Hd. dims d. vm_compute. reflexivity.
  - intros g Hg. split; [destruct Hg as [->|[->| ->]]; vm_compute; reflexivity|]. intros E. apply coords_line, Hg.
Qed.
Print Assumptions C75_line_refuted.

(** Refuted: independence of a part with fewer than four points.  On a part of three by four points, which has all the points of the
    cell and of its neighbours up to the boundary of the part, no coordinates are found; on the whole grid they are. *)
Theorem C75_thin_part_refuted : exists E E' X cell x u,
  (forall d, (d < 2)%nat -> tget (rb E') d = tget (rb E) d /\ tget (rb E') d <= tget cell d /\ tget cell d + 3 <= tget (re E') d <= tget (re E) d)%Z /\
  hull 2 (at_corners X cell (corners 2)) x /\
  coords_in_cell CURVILINEAR 2 E' X cell x = None /\ coords_in_cell CURVILINEAR 2 E X cell x = Some u.
Proof.
  destruct (coords_lattice CURVILINEAR 2 E4 shear2 _ _ origin (T3 (3 # 4) (1 # 2) 0) (or_intror (or_intror eq_refl)) ltac:(lia) shear2_lattice steps2_solid) as [u [C _]].
  { intros d Hd. dims d; vm_compute; auto; split; congruence. }
  { intros d Hd. dims d; vm_compute; congruence. }
  exists E4, (mkR (T3 0 0 0)%Z (T3 3 4 1)%Z), shear2, origin, (T3 (3 # 4) (1 # 2) 0), u.
  split; [intros d Hd; dims d; vm_compute; repeat split; discriminate|]. split; [|split; [vm_compute; reflexivity|exact C]].
  apply parallel_hull; [lia|exact shear2_parallel|]. exists (T3 (1 # 2) (1 # 2) 0). split; [intros d Hd; dims d; vm_compute; split; discriminate|].
  intros d Hd. dims d; vm_compute; reflexivity.
Qed.
Print Assumptions C75_thin_part_refuted.

(** Refuted: that the coordinates found are accurate.  The tolerance 10^-12 is absolute; in a grid with the spacing 10^-13
    a vertex gets the coordinates of the center of the cell. *)
Theorem C75_small_cells_refuted : exists E X cell u, parallel 2 X cell /\ full 2 X cell /\ located 2 X cell (T3 0 0 0) (X cell) /\
  coords_in_cell CURVILINEAR 2 E X cell (X cell) = Some u /\ tget u 0 == 1 # 2 /\ tget u 1 == 1 # 2.
Proof.
  exists E4, tiny, (T3 1 1 0)%Z. eexists. split; [intros o Ho; each; intros d Hd; dims d; vm_compute; reflexivity|].
  split; [vm_compute; discriminate|]. split; [intros d Hd; dims d; vm_compute; reflexivity|]. split; [vm_compute; reflexivity|]. split; vm_compute; reflexivity.
Qed.
Print Assumptions C75_small_cells_refuted.

(** A point of a sheared lattice, in a cell at the corner of the grid, and the same on a part of it; and a point in a grid
    without parallel lines. *)
Example C75_example :
  (lattice 2 E4 shear2 (T3 0 0 0) steps2 /\ solid_lattice 2 steps2 /\
   in_extents 2 E4 (T3 2 0 0)%Z /\ at_lattice 2 (T3 0 0 0) steps2 (T3 (2 + (1 # 2)) (1 # 4) 0) 0 == 21 # 8 /\
   exists u, coords_in_cell CURVILINEAR 2 E4 shear2 (T3 2 0 0)%Z (T3 (21 # 8) (1 # 4) 0) = Some u) /\
  same_stencil 2 (mkR (T3 0 0 0) (T3 9 9 1))%Z E4 origin /\
  match coords_in_cell CURVILINEAR 2 (mkR (T3 0 0 0) (T3 4 4 1))%Z skewed (T3 1 1 0)%Z (T3 (33 # 16) (57 # 32) 0) with
  | Some u => tget u 0 == 1 # 2 /\ tget u 1 == 1 # 2
  | None => False
  end.
Proof.
  split; [|split].
  - split; [exact shear2_lattice|]. split; [exact steps2_solid|].
    assert (I : in_extents 2 E4 (T3 2 0 0)%Z) by (intros d Hd; dims d; vm_compute; auto; split; congruence).
    split; [exact I|]. split; [vm_compute; reflexivity|].
    destruct (coords_lattice CURVILINEAR 2 E4 shear2 _ _ (T3 2 0 0)%Z (T3 (21 # 8) (1 # 4) 0) (or_intror (or_intror eq_refl)) ltac:(lia) shear2_lattice steps2_solid I) as [u [C _]].
    { intros d Hd. dims d; vm_compute; congruence. }
    exists u. exact C.
  - intros d Hd. dims d; cbn; intuition lia.
  - vm_compute. split; reflexivity.
Qed.

(** C76. Volumes are not negative, except of uniform and rectilinear cells... *)
Theorem C76_nonnegative : forall g nd X cell, (2 <= nd)%nat -> g <> UNIFORM -> g <> RECTILINEAR -> 0 <= cell_volume g nd X cell.
Proof. exact volume_nonneg. Qed.
Print Assumptions C76_nonnegative.

(** ... and are right in cells with parallel edges and in convex quadrilaterals. *)
Theorem C76_parallel : forall g nd X cell, (2 <= nd <= 3)%nat -> g <> UNIFORM -> g <> RECTILINEAR -> parallel nd X cell ->
  cell_volume g nd X cell == measure nd X cell.
Proof. exact volume_parallel. Qed.
Print Assumptions C76_parallel.

Theorem C76_ascending : forall g nd X cell, (1 <= nd <= 3)%nat -> (nd = 1%nat \/ g = UNIFORM \/ g = RECTILINEAR) -> parallel nd X cell -> ascending nd X cell ->
  cell_volume g nd X cell == measure nd X cell /\ 0 < cell_volume g nd X cell.
Proof. exact volume_ascending. Qed.
Print Assumptions C76_ascending.

Theorem C76_convex : forall X cell, convex X cell -> cell_volume CURVILINEAR 2 X cell == quad_area X cell.
Proof. exact volume_convex. Qed.
Print Assumptions C76_convex.

(** C76. The box around a cell contains the cell and is as small as possible. *)
Theorem C76_bounds : forall g nd X cell, (2 <= nd <= 3)%nat -> g <> UNIFORM -> g <> RECTILINEAR ->
  tight_box nd (at_corners X cell (corners nd)) (geometry_bounds g nd X cell).
Proof. exact bounds_tight. Qed.
Print Assumptions C76_bounds.

Theorem C76_bounds_ascending : forall g nd X cell, (2 <= nd <= 3)%nat -> (g = UNIFORM \/ g = RECTILINEAR) -> parallel nd X cell -> ascending nd X cell ->
  tight_box nd (at_corners X cell (corners nd)) (geometry_bounds g nd X cell).
Proof. exact bounds_ascending. Qed.
Print Assumptions C76_bounds_ascending.

(** Refuted: that this holds for uniform grids in general.  If a coordinate descends, the volume is negative and the box is
    empty, although points are in the cell. *)
Theorem C76_descending_refuted : exists X cell x, parallel 2 X cell /\ along_axes 2 X cell /\
  overlaps_cell UNIFORM 2 X 0 cell x = true /\ cell_volume UNIFORM 2 X cell < 0 /\
  exists lo hi, geometry_bounds UNIFORM 2 X cell = (tmake (fun d => Some (tget lo d)), tmake (fun d => Some (tget hi d))) /\
    ~ tget lo 0 <= tget x 0 <= tget hi 0.
Proof.
  exists mirrored, origin, (T3 (- (1 # 2)) (1 # 2) 0). split; [intros o Ho; each; intros d Hd; dims d; vm_compute; reflexivity|].
  split; [split; [intros e d He Hd N; dims e; dims d; vm_compute; reflexivity|intros e He; dims e; vm_compute; discriminate]|].
  split; [vm_compute; reflexivity|]. split; [vm_compute; reflexivity|]. exists (T3 0 0 0), (T3 (-1) 1 0). split; [vm_compute; reflexivity|].
  intros [A B]. vm_compute in A. apply A. reflexivity.
Qed.
Print Assumptions C76_descending_refuted.

(** Refuted: that the box is determinate in one dimension: its second and third coordinates are never set. *)
Theorem C76_line_refuted : forall g X cell, exists b e, geometry_bounds g 1 X cell = (T3 (Some b) None None, T3 (Some e) None None).
Proof. intros g X cell. eexists. eexists. reflexivity. Qed.
Print Assumptions C76_line_refuted.

Example C76_example :
  cell_volume CURVILINEAR 3 shear3 origin == 2 /\ measure 3 shear3 origin == 2 /\
  cell_volume ORIENTED_RECTILINEAR 2 turned origin == 25 /\ cell_volume CURVILINEAR 2 skewed origin == 19 # 16 /\ quad_area skewed origin == 19 # 16 /\
  geometry_bounds CURVILINEAR 2 skewed origin = (T3 (Some (0 # 4)) (Some (0 # 8)) (Some 0), T3 (Some (1 + 1 / 4)) (Some (1 + 1 / 8)) (Some 0)).
Proof. repeat split; vm_compute; reflexivity. Qed.
