(** C77. Detection of overlap: which points of a grid are found to be inside of another one, and in which cell. *)
From Coq Require Import List ZArith Bool QArith Qabs Lia Lqa Sorting.Sorted.
From Verif Require Import TupleModel RangeModel Base RangeProof CartModel CartProof DecompModel IndexerModel ArrayModel HashModel HashSpec.
From Verif Require Import NeighSpec CellModel CellSpec GeomModel GeomSpec GeomEx AccelModel FragModel DetectModel DetectSpec DetectProof DetectGeo DetectSame DetectCurv DetectEx.
From Verif Require BoxModel.
Import ListNotations.
Local Open Scope Q_scope.

(** C77. For uniform grids, with exact arithmetic: on every decomposition of the grid, every subdivision into fragments, and for every
    search tree, the points listed are exactly those that are within the tolerance of an active cell; the cell listed with one
    and the coordinates in it are right, and no other cell is better: the point is less far outside of it, or as far, and the cell
    comes first. *)
Theorem C77_uniform : forall g c n L stop depth active X O maxtol leaf scale levels loc nactive Y tol,
  let nd := c_nd c in let cells := c_range (cart_point_to_cell c) in
  decomposed c n L -> 0 <= tol <= maxtol -> (forall r f, 0 < scale r f) ->
  (forall p, planar nd (X p)) -> (forall p, pt_in loc p -> nactive p = true -> planar nd (Y p)) ->
  (forall r f, upright (O r f)) ->
  (forall cell, pt_in cells cell -> active cell = true -> regular g nd X cell /\ parallel nd X cell) ->
  g = UNIFORM \/ g = ORIENTED_UNIFORM ->
  let inside p cell u := pt_in cells cell /\ active cell = true /\ in_reach_of nd X tol cell (Y p) u in
  exists es, detect (fun q => q) g c n L stop depth active X O maxtol leaf scale levels loc nactive Y tol = Some es /\
  StronglySorted (fun p q => (rindex ColMajor loc p < rindex ColMajor loc q)%Z) (map e_point es) /\
  (forall p, In p (map e_point es) <-> pt_in loc p /\ nactive p = true /\ exists cell u, inside p cell u) /\
  (forall e, In e es -> inside (e_point e) (e_cell e) (e_coords e)) /\
  (forall e cell u, In e es -> inside (e_point e) cell u ->
    as_good nd (e_coords e) (rindex ColMajor cells (e_cell e)) u (rindex ColMajor cells cell)).
Proof. exact detect_uniform. Qed.
Print Assumptions C77_uniform.

Example C77_uniform_example :
  (exists es, ex_detect UNIFORM 2 ex_plane (1 # 5) = Some es /\
    map e_point es = [T3 7 0 0; T3 8 0 0; T3 9 0 0]%Z /\ map e_cell es = [T3 0 0 0; T3 1 1 0; T3 0 0 0]%Z) /\
  decomposed ex5 2 (ex5_L 2) /\ (forall cell, regular UNIFORM 2 ex_plane cell /\ parallel 2 ex_plane cell).
Proof.
  split; [eexists; split; [vm_compute; reflexivity|split; reflexivity]|]. split; [apply ex5_decomposed; lia|apply ex_plane_regular].
Qed.

(** C77. For uniform and rectilinear grids, in any rounding of the comparison of cells: if the parts of the grid are not too thin, two
    decompositions (with any subdivisions, trees and bounds of tolerances) give the same entries for the same points. *)
Theorem C77_decomposition : forall rnd g c n L stop depth active X O maxtol leaf scale levels loc nactive Y tol
  n' L' stop' depth' O' maxtol' leaf' scale' levels' loc',
  rounding rnd -> (forall q, 0 < q -> 0 < rnd q) -> decomposed c n L -> decomposed c n' L' ->
  0 <= tol <= maxtol -> 0 <= tol <= maxtol' -> (forall r f, 0 < scale r f) -> (forall r f, 0 < scale' r f) ->
  (forall p, planar (c_nd c) (X p)) -> (forall p, nactive p = true -> planar (c_nd c) (Y p)) ->
  (forall r f, upright (O r f)) -> (forall r f, upright (O' r f)) ->
  (forall cell, pt_in (c_range (cart_point_to_cell c)) cell -> active cell = true -> regular g (c_nd c) X cell /\ parallel (c_nd c) X cell) ->
  (forall r f, (r < n)%nat -> In f (fragments c L stop depth active r) -> roomy c (c_range (cart_point_to_cell c)) f) ->
  (forall r f, (r < n')%nat -> In f (fragments c L' stop' depth' active r) -> roomy c (c_range (cart_point_to_cell c)) f) ->
  exists es es', detect rnd g c n L stop depth active X O maxtol leaf scale levels loc nactive Y tol = Some es /\
    detect rnd g c n' L' stop' depth' active X O' maxtol' leaf' scale' levels' loc' nactive Y tol = Some es' /\
    forall e, pt_in loc (e_point e) -> pt_in loc' (e_point e) -> (In e es <-> In e es').
Proof. exact detect_independent. Qed.
Print Assumptions C77_decomposition.

Example C77_decomposition_example :
  (decomposed ex5 2 (ex5_L 2) /\ decomposed ex5 1 ex5_one) /\
  (forall r f, (r < 2)%nat -> In f (fragments ex5 (ex5_L 2) ex_stop ex_depth ex_all r) -> roomy ex5 (c_range (cart_point_to_cell ex5)) f) /\
  (forall r f, (r < 1)%nat -> In f (fragments ex5 ex5_one ex_stop ex_depth ex_all r) -> roomy ex5 (c_range (cart_point_to_cell ex5)) f) /\
  (exists es, ex_detect UNIFORM 2 ex_plane (1 # 5) = Some es /\ length es = 3%nat /\
    detect (fun q => q) UNIFORM ex5 1 ex5_one ex_stop ex_depth ex_all ex_plane ex_upright (1 # 2) ex_leaf ex_scale ex_levels ex_loc ex_all ex_Y (1 # 5) = Some es).
Proof.
  split; [split; [apply ex5_decomposed; lia|exact ex5_one_decomposed]|]. split; [exact ex5_roomy|]. split; [exact ex5_one_roomy|].
  eexists; split; [vm_compute; reflexivity|split; vm_compute; reflexivity].
Qed.

(** C77. For curvilinear grids, with cells that are not flat and no tolerance: the points listed are exactly those that are in one of the
    triangles or tetrahedra of an active cell in which their coordinates are found by the fragment with this cell.
    Partial: for which points the iteration finds coordinates is known for lattices only (next theorem, and C75); the tolerance
    is 0. *)
Theorem C77_curvilinear_partial : forall c n L stop depth active X O maxtol leaf scale levels loc nactive Y,
  let nd := c_nd c in let cells := c_range (cart_point_to_cell c) in
  (nd = 2 \/ nd = 3)%nat -> decomposed c n L -> 0 <= maxtol -> (forall r f, 0 < scale r f) ->
  (forall p, planar nd (X p)) -> (forall p, nactive p = true -> planar nd (Y p)) -> (forall r f, turning nd (O r f)) ->
  (forall cell, pt_in cells cell -> active cell = true -> proper nd X cell) ->
  forall rnd, rounding rnd -> (forall q, 0 < q -> 0 < rnd q) ->
  let hit p cell u := pt_in cells cell /\ active cell = true /\ in_parts nd X cell (Y p) /\
    exists r f, (r < n)%nat /\ In f (fragments c L stop depth active r) /\ pt_in f cell /\
      coords_in_cell CURVILINEAR nd (fragment_extents c f) (fragment_coords X O r f) cell (oriented (O r f) (Y p)) = Some u in
  exists es, detect rnd CURVILINEAR c n L stop depth active X O maxtol leaf scale levels loc nactive Y 0 = Some es /\
  StronglySorted (fun p q => (rindex ColMajor loc p < rindex ColMajor loc q)%Z) (map e_point es) /\
  (forall p, In p (map e_point es) <-> pt_in loc p /\ nactive p = true /\ exists cell u, hit p cell u) /\
  (forall e, In e es -> hit (e_point e) (e_cell e) (e_coords e)) /\
  (forall e cell u, In e es -> hit (e_point e) cell u ->
    better_cell rnd nd (e_coords e) u (rindex ColMajor cells (e_cell e)) (rindex ColMajor cells cell) = false).
Proof. exact detect_curvilinear. Qed.
Print Assumptions C77_curvilinear_partial.

(** Orientations that turn by a quarter, cells without parallel edges *)
Example C77_curvilinear_example : turning 2 (T3 (T3 0 1 0) (T3 (-1) 0 0) (T3 0 0 1))%Q /\ proper 2 skewed origin /\ in_parts 2 skewed origin (T3 (1 # 4) (1 # 4) 0).
Proof.
  split; [repeat split; discriminate|]. split; [apply GeomProof.convex_proper, skewed_convex|].
  eexists. split; [left; reflexivity|]. exists [1 # 2; 1 # 4; 1 # 4]. split; [reflexivity|]. split; [repeat constructor; discriminate|]. split; [reflexivity|].
  intros d Hd. destruct d as [|[|]]; try lia; vm_compute; reflexivity.
Qed.

(** C77. If the points of a curvilinear grid are those of a lattice of any shape, and its parts are not too thin: the points listed are
    exactly those in the convex hull of the vertices of an active cell, and the coordinates in the cell are right. *)
Theorem C77_lattice : forall c n L stop depth active X O maxtol leaf scale levels loc nactive Y A B,
  let nd := c_nd c in let cells := c_range (cart_point_to_cell c) in
  forall rnd, rounding rnd -> (forall q, 0 < q -> 0 < rnd q) ->
  (nd = 2 \/ nd = 3)%nat -> decomposed c n L -> 0 <= maxtol -> (forall r f, 0 < scale r f) ->
  (forall p, planar nd (X p)) -> (forall p, nactive p = true -> planar nd (Y p)) -> (forall r f, upright (O r f)) ->
  (forall r f, (r < n)%nat -> In f (fragments c L stop depth active r) -> roomy c cells f) ->
  lattice nd (full_extents c) X A B -> solid_lattice nd B ->
  let inside p cell := pt_in cells cell /\ active cell = true /\ hull nd (at_corners X cell (corners nd)) (Y p) in
  exists es, detect rnd CURVILINEAR c n L stop depth active X O maxtol leaf scale levels loc nactive Y 0 = Some es /\
  StronglySorted (fun p q => (rindex ColMajor loc p < rindex ColMajor loc q)%Z) (map e_point es) /\
  (forall p, In p (map e_point es) <-> pt_in loc p /\ nactive p = true /\ exists cell, inside p cell) /\
  (forall e, In e es -> inside (e_point e) (e_cell e) /\
    forall d, (d < nd)%nat -> Qabs (tget (Y (e_point e)) d - at_lattice nd A B (tmake (fun k => inject_Z (tget (e_cell e) k) + tget (e_coords e) k)) d) <= 1 # 1000000000000).
Proof. exact detect_lattice. Qed.
Print Assumptions C77_lattice.

Example C77_lattice_example : exists es, ex_detect CURVILINEAR 2 ex_sheared 0 = Some es /\ In (T3 7 0 0)%Z (map e_point es).
Proof. exact ex_sheared_found. Qed.

(** C77 is false of grids with thin parts: a point that is found to be inside of a curvilinear grid if its first rank has two columns
    of points is not found if it has one. *)
Theorem C77_thin_refuted : exists c L L' X Y loc O leaf scale levels stop depth active nactive A B,
  decomposed c 2 L /\ decomposed c 2 L' /\ (forall p, planar (c_nd c) (X p)) /\ (forall r f, upright (O r f)) /\
  lattice (c_nd c) (full_extents c) X A B /\ solid_lattice (c_nd c) B /\ (forall r f, 0 < scale r f) /\
  detect (fun q => q) CURVILINEAR c 2 L stop depth active X O 0 leaf scale levels loc nactive Y 0 = Some [] /\
  exists e es, detect (fun q => q) CURVILINEAR c 2 L' stop depth active X O 0 leaf scale levels loc nactive Y 0 = Some (e :: es).
Proof. exact ex_thin. Qed.
Print Assumptions C77_thin_refuted.
