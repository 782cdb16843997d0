(** A whole assembly of a domain of grids: model of src/core/AssemblerAssembly.cpp 82-119 (Assemble) with the order of
    its parts and everything the grids contribute to each other: 158-200, 2535-2589, 2714-2757, 2793-3387 (HoleModel),
    3420-3489, 3522-3986 (OccModel), 4036-4226, 4284-4599 (donors: CellModel).

    Simplifications: masks and fields are those of whole grids (C61 is about the flags of a grid on its processes, C85
    about values sent over an overlap, C77 and C78 about the overlap data); detection of overlap
    is a function of the active points (C77), with exact volumes; statements that are skipped if no point is
    concerned would change nothing then; logging, profiling and the cell masks are left out. *)
From Coq Require Import List ZArith QArith Bool.
From Verif Require Import TupleModel RangeModel CartModel DecompModel IndexerModel ArrayModel HashModel FieldModel AsmModel CellModel OccModel HoleModel.
Import ListNotations.
Local Open Scope Z_scope.

(** map<int,field<...>>: the values of a field of each grid, in column-major order. *)
Definition fields (A : Type) : Type := list (Z * list A).
Definition values {A} (F : fields A) (g : Z) : list A := match find (fun e => fst e =? g) F with Some e => snd e | None => [] end.
(** The value at a point of the grid (the default is for points that are not on the grid). *)
Definition value {A} (d : A) (c : cart) (l : list A) (p : tup Z) : A :=
  if rcontains (c_range c) p then match vread l (rindex ColMajor (c_range c) p) with Some x => x | None => d end else d.
(** for (l = 0; l < Count; ++l) X[l] = ... *)
Definition each {A} (c : cart) (f : tup Z -> A) : list A := map f (RangeModel.foreach_col (c_range c)).

(** The overlap component: pairs (M,N); for points of the N grid the vertices of the cell of the M grid that was found and the
    volume interpolated there. *)
Record found : Type := Found {
  fo_pairs : list (Z * Z); fo_vertices : Z * Z -> tup Z -> option (list (tup Z)); fo_interp : Z * Z -> tup Z -> Q }.

(** The domain and the options of the assembler. *)
Record ddata : Type := DD {
  dd_grids : list Z; dd_cart : Z -> cart; dd_volume : Z -> tup Z -> Q; dd_detect : fields bool -> found;
  dd_infer : Z -> bool; dd_cut : Z * Z -> bool; dd_fringe : Z -> Z; dd_occludes : Z * Z -> OccModel.occludes;
  dd_padding : Z * Z -> Z; dd_smoothing : Z -> Z; dd_minimize : Z * Z -> bool; dd_connects : Z * Z -> bool; dd_disjoint : Z * Z -> bool }.

(** DetectEdge with exterior points, type OUTER, outside FALSE (DistributedFieldOps.cpp 53-158). *)
Definition edge_exterior (c : cart) (m : mask) : mask :=
  fun q => negb (rcontains (c_range c) q && m q) &&
           existsb (fun v => if near_pt c 1 q v then m v else false) (RangeModel.foreach_col (c_range c)).

Section Assembly.
Variable X : ddata.
Notation cart_of := (dd_cart X).

(** A field for each grid. *)
Definition for_grids {A} (f : Z -> list A) : fields A := map (fun g => (g, f g)) (dd_grids X).
Definition masks_for (f : Z -> mask) : fields bool := for_grids (fun g => each (cart_of g) (f g)).
Definition mask_of (F : fields bool) (g : Z) : mask := value false (cart_of g) (values F g).
(** A mask from the flags, and flags changed where a mask says so. *)
Definition flag_mask (F : fields Z) (f : Z -> bool) : fields bool := masks_for (fun g p => f (value 0 (cart_of g) (values F g) p)).
Definition set_flags (F : fields Z) (m : fields bool) (f : bool -> Z -> Z) : fields Z :=
  for_grids (fun g => each (cart_of g) (fun p => f (mask_of m g p) (value 0 (cart_of g) (values F g) p))).

(** InitializeAssembly_, 172-198 *)
Definition initialized (F : fields Z) : fields Z := for_grids (fun g => each (cart_of g) (fun p => reset_flags (value 0 (cart_of g) (values F g) p))).

Section Overlap.
Variable V : found.
Definition has_cell (k : Z * Z) (p : tup Z) : bool := match fo_vertices V k p with Some _ => true | None => false end.
Definition pairs_to (g : Z) : list (Z * Z) := filter (fun k => snd k =? g) (fo_pairs V).

(** 2557-2572 *)
Definition overlapped_by_any : fields bool := masks_for (fun g p => existsb (fun k => has_cell k p) (pairs_to g)).

(** 2717-2746 *)
Definition inferred (active boundary : fields bool) : fields bool :=
  masks_for (fun g p => dd_infer X g && (inner_edge (cart_of g) (mask_of active g) p && negb (mask_of boundary g p) &&
    forallb (fun k => negb (has_cell k p)) (pairs_to g))).

(** 3297-3387, 4135-4226: the overlap masks after points were removed; first those of 2538-2550. *)
Definition pair_masks : Type := list ((Z * Z) * list bool).
Definition pair_mask (P : pair_masks) (k : Z * Z) : mask :=
  fun p => match find (fun e => pair_eqb (fst e) k) P with Some e => value false (cart_of (snd k)) (snd e) p | None => false end.
Definition overlap_masks : pair_masks := map (fun k => (k, each (cart_of (snd k)) (has_cell k))) (fo_pairs V).
Definition updated (P : pair_masks) (active : fields bool) : pair_masks :=
  map (fun k => (k, each (cart_of (snd k)) (fun p =>
    match fo_vertices V k p with
    | Some vs => forallb (mask_of active (fst k)) vs
    | None => pair_mask P k p && mask_of active (snd k) p
    end))) (fo_pairs V).

(** LocateOuterFringe_, 3423-3475 *)
Definition outer_fringe (active boundary : fields bool) : fields bool :=
  masks_for (fun g =>
    let c := cart_of g in let act := mask_of active g in let bnd := mask_of boundary g in let c' := cart_include_exterior c in
    if dd_fringe X g =? 0 then fun _ => false
    else let e_act := array_of c' (edge_exterior c act) in
         let e_in := array_of c' (edge_exterior c (fun p => act p && negb (bnd p))) in
         let e_bnd := array_of c' (edge_exterior c bnd) in
         let cover := array_of c' (fun q => e_act q && (e_in q || negb (e_bnd q))) in
         fun p => act p && dilate c' (dd_fringe X g) cover p).

(** MinimizeOverlap_, 4045-4089 *)
Definition to_minimize (P : pmap) : fields bool :=
  masks_for (fun g p => existsb (fun e => (snd (fst e) =? g) && dd_minimize X (fst e) && snd e p) P).
Definition minimized (cand occl active : fields bool) : fields bool :=
  masks_for (fun g =>
    let c := cart_of g in
    if 0 <? dd_fringe X g
    then let removable := array_of c (erode c (dd_fringe X g) (fun q => mask_of occl g q || negb (mask_of active g q))) in
         fun p => mask_of cand g p && (removable p && mask_of active g p)
    else mask_of cand g).
Definition inner_fringe (mn active : fields bool) : fields bool :=
  masks_for (fun g => if 0 <? dd_fringe X g
    then fun p => dilate (cart_of g) (dd_fringe X g) (mask_of mn g) p && (mask_of active g p && negb (mask_of mn g p))
    else fun _ => false).

(** 4330-4374 *)
Definition max_distance (g : Z) : Z := fold_left (fun a k => if fst k =? g then Z.max a (1 + dd_padding X k) else a) (fo_pairs V) 1.
Fixpoint measure (c : cart) (recv : mask) (mx : Z) (rounds : nat) (d : Z) (cover : mask) (dist : list Z) : list Z :=
  match rounds with
  | O => dist
  | S r =>
    let dist' := each c (fun p => let v := value 0 c dist p in if (v =? mx) && cover p then (if recv p then - d else d) else v) in
    measure c recv mx r (d + 1) (array_of c (dilate c 1 cover)) dist'
  end.
Definition distances (recv : fields bool) : fields Z :=
  for_grids (fun g => let c := cart_of g in let mx := max_distance g in
    measure c (mask_of recv g) mx (Z.to_nat mx) 0 (array_of c (inner_edge c (mask_of recv g))) (each c (fun _ => mx))).

(** 4380-4452 (C85): the least distance of the vertices of the cells; one for each overlapped point. *)
Definition least (l : list Z) : Z := match l with [] => 0 | x :: t => fold_left Z.min t x end.
Definition occ_of (o : OccModel.occludes) : CellModel.occludes :=
  match o with O_NONE => OCC_NONE | O_ALL => OCC_ALL | O_COARSE => OCC_COARSE end.
Definition with_cells (k : Z * Z) : list (tup Z) := filter (has_cell k) (RangeModel.foreach_col (c_range (cart_of (snd k)))).
Definition cell_distance (dist : fields Z) (k : Z * Z) (p : tup Z) : Z :=
  least (map (value 0 (cart_of (fst k)) (values dist (fst k))) (match fo_vertices V k p with Some vs => vs | None => [] end)).
Definition donor_data (P : pair_masks) (dist : fields Z) (k : Z * Z) : overlap :=
  Overlap (fst k) (dd_connects X k) (dd_disjoint X k) (dd_padding X k) (each (cart_of (snd k)) (has_cell k)) (each (cart_of (snd k)) (pair_mask P k))
    (map (cell_distance dist k) (with_cells k)) (map (fo_interp V k) (with_cells k)).
(** 4463-4550 *)
Definition donors (recv : fields bool) (P : pair_masks) (dist : fields Z) : option (list (Z * list donor_state)) :=
  omap (fun g => let! d := choose_donors (fun a b => occ_of (dd_occludes X (a, b))) (c_range (cart_of g)) (c_range (cart_of g)) (values recv g)
                             (map (donor_data P dist) (pairs_to g)) in
                 Some (g, d)) (dd_grids X).
(** 4557-4568 *)
Definition orphans (recv : fields bool) (D : list (Z * list donor_state)) : fields bool :=
  masks_for (fun g p => mask_of recv g p && (s_id (value (DS (-1) 0%Q 0%Q) (cart_of g) (values D g) p) <? 0)).

(** What HoleModel and OccModel are given. *)
Definition hole_data (active boundary : fields bool) : hdata :=
  HD (dd_grids X) cart_of (fo_pairs V) (fo_vertices V) (pair_mask overlap_masks) (mask_of active) (mask_of boundary) (dd_cut X).
Definition occlusion_data (P : pair_masks) (outer active : fields bool) : odata :=
  OD (dd_grids X) cart_of (fo_pairs V) (fo_vertices V) (pair_mask P) (fo_interp V) (dd_volume X) (mask_of outer) (mask_of active)
    (dd_occludes X) (dd_padding X) (dd_smoothing X).
End Overlap.

Definition either (a b : fields bool) : fields bool := masks_for (fun g p => mask_of a g p || mask_of b g p).
(** The masks of a stage for all grids as fields. *)
Definition as_fields (r : list (Z * mask)) : fields bool := masks_for (fun g => match find (fun e => fst e =? g) r with Some e => snd e | None => fun _ => false end).

(** The result: flags, distances and donors; with it what the parts of the assembly found, for the record. *)
Record assembled : Type := Assembled { as_flags : fields Z; as_distances : fields Z; as_donors : list (Z * list donor_state);
  as_found : found; as_holes : fields bool; as_outer : fields bool; as_occluded : fields bool; as_cand : fields bool; as_removed : fields bool;
  as_receivers : fields bool }.

(** Assemble, 82-119.  [fuel] bounds the loops of HoleModel: None if that is not enough, or for a pair of
    grids that OccModel reads and that does not exist. *)
Definition assembly (junk : mask) (fuel : nat) (F : fields Z) : option assembled :=
  let f1 := initialized F in
  let act1 := flag_mask f1 active_of in
  let bnd1 := flag_mask f1 domain_boundary_of in
  let V := dd_detect X act1 in
  let f2 := set_flags f1 (overlapped_by_any V) flag_overlapped in
  let inf := inferred V act1 bnd1 in
  let f3 := set_flags f2 inf flag_inferred in
  let! holes := cut_holes (hole_data V act1 (either bnd1 inf)) fuel in
  let hole := as_fields holes in
  let f4 := set_flags f3 hole flag_hole in
  let act4 := flag_mask f4 active_of in
  let ov4 := updated V (overlap_masks V) act4 in
  let out := outer_fringe act4 (either (flag_mask f4 domain_boundary_of) (flag_mask f4 internal_boundary_of)) in
  let f5 := set_flags f4 out flag_outer in
  let D := occlusion_data V ov4 out act4 in
  let! pairwise := pairwise_masks D junk in
  let occl := as_fields (map (fun g => (g, any_for g pairwise)) (dd_grids X)) in
  let f6 := set_flags f5 occl flag_occluded in
  let cand := to_minimize pairwise in
  let mn := minimized cand occl act4 in
  let inn := inner_fringe mn act4 in
  let f7 := for_grids (fun g => each (cart_of g) (fun p => flag_minimized (mask_of mn g p) (mask_of inn g p) (value 0 (cart_of g) (values f6 g) p))) in
  let act7 := flag_mask f7 active_of in
  let out7 := masks_for (fun g p => mask_of out g p && mask_of act7 g p) in
  let ov7 := updated V ov4 act7 in
  let recv := masks_for (fun g p => mask_of out7 g p || mask_of inn g p || (mask_of occl g p && mask_of act7 g p)) in
  let dist := distances V recv in
  let! don := donors V recv ov7 dist in
  let orph := orphans recv don in
  let f8 := for_grids (fun g => each (cart_of g) (fun p => flag_receiver (mask_of recv g p) (mask_of orph g p) (value 0 (cart_of g) (values f7 g) p))) in
  Some (Assembled f8 dist don V hole out occl cand mn recv).
End Assembly.
