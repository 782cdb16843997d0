(** Boundary holes: model of src/core/AssemblerAssembly.cpp 2793-3268 (CutBoundaryHoles_ up to the flags), for all
    grids of a domain.

    Simplifications: as in OccModel, masks are those of the whole grids (C14, C47, C49 and C85 are about the parts of the
    processes and the messages, here from points to cells).  A mask is an array with a value for each point of
    its grid.  Logging, profiling and the update of the auxiliary data that follows (3269-3387, for that see C85) are left out. *)
From Coq Require Import List ZArith Bool.
From Verif Require Import TupleModel RangeModel IndexerModel ArrayModel CartModel HashModel OccModel.
Import ListNotations.
Local Open Scope Z_scope.

(** Grids, overlaps, cells and masks as in OccModel; points on the domain boundary; the option CutBoundaryHoles. *)
Record hdata : Type := HD {
  hd_grids : list Z; hd_cart : Z -> cart; hd_pairs : list (Z * Z);
  hd_vertices : Z * Z -> tup Z -> option (list (tup Z)); hd_overlap : Z * Z -> mask;
  hd_active : Z -> mask; hd_boundary : Z -> mask; hd_cut : Z * Z -> bool }.

(** The mask as an array. *)
Definition array_of (c : cart) (m : mask) : mask :=
  let l := map m (foreach_col (c_range c)) in
  fun p => match vread l (rindex ColMajor (c_range c) p) with Some b => b | None => false end.
Definition any_point (c : cart) (m : mask) : bool := existsb m (foreach_col (c_range c)).

(** DetectEdge (DistributedFieldOps.cpp 53-158) of the types used here: OUTER, which does not depend on
    what is beyond the boundary if that is FALSE or MIRROR; INNER with FALSE. *)
Definition outer_edge (c : cart) (m : mask) : mask := fun p => negb (m p) && dilate c 1 m p.
Definition at_side (c : cart) (p : tup Z) : bool :=
  existsb (fun d => negb (tget (c_per c) d) && ((tget p d =? tget (rb (c_range c)) d) || (tget p d =? tget (re (c_range c)) d - 1))) (seq 0 (c_nd c)).
Definition inner_edge (c : cart) (m : mask) : mask := fun p => m p && (dilate c 1 (fun q => negb (m q)) p || at_side c p).

(** FloodMask (DistributedFieldOps.cpp 459-500): points that are no barrier and can be reached. *)
Definition flood_step (c : cart) (barrier m : mask) : mask :=
  array_of c (fun p => m p || (negb (barrier p) && dilate c 1 (fun q => m q && negb (barrier q)) p)).
Definition flood (c : cart) (m barrier : mask) : mask := Nat.iter (length (foreach_col (c_range c))) (flood_step c barrier) (array_of c m).

Section Holes.
Variable X : hdata.
Notation cart_of := (hd_cart X).
Notation overlap := (hd_overlap X).

Definition has_pair (k : Z * Z) : bool := existsb (pair_eqb k) (hd_pairs X).
(** 2818-2834: the pairs (M,N) for which N is cut by M. *)
Definition cut_pairs : list (Z * Z) := filter (fun k => hd_cut X k && has_pair k && has_pair (swap k)) (list_prod (hd_grids X) (hd_grids X)).

(** 2875-2926, 2930-2983 and 3027-3108: values of the points of M that lie in cells of N are sent to N; a
    point of N gets the value true if it is a vertex of a cell with such a point. *)
Definition cover (k : Z * Z) (flag : mask) : mask :=
  let marked := flat_map (fun q => if flag q then match hd_vertices X (swap k) q with Some vs => vs | None => [] end else []) (foreach_col (c_range (cart_of (fst k)))) in
  array_of (cart_of (snd k)) (fun p => existsb (fun v => (c0 v =? c0 p) && (c1 v =? c1 p) && (c2 v =? c2 p)) marked).

(** 2993-3014: how often the cover has to be dilated to contain the outer edge of the overlap.  None: the
    loop has not ended after the given number of steps. *)
Fixpoint grow (fuel : nat) (c : cart) (cov unc : mask) (d : Z) : option Z :=
  match fuel with
  | O => None
  | S f =>
    if any_point c unc then
      let cov' := array_of c (dilate c 1 cov) in
      grow f c cov' (array_of c (fun p => unc p && negb (cov' p))) (d + 1)
    else Some d
  end.
Definition num_dilates (fuel : nat) (k : Z * Z) : option Z :=
  let c := cart_of (snd k) in
  let cov := cover k (inner_edge (cart_of (fst k)) (overlap (swap k))) in
  grow fuel c cov (array_of c (fun p => outer_edge c (overlap k) p && negb (cov p))) 0.

(** 3118-3137: the boundary of M on N. *)
Definition projected (k : Z * Z) (d : Z) : mask :=
  let c := cart_of (snd k) in
  let cov0 := array_of c (dilate c d (cover k (fun q => match hd_vertices X (swap k) q with Some _ => hd_boundary X (fst k) q | None => false end))) in
  let cov := array_of c (fun p => cov0 p && negb (overlap k p)) in
  array_of c (fun p => outer_edge c cov p && overlap k p).

(** 3170-3190: where flooding starts. *)
Definition seeds (k : Z * Z) (proj : mask) : mask :=
  let c := cart_of (snd k) in array_of c (fun p => outer_edge c proj p && overlap k p).

(** 3158-3229: the points that are removed from the grid g. *)
Definition removed (projs : list ((Z * Z) * mask)) (g : Z) : mask :=
  let c := cart_of g in
  let own := hd_boundary X g in
  let mine := filter (fun e => snd (fst e) =? g) projs in
  let boundary := array_of c (fun p => own p || existsb (fun e => snd e p) mine) in
  let starts := map (fun e => seeds (fst e) (snd e)) mine in
  let interior0 := array_of c (fun p => existsb (fun m => m p) starts) in
  if any_point c interior0 then
    let interior := flood c interior0 boundary in
    let kept_boundary := array_of c (fun p => boundary p && negb (own p && inner_edge c (hd_active X g) p && negb (outer_edge c interior p))) in
    array_of c (fun p => hd_active X g p && negb (interior p) && negb (kept_boundary p))
  else fun _ => false.

(** The points that become BOUNDARY_HOLE and inactive, for all grids (those that are not cut: none). *)
Definition cut_holes (fuel : nat) : option (list (Z * mask)) :=
  let! projs := omap (fun k => let! d := num_dilates fuel k in Some (k, projected k d)) cut_pairs in
  Some (map (fun g => (g, removed projs g)) (hd_grids X)).
End Holes.
