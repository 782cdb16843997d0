(** What it means for a point to be in a cell. *)
From Coq Require Import List ZArith QArith Qabs Bool.
From Verif Require Import TupleModel RangeModel.
From Verif Require GeomModel.  (* the enumeration of geometry types only *)
Import ListNotations.
Local Open Scope Q_scope.

Definition qtotal (l : list Q) : Q := fold_right Qplus 0 l.

(** x is a convex combination of the points, in the first nd coordinates. *)
Definition hull (nd : nat) (vs : list (tup Q)) (x : tup Q) : Prop :=
  exists ws, length ws = length vs /\ Forall (fun w => 0 <= w) ws /\ qtotal ws == 1 /\
    forall d, (d < nd)%nat -> tget x d == qtotal (map (fun wv => fst wv * tget (snd wv) d) (combine ws vs)).

(** The vertices of a cell, as offsets from the lowest one, and a unit step. *)
Definition corners (nd : nat) : list (tup Z) :=
  match nd with
  | 1%nat => [T3 0 0 0; T3 1 0 0]
  | 2%nat => [T3 0 0 0; T3 1 0 0; T3 0 1 0; T3 1 1 0]
  | _ => [T3 0 0 0; T3 1 0 0; T3 0 1 0; T3 1 1 0; T3 0 0 1; T3 1 0 1; T3 0 1 1; T3 1 1 1]
  end%Z.
Definition unit_step (d : nat) : tup Z := tmake (fun e => if Nat.eqb e d then 1 else 0)%Z.
Definition at_corners (X : tup Z -> tup Q) (cell : tup Z) (os : list (tup Z)) : list (tup Q) := map (fun o => X (tadd cell o)) os.

(** Coordinates within the tolerance of the unit interval. *)
Definition within (nd : nat) (tol : Q) (u : tup Q) : Prop := forall d, (d < nd)%nat -> - tol <= tget u d <= 1 + tol.

(** The vector from the lowest vertex to the next one along dimension e. *)
Definition side (X : tup Z -> tup Q) (cell : tup Z) (e : nat) (d : nat) : Q := tget (X (tadd cell (unit_step e))) d - tget (X cell) d.

(** x has the coordinates u in the coordinate system of the lowest vertex and the edges that meet there. *)
Definition located (nd : nat) (X : tup Z -> tup Q) (cell : tup Z) (u x : tup Q) : Prop :=
  forall d, (d < nd)%nat -> tget x d == tget (X cell) d + qtotal (map (fun e => tget u e * side X cell e d) (seq 0 nd)).

(** The cell is a parallelogram or parallelepiped. *)
Definition parallel (nd : nat) (X : tup Z -> tup Q) (cell : tup Z) : Prop :=
  forall o, In o (corners nd) -> located nd X cell (tmake (fun e => inject_Z (tget o e))) (X (tadd cell o)).

(** Its edges are perpendicular and not of length 0. *)
Definition inner (nd : nat) (f g : nat -> Q) : Q := qtotal (map (fun d => f d * g d) (seq 0 nd)).
Definition perpendicular (nd : nat) (X : tup Z -> tup Q) (cell : tup Z) : Prop :=
  (forall e, (e < nd)%nat -> ~ inner nd (side X cell e) (side X cell e) == 0) /\
  forall e e', (e < nd)%nat -> (e' < nd)%nat -> e <> e' -> inner nd (side X cell e) (side X cell e') == 0.

(** Its edges are along the axes and not of length 0. *)
Definition along_axes (nd : nat) (X : tup Z -> tup Q) (cell : tup Z) : Prop :=
  (forall e d, (e < nd)%nat -> (d < nd)%nat -> e <> d -> side X cell e d == 0) /\ forall d, (d < nd)%nat -> ~ side X cell d d == 0.

(** Twice the signed area of a triangle, six times the signed volume of a tetrahedron. *)
Definition signed_area (a b c : tup Q) : Q := (c0 b - c0 a) * (c1 c - c1 a) - (c1 b - c1 a) * (c0 c - c0 a).
Definition signed_volume (a b c d : tup Q) : Q :=
  let x := T3 (c0 b - c0 a) (c1 b - c1 a) (c2 b - c2 a) in
  let y := T3 (c0 c - c0 a) (c1 c - c1 a) (c2 c - c2 a) in
  let z := T3 (c0 d - c0 a) (c1 d - c1 a) (c2 d - c2 a) in
  c0 x * (c1 y * c2 z - c2 y * c1 z) - c1 x * (c0 y * c2 z - c2 y * c0 z) + c2 x * (c0 y * c1 z - c1 y * c0 z).

(** A convex quadrilateral: all corners turn the same way. *)
Definition convex (X : tup Z -> tup Q) (cell : tup Z) : Prop :=
  let p i j := X (tadd cell (T3 i j 0%Z)) in
  let turns := [signed_area (p 0 0) (p 1 0) (p 0 1); signed_area (p 1 0) (p 1 1) (p 0 0);
                signed_area (p 1 1) (p 0 1) (p 1 0); signed_area (p 0 1) (p 0 0) (p 1 1)]%Z in
  Forall (fun a => 0 < a) turns \/ Forall (fun a => a < 0) turns.

(** The triangles or tetrahedra into which a cell is divided, and the division of its lower faces. *)
Definition parts (nd : nat) : list (list (tup Z)) :=
  match nd with
  | 2%nat => [[T3 0 0 0; T3 1 0 0; T3 0 1 0]; [T3 1 1 0; T3 0 1 0; T3 1 0 0]]
  | _ => [[T3 0 0 0; T3 1 0 0; T3 0 1 0; T3 0 0 1]; [T3 1 0 0; T3 0 1 0; T3 0 0 1; T3 1 0 1]; [T3 0 1 0; T3 0 0 1; T3 1 0 1; T3 0 1 1];
          [T3 1 0 0; T3 0 1 0; T3 1 0 1; T3 1 1 0]; [T3 0 1 0; T3 1 0 1; T3 1 1 0; T3 0 1 1]; [T3 1 1 0; T3 0 1 1; T3 1 0 1; T3 1 1 1]]
  end%Z.
Definition lower_face (nd d : nat) : list (list (tup Z)) :=
  match nd, d with
  | 2%nat, 0%nat => [[T3 0 0 0; T3 0 1 0]]
  | 2%nat, _ => [[T3 0 0 0; T3 1 0 0]]
  | _, 0%nat => [[T3 0 0 0; T3 0 1 0; T3 0 0 1]; [T3 0 1 1; T3 0 1 0; T3 0 0 1]]
  | _, 1%nat => [[T3 0 0 0; T3 1 0 0; T3 0 0 1]; [T3 1 0 1; T3 1 0 0; T3 0 0 1]]
  | _, _ => [[T3 0 0 0; T3 1 0 0; T3 0 1 0]; [T3 1 1 0; T3 1 0 0; T3 0 1 0]]
  end%Z.

(** None of the parts is flat. *)
Definition proper (nd : nat) (X : tup Z -> tup Q) (cell : tup Z) : Prop :=
  forall part, In part (parts nd) ->
    match at_corners X cell part with
    | [a; b; c] => ~ signed_area a b c == 0
    | [a; b; c; d] => ~ signed_volume a b c d == 0
    | _ => False
    end.

(** The Lagrange polynomials of the nodes -1, 0, 1 and 2. *)
Definition lagrange (i : Z) (u : Q) : Q :=
  fold_right (fun j f => if Z.eqb i j then f else ((u - inject_Z j) / inject_Z (i - j)) * f) 1 [-1; 0; 1; 2]%Z.
(** The cubic through the 4^nd points around the cell s, at the coordinates u in that cell. *)
Definition cubic_map (nd : nat) (X : tup Z -> tup Q) (s : tup Z) (u : tup Q) (d : nat) : Q :=
  let nodes e := if Nat.ltb e nd then [-1; 0; 1; 2]%Z else [0%Z] in
  let weight e i := if Nat.ltb e nd then lagrange i (tget u e) else 1 in
  qtotal (map (fun k => qtotal (map (fun j => qtotal (map (fun i =>
    weight 0%nat i * weight 1%nat j * weight 2%nat k * tget (X (tadd s (T3 i j k))) d) (nodes 0%nat))) (nodes 1%nat))) (nodes 2%nat)).

(** The edges from the lowest vertex do not lie in a line or a plane. *)
Definition full (nd : nat) (X : tup Z -> tup Q) (cell : tup Z) : Prop :=
  match nd with
  | 1%nat => ~ side X cell 0 0 == 0
  | 2%nat => ~ signed_area (X cell) (X (tadd cell (unit_step 0))) (X (tadd cell (unit_step 1))) == 0
  | _ => ~ signed_volume (X cell) (X (tadd cell (unit_step 0))) (X (tadd cell (unit_step 1))) (X (tadd cell (unit_step 2))) == 0
  end.

(** Points inside extents; extents in dimensions that are not used do not count. *)
Definition in_extents (nd : nat) (E : range) (p : tup Z) : Prop :=
  forall d, (d < 3)%nat -> if Nat.ltb d nd then (tget (rb E) d <= tget p d < tget (re E) d)%Z else tget p d = 0%Z.

(** The cell around which cubic interpolation for a cell is centered: the cell itself, or the nearest one of which all
    4^nd points are inside of the extents. *)
Definition centered (nd : nat) (E : range) (cell s : tup Z) : Prop :=
  forall d, (d < 3)%nat -> if Nat.ltb d nd
    then (tget (rb E) d + 1 <= tget s d <= tget (re E) d - 3 /\
         (tget (rb E) d + 1 <= tget cell d <= tget (re E) d - 3 -> tget s d = tget cell d) /\
         (tget cell d < tget (rb E) d + 1 -> tget s d = tget (rb E) d + 1) /\
         (tget (re E) d - 3 < tget cell d -> tget s d = tget (re E) d - 3))%Z
    else tget s d = tget cell d.

(** The part E' of the extents E has all the points used for the cell, and at least four in each dimension. *)
Definition same_stencil (nd : nat) (E E' : range) (cell : tup Z) : Prop :=
  forall d, (d < 3)%nat -> if Nat.ltb d nd
    then (tget (rb E) d <= tget (rb E') d /\ tget (re E') d <= tget (re E) d /\
          tget (rb E') d <= tget cell d /\ tget cell d + 2 <= tget (re E') d /\ tget (rb E') d + 4 <= tget (re E') d /\
          (tget (rb E') d = tget (rb E) d \/ tget (rb E') d + 1 <= tget cell d) /\
          (tget (re E') d = tget (re E) d \/ tget cell d + 3 <= tget (re E') d))%Z
    else tget cell d = 0%Z.

(** The points are those of a lattice with the origin A and the steps B. *)
Definition lattice (nd : nat) (E : range) (X : tup Z -> tup Q) (A : tup Q) (B : tup (tup Q)) : Prop :=
  forall p, in_extents nd E p -> forall d, (d < nd)%nat ->
    tget (X p) d == tget A d + qtotal (map (fun e => inject_Z (tget p e) * tget (tget B e) d) (seq 0 nd)).
Definition at_lattice (nd : nat) (A : tup Q) (B : tup (tup Q)) (v : tup Q) (d : nat) : Q :=
  tget A d + qtotal (map (fun e => tget v e * tget (tget B e) d) (seq 0 nd)).
Definition solid_lattice (nd : nat) (B : tup (tup Q)) : Prop :=
  match nd with
  | 2%nat => ~ signed_area (T3 0 0 0) (c0 B) (c1 B) == 0
  | _ => ~ signed_volume (T3 0 0 0) (c0 B) (c1 B) (c2 B) == 0
  end.

(** The length, area or volume of a cell with parallel edges, and the area of a quadrilateral (half of the sum of x dy - y dx). *)
Definition measure (nd : nat) (X : tup Z -> tup Q) (cell : tup Z) : Q :=
  match nd with
  | 1%nat => Qabs (side X cell 0 0)
  | 2%nat => Qabs (signed_area (X cell) (X (tadd cell (unit_step 0))) (X (tadd cell (unit_step 1))))
  | _ => Qabs (signed_volume (X cell) (X (tadd cell (unit_step 0))) (X (tadd cell (unit_step 1))) (X (tadd cell (unit_step 2))))
  end.
Definition quad_area (X : tup Z -> tup Q) (cell : tup Z) : Q :=
  let p i j := X (tadd cell (T3 i j 0%Z)) in
  let turn a b := c0 a * c1 b - c1 a * c0 b in
  Qabs (turn (p 0 0)%Z (p 1 0)%Z + turn (p 1 0)%Z (p 1 1)%Z + turn (p 1 1)%Z (p 0 1)%Z + turn (p 0 1)%Z (p 0 0)%Z) / 2.

(** The edges go up along the axes. *)
Definition ascending (nd : nat) (X : tup Z -> tup Q) (cell : tup Z) : Prop :=
  along_axes nd X cell /\ forall d, (d < nd)%nat -> 0 < side X cell d d.

(** A box with the corners lo and hi (all of them determinate) is the smallest one around a set of points; it is flat in
    the dimensions that are not used. *)
Definition tight_box (nd : nat) (vs : list (tup Q)) (b : tup (option Q) * tup (option Q)) : Prop :=
  exists lo hi, b = (tmake (fun d => Some (tget lo d)), tmake (fun d => Some (tget hi d))) /\
    forall d, (d < 3)%nat -> if Nat.ltb d nd
      then (forall x, hull nd vs x -> tget lo d <= tget x d <= tget hi d) /\
           (exists v, In v vs /\ tget lo d == tget v d) /\ (exists v, In v vs /\ tget hi d == tget v d)
      else tget lo d = 0 /\ tget hi d = 0.

(** The edges of the cell are as the geometry type of its grid says. *)
Definition regular (g : GeomModel.geometry) (nd : nat) (X : tup Z -> tup Q) (cell : tup Z) : Prop :=
  match g with
  | GeomModel.UNIFORM | GeomModel.RECTILINEAR => along_axes nd X cell
  | GeomModel.ORIENTED_UNIFORM | GeomModel.ORIENTED_RECTILINEAR => perpendicular nd X cell
  | GeomModel.CURVILINEAR => nd = 1%nat /\ along_axes nd X cell
  end.

(** Cells interpolated by cubics. *)
Definition cubic_geometry (g : GeomModel.geometry) : Prop :=
  g = GeomModel.RECTILINEAR \/ g = GeomModel.ORIENTED_RECTILINEAR \/ g = GeomModel.CURVILINEAR.
(** The indices in unused dimensions are 0. *)
Definition corner_zero (nd : nat) (s : tup Z) : Prop := forall d, (nd <= d < 3)%nat -> tget s d = 0%Z.
