(** Cells and points: model of src/core/GeometricPrimitiveOpsLine.inl, GeometricPrimitiveOpsQuad.inl,
    GeometricPrimitiveOpsHex.inl and GeometryOps.inl (OverlapsCell, CoordsInCell, CellVolume, CellBounds), with the
    solvers and shape functions of Math.inl.

    Simplifications: doubles are rationals and arithmetic is exact, except that a division by zero gives an infinity or
    not-a-number, as in IEEE arithmetic with the divisor +0; the derivatives of the cubic shape functions
    (Math.inl 98-121, which factors them with rounded roots) are exact; the functions for one, two and three dimensions are one
    function of the dimension, and an elem<double,2> is a tuple with a third component that is not used; coordinates are functions of the
    point, with the extents of the fields as a separate argument (a field is read only inside of them); in one dimension
    the loop of CURVILINEAR CoordsInCell reads the field by its linear index, which is not modelled since it is never
    reached (see GeomProps). *)
From Coq Require Import List ZArith QArith Qabs Bool.
From Verif Require Import TupleModel RangeModel CartModel DecompModel ArrayModel HashModel.
Import ListNotations.
Local Open Scope Q_scope.

(** ** Numbers *)

Inductive num : Type := Fin (q : Q) | Inf (positive : bool) | NaN.

Definition q_lt (x y : Q) : bool := negb (Qle_bool y x).

Definition ndiv (a b : Q) : num :=
  if Qeq_bool b 0 then if Qeq_bool a 0 then NaN else Inf (q_lt 0 a) else Fin (a / b).

Definition nadd (a b : num) : num :=
  match a, b with
  | Fin x, Fin y => Fin (x + y)
  | NaN, _ | _, NaN => NaN
  | Inf p, Inf q => if Bool.eqb p q then Inf p else NaN
  | Inf p, Fin _ | Fin _, Inf p => Inf p
  end.

Definition nlt (a b : num) : bool :=
  match a, b with
  | Fin x, Fin y => q_lt x y
  | NaN, _ | _, NaN => false
  | Inf p, Inf q => negb p && q
  | Inf p, Fin _ => negb p
  | Fin _, Inf p => p
  end.

Definition finite (a : num) : option Q := match a with Fin x => Some x | _ => None end.

(** ** Linear algebra: Math.inl 30-73; the 1-dimensional case: GeometricPrimitiveOpsLine.inl 48-53 *)

Definition det (nd : nat) (a : tup (tup Q)) : Q :=
  let I := c0 a in let J := c1 a in let K := c2 a in
  match nd with
  | 1%nat => c0 I
  | 2%nat => c0 I * c1 J - c1 I * c0 J
  | _ => c0 I * (c1 J * c2 K - c2 J * c1 K) + c0 J * (c1 K * c2 I - c2 K * c1 I) + c0 K * (c1 I * c2 J - c2 I * c1 J)
  end.

Definition solve (nd : nat) (a : tup (tup Q)) (b : tup Q) : list num :=
  map (fun d => ndiv (det nd (tset a d b)) (det nd a)) (seq 0 nd).

Definition vsub (a b : tup Q) : tup Q := tmake (fun d => tget a d - tget b d).
Definition vadd (a b : tup Q) : tup Q := tmake (fun d => tget a d + tget b d).
Definition vsum (l : list Q) : Q := fold_left Qplus l 0.
Definition vdot (nd : nat) (a b : tup Q) : Q := vsum (map (fun d => tget a d * tget b d) (seq 0 nd)).

(** ** Vertices *)

(** The vertices of a cell, in order: GeometryOps.inl 120-131, 143-156 and the same loops elsewhere. *)
Definition offset (i : nat) : tup Z :=
  T3 (Z.of_nat (i mod 2)) (Z.of_nat ((i / 2) mod 2)) (Z.of_nat ((i / 4) mod 2)).
Definition node (X : tup Z -> tup Q) (cell : tup Z) (i : nat) : tup Q := X (tadd cell (offset i)).
(** UpperCornerOffset *)
Definition upper (nd : nat) : nat := match nd with 1%nat => 1%nat | 2%nat => 3%nat | _ => 7%nat end.

(** ** Local coordinates in cells with parallel edges *)

(** Line.inl 7-21, Quad.inl 7-30, Hex.inl 7-33 *)
Definition iso_uniform (nd : nat) (lo hi u : tup Q) : tup Q :=
  tmake (fun d => if Nat.ltb d nd then (1 - tget u d) * tget lo d + tget u d * tget hi d else 0).
Definition uniform_inverse (nd : nat) (lo hi x : tup Q) : list num :=
  map (fun d => ndiv (tget x d - tget lo d) (tget hi d - tget lo d)) (seq 0 nd).

(** The edges from the first vertex: I, J, K *)
Definition edge (p : nat -> tup Q) (d : nat) : tup Q :=
  vsub (p (match d with 0%nat => 1%nat | 1%nat => 2%nat | _ => 4%nat end)) (p 0%nat).

(** Quad.inl 32-75, Hex.inl 35-88 *)
Definition iso_oriented (nd : nat) (p : nat -> tup Q) (u : tup Q) : tup Q :=
  let s := vsum (map (fun d => tget u d) (seq 0 nd)) in
  tmake (fun d => if Nat.ltb d nd
                  then vsum ((1 - s) * tget (p 0%nat) d ::
                             map (fun e => tget u e * tget (p (match e with 0%nat => 1%nat | 1%nat => 2%nat | _ => 4%nat end)) d) (seq 0 nd))
                  else 0).
Definition oriented_inverse (nd : nat) (p : nat -> tup Q) (x : tup Q) : list num :=
  map (fun d => ndiv (vdot nd (vsub x (p 0%nat)) (edge p d)) (vdot nd (edge p d) (edge p d))) (seq 0 nd).

(** ** Tests *)

(** Line.inl 70-83, Quad.inl 242-274, Hex.inl 276-308 *)
Definition in_bounds (tol : Q) (u : list num) : bool :=
  forallb (fun a => negb (nlt a (Fin (- tol))) && negb (nlt (Fin (1 + tol)) a)) u.

(** Quad.inl 302-311, Hex.inl 347-356 *)
Fixpoint in_simplex (tol : Q) (sum : num) (u : list num) : bool :=
  match u with
  | [] => true
  | a :: u => let sum := nadd sum a in
              if nlt a (Fin (- tol)) || nlt (Fin (1 + tol)) sum then false else in_simplex tol sum u
  end.

(** Quad.inl 280-283, Hex.inl 314-321 *)
Definition simplices (nd : nat) : list (list nat) :=
  match nd with
  | 2%nat => [[0; 1; 2]; [3; 2; 1]]
  | _ => [[0; 1; 2; 4]; [1; 2; 4; 5]; [2; 4; 5; 6]; [1; 2; 5; 3]; [2; 5; 3; 6]; [3; 6; 5; 7]]
  end%nat.

(** Quad.inl 286-301, Hex.inl 324-346: the vectors from the first vertex to the others *)
Definition spans (p : nat -> tup Q) (s : list nat) : tup (tup Q) :=
  tmake (fun d => vsub (p (nth (S d) s 0%nat)) (p (nth 0 s 0%nat))).

(** Quad.inl 276-317, Hex.inl 310-362 *)
Definition overlaps_simplices (nd : nat) (p : nat -> tup Q) (x : tup Q) (tol : Q) : bool :=
  existsb (fun s => in_simplex tol (Fin 0) (solve nd (spans p s) (vsub x (p (nth 0 s 0%nat))))) (simplices nd).

(** GeometryBase.hpp: geometry_type *)
Inductive geometry : Type := UNIFORM | ORIENTED_UNIFORM | RECTILINEAR | ORIENTED_RECTILINEAR | CURVILINEAR.

(** GeometryOps.inl 23-240 *)
Definition overlaps_cell (g : geometry) (nd : nat) (X : tup Z -> tup Q) (tol : Q) (cell : tup Z) (x : tup Q) : bool :=
  let p := node X cell in
  let uniform := in_bounds tol (uniform_inverse nd (p 0%nat) (p (upper nd)) x) in
  if Nat.eqb nd 1 then uniform
  else match g with
       | UNIFORM | RECTILINEAR => uniform
       | ORIENTED_UNIFORM | ORIENTED_RECTILINEAR => in_bounds tol (oriented_inverse nd p x)
       | CURVILINEAR => overlaps_simplices nd p x tol
       end.

(** ** Inversion of the cubic mapping *)

(** Math.inl 75-121 *)
Definition linear (u : Q) : list Q := [1 - u; u].
Definition linear_deriv (u : Q) : list Q := [-1; 1].
Definition cubic (u : Q) : list Q :=
  [- (u * (u - 1) * (u - 2)) / 6; ((u + 1) * (u - 1) * (u - 2)) / 2;
   - ((u + 1) * u * (u - 2)) / 2; ((u + 1) * u * (u - 1)) / 6].
Definition cubic_deriv (u : Q) : list Q :=
  [- (u * u - 2 * u + (2 # 3)) / 2; (3 * (u * u) - 4 * u - 1) / 2;
   - (3 * (u * u) - 2 * u - 2) / 2; (u * u - (1 # 3)) / 2].

(** The weights of the nodes for shape functions in each dimension, in the order of the loops
    (Quad.inl 82-106, 176-191, Hex.inl 105-120, 200-215, Line.inl 23-36). *)
Definition weights (s : tup (list Q)) : list Q :=
  flat_map (fun k => flat_map (fun j => map (fun i => i * j * k) (c0 s)) (c1 s)) (c2 s).
Definition shapes (nd : nat) (f : Q -> list Q) (u : tup Q) : tup (list Q) :=
  tmake (fun d => if Nat.ltb d nd then f (tget u d) else [1]).
Definition weighted (nd : nat) (ws : list Q) (p : list (tup Q)) : tup Q :=
  tmake (fun d => if Nat.ltb d nd then vsum (map (fun wv => fst wv * tget (snd wv) d) (combine ws p)) else 0).
Definition iso (nd : nat) (f : Q -> list Q) (p : list (tup Q)) (u : tup Q) : tup Q := weighted nd (weights (shapes nd f u)) p.

(** Quad.inl 129-143, 214-228, Hex.inl 145-163, 240-258, Line.inl 48-52 *)
Definition jacobian (nd : nat) (f f' : Q -> list Q) (p : list (tup Q)) (u : tup Q) : tup (tup Q) :=
  tmake (fun e => weighted nd (weights (tmake (fun d => if Nat.ltb d nd then (if Nat.eqb d e then f' else f) (tget u d) else [1]))) p).

Definition small (nd : nat) (tol : Q) (e : tup Q) : bool := forallb (fun d => Qle_bool (Qabs (tget e d)) tol) (seq 0 nd).

(** Line.inl 38-68, Quad.inl 108-160, 193-240, Hex.inl 122-185, 217-274.  If the Jacobian is singular, the local
    coordinates are not finite and never converge. *)
Fixpoint newton (nd : nat) (f f' : Q -> list Q) (p : list (tup Q)) (x : tup Q) (tol : Q) (steps : nat) (u : tup Q) : option (tup Q) :=
  let e := vsub x (iso nd f p u) in
  if small nd tol e then Some u
  else match steps with
       | O => None
       | S k =>
           let! du := omap finite (solve nd (jacobian nd f f' p u) e) in
           newton nd f f' p x tol k (vadd u (tmake (fun d => nth d du 0)))
       end.

(** GeometricPrimitiveOps.hpp 23-24, 40-41, 47-48, 64-65, 71-72 *)
Definition NEWTON_TOL : Q := 1 # 1000000000000.
Definition NEWTON_STEPS : nat := 100.
Definition halves (nd : nat) : tup Q := tmake (fun d => if Nat.ltb d nd then 1 # 2 else 0).

(** GeometryOps.inl 439-441, 478-481, 522-525 *)
Definition shifted (nd : nat) (E : range) (cell : tup Z) : tup Z :=
  tmake (fun d => if Nat.ltb d nd then Z.min (Z.max (tget cell d) (tget (rb E) d + 1)) (tget (re E) d - 3) else tget cell d)%Z.

(** GeometryOps.inl 443-444, 482-486, 526-530 *)
Definition stencil_fits (nd : nat) (E : range) (cell : tup Z) : bool :=
  let s := shifted nd E cell in
  if Nat.eqb nd 1
  then ((c0 s - 1 <? c0 (rb E)) && (c0 (re E) <=? c0 s + 2))%Z
  else forallb (fun d => negb ((tget s d - 1 <? tget (rb E) d) || (tget (re E) d <=? tget s d + 2)))%Z (seq 0 nd).

(** GeometryOps.inl 448-453, 491-502, 535-549 *)
Definition stencil (nd : nat) (X : tup Z -> tup Q) (s : tup Z) : list (tup Q) :=
  map X (foreach_col (mkR (tmake (fun d => if Nat.ltb d nd then tget s d - 1 else 0)%Z) (tmake (fun d => if Nat.ltb d nd then tget s d + 3 else 1)%Z))).

(** GeometryOps.inl 242-571; local coordinates that are not finite are None here. *)
Definition coords_in_cell (g : geometry) (nd : nat) (E : range) (X : tup Z -> tup Q) (cell : tup Z) (x : tup Q) : option (tup Q) :=
  let p := node X cell in
  let some_of (u : list num) := let! l := omap finite u in Some (tmake (fun d => nth d l 0)) in
  let uniform := some_of (uniform_inverse nd (p 0%nat) (p (upper nd)) x) in
  match g with
  | UNIFORM => uniform
  | ORIENTED_UNIFORM => if Nat.eqb nd 1 then uniform else some_of (oriented_inverse nd p x)
  | RECTILINEAR | ORIENTED_RECTILINEAR | CURVILINEAR =>
      if stencil_fits nd E cell
      then let s := shifted nd E cell in
           let! u := newton nd cubic cubic_deriv (stencil nd X s) x NEWTON_TOL NEWTON_STEPS (halves nd) in
           Some (tmake (fun d => if Nat.ltb d nd then tget u d + inject_Z (tget s d - tget cell d) else 0))
      else None
  end.

(** ** Volumes and bounds *)

(** Line.inl 85-89, Quad.inl 319-375, Hex.inl 364-440 *)
Definition volume_simplices (nd : nat) (p : nat -> tup Q) : Q :=
  vsum (map (fun s => Qabs (det nd (spans p s)) / (match nd with 2%nat => 2 | _ => 6 end)) (simplices nd)).

(** GeometryOps.inl 573-753 *)
Definition cell_volume (g : geometry) (nd : nat) (X : tup Z -> tup Q) (cell : tup Z) : Q :=
  let p := node X cell in
  let uniform := fold_left (fun v d => v * (tget (p (upper nd)) d - tget (p 0%nat) d)) (seq 0 nd) 1 in
  if Nat.eqb nd 1 then uniform
  else match g with
       | UNIFORM | RECTILINEAR => uniform
       | ORIENTED_UNIFORM | ORIENTED_RECTILINEAR => Qabs (det nd (tmake (edge p)))
       | CURVILINEAR => volume_simplices nd p
       end.

(** Elem.hpp 83-87, Interval.hpp 31: a box that is declared without a value has indeterminate coordinates (None). *)
Definition loose_box : Type := (tup (option Q) * tup (option Q))%type.

(** Box.inl 22-41 on determinate boxes: see FragModel and BoxModel. *)
Definition extend (b : option (tup Q * tup Q)) (x : tup Q) : option (tup Q * tup Q) :=
  match b with
  | None => Some (x, x)
  | Some (lo, hi) => Some (tmake (fun d => if q_lt (tget lo d) (tget x d) then tget lo d else tget x d),
                           tmake (fun d => if q_lt (tget x d) (tget hi d) then tget hi d else tget x d))
  end.

(** GeometryOps.inl 755-945 *)
Definition geometry_bounds (g : geometry) (nd : nat) (X : tup Z -> tup Q) (cell : tup Z) : loose_box :=
  let p := node X cell in
  let flat (x : tup Q) : tup Q := tmake (fun d => if Nat.ltb d nd then tget x d else 0) in
  if Nat.eqb nd 1
  then (T3 (Some (c0 (p 0%nat))) None None, T3 (Some (c0 (p 1%nat))) None None)
  else match g with
       | UNIFORM | RECTILINEAR => (tmake (fun d => Some (tget (flat (p 0%nat)) d)), tmake (fun d => Some (tget (flat (p (upper nd))) d)))
       | _ => match fold_left extend (map (fun i => flat (p i)) (seq 0 (S (upper nd)))) None with
              | Some (lo, hi) => (tmake (fun d => Some (tget lo d)), tmake (fun d => Some (tget hi d)))
              | None => (tmake (fun _ => None), tmake (fun _ => None))
              end
       end.
