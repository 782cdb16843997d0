(** What coordinates and volumes are on a domain: functions of its points and cells. *)
From Coq Require Import List ZArith QArith Bool.
From Verif Require Import TupleModel RangeModel RangeProof CartModel CartProof DecompModel IndexerModel ArrayModel HashModel NetModel NetSpec NeighSpec HaloModel FieldSpec GeomModel GedModel.
Import ListNotations.
Local Open Scope Z_scope.

(** The number of periods between a point and the domain *)
Definition periods (c : cart) (p : tup Z) (d : nat) : Z := if tget (c_per c) d then (tget p d - tget (rb (c_range c)) d) / per_len c d else 0.
(** The place of a point if those of the domain are at [X]: an image is as many lengths away as there are periods. *)
Definition placed (c : cart) (len : tup Q) (X : tup Z -> tup Q) (p : tup Z) : tup Q :=
  if rcontains (c_range c) p then X p else tmake (fun d => tget (X (wrap c p)) d + inject_Z (periods c p d) * tget len d)%Q.

(** The cells with a point as a vertex: in directions that are not periodic, those of the domain *)
Definition cells_of (c : cart) (p : tup Z) : range :=
  let cr := c_range (cart_point_to_cell c) in
  mkR (tmake (fun d => if Nat.ltb d (c_nd c) then if tget (c_per c) d then tget p d - 1 else Z.max (tget p d - 1) (tget (rb cr) d) else 0))
      (tmake (fun d => if Nat.ltb d (c_nd c) then if tget (c_per c) d then tget p d + 1 else Z.min (tget p d + 1) (tget (re cr) d) else 1)).
Definition point_volume (c : cart) (vol : tup Z -> Q) (p : tup Z) : Q :=
  (fold_left Qplus (map (fun q => vol (wrap (cart_point_to_cell c) q)) (RangeModel.foreach_col (cells_of c p))) 0 / inject_Z (rcount (cells_of c p)))%Q.

(** Exchanging values of cells gives the values of the owners. *)
Definition exchanges (c : cart) (n : nat) (L E : nat -> range) (N : nat -> list nat) (H : nat -> hmap) : Prop :=
  forall (V : Type) (F : nat -> list V) m, holds n L E F m ->
    exists F', phase_ok n halo_exchange (fun r => (H r, F r)) (fun r => (H r, F' r)) /\ agrees c n L E N F' m.
Definition cells_local (c : cart) (L : nat -> range) (r : nat) : range := range_point_to_cell c (L r).
Definition cells_extended (c : cart) (L : nat -> range) (r : nat) : range := grid_cell_extended c (L r).
Definition points_extended (c : cart) (L : nat -> range) (r : nat) : range := grid_extended c (L r).

(** A grid on n ranks, each of which has a cell *)
Definition gridded (c : cart) (n : nat) (L : nat -> range) (N : nat -> list nat) (H CH : nat -> hmap) : Prop :=
  partitioned c n L (points_extended c L) N H /\ (forall r, (r < n)%nat -> rempty (cells_local c L r) = false) /\
  exchanges (cart_point_to_cell c) n (cells_local c L) (cells_extended c L) N CH.

(** A geometry whose coordinates at owned points are [X], whatever they are elsewhere *)
Definition edited (c : cart) (n : nat) (L : nat -> range) (H CH : nat -> hmap) (len : tup Q) (X : tup Z -> tup Q) (S : nat -> gst) : Prop :=
  (forall r, (r < n)%nat -> g_h (S r) = H r /\ g_ch (S r) = CH r /\ g_len (S r) = len /\
     Z.of_nat (length (g_cv (S r))) = rcount (cells_extended c L r) /\ Z.of_nat (length (g_v (S r))) = rcount (points_extended c L r)) /\
  holds n L (points_extended c L) (fun r => g_x (S r)) (fun p => c0 (X p)) /\
  holds n L (points_extended c L) (fun r => g_y (S r)) (fun p => c1 (X p)) /\
  holds n L (points_extended c L) (fun r => g_z (S r)) (fun p => c2 (X p)).

(** The owner of the point of the domain is at hand. *)
Definition at_hand (c : cart) (n : nat) (L : nat -> range) (N : nat -> list nat) (r : nat) (p : tup Z) : Prop :=
  exists q u, (q < n)%nat /\ pt_in (L q) u /\ is_image c p u /\ (q = r \/ In q (N r)).
(** A geometry that is up to date: coordinates of all points, volumes of all cells and points. *)
Definition up_to_date (g : geometry) (c : cart) (n : nat) (L : nat -> range) (N : nat -> list nat) (len : tup Q) (X : tup Z -> tup Q) (S : nat -> gst) : Prop :=
  let vol := cell_volume g (c_nd c) (placed c len X) in
  (forall r p, (r < n)%nat -> pt_in (points_extended c L r) p -> at_hand c n L N r p ->
     at_ (points_extended c L r) (g_x (S r)) p = Some (c0 (placed c len X p)) /\
     at_ (points_extended c L r) (g_y (S r)) p = Some (c1 (placed c len X p)) /\
     at_ (points_extended c L r) (g_z (S r)) p = Some (c2 (placed c len X p)) /\
     at_ (points_extended c L r) (g_v (S r)) p = Some (point_volume c vol (wrap c p))) /\
  (forall r p, (r < n)%nat -> pt_in (cells_extended c L r) p -> at_hand (cart_point_to_cell c) n (cells_local c L) N r p ->
     at_ (cells_extended c L r) (g_cv (S r)) p = Some (vol (wrap (cart_point_to_cell c) p))).

(** Points at their indices; a component of the coordinates *)
Definition indices (p : tup Z) : tup Q := T3 (inject_Z (c0 p)) (inject_Z (c1 p)) (inject_Z (c2 p)).
Definition component (d : nat) (s : gst) : list Q := match d with 0 => g_x s | 1 => g_y s | _ => g_z s end%nat.
