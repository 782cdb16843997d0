(** What happens to a geometry when its coordinates have been edited: src/core/Geometry.cpp 53-85 (constructor), 122-137 (SetPeriodicLength), 170-270 (compute_cell_volumes, OnCoordsEndEdit_).

    Simplifications: coordinates and volumes are rationals and arithmetic is exact; the three exchanges of coordinates, which are in progress at the same time, follow each other;
    events and logging are left out (events: C32, C42); an average over no cells, not-a-number in the code, is None. *)
From Coq Require Import List ZArith QArith Bool.
From Verif Require Import TupleModel RangeModel CartModel DecompModel IndexerModel ArrayModel HashModel NetModel HaloModel LiftModel GeomModel.
Import ListNotations.
Local Open Scope Z_scope.

(** The halo maps of the partitions of points and cells; PeriodicLength_, Coords_, CellVolumes_, Volumes_ *)
Record gst : Type := Gst { g_h : hmap; g_ch : hmap; g_len : tup Q; g_x : list Q; g_y : list Q; g_z : list Q; g_cv : list Q; g_v : list Q }.
Definition get_x (s : gst) : option (hmap * list Q) := Some (g_h s, g_x s).
Definition get_y (s : gst) : option (hmap * list Q) := Some (g_h s, g_y s).
Definition get_z (s : gst) : option (hmap * list Q) := Some (g_h s, g_z s).
Definition get_cv (s : gst) : option (hmap * list Q) := Some (g_ch s, g_cv s).
Definition get_v (s : gst) : option (hmap * list Q) := Some (g_h s, g_v s).
Definition put_x (s : gst) (a : hmap * list Q) : gst := Gst (fst a) (g_ch s) (g_len s) (snd a) (g_y s) (g_z s) (g_cv s) (g_v s).
Definition put_y (s : gst) (a : hmap * list Q) : gst := Gst (fst a) (g_ch s) (g_len s) (g_x s) (snd a) (g_z s) (g_cv s) (g_v s).
Definition put_z (s : gst) (a : hmap * list Q) : gst := Gst (fst a) (g_ch s) (g_len s) (g_x s) (g_y s) (snd a) (g_cv s) (g_v s).
Definition put_cv (s : gst) (a : hmap * list Q) : gst := Gst (g_h s) (fst a) (g_len s) (g_x s) (g_y s) (g_z s) (snd a) (g_v s).
Definition put_v (s : gst) (a : hmap * list Q) : gst := Gst (fst a) (g_ch s) (g_len s) (g_x s) (g_y s) (g_z s) (g_cv s) (snd a).

(** The value of a field at a point *)
Definition at_ (e : range) (l : list Q) (p : tup Z) : option Q := vread l (rindex ColMajor e p).

(** 212-224: beyond the domain, one component *)
Definition shift (c : cart) (e : range) (len : tup Q) (d : nat) (l : list Q) : option (list Q) :=
  omap (fun p => let! x := at_ e l p in
    if rcontains (c_range c) p then Some x
    else let! k := get_period c p in Some (x + inject_Z (tget k d) * tget len d)%Q) (RangeModel.foreach_col e).
Definition g_shift (c : cart) (L : nat -> range) (r : nat) (s : gst) : option gst :=
  let e := grid_extended c (L r) in
  let! x := shift c e (g_len s) 0 (g_x s) in
  let! y := shift c e (g_len s) 1 (g_y s) in
  let! z := shift c e (g_len s) 2 (g_z s) in
  Some (Gst (g_h s) (g_ch s) (g_len s) x y z (g_cv s) (g_v s)).

(** 171-190: compute_cell_volumes; the vertices of a cell must be points of the fields *)
Definition value (o : option Q) : Q := match o with Some x => x | None => 0%Q end.
Definition coords_at (e : range) (s : gst) (p : tup Z) : tup Q := T3 (value (at_ e (g_x s) p)) (value (at_ e (g_y s) p)) (value (at_ e (g_z s) p)).
Definition num_vertices (nd : nat) : nat := match nd with 1 => 2 | 2 => 4 | _ => 8 end%nat.
Definition volume_at (g : geometry) (nd : nat) (e : range) (s : gst) (cell : tup Z) : option Q :=
  if forallb (fun i => rcontains e (tadd cell (offset i))) (seq 0 (num_vertices nd)) then Some (cell_volume g nd (coords_at e s) cell) else None.
Definition g_cells (g : geometry) (c : cart) (L : nat -> range) (r : nat) (s : gst) : option gst :=
  let ce := grid_cell_extended c (L r) in
  let! l := omap (fun p => if rcontains (range_point_to_cell c (L r)) p then volume_at g (c_nd c) (grid_extended c (L r)) s p else at_ ce (g_cv s) p) (RangeModel.foreach_col ce) in
  Some (Gst (g_h s) (g_ch s) (g_len s) (g_x s) (g_y s) (g_z s) l (g_v s)).

(** 236-266: the average of the cells at a point *)
Definition cells_by (c : cart) (ce : range) (p : tup Z) : range :=
  intersect_ranges ce (mkR (tmake (fun d => if Nat.ltb d (c_nd c) then tget p d - 1 else 0)) (tmake (fun d => if Nat.ltb d (c_nd c) then tget p d + 1 else 1))).
Definition average (vs : list Q) (count : Z) : option Q := if count =? 0 then None else Some (fold_left Qplus vs 0 / inject_Z count)%Q.
Definition g_points (c : cart) (L : nat -> range) (r : nat) (s : gst) : option gst :=
  let e := grid_extended c (L r) in
  let ce := grid_cell_extended c (L r) in
  let! l := omap (fun p =>
    if rcontains (L r) p then let! vs := omap (at_ ce (g_cv s)) (RangeModel.foreach_col (cells_by c ce p)) in average vs (rcount (cells_by c ce p))
    else at_ e (g_v s) p) (RangeModel.foreach_col e) in
  Some (Gst (g_h s) (g_ch s) (g_len s) (g_x s) (g_y s) (g_z s) (g_cv s) l).

(** 193-270: OnCoordsEndEdit_ *)
Definition end_edit (g : geometry) (c : cart) (L : nat -> range) : list (phase gst (list Q)) :=
  lift get_x put_x [halo_exchange] ++ lift get_y put_y [halo_exchange] ++ lift get_z put_z [halo_exchange] ++
  [Local (g_shift c L); Local (g_cells g c L)] ++ lift get_cv put_cv [halo_exchange] ++ [Local (g_points c L)] ++ lift get_v put_v [halo_exchange].

(** 122-137: SetPeriodicLength *)
Definition set_length (len : tup Q) (s : gst) : gst := Gst (g_h s) (g_ch s) len (g_x s) (g_y s) (g_z s) (g_cv s) (g_v s).

(** 53-85: the constructor: coordinates are indices, volumes one *)
Definition created (h ch : hmap) (len : tup Q) (e ce : range) : gst :=
  let f d := map (fun p => inject_Z (tget p d)) (RangeModel.foreach_col e) in
  Gst h ch len (f 0%nat) (f 1%nat) (f 2%nat) (map (fun _ => 1%Q) (RangeModel.foreach_col ce)) (map (fun _ => 1%Q) (RangeModel.foreach_col e)).
