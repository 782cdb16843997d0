(** Occluded points: what they should be. *)
From Coq Require Import List ZArith QArith Bool.
From Verif Require Import TupleModel RangeModel RangeProof CartModel CartProof FieldSpec AsmSpec NeighSpec OccModel.
Import ListNotations.
Local Open Scope Z_scope.

Section Spec.
Variable X : odata.
Notation rng g := (c_range (od_cart X g)).

(** The grids store each of their points once; overlaps are between different grids of the domain; cells have their
    vertices on the M grid and exist for all points of the overlap mask; options are not negative. *)
Record odata_ok : Prop := OdataOk {
  oo_carts : forall g, cart_ok (od_cart X g) /\ stored_once (od_cart X g) /\
                       (forall d, (c_nd (od_cart X g) <= d < 3)%nat -> tget (c_per (od_cart X g)) d = false);
  oo_pairs : NoDup (od_pairs X) /\ forall k, In k (od_pairs X) -> fst k <> snd k;
  oo_vertices : forall k p vs v, od_vertices X k p = Some vs -> In v vs -> pt_in (rng (fst k)) v;
  oo_overlap : forall k p, od_overlap X k p = true -> od_vertices X k p <> None;
  oo_padding : forall k, 0 <= od_padding X k;
  oo_smoothing : forall g, 0 <= od_smoothing X g }.

(** M is asked to occlude N and overlaps it. *)
Definition occluding (k : Z * Z) : Prop := In k (od_pairs X) /\ od_occludes X k <> O_NONE.

(** Grids that are asked to occlude each other overlap each other, or not at all. *)
Definition complete : Prop := forall k, occluding k -> od_occludes X (swap k) <> O_NONE -> In (swap k) (od_pairs X).

(** The point p of N is overlapped by M, and coarser than M there. *)
Definition coarser (k : Z * Z) (p : tup Z) : Prop :=
  od_vertices X k p <> None /\ od_overlap X k p = true /\ ((1 + (1 # 10000000000)) * od_interp X k p < od_volume X (snd k) p)%Q.

Definition both_ways (k : Z * Z) : Prop := od_occludes X k = O_COARSE /\ od_occludes X (swap k) = O_COARSE.

(** All vertices of the cell for p satisfy P. *)
Definition on_cell (k : Z * Z) (p : tup Z) (P : tup Z -> Prop) : Prop := exists vs, od_vertices X k p = Some vs /\ forall v, In v vs -> P v.

(** What M occludes of N, before padding: if the two are asked to occlude what is coarser of each other, a point of the grid with the higher
    number where no vertex of its cell is coarser, and a point of the other grid where no vertex of its cell is occluded. *)
Definition marked (k : Z * Z) (p : tup Z) : Prop :=
  (od_occludes X k = O_ALL /\ od_overlap X k p = true) \/
  (od_occludes X k = O_COARSE /\ ~ both_ways k /\ coarser k p) \/
  (both_ways k /\ fst k < snd k /\ on_cell k p (fun v => ~ coarser (swap k) v)) \/
  (both_ways k /\ snd k < fst k /\ on_cell k p (fun v => ~ on_cell (swap k) v (fun q => ~ coarser k q))).

(** A point with P at most n points from u. *)
Definition near (g n : Z) (P : tup Z -> Prop) (u : tup Z) : Prop :=
  exists v, pt_in (rng g) v /\ P v /\ within (od_cart X g) n u v.

(** Points of M that it cannot occlude with. *)
Definition forbidden (k : Z * Z) (v : tup Z) : Prop :=
  od_fringe X (fst k) v = true \/
  (od_occludes X (swap k) <> O_NONE /\ (marked (swap k) v \/ od_active X (fst k) v = false)).

Definition kept (g : Z) (p : tup Z) : Prop :=
  exists m, occluding (m, g) /\ marked (m, g) p /\ on_cell (m, g) p (fun v => ~ near m (od_padding X (m, g)) (forbidden (m, g)) v).
Definition based (g : Z) (p : tup Z) : Prop := exists m, occluding (m, g) /\ marked (m, g) p.

(** Smoothing: also points at most s points from which there are only points that are at most s points from a point that is kept. *)
Definition occluded (g : Z) (p : tup Z) : Prop :=
  kept g p \/
  (od_smoothing X g <> 0 /\ based g p /\
   forall x, pt_in (rng g) x -> within (od_cart X g) (od_smoothing X g) p x -> near g (od_smoothing X g) (kept g) x).

(** The masks that come out. *)
Definition result_is (r : list (Z * mask)) (P : Z -> tup Z -> Prop) : Prop :=
  map fst r = od_grids X /\ forall g m p, In (g, m) r -> pt_in (rng g) p -> (m p = true <-> P g p).
End Spec.

(** The same domain without smoothing. *)
Definition unsmoothed (X : odata) : odata :=
  OD (od_grids X) (od_cart X) (od_pairs X) (od_vertices X) (od_overlap X) (od_interp X) (od_volume X) (od_fringe X) (od_active X)
    (od_occludes X) (od_padding X) (fun _ => 0).
