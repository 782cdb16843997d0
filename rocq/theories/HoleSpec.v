(** Boundary holes: what they should be. *)
From Coq Require Import List ZArith Bool Relations.
From Verif Require Import TupleModel RangeModel RangeProof CartModel CartProof FieldModel FieldSpec AsmSpec NeighSpec OccModel HoleModel.
Import ListNotations.
Local Open Scope Z_scope.

Section Spec.
Variable X : hdata.
Notation cart_of := (hd_cart X).
Notation rng g := (c_range (hd_cart X g)).

(** The grids store each of their points once; cells have their vertices on the grid. *)
Record hdata_ok : Prop := HdataOk {
  ho_carts : forall g, cart_ok (cart_of g) /\ stored_once (cart_of g) /\ (c_nd (cart_of g) <= 3)%nat /\
                       (forall d, (c_nd (cart_of g) <= d < 3)%nat -> tget (c_per (cart_of g)) d = false /\ tget (re (rng g)) d = tget (rb (rng g)) d + 1);
  ho_vertices : forall k p vs v, hd_vertices X k p = Some vs -> In v vs -> pt_in (rng (fst k)) v }.

(** M = fst k cuts N = snd k. *)
Definition cuts (k : Z * Z) : Prop :=
  In (fst k) (hd_grids X) /\ In (snd k) (hd_grids X) /\ hd_cut X k = true /\ In k (hd_pairs X) /\ In (swap k) (hd_pairs X).

(** p is a vertex of a cell of N in which a point of M with P lies. *)
Definition touched (k : Z * Z) (P : tup Z -> Prop) (p : tup Z) : Prop :=
  exists q vs, pt_in (rng (fst k)) q /\ P q /\ hd_vertices X (swap k) q = Some vs /\ In p vs.

(** A point of the grid with P at most n points away. *)
Definition close (g n : Z) (P : tup Z -> Prop) (u : tup Z) : Prop := exists v, pt_in (rng g) v /\ P v /\ within (cart_of g) n u v.

(** The edge of what N overlaps of M, and the points next to what M overlaps of N. *)
Definition rim (k : Z * Z) (q : tup Z) : Prop := is_edge (cart_of (fst k)) BC_FALSE (hd_overlap X (swap k)) INNER q.
Definition beyond (k : Z * Z) (p : tup Z) : Prop := pt_in (rng (snd k)) p /\ is_edge (cart_of (snd k)) BC_MIRROR (hd_overlap X k) OUTER p.

(** d is the least distance so that all points beyond the overlap are at most d from the rim. *)
Definition reach (k : Z * Z) (d : Z) : Prop :=
  0 <= d /\ (forall p, beyond k p -> close (snd k) d (touched k (rim k)) p) /\
  (forall e, 0 <= e < d -> ~ forall p, beyond k p -> close (snd k) e (touched k (rim k)) p).

(** The boundary of M on N: the overlapped points next to a point that is not overlapped and at most d from the boundary of M. *)
Definition boundary_of (k : Z * Z) (p : tup Z) : Prop :=
  hd_overlap X k p = true /\ exists d, reach k d /\
  close (snd k) 1 (fun v => hd_overlap X k v = false /\ close (snd k) d (touched k (fun q => hd_boundary X (fst k) q = true)) v) p.

(** Overlapped points next to that. *)
Definition seed (k : Z * Z) (p : tup Z) : Prop :=
  hd_overlap X k p = true /\ ~ boundary_of k p /\ close (snd k) 1 (boundary_of k) p.

(** All boundaries on a grid, its own and those of others; the interior: what is reached from seeds without a step from or to a boundary point. *)
Definition wall (g : Z) (p : tup Z) : Prop := hd_boundary X g p = true \/ exists k, cuts k /\ snd k = g /\ boundary_of k p.
Definition start (g : Z) (p : tup Z) : Prop := exists k, cuts k /\ snd k = g /\ seed k p.
Definition open_step (g : Z) (u v : tup Z) : Prop :=
  pt_in (rng g) u /\ pt_in (rng g) v /\ within (cart_of g) 1 u v /\ ~ wall g u /\ ~ wall g v.
Definition interior (g : Z) (p : tup Z) : Prop :=
  start g p \/ exists s, pt_in (rng g) s /\ start g s /\ ~ wall g s /\ clos_refl_trans _ (open_step g) s p.

(** Points of the grid's own boundary on the edge of its active points that do not face the interior. *)
Definition faces_out (g : Z) (p : tup Z) : Prop :=
  hd_boundary X g p = true /\ is_edge (cart_of g) BC_FALSE (hd_active X g) INNER p /\ (interior g p \/ ~ close g 1 (interior g) p).

(** What is removed. *)
Definition hole (g : Z) (p : tup Z) : Prop :=
  (exists s, pt_in (rng g) s /\ start g s) /\ hd_active X g p = true /\ ~ interior g p /\ (wall g p -> faces_out g p).

(** The loop that finds the distances ends. *)
Definition finite : Prop := forall k, cuts k -> (exists p, beyond k p) -> exists p, pt_in (rng (snd k)) p /\ touched k (rim k) p.

Definition holes_are (r : list (Z * mask)) (P : Z -> tup Z -> Prop) : Prop :=
  map fst r = hd_grids X /\ forall g m p, In (g, m) r -> pt_in (rng g) p -> (m p = true <-> P g p).
End Spec.
