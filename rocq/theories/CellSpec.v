(** What choosing cells and donors should do (C70, C71). *)
From Coq Require Import List ZArith QArith Qminmax Qabs Bool Sorting.Sorted.
From Verif Require Import TupleModel RangeModel Base RangeProof IndexerModel ArrayModel HashModel CellModel.
Import ListNotations.
Local Open Scope Z_scope.

(** ** Cells *)

(** Some fragment has found local point l in cell i, with coordinates u. *)
Definition finds (frags : list (list query)) (l i : Z) (u : tup Q) : Prop :=
  exists fr, In fr frags /\ In (Query l (Some i) u) fr.

Definition valid_queries (cellR loc : range) (frags : list (list query)) : Prop :=
  forall fr q, In fr frags -> In q fr ->
    0 <= q_point q < rcount loc /\ forall i, q_cell q = Some i -> 0 <= i < rcount cellR.

(** A cell is found with one set of coordinates only. *)
Definition consistent (frags : list (list query)) : Prop :=
  forall l i u v, finds frags l i u -> finds frags l i v -> u = v.

(** The square of the distance from the unit cube. *)
Definition beyond (x : Q) : Q := (x - Qmax 0 (Qmin x 1))%Q.
Definition excess (nd : nat) (u : tup Q) : Q :=
  fold_right Qplus 0%Q (map (fun d => (beyond (tget u d) * beyond (tget u d))%Q) (seq 0 nd)).

(** In the maximum norm, u is not farther from the center of the cell than v. *)
Definition no_farther (nd : nat) (u v : tup Q) : Prop :=
  forall d, (d < nd)%nat -> exists e, (e < nd)%nat /\ (Qabs (tget u d - (1 # 2)) <= Qabs (tget v e - (1 # 2)))%Q.

(** Cell i with coordinates u is at least as good as cell j with coordinates v: nearer to the cell; if in both, nearer to the
    center; in doubt, of lesser index. *)
Definition as_good (nd : nat) (u : tup Q) (i : Z) (v : tup Q) (j : Z) : Prop :=
  (excess nd u < excess nd v)%Q \/
  (excess nd u == excess nd v)%Q /\ (0 < excess nd u)%Q /\ i <= j \/
  (excess nd u == 0)%Q /\ (excess nd v == 0)%Q /\ no_farther nd u v /\ (no_farther nd v u -> i <= j).

(** The data of a pair of grids lists the points of the local range that have been found somewhere, in order. *)
Definition lists_found (loc : range) (frags : list (list query)) (es : list entry) : Prop :=
  StronglySorted (fun p q => rindex ColMajor loc p < rindex ColMajor loc q) (map e_point es) /\
  forall p, In p (map e_point es) <-> pt_in loc p /\ exists i u, finds frags (rindex ColMajor loc p) i u.

Definition from_candidates (cellR loc : range) (frags : list (list query)) (es : list entry) : Prop :=
  forall e, In e es -> pt_in cellR (e_cell e) /\
    finds frags (rindex ColMajor loc (e_point e)) (rindex ColMajor cellR (e_cell e)) (e_coords e).

(** ** Donors *)

(** The N-side overlap data of one rank: masks of the right sizes, one distance and volume per overlapping point,
    IDs in order. *)
Definition valid_overlap (loc ext : range) (o : overlap) : Prop :=
  0 <= o_m o /\ 0 <= o_padding o /\ Z.of_nat (length (o_base o)) = rcount loc /\ Z.of_nat (length (o_mask o)) = rcount ext /\
  length (o_distances o) = length (filter (fun b : bool => b) (o_base o)) /\
  length (o_volumes o) = length (filter (fun b : bool => b) (o_base o)).

Definition valid_overlaps (loc ext : range) (os : list overlap) : Prop :=
  (forall o, In o os -> valid_overlap loc ext o) /\ StronglySorted (fun a b => o_m a < o_m b) os.

(** Overlap o has point p, with this distance and volume: the values stored for it have as index the number of
    overlapping points before p. *)
Definition overlaps_at (loc : range) (o : overlap) (p : tup Z) (dist : Z) (v : Q) : Prop :=
  vread (o_base o) (rindex ColMajor loc p) = Some true /\
  let k := Z.of_nat (length (filter (fun b : bool => b) (firstn (Z.to_nat (rindex ColMajor loc p)) (o_base o)))) in
  vread (o_distances o) k = Some dist /\ vread (o_volumes o) k = Some v.

(** M grid of o is a candidate for receiver p. *)
Definition candidate (loc ext : range) (receiver : list bool) (o : overlap) (p : tup Z) (dist : Z) (v : Q) : Prop :=
  o_connects o = true /\ vread receiver (rindex ColMajor ext p) = Some true /\
  vread (o_mask o) (rindex ColMajor ext p) = Some true /\ overlaps_at loc o p dist v /\ (o_disjoint o = true -> 0 < dist).

(** The distance to the edge of M that counts, relative to 1 + padding, at most 1, as a fraction of integers. *)
Definition farther_from_edge (d1 p1 d2 p2 : Z) : Prop :=
  Z.min d1 (1 + p1) * (1 + p2) > Z.min d2 (1 + p2) * (1 + p1).

(** o is a candidate for p, and no candidate is farther from the edge. *)
Definition best_candidate (loc ext : range) (receiver : list bool) (os : list overlap) (p : tup Z) (o : overlap) (dist : Z) (v : Q) : Prop :=
  In o os /\ candidate loc ext receiver o p dist v /\
  forall o' dist' v', In o' os -> candidate loc ext receiver o' p dist' v' -> ~ farther_from_edge dist' (o_padding o') dist (o_padding o).

(** The choice between M grids m and m' with donor volumes v and v' if all grids occlude each other in the same way. *)
Definition preferred (K : occludes) (m : Z) (v : Q) (m' : Z) (v' : Q) : Prop :=
  match K with
  | OCC_ALL => m <= m'
  | OCC_NONE => m' <= m
  | OCC_COARSE => (v < v')%Q \/ (v == v')%Q /\ m <= m'
  end.
(** In general: a grid m with donor volume v is not given up for one considered later, with donor volume v', that it occludes in the way k. *)
Definition holds_against (k : occludes) (v v' : Q) : Prop :=
  match k with OCC_ALL => True | OCC_NONE => False | OCC_COARSE => (v <= v')%Q end.
