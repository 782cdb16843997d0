(** What an assembly does to the state flags of one grid, point by point. *)
From Coq Require Import List ZArith Bool.
From Verif Require Import TupleModel RangeModel RangeProof CartModel CartProof NetModel NetSpec HaloModel FieldModel FieldSpec AsmModel.
Import ListNotations.
Local Open Scope Z_scope.

Definition pmask := tup Z -> bool.

(** ** The flags *)

(** The numbers of the flags, State.h 14-33. *)
Definition ACTIVE := 0.
Definition DOMAIN_BOUNDARY := 1.
Definition INTERNAL_BOUNDARY := 2.
Definition OVERLAPPED := 3.
Definition INFERRED_DOMAIN_BOUNDARY := 4.
Definition BOUNDARY_HOLE := 5.
Definition OCCLUDED := 6.
Definition FRINGE := 7.
Definition OUTER_FRINGE := 8.
Definition INNER_FRINGE := 9.
Definition OVERLAP_MINIMIZED := 10.
Definition RECEIVER := 11.
Definition ORPHAN := 12.

Definition flag (k : Z) (fl : tup Z -> Z) : pmask := fun u => Z.testbit (fl u) k.

(** Points that were active before the previous assembly removed them count as active again; boundaries
    inferred by the previous assembly are not boundaries. *)
Definition was_active (fl : tup Z -> Z) : pmask :=
  fun u => flag ACTIVE fl u || flag BOUNDARY_HOLE fl u || flag OVERLAP_MINIMIZED fl u.
Definition was_boundary (fl : tup Z -> Z) : pmask :=
  fun u => flag DOMAIN_BOUNDARY fl u && negb (flag INFERRED_DOMAIN_BOUNDARY fl u).

(** ** What is given *)

(** What the other grids contribute: the points they overlap (all, and each of them), the hole they cut, the
    points they occlude, those of them where the overlap is to be minimized, and the points without a donor. *)
Record given : Type := Given {
  v_overlap : pmask; v_overlaps : list pmask; v_hole : pmask; v_occluded : pmask; v_minimize : pmask; v_no_donor : pmask }.

(** The states of the ranks at the beginning: the flags fl and what is given, each as a field with up-to-date
    halos, and room for the other fields. *)
Definition mfield (S : nat -> ast) (k r : nat) : list bool := nth k (a_m (S r)) [].
Definition zfield (S : nat -> ast) (k r : nat) : list Z := nth k (a_z (S r)) [].
Definition ofield (S : nat -> ast) (k r : nat) : list bool := nth k (a_o (S r)) [].

Definition loaded (c : cart) (n : nat) (L E : nat -> range) (N : nat -> list nat) (H : nat -> hmap)
    (ko : nat) (overlaps : list nat) (o : nat) (S : nat -> ast) (fl : tup Z -> Z) (v : given) : Prop :=
  (forall r, (r < n)%nat -> a_map (S r) = H r /\ a_ranks (S r) = N r /\
     length (a_m (S r)) = NUM_M /\ length (a_x (S r)) = NUM_X /\ length (a_z (S r)) = NUM_Z /\ length (a_o (S r)) = ko /\ length (a_cnt (S r)) = 2%nat /\
     (forall k, (k < NUM_M)%nat -> Z.of_nat (length (mfield S k r)) = rcount (E r))) /\
  NoDup (o :: overlaps) /\ (forall k, In k (o :: overlaps) -> (k < ko)%nat) /\
  agrees c n L E N (zfield S Z_FLAGS) fl /\
  agrees c n L E N (mfield S R_OVERLAP) (v_overlap v) /\
  agrees c n L E N (mfield S R_HOLE) (v_hole v) /\
  agrees c n L E N (mfield S R_OCC) (v_occluded v) /\
  agrees c n L E N (mfield S R_MIN) (v_minimize v) /\
  holds n L L (ofield S o) (v_no_donor v) /\
  Forall2 (fun k m => holds n L L (ofield S k) m) overlaps (v_overlaps v).

(** ** What comes out *)

Section Outcome.
Variables (c : cart) (infer : bool) (fringe : Z) (fl : tup Z -> Z) (v : given) (fl' : tup Z -> Z).
Notation nd := (c_nd c).

(** Within k points, with periodic wrap, of a point x of the domain. *)
Definition within (k : Z) (u x : tup Z) : Prop := exists x', is_image c x x' /\ apart nd k u x'.

(** What no phase of the assembly changes: internal boundaries, and flags the library does not know. *)
Definition others_kept : Prop := forall u k, pt_in (c_range c) u -> k = INTERNAL_BOUNDARY \/ ORPHAN < k -> flag k fl' u = flag k fl u.

Definition given_flags : Prop := forall u, pt_in (c_range c) u ->
  flag OVERLAPPED fl' u = v_overlap v u /\ flag BOUNDARY_HOLE fl' u = v_hole v u /\ flag OCCLUDED fl' u = v_occluded v u.

(** If asked for, a boundary is inferred where the region of active points ends, no boundary is given and no grid overlaps. *)
Definition boundaries_inferred : Prop := forall u, pt_in (c_range c) u ->
  (flag INFERRED_DOMAIN_BOUNDARY fl' u = true <->
     infer = true /\ was_active fl u = true /\ was_boundary fl u = false /\
     (exists q, apart nd 1 u q /\ continued c BC_FALSE (was_active fl) q = false) /\
     Forall (fun m => m u = false) (v_overlaps v)) /\
  flag DOMAIN_BOUNDARY fl' u = was_boundary fl u || flag INFERRED_DOMAIN_BOUNDARY fl' u.

(** The active points left by hole cutting, and the boundary. *)
Definition kept : pmask := fun u => was_active fl u && negb (v_hole v u).
Definition boundary : pmask := fun u => flag DOMAIN_BOUNDARY fl' u || flag INTERNAL_BOUNDARY fl' u.

(** The outer fringe: points at most FringeSize from a place that is not active next to an active point not on
    a boundary. *)
Definition outer (u : tup Z) : Prop := kept u = true /\ exists q w,
  apart nd fringe u q /\ apart nd 1 q w /\ continued c BC_FALSE kept q = false /\
  continued c BC_FALSE (fun x => kept x && negb (boundary x)) w = true.

Definition outer_fringe : Prop := forall u, pt_in (c_range c) u ->
  (flag OUTER_FRINGE fl' u = true <-> outer u /\ flag OVERLAP_MINIMIZED fl' u = false) /\
  (flag FRINGE fl' u = true <-> outer u \/ flag INNER_FRINGE fl' u = true).

(** Minimizing overlap: the points removed are those to be minimized about which, up to FringeSize, every active
    point is occluded; the inner fringe are the active points left at most FringeSize from a removed one. *)
Definition overlap_minimized : Prop := forall u, pt_in (c_range c) u ->
  (0 < fringe ->
    (flag OVERLAP_MINIMIZED fl' u = true <-> v_minimize v u = true /\ kept u = true /\
      forall x, pt_in (c_range c) x -> within fringe u x -> v_occluded v x = true \/ kept x = false)) /\
  (fringe = 0 -> flag OVERLAP_MINIMIZED fl' u = v_minimize v u) /\
  flag ACTIVE fl' u = kept u && negb (flag OVERLAP_MINIMIZED fl' u) /\
  (flag INNER_FRINGE fl' u = true <-> flag ACTIVE fl' u = true /\
     exists x, pt_in (c_range c) x /\ within fringe u x /\ flag OVERLAP_MINIMIZED fl' x = true).

(** Receivers and orphans. *)
Definition receivers : Prop := forall u, pt_in (c_range c) u ->
  flag RECEIVER fl' u = flag ACTIVE fl' u && (flag OUTER_FRINGE fl' u || flag INNER_FRINGE fl' u || flag OCCLUDED fl' u) /\
  flag ORPHAN fl' u = flag RECEIVER fl' u && v_no_donor v u.

(** Distances to the edge of the receivers, negative at receivers; max stands for max or more. *)
Definition edge_within (k : Z) (u : tup Z) : Prop :=
  exists x, pt_in (c_range c) x /\ within k u x /\ is_edge c BC_FALSE (flag RECEIVER fl') INNER x.
Definition distances (max : Z) (dist : tup Z -> Z) : Prop := forall u, pt_in (c_range c) u ->
  (forall k, 0 <= k < max -> edge_within k u -> (forall j, 0 <= j < k -> ~ edge_within j u) ->
     dist u = if flag RECEIVER fl' u then - k else k) /\
  ((forall k, 0 <= k < max -> ~ edge_within k u) -> dist u = max).

Definition outcome (max : Z) (dist : tup Z -> Z) : Prop :=
  others_kept /\ given_flags /\ boundaries_inferred /\ outer_fringe /\ overlap_minimized /\ receivers /\ distances max dist.
End Outcome.

(** Every execution of an assembly started in the states S ends with the flags fl' and the distances dist, all
    copies up to date. *)
Definition assembles (c : cart) (n : nat) (L E : nat -> range) (N : nat -> list nat) (infer : bool) (overlaps : list nat)
    (fringe max : Z) (o : nat) (S : nat -> ast) (fl' dist : tup Z -> Z) : Prop :=
  exists S', computes n (assemble c n L E infer overlaps fringe max o) S S' /\
    agrees c n L E N (zfield S' Z_FLAGS) fl' /\ agrees c n L E N (zfield S' Z_DIST) dist.
