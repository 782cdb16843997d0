(** Specifications for distributed fields, in terms of the whole domain. *)
From Coq Require Import List ZArith Bool.
From Verif Require Import TupleModel RangeModel RangeProof CartModel CartProof DecompModel DecompProof.
From Verif Require Import IndexerModel ArrayModel HashModel NetModel NetSpec NeighSpec HaloModel FieldModel.
Import ListNotations.
Local Open Scope Z_scope.

(** An extended range: beyond the local range by a point or more on the sides where the domain
    continues, and not beyond it on the others. *)
Definition extended_ok (c : cart) (l e : range) : Prop :=
  (forall d, (c_nd c <= d < 3)%nat -> tget (rb e) d = tget (rb l) d /\ tget (re e) d = tget (re l) d) /\
  (forall d, (d < 3)%nat -> (d < c_nd c)%nat ->
     (continues_below c l d -> tget (rb e) d <= tget (rb l) d - 1) /\
     (~ continues_below c l d -> tget (rb e) d = tget (rb l) d) /\
     (continues_above c l d -> tget (re l) d + 1 <= tget (re e) d) /\
     (~ continues_above c l d -> tget (re e) d = tget (re l) d)).

(** The field has a value for each point of the extended ranges, and its values at owned points are
    those of [m]. *)
Definition holds {V} (n : nat) (L E : nat -> range) (F : nat -> list V) (m : tup Z -> V) : Prop :=
  forall r, (r < n)%nat -> Z.of_nat (length (F r)) = rcount (E r) /\
    forall p, pt_in (L r) p -> vread (F r) (rindex ColMajor (E r) p) = Some (m p).

(** Also at points owned by a neighbour: every copy there has the value of the owner. *)
Definition agrees {V} (c : cart) (n : nat) (L E : nat -> range) (N : nat -> list nat) (F : nat -> list V)
    (m : tup Z -> V) : Prop :=
  holds n L E F m /\
  forall r p q u, (r < n)%nat -> (q < n)%nat -> pt_in (E r) p -> pt_in (L q) u -> is_image c p u ->
    q = r \/ In q (N r) -> vread (F r) (rindex ColMajor (E r) p) = Some (m u).

(** A domain partitioned over n ranks: local and extended ranges, neighbours (at least the ranks that
    own a point next to one's own), and halo maps with which an exchange gives all copies the
    values of the owners. *)
Definition partitioned (c : cart) (n : nat) (L E : nat -> range) (N : nat -> list nat) (H : nat -> hmap) : Prop :=
  decomposed c n L /\ stored_once c /\
  (forall r, (r < n)%nat -> extended_ok c (L r) (E r)) /\
  (forall r, (r < n)%nat -> NoDup (N r) /\ forall q, In q (N r) -> (q < n)%nat /\ q <> r /\ In r (N q)) /\
  (forall r q p u, (r < n)%nat -> (q < n)%nat -> pt_in (L r) p -> pt_in (L q) u -> near c p u ->
     q = r \/ In q (N r)) /\
  (forall (V : Type) (F : nat -> list V) m, holds n L E F m ->
     exists F', phase_ok n halo_exchange (fun r => (H r, F r)) (fun r => (H r, F' r)) /\
                agrees c n L E N F' m).

(** Every copy has its owner at hand, so that all copies are up to date when a field [agrees]. *)
Definition covered (c : cart) (n : nat) (L E : nat -> range) (N : nat -> list nat) : Prop :=
  forall r p, (r < n)%nat -> pt_in (E r) p ->
    exists q u, (q < n)%nat /\ pt_in (L q) u /\ is_image c p u /\ (q = r \/ In q (N r)).

(** ** Masks on the lattice of all points *)

(** The point of the base period of which p is an image. *)
Definition wrap (c : cart) (p : tup Z) : tup Z :=
  tmake (fun d => if tget (c_per c) d
                  then tget (rb (c_range c)) d + (tget p d - tget (rb (c_range c)) d) mod (per_len c d)
                  else tget p d).

(** The closest point of the domain, apart from periodic directions. *)
Definition closest (c : cart) (p : tup Z) : tup Z :=
  tmake (fun d => if tget (c_per c) d then tget p d
                  else Z.max (tget (rb (c_range c)) d) (Z.min (tget (re (c_range c)) d - 1) (tget p d))).

(** The mask continued to all points: periodically, and beyond other boundaries by the chosen
    convention. *)
Definition continued (c : cart) (bc : mask_bc) (m : tup Z -> bool) (p : tup Z) : bool :=
  if rcontains (c_range c) (wrap c p) then m (wrap c p)
  else match bc with
       | BC_TRUE => true
       | BC_FALSE => false
       | BC_MIRROR => m (wrap c (closest c p))
       end.

(** At most k points apart in every direction of the grid. *)
Definition apart (nd : nat) (k : Z) (p q : tup Z) : Prop :=
  forall d, (d < 3)%nat -> if Nat.ltb d nd then Z.abs (tget p d - tget q d) <= k else tget p d = tget q d.

(** An edge point: inside (INNER) or outside (OUTER) the mask, and next to (also diagonally) a point
    which is not. *)
Definition is_edge (c : cart) (bc : mask_bc) (m : tup Z -> bool) (ty : edge_type) (p : tup Z) : Prop :=
  let inside := match ty with INNER => true | OUTER => false end in
  continued c bc m p = inside /\ exists q, apart (c_nd c) 1 p q /\ continued c bc m q = negb inside.

(** u is at most k points from a point of the domain with value b, or from the outside if that counts
    as having value b. *)
Definition reached (c : cart) (bc : mask_bc) (m : tup Z -> bool) (b : bool) (k : Z) (u : tup Z) : Prop :=
  (exists v v', pt_in (c_range c) v /\ is_image c v v' /\ apart (c_nd c) k u v' /\ m v = b) \/
  (bc = (if b then BC_TRUE else BC_FALSE) /\
   exists d, (d < c_nd c)%nat /\ tget (c_per c) d = false /\
     (tget u d - k < tget (rb (c_range c)) d \/ tget (re (c_range c)) d <= tget u d + k)).
