(** What a whole exchange of a connectivity needs, and what it does. *)
From Coq Require Import List ZArith Bool Reals.
From Verif Require Import TupleModel RangeModel RangeProof CartModel IndexerModel ArrayModel SendModel SendSpec CollectSpec XchModel XchSpec EmbedModel PipeModel.
Import ListNotations.
Local Open Scope Z_scope.

(** The connectivities of all ranks, and the connectivity [id] in particular, whose M grid is on the ranks [mem] with the
    local ranges L and the donor cells [cells], and whose N grid has the range R: the connectivities fit together; a rank
    has the connectivity [id] on its M side exactly if it is in [mem]; the lower corners of its donors are those of its
    cells; the destinations of the donors are in R; the receiver points of a rank are in the range NR of its values;
    there are at most 2^31 donors and receivers on a rank. *)
Record exchangeable (grids : list (Z * range)) (n : nat) (ms : nat -> list mconn) (ns : nat -> list nconn) (id : Z * Z) (R : range)
    (mem : list nat) (L : nat -> range) (cells : nat -> list range) (NR : nat -> range) : Prop := Exchangeable {
  ex_known : known_points grids n ms ns;
  ex_fit : fitting n ms ns;
  ex_grid : In (snd id, R) grids;
  ex_members : NoDup mem /\ forall r, In r mem -> (r < n)%nat;
  ex_inside : forall i r, nth_error mem i = Some r -> exists mc, In mc (ms r) /\ m_id mc = id /\ mc_local mc = L i /\
    map d_lower (mc_donors mc) = map rb (cells i);
  ex_outside : forall r mc, (r < n)%nat -> In mc (ms r) -> m_id mc = id -> In r mem;
  ex_dests : forall r mc d, (r < n)%nat -> In mc (ms r) -> m_id mc = id -> In d (mc_donors mc) -> pt_in R (d_point d);
  ex_points : forall r nc y, (r < n)%nat -> In nc (ns r) -> n_id nc = id -> In y (nc_receivers nc) -> pt_in (NR r) (r_point y);
  ex_donors : forall r mc, (r < n)%nat -> In mc (ms r) -> m_id mc = id -> Z.of_nat (length (mc_donors mc)) <= 2 ^ 31;
  ex_receivers : forall r nc, (r < n)%nat -> In nc (ns r) -> n_id nc = id -> Z.of_nat (length (nc_receivers nc)) <= 2 ^ 31 }.

(** Cell j on rank i of the M grid is the donor of connectivity [id] for point p: that rank has the lower corner. *)
Definition donor_of (ms : nat -> list mconn) (id : Z * Z) (mem : list nat) (L : nat -> range) (cells : nat -> list range)
    (p : tup Z) (i : nat) (j : Z) (cell : range) : Prop :=
  exists r mc d, nth_error mem i = Some r /\ In mc (ms r) /\ m_id mc = id /\ vread (mc_donors mc) j = Some d /\ d_point d = p /\
    vread (cells i) j = Some cell /\ pt_in (L i) (rb cell).

(** p is a receiver point of connectivity [id] on this rank. *)
Definition receiver_at (ns : list nconn) (id : Z * Z) (p : tup Z) : Prop :=
  exists nc, In nc ns /\ n_id nc = id /\ In p (map r_point (nc_receivers nc)).

(** A polynomial in three variables as a list of terms: coefficient and exponents; its value; its degree in each variable. *)
Definition poly : Type := list (R * (nat * nat * nat)).
Definition peval (P : poly) (x y z : R) : R :=
  fold_right (fun t a => (fst t * (x ^ fst (fst (snd t)) * y ^ snd (fst (snd t)) * z ^ snd (snd t)) + a)%R) 0%R P.
Definition pdegree (k : nat) (P : poly) : Prop :=
  forall t, In t P -> (fst (fst (snd t)) <= k)%nat /\ (snd (fst (snd t)) <= k)%nat /\ (snd (snd t) <= k)%nat.

(** The degree of the polynomials the interpolation is exact for. *)
Definition exact_degree (ct : connection) : nat := match ct with NEAREST => 0 | LINEAR => 1 | CUBIC => 3 end.

(** A donor cell for the kind of interpolation in [nd] dimensions. *)
Definition fits_stencil (ct : connection) (nd : nat) (cell : range) : Prop :=
  forall d, (d < 3)%nat -> tget (re cell) d = tget (rb cell) d + (if Nat.ltb d nd then stencil_size ct else 1).

(** Where the donor is, in the index space of its grid: the coordinates are from the first point of the cell, for cubic
    interpolation from the second. *)
Definition located (ct : connection) (nd : nat) (cell : range) (u : nat -> R) (d : nat) : R :=
  if Nat.ltb d nd then (IZR (tget (rb cell) d) + match ct with CUBIC => 1 | _ => 0 end + u d)%R else IZR (tget (rb cell) d).

(** The point of a 2 x 2 x 2 cell nearest to the donor (the lower one, in the middle). *)
Definition nearest (nd : nat) (cell : range) (u : nat -> R) : tup Z :=
  tmake (fun d => if Nat.ltb d nd then (if Rle_dec (u d) (1 / 2) then tget (rb cell) d else tget (rb cell) d + 1) else tget (rb cell) d).

(** The values of the M grid on the ranks that have it; the start of an exchange. *)
Definition at_member {A} (mem : list nat) (f : nat -> list A) (r : nat) : list A := match position mem r with Some i => f i | None => [] end.
Definition start {V} (ms : nat -> list mconn) (ns : nat -> list nconn) (mem : list nat) (fields : nat -> list (list V)) (vv : nat -> list V)
    (out nfields : nat -> list (list V)) (r : nat) : pipe V :=
  pipe0 (ms r) (ns r) (at_member mem fields r) (at_member mem vv r) (out r) (nfields r).
