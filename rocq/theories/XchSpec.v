(** What finding the ranks of an exchange is for, stated without partitions and messages. *)
From Coq Require Import List ZArith Bool.
From Verif Require Import TupleModel RangeModel RangeProof XchModel.
Import ListNotations.
Local Open Scope Z_scope.

(** The connectivities of a rank, [ms] with its M side and [ns] with its N side there, have a donor for point p of
    grid g (whose cell begins on this rank, and whose destination's rank is to be found); or have p as a receiver. *)
Definition donates (ms : list mconn) (g : Z) (p : tup Z) : Prop :=
  exists mc d, In mc ms /\ In d (mc_donors mc) /\ pt_in (mc_local mc) (d_lower d) /\ d_rank d < 0 /\
    mc_grid mc = g /\ d_point d = p.
Definition receives (ns : list nconn) (g : Z) (p : tup Z) : Prop :=
  exists nc x, In nc ns /\ In x (nc_receivers nc) /\ r_rank x < 0 /\ nc_grid nc = g /\ r_point x = p.

(** The highest rank below n with property P, or -1 if there is none. *)
Definition last_rank (n : nat) (P : nat -> Prop) (x : Z) : Prop :=
  (x = -1 /\ forall q, (q < n)%nat -> ~ P q) \/
  (exists q, x = Z.of_nat q /\ (q < n)%nat /\ P q /\ forall q', (q' < n)%nat -> P q' -> (q' <= q)%nat).

(** The grids have different IDs, and the points whose ranks are to be found are points of their grids. *)
Definition known_points (grids : list (Z * range)) (n : nat) (ms : nat -> list mconn) (ns : nat -> list nconn) : Prop :=
  NoDup (map fst grids) /\
  forall r g p, (r < n)%nat -> donates (ms r) g p \/ receives (ns r) g p -> exists R, In (g, R) grids /\ pt_in R p.

(** The rank found for a donor of connectivity mc: none if the cell begins on another rank; the given one; or the
    last of those that have the point as a receiver.  The same for a receiver. *)
Definition donor_rank (n : nat) (ns : nat -> list nconn) (mc : mconn) (d : donor) (x : Z) : Prop :=
  (~ pt_in (mc_local mc) (d_lower d) -> x = -1) /\
  (pt_in (mc_local mc) (d_lower d) -> 0 <= d_rank d -> x = d_rank d) /\
  (pt_in (mc_local mc) (d_lower d) -> d_rank d < 0 -> last_rank n (fun q => receives (ns q) (mc_grid mc) (d_point d)) x).
Definition receiver_rank (n : nat) (ms : nat -> list mconn) (nc : nconn) (y : receiver) (x : Z) : Prop :=
  (0 <= r_rank y -> x = r_rank y) /\
  (r_rank y < 0 -> last_rank n (fun q => donates (ms q) (nc_grid nc) (r_point y)) x).

(** The ranks found are one for each donor of each connectivity. *)
Definition ranks_found {A B} (items : A -> list B) (P : A -> B -> Z -> Prop) (conns : list A) (out : list (list Z)) : Prop :=
  Forall2 (fun c l => Forall2 (P c) (items c) l) conns out.

(** ** Connectivities that fit together *)

(** The donors whose cells begin on this rank. *)
Definition local_donors (mc : mconn) : list donor := filter (fun d => rcontains (mc_local mc) (d_lower d)) (mc_donors mc).

(** No ranks are given; a rank has each connectivity once; a connectivity has a donor for a point exactly if it has the
    point as a receiver; and for each point there is one donor and one receiver, in all connectivities and on
    all ranks together. *)
Record fitting (n : nat) (ms : nat -> list mconn) (ns : nat -> list nconn) : Prop := Fitting {
  fit_m_given : forall r mc d, (r < n)%nat -> In mc (ms r) -> In d (mc_donors mc) -> d_rank d < 0;
  fit_n_given : forall r nc x, (r < n)%nat -> In nc (ns r) -> In x (nc_receivers nc) -> r_rank x < 0;
  fit_m_id : forall r, (r < n)%nat -> NoDup (map m_id (ms r));
  fit_n_id : forall r, (r < n)%nat -> NoDup (map n_id (ns r));
  fit_match : forall id p,
    (exists r mc, (r < n)%nat /\ In mc (ms r) /\ m_id mc = id /\ In p (map d_point (local_donors mc))) <->
    (exists r nc, (r < n)%nat /\ In nc (ns r) /\ n_id nc = id /\ In p (map r_point (nc_receivers nc)));
  fit_m_once : forall r r' mc mc' p, (r < n)%nat -> (r' < n)%nat -> In mc (ms r) -> In mc' (ms r') -> mc_grid mc = mc_grid mc' ->
    In p (map d_point (local_donors mc)) -> In p (map d_point (local_donors mc')) -> r = r' /\ m_id mc = m_id mc';
  fit_n_once : forall r r' nc nc' p, (r < n)%nat -> (r' < n)%nat -> In nc (ns r) -> In nc' (ns r') -> nc_grid nc = nc_grid nc' ->
    In p (map r_point (nc_receivers nc)) -> In p (map r_point (nc_receivers nc')) -> r = r' /\ n_id nc = n_id nc';
  fit_m_distinct : forall r mc, (r < n)%nat -> In mc (ms r) -> NoDup (map d_point (local_donors mc));
  fit_n_distinct : forall r nc, (r < n)%nat -> In nc (ns r) -> NoDup (map r_point (nc_receivers nc)) }.
