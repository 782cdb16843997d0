(** Values sent over an overlap, from the grid that overlaps to the points that are
    overlapped: model of src/core/AssemblerAssembly.cpp 2592-2674 (interpolated volumes), 3309-3389 and 4148-4228
    (active points), 3597-3737 and 3802-3865 (occluded points, padding), 4380-4452 (distances to receivers).
    All of them collect a field of the M grid at the cells of the overlap, send the values
    with maps that were made without an order (2509-2570), and receive them into an array
    over the points of the overlap; the ones with masks then disperse them, replacing the
    values at these points.

    Simplifications: one pair of grids at a time; the ranks of the M grid, [mem], collect on
    their own communicator, whose rank i is the i-th of them. *)
From Coq Require Import List ZArith QArith Bool.
From Verif Require Import TupleModel RangeModel CartModel IndexerModel ArrayModel HashModel NetModel LiftModel EmbedModel.
From Verif Require Import SendModel DisperseModel CollectModel CellModel GeomModel OvlModel PipeModel.
Import ListNotations.
Local Open Scope Z_scope.

Section Forward.
Context {V : Type}.

(** The collect object with the values of the M grid, the send and receive objects with their
    buffers, the values of the N grid. *)
Record fwd : Type := Fwd { w_c : cst V; w_s : sst V; w_n : list (list V) }.
Definition put_wc (b : fwd) (x : cst V) : fwd := Fwd x (w_s b) (w_n b).
Definition put_ws (b : fwd) (x : sst V) : fwd := Fwd (w_c b) x (w_n b).

(** The two sides of the overlap on every rank. *)
Variables (junk : V) (c : cart) (n : nat) (mem : list nat) (M : nat -> list mrow) (N : nat -> list nrow).

(** The cells of the overlap on the i-th rank of the M grid (2498-2508). *)
Definition overlap_cells (i : nat) : list range :=
  match nth_error mem i with Some r => map (cell_extents (c_nd c)) (M r) | None => [] end.

(** SendBuffer, as it is read by Send. *)
Definition fill_buffer (_ : nat) (b : fwd) : option fwd :=
  let! vals := donor_values 1 (k_out (w_c b)) in Some (put_ws b (SS0 vals (s_out (w_s b)))).

(** Values for the points of the overlap. *)
Definition forward (L FR : nat -> range) (nbs : nat -> list (nat * range)) (red : nat -> Z -> range -> list V -> option V)
    : list (phase fwd (list V)) :=
  lift (fun b => Some (w_c b)) put_wc (embed n mem (collect ColMajor c 1 L FR nbs overlap_cells red)) ++
  [Local fill_buffer] ++
  lift (fun b => Some (w_s b)) put_ws
    (send_recv 1 junk (fun r => map mr_rank (M r)) (fun r => default_order (map mr_rank (M r)))
                      (fun r => map nr_rank (N r)) (fun r => default_order (map nr_rank (N r)))).

(** 3377-3384, 3694-3701, 3836-3837, 4218-4224; NR is the extended range of the N grid. *)
Definition spread_values (NR : nat -> range) (r : nat) (b : fwd) : option fwd :=
  let! f := disperse_overwrite 1 ColMajor (NR r) (map nr_point (N r)) (s_out (w_s b)) (w_n b) in
  Some (Fwd (w_c b) (w_s b) f).
Definition forward_mask (L FR : nat -> range) (nbs : nat -> list (nat * range)) (red : nat -> Z -> range -> list V -> option V)
    (NR : nat -> range) : list (phase fwd (list V)) :=
  forward L FR nbs red ++ [Local (spread_values NR)].
End Forward.
Arguments fwd : clear implicits.

(** InterpCoefs of the rows (2613-2625, LagrangeInterpLinear of GeometryOps.hpp), indexed by
    the dimension, the offset in the cell and the row.  Doubles are rationals. *)
Definition volume_coefs (nd : nat) (rows : list mrow) (d : nat) (o j : Z) : option Q :=
  let! a := vread rows j in
  if Nat.ltb d nd then vread (linear (tget (mr_coords a) d)) o else vread [1; 0]%Q o.

(** Interpolated volumes (2592-2674); [V] is Q, sums and products are exact. *)
Definition forward_volumes (c : cart) (n : nat) (mem : list nat) (M : nat -> list mrow) (N : nat -> list nrow) (L FR : nat -> range) (nbs : nat -> list (nat * range))
    : list (phase (fwd Q) (list Q)) :=
  forward 0%Q c n mem M N L FR nbs
    (fun i => red_interp Qmult (fun a w v => a + w * v)%Q 0%Q 0%Q (volume_coefs (c_nd c) (match nth_error mem i with Some r => M r | None => [] end)) ColMajor).

(** The overlap masks after points became inactive (3297-3308 and 4135-4146, then 3310-3387 and 4148-4226): [act r] is
    the active mask of the N grid on rank r, the field of the M grid is its active mask.  The
    Exchange of the mask that follows is that of a field (C14). *)
Definition and_active (act : nat -> list bool) (r : nat) (b : fwd bool) : option (fwd bool) :=
  Some (Fwd (w_c b) (w_s b) (map (fun row => map (fun x => fst x && snd x) (combine row (act r))) (w_n b))).
Definition update_overlap (c : cart) (n : nat) (mem : list nat) (M : nat -> list mrow) (N : nat -> list nrow) (L FR : nat -> range) (nbs : nat -> list (nat * range))
    (NR : nat -> range) (act : nat -> list bool) : list (phase (fwd bool) (list bool)) :=
  [Local (and_active act)] ++
  forward_mask false c n mem M N L FR nbs (fun _ => red_all (fun b => b) (fun b => b)) NR.
