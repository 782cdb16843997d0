(** A whole exchange of one connectivity, on all ranks of the domain: the ranks are found (Exchanger.cpp 226-247,
    282-777), the maps are made (779-813), and then the ranks of the M grid collect (990-1033), the donor values are
    sent (1158-1195) and received (1320-1357), and the ranks of the N grid disperse the receiver values, replacing the
    values at the receiver points (1497-1533).

    Simplifications: each rank makes these calls in this order; one connectivity is exchanged, but the ranks are found
    for all; the ranks of the M grid, [mem], collect on their own communicator, whose rank i is the i-th of them; the
    connectivities do not change during the exchange; the operation of the disperse object is overwriting. *)
From Coq Require Import List ZArith Bool Reals.
From Verif Require Import TupleModel RangeModel CartModel IndexerModel ArrayModel HashModel NetModel LiftModel EmbedModel.
From Verif Require Import SendModel DisperseModel CollectModel XchModel MathModel.
Import ListNotations.
Local Open Scope Z_scope.

Section Pipe.
Context {V : Type}.

(** The exchanger, the collect object with the values of the M grid, the send and receive objects with the donor and
    receiver values, the values of the N grid. *)
Record pipe : Type := Pipe { p_x : xst; p_c : cst V; p_s : sst V; p_n : list (list V) }.

Definition put_x (b : pipe) (x : xst) : pipe := Pipe x (p_c b) (p_s b) (p_n b).
Definition put_c (b : pipe) (x : cst V) : pipe := Pipe (p_x b) x (p_s b) (p_n b).
Definition put_s (b : pipe) (x : sst V) : pipe := Pipe (p_x b) (p_c b) x (p_n b).

(** Messages with ranks or points, and messages with values. *)
Definition msg : Type := (list Z + list V)%type.
Definition to_ints (m : msg) : option (list Z) := match m with inl l => Some l | inr _ => None end.
Definition to_vals (m : msg) : option (list V) := match m with inl _ => None | inr l => Some l end.

(** What Collect writes, by cells, as what Send reads, by fields. *)
Definition donor_values (cnt : Z) (out : list (list V)) : option (list (list V)) :=
  omap (fun k => omap (fun row => vread row k) out) (zseq 0 (Z.to_nat cnt)).

(** The sort of std::sort on each rank for the two orders; the grids of the domain, among them the N grid with the
    global range R; the connectivities of each rank; which of them is exchanged. *)
Variables (cnt : Z) (junk : V) (ssort rsort : nat -> list Z -> list Z) (grids : list (Z * range)) (R : range) (n : nat).
Variables (ms : nat -> list mconn) (ns : nat -> list nconn) (id : Z * Z).

(** Making the send and the receive map, and packing. *)
Definition start_exchange (r : nat) (b : pipe) : option pipe :=
  let! vals := donor_values cnt (k_out (p_c b)) in
  let! s := xch_pack cnt junk
    (of_id m_id id (ms r) (sd_out (xm (p_x b)))) (send_recv_order (ssort r) R (m_points id (ms r)))
    (of_id n_id id (ns r) (sd_out (xn (p_x b)))) (send_recv_order (rsort r) R (n_points id (ns r)))
    (SS0 vals (s_out (p_s b))) in
  Some (put_s b s).

(** Exchanger.cpp 1497-1533, with the layout and the range of the values of the N grid. *)
Definition end_exchange (lay : layout) (NR : nat -> range) (r : nat) (b : pipe) : option pipe :=
  let! f := disperse_overwrite cnt lay (NR r) (n_points id (ns r)) (s_out (p_s b)) (p_n b) in
  Some (Pipe (p_x b) (p_c b) (p_s b) f).

Definition exchange (lay : layout) (c : cart) (mem : list nat) (L FR : nat -> range) (nbs : nat -> list (nat * range))
    (cells : nat -> list range) (red : nat -> Z -> range -> list V -> option V) (nlay : layout) (NR : nat -> range)
    : list (phase pipe msg) :=
  lift (fun b => Some (p_x b)) put_x (remsg inl to_ints (find_ranks grids n)) ++
  lift (fun b => Some (p_c b)) put_c (remsg inr to_vals (embed n mem (collect lay c cnt L FR nbs cells red))) ++
  [Local start_exchange] ++
  lift (fun b => Some (p_s b)) put_s
    (remsg inr to_vals [wait_all (fun _ => xch_recvs) (fun _ => xch_sends) (fun _ => xch_done cnt junk)]) ++
  [Local (end_exchange nlay NR)].

(** [field] and [vv]: the values of the M grid and the work array of the collect object (empty on ranks without it);
    [out]: the array for the receiver values; [nfield]: the values of the N grid. *)
Definition pipe0 (ms : list mconn) (ns : list nconn) (field : list (list V)) (vv : list V) (out nfield : list (list V)) : pipe :=
  Pipe (XS0 ms ns) (CS0 field vv) (SS0 [] out) nfield.
End Pipe.
Arguments pipe : clear implicits.
Arguments msg : clear implicits.

(** ConnectionType.hpp: the kinds of interpolation.  CUBIC coefficients can be made (AssemblerAssembly.cpp 5171-5182), but
    an assembly makes no cubic donors (4839-4841). *)
Inductive connection := NEAREST | LINEAR | CUBIC.

(** AssemblerAssembly.cpp 5029-5041 *)
Definition stencil_size (ct : connection) : Z := match ct with NEAREST | LINEAR => 2 | CUBIC => 4 end.

(** ConnectivityM.cpp 134-144 (all coefficients after a Resize) and AssemblerAssembly.cpp 5153-5186: InterpCoefs(d,o) of a
    donor with the coordinates [u] in [nd] dimensions, [o] below MaxStencilSize. *)
Definition interp_coefs (ct : connection) (nd : nat) (u : nat -> R) (d : nat) (o : Z) : option R :=
  if (0 <=? o) && (o <? stencil_size ct) then
    Some (if Nat.ltb d nd then
            match ct with
            | NEAREST => if Rle_dec (u d) (1 / 2) then (if o =? 0 then 1 else 0)%R else (if o =? 0 then 0 else 1)%R
            | LINEAR => if o =? 0 then x0 (interp_linear (u d)) else x1 (interp_linear (u d))
            | CUBIC => if o =? 0 then w0 (interp_cubic (u d)) else if o =? 1 then w1 (interp_cubic (u d))
                       else if o =? 2 then w2 (interp_cubic (u d)) else w3 (interp_cubic (u d))
            end
          else (if o =? 0 then 1 else 0)%R)
  else None.
