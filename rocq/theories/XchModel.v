(** Finding the ranks that exchange the values of a connectivity: model of
    exchanger::UpdateSourceDestRanks_, src/core/Exchanger.cpp 282-777, and of BinDivide, 1555-1561.

    Simplifications: the arrays of a connectivity (Extents, Destinations, DestinationRanks; Points, SourceRanks)
    are lists of records; the loop that counts the points of a partition is merged with the one that appends them, so
    Count is the length of PointIndices until it is reset; the code for the M side and the N side, two copies of the
    same text, is one definition used for both; the messages with tag 0 (M side) and with tag 1 (N side) of one
    Waitall are told apart by the order of posting, M before N on both ends.  The two barriers and the debug
    assertions at the end are left out. *)
From Coq Require Import List ZArith Bool.
From Verif Require Import TupleModel RangeModel IndexerModel ArrayModel ContModel HashModel ProtoSpec NetModel SendModel.
Import ListNotations.
Local Open Scope Z_scope.

(** ConnectivityM.hpp: lower corner of the donor cell (Extents(0,:,i)), destination point and given rank. *)
Record donor : Type := Donor { d_lower : tup Z; d_point : tup Z; d_rank : Z }.

(** A connectivity whose M grid is on this rank: its ID (the IDs of its M grid and of its N grid), the local range of
    its M grid, the donors. *)
Record mconn : Type := MConn { mc_from : Z; mc_grid : Z; mc_local : range; mc_donors : list donor }.

(** ConnectivityN.hpp: point and given source rank. *)
Record receiver : Type := Recvr { r_point : tup Z; r_rank : Z }.
Record nconn : Type := NConn { nc_from : Z; nc_grid : Z; nc_receivers : list receiver }.

(** Exchanger.cpp 322-326: TotalPoints; [grids] are the IDs and the global ranges of the grids of the domain. *)
Definition total_points (grids : list (Z * range)) : Z := fold_left (fun t g => t + rcount (snd g)) grids 0.

(** Exchanger.cpp 1555-1561 *)
Definition bin_divide (a : Z) (bins : nat) : Z := Z.quot (a + Z.of_nat bins - 1) (Z.of_nat bins).

(** Exchanger.cpp 344-350: NumPointsBeforeGrid, with the range of the grid. *)
Fixpoint before_grid (grids : list (Z * range)) (part : Z) (g : Z) : option (Z * range) :=
  match grids with
  | [] => None
  | (id, r) :: grids => if g =? id then Some (part, r) else before_grid grids (part + rcount r) g
  end.

(** Exchanger.cpp 387, 412, 457, 482, 726, 753: iLinearPoint *)
Definition linear_point (grids : list (Z * range)) (g : Z) (p : tup Z) : option Z :=
  let! x := before_grid grids 0 g in Some (fst x + rindex ColMajor (snd x) p).

(** A donor or receiver as the loops see it: whether its rank is to be found, its point, the rank it has. *)
Record slot : Type := Slot { sl_want : bool; sl_grid : Z; sl_pt : tup Z; sl_rank : Z }.

(** Exchanger.cpp 303-319, 381 *)
Definition m_slot (mc : mconn) (d : donor) : slot :=
  let here := rcontains (mc_local mc) (d_lower d) in
  let rank := if here then d_rank d else -1 in
  Slot (here && (rank <? 0)) (mc_grid mc) (d_point d) rank.
Definition m_slots (mc : mconn) : list slot := map (m_slot mc) (mc_donors mc).

(** Exchanger.cpp 322-326, 406 *)
Definition n_slot (nc : nconn) (x : receiver) : slot := Slot (r_rank x <? 0) (nc_grid nc) (r_point x) (r_rank x).
Definition n_slots (nc : nconn) : list slot := map (n_slot nc) (nc_receivers nc).

(** [sd_send]: MSends, partition and PointIndices; [sd_from], [sd_cnt], [sd_recv]: MRecvs, rank, Count and
    PointIndices; [sd_part]: LinearPartition.MRanks; [sd_ans]: Ranks of MRecvs; [sd_got]: Count and Ranks of MSends;
    [sd_out]: the ranks found.  The same for N. *)
Record side : Type := Side {
  sd_slots : list (list slot); sd_send : smap Z (list Z); sd_from : list nat; sd_cnt : list Z; sd_recv : list (list Z);
  sd_part : list Z; sd_ans : list (list Z); sd_got : smap Z (Z * list Z); sd_out : list (list Z) }.
Record xst : Type := XS { xm : side; xn : side }.

(** int(iLinearPoint/LinearPartitionSize); None is a division by zero. *)
Definition partition_of (lps k : Z) : option Z := if lps =? 0 then None else Some (Z.quot k lps).

(** Exchanger.cpp 388-390, 413-415, 458-460, 483-485 *)
Definition add_point (lps : Z) (m : smap Z (list Z)) (k : Z) : option (smap Z (list Z)) :=
  let! b := partition_of lps k in
  let (m', i) := map_fetch Z.ltb m b [] in
  let! e := nth_error (m_entries m') i in
  Some (map_write m' i (snd e ++ [k])).

(** Exchanger.cpp 364-417, 431-487 *)
Definition sd_build (grids : list (Z * range)) (lps : Z) (s : side) : option side :=
  let! m := ofoldl (fun m sls => ofoldl (fun m sl =>
      if sl_want sl then let! k := linear_point grids (sl_grid sl) (sl_pt sl) in add_point lps m k else Some m) sls m)
    (sd_slots s) map_empty in
  Some (Side (sd_slots s) m (sd_from s) (sd_cnt s) (sd_recv s) (sd_part s) (sd_ans s) (sd_got s) (sd_out s)).

(** MSends.Keys() as ranks *)
Definition sd_ranks (s : side) : list nat := map Z.to_nat (m_keys (sd_send s)).

(** Exchanger.cpp 499-514: DynamicHandshake; the ranks are inserted in the map in increasing order. *)
Definition sd_handshake (n : nat) (ss : list side) (r : nat) : option side :=
  let! s := nth_error ss r in
  Some (Side (sd_slots s) (sd_send s)
    (named n (fun q => match nth_error ss q with Some x => sd_ranks x | None => [] end) r)
    (sd_cnt s) (sd_recv s) (sd_part s) (sd_ans s) (sd_got s) (sd_out s)).

(** Exchanger.cpp 543-569: the numbers of points *)
Definition sd_count_sends (s : side) : list (nat * list Z) :=
  map (fun e => (Z.to_nat (fst e), [Z.of_nat (length (snd e))])) (m_entries (sd_send s)).
Definition sd_count_done (s : side) (ms : list (list Z)) : option side :=
  let! cnt := omap (fun m => match m with [x] => Some x | _ => None end) ms in
  Some (Side (sd_slots s) (sd_send s) (sd_from s) cnt (sd_recv s) (sd_part s) (sd_ans s) (sd_got s) (sd_out s)).

(** Exchanger.cpp 575-615: the points *)
Definition sd_point_sends (s : side) : list (nat * list Z) :=
  map (fun e => (Z.to_nat (fst e), snd e)) (m_entries (sd_send s)).
Definition sd_point_done (s : side) (ms : list (list Z)) : option side :=
  let! recv := omap (fun x => recv_into (repeat 0 (Z.to_nat (fst x))) (snd x)) (combine (sd_cnt s) ms) in
  Some (Side (sd_slots s) (sd_send s) (sd_from s) (sd_cnt s) recv (sd_part s) (sd_ans s) (sd_got s) (sd_out s)).

(** Exchanger.cpp 337-342, 619-637: the ranks that named the points of the partition that begins at [b]. *)
Definition sd_fill (b e : Z) (s : side) : option side :=
  let! part := ofoldl (fun a x => ofoldl (fun a k => vwrite a (k - b) (Z.of_nat (fst x))) (snd x) a)
    (combine (sd_from s) (sd_recv s)) (repeat (-1) (Z.to_nat (e - b))) in
  Some (Side (sd_slots s) (sd_send s) (sd_from s) (sd_cnt s) (sd_recv s) part (sd_ans s) (sd_got s) (sd_out s)).

(** Exchanger.cpp 639-653: the ranks of the other side at these points *)
Definition sd_answer (b : Z) (part : list Z) (s : side) : option side :=
  let! ans := omap (omap (fun k => vread part (k - b))) (sd_recv s) in
  Some (Side (sd_slots s) (sd_send s) (sd_from s) (sd_cnt s) (sd_recv s) (sd_part s) ans (sd_got s) (sd_out s)).

(** Exchanger.cpp 655-707: the answers; Send.Ranks has Send.Count elements. *)
Definition sd_answer_sends (s : side) : list (nat * list Z) := combine (sd_from s) (sd_ans s).
Definition sd_answer_done (s : side) (ms : list (list Z)) : option side :=
  let! got := omap (fun x => let! l := recv_into (map (fun _ => 0) (snd (fst x))) (snd x) in Some (fst (fst x), (0, l)))
    (combine (m_entries (sd_send s)) ms) in
  Some (Side (sd_slots s) (sd_send s) (sd_from s) (sd_cnt s) (sd_recv s) (sd_part s) (sd_ans s)
    (mkM (m_keys (sd_send s)) got) (sd_out s)).

(** Exchanger.cpp 726-730, 753-757: DestinationRanks(iDonor) = Send.Ranks(Send.Count); ++Send.Count *)
Definition take_rank (lps : Z) (m : smap Z (Z * list Z)) (k : Z) : option (smap Z (Z * list Z) * Z) :=
  let! b := partition_of lps k in
  let i := set_lower Z.ltb (m_keys m) b in
  let! e := nth_error (m_entries m) i in
  let! v := vread (snd (snd e)) (fst (snd e)) in
  Some (map_write m i (fst (snd e) + 1, snd (snd e)), v).

Definition take_slot (grids : list (Z * range)) (lps : Z) (x : smap Z (Z * list Z) * list Z) (sl : slot)
    : option (smap Z (Z * list Z) * list Z) :=
  if sl_want sl then
    let! k := linear_point grids (sl_grid sl) (sl_pt sl) in
    let! y := take_rank lps (fst x) k in
    Some (fst y, snd x ++ [snd y])
  else Some (fst x, snd x ++ [sl_rank sl]).

(** Exchanger.cpp 703-759 *)
Definition sd_unpack (grids : list (Z * range)) (lps : Z) (s : side) : option side :=
  let! x := ofoldl (fun x sls => let! y := ofoldl (take_slot grids lps) sls (fst x, []) in Some (fst y, snd x ++ [snd y]))
    (sd_slots s) (sd_got s, []) in
  Some (Side (sd_slots s) (sd_send s) (sd_from s) (sd_cnt s) (sd_recv s) (sd_part s) (sd_ans s) (fst x) (snd x)).

Definition both (f : side -> option side) (s : xst) : option xst :=
  let! a := f (xm s) in let! b := f (xn s) in Some (XS a b).

(** One Waitall for the messages of both sides. *)
Definition two_sided (recvs : side -> list nat) (sends : side -> list (nat * list Z))
    (done : side -> list (list Z) -> option side) : phase xst (list Z) :=
  wait_all (fun _ s => recvs (xm s) ++ recvs (xn s)) (fun _ s => sends (xm s) ++ sends (xn s))
    (fun _ s ms =>
       let k := length (recvs (xm s)) in
       let! a := done (xm s) (firstn k ms) in
       let! b := done (xn s) (skipn k ms) in
       Some (XS a b)).

(** Exchanger.cpp 282-777 *)
Definition find_ranks (grids : list (Z * range)) (n : nat) : list (phase xst (list Z)) :=
  let total := total_points grids in
  let lps := bin_divide total n in
  [Local (fun _ => both (sd_build grids lps));
   Coll (fun ss r => let! a := sd_handshake n (map xm ss) r in let! s := nth_error ss r in Some (XS a (xn s)));
   Coll (fun ss r => let! b := sd_handshake n (map xn ss) r in let! s := nth_error ss r in Some (XS (xm s) b));
   two_sided sd_from sd_count_sends sd_count_done;
   two_sided sd_from sd_point_sends sd_point_done;
   Local (fun r s =>
     let b := lps * Z.of_nat r in
     let e := Z.min (lps * (Z.of_nat r + 1)) total in
     let! s1 := both (sd_fill b e) s in
     let! m := sd_answer b (sd_part (xn s1)) (xm s1) in
     let! x := sd_answer b (sd_part (xm s1)) (xn s1) in
     Some (XS m x));
   two_sided sd_ranks sd_answer_sends sd_answer_done;
   Local (fun _ => both (sd_unpack grids lps))].

(** The state when UpdateSourceDestRanks_ is called. *)
Definition side0 (slots : list (list slot)) : side := Side slots map_empty [] [] [] [] [] map_empty [].
Definition XS0 (ms : list mconn) (ns : list nconn) : xst := XS (side0 (map m_slots ms)) (side0 (map n_slots ns)).

(** Exchanger.hpp: LocalMs_ and LocalNs_ are maps with the IDs of the connectivities as keys. *)
Definition m_id (mc : mconn) : Z * Z := (mc_from mc, mc_grid mc).
Definition n_id (nc : nconn) : Z * Z := (nc_from nc, nc_grid nc).

(** What a rank has of the connectivity [id], nothing if it does not have the grid: LocalMs_(id).DestinationRanks,
    ConnectivityM.Destinations(); LocalNs_(id).SourceRanks, ConnectivityN.Points(). *)
Definition of_id {A B} (ident : A -> Z * Z) (id : Z * Z) (conns : list A) (l : list (list B)) : list B :=
  match find (fun x => (fst (ident (fst x)) =? fst id) && (snd (ident (fst x)) =? snd id)) (combine conns l) with
  | Some x => snd x
  | None => []
  end.
Definition m_points (id : Z * Z) (ms : list mconn) : list (tup Z) := of_id m_id id ms (map (fun mc => map d_point (mc_donors mc)) ms).
Definition n_points (id : Z * Z) (ns : list nconn) : list (tup Z) := of_id n_id id ns (map (fun nc => map r_point (nc_receivers nc)) ns).
