(** Collecting a field at cells: model of the collect_map constructor (src/core/CollectMap.cpp 27-475), of
    CollectBase.cpp 27-278 and of the Collect functions of CollectNone.hpp, CollectAny.hpp, CollectNotAll.hpp,
    CollectAll.hpp (61-91), CollectMin.hpp, CollectMax.hpp (63-93) and CollectInterp.hpp (65-108).

    Simplifications: integers are unbounded; CellExtents is a list of ranges; what the constructor does for all
    neighbours in parallel (loops over cells outside, over neighbours inside) is done for one neighbour after
    the other; the elements of a send buffer, each of which is written once, are listed in the order in which they
    are stored; PackedValues(iCount)(iCell) is element iCount of element iCell of the result; the conversion between
    value type and MPI type is left out; the threads of CollectInterpThreaded.hpp, which have their own buffers
    and share out the cells, are one (ThrModel.v has several). *)
From Coq Require Import List ZArith Bool.
From Verif Require Import TupleModel RangeModel CartModel IndexerModel ArrayModel HashModel NetModel SendModel.
Import ListNotations.
Local Open Scope Z_scope.

Notation foreach_col := RangeModel.foreach_col.

(** ** The map *)

(** CollectMap.cpp 69, 142, 247, 302, 356, 419; CollectBase.cpp 73: AwayFromEdge *)
Definition away (c : cart) (cell : range) : bool := rincludes (c_range c) cell.

(** PeriodicAdjust of the vertices, in the order of the loops over k, j, i. *)
Definition adjusted (c : cart) (cell : range) : option (list (tup Z)) := omap (periodic_adjust c) (foreach_col cell).

(** 31-38: MaxVertices_ *)
Definition extent_product (cell : range) : Z :=
  (c0 (re cell) - c0 (rb cell)) * ((c1 (re cell) - c1 (rb cell)) * (c2 (re cell) - c2 (rb cell))).
Definition max_vertices (cells : list range) : Z := fold_left (fun m cell => Z.max m (extent_product cell)) cells 0.

(** ExtendRange by those of the points that are in [r]. *)
Definition extend_by (r : range) (vs : list (tup Z)) (R : range) : range :=
  fold_left (fun R v => if rcontains r v then extend_range R v else R) vs R.

(** 63-107, for one cell and one neighbour. *)
Definition send_range_add (c : cart) (loc nb : range) (R : range) (cell : range) : option range :=
  if away c cell
  then Some (if ranges_overlap nb cell then union_ranges R (intersect_ranges loc cell) else R)
  else let! vs := adjusted c cell in
       Some (if existsb (rcontains nb) vs then extend_by loc vs R else R).

(** 136-189, for one cell and one neighbour: the points whose mask is set. *)
Definition send_marks (c : cart) (loc nb : range) (cell : range) : option (list (tup Z)) :=
  if away c cell
  then Some (if ranges_overlap nb cell then foreach_col (intersect_ranges loc cell) else [])
  else let! vs := adjusted c cell in
       Some (if existsb (rcontains nb) vs then filter (rcontains loc) vs else []).

(** 241-267 *)
Definition recv_range_add (c : cart) (nb : range) (R : range) (cell : range) : option range :=
  if away c cell
  then Some (union_ranges R (intersect_ranges nb cell))
  else let! vs := adjusted c cell in Some (extend_by nb vs R).

(** 296-331 *)
Definition recv_marks (c : cart) (nb : range) (cell : range) : option (list (tup Z)) :=
  if away c cell
  then Some (foreach_col (intersect_ranges nb cell))
  else let! vs := adjusted c cell in Some (filter (rcontains nb) vs).

(** 130-134, 136-189 (290-294, 296-331): the mask over the range R. *)
Definition mark (R : range) (m : list bool) (p : tup Z) : option (list bool) := vwrite m (rindex ColMajor R p) true.
Definition mask (marks : range -> option (list (tup Z))) (R : range) (cells : list range) : option (list bool) :=
  ofoldl (fun m cell => let! ps := marks cell in ofoldl (mark R) ps m) cells (repeat false (Z.to_nat (rcount R))).

(** 191-217: the points whose mask is set, in the order of their indices. *)
Definition set_points (R : range) (m : list bool) : option (list (tup Z)) :=
  let! l := omap (fun i => let! b := vread m i in let! p := rtuple ColMajor R i in Some (p, b)) (zseq 0 (length m)) in
  Some (map fst (filter snd l)).

(** 191-200, 333-342: NumPoints *)
Definition num_set (m : list bool) : Z := Z.of_nat (length (filter (fun b => b) m)).

(** 396-402: RecvBufferIndices of one recv. *)
Fixpoint number_set (k : Z) (m : list bool) : list Z :=
  match m with
  | [] => []
  | true :: m => k :: number_set (k + 1) m
  | false :: m => -1 :: number_set k m
  end.

(** CollectMap.hpp 22-26: struct send, with NumPoints the number of points. *)
Notation csend := (nat * list (tup Z))%type.

(** CollectMap.hpp 28-31: struct recv, and the local range of the neighbour, RecvFromNeighborRanges and
    RecvBufferIndices for it. *)
Record crecv : Type := CR { v_rank : nat; v_num : Z; v_local : range; v_range : range; v_idx : list Z }.

(** 45-221 for one neighbour (rank and local range): no send if the range is empty. *)
Definition send_to (c : cart) (loc : range) (cells : list range) (nb : nat * range) : option (list csend) :=
  let! R := ofoldl (send_range_add c loc (snd nb)) cells (make_empty_range (c_nd c)) in
  if rempty R then Some []
  else let! m := mask (send_marks c loc (snd nb)) R cells in
       let! ps := set_points R m in
       Some [(fst nb, ps)].

(** 236-342, 391-403 for one neighbour. *)
Definition recv_from (c : cart) (cells : list range) (nb : nat * range) : option (list crecv) :=
  let! R := ofoldl (recv_range_add c (snd nb)) cells (make_empty_range (c_nd c)) in
  if rempty R then Some []
  else let! m := mask (recv_marks c (snd nb)) R cells in
       Some [CR (fst nb) (num_set m) (snd nb) R (number_set 0 m)].

(** 344-376: NumRemoteVertices_ *)
Definition num_remote (c : cart) (loc : range) (cell : range) : option Z :=
  if away c cell then Some (rcount cell - rcount (intersect_ranges loc cell))
  else let! vs := adjusted c cell in Some (Z.of_nat (length (filter (fun v => negb (rcontains loc v)) vs))).

(** 425-454: CellRecvs and CellRecvBufferIndices (an array of pairs), for one recv.  For a cell away from the edge the
    vertex has its column-major index in the cell, and otherwise the number of the iteration. *)
Definition note_recv (c : cart) (cell : range) (arr : list (Z * Z)) (ir : Z * crecv) : option (list (Z * Z)) :=
  let v := snd ir in
  if away c cell
  then ofoldl (fun arr p =>
         let! b := vread (v_idx v) (rindex ColMajor (v_range v) p) in
         vwrite arr (rindex ColMajor cell p) (fst ir, b)) (foreach_col (intersect_ranges (v_local v) cell)) arr
  else let! vs := adjusted c cell in
       ofoldl (fun arr ip =>
         if rcontains (v_local v) (snd ip)
         then let! b := vread (v_idx v) (rindex ColMajor (v_range v) (snd ip)) in
              vwrite arr (fst ip) (fst ir, b)
         else Some arr) (combine (zseq 0 (length vs)) vs) arr.

(** 456-470: the vertices with a recv: (vertex, recv, index in the buffer). *)
Definition list_remote (cell : range) (arr : list (Z * Z)) : option (list (Z * (Z * Z))) :=
  let! l := omap (fun i => let! x := vread arr i in Some (i, x)) (zseq 0 (length (foreach_col cell))) in
  Some (filter (fun y => 0 <=? fst (snd y)) l).

(** 378-389, 405-471: RemoteVertices_, RemoteVertexRecvs_ and RemoteVertexRecvBufferIndices_ for one cell, arrays of
    NumRemoteVertices elements initialised with 0; more vertices than that would be written beyond the end. *)
Definition remote_vertices (c : cart) (loc : range) (maxv : Z) (recvs : list crecv) (cell : range)
    : option (list (Z * (Z * Z))) :=
  let! num := num_remote c loc cell in
  let! arr := ofoldl (note_recv c cell) (combine (zseq 0 (length recvs)) recvs) (repeat (-1, -1) (Z.to_nat maxv)) in
  let! l := list_remote cell arr in
  if Z.of_nat (length l) <=? num
  then Some (l ++ repeat (0, (0, 0)) (Z.to_nat (num - Z.of_nat (length l)))) else None.

Record cmap : Type := CM {
  cm_cells : list range; cm_max : Z; cm_sends : list csend; cm_recvs : list crecv; cm_remote : list (list (Z * (Z * Z))) }.

Definition collect_map (c : cart) (loc : range) (nbs : list (nat * range)) (cells : list range) : option cmap :=
  let maxv := max_vertices cells in
  match cells with
  | [] => Some (CM cells maxv [] [] [])
  | _ =>
      let! ss := omap (send_to c loc cells) nbs in
      let! rs := omap (recv_from c cells) nbs in
      let recvs := concat rs in
      let! rem := omap (remote_vertices c loc maxv recvs) cells in
      Some (CM cells maxv (concat ss) recvs rem)
  end.

(** ** Collecting *)

Section Collect.
Context {V : Type}.
Variables (lay : layout) (c : cart) (cnt : Z).

(** CollectBase.cpp 203-216: the send buffer, an array with extents Count_ and NumPoints. *)
Definition send_buffer (fr : range) (field : list (list V)) (points : list (tup Z)) : option (list V) :=
  option_map (@concat V) (omap (fun k =>
    let! row := vread field k in omap (fun p => vread row (rindex lay fr p)) points) (zseq 0 (Z.to_nat cnt))).

(** CollectBase.cpp 69-104: the indices in the cell and in the field of the local vertices. *)
Definition local_cell_info (loc fr : range) (cell : range) : option (list (Z * Z)) :=
  if away c cell
  then Some (map (fun p => (rindex lay cell p, rindex lay fr p)) (foreach_col (intersect_ranges loc cell)))
  else let! vs := adjusted c cell in
       Some (map (fun pv => (rindex lay cell (fst pv), rindex lay fr (snd pv)))
                 (filter (fun pv => rcontains loc (snd pv)) (combine (foreach_col cell) vs))).

(** CollectBase.cpp 242-278; [vv] is VertexValues, with extents Count_ and MaxVertices, as the cell before has left
    it. *)
Definition assemble (loc fr : range) (field : list (list V)) (maxv : Z) (recvs : list crecv) (bufs : list (list V))
    (cell : range) (rem : list (Z * (Z * Z))) (vv : list V) : option (list V) :=
  let! info := local_cell_info loc fr cell in
  let! vv := ofoldl (fun vv k => ofoldl (fun vv x =>
      let! v := vals_at field k (snd x) in buf_write cnt maxv vv k (fst x) v) info vv) (zseq 0 (Z.to_nat cnt)) vv in
  ofoldl (fun vv x => ofoldl (fun vv k =>
      let! v := vread recvs (fst (snd x)) in
      let! b := vread bufs (fst (snd x)) in
      let! w := buf_read cnt (v_num v) b k (snd (snd x)) in
      buf_write cnt maxv vv k (fst x) w) (zseq 0 (Z.to_nat cnt)) vv) rem vv.

(** The loop over the cells, with [red iCell CellRange] for the reduction of the values at the vertices in the order
    of their indices. *)
Definition collect_cell (red : Z -> range -> list V -> option V) (loc fr : range) (field : list (list V)) (m : cmap)
    (bufs : list (list V)) (s : list V * list (list V)) (x : Z * (range * list (Z * (Z * Z))))
    : option (list V * list (list V)) :=
  let cell := fst (snd x) in
  let! vv := assemble loc fr field (cm_max m) (cm_recvs m) bufs cell (snd (snd x)) (fst s) in
  let! out := omap (fun k =>
      let! vals := omap (buf_read cnt (cm_max m) vv k) (zseq 0 (Z.to_nat (rcount cell))) in
      red (fst x) cell vals) (zseq 0 (Z.to_nat cnt)) in
  Some (vv, snd s ++ [out]).

(** The field values (one row for each count), VertexValues_, the result, the map and the send buffers. *)
Record cst : Type := CS { k_field : list (list V); k_vv : list V; k_out : list (list V); k_map : cmap; k_bufs : list (list V) }.
Definition CS0 (field : list (list V)) (vv : list V) : cst := CS field vv [] (CM [] 0 [] [] []) [].

Definition col_map (loc : range) (nbs : list (nat * range)) (cells : list range) (s : cst) : option cst :=
  let! m := collect_map c loc nbs cells in
  Some (CS (k_field s) (k_vv s) (k_out s) m (k_bufs s)).

Definition col_pack (fr : range) (s : cst) : option cst :=
  let! bufs := omap (fun x => send_buffer fr (k_field s) (snd x)) (cm_sends (k_map s)) in
  Some (CS (k_field s) (k_vv s) (k_out s) (k_map s) bufs).

Definition col_recvs (s : cst) : list nat := map v_rank (cm_recvs (k_map s)).
Definition col_sends (s : cst) : list (nat * list V) := combine (map fst (cm_sends (k_map s))) (k_bufs s).

(** CollectBase.cpp 187-198: a message longer than the buffer is an error, a shorter one leaves the rest, which is
    not modelled. *)
Definition col_done (red : Z -> range -> list V -> option V) (loc fr : range) (s : cst) (ms : list (list V)) : option cst :=
  if forallb (fun x => Z.of_nat (length (snd x)) =? cnt * v_num (fst x)) (combine (cm_recvs (k_map s)) ms)
  then
    let m := k_map s in
    let! r := ofoldl (collect_cell red loc fr (k_field s) m ms)
                (combine (zseq 0 (length (cm_cells m))) (combine (cm_cells m) (cm_remote m))) (k_vv s, []) in
    Some (CS (k_field s) (fst r) (snd r) m (k_bufs s))
  else None.

(** Each rank creates the map and the collect object, and calls Collect. *)
Definition collect (L FR : nat -> range) (nbs : nat -> list (nat * range)) (cells : nat -> list range)
    (red : nat -> Z -> range -> list V -> option V) : list (phase cst (list V)) :=
  [Local (fun r => col_map (L r) (nbs r) (cells r));
   Local (fun r => col_pack (FR r));
   wait_all (fun _ => col_recvs) (fun _ => col_sends) (fun r => col_done (red r) (L r) (FR r))].

End Collect.
Arguments cst : clear implicits.

(** ** Reductions *)

Section Reduce.
Context {V : Type}.

(** [of_bool] and [truth]: conversions of the value type from and to bool. *)
Variables (of_bool : bool -> V) (truth : V -> bool).

(** CollectNone.hpp 79-85, CollectAny.hpp, CollectNotAll.hpp, CollectAll.hpp: the same lines. *)
Definition red_none (_ : Z) (_ : range) (vals : list V) : option V :=
  Some (fold_left (fun a v => of_bool (truth a && negb (truth v))) vals (of_bool true)).
Definition red_any (_ : Z) (_ : range) (vals : list V) : option V :=
  Some (fold_left (fun a v => of_bool (truth a || truth v)) vals (of_bool false)).
Definition red_not_all (_ : Z) (_ : range) (vals : list V) : option V :=
  Some (fold_left (fun a v => of_bool (truth a || negb (truth v))) vals (of_bool false)).
Definition red_all (_ : Z) (_ : range) (vals : list V) : option V :=
  Some (fold_left (fun a v => of_bool (truth a && truth v)) vals (of_bool true)).

(** ScalarOps.hpp 13-21: Min and Max, with [lt] for operator<.  CollectMin.hpp 81-87 with
    [start] = numeric_limits::max(), CollectMax.hpp 81-87 with [start] = numeric_limits::min(). *)
Variable lt : V -> V -> bool.
Definition red_min (start : V) (_ : Z) (_ : range) (vals : list V) : option V :=
  Some (fold_left (fun a v => if lt v a then v else a) vals start).
Definition red_max (start : V) (_ : Z) (_ : range) (vals : list V) : option V :=
  Some (fold_left (fun a v => if lt a v then v else a) vals start).

(** CollectInterp.hpp 85-102: [coefs iDim i iCell] is InterpCoefs(iDim,i,iCell), [mul] the product of doubles,
    [acc a w v] is a += w*v in the value type. *)
Context {D : Type}.
Variables (mul : D -> D -> D) (acc : V -> D -> V -> V) (zero : V) (junk : D) (coefs : nat -> Z -> Z -> option D).
Definition vertex_coef (icell : Z) (cell : range) (p : tup Z) : option D :=
  let! a := coefs 0%nat (c0 p - c0 (rb cell)) icell in
  let! b := coefs 1%nat (c1 p - c1 (rb cell)) icell in
  let! d := coefs 2%nat (c2 p - c2 (rb cell)) icell in
  Some (mul (mul a b) d).
Definition red_interp (lay : layout) (icell : Z) (cell : range) (vals : list V) : option V :=
  let! ws := ofoldl (fun ws p => let! w := vertex_coef icell cell p in vwrite ws (rindex lay cell p) w)
               (foreach_col cell) (repeat junk (length vals)) in
  Some (fold_left (fun a x => acc a (fst x) (snd x)) (combine ws vals) zero).
End Reduce.
