(** Sending the donors and receivers of XINTOUT files to the ranks that need them: model of src/extras/XINTOUT.cpp 1918-2411
    (DistributeGridConnectivityData), on the communicator of one grid.

    Simplifications: the five (three) arrays of donors (receivers) sent to a rank are one message, Count and MaxSize another; the two tags are one,
    messages of donors and of receivers being sent and received in the same order; a message that has not as many elements as its buffer is undefined
    behaviour (None); a rank without a chunk has no donors (receivers). Logging and profiling are left out. *)
From Coq Require Import List ZArith QArith Bool.
From Verif Require Import TupleModel RangeModel CartModel ContModel ArrayModel HashModel ProtoModel ProtoSpec NetModel DHashModel LiftModel NeighModel.
From Verif Require Import XinModel MatModel.
Import ListNotations.
Local Open Scope Z_scope.

(** An element of donor_data (with DestinationGridIDs, DestinationPoints) and of receiver_data (with SourceGridIDs, SourceCells). *)
Definition dval : Type := (donor_entry * place)%type.
Definition rval : Type := (tup Z * place)%type.
Definition extents (v : dval) : range := mkR (e_begin (fst v)) (e_end (fst v)).

Inductive xmsg : Type := XHash (m : hmsg) | XNums (count max : Z) | XNum (count : Z) | XDons (l : list dval) | XRecs (l : list rval).
Definition get_hash (m : xmsg) : option hmsg := match m with XHash h => Some h | _ => None end.

(** DonorSends or ReceiverSends, the ranks of DonorRecvs, their Count (and MaxSize), and their data. *)
Record box (A : Type) : Type := Box { bx_send : smap Z (list A); bx_from : list nat; bx_cnt : list (Z * Z); bx_recv : list (list A) }.
Arguments Box {A} bx_send bx_from bx_cnt bx_recv.
Arguments bx_send {A} b. Arguments bx_from {A} b. Arguments bx_cnt {A} b. Arguments bx_recv {A} b.

(** 1956-1993: the points of a cell, adjusted to the base period if the cell is not in the domain. The array for them has as many elements
    as the product of the sizes: None if that is not their number, or if PeriodicAdjust divides by zero. *)
Definition cell_size (x : range) (d : nat) : Z := tget (re x) d - tget (rb x) d.
Definition cell_points (c : cart) (v : dval) : option (list (tup Z)) :=
  let x := extents v in
  let pts := RangeModel.foreach_col x in
  if Z.of_nat (length pts) =? cell_size x 0 * cell_size x 1 * cell_size x 2
  then if rincludes (c_range c) x then Some pts else omap (periodic_adjust c) pts
  else None.

(** 2045-2053, 2111-2119: the rank of the first region of the bin with the point; if there is none, the rank stays what Resize makes it, 0 (2032, 2084; Vector.hpp 169-171). *)
Definition point_owner (res : smap nat (rbins range)) (x : tup Z * (nat * Z)) : option nat :=
  let! l := retrieved res (fst (snd x)) (snd (snd x)) in
  Some (match find (fun y => rcontains (fst y) (fst x)) l with Some y => snd y | None => 0%nat end).

(** 2060-2079: UniqueRanks *)
Definition unique_ranks (l : list nat) : list nat := fold_left (set_insert Nat.ltb) l [].

(** 2172-2190: the coefficients that are sent, with zeros behind them up to MaxSize; a size that is negative or greater writes outside the array. *)
Definition pad1 (max size : Z) (l : list Z) : option (list Z) :=
  if (size <? 0) || (max <? size) || negb (Z.of_nat (length l) =? size) then None else Some (l ++ repeat 0 (Z.to_nat (max - size))).
Definition pad (max : Z) (v : dval) : option dval :=
  let e := fst v in
  let! a := pad1 max (cell_size (extents v) 0) (c0 (e_coefs e)) in
  let! b := pad1 max (cell_size (extents v) 1) (c1 (e_coefs e)) in
  let! c := pad1 max (cell_size (extents v) 2) (c2 (e_coefs e)) in
  Some (DonorEntry (e_begin e) (e_end e) (e_coords e) (T3 a b c), snd v).
(** 2374-2381: those that are copied from what was received. *)
Definition unpad (v : dval) : dval :=
  let e := fst v in
  let take d l := firstn (Z.to_nat (cell_size (extents v) d)) l in
  (DonorEntry (e_begin e) (e_end e) (e_coords e) (T3 (take 0%nat (c0 (e_coefs e))) (take 1%nat (c1 (e_coefs e))) (take 2%nat (c2 (e_coefs e)))), snd v).

(** DonorSends.Fetch(Rank) and the data added to it, 2130-2140, 2162-2206 *)
Definition push {A} (m : smap Z (list A)) (x : nat * A) : option (smap Z (list A)) :=
  let (m', i) := map_fetch Z.ltb m (Z.of_nat (fst x)) [] in
  let! e := nth_error (m_entries m') i in
  Some (map_write m' i (snd e ++ [snd x])).

(** Local variables. [mx]: MaxSize of the donors read. *)
Inductive xst : Type :=
| X0 (loc : range) (mx : Z) (ds : list dval) (rs : list rval)
| XBuild (mx : Z) (ds : list dval) (rs : list rval) (s : hst)
| XRetr (mx : Z) (ds : list dval) (rs : list rval) (dp : list (list (tup Z * (nat * Z)))) (rp : list (tup Z * (nat * Z))) (s : qst)
| XSend (mx : Z) (d : box dval) (v : box rval)
| XDone (mx : Z) (ds : list dval) (rs : list rval).

Definition x_hash (s : xst) : option hst := match s with XBuild _ _ _ h => Some h | _ => None end.
Definition x_put_hash (s : xst) (h : hst) : xst := match s with XBuild m d r _ => XBuild m d r h | _ => s end.
Definition x_retr (s : xst) : option qst := match s with XRetr _ _ _ _ _ q => Some q | _ => None end.
Definition x_put_retr (s : xst) (q : qst) : xst := match s with XRetr m d r dp rp _ => XRetr m d r dp rp q | _ => s end.

(** 1930: CreateDecompHash *)
Definition x_start (_ : nat) (s : xst) : option xst := match s with X0 loc mx ds rs => Some (XBuild mx ds rs (D0 [loc])) | _ => None end.

(** 1934-2027: the bins of the points *)
Definition x_query (c : cart) (_ : nat) (s : xst) : option xst :=
  match s with
  | XBuild mx ds rs (DH h) =>
      let at_ p := let! b := dh_map zcoords (c_nd c) h p in Some (p, b) in
      let! dp := omap (fun v => let! pts := cell_points c v in omap at_ pts) ds in
      let! rp := omap (fun v => at_ (fst v)) rs in
      Some (XRetr mx ds rs dp rp (R0 h (fold_left (set_insert bin_less) (map snd (concat dp) ++ map snd rp) [])))
  | _ => None
  end.

(** 2032-2224: the ranks, and the data for each *)
Definition x_sort (_ : nat) (s : xst) : option xst :=
  match s with
  | XRetr mx ds rs dp rp (RH _ res) =>
      let! dranks := omap (omap (point_owner res)) dp in
      let! rranks := omap (point_owner res) rp in
      let max := Z.max 0 mx in
      let! dl := omap (fun x => let! v := pad max (snd x) in Some (fst x, v))
        (flat_map (fun x => map (fun q => (q, snd x)) (unique_ranks (fst x))) (combine dranks ds)) in
      let! dm := ofoldl push dl map_empty in
      let! rm := ofoldl push (combine rranks rs) map_empty in
      Some (XSend max (Box dm [] [] []) (Box rm [] [] []))
  | _ => None
  end.

(** 2229-2230: DynamicHandshake *)
Definition bx_ranks {A} (b : box A) : list nat := map Z.to_nat (m_keys (bx_send b)).
Definition x_dbox (s : xst) : box dval := match s with XSend _ d _ => d | _ => Box map_empty [] [] [] end.
Definition x_rbox (s : xst) : box rval := match s with XSend _ _ v => v | _ => Box map_empty [] [] [] end.
Definition x_dhandshake (n : nat) (ss : list xst) (r : nat) : option xst :=
  let! s := nth_error ss r in
  match s with
  | XSend mx d v => Some (XSend mx (Box (bx_send d) (named n (fun q => match nth_error ss q with Some x => bx_ranks (x_dbox x) | None => [] end) r) [] []) v)
  | _ => None
  end.
Definition x_rhandshake (n : nat) (ss : list xst) (r : nat) : option xst :=
  let! s := nth_error ss r in
  match s with
  | XSend mx d v => Some (XSend mx d (Box (bx_send v) (named n (fun q => match nth_error ss q with Some x => bx_ranks (x_rbox x) | None => [] end) r) [] []))
  | _ => None
  end.

(** Receives and sends of donors, then of receivers, and one Waitall. *)
Definition two_wait (dsends rsends : xst -> list (nat * xmsg)) (done : xst -> list xmsg -> list xmsg -> option xst) : phase xst xmsg :=
  wait_all (fun _ s => bx_from (x_dbox s) ++ bx_from (x_rbox s)) (fun _ s => dsends s ++ rsends s)
    (fun _ s ms => let k := length (bx_from (x_dbox s)) in done s (firstn k ms) (skipn k ms)).

(** 2278-2306: Count and MaxSize *)
Definition x_nums (s : xst) : list (nat * xmsg) :=
  match s with XSend mx d _ => map (fun e => (Z.to_nat (fst e), XNums (Z.of_nat (length (snd e))) mx)) (m_entries (bx_send d)) | _ => [] end.
Definition x_num (s : xst) : list (nat * xmsg) :=
  match s with XSend _ _ v => map (fun e => (Z.to_nat (fst e), XNum (Z.of_nat (length (snd e))))) (m_entries (bx_send v)) | _ => [] end.
Definition x_numbers (s : xst) (dm rm : list xmsg) : option xst :=
  match s with
  | XSend mx d v =>
      let! dc := omap (fun m => match m with XNums c x => Some (c, x) | _ => None end) dm in
      let! rc := omap (fun m => match m with XNum c => Some (c, 0) | _ => None end) rm in
      Some (XSend mx (Box (bx_send d) (bx_from d) dc []) (Box (bx_send v) (bx_from v) rc []))
  | _ => None
  end.

(** 2308-2351: the data *)
Definition fills (max : Z) (v : dval) : bool :=
  let k l := Z.of_nat (length l) =? max in k (c0 (e_coefs (fst v))) && k (c1 (e_coefs (fst v))) && k (c2 (e_coefs (fst v))).
Definition x_dons (s : xst) : list (nat * xmsg) :=
  match s with XSend mx d _ => map (fun e => (Z.to_nat (fst e), XDons (snd e))) (m_entries (bx_send d)) | _ => [] end.
Definition x_recs (s : xst) : list (nat * xmsg) :=
  match s with XSend _ _ v => map (fun e => (Z.to_nat (fst e), XRecs (snd e))) (m_entries (bx_send v)) | _ => [] end.
Definition x_data (s : xst) (dm rm : list xmsg) : option xst :=
  match s with
  | XSend mx d v =>
      let! dl := omap (fun x => match snd x with
          | XDons l => if (Z.of_nat (length l) =? fst (fst x)) && forallb (fills (snd (fst x))) l then Some l else None
          | _ => None end) (combine (bx_cnt d) dm) in
      let! rl := omap (fun x => match snd x with
          | XRecs l => if Z.of_nat (length l) =? fst (fst x) then Some l else None | _ => None end) (combine (bx_cnt v) rm) in
      Some (XSend mx (Box (bx_send d) (bx_from d) (bx_cnt d) dl) (Box (bx_send v) (bx_from v) (bx_cnt v) rl))
  | _ => None
  end.

(** 2353-2408: DonorData and ReceiverData *)
Definition x_merge (_ : nat) (s : xst) : option xst :=
  match s with
  | XSend mx d v => Some (XDone (fold_left Z.max (map snd (bx_cnt d)) 0) (map unpad (concat (bx_recv d))) (concat (bx_recv v)))
  | _ => None
  end.

(** DistributeGridConnectivityData, 1918-2411 *)
Definition distribute (c : cart) (n : nat) (decomp : range -> Z -> tup Z) (ratio : tup Z -> list range -> option Z) : list (phase xst xmsg) :=
  [Local x_start] ++
  remsg XHash get_hash (lift x_hash x_put_hash (dh_build zcoords range_traits (c_nd c) n decomp ratio)) ++
  [Local (x_query c)] ++
  remsg XHash get_hash (lift x_retr x_put_retr (dh_retrieve n)) ++
  [Local x_sort; Coll (x_dhandshake n); Coll (x_rhandshake n); two_wait x_nums x_num x_numbers; two_wait x_dons x_recs x_data; Local x_merge].
