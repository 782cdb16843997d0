(** Sending and receiving packed values: model of src/core/SendMap.cpp, RecvMap.cpp, Send.cpp 70-151
    and Recv.cpp 44-159, and of GetSendRecvOrder, src/core/Exchanger.cpp 1563-1605.

    Simplifications: the value type is arbitrary and the conversion to its MPI type the identity; the two
    maps, which have the same members, are one type; all messages have the tag of this exchange; each rank
    calls Recv, then Send, and then waits for both requests.  A rank in a map is used as an index, so a negative
    one in Sends_ or Recvs_ cannot occur. *)
From Coq Require Import List ZArith Bool.
From Verif Require Import TupleModel RangeModel IndexerModel ArrayModel ContModel HashModel NetModel.
Import ListNotations.
Local Open Scope Z_scope.

(** Conversion of a long long to an int, two's complement. *)
Definition to_int (x : Z) : Z := (x + 2 ^ 31) mod 2 ^ 32 - 2 ^ 31.

(** SendMap.hpp 19-22, 48-50: Sends_ (rank and number of values), SendOrder_, SendIndices_. *)
Record xmap : Type := XM { x_peers : list (Z * Z); x_order : list Z; x_idx : list Z }.

(** SendMap.cpp 33-38: ++SendCounts.Fetch(Rank, 0) *)
Definition count_rank (m : smap Z Z) (rank : Z) : option (smap Z Z) :=
  if 0 <=? rank then
    let (m', i) := map_fetch Z.ltb m rank 0 in
    let! e := nth_error (m_entries m') i in
    Some (map_write m' i (snd e + 1))
  else Some m.

(** SendMap.cpp 50-55: RankToSendIndex *)
Fixpoint rank_index (peers : list (Z * Z)) (i : Z) (m : smap Z Z) : smap Z Z :=
  match peers with
  | [] => m
  | p :: peers => rank_index peers (i + 1) (fst (map_insert Z.ltb m (fst p) i))
  end.

(** SendMap.cpp 23-66; RecvMap.cpp is the same text with other names. *)
Definition make_map (ranks order : list Z) : option xmap :=
  let! counts := ofoldl count_rank ranks map_empty in
  let peers := m_entries counts in
  let m := rank_index peers 0 map_empty in
  let! idx := omap (fun rank => if 0 <=? rank then map_at Z.ltb m rank else Some (-1)) ranks in
  Some (XM peers order idx).

(** SendMap.cpp 68-78 *)
Definition default_order (ranks : list Z) : list Z := zseq 0 (length ranks).

Section Values.
Context {V : Type}.

(** Values_(iCount)(iValue) *)
Definition vals_at (vals : list (list V)) (c i : Z) : option V := let! row := vread vals c in vread row i.

(** Buffers_(i)(iCount,iBuffer), an array with extents Count_ and num. *)
Definition buf_read (cnt num : Z) (b : list V) (c k : Z) : option V :=
  if (0 <=? c) && (c <? cnt) && (0 <=? k) && (k <? num) then vread b (c * num + k) else None.
Definition buf_write (cnt num : Z) (b : list V) (c k : Z) (v : V) : option (list V) :=
  if (0 <=? c) && (c <? cnt) && (0 <=? k) && (k <? num) then vwrite b (c * num + k) v else None.

(** Send.cpp 83-89, 124 (Recv.cpp 111-117, 58): the buffers, and NextBufferEntry_ filled with 0. *)
Definition new_bufs (cnt : Z) (junk : V) (m : xmap) : list (list V) :=
  map (fun p => repeat junk (Z.to_nat (cnt * snd p))) (x_peers m).
Definition new_next (m : xmap) : list Z := map (fun _ => 0) (x_peers m).

(** Send.cpp 121, 126-136: one iteration of the packing loop.  SendOrder() returns an array<long long>; line
    121 converts it to an array<int>. *)
Definition pack_one (cnt : Z) (m : xmap) (vals : list (list V)) (s : list (list V) * list Z) (io : Z)
    : option (list (list V) * list Z) :=
  let! x := vread (x_order m) io in
  let iv := to_int x in
  let! k := vread (x_idx m) iv in
  if 0 <=? k then
    let! p := vread (x_peers m) k in
    let! nb := vread (snd s) k in
    let! b := vread (fst s) k in
    let! b' := ofoldl (fun b c => let! v := vals_at vals c iv in buf_write cnt (snd p) b c nb v) (zseq 0 (Z.to_nat cnt)) b in
    let! bufs := vwrite (fst s) k b' in
    let! next := vwrite (snd s) k (nb + 1) in
    Some (bufs, next)
  else Some s.

Definition pack (cnt : Z) (m : xmap) (vals bufs : list (list V)) : option (list (list V)) :=
  option_map fst (ofoldl (pack_one cnt m vals) (zseq 0 (length (x_order m))) (bufs, new_next m)).

(** Recv.cpp 55, 60-70: one iteration of the unpacking loop. *)
Definition unpack_one (cnt : Z) (m : xmap) (bufs : list (list V)) (s : list (list V) * list Z) (io : Z)
    : option (list (list V) * list Z) :=
  let! x := vread (x_order m) io in
  let iv := to_int x in
  let! k := vread (x_idx m) iv in
  if 0 <=? k then
    let! p := vread (x_peers m) k in
    let! nb := vread (snd s) k in
    let! b := vread bufs k in
    let! vals := ofoldl (fun vals c =>
        let! v := buf_read cnt (snd p) b c nb in
        let! row := vread vals c in
        let! row' := vwrite row iv v in
        vwrite vals c row') (zseq 0 (Z.to_nat cnt)) (fst s) in
    let! next := vwrite (snd s) k (nb + 1) in
    Some (vals, next)
  else Some s.

Definition unpack (cnt : Z) (m : xmap) (bufs vals : list (list V)) : option (list (list V)) :=
  option_map fst (ofoldl (unpack_one cnt m bufs) (zseq 0 (length (x_order m))) (vals, new_next m)).

(** MPI_Irecv into a buffer of num values: a longer message is an error, a shorter one leaves the rest. *)
Definition recv_into (b msg : list V) : option (list V) :=
  if (length msg <=? length b)%nat then Some (msg ++ skipn (length msg) b) else None.

(** The values to send, the values received, the two maps, the send buffers. *)
Record sst : Type := SS { s_vals : list (list V); s_out : list (list V); s_smap : xmap; s_rmap : xmap; s_bufs : list (list V) }.

(** Creating the maps, the send and the recv object, and packing. *)
Definition xch_pack (cnt : Z) (junk : V) (dst sord src rord : list Z) (s : sst) : option sst :=
  let! sm := make_map dst sord in
  let! rm := make_map src rord in
  let! bufs := pack cnt sm (s_vals s) (new_bufs cnt junk sm) in
  Some (SS (s_vals s) (s_out s) sm rm bufs).

Definition xch_recvs (s : sst) : list nat := map (fun p => Z.to_nat (fst p)) (x_peers (s_rmap s)).
Definition xch_sends (s : sst) : list (nat * list V) :=
  combine (map (fun p => Z.to_nat (fst p)) (x_peers (s_smap s))) (s_bufs s).
Definition xch_done (cnt : Z) (junk : V) (s : sst) (ms : list (list V)) : option sst :=
  let! bufs := omap (fun bm => recv_into (fst bm) (snd bm)) (combine (new_bufs cnt junk (s_rmap s)) ms) in
  let! out := unpack cnt (s_rmap s) bufs (s_out s) in
  Some (SS (s_vals s) out (s_smap s) (s_rmap s) (s_bufs s)).

Definition send_recv (cnt : Z) (junk : V) (dst sord src rord : nat -> list Z) : list (phase sst (list V)) :=
  [Local (fun r => xch_pack cnt junk (dst r) (sord r) (src r) (rord r));
   wait_all (fun _ => xch_recvs) (fun _ => xch_sends) (fun _ => xch_done cnt junk)].

Definition SS0 (vals out : list (list V)) : sst := SS vals out (XM [] [] []) (XM [] [] []) [].

End Values.
Arguments sst : clear implicits.

(** Exchanger.cpp 1563-1605, GetSendRecvOrder, with [sort] for ArrayOrder (ArrayOps.hpp 715-734). *)
Fixpoint is_sorted (prev : Z) (l : list Z) : bool :=
  match l with [] => true | x :: l => negb (x <? prev) && is_sorted x l end.

Definition send_recv_order (sort : list Z -> list Z) (R : range) (pts : list (tup Z)) : list Z :=
  let keys := map (rindex ColMajor R) pts in
  if is_sorted 0 keys then zseq 0 (length keys) else sort keys.
