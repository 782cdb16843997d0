(** Halo exchange: model of RetrieveDecompInfo (src/core/Decomp.cpp 214-269), of the halo_map
    constructor (src/core/Halo.cpp 26-186) and of halo_exchanger_for_type::Exchange and its
    request (src/core/Halo.inl 58-176).
    Simplifications: the conversion between value type and MPI type (bool is sent as unsigned
    char) is left out; a message must have the length of the buffer it is received in. *)
From Coq Require Import List ZArith Bool.
From Verif Require Import TupleModel RangeModel CartModel IndexerModel ArrayModel ContModel HashModel.
From Verif Require Import ProtoModel ProtoSpec NetModel.
Import ListNotations.
Local Open Scope Z_scope.

(** ** RetrieveDecompInfo *)

(** Decomp.hpp: struct decomp_info, the local and the extended range. *)
Notation info := (range * range)%type.

Inductive ist : Type :=
| I0 (self : info) (ranks : list nat)
| I1 (self : info) (ranks : list nat) (to : list nat)
| I2 (self : info) (m : smap nat info).

(** 217-218: the handshake (ProtoSpec.v: its result). *)
Definition if_handshake (n : nat) (l : list ist) (r : nat) : option ist :=
  let! rs := omap (fun s => match s with I0 _ ranks => Some ranks | _ => None end) l in
  match nth_error l r with
  | Some (I0 self ranks) =>
      Some (I1 self ranks (named n (fun q => match nth_error rs q with Some x => x | None => [] end) r))
  | _ => None
  end.

(** 225-265: receives complete in any order (MPI_Waitany); each fills the entry of its rank. *)
Definition if_fetch (ranks : list nat) (m : smap nat info) (x : nat * info) : option (smap nat info) :=
  let! q := nth_error ranks (fst x) in
  let (m', i) := map_fetch Nat.ltb m q (make_empty_range 1, make_empty_range 1) in
  Some (map_write m' i (snd x)).

Definition if_exchange : phase ist info :=
  Exch (P2P
    (fun _ s => match s with I1 _ ranks _ => ranks | _ => [] end)
    (fun _ s => match s with I1 self _ to => map (fun d => (d, self)) to | _ => [] end)
    (fun _ s l => match s with
                  | I1 self ranks _ => let! m := ofoldl (if_fetch ranks) l map_empty in Some (I2 self m)
                  | _ => None
                  end)).

Definition retrieve_info (n : nat) : list (phase ist info) := [Coll (if_handshake n); if_exchange].

(** ** halo_map *)

(** Halo.cpp 63-68, 79-84, 122-127: the point itself if it is in the domain, else its image in
    the base period. *)
Definition target (c : cart) (p : tup Z) : option (tup Z) :=
  if rcontains (c_range c) p then Some p else periodic_adjust c p.

(** The points p of [e] not in [a] for which [f p] is in [b], with [f p], in the order of the
    loops over k, j, i. *)
Definition points_into (f : tup Z -> option (tup Z)) (e a b : range) : option (list (tup Z * tup Z)) :=
  let! l := omap (fun p => let! t := f p in Some (p, t))
                 (filter (fun p => negb (rcontains a p)) (RangeModel.foreach_col e)) in
  Some (filter (fun x => rcontains b (snd x)) l).

(** 42-92, for one neighbour with local range [nloc] and extended range [next]. *)
Definition send_indices (c : cart) (loc ext : range) (nb : info) : option (list Z) :=
  if rincludes (c_range c) (snd nb)
  then Some (map (rindex ColMajor ext) (RangeModel.foreach_col (intersect_ranges (snd nb) loc)))
  else let! l := points_into (target c) (snd nb) (fst nb) loc in
       Some (map (fun x => rindex ColMajor ext (snd x)) l).

(** 94-149 *)
Definition recv_indices (c : cart) (loc ext : range) (nb : info) : option (list Z) :=
  if rincludes (c_range c) ext
  then Some (map (rindex ColMajor ext) (RangeModel.foreach_col (intersect_ranges ext (fst nb))))
  else let! l := points_into (target c) ext loc (fst nb) in
       Some (map (fun x => rindex ColMajor ext (fst x)) l).

(** 151-186: (destination, source). *)
Definition local_copies (c : cart) (loc ext : range) : option (list (Z * Z)) :=
  if rincludes (c_range c) ext then Some []
  else let! l := points_into (periodic_adjust c) ext loc loc in
       Some (map (fun x => (rindex ColMajor ext (fst x), rindex ColMajor ext (snd x))) l).

Record hmap : Type := HMap {
  h_ranks : list nat; h_send : list (list Z); h_recv : list (list Z); h_local : list (Z * Z) }.

Definition halo_map (c : cart) (self : info) (neighbors : smap nat info) : option hmap :=
  let infos := map snd (m_entries neighbors) in
  let! s := omap (send_indices c (fst self) (snd self)) infos in
  let! r := omap (recv_indices c (fst self) (snd self)) infos in
  let! l := local_copies c (fst self) (snd self) in
  Some (HMap (m_keys neighbors) s r l).

(** ** Exchange *)

Section Exchange.
Context {V : Type}.

(** The map and the data of the field. *)
Notation hst := (hmap * list V)%type.

(** Halo.inl 98-103: packing. *)
Definition pack (data : list V) (idx : list Z) : option (list V) := omap (vread data) idx.

(** 117-122: copies on the same rank, one after the other. *)
Definition copy_local (data : list V) (l : list (Z * Z)) : option (list V) :=
  ofoldl (fun d x => let! v := vread d (snd x) in vwrite d (fst x) v) l data.

(** 151-158: unpacking, for one message. *)
Definition unpack (recv : list (list Z)) (data : list V) (x : nat * list V) : option (list V) :=
  let! idx := nth_error recv (fst x) in
  if Nat.eqb (length idx) (length (snd x))
  then ofoldl (fun d y => vwrite d (fst y) (snd y)) (combine idx (snd x)) data
  else None.

(** 98-112: the messages; None if a value to be sent is out of bounds. *)
Definition halo_messages (s : hst) : option (list (list V)) := omap (pack (snd s)) (h_send (fst s)).

(** 73-176: all messages are posted, then the local copies are made, and each message is
    unpacked when its receive completes. *)
Definition halo_exchange : phase hst (list V) :=
  Exch (P2P
    (fun _ s => h_ranks (fst s))
    (fun _ s => match halo_messages s with Some l => combine (h_ranks (fst s)) l | None => [] end)
    (fun _ s l =>
       let! _ := halo_messages s in
       let! d := copy_local (snd s) (h_local (fst s)) in
       let! d' := ofoldl (unpack (h_recv (fst s))) l d in
       Some (fst s, d'))).
End Exchange.
