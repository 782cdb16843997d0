(** Matching the donors and receivers of XINTOUT files by their connection IDs: src/extras/XINTOUT.cpp 1492-1890 (MatchDonorsAndReceivers).

    The IDs are divided into bins, one for each of the first ranks. Every rank tells the ranks of the bins which donors and receivers it has, and is told the
    receivers of its donors and the donors of its receivers. Simplifications: the three arrays sent to a bin (IDs, grids, cells or points) are one message of
    triples, the two sent back one message of pairs; the two tags are one, messages of donors and of receivers being sent and received in the same order; a message
    that has not as many elements as its buffer is undefined behaviour (None). *)
From Coq Require Import List ZArith Bool.
From Verif Require Import TupleModel ContModel ArrayModel HashModel ProtoSpec NetModel XinModel.
Import ListNotations.
Local Open Scope Z_scope.

(** DonorGridIDs and DonorCells, or ReceiverGridIDs and ReceiverPoints, of a connection. *)
Definition place : Type := (Z * tup Z)%type.
Record item : Type := Item { it_id : Z; it_place : place }.
Inductive msg : Type := Count (k : Z) | Items (l : list item) | Places (l : list place).

(** [sd_items]: the donors (or receivers) of the chunks the rank has read, by local grid; [sd_send]: DonorSends, bin and data; [sd_from], [sd_cnt], [sd_recv]: DonorRecvs, rank,
    Count and data; [sd_bin]: donors (receivers) of BinData; [sd_ans]: the receivers (donors) of Recv.Data; [sd_got]: Count and receivers (donors) of
    DonorSends; [sd_out]: Destinations (Sources) of the chunks. *)
Record side : Type := Side {
  sd_items : list (list item); sd_send : smap Z (list item); sd_from : list nat; sd_cnt : list Z; sd_recv : list (list item);
  sd_bin : list place; sd_ans : list (list place); sd_got : smap Z (Z * list place); sd_out : list (list place) }.

(** [ms_grids]: ID, number of points and of receivers of the local grids; [ms_size], [ms_total]: BinSize, NumConnections. *)
Record mst : Type := MS { ms_grids : list (Z * (Z * Z)); ms_size : Z; ms_total : Z; ms_m : side; ms_n : side }.

(** What is sent of the donors and receivers of a chunk of a grid: ID, grid and first cell or point, 1570-1640 (the chunks as in XinModel). *)
Definition donor_items (grid : Z) (c : donor_chunk) : list item :=
  map (fun x => Item (dc_start c + Z.of_nat (fst x)) (grid, e_begin (snd x))) (combine (seq 0 (length (dc_data c))) (dc_data c)).
Definition receiver_items (grid : Z) (c : receiver_chunk) : list item := map (fun x => Item (v_id x) (grid, v_point x)) (rc_data c).

(** XINTOUT.cpp 2687-2693 *)
Definition bins_of (a : Z) (bins : nat) : Z := bin_divide a (Z.of_nat bins).

(** NumPointsOnGrid and NumReceiversOnGrid after MPI_Allreduce with MPI_MAX, 1507-1524 *)
Definition on_grid (f : Z * Z -> Z) (ss : list mst) (g : Z) : Z :=
  fold_right Z.max 0 (flat_map (fun s => map (fun x => f (snd x)) (filter (fun x => fst x =? g) (ms_grids s))) ss).
(** NumPoints, NumConnections, 1526-1531; the grids of a domain read from files have the IDs 1, 2, ... *)
Definition total_of (f : Z * Z -> Z) (grids : nat) (ss : list mst) : Z :=
  fold_right Z.add 0 (map (fun i => on_grid f ss (Z.of_nat i + 1)) (seq 0 grids)).
(** 1538 *)
Definition ms_sizes (grids n : nat) (ss : list mst) (r : nat) : option mst :=
  let! s := nth_error ss r in
  let total := total_of snd grids ss in
  Some (MS (ms_grids s) (Z.min (bins_of (total_of fst grids ss) n) total) total (ms_m s) (ms_n s)).

(** int(ConnectionID/BinSize); None is a division by zero. *)
Definition bin_of (bs id : Z) : option Z := if bs =? 0 then None else Some (Z.quot id bs).

(** 1572-1574, 1612-1620 *)
Definition add_item (bs : Z) (m : smap Z (list item)) (it : item) : option (smap Z (list item)) :=
  let! b := bin_of bs (it_id it) in
  let (m', i) := map_fetch Z.ltb m b [] in
  let! e := nth_error (m_entries m') i in
  Some (map_write m' i (snd e ++ [it])).

(** 1561-1640 *)
Definition sd_build (bs : Z) (s : side) : option side :=
  let! m := ofoldl (fun m its => ofoldl (add_item bs) its m) (sd_items s) map_empty in
  Some (Side (sd_items s) m (sd_from s) (sd_cnt s) (sd_recv s) (sd_bin s) (sd_ans s) (sd_got s) (sd_out s)).

(** DonorSends.Keys() as ranks *)
Definition sd_ranks (s : side) : list nat := map Z.to_nat (m_keys (sd_send s)).

(** 1645-1662: DynamicHandshake *)
Definition sd_handshake (n : nat) (ss : list side) (r : nat) : option side :=
  let! s := nth_error ss r in
  Some (Side (sd_items s) (sd_send s) (named n (fun q => match nth_error ss q with Some x => sd_ranks x | None => [] end) r)
    (sd_cnt s) (sd_recv s) (sd_bin s) (sd_ans s) (sd_got s) (sd_out s)).

(** 1690-1716: the numbers *)
Definition sd_count_sends (s : side) : list (nat * msg) :=
  map (fun e => (Z.to_nat (fst e), Count (Z.of_nat (length (snd e))))) (m_entries (sd_send s)).
Definition sd_count_done (s : side) (ms : list msg) : option side :=
  let! cnt := omap (fun m => match m with Count x => Some x | _ => None end) ms in
  Some (Side (sd_items s) (sd_send s) (sd_from s) cnt (sd_recv s) (sd_bin s) (sd_ans s) (sd_got s) (sd_out s)).

(** 1718-1757: the donors (receivers) *)
Definition sd_item_sends (s : side) : list (nat * msg) := map (fun e => (Z.to_nat (fst e), Items (snd e))) (m_entries (sd_send s)).
Definition sd_item_done (s : side) (ms : list msg) : option side :=
  let! recv := omap (fun x => match snd x with Items l => if Z.of_nat (length l) =? fst x then Some l else None | _ => None end) (combine (sd_cnt s) ms) in
  Some (Side (sd_items s) (sd_send s) (sd_from s) (sd_cnt s) recv (sd_bin s) (sd_ans s) (sd_got s) (sd_out s)).

(** 1540-1550, 1778-1799: the bin of the rank; [junk] are its elements when it is created (zeros: Array::Resize, Vector.hpp 169-171). *)
Definition sd_fill (bs total : Z) (junk : Z -> place) (r : nat) (s : side) : option side :=
  let b := bs * Z.of_nat r in
  let arr := if b <? total then map (fun i => junk (b + Z.of_nat i)) (seq 0 (Z.to_nat (Z.min (bs * (Z.of_nat r + 1)) total - b))) else [] in
  let! bin := ofoldl (fun a its => ofoldl (fun a it => vwrite a (it_id it - b) (it_place it)) its a) (sd_recv s) arr in
  Some (Side (sd_items s) (sd_send s) (sd_from s) (sd_cnt s) (sd_recv s) bin (sd_ans s) (sd_got s) (sd_out s)).

(** 1804-1828: the other side of the connections *)
Definition sd_answer (b : Z) (bin : list place) (s : side) : option side :=
  let! ans := omap (omap (fun it => vread bin (it_id it - b))) (sd_recv s) in
  Some (Side (sd_items s) (sd_send s) (sd_from s) (sd_cnt s) (sd_recv s) (sd_bin s) ans (sd_got s) (sd_out s)).

(** 1763-1775, 1813-1830: the answers *)
Definition sd_answer_sends (s : side) : list (nat * msg) := combine (sd_from s) (map Places (sd_ans s)).
Definition sd_answer_done (s : side) (ms : list msg) : option side :=
  let! got := omap (fun x => match snd x with
      | Places l => if (length l =? length (snd (fst x)))%nat then Some (fst (fst x), (0, l)) else None | _ => None end)
    (combine (m_entries (sd_send s)) ms) in
  Some (Side (sd_items s) (sd_send s) (sd_from s) (sd_cnt s) (sd_recv s) (sd_bin s) (sd_ans s) (mkM (m_keys (sd_send s)) got) (sd_out s)).

(** 1856-1864: DestinationGridIDs(iDonor) = Send.Data.ReceiverGridIDs(Send.Count); ++Send.Count *)
Definition take_place (bs : Z) (x : smap Z (Z * list place) * list place) (it : item) : option (smap Z (Z * list place) * list place) :=
  let! b := bin_of bs (it_id it) in
  let i := set_lower Z.ltb (m_keys (fst x)) b in
  let! e := nth_error (m_entries (fst x)) i in
  let! v := vread (snd (snd e)) (fst (snd e)) in
  Some (map_write (fst x) i (fst (snd e) + 1, snd (snd e)), snd x ++ [v]).

(** 1835-1882 *)
Definition sd_unpack (bs : Z) (s : side) : option side :=
  let! x := ofoldl (fun x its => let! y := ofoldl (take_place bs) its (fst x, []) in Some (fst y, snd x ++ [snd y])) (sd_items s) (sd_got s, []) in
  Some (Side (sd_items s) (sd_send s) (sd_from s) (sd_cnt s) (sd_recv s) (sd_bin s) (sd_ans s) (fst x) (snd x)).

Definition both (f : mst -> side -> option side) (s : mst) : option mst :=
  let! a := f s (ms_m s) in let! b := f s (ms_n s) in Some (MS (ms_grids s) (ms_size s) (ms_total s) a b).
Definition on_m (f : side -> option side) (s : mst) : option mst :=
  let! a := f (ms_m s) in Some (MS (ms_grids s) (ms_size s) (ms_total s) a (ms_n s)).
Definition on_n (f : side -> option side) (s : mst) : option mst :=
  let! a := f (ms_n s) in Some (MS (ms_grids s) (ms_size s) (ms_total s) (ms_m s) a).

(** One Waitall for the messages of both sides. *)
Definition two_sided (recvs : side -> list nat) (sends : side -> list (nat * msg)) (done : side -> list msg -> option side) : phase mst msg :=
  wait_all (fun _ s => recvs (ms_m s) ++ recvs (ms_n s)) (fun _ s => sends (ms_m s) ++ sends (ms_n s))
    (fun _ s ms =>
       let k := length (recvs (ms_m s)) in
       let! a := done (ms_m s) (firstn k ms) in
       let! b := done (ms_n s) (skipn k ms) in
       Some (MS (ms_grids s) (ms_size s) (ms_total s) a b)).

(** MatchDonorsAndReceivers, 1492-1890 *)
Definition match_all (grids n : nat) (junk : nat -> Z -> place) : list (phase mst msg) :=
  [Coll (ms_sizes grids n);
   Local (fun _ => both (fun s => sd_build (ms_size s)));
   Coll (fun ss r => let! s := nth_error ss r in on_m (fun _ => sd_handshake n (map ms_m ss) r) s);
   Coll (fun ss r => let! s := nth_error ss r in on_n (fun _ => sd_handshake n (map ms_n ss) r) s);
   two_sided sd_from sd_count_sends sd_count_done;
   two_sided sd_from sd_item_sends sd_item_done;
   Local (fun r s =>
     let! s1 := both (fun s => sd_fill (ms_size s) (ms_total s) (junk r) r) s in
     let b := ms_size s * Z.of_nat r in
     let! m := sd_answer b (sd_bin (ms_n s1)) (ms_m s1) in
     let! x := sd_answer b (sd_bin (ms_m s1)) (ms_n s1) in
     Some (MS (ms_grids s) (ms_size s) (ms_total s) m x));
   two_sided sd_ranks sd_answer_sends sd_answer_done;
   Local (fun _ => both (fun s => sd_unpack (ms_size s)))].

(** The state when matching starts. *)
Definition side0 (items : list (list item)) : side := Side items map_empty [] [] [] [] [] map_empty [].
Definition MS0 (grids : list (Z * (Z * Z))) (donors receivers : list (list item)) : mst := MS grids 0 0 (side0 donors) (side0 receivers).
