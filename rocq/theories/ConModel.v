(** Filling the connectivity of a pair of grids on all ranks: model of src/core/AssemblerAssembly.cpp 4633-4716 (the ranks of the N
    grid tell the owners of the cells which cells donate), 4740-4749 and 4787-4843 (the donors of a rank), 4845-4990 (the
    neighbours in the M grid get the donors they have vertices of), 5053-5078 and 5195-5223 (the receivers) and 5086-5151 (the donors in
    the order of their destinations).

    Simplifications: one pair of grids, which has a connection type other than NONE; the connectivity exists, also if there is no
    donor on any rank (4720-4768); the four arrays of the donors are one message; the arrays are lists of rows; the fields of
    the N grid (DonorGridIDs, ReceiverMask) are functions.  Ranks are those of the domain, [mem] are the ranks of the M grid, whose
    neighbours talk on the communicator of the grid.  Interpolation coefficients are in PipeModel. *)
From Coq Require Import List ZArith QArith Bool.
From Verif Require Import TupleModel RangeModel CartModel DecompModel IndexerModel ArrayModel HashModel NetModel LiftModel EmbedModel SendModel CellModel OvlModel.
Import ListNotations.
Local Open Scope Z_scope.

(** connectivity_m_data 4787-4794, without Order *)
Record drow : Type := DRow { dr_ext : range; dr_coords : tup Q; dr_dest : tup Z; dr_rank : Z }.

(** 4813-4827 *)
Definition donor_row (nd : nat) (x : mrow) : drow := DRow (cell_extents nd x) (mr_coords x) (mr_dest x) (mr_rank x).

(** 4798-4830; Donates has the size of the overlap. *)
Definition donor_rows (nd : nat) (rows : list mrow) (donates : list bool) : option (list drow) :=
  if Nat.eqb (length rows) (length donates) then
    Some (keep (map (fun x : mrow * bool => if snd x then Some (donor_row nd (fst x)) else None) (combine rows donates)))
  else None.

(** ** The donors of the neighbours *)

(** [h_local]: ConnectivityMDataForLocalDonors; [h_send], [h_recv]: ConnectivityMSends and ConnectivityMRecvs, with the
    numbers received first in [h_num]; [h_donors]: the M side of the connectivity. *)
Record hst : Type := HS { h_local : list drow; h_send : list (nat * list drow); h_num : list (nat * Z);
  h_recv : list (nat * list drow); h_donors : list drow }.
Definition HS0 (l : list drow) : hst := HS l [] [] [] [].

Inductive hmsg : Type := HCount (k : Z) | HRows (l : list drow).

Section Share.
(** The M grid, the neighbours of its ranks with their local ranges, the range of the N grid, std::sort. *)
Variables (c : cart) (nbs : nat -> list (nat * range)) (R : range) (sort : nat -> list Z -> list Z).

(** 4896-4902, 4953-4968 *)
Definition share_row (l : range) (d : drow) : option (option drow) :=
  let! s := map_range_to_range c l (dr_ext d) in
  Some (option_map (fun s => DRow s (dr_coords d) (dr_dest d) (dr_rank d)) s).

(** 4891-4903 and 4940-4970: the numbers are those of the data, as the same test is made twice. *)
Definition hs_pack (i : nat) (s : hst) : option hst :=
  let! send := omap (fun nb => let! ds := omap (share_row (snd nb)) (h_local s) in Some (fst nb, keep ds)) (nbs i) in
  Some (HS (h_local s) send (h_num s) (h_recv s) (h_donors s)).

(** 4872-4881, 4904-4912 *)
Definition num_recvs (i : nat) (_ : hst) : list nat := map fst (nbs i).
Definition num_sends (_ : nat) (s : hst) : list (nat * hmsg) := map (fun x => (fst x, HCount (Z.of_nat (length (snd x))))) (h_send s).
Definition num_done (i : nat) (s : hst) (ms : list hmsg) : option hst :=
  let! ks := omap (fun m => match m with HCount k => Some k | _ => None end) ms in
  Some (HS (h_local s) (h_send s) (combine (map fst (nbs i)) ks) (h_recv s) (h_donors s)).

(** 4916-4938, 4971-4988; the message must have the size that was announced *)
Definition row_recvs (i : nat) (_ : hst) : list nat := map fst (nbs i).
Definition row_sends (_ : nat) (s : hst) : list (nat * hmsg) := map (fun x => (fst x, HRows (snd x))) (h_send s).
Definition row_done (i : nat) (s : hst) (ms : list hmsg) : option hst :=
  let! recv := omap (fun km => match snd km with
                               | HRows l => let! num := lookup (fst km) (h_num s) in
                                            if Z.of_nat (length l) =? num then Some (fst km, l) else None
                               | _ => None
                               end) (combine (map fst (nbs i)) ms) in
  Some (HS (h_local s) (h_send s) (h_num s) recv (h_donors s)).

(** 5094-5151: the destination ranks are not taken over (5139-5142, 5153), so they are those of ConnectivityM.cpp 128, -1. *)
Definition hs_order (i : nat) (s : hst) : option hst :=
  let rows := map (fun d => DRow (dr_ext d) (dr_coords d) (dr_dest d) (-1)) (h_local s ++ concat (map snd (h_recv s))) in
  let order := sort i (map (fun x => rindex ColMajor R (dr_dest x)) rows) in
  let! lo := left_order order in
  let! out := place rows lo in
  Some (HS (h_local s) (h_send s) (h_num s) (h_recv s) out).

Definition share : list (phase hst hmsg) :=
  [Local hs_pack; wait_all num_recvs num_sends num_done; wait_all row_recvs row_sends row_done; Local hs_order].
End Share.

(** ** The receivers *)

(** 5060-5070: NumReceivers; [want] is ReceiverMask(Point) && DonorGridIDs(Point) == MGridID *)
Definition receiver_count (loc : range) (want : tup Z -> bool) : nat := length (filter want (foreach_col loc)).

(** 5203-5222; OverlapN.cpp 173-193: the mask of the overlap, at the local points, has the points of the overlap. *)
Definition receiver_step (rows : list nrow) (want : tup Z -> bool) (s : Z * list (tup Z * tup Z)) (p : tup Z) : option (Z * list (tup Z * tup Z)) :=
  if existsb (fun x => teqb (nr_point x) p) rows then
    if want p then
      let! x := vread rows (fst s) in
      Some (fst s + 1, snd s ++ [(p, nr_source x)])
    else Some (fst s + 1, snd s)
  else Some s.

(** ConnectivityN.cpp 107-122: after a Resize the points and sources are outside of the grids; [dp] and [dc] are these values.  Writing
    more than NumReceivers would be out of bounds. *)
Definition receivers (dp dc : tup Z) (loc : range) (rows : list nrow) (want : tup Z -> bool) : option (list (tup Z * tup Z)) :=
  let k := receiver_count loc want in
  let! s := ofoldl (receiver_step rows want) (foreach_col loc) (0, []) in
  if Nat.leb (length (snd s)) k then Some (snd s ++ repeat (dp, dc) (k - length (snd s))) else None.

(** ** All of it *)

(** [f_x]: the reverse exchange; [f_h]: the donors; [f_n]: the N side of the connectivity, points and sources. *)
Record fst_ : Type := FS { f_x : sst bool; f_h : hst; f_n : list (tup Z * tup Z) }.
Definition put_fx (s : fst_) (x : sst bool) : fst_ := FS x (f_h s) (f_n s).
Definition put_fh (s : fst_) (h : hst) : fst_ := FS (f_x s) h (f_n s).

Definition fmsg : Type := (list bool + hmsg)%type.
Definition to_bools (m : fmsg) : option (list bool) := match m with inl l => Some l | inr _ => None end.
Definition to_rows (m : fmsg) : option hmsg := match m with inl _ => None | inr x => Some x end.

Section Fill.
(** [M], [N]: the two sides of the overlap; [NL]: the local ranges of the N grid (empty on a rank without it); [donor]: DonorGridIDs; [rm]:
    ReceiverMask; [mg]: the ID of the M grid. *)
Variables (c : cart) (n : nat) (mem : list nat) (nbs : nat -> list (nat * range)) (R : range) (sort : nat -> list Z -> list Z).
Variables (M : nat -> list mrow) (N : nat -> list nrow) (NL : nat -> range) (donor : nat -> tup Z -> Z) (rm : nat -> tup Z -> bool) (mg : Z) (dp dc : tup Z).

(** 4700-4706: SendBuffer; 4659-4660: Donates, whose elements are false *)
Definition start_fill (r : nat) : fst_ :=
  FS (SS0 [map (fun x => donor r (nr_point x) =? mg) (N r)] [repeat false (length (M r))]) (HS0 []) [].

Definition fill_local (r : nat) (s : fst_) : option fst_ :=
  let! donates := vread (s_out (f_x s)) 0 in
  let! rows := donor_rows (c_nd c) (M r) donates in
  Some (put_fh s (HS0 rows)).

Definition fill_receivers (r : nat) (s : fst_) : option fst_ :=
  let! l := receivers dp dc (NL r) (N r) (fun p => rm r p && (donor r p =? mg)) in
  Some (FS (f_x s) (f_h s) l).

Definition conn_fill : list (phase fst_ fmsg) :=
  lift (fun s => Some (f_x s)) put_fx (remsg inl to_bools
    (send_recv 1 false (fun r => map nr_rank (N r)) (fun r => default_order (map nr_rank (N r)))
                       (fun r => map mr_rank (M r)) (fun r => default_order (map mr_rank (M r))))) ++
  [Local fill_local] ++
  lift (fun s => Some (f_h s)) put_fh (remsg inr to_rows (embed n mem (share c nbs R sort))) ++
  [Local fill_receivers].
End Fill.
