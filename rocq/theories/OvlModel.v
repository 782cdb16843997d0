(** Filling the overlap data of a pair of grids on all ranks: model of src/core/AssemblerAssembly.cpp 1835-2012 (the ranges of
    the M grid, the numbers of overlapping cells and points, ranks without any) and 2113-2410 (the data of the M side, sent by the
    ranks of the N grid, and the two sides of the overlap), from the results of the search (CellModel, DetectModel) on the
    ranks of the N grid.

    Simplifications: one pair of grids (the messages of a pair have the tag of the M grid and go in the order of the N grids);
    the two arrays of a range, and the three arrays of the data, are one message; the maps from ranks to ranges, numbers and data
    are lists of pairs, the sets of ranks are lists; the overlaps, which exist on all ranks of the grids if one rank of the N
    grid has a rank of the M grid left (2040-2090), are the lists [o_m] and [o_n].  Ranks are those of the domain; [mem] are
    the ranks of the M grid, in the order of their ranks in the communicator of the grid. *)
From Coq Require Import List ZArith QArith Bool.
From Verif Require Import TupleModel RangeModel CartModel DecompModel IndexerModel ArrayModel HashModel NetModel EmbedModel SendModel CellModel FragModel.
Import ListNotations.
Local Open Scope Z_scope.

(** overlap_m_data 2117-2129 *)
Record mdata : Type := MData { md_cell : tup Z; md_coords : tup Q; md_dest : tup Z }.
(** The cells, coordinates, destinations and destination ranks of overlap_m; the points, sources and source ranks of
    overlap_n (overlap_m_edit 2287-2303). *)
Record mrow : Type := MRow { mr_cell : tup Z; mr_coords : tup Q; mr_dest : tup Z; mr_rank : Z }.
Record nrow : Type := NRow { nr_point : tup Z; nr_source : tup Z; nr_rank : Z }.

(** m_grid_ranges 1835-1838: CellLocalRange and CellCoverRange *)
Definition mranges : Type := (range * range)%type.

Inductive omsg : Type := MsgRanges (x : mranges) | MsgCount (k : Z) | MsgData (l : list mdata).

(** [o_data]: OverlapDataForGridPair; [o_mg], [o_ng]: MGridRanks (on the ranks of the N grid) and NGridRanks (on those of the M
    grid); [o_ranges]: MGridRanges; [o_mnum], [o_nnum]: NumFromMGridAndRank and NumFromNGridAndRank; [o_send], [o_recv]:
    OverlapMSendData with OverlapMLocalToLocalData, and OverlapMRecvData; [o_m], [o_n]: the overlap. *)
Record ost : Type := OS {
  o_data : list entry; o_mg : list nat; o_ng : list nat; o_ranges : list (nat * mranges);
  o_mnum : list (nat * Z); o_nnum : list (nat * Z); o_send : list (nat * list mdata); o_recv : list (nat * list mdata);
  o_m : list mrow; o_n : list nrow }.

Definition lookup {A} (k : nat) (l : list (nat * A)) : option A := option_map snd (find (fun x => Nat.eqb (fst x) k) l).
Definition others (r : nat) (l : list nat) : list nat := filter (fun q => negb (Nat.eqb q r)) l.

Section Overlap.
(** The M grid and its ranks, the global range of the N grid, and std::sort in ArrayOrder (ArrayOps.hpp 715-734) on each rank *)
Variables (c : cart) (mem : list nat) (L : nat -> range) (R : range) (sort : nat -> list Z -> list Z).

(** 1845-1846; MakeCellCoverRange is given the cart of the points. *)
Definition own_ranges (l : range) : mranges := (range_point_to_cell c l, cell_cover c (range_point_to_cell c l)).

(** 1842-1847 *)
Definition ov_init (r : nat) (s : ost) : option ost :=
  Some (OS (o_data s) (o_mg s) (o_ng s) (match position mem r with Some i => [(r, own_ranges (L i))] | None => [] end)
    (o_mnum s) (o_nnum s) (o_send s) (o_recv s) (o_m s) (o_n s)).

(** 1853-1882 *)
Definition ranges_recvs (r : nat) (s : ost) : list nat := others r (o_mg s).
Definition ranges_sends (r : nat) (s : ost) : list (nat * omsg) :=
  match lookup r (o_ranges s) with
  | Some x => map (fun q => (q, MsgRanges x)) (others r (o_ng s))
  | None => []
  end.
Definition ranges_done (r : nat) (s : ost) (ms : list omsg) : option ost :=
  let! xs := omap (fun m => match m with MsgRanges x => Some x | _ => None end) ms in
  Some (OS (o_data s) (o_mg s) (o_ng s) (o_ranges s ++ combine (others r (o_mg s)) xs)
    (o_mnum s) (o_nnum s) (o_send s) (o_recv s) (o_m s) (o_n s)).

(** 1948-1957: MapToRange(Ranges.CellCoverRange, Cell) *)
Definition covered_entry (x : mranges) (e : entry) : option bool :=
  let! res := map_tuple_to_range c (snd x) (e_cell e) in
  Some (match res with Some _ => true | None => false end).

(** 1890-1904, 1943-1959: the numbers for the ranks of the M grid; without data for the pair they are 0 *)
Definition ov_count (r : nat) (s : ost) : option ost :=
  let! num := omap (fun k => match o_data s with
                             | [] => Some (k, 0)
                             | es => let! x := lookup k (o_ranges s) in
                                     let! bs := omap (covered_entry x) es in
                                     Some (k, Z.of_nat (length (filter (fun b => b) bs)))
                             end) (o_mg s) in
  Some (OS (o_data s) (o_mg s) (o_ng s) (o_ranges s) num (o_nnum s) (o_send s) (o_recv s) (o_m s) (o_n s)).

(** 1920-1931, 1961, 1967 *)
Definition count_recvs (_ : nat) (s : ost) : list nat := o_ng s.
Definition count_sends (_ : nat) (s : ost) : list (nat * omsg) := map (fun x => (fst x, MsgCount (snd x))) (o_mnum s).
Definition count_done (_ : nat) (s : ost) (ms : list omsg) : option ost :=
  let! ks := omap (fun m => match m with MsgCount k => Some k | _ => None end) ms in
  Some (OS (o_data s) (o_mg s) (o_ng s) (o_ranges s) (o_mnum s) (combine (o_ng s) ks) (o_send s) (o_recv s) (o_m s) (o_n s)).

(** 1970-2004: ranks with the number 0 are erased *)
Definition some_left (num : list (nat * Z)) : list (nat * Z) := filter (fun x => negb (snd x =? 0)) num.
Definition contains {A} (num : list (nat * A)) (k : nat) : bool := match lookup k num with Some _ => true | None => false end.
Definition ov_erase (_ : nat) (s : ost) : option ost :=
  let a := some_left (o_mnum s) in
  let b := some_left (o_nnum s) in
  Some (OS (o_data s) (filter (contains a) (o_mg s)) (filter (contains b) (o_ng s)) (o_ranges s) a b
    (o_send s) (o_recv s) (o_m s) (o_n s)).

(** 2205-2227, 2253-2275: the data of one overlapping point, if the cell has an image in the cover range *)
Definition pack_entry (x : mranges) (e : entry) : option (option mdata) :=
  let! cov := map_tuple_to_range c (snd x) (e_cell e) in
  match cov with
  | None => Some None
  | Some u =>
      let! own := map_tuple_to_range c (fst x) (e_cell e) in
      Some (Some (MData (match own with Some v => v | None => u end) (e_coords e) (e_point e)))
  end.

Fixpoint keep {A} (l : list (option A)) : list A :=
  match l with [] => [] | Some a :: l => a :: keep l | None :: l => keep l end.

(** 2135-2151, 2197-2280: the arrays have the size that was counted; with fewer data they would keep undefined elements, with
    more the writes would be out of bounds. *)
Definition ov_pack (r : nat) (s : ost) : option ost :=
  let! send := omap (fun k =>
      let! x := lookup k (o_ranges s) in
      let! num := lookup k (o_mnum s) in
      let! ds := omap (pack_entry x) (o_data s) in
      let data := keep ds in
      if Z.of_nat (length data) =? num then Some (k, data) else None) (o_mg s) in
  Some (OS (o_data s) (o_mg s) (o_ng s) (o_ranges s) (o_mnum s) (o_nnum s) send (o_recv s) (o_m s) (o_n s)).

(** 2153-2167, 2183-2195, 2229-2235, 2284; the message must have the size that was announced *)
Definition data_recvs (r : nat) (s : ost) : list nat := others r (o_ng s).
Definition data_sends (r : nat) (s : ost) : list (nat * omsg) :=
  map (fun x => (fst x, MsgData (snd x))) (filter (fun x => negb (Nat.eqb (fst x) r)) (o_send s)).
Definition data_done (r : nat) (s : ost) (ms : list omsg) : option ost :=
  let! recv := omap (fun km => match snd km with
                               | MsgData l => let! num := lookup (fst km) (o_nnum s) in
                                              if Z.of_nat (length l) =? num then Some (fst km, l) else None
                               | _ => None
                               end) (combine (others r (o_ng s)) ms) in
  Some (OS (o_data s) (o_mg s) (o_ng s) (o_ranges s) (o_mnum s) (o_nnum s) (o_send s) recv (o_m s) (o_n s)).

(** 2348-2353, 2371-2376: the data from rank k *)
Definition data_from (r : nat) (s : ost) (k : nat) : option (list mdata) := lookup k (if Nat.eqb k r then o_send s else o_recv s).

(** 2370-2394: the rows for the data of rank k *)
Definition rows_from (own : range) (k : nat) (l : list mdata) : list mrow :=
  map (fun d => MRow (md_cell d) (md_coords d) (md_dest d) (if rcontains own (md_cell d) then Z.of_nat k else -1)) l.

(** 2363-2368: LOrder *)
Definition left_order (order : list Z) : option (list Z) :=
  ofoldl (fun a i => let! k := vread order i in vwrite a k i) (zseq 0 (length order)) (repeat 0 (length order)).

(** 2369-2395: row i of the data is written to LOrder(i). *)
Definition place {A} (rows : list A) (lorder : list Z) : option (list A) :=
  let! out := ofoldl (fun a x => let! k := vread lorder (snd x) in vwrite a k (Some (fst x)))
                (combine rows (zseq 0 (length rows))) (repeat None (length rows)) in
  omap (fun x => x) out.

(** 2309-2318, 2338-2399; NumCells is the sum of the numbers received, which must be the number of the data. *)
Definition ov_fill_m (r : nat) (s : ost) : option ost :=
  match o_ng s with
  | [] => Some s
  | ng =>
      let! i := position mem r in
      let own := range_point_to_cell c (L i) in
      let! parts := omap (fun k => let! l := data_from r s k in let! num := lookup k (o_nnum s) in Some (num, rows_from own k l)) ng in
      let rows := concat (map snd parts) in
      if Z.of_nat (length rows) =? fold_left Z.add (map fst parts) 0 then
        let order := sort r (map (fun x => rindex ColMajor R (mr_dest x)) rows) in
        let! lo := left_order order in
        let! out := place rows lo in
        Some (OS (o_data s) (o_mg s) (o_ng s) (o_ranges s) (o_mnum s) (o_nnum s) (o_send s) (o_recv s) out (o_n s))
      else None
  end.

(** 2411-2417: the first rank whose range of cells has the cell *)
Fixpoint source_rank (rng : list (nat * mranges)) (cell : tup Z) (ks : list nat) : option Z :=
  match ks with
  | [] => Some (-1)
  | k :: ks => let! x := lookup k rng in if rcontains (fst x) cell then Some (Z.of_nat k) else source_rank rng cell ks
  end.

(** 2320-2327, 2401-2431 *)
Definition ov_fill_n (_ : nat) (s : ost) : option ost :=
  match o_mg s with
  | [] => Some s
  | mg =>
      let! rows := omap (fun e => let! k := source_rank (o_ranges s) (e_cell e) mg in Some (NRow (e_point e) (e_cell e) k)) (o_data s) in
      Some (OS (o_data s) (o_mg s) (o_ng s) (o_ranges s) (o_mnum s) (o_nnum s) (o_send s) (o_recv s) (o_m s) rows)
  end.

Definition overlap_fill : list (phase ost omsg) :=
  [Local ov_init; wait_all ranges_recvs ranges_sends ranges_done;
   Local ov_count; wait_all count_recvs count_sends count_done;
   Local ov_erase; Local ov_pack; wait_all data_recvs data_sends data_done;
   Local ov_fill_m; Local ov_fill_n].
End Overlap.

Definition OS0 (data : list entry) (mg ng : list nat) : ost := OS data mg ng [] [] [] [] [] [] [].

(** 2498-2508: the extents of the cells for the collect map *)
Definition cell_extents (nd : nat) (x : mrow) : range :=
  mkR (tmake (fun d => if Nat.ltb d nd then tget (mr_cell x) d else 0)) (tmake (fun d => if Nat.ltb d nd then tget (mr_cell x) d + 2 else 1)).
