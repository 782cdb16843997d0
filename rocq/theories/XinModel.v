(** Reading of XINTOUT files: model of src/extras/XINTOUT.cpp 399-1490 (ReadXINTOUT, ReadGlobalInfo, DetectFormat, ReadGridInfo,
    ReadDonors, ReadReceivers) and 2687-2793 (BinDivide, Chunkify, File_read_all_endian, File_read_at_endian, SwapEndian).

    Simplifications: files are lists of bytes that can be opened; doubles are the numbers of their 64 bits; the ranks of a
    communicator act together (each error is synchronised between them before they go on); sums and
    products of counts and offsets do not overflow; logging and profiling are left out. *)
From Coq Require Import List ZArith Bool Arith.
From Verif Require Import TupleModel.
Import ListNotations.
Local Open Scope Z_scope.

(** What a function does: it returns, throws an error, or reads something indeterminate. *)
Inductive res (A : Type) : Type := Done (a : A) | Failed | Undefined.
Arguments Done {A} a. Arguments Failed {A}. Arguments Undefined {A}.
Definition bind {A B} (r : res A) (k : A -> res B) : res B :=
  match r with Done a => k a | Failed => Failed | Undefined => Undefined end.
Notation "'let*' x := r 'in' k" := (bind r (fun x => k)) (at level 200, x pattern, r at level 100, k at level 200).

Notation bytes := (list Z).
(** enum class endian (core/Global.hpp 35-38), xintout_format (extras/XINTOUT.hpp 19-22) *)
Inductive endian : Type := LITTLE | BIG.
Inductive format : Type := STANDARD | EXTENDED.
Definition same_endian (a b : endian) : bool := match a, b with LITTLE, LITTLE | BIG, BIG => true | _, _ => false end.

(** The unsigned number that a machine sees in some bytes, and the signed one of [n] bytes. *)
Definition machine_value (m : endian) (b : bytes) : Z :=
  fold_right (fun x a => x + 256 * a) 0 (match m with LITTLE => b | BIG => rev b end).
Definition signed (n : nat) (v : Z) : Z := if v <? 2 ^ (8 * Z.of_nat n - 1) then v else v - 2 ^ (8 * Z.of_nat n).

(** SwapEndian, 2776-2791 *)
Definition swap_endian (size num : nat) (data : bytes) : bytes :=
  map (fun k => nth (size * (k / size) + (size - k mod size - 1)) data 0) (seq 0 (size * num)).

(** File_read_at_endian, File_read_all_endian (2726-2762) with MPI_Get_count: the elements that were read. [m] is the byte order of
    the machine (MachineEndian, 2764-2774), [e] that of the file. *)
Definition read_at (m e : endian) (f : bytes) (off : Z) (size count : nat) : list Z :=
  let got := firstn (size * count) (skipn (Z.to_nat off) f) in
  let num := (length got / size)%nat in
  let data := if same_endian e m then got else swap_endian size num got in
  map (fun i => machine_value m (firstn size (skipn (size * i) data))) (seq 0 num).

(** ... followed by: if (ReadSize < Count) throw file_read_error. A negative offset or count is an error of MPI that leaves the size that
    is looked at indeterminate. *)
Definition read_exact (m e : endian) (f : bytes) (off : Z) (size : nat) (count : Z) : res (list Z) :=
  if (off <? 0) || (count <? 0) then Undefined else
  let l := read_at m e f off size (Z.to_nat count) in
  if Z.of_nat (length l) <? count then Failed else Done l.
Definition read_ints (m e : endian) (f : bytes) (off count : Z) : res (list Z) :=
  let* l := read_exact m e f off 4 count in Done (map (signed 4) l).
Definition read_longs (m e : endian) (f : bytes) (off count : Z) : res (list Z) :=
  let* l := read_exact m e f off 8 count in Done (map (signed 8) l).
Definition read_doubles (m e : endian) (f : bytes) (off count : Z) : res (list Z) := read_exact m e f off 8 count.

(** DetectFormat, 643-676: the number of bytes read is not looked at, so the bytes are indeterminate if the file is too short. *)
Definition detect_format (m : endian) (ho : bytes) : res (endian * format) :=
  if (length ho <? 4)%nat then Undefined else
  let b := firstn 4 ho in
  let e := if nth 0 b 0 =? 0 then BIG else LITTLE in
  let h := signed 4 (machine_value m (if same_endian e m then b else swap_endian 4 1 b)) in
  if h =? 20 then Done (e, STANDARD) else if h =? 36 then Done (e, EXTENDED) else Failed.

(** RecordWrapperSize, HeaderSize, ConnectionIDSize *)
Definition wrapper_size (fmt : format) : Z := match fmt with STANDARD => 4 | EXTENDED => 0 end.
Definition header_size (fmt : format) : Z := match fmt with STANDARD => 20 | EXTENDED => 36 end.
Definition id_size (fmt : format) : Z := match fmt with STANDARD => 4 | EXTENDED => 8 end.
Definition num_points (s : tup Z) : Z := c0 s * c1 s * c2 s.
Definition ints_tup (l : list Z) : tup Z := T3 (nth 0 l 0) (nth 1 l 0) (nth 2 l 0).

(** ReadGlobalInfo, 460-641 *)
Definition global_info (m : endian) (num_grids : Z) (ho : bytes) : res (endian * format * bool) :=
  let* (e, fmt) := detect_format m ho in
  let w := wrapper_size fmt in
  let* n := read_ints m e ho 4 1 in
  if negb (nth 0 n 0 =? num_grids) then Failed else
  let off := w + header_size fmt + w + w in
  match fmt with
  | STANDARD =>
    let* h := read_ints m e ho off 7 in
    let donors := nth 1 h 0 in
    let receivers := nth 0 h 0 in
    let size := ints_tup (skipn 4 h) in
    let off := off + 28 + w + w + 3 * donors * 4 + 3 * donors * 8 + w + w + 3 * receivers * 4 + receivers * 4 + w in
    if off <? 0 then Undefined else
    match read_at m e ho off 4 1 with
    | v :: _ => Done (e, fmt, signed 4 v =? num_points size * 4)
    | [] => if num_grids =? 1 then Done (e, fmt, false) else Failed
    end
  | EXTENDED =>
    let* _ := read_longs m e ho off 4 in
    let* _ := read_ints m e ho (off + 32) 3 in
    Done (e, fmt, false)
  end.

(** The header of a grid, 750-804 and 862-915; h_start is the number in the file. *)
Record header : Type := Header { h_receivers : Z; h_donors : Z; h_start : Z; h_size : tup Z; h_coefs : Z }.
Definition grid_header (m e : endian) (fmt : format) (ho : bytes) (off : Z) : res (header * Z) :=
  match fmt with
  | STANDARD =>
    let* h := read_ints m e ho off 7 in
    Done (Header (nth 0 h 0) (nth 1 h 0) (nth 3 h 0) (ints_tup (skipn 4 h)) 0, off + 28)
  | EXTENDED =>
    let* l := read_longs m e ho off 4 in
    let* i := read_ints m e ho (off + 32) 3 in
    let* k := read_longs m e ho (off + 32 + 12) 1 in
    Done (Header (nth 0 l 0) (nth 1 l 0) (nth 3 l 0) (ints_tup i) (nth 0 k 0), off + 32 + 12 + 8)
  end.

(** One iteration of the loop over the grids before the one that is read, 745-858. *)
Definition skip_grid (m e : endian) (fmt : format) (iblank : bool) (ho x : bytes) (at_ : Z * Z) : res (Z * Z) :=
  let (hoff, xoff) := at_ in
  let w := wrapper_size fmt in
  let* (h, hoff) := grid_header m e fmt ho (hoff + w) in
  let hoff := hoff + w + w + 3 * h_donors h * 4 + 3 * h_donors h * 8 + w in
  let hoff := hoff + w + 3 * h_receivers h * 4 + h_receivers h * id_size fmt + w in
  let hoff := if iblank then hoff + w + num_points (h_size h) * 4 + w else hoff in
  let xoff := xoff + w + 3 * h_donors h * 4 + w in
  let* coefs := match fmt with
                | STANDARD => let* v := read_ints m e x xoff 1 in Done (nth 0 v 0 / 8)
                | EXTENDED => Done (h_coefs h)
                end in
  let xoff := xoff + w + coefs * 8 + w in
  Done (hoff, xoff + w + 12 + w).
Fixpoint skip_grids (m e : endian) (fmt : format) (iblank : bool) (ho x : bytes) (n : nat) (at_ : Z * Z) : res (Z * Z) :=
  match n with O => Done at_ | S n => let* a := skip_grid m e fmt iblank ho x at_ in skip_grids m e fmt iblank ho x n a end.

(** ReadGridInfo, 678-967; [size] is the size of the grid that the data is for, [i] its number from zero. *)
Record info : Type := Info {
  i_donors : Z; i_receivers : Z; i_start : Z; i_cells : Z; i_coords : Z; i_points : Z; i_ids : Z; i_sizes : Z; i_coefs : Z }.
Definition grid_info (m e : endian) (fmt : format) (iblank : bool) (ho x : bytes) (size : tup Z) (i : nat) : res info :=
  let w := wrapper_size fmt in
  let start := 4 + header_size fmt + w in
  let* (hoff, xoff) := skip_grids m e fmt iblank ho x i (start, start) in
  let* (h, hoff) := grid_header m e fmt ho (hoff + w) in
  let hoff := hoff + w in
  if negb (teqb (h_size h) size) then Failed else
  let cells := hoff + w in
  let coords := cells + 3 * h_donors h * 4 in
  let points := coords + 3 * h_donors h * 8 + w + w in
  let sizes := xoff + w in
  Done (Info (h_donors h) (h_receivers h) (h_start h - 1) cells coords points (points + 3 * h_receivers h * 4) sizes
    (sizes + 3 * h_donors h * 4 + w + w)).

(** BinDivide, 2687-2693 *)
Definition bin_divide (n bins : Z) : Z := Z.quot (n + bins - 1) bins.

(** Chunkify, 2695-2724. The loops carry ChunkRankInterval and NumChunks. The fuel of the first is enough for all numbers of ranks (C90). *)
Definition doubled (max_chunks interval : Z) : Z * Z :=
  let i := Z.min (interval * 2) max_chunks in (i, bin_divide max_chunks i).
Definition halved (max_chunks interval : Z) : Z * Z :=
  let i := Z.max (interval / 2) 1 in (i, bin_divide max_chunks i).
Fixpoint coarsen (count max_chunks target : Z) (fuel : nat) (s : Z * Z) : option (Z * Z) :=
  if (bin_divide count (snd s) <? target) && (1 <? snd s)
  then match fuel with O => None | S f => coarsen count max_chunks target f (doubled max_chunks (fst s)) end
  else Some s.
Fixpoint adjust_up (max_chunks : Z) (amount : nat) (s : Z * Z) : Z * Z :=
  match amount with O => s | S a => if snd s <? max_chunks then adjust_up max_chunks a (halved max_chunks (fst s)) else s end.
Fixpoint adjust_down (max_chunks : Z) (amount : nat) (s : Z * Z) : Z * Z :=
  match amount with O => s | S a => if 1 <? snd s then adjust_down max_chunks a (doubled max_chunks (fst s)) else s end.
Definition chunkify (count max_chunks target adjust : Z) : option (Z * Z * Z) :=
  match coarsen count max_chunks target (S (Z.to_nat max_chunks)) (1, max_chunks) with
  | None => None
  | Some s =>
    let s := if 0 <? adjust then adjust_up max_chunks (Z.to_nat adjust) s
             else if adjust <? 0 then adjust_down max_chunks (Z.to_nat (- adjust)) s else s in
    Some (fst s, snd s, bin_divide count (snd s))
  end.

(** bool HasChunk, 997: the ranks of the grid's communicator that read; ChunkComm has them in order. *)
Definition reads (interval r : Z) : bool := Z.rem r interval =? 0.
Definition readers (ranks interval : Z) : list Z := filter (reads interval) (map Z.of_nat (seq 0 (Z.to_nat ranks))).

(** LocalBegin, LocalEnd (1020-1021) of rank [k] of ChunkComm, and the test of the size, 1025 (the product is computed in an unsigned type). *)
Definition local_begin (chunk k : Z) : Z := chunk * k.
Definition local_end (chunk count k : Z) : Z := Z.min (chunk * (k + 1)) count.
Definition too_big (n elem : Z) : bool := 2 ^ 31 - 1 <? (n * elem) mod 2 ^ 64.

(** The ranks of ChunkComm, each doing its part; an error on one is an error on all. *)
Fixpoint all_ranks {A} (l : list (res A)) : res (list A) :=
  match l with
  | [] => Done []
  | r :: l =>
    match r, all_ranks l with
    | Undefined, _ | _, Undefined => Undefined
    | Failed, _ | _, Failed => Failed
    | Done a, Done l => Done (a :: l)
    end
  end.
Definition chunk_ranks (n : Z) : list Z := map Z.of_nat (seq 0 (Z.to_nat n)).

(** for (iDim ...): read a part of each of three consecutive columns of [total] elements, 1084-1102 and so on. *)
Definition read_columns (read : Z -> Z -> res (list Z)) (elem off total begin n : Z) : res (tup (list Z)) :=
  let* a := read (off + begin * elem) n in
  let* b := read (off + total * elem + begin * elem) n in
  let* c := read (off + total * elem + total * elem + begin * elem) n in
  Done (T3 a b c).

(** An element of donor_data: extents, coordinates and the coefficients for the points of the extents. *)
Record donor_entry : Type := DonorEntry { e_begin : tup Z; e_end : tup Z; e_coords : tup Z; e_coefs : tup (list Z) }.
Record donor_chunk : Type := DonorChunk { dc_begin : Z; dc_end : Z; dc_start : Z; dc_max : Z; dc_data : list donor_entry }.

(** The same for each dimension. *)
Definition tmap {A B} (f : A -> B) (t : tup A) : tup B := tmake (fun d => f (tget t d)).
Definition row (t : tup (list Z)) (i : nat) : tup Z := tmap (fun l => nth i l 0) t.
Definition sum (l : list Z) : Z := fold_right Z.add 0 l.
Definition max_size (t : tup (list Z)) : Z := fold_right Z.max 0 (c0 t ++ c1 t ++ c2 t).

(** InterpCoefs(iNextCoef[iDim]) for iPoint < Size, 1262-1270; reading behind the end of the array is undefined. *)
Definition take_coefs (a : list Z) (next size : Z) : res (list Z) :=
  if size <=? 0 then Done [] else
  if (next <? 0) || (Z.of_nat (length a) <? next + size) then Undefined
  else Done (firstn (Z.to_nat size) (skipn (Z.to_nat next) a)).
Fixpoint spread (a : list Z) (next : tup Z) (sizes : list (tup Z)) : res (list (tup (list Z))) :=
  match sizes with
  | [] => Done []
  | s :: sizes =>
    let* l0 := take_coefs a (c0 next) (c0 s) in
    let* l1 := take_coefs a (c1 next) (c1 s) in
    let* l2 := take_coefs a (c2 next) (c2 s) in
    let* r := spread a (T3 (c0 next + Z.max 0 (c0 s)) (c1 next + Z.max 0 (c1 s)) (c2 next + Z.max 0 (c2 s))) sizes in
    Done (T3 l0 l1 l2 :: r)
  end.

(** ReadDonors, 969-1292, on a communicator of [ranks] ranks. *)
Definition read_donors (m e : endian) (ho x : bytes) (size : tup Z) (ranks adjust : Z) (inf : info) : res (list donor_chunk) :=
  match chunkify (i_donors inf) ranks (bin_divide (num_points size) ranks) adjust with
  | None => Undefined
  | Some (_, chunks, chunk) =>
    let total := i_donors inf in
    let begin := local_begin chunk in
    let count k := local_end chunk total k - local_begin chunk k in
    let ks := chunk_ranks chunks in
    if existsb (fun k => too_big (count k) 8) ks then Failed else
    let* sizes := all_ranks (map (fun k => read_columns (read_ints m e x) 4 (i_sizes inf) total (begin k) (count k)) ks) in
    let* cells := all_ranks (map (fun k => read_columns (read_ints m e ho) 4 (i_cells inf) total (begin k) (count k)) ks) in
    let* coords := all_ranks (map (fun k => read_columns (read_doubles m e ho) 8 (i_coords inf) total (begin k) (count k)) ks) in
    let local := map (tmap sum) sizes in
    if existsb (fun t => too_big (c0 t) 8 || too_big (c1 t) 8 || too_big (c2 t) 8) local then Failed else
    let whole := T3 (sum (map c0 local)) (sum (map c1 local)) (sum (map c2 local)) in
    let before k := T3 (sum (map c0 (firstn k local))) (sum (map c1 (firstn k local))) (sum (map c2 (firstn k local))) in
    let zero := T3 0 0 0 in
    let* coefs := all_ranks (map (fun k =>
      let here := nth k local zero in
      let b := before k in
      let* l0 := read_doubles m e x (i_coefs inf + c0 b * 8) (c0 here) in
      let* l1 := read_doubles m e x (i_coefs inf + c0 whole * 8 + c1 b * 8) (c1 here) in
      let* l2 := read_doubles m e x (i_coefs inf + c0 whole * 8 + c1 whole * 8 + c2 b * 8) (c2 here) in
      Done (l0 ++ l1 ++ l2)) (seq 0 (length local))) in
    all_ranks (map (fun k =>
      let n := Z.to_nat (count (Z.of_nat k)) in
      let nil3 := T3 [] [] [] in
      let s := nth k sizes nil3 in
      let here := nth k local zero in
      let* r := spread (nth k coefs []) (T3 0 (c0 here) (c0 here + c1 here)) (map (row s) (seq 0 n)) in
      Done (DonorChunk (begin (Z.of_nat k)) (local_end chunk total (Z.of_nat k)) (i_start inf + begin (Z.of_nat k)) (max_size s)
        (map (fun i =>
           let cell := tmap (fun v => v - 1) (row (nth k cells nil3) i) in
           DonorEntry cell (tadd cell (row s i)) (row (nth k coords nil3) i) (nth i r nil3)) (seq 0 n))))
      (seq 0 (Z.to_nat chunks)))
  end.

(** An element of receiver_data and ConnectionIDs. *)
Record receiver_entry : Type := ReceiverEntry { v_point : tup Z; v_id : Z }.
Record receiver_chunk : Type := ReceiverChunk { rc_begin : Z; rc_end : Z; rc_data : list receiver_entry }.

(** ReadReceivers, 1294-1490 *)
Definition read_receivers (m e : endian) (fmt : format) (ho : bytes) (size : tup Z) (ranks adjust : Z) (inf : info) : res (list receiver_chunk) :=
  match chunkify (i_receivers inf) ranks (bin_divide (num_points size) ranks) adjust with
  | None => Undefined
  | Some (_, chunks, chunk) =>
    let total := i_receivers inf in
    let begin := local_begin chunk in
    let count k := local_end chunk total k - local_begin chunk k in
    let ks := chunk_ranks chunks in
    if existsb (fun k => too_big (count k) 8) ks then Failed else
    let* points := all_ranks (map (fun k => read_columns (read_ints m e ho) 4 (i_points inf) total (begin k) (count k)) ks) in
    let* ids := all_ranks (map (fun k =>
      match fmt with
      | STANDARD => read_ints m e ho (i_ids inf + begin k * 4) (count k)
      | EXTENDED => read_longs m e ho (i_ids inf + begin k * 8) (count k)
      end) ks) in
    Done (map (fun k =>
      ReceiverChunk (begin (Z.of_nat k)) (local_end chunk total (Z.of_nat k))
        (map (fun i => ReceiverEntry (tmap (fun v => v - 1) (row (nth k points (T3 [] [] [])) i)) (nth i (nth k ids []) 0 - 1))
          (seq 0 (Z.to_nat (count (Z.of_nat k)))))) (seq 0 (Z.to_nat chunks)))
  end.

(** The body of the loop of ReadXINTOUT over the grids, 421-446. *)
Definition read_grid (m e : endian) (fmt : format) (iblank : bool) (ho x : bytes) (size : tup Z) (ranks adjust : Z) (i : nat)
  : res (list donor_chunk * list receiver_chunk) :=
  let* inf := grid_info m e fmt iblank ho x size i in
  let* D := read_donors m e ho x size ranks adjust inf in
  let* R := read_receivers m e fmt ho size ranks adjust inf in
  Done (D, R).

(** ReadXINTOUT, 399-458: [domain] has the size and the number of ranks of each grid. *)
Definition read_xintout (m : endian) (domain : list (tup Z * Z)) (adjust : Z) (ho x : bytes)
  : res (list (list donor_chunk * list receiver_chunk)) :=
  let* (e, fmt, iblank) := global_info m (Z.of_nat (length domain)) ho in
  all_ranks (map (fun ig => read_grid m e fmt iblank ho x (fst (snd ig)) (snd (snd ig)) adjust (fst ig))
    (combine (seq 0 (length domain)) domain)).
