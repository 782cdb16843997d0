(** Distributed region hashes: model of src/core/DistributedRegionHash.inl.
    The program of all ranks is a list of phases (NetModel.v).  The states hold the local
    variables of the functions; each phase adds those it computes.
    Simplifications: a map from ranks built by a loop is the list of its values in the order
    of the ranks; the sizes of containers reserved in advance are left out. *)
From Coq Require Import List ZArith QArith Bool.
From Verif Require Import TupleModel RangeModel IndexerModel ArrayModel ContModel HashModel.
From Verif Require Import ProtoModel ProtoSpec NetModel.
Import ListNotations.
Local Open Scope Z_scope.

(** ** BinDecomp_ *)

(** DistributedRegionHash.inl 686-693: the last dimension of smallest length. *)
Fixpoint min_length (lens : list Q) (i : nat) (best : nat) (m : option Q) : nat :=
  match lens with
  | [] => best
  | x :: r => if match m with None => true | Some y => Qle_bool x y end
              then min_length r (S i) i (Some x) else min_length r (S i) best m
  end.

(** 665-728: BinDecomp_; [guess lens max] is int(Length(iMinLengthDim)*Base), with Base computed
    by std::pow.  [fuel] is NumDims. *)
Fixpoint bin_decomp (guess : list Q -> Z -> Z) (fuel : nat) (lens : list Q) (max : Z) : list Z :=
  match fuel with
  | O => []
  | S O => [max]
  | S f =>
      let d := min_length lens 0 0 None in
      let nb := Z.max (guess lens max) 1 in
      let rest := bin_decomp guess f (firstn d lens ++ skipn (S d) lens) (Z.quot max nb) in
      firstn d rest ++ nb :: skipn d rest
  end.

(** The dimensions from NumDims on have one bin. *)
Definition tuple_of (l : list Z) : tup Z := T3 (nth 0 l 1) (nth 1 l 1) (nth 2 l 1).

(** BinDecomp_ applied to the extents of ranges; [guess] as in [bin_decomp]. *)
Definition range_decomp (guess : list Q -> Z -> Z) (nd : nat) (x : range) (p : Z) : tup Z :=
  tuple_of (bin_decomp guess nd (map (fun d => inject_Z (rsize1 x d)) (seq 0 nd)) p).

(** 146-161 for ranges: int(2.*AvgProcLength/AvgBinRegionLength).  Sums of ints are exact in
    double, divisions are rounded; None if the divisor is 0. *)
Definition range_ratio (rnd : Q -> Q) (nd : nat) (size : tup Z) (l : list range) : option Z :=
  let lens := flat_map (fun g => map (rsize1 g) (seq 0 nd)) l in
  let region := rnd (inject_Z (fold_left Z.add lens 0%Z) / inject_Z (Z.of_nat (nd * length l)%nat))%Q in
  let proc := rnd (inject_Z (fold_left Z.add (map (tget size) (seq 0 nd)) 0%Z) / inject_Z (Z.of_nat nd))%Q in
  if Qeq_bool region 0 then None
  else let q := rnd (2 * proc / region)%Q in Some (Z.quot (Qnum q) (Zpos (Qden q))).

(** ** The constructor *)

Section DHash.
Context {C X R : Type} (k : coords C X) (t : traits C X R) (nd n : nat).
(** [decomp x p]: BinDecomp_(NumDims, x, p); [ratio size l]: int(2.*AvgProcLength/
    AvgBinRegionLength), 146-161, None if the conversion is undefined. *)
Variable decomp : X -> Z -> tup Z.
Variable ratio : tup C -> list R -> option Z.

(** 610-635: MapToBins_, a set of indices. *)
Definition bin_set (bins : range) (idx : tup Z -> Z) (m : mapped) : list Z :=
  match m with
  | MapRange r => fold_left (set_insert Z.ltb) (map idx (RangeModel.foreach_col r)) []
  | MapSet l => l
  end.

(** 26-47: extents, process grid, and for each local region the ranks it is sent to. *)
Record plan : Type := Plan {
  p_regs : list R; p_ext : X; p_procs : range; p_size : tup C; p_over : list (list nat) }.

(** Members of the hash, DistributedRegionHash.hpp 125-143; the last three are empty if the rank has no
    regions. *)
Record dhash : Type := DHash {
  d_ext : X; d_procs : range; d_psize : tup C; d_mults : list Z;
  d_data : list (R * nat); d_count : list Z; d_starts : list Z; d_ind : list Z }.

Inductive dst : Type :=
| D0 (regs : list R)
| D1 (regs : list R) (x : X)
| D2 (p : plan)
| D3 (p : plan) (from : list nat)
| D4 (p : plan) (from : list nat) (nfrom : list Z)
| D5 (p : plan) (from : list nat) (nfrom : list Z) (data : list (R * nat))
| D6 (p : plan) (from : list nat) (nfrom : list Z) (data : list (R * nat)) (mults : list Z)
| D7 (p : plan) (from : list nat) (nfrom : list Z) (data : list (R * nat)) (mults : list Z)
     (over : list (list (nat * list Z)))
| D8 (p : plan) (from : list nat) (nfrom : list Z) (data : list (R * nat)) (mults : list Z)
     (over : list (list (nat * list Z))) (nbins : list Z)
| D9 (p : plan) (data : list (R * nat)) (mults : list Z) (bins : list (list Z))
| DH (h : dhash).

Inductive dmsg : Type := MNum (z : Z) | MReg (r : R) | MInts (l : list Z) | MRegs (l : list R).

Definition get_num (m : dmsg) : option Z := match m with MNum z => Some z | _ => None end.
Definition get_reg (m : dmsg) : option R := match m with MReg r => Some r | _ => None end.
Definition get_ints (m : dmsg) : option (list Z) := match m with MInts l => Some l | _ => None end.
Definition get_regs (m : dmsg) : option (list R) := match m with MRegs l => Some l | _ => None end.

(** 26-29: the extents of the local regions. *)
Definition dh_extents (_ : nat) (s : dst) : option dst :=
  match s with D0 regs => Some (D1 regs (hash_extents k t nd regs)) | _ => None end.

(** 31-32: MPI_Allreduce of the bounds in the first NumDims dimensions; [own]: the extents the
    rank has computed. *)
Definition reduce {A} (f : A -> A -> A) (l : list A) (dflt : A) : A :=
  match l with [] => dflt | a :: r => fold_left f r a end.

Definition reduce_ext (xs : list X) (own : X) : X :=
  k_mk k (tmake (fun d => if Nat.ltb d nd
                          then reduce (k_min k) (map (fun x => tget (k_b k x) d) xs) (tget (k_b k own) d)
                          else tget (k_b k own) d))
         (tmake (fun d => if Nat.ltb d nd
                          then reduce (k_max k) (map (fun x => tget (k_e k x) d) xs) (tget (k_e k own) d)
                          else tget (k_e k own) d)).

(** 34-47, for one region: the set of ranks. *)
Definition region_procs (x : X) (procs : range) (size : tup C) (r : R) : option (list nat) :=
  let! m := t_map t nd procs (rindex RowMajor procs) (k_b k x) size r in
  Some (map Z.to_nat (bin_set procs (rindex RowMajor procs) m)).

Definition dh_plan (l : list dst) (r : nat) : option dst :=
  let! xs := omap (fun s => match s with D1 _ x => Some x | _ => None end) l in
  match nth_error l r with
  | Some (D1 regs own) =>
      let x := reduce_ext xs own in
      let num := decomp x (Z.of_nat n) in
      let procs := range_of num in
      let! size := k_size k x num in
      let! over := omap (region_procs x procs size) regs in
      Some (D2 (Plan regs x procs size over))
  | _ => None
  end.

(** 49-57: SendToRanks and the handshake (ProtoSpec.v: its result). *)
Definition send_to (p : plan) : list nat := fold_left (set_insert Nat.ltb) (concat (p_over p)) [].

Definition dh_handshake (l : list dst) (r : nat) : option dst :=
  let! ps := omap (fun s => match s with D2 p => Some p | _ => None end) l in
  let! p := nth_error ps r in
  Some (D3 p (named n (fun q => match nth_error ps q with Some p => send_to p | None => [] end) r)).

(** 59-85: the numbers of regions. *)
Definition dh_numbers : phase dst dmsg :=
  wait_all
    (fun _ s => match s with D3 _ from => from | _ => [] end)
    (fun _ s => match s with
                | D3 p _ => map (fun d => (d, MNum (Z.of_nat (count d (concat (p_over p)))))) (send_to p)
                | _ => []
                end)
    (fun _ s ms => match s with
                   | D3 p from => let! nums := omap get_num ms in Some (D4 p from nums)
                   | _ => None
                   end).

(** The ranks the received regions come from, one by one (106-114). *)
Definition senders (from : list nat) (nums : list Z) : list nat :=
  flat_map (fun x => repeat (fst x) (Z.to_nat (snd x))) (combine from nums).

(** 97-140: the regions. *)
Definition dh_regions : phase dst dmsg :=
  wait_all
    (fun _ s => match s with D4 _ from nums => senders from nums | _ => [] end)
    (fun _ s => match s with
                | D4 p _ _ => flat_map (fun x => map (fun d => (d, MReg (fst x))) (snd x))
                                       (combine (p_regs p) (p_over p))
                | _ => []
                end)
    (fun _ s ms => match s with
                   | D4 p from nums =>
                       let! rs := omap get_reg ms in
                       Some (D5 p from nums (combine rs (senders from nums)))
                   | _ => None
                   end).

(** 142-168: ProcToBinMultiplier and its MPI_Allgather. *)
Definition multiplier (s : dst) : option Z :=
  match s with
  | D5 p _ _ data =>
      match data with
      | [] => Some 1
      | _ => let! z := ratio (p_size p) (map fst data) in Some (Z.max z 1)
      end
  | _ => None
  end.

Definition dh_mults (l : list dst) (r : nat) : option dst :=
  let! ms := omap multiplier l in
  match nth_error l r with
  | Some (D5 p from nums data) => Some (D6 p from nums data ms)
  | _ => None
  end.

(** 192-204: the bins and the extents of a process. *)
Definition proc_bins (m : Z) : range :=
  let e := make_empty_range nd in
  mkR (tmake (fun d => if Nat.ltb d nd then 0 else tget (rb e) d))
      (tmake (fun d => if Nat.ltb d nd then m else tget (re e) d)).

Definition proc_ext (x : X) (size : tup C) (loc : tup Z) : X :=
  let e := k_empty k nd in
  k_mk k
    (tmake (fun d => if Nat.ltb d nd then k_corner k (tget (k_b k x) d) (tget loc d) (tget size d)
                     else tget (k_b k e) d))
    (tmake (fun d => if Nat.ltb d nd
                     then k_min k (k_corner k (tget (k_b k x) d) (tget loc d + 1) (tget size d))
                                  (tget (k_e k x) d)
                     else tget (k_e k e) d)).

(** 191-211, for one region and one process: its bins. *)
Definition region_bins (x : X) (procs : range) (size : tup C) (mults : list Z) (r : R) (q : nat)
    : option (list Z) :=
  let! loc := rtuple RowMajor procs (Z.of_nat q) in
  let! m := nth_error mults q in
  let bins := proc_bins m in
  let px := proc_ext x size loc in
  let! bsize := k_size k px (rsize bins) in
  let! mp := t_map t nd bins (rindex ColMajor bins) (k_b k px) bsize r in
  Some (bin_set bins (rindex ColMajor bins) mp).

Definition dh_local_bins (_ : nat) (s : dst) : option dst :=
  match s with
  | D6 p from nums data mults =>
      let! over := omap (fun x => omap (fun q => let! b := region_bins (p_ext p) (p_procs p) (p_size p)
                                                                       mults (fst x) q in
                                                 Some (q, b)) (snd x))
                        (combine (p_regs p) (p_over p)) in
      Some (D7 p from nums data mults over)
  | _ => None
  end.

(** 172-220: the numbers of bins. *)
Definition dh_bin_numbers : phase dst dmsg :=
  wait_all
    (fun _ s => match s with D7 _ from nums _ _ _ => senders from nums | _ => [] end)
    (fun _ s => match s with
                | D7 _ _ _ _ _ over =>
                    flat_map (map (fun x => (fst x, MNum (Z.of_nat (length (snd x)))))) over
                | _ => []
                end)
    (fun _ s ms => match s with
                   | D7 p from nums data mults over =>
                       let! nb := omap get_num ms in Some (D8 p from nums data mults over nb)
                   | _ => None
                   end).

(** 222-246: the bins; a message must have the announced length. *)
Fixpoint same_lengths (nums : list Z) (ls : list (list Z)) : bool :=
  match nums, ls with
  | [], [] => true
  | z :: nums, l :: ls => (Z.of_nat (length l) =? z) && same_lengths nums ls
  | _, _ => false
  end.

Definition dh_bins : phase dst dmsg :=
  wait_all
    (fun _ s => match s with D8 _ from nums _ _ _ _ => senders from nums | _ => [] end)
    (fun _ s => match s with
                | D8 _ _ _ _ _ over _ => flat_map (map (fun x => (fst x, MInts (snd x)))) over
                | _ => []
                end)
    (fun _ s ms => match s with
                   | D8 p _ _ data mults _ nb =>
                       let! bs := omap get_ints ms in
                       if same_lengths nb bs then Some (D9 p data mults bs) else None
                   | _ => None
                   end).

(** 248-295: the list of regions by bin; 262, 288: access through the tuple of the bin. *)
Definition dh_fill (r : nat) (s : dst) : option dst :=
  match s with
  | D9 p data mults bins =>
      let fin := fun c st ind => Some (DH (DHash (p_ext p) (p_procs p) (p_size p) mults data c st ind)) in
      match data with
      | [] => fin [] [] []
      | _ =>
          let! m := nth_error mults r in
          let br := proc_bins m in
          let nb := Z.to_nat (rcount br) in
          let! visits := omap (omap (fun b => let! tp := rtuple ColMajor br b in
                                              Some (rindex ColMajor br tp))) bins in
          let! counts := csr_counts nb visits in
          let! st := csr_starts (map (rindex ColMajor br) (RangeModel.foreach_col br)) counts (repeat 0 nb) in
          let! f := csr_fill (fst st) 0 visits (repeat 0 (Z.to_nat (snd st)), repeat 0 nb) in
          fin (snd f) (fst st) (fst f)
      end
  | _ => None
  end.

Definition dh_build : list (phase dst dmsg) :=
  [Local dh_extents; Coll dh_plan; Coll dh_handshake; dh_numbers; dh_regions; Coll dh_mults;
   Local dh_local_bins; dh_bin_numbers; dh_bins; Local dh_fill].

(** 299-332: MapToBin, (rank, bin). *)
Definition dh_map (h : dhash) (p : tup C) : option (nat * Z) :=
  let! c := grid_cell (k_cell k) nd (k_b k (d_ext h)) (d_psize h) p in
  let loc := clamp_to_range (d_procs h) c in
  let rank := rindex RowMajor (d_procs h) loc in
  let! m := vread (d_mults h) rank in
  let bins := proc_bins m in
  let px := proc_ext (d_ext h) (d_psize h) loc in
  let! bsize := k_size k px (rsize bins) in
  let! b := grid_cell (k_cell k) nd (k_b k px) bsize p in
  Some (Z.to_nat rank, rindex ColMajor bins (clamp_to_range bins b)).

(** ** RetrieveBins *)

(** A retrieved_bins: RegionData_, BinRegionIndicesIntervals_ and BinRegionIndices_. *)
Record rbins : Type := RBins {
  rb_data : list (R * nat); rb_iv : smap Z (Z * Z); rb_ind : list Z }.

Inductive rst : Type :=
| R0 (h : dhash) (ids : list (nat * Z))
| R1 (h : dhash) (ids : list (nat * Z)) (ranks : list nat) (from : list nat)
| R2 (h : dhash) (ids : list (nat * Z)) (ranks : list nat) (from : list nat) (nums : list Z)
| R3 (h : dhash) (ids : list (nat * Z)) (ranks : list nat) (from : list nat)
     (bins : list (list Z)) (sending : list (list Z))
| R4 (h : dhash) (ids : list (nat * Z)) (ranks : list nat) (from : list nat)
     (bins : list (list Z)) (sending : list (list Z)) (nregs : list Z)
| R5 (h : dhash) (ids : list (nat * Z)) (ranks : list nat) (from : list nat)
     (bins : list (list Z)) (sending : list (list Z)) (data : list (list (R * nat)))
| R6 (h : dhash) (ids : list (nat * Z)) (ranks : list nat) (from : list nat)
     (bins : list (list Z)) (sending : list (list Z)) (data : list (list (R * nat)))
     (sent : list (list Z * list Z))
| R7 (h : dhash) (ids : list (nat * Z)) (ranks : list nat) (from : list nat)
     (data : list (list (R * nat))) (sent : list (list Z * list Z)) (nper : list (list Z))
| RH (h : dhash) (res : smap nat rbins).

(** 337-343: BinRanks and the handshake. *)
Definition bin_ranks (ids : list (nat * Z)) : list nat := fold_left (set_insert Nat.ltb) (map fst ids) [].

Definition rt_handshake (l : list rst) (r : nat) : option rst :=
  let! qs := omap (fun s => match s with R0 _ ids => Some (bin_ranks ids) | _ => None end) l in
  match nth_error l r with
  | Some (R0 h ids) =>
      Some (R1 h ids (bin_ranks ids)
               (named n (fun q => match nth_error qs q with Some x => x | None => [] end) r))
  | _ => None
  end.

(** The bins requested of one rank, 394-399. *)
Definition bins_of (ids : list (nat * Z)) (q : nat) : list Z :=
  map snd (filter (fun x => Nat.eqb (fst x) q) ids).

(** 345-371: the numbers of bins. *)
Definition rt_numbers : phase rst dmsg :=
  wait_all
    (fun _ s => match s with R1 _ _ _ from => from | _ => [] end)
    (fun _ s => match s with
                | R1 _ ids ranks _ => map (fun q => (q, MNum (Z.of_nat (length (bins_of ids q))))) ranks
                | _ => []
                end)
    (fun _ s ms => match s with
                   | R1 h ids ranks from => let! nums := omap get_num ms in Some (R2 h ids ranks from nums)
                   | _ => None
                   end).

(** 412-423: the regions of the bins requested, a set of indices. *)
Definition bin_regions (h : dhash) (b : Z) : option (list Z) :=
  let! c := vread (d_count h) b in
  let! st := vread (d_starts h) b in
  slice (d_ind h) st c.

Definition sending_regions (h : dhash) (bins : list Z) : option (list Z) :=
  ofoldl (fun s b => let! l := bin_regions h b in Some (fold_left (set_insert Z.ltb) l s)) bins [].

(** 373-423: the bins. *)
Definition rt_bins : phase rst dmsg :=
  wait_all
    (fun _ s => match s with R2 _ _ _ from _ => from | _ => [] end)
    (fun _ s => match s with
                | R2 _ ids ranks _ _ => map (fun q => (q, MInts (bins_of ids q))) ranks
                | _ => []
                end)
    (fun _ s ms => match s with
                   | R2 h ids ranks from nums =>
                       let! bs := omap get_ints ms in
                       if same_lengths nums bs then
                         let! snd := omap (sending_regions h) bs in
                         Some (R3 h ids ranks from bs snd)
                       else None
                   | _ => None
                   end).

(** 425-445: the numbers of regions. *)
Definition rt_region_numbers : phase rst dmsg :=
  wait_all
    (fun _ s => match s with R3 _ _ ranks _ _ _ => ranks | _ => [] end)
    (fun _ s => match s with
                | R3 _ _ _ from _ sending =>
                    map (fun x => (fst x, MNum (Z.of_nat (length (snd x))))) (combine from sending)
                | _ => []
                end)
    (fun _ s ms => match s with
                   | R3 h ids ranks from bins sending =>
                       let! nums := omap get_num ms in Some (R4 h ids ranks from bins sending nums)
                   | _ => None
                   end).

(** 447-492: the regions and their ranks, two messages for each rank. *)
Definition region_data (h : dhash) (sending : list Z) : option (list (R * nat)) :=
  omap (vread (d_data h)) sending.

Fixpoint pair_up (nums : list Z) (ms : list dmsg) : option (list (list (R * nat))) :=
  match nums, ms with
  | [], [] => Some []
  | z :: nums, a :: b :: ms =>
      let! rs := get_regs a in
      let! qs := get_ints b in
      if (Z.of_nat (length rs) =? z) && (Z.of_nat (length qs) =? z) then
        let! rest := pair_up nums ms in
        Some (combine rs (map Z.to_nat qs) :: rest)
      else None
  | _, _ => None
  end.

Definition region_msgs (h : dhash) (sending : list Z) : list dmsg :=
  match region_data h sending with
  | Some d => [MRegs (map fst d); MInts (map (fun x => Z.of_nat (snd x)) d)]
  | None => []
  end.

Definition rt_regions : phase rst dmsg :=
  wait_all
    (fun _ s => match s with R4 _ _ ranks _ _ _ _ => flat_map (fun q => [q; q]) ranks | _ => [] end)
    (fun _ s => match s with
                | R4 h _ _ from _ sending _ =>
                    flat_map (fun x => map (fun m => (fst x, m)) (region_msgs h (snd x))) (combine from sending)
                | _ => []
                end)
    (fun _ s ms => match s with
                   | R4 h ids ranks from bins sending nums =>
                       let! _ := omap (region_data h) sending in
                       let! data := pair_up nums ms in
                       Some (R5 h ids ranks from bins sending data)
                   | _ => None
                   end).

(** 515-526 and 544-568: for each rank, the numbers of regions in the bins and their
    positions among the regions sent (BinRegionIndexToSendRegionIndex). *)
Definition positions (total : nat) (sending : list Z) : option (list Z) :=
  ofoldl (fun a x => vwrite a (snd x) (fst x)) (combine (zrange 0 (Z.of_nat (length sending))) sending)
         (repeat (-1) total).

Definition bin_index_data (h : dhash) (bins sending : list Z) : option (list Z * list Z) :=
  let! counts := omap (vread (d_count h)) bins in
  let! pos := positions (length (d_data h)) sending in
  let! ls := omap (fun b => let! l := bin_regions h b in omap (vread pos) l) bins in
  Some (counts, concat ls).

Definition rt_index_data (_ : nat) (s : rst) : option rst :=
  match s with
  | R5 h ids ranks from bins sending data =>
      let! sent := omap (fun x => bin_index_data h (fst x) (snd x)) (combine bins sending) in
      Some (R6 h ids ranks from bins sending data sent)
  | _ => None
  end.

(** 494-529: the numbers of regions in the bins. *)
Definition rt_bin_counts : phase rst dmsg :=
  wait_all
    (fun _ s => match s with R6 _ _ ranks _ _ _ _ _ => ranks | _ => [] end)
    (fun _ s => match s with
                | R6 _ _ _ from _ _ _ sent => map (fun x => (fst x, MInts (fst (snd x)))) (combine from sent)
                | _ => []
                end)
    (fun _ s ms => match s with
                   | R6 h ids ranks from _ _ data sent =>
                       let! ls := omap get_ints ms in
                       if same_lengths (map (fun q => Z.of_nat (length (bins_of ids q))) ranks) ls
                       then Some (R7 h ids ranks from data sent ls) else None
                   | _ => None
                   end).

Definition zsum (l : list Z) : Z := fold_right Z.add 0 l.

(** 589-604: the intervals of the bins. *)
Fixpoint intervals (bins counts : list Z) (at_ : Z) (m : smap Z (Z * Z)) : option (smap Z (Z * Z)) :=
  match bins, counts with
  | [], [] => Some m
  | b :: bins, c :: counts => intervals bins counts (at_ + c) (fst (map_insert Z.ltb m b (at_, at_ + c)))
  | _, _ => None
  end.

Definition make_rbins (ids : list (nat * Z)) (x : nat * (list (R * nat) * (list Z * list Z))) : option rbins :=
  let '(q, (data, (counts, ind))) := x in
  let! iv := intervals (bins_of ids q) counts 0 (mkM [] []) in
  Some (RBins data iv ind).

(** 531-606: the positions, and the result. *)
Definition rt_result : phase rst dmsg :=
  wait_all
    (fun _ s => match s with R7 _ _ ranks _ _ _ _ => ranks | _ => [] end)
    (fun _ s => match s with
                | R7 _ _ _ from _ sent _ => map (fun x => (fst x, MInts (snd (snd x)))) (combine from sent)
                | _ => []
                end)
    (fun _ s ms => match s with
                   | R7 h ids ranks from data _ nper =>
                       let! ls := omap get_ints ms in
                       if same_lengths (map zsum nper) ls then
                         let! rs := omap (make_rbins ids) (combine ranks (combine data (combine nper ls))) in
                         Some (RH h (fold_left (fun m x => fst (map_insert Nat.ltb m (fst x) (snd x)))
                                               (combine ranks rs) (mkM [] [])))
                       else None
                   | _ => None
                   end).

Definition dh_retrieve : list (phase rst dmsg) :=
  [Coll rt_handshake; rt_numbers; rt_bins; rt_region_numbers; rt_regions; Local rt_index_data;
   rt_bin_counts; rt_result].

(** DistributedRegionHash.hpp 68-77: the regions of a retrieved bin, with their ranks. *)
Definition retrieved (res : smap nat rbins) (q : nat) (b : Z) : option (list (R * nat)) :=
  let! x := map_at Nat.ltb res q in
  let! iv := map_at Z.ltb (rb_iv x) b in
  let! l := slice (rb_ind x) (fst iv) (snd iv - fst iv) in
  omap (vread (rb_data x)) l.

End DHash.
Arguments plan : clear implicits.
Arguments dhash : clear implicits.
Arguments dst : clear implicits.
Arguments dmsg : clear implicits.
Arguments rbins : clear implicits.
Arguments rst : clear implicits.
