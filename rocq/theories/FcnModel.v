(** Which fragments the processes send each other: model of src/core/AssemblerAssembly.cpp
    897-1038 (the processes and grids that may overlap) and 1048-1192, 1258-1286 (the fragments to send
    and to receive, and their ranges of cells), from the fragments every process found to
    overlap its points (816-893, FragModel).

    Simplifications: maps from grids to maps from grids to sets of ranks are sets of
    triples, visited in the same order; maps from pairs to sets of fragments are lists; the
    numbers of a message are one value, and so are the two arrays of a range; a message that
    has not the announced size is an error. *)
From Coq Require Import List ZArith Bool Arith.
From Verif Require Import TupleModel RangeModel ArrayModel ContModel HashModel ProtoSpec NetModel FtxModel.
Import ListNotations.
Local Open Scope nat_scope.

(** Sets in the order of their keys (Set.hpp, ElemSet.hpp; ElemOps: row-major order). *)
Definition klt {A} (key : A -> list Z) (a b : A) : bool := elem_less_r (key a) (key b).
Definition kset {A} (key : A -> list Z) (l : list A) : list A := fold_left (set_insert (klt key)) l [].

Definition zr (r : nat) : list Z := [Z.of_nat r].
Definition k2 (x : Z * nat) : list Z := [fst x; Z.of_nat (snd x)].
Definition k3 (x : Z * Z * nat) : list Z := [fst (fst x); snd (fst x); Z.of_nat (snd x)].
Definition kl (x : Z * Z) : list Z := [fst x; snd x].
Definition ke (e : ent) : list Z := [e_grid e; Z.of_nat (e_rank e); e_frag e].
Definition kz (x : Z) : list Z := [x].

Inductive cmsg : Type := CNum (k : nat) | CPairs (l : list (Z * Z)) | CFrags (l : list Z) | CRange (x : range).

(** [c_need]: OverlappingFragmentsForLocalNGrid, the grid N and a fragment of a grid M;
    [c_tri]: OverlappingMGridIDsAndRanksForLocalNGrid (N, M, rank); [c_mr], [c_nr]: RemoteMRanks,
    RemoteNRanks; [c_num], [c_in]: NumGridIDPairsFromRank, GridIDPairRecvData; [c_gs], [c_gr]: MGridSends,
    MGridRecvs; [c_fr], [c_fnum], [c_fs]: MGridFragmentsReceiving, NumMGridFragmentsSending,
    MGridFragmentsSending; [c_sends], [c_recvs], [c_locals]: FragmentSends, FragmentRecvs,
    FragmentLocals; [c_out]: the ranges of the fragments to send; [c_ranges]: RemoteFragmentRanges. *)
Record cst : Type := CS {
  c_need : list (Z * ent); c_tri : list (Z * Z * nat); c_mr : list nat; c_nr : list nat;
  c_num : list nat; c_in : list (list (Z * Z));
  c_gs : list (Z * nat); c_gr : list (Z * nat); c_fr : list (Z * nat * list Z);
  c_fnum : list nat; c_fs : list (Z * nat * list Z);
  c_sends : list ent; c_recvs : list ent; c_locals : list (Z * Z); c_out : list range; c_ranges : list (ent * range) }.

Definition cst0 (need : list (Z * ent)) : cst := CS need [] [] [] [] [] [] [] [] [] [] [] [] [] [] [].

Definition rank_is (q : nat) (x : Z * Z * nat) : bool := Nat.eqb (snd x) q.

(** 897-923. *)
Definition cn_build (r : nat) (s : cst) : option cst :=
  let tri := kset k3 (map (fun x => (fst x, e_grid (snd x), e_rank (snd x))) (c_need s)) in
  let mr := kset zr (filter (fun q => negb (Nat.eqb q r)) (map snd tri)) in
  Some (CS (c_need s) tri mr [] [] [] [] [] [] [] [] [] [] [] [] []).

(** 925. *)
Definition cn_hand (n : nat) (ss : list cst) (r : nat) : option cst :=
  let! s := nth_error ss r in
  Some (CS (c_need s) (c_tri s) (c_mr s) (named n (fun q => match nth_error ss q with Some x => c_mr x | None => [] end) r)
    [] [] [] [] [] [] [] [] [] [] [] []).

(** 927-958: a triple counts for its rank. *)
Definition num_sends (_ : nat) (s : cst) : list (nat * cmsg) :=
  map (fun q => (q, CNum (length (filter (rank_is q) (c_tri s))))) (c_mr s).
Definition num_of (m : cmsg) : option nat := match m with CNum k => Some k | _ => None end.
Definition num_done (_ : nat) (s : cst) (ms : list cmsg) : option cst :=
  let! ks := omap num_of ms in
  Some (CS (c_need s) (c_tri s) (c_mr s) (c_nr s) ks [] [] [] [] [] [] [] [] [] [] []).

(** 960-1004. *)
Definition pair_sends (_ : nat) (s : cst) : list (nat * cmsg) :=
  map (fun q => (q, CPairs (map (fun x => (snd (fst x), fst (fst x))) (filter (rank_is q) (c_tri s))))) (c_mr s).
Definition pairs_of (km : nat * cmsg) : option (list (Z * Z)) :=
  match snd km with CPairs l => if Nat.eqb (length l) (fst km) then Some l else None | _ => None end.
Definition pair_done (_ : nat) (s : cst) (ms : list cmsg) : option cst :=
  let! ls := omap pairs_of (combine (c_num s) ms) in
  Some (CS (c_need s) (c_tri s) (c_mr s) (c_nr s) (c_num s) ls [] [] [] [] [] [] [] [] [] []).

Section Fragments.
(** The local grids of each process, and the ranges of cells of its fragments
    (FragmentsForLocalGrid(MGridID)(FragmentID).CellRange). *)
Variables (local : nat -> list Z) (frange : nat -> Z -> Z -> option range).

Definition has_grid (r : nat) (g : Z) : bool := existsb (Z.eqb g) (local r).

(** 1006-1035: the grids N and ranks for the local grids M; a grid M that is not local is an
    element that is not in the map. *)
Definition m_side (r : nat) (s : cst) : list (Z * Z * nat) :=
  map (fun x => (snd (fst x), fst (fst x), snd x)) (filter (rank_is r) (c_tri s)) ++
  flat_map (fun ql => map (fun x => (fst x, snd x, fst ql)) (snd ql)) (combine (c_nr s) (c_in s)).
(** 1050-1093. *)
Definition frags_of (r : nat) (s : cst) (k : Z * nat) : list Z :=
  if Nat.eqb (snd k) r then []
  else kset kz (map (fun x => e_frag (snd x)) (filter (fun x => Z.eqb (e_grid (snd x)) (fst k) && Nat.eqb (e_rank (snd x)) (snd k)) (c_need s))).
Definition cn_sides (r : nat) (s : cst) : option cst :=
  let ms := kset k3 (m_side r s) in
  if forallb (fun x => has_grid r (fst (fst x))) ms then
    let gs := kset k2 (filter (fun k => negb (Nat.eqb (snd k) r)) (map (fun x => (fst (fst x), snd x)) ms)) in
    let gr := kset k2 (filter (fun k => negb (Nat.eqb (snd k) r)) (map (fun x => (snd (fst x), snd x)) (c_tri s))) in
    let keys := kset k2 (map (fun x => (e_grid (snd x), e_rank (snd x))) (c_need s)) in
    Some (CS (c_need s) (c_tri s) (c_mr s) (c_nr s) (c_num s) (c_in s) gs gr (map (fun k => (k, frags_of r s k)) keys)
            [] [] [] [] [] [] [])
  else None.

Definition k2_eqb (a b : Z * nat) : bool := Z.eqb (fst a) (fst b) && Nat.eqb (snd a) (snd b).
(** MGridFragmentsReceiving(pair): not there, an error. *)
Definition receiving (s : cst) (k : Z * nat) : option (list Z) :=
  option_map snd (find (fun x => k2_eqb (fst x) k) (c_fr s)).
Definition receiving_or (s : cst) (k : Z * nat) : list Z := match receiving s k with Some l => l | None => [] end.
(** 1095-1122; all the elements are there. *)
Definition cn_check (_ : nat) (s : cst) : option cst :=
  if forallb (fun k => match receiving s k with Some _ => true | None => false end) (c_gr s) then Some s else None.
Definition frag_recvs (_ : nat) (s : cst) : list nat := map snd (c_gs s).
Definition fnum_sends (_ : nat) (s : cst) : list (nat * cmsg) :=
  map (fun k => (snd k, CNum (length (receiving_or s k)))) (c_gr s).
Definition fnum_done (_ : nat) (s : cst) (ms : list cmsg) : option cst :=
  let! ks := omap num_of ms in
  Some (CS (c_need s) (c_tri s) (c_mr s) (c_nr s) (c_num s) (c_in s) (c_gs s) (c_gr s) (c_fr s) ks [] [] [] [] [] []).
(** 1124-1145. *)
Definition frag_sends (_ : nat) (s : cst) : list (nat * cmsg) :=
  map (fun k => (snd k, CFrags (receiving_or s k))) (c_gr s).
Definition frags_in (km : nat * cmsg) : option (list Z) :=
  match snd km with CFrags l => if Nat.eqb (length l) (fst km) then Some l else None | _ => None end.
Definition frag_done (_ : nat) (s : cst) (ms : list cmsg) : option cst :=
  let! ls := omap frags_in (combine (c_fnum s) ms) in
  Some (CS (c_need s) (c_tri s) (c_mr s) (c_nr s) (c_num s) (c_in s) (c_gs s) (c_gr s) (c_fr s) (c_fnum s)
          (combine (c_gs s) ls) [] [] [] [] []).

(** 1147-1192, and the ranges of the fragments to send (1226-1256, 1274). *)
Definition ents (l : list (Z * nat * list Z)) : list ent :=
  flat_map (fun x => map (mkE (fst (fst x)) (snd (fst x))) (snd x)) l.
Definition cn_lists (r : nat) (s : cst) : option cst :=
  let sends := kset ke (ents (c_fs s)) in
  let recvs := kset ke (ents (c_fr s)) in
  let locals := kset kl (map (fun x => (e_grid (snd x), e_frag (snd x))) (filter (fun x => Nat.eqb (e_rank (snd x)) r) (c_need s))) in
  let! out := omap (fun e => frange r (e_grid e) (e_frag e)) sends in
  let! _ := omap (fun x => frange r (fst x) (snd x)) locals in
  Some (CS (c_need s) (c_tri s) (c_mr s) (c_nr s) (c_num s) (c_in s) (c_gs s) (c_gr s) (c_fr s) (c_fnum s) (c_fs s)
          sends recvs locals out []).

(** 1258-1286. *)
Definition range_recvs (_ : nat) (s : cst) : list nat := map e_rank (c_recvs s).
Definition range_sends (_ : nat) (s : cst) : list (nat * cmsg) :=
  map (fun x => (e_rank (fst x), CRange (snd x))) (combine (c_sends s) (c_out s)).
Definition range_of (m : cmsg) : option range := match m with CRange x => Some x | _ => None end.
Definition range_done (_ : nat) (s : cst) (ms : list cmsg) : option cst :=
  let! xs := omap range_of ms in
  Some (CS (c_need s) (c_tri s) (c_mr s) (c_nr s) (c_num s) (c_in s) (c_gs s) (c_gr s) (c_fr s) (c_fnum s) (c_fs s)
          (c_sends s) (c_recvs s) (c_locals s) (c_out s) (combine (c_recvs s) xs)).

Definition connect (n : nat) : list (phase cst cmsg) :=
  [Local cn_build; Coll (cn_hand n);
   wait_all (fun _ s => c_nr s) num_sends num_done;
   wait_all (fun _ s => c_nr s) pair_sends pair_done;
   Local cn_sides; Local cn_check;
   wait_all frag_recvs fnum_sends fnum_done;
   wait_all frag_recvs frag_sends frag_done;
   Local cn_lists;
   wait_all range_recvs range_sends range_done].

End Fragments.
