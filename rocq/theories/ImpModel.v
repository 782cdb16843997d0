(** Donors and receivers of XINTOUT files become connectivities: src/extras/XINTOUT.cpp 2413-2650 (ImportConnectivityData, ImportDonors, ImportReceivers).

    The grids of a domain read from files have the IDs 1, 2, ... [g] is their number, [nd] NumDims. A donor is as in DistModel, its place the destination; a receiver too, its
    place the source. Simplifications: CreateConnectivities is the list of IDs given to it (the component itself is not modelled, only that a rank edits connectivities
    in that list); the map from grid IDs to positions is a search; the arrays of a connectivity are one list of cells or points. An index outside of an array is None. *)
From Coq Require Import List ZArith Bool.
From Verif Require Import TupleModel RangeModel ContModel HashModel NetModel XinModel MatModel DistModel.
Import ListNotations.
Local Open Scope Z_scope.

(** The grid of its place. *)
Definition gid {A} (v : A * place) : Z := fst (snd v).

(** MaxStencilSize and the donors of a connectivity_m; the points and sources of a connectivity_n *)
Record conn_m : Type := ConnM { cm_max : Z; cm_cells : list dval }.
Definition conn_n : Type := list rval.

(** Local grids: ID, donors and receivers. *)
Definition locals : Type := list (Z * (list dval * list rval)).
(** Its connectivities to and from other grids *)
Definition imported : Type := (list (Z * conn_m) * list (Z * conn_n))%type.
Inductive ist : Type :=
| I0 (l : locals)
| ICnt (l : locals) (nums : list Z)
| IDone (ids : list (Z * Z)) (out : list (Z * imported)).

(** 2433: NumConnections, with all elements 0, one row after another *)
Definition at_pair (g : nat) (i j : Z) : option nat :=
  if (0 <=? i) && (i <? Z.of_nat g) && (0 <=? j) && (j <? Z.of_nat g) then Some (Z.to_nat i * g + Z.to_nat j)%nat else None.
Definition set_at {A} (l : list A) (k : nat) (x : A) : option (list A) := if (k <? length l)%nat then Some (firstn k l ++ x :: skipn (S k) l) else None.
Definition bump (nums : list Z) (k : nat) : option (list Z) := let! x := nth_error nums k in set_at nums k (x + 1).

(** 2435-2441 *)
Definition count_one (g : nat) (id : Z) (nums : list Z) (v : rval) : option (list Z) := let! k := at_pair g (gid v - 1) (id - 1) in bump nums k.
Definition im_count (g : nat) (_ : nat) (s : ist) : option ist :=
  match s with
  | I0 l => let! nums := ofoldl (fun nums x => ofoldl (count_one g (fst x)) (snd (snd x)) nums) l (repeat 0 (g * g)) in Some (ICnt l nums)
  | _ => None
  end.

(** 2443-2444: MPI_Allreduce *)
Definition nums_of (s : ist) : list Z := match s with ICnt _ nums => nums | _ => [] end.
Definition add_up (a b : list Z) : list Z := map (fun x => fst x + snd x) (combine a b).
Definition im_sum (g : nat) (ss : list ist) (r : nat) : option ist :=
  let! s := nth_error ss r in
  match s with ICnt l _ => Some (ICnt l (fold_left add_up (map nums_of ss) (repeat 0 (g * g)))) | _ => None end.

(** NumConnections(i,j) > 0 *)
Definition some_at (g : nat) (nums : list Z) (i j : nat) : bool := 0 <? nth (i * g + j) nums 0.
(** 2449-2459 *)
Definition conn_ids (g : nat) (nums : list Z) : list (Z * Z) :=
  flat_map (fun i => map (fun j => (Z.of_nat i + 1, Z.of_nat j + 1)) (filter (some_at g nums i) (seq 0 g))) (seq 0 g).

(** DestinationGridIDToIndex *)
Fixpoint position (x : Z) (l : list Z) : option nat :=
  match l with [] => None | y :: t => if y =? x then Some 0%nat else let! k := position x t in Some (S k) end.

(** 2530-2541: Counts and MaxSizes *)
Definition sizes_of (v : dval) : list Z := map (cell_size (extents v)) (seq 0 3).
Definition count_donor (dests : list Z) (a : list (Z * Z)) (v : dval) : option (list (Z * Z)) :=
  let! k := position (gid v) dests in
  let! x := nth_error a k in
  set_at a k (fst x + 1, fold_left Z.max (sizes_of v) (snd x)).

(** ConnectivityM.cpp 99-155: Resize; the bits of 1.0 *)
Definition one_bits : Z := 4607182418800017408.
Definition blank_coefs (nd : nat) (max : Z) (d : nat) : list Z := if (d <? nd)%nat then repeat 0 (Z.to_nat max) else one_bits :: repeat 0 (Z.to_nat (max - 1)).
Definition blank (nd : nat) (max : Z) : dval := (DonorEntry (T3 0 0 0) (T3 0 1 1) (T3 0 0 0) (tmake (blank_coefs nd max)), (0, T3 0 0 0)).
(** 2569-2598: a donor written over it *)
Definition over_coefs (size : Z) (new old : list Z) : option (list Z) :=
  if (Z.of_nat (length new) <? size) || (Z.of_nat (length old) <? size) then None else Some (firstn (Z.to_nat size) new ++ skipn (Z.to_nat size) old).
Definition over (v old : dval) : option dval :=
  let f d := over_coefs (cell_size (extents v) d) (tget (e_coefs (fst v)) d) (tget (e_coefs (fst old)) d) in
  let! a := f 0%nat in let! b := f 1%nat in let! c := f 2%nat in
  Some (DonorEntry (e_begin (fst v)) (e_end (fst v)) (e_coords (fst v)) (T3 a b c), (fst (snd old), snd (snd v))).
Definition fill_donor (dests : list Z) (a : list (nat * list dval)) (v : dval) : option (list (nat * list dval)) :=
  let! k := position (gid v) dests in
  let! x := nth_error a k in
  let! old := nth_error (snd x) (fst x) in
  let! new := over v old in
  let! l := set_at (snd x) (fst x) new in
  set_at a k (S (fst x), l).

(** 2511-2600: ImportDonors. The destination grid of a connectivity is known: it is put into the cells. *)
Definition import_donors (nd : nat) (dests : list Z) (ds : list dval) : option (list (Z * conn_m)) :=
  if (length dests =? 0)%nat then Some []
  else
    let! a := ofoldl (count_donor dests) ds (map (fun _ => (0, 1)) dests) in
    let! b := ofoldl (fill_donor dests) ds
      (map (fun x => (0%nat, repeat (fst (blank nd (snd (snd x))), (fst x, T3 0 0 0)) (Z.to_nat (fst (snd x))))) (combine dests a)) in
    Some (map (fun x => (fst (fst x), ConnM (snd (snd (fst x))) (snd (snd x)))) (combine (combine dests a) b)).

(** 2602-2650: ImportReceivers *)
Definition count_receiver (srcs : list Z) (a : list Z) (v : rval) : option (list Z) := let! k := position (gid v) srcs in bump a k.
Definition fill_receiver (srcs : list Z) (a : list (nat * list rval)) (v : rval) : option (list (nat * list rval)) :=
  let! k := position (gid v) srcs in
  let! x := nth_error a k in
  let! old := nth_error (snd x) (fst x) in
  let! l := set_at (snd x) (fst x) (fst v, (fst (snd old), snd (snd v))) in
  set_at a k (S (fst x), l).
Definition import_receivers (srcs : list Z) (rs : list rval) : option (list (Z * conn_n)) :=
  if (length srcs =? 0)%nat then Some []
  else
    let! a := ofoldl (count_receiver srcs) rs (map (fun _ => 0) srcs) in
    let! b := ofoldl (fill_receiver srcs) rs (map (fun x => (0%nat, repeat (T3 0 0 0, (fst x, T3 0 0 0)) (Z.to_nat (snd x)))) (combine srcs a)) in
    Some (map (fun x => (fst x, snd (snd x))) (combine srcs b)).

(** 2463-2502 *)
Definition im_fill (nd g : nat) (_ : nat) (s : ist) : option ist :=
  match s with
  | ICnt l nums =>
      let! out := omap (fun x : Z * (list dval * list rval) =>
        let! _ := at_pair g (fst x - 1) 0 in
        let i := Z.to_nat (fst x - 1) in
        let dests := map (fun j => Z.of_nat j + 1) (filter (fun j => some_at g nums i j) (seq 0 g)) in
        let srcs := map (fun j => Z.of_nat j + 1) (filter (fun j => some_at g nums j i) (seq 0 g)) in
        let! ms := import_donors nd dests (fst (snd x)) in
        let! ns := import_receivers srcs (snd (snd x)) in
        Some (fst x, (ms, ns))) l in
      Some (IDone (conn_ids g nums) out)
  | _ => None
  end.

(** ImportConnectivityData *)
Definition import_all (nd g : nat) : list (phase ist unit) := [Local (im_count g); Coll (im_sum g); Local (im_fill nd g)].
