(** Importing XINTOUT files: how reading, matching, distributing and making connectivities follow each other, src/extras/XINTOUT.cpp 221-292 (ImportXINTOUT).

    The four steps are those of XinModel, MatModel, DistModel and ImpModel. [L] is what has been read, [hd i k] ([hr i k]) the rank that has read part [k] of the donors (receivers)
    of grid i + 1, [gr i] the ranks of the grid in the order of its communicator, [G] their number. A rank that has no part has an empty one; that a rank has at most one part of a grid
    is not used. Steps of different grids are on different communicators and in the same order on all ranks (1904-1912). *)
From Coq Require Import List ZArith Bool.
From Verif Require Import TupleModel RangeModel CartModel HashModel NetModel XinModel XinSpec MatModel MatSpec DistModel ImpModel.
Import ListNotations.
Local Open Scope Z_scope.

Fixpoint rank_in (r : nat) (l : list nat) : option nat :=
  match l with [] => None | x :: t => if Nat.eqb x r then Some 0%nat else option_map S (rank_in r t) end.

(** LocalGridIDs with the numbers of points and receivers, 245-257 and the header of ReadGridInfo *)
Definition grids_on (gs : list grid_data) (gr : nat -> list nat) (r : nat) : list (Z * (Z * Z)) :=
  flat_map (fun i => match rank_in r (gr i) with Some _ => [(Z.of_nat i + 1, (points_of gs i, receivers_of gs i))] | None => [] end) (seq 0 (length gs)).

(** The parts of grid i + 1 that rank [r] has *)
Definition donor_parts (hd : nat -> nat -> nat) (L : list (list donor_chunk * list receiver_chunk)) (i r : nat) : list donor_chunk := held (hd i) r (fst (nth i L ([], []))).
Definition receiver_parts (hr : nat -> nat -> nat) (L : list (list donor_chunk * list receiver_chunk)) (i r : nat) : list receiver_chunk := held (hr i) r (snd (nth i L ([], []))).

(** What they are after MatchDonorsAndReceivers, 275: [out] are Destinations (Sources) *)
Definition donors_at hd L (out : list (list place)) (i r : nat) : list dval := combine (flat_map dc_data (donor_parts hd L i r)) (nth i out []).
Definition receivers_at hr L (out : list (list place)) (i r : nat) : list rval := combine (map v_point (flat_map rc_data (receiver_parts hr L i r))) (nth i out []).
Definition size_at hd L (i r : nat) : Z := fold_right Z.max 0 (map dc_max (donor_parts hd L i r)).

(** Rank [q] of grid i + 1 before DistributeConnectivityData, 1904-1912 *)
Definition dist_start hd hr L (gr : nat -> list nat) (own : nat -> nat -> range) (M : nat -> mst) (i q : nat) : xst :=
  let r := nth q (gr i) 0%nat in
  X0 (own i q) (size_at hd L i r) (donors_at hd L (sd_out (ms_m (M r))) i r) (receivers_at hr L (sd_out (ms_n (M r))) i r).

(** LocalDonors and LocalReceivers after it, 280-284 *)
Definition x_donors (s : xst) : list dval := match s with XDone _ ds _ => ds | _ => [] end.
Definition x_receivers (s : xst) : list rval := match s with XDone _ _ rs => rs | _ => [] end.
Definition locals_at (g : nat) (gr : nat -> list nat) (X : nat -> nat -> xst) (r : nat) : locals :=
  flat_map (fun i => match rank_in r (gr i) with Some q => [(Z.of_nat i + 1, (x_donors (X i q), x_receivers (X i q)))] | None => [] end) (seq 0 g).
