(** Detection of neighbouring ranks: model of CreateDecompHash and DetectNeighbors,
    src/core/Decomp.cpp 23-102. *)
From Coq Require Import List ZArith QArith Bool.
From Verif Require Import TupleModel RangeModel CartModel DecompModel ContModel HashModel.
From Verif Require Import ProtoModel ProtoSpec NetModel DHashModel LiftModel.
Import ListNotations.
Local Open Scope Z_scope.

Notation hst := (dst Z range range).
Notation qst := (rst Z range range).
Notation hmsg := (dmsg range).

(** Row-major order on elem<int,2> (elem_set), for (rank, bin). *)
Definition bin_less (a b : nat * Z) : bool :=
  pair_less (Z.of_nat (fst a), snd a) (Z.of_nat (fst b), snd b).

(** Decomp.cpp 31-60: the points around the local range, adjusted to the base period.  The
    array for them has ExtendedRange.Count()-LocalRange.Count() elements: None if the
    number of points is different (or PeriodicAdjust divides by zero). *)
Definition ring_points (c : cart) (loc : range) : option (list (tup Z)) :=
  let ext := extend_local_range c loc 1 in
  let pts := filter (fun p => negb (rcontains loc p)) (RangeModel.foreach_col ext) in
  if Z.of_nat (length pts) =? rcount ext - rcount loc
  then omap (periodic_adjust c) pts else None.

(** Local variables of the two functions. *)
Inductive nst : Type :=
| N0 (loc : range)
| NBuild (loc : range) (s : hst)
| NRetr (loc : range) (pts : list (tup Z)) (bids : list (nat * Z)) (s : qst)
| NDone (loc : range) (ranks : list nat).

Definition n_hash (s : nst) : option hst := match s with NBuild _ h => Some h | _ => None end.
Definition n_put_hash (s : nst) (h : hst) : nst := match s with NBuild l _ => NBuild l h | _ => s end.
Definition n_retr (s : nst) : option qst := match s with NRetr _ _ _ q => Some q | _ => None end.
Definition n_put_retr (s : nst) (q : qst) : nst := match s with NRetr l p b _ => NRetr l p b q | _ => s end.

(** 23-25: CreateDecompHash, a hash over the local ranges. *)
Definition nb_start (_ : nat) (s : nst) : option nst :=
  match s with N0 loc => Some (NBuild loc (D0 [loc])) | _ => None end.

(** 62-75: the bins of the points. *)
Definition nb_query (c : cart) (_ : nat) (s : nst) : option nst :=
  match s with
  | NBuild loc (DH h) =>
      let! pts := ring_points c loc in
      let! bids := omap (dh_map zcoords (c_nd c) h) pts in
      Some (NRetr loc pts bids (R0 h (fold_left (set_insert bin_less) bids [])))
  | _ => None
  end.

(** 81-98: the rank of the first region in the bin that contains the point. *)
Definition point_rank (res : smap nat (rbins range)) (x : tup Z * (nat * Z)) : option (list nat) :=
  let! l := retrieved res (fst (snd x)) (snd (snd x)) in
  Some (match find (fun y => rcontains (fst y) (fst x)) l with Some y => [snd y] | None => [] end).

(** 79-102 *)
Definition nb_finish (r : nat) (s : nst) : option nst :=
  match s with
  | NRetr loc pts bids (RH _ res) =>
      let! ranks := omap (point_rank res) (combine pts bids) in
      Some (NDone loc (set_erase Nat.ltb (fold_left (set_insert Nat.ltb) (concat ranks) []) r))
  | _ => None
  end.

Definition detect_neighbors (c : cart) (n : nat) (decomp : range -> Z -> tup Z)
    (ratio : tup Z -> list range -> option Z) : list (phase nst hmsg) :=
  [Local nb_start] ++
  lift n_hash n_put_hash (dh_build zcoords range_traits (c_nd c) n decomp ratio) ++
  [Local (nb_query c)] ++
  lift n_retr n_put_retr (dh_retrieve n) ++
  [Local nb_finish].
