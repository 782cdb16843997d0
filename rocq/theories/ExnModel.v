(** Errors that are known to some ranks only: src/core/Exception.hpp 128-160 (captured_exception::Sync and Check), Error.hpp 33-157, CommunicationOps.cpp 20-35 (BroadcastString).

    An error is its code and the path it has (none for MPI_NOT_INITIALIZED: the empty list). Simplifications: length and characters of a path are one broadcast; a broadcast
    in which some ranks take part and others do not is None for those that do. *)
From Coq Require Import List ZArith Bool.
From Verif Require Import HashModel NetModel.
Import ListNotations.
Local Open Scope Z_scope.

Definition err : Type := (Z * list Z)%type.
(** Error.h 16-20, Error.hpp 23-29 *)
Definition MPI_NOT_INITIALIZED : Z := 1.
Definition FILE_OPEN : Z := 2.
Definition FILE_READ : Z := 3.
Definition FILE_WRITE : Z := 4.
(** The largest value of the type of codes, 133 *)
Definition max_code : Z := 4294967295.

(** CaptureFromCode, Error.hpp 135-150; otherwise an empty object, whose SyncAuxData is called *)
Definition from_code (c : Z) : option err :=
  if (c =? MPI_NOT_INITIALIZED) || (c =? FILE_OPEN) || (c =? FILE_READ) || (c =? FILE_WRITE) then Some (c, []) else None.
(** The errors that override SyncAuxData *)
Definition has_path (e : err) : bool := (fst e =? FILE_OPEN) || (fst e =? FILE_READ) || (fst e =? FILE_WRITE).

(** Exception_, CodeValue, LowestCodeValue, Root *)
Record est : Type := Est { x_err : option err; x_code : Z; x_low : Z; x_root : nat }.
Definition est0 (e : option err) : est := Est e 0 0 0.

(** 135-137 *)
Definition x_codes (_ : nat) (s : est) : option est :=
  let c := match x_err s with Some e => fst e | None => max_code end in Some (Est (x_err s) c c (x_root s)).
(** 138-139 *)
Definition x_lowest (ss : list est) (r : nat) : option est :=
  let! s := nth_error ss r in Some (Est (x_err s) (x_code s) (fold_right Z.min max_code (map x_low ss)) (x_root s)).
(** 141-148 *)
Definition x_capture (n r : nat) (s : est) : option est :=
  if x_low s =? max_code then Some s
  else let! e := (match x_err s with Some e => Some e | None => from_code (x_low s) end) in
       Some (Est (Some e) (x_code s) (x_low s) (if x_code s =? x_low s then r else n)).
(** 149 *)
Definition x_roots (n : nat) (ss : list est) (r : nat) : option est :=
  let! s := nth_error ss r in
  if x_low s =? max_code then Some s else Some (Est (x_err s) (x_code s) (x_low s) (fold_right Nat.min n (map x_root ss))).
(** 150, SyncAuxData *)
Definition takes_part (s : est) : bool := match x_err s with Some e => has_path e && negb (x_low s =? max_code) | None => false end.
Definition x_aux (ss : list est) (r : nat) : option est :=
  let! s := nth_error ss r in
  if takes_part s then
    if forallb takes_part ss then
      let! t := nth_error ss (x_root s) in
      let! e := x_err s in
      let! f := x_err t in
      Some (Est (Some (fst e, snd f)) (x_code s) (x_low s) (x_root s))
    else None
  else Some s.

(** Sync *)
Definition sync (n : nat) : list (phase est unit) := [Local x_codes; Coll x_lowest; Local (x_capture n); Coll (x_roots n); Coll x_aux].
