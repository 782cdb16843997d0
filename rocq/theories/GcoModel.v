(** Geometry and state components: model of src/core/GeometryComponent.cpp 60-99 (grid events), 101-173 (SyncEdits_), 186-317 (CreateGeometry, CreateGeometries),
    319-444 (DestroyGeometry, DestroyGeometries), 446-497 (ClearGeometries), 607-618 (edit flags), on all ranks of the domain's communicator.

    src/core/StateComponent.cpp is the same code with other names, without the infos of the records.  Every call is collective, so the ranks are advanced call by
    call; records, local data with edit flags, and what listeners have been told are kept per rank.  Simplifications: maps are their entries in the order of
    their keys (C17); the contents of geometries are left out (C97), and so are logging and barriers; the single calls are the plural ones with one ID.
    With [debug], assertions are checked.  None is a failed assertion or an access outside of a container. *)
From Coq Require Import List ZArith NArith Bool.
From Verif Require Import DomainModel.
Import ListNotations.
Local Open Scope Z_scope.

Definition GCREATE : N := 1.
Definition GDESTROY : N := 2.

(** GeometryRecords_, Locals_ with their EventFlags, and what listeners have been told: ID, flags, LastInSequence *)
Record crank : Type := CR { cr_recs : list Z; cr_loc : list (Z * N); cr_log : list (Z * N * bool) }.
(** The grids of the domain with the ranks they are local to; the ranks *)
Record cdom : Type := CD { cd_grids : list (Z * (nat -> bool)); cd_ranks : list crank }.
Definition cdom0 (n : nat) : cdom := CD [] (repeat (CR [] [] []) n).

Definition memz (g : Z) (l : list Z) : bool := existsb (Z.eqb g) l.
(** Insertion into a set or map ordered by keys, without effect if present *)
Definition insz (g : Z) (l : list Z) : list Z := filter (fun x => Z.ltb x g) l ++ [g] ++ filter (fun x => Z.ltb g x) l.
Definition erasez (g : Z) (l : list Z) : list Z := filter (fun x => negb (Z.eqb x g)) l.
Definition inse (e : Z * N) (l : list (Z * N)) : list (Z * N) := filter (fun x => Z.ltb (fst x) (fst e)) l ++ [e] ++ filter (fun x => Z.ltb (fst e) (fst x)) l.
Definition erasee (g : Z) (l : list (Z * N)) : list (Z * N) := filter (fun x => negb (Z.eqb (fst x) g)) l.

(** 131-137: GridIDsToIndex *)
Fixpoint index_of (g : Z) (l : list Z) : option nat :=
  match l with [] => None | x :: l => if Z.eqb x g then Some O else let? i := index_of g l in Some (S i) end.

(** 117-124 *)
Definition cr_edited (k : crank) : bool := existsb (fun e => nonzero (snd e)) (cr_loc k).
(** 139-146 *)
Definition cr_flags (k : crank) : option (list N) :=
  ofold (fun a e => let? i := index_of (fst e) (cr_recs k) in or_at a i (snd e)) (cr_loc k) (repeat 0%N (length (cr_recs k))).
(** 151-164: the events, in the order of the IDs *)
Definition cr_trigger (all : list N) (k : crank) : option crank :=
  let num := Z.of_nat (length (filter nonzero all)) in
  let? s := ofold (fun (s : list (Z * N * bool) * Z) g =>
                     let? i := index_of g (cr_recs k) in
                     let? f := nth_error all i in
                     Some (if nonzero f then (fst s ++ [(g, f, Z.eqb (snd s) (num - 1))], snd s + 1) else s)) (cr_recs k) (cr_log k, 0) in
  Some (CR (cr_recs k) (cr_loc k) (fst s)).
(** 168-171 *)
Definition cr_reset (k : crank) : crank := CR (cr_recs k) (map (fun e => (fst e, 0%N)) (cr_loc k)) (cr_log k).

(** 113-173: SyncEdits_ *)
Definition csync (ks : list crank) : option (list crank) :=
  if existsb cr_edited ks then
    let? arrays := on_ranks (fun _ k => cr_flags k) 0 ks in
    let? all := allreduce_bor arrays in
    on_ranks (fun _ k => let? k' := cr_trigger all k in Some (cr_reset k')) 0 ks
  else Some ks.

(** 310-313, 403-406, 480-484: one event for each ID, with the number of the ID in the list *)
Definition ctell (flag : N) (ids : list Z) (k : crank) : crank :=
  CR (cr_recs k) (cr_loc k) (fst (fold_left (fun (s : list (Z * N * bool) * Z) g => (fst s ++ [(g, flag, Z.eqb (snd s) (Z.of_nat (length ids) - 1))], snd s + 1)) ids (cr_log k, 0))).

Section Ops.
Variable debug : bool.

Definition here (c : cdom) (g : Z) (r : nat) : option bool :=
  match find (fun x => Z.eqb (fst x) g) (cd_grids c) with Some x => Some (snd x r) | None => None end.
Definition is_grid (c : cdom) (g : Z) : bool := memz g (map fst (cd_grids c)).

(** 236-317: CreateGeometries.  273-286: Locals_ of local grids; 288-296: the records; 310-313: the events *)
Definition ccreate (c : cdom) (ids : list Z) : option cdom :=
  if debug && negb (forallb (fun g => (0 <=? g) && is_grid c g && negb (existsb (fun k => memz g (cr_recs k)) (cd_ranks c))) ids) then None else
  let? ks := csync (cd_ranks c) in
  let? ks := on_ranks (fun r k =>
    let? loc := ofold (fun l g => let? b := here c g r in Some (if b : bool then inse (g, 0%N) l else l)) ids (cr_loc k) in
    Some (ctell GCREATE ids (CR (fold_left (fun l g => insz g l) ids (cr_recs k)) loc (cr_log k)))) 0 ks in
  Some (CD (cd_grids c) ks).

Definition cerase (ids : list Z) (k : crank) : crank :=
  CR (fold_left (fun l g => erasez g l) ids (cr_recs k)) (fold_left (fun l g => erasee g l) ids (cr_loc k)) (cr_log k).
(** 366-444: DestroyGeometries *)
Definition cdestroy (c : cdom) (ids : list Z) : option cdom :=
  if debug && negb (forallb (fun g => (0 <=? g) && is_grid c g && forallb (fun k => memz g (cr_recs k)) (cd_ranks c)) ids) then None else
  let? ks := csync (cd_ranks c) in
  Some (CD (cd_grids c) (map (fun k => cerase ids (ctell GDESTROY ids k)) ks)).

(** 446-497: ClearGeometries; every rank goes through its own records. *)
Definition cclear (c : cdom) : option cdom :=
  let? ks := csync (cd_ranks c) in
  Some (CD (cd_grids c) (map (fun k => CR [] [] (cr_log (ctell GDESTROY (cr_recs k) k))) ks)).

(** 77-99: the last grid event of a call; the dying grids are a set.  Domain.cpp: events come after creation, but before destruction. *)
Definition cgrids (c : cdom) (l : list (Z * (nat -> bool))) : option cdom :=
  cdestroy (CD (cd_grids c ++ l) (cd_ranks c)) [].
Definition cdying (c : cdom) (ids : list Z) : option cdom :=
  let? c := cdestroy c (fold_left (fun l g => insz g l) ids []) in
  Some (CD (filter (fun x => negb (memz (fst x) ids)) (cd_grids c)) (cd_ranks c)).

(** 607-618: an edit of a local geometry *)
Definition cedit (c : cdom) (r : nat) (g : Z) (f : N) : option cdom :=
  let? k := nth_error (cd_ranks c) r in
  if existsb (fun e => Z.eqb (fst e) g) (cr_loc k)
  then Some (CD (cd_grids c) (firstn r (cd_ranks c) ++ CR (cr_recs k) (map (fun e => if Z.eqb (fst e) g then (fst e, N.lor (snd e) f) else e) (cr_loc k)) (cr_log k) :: skipn (S r) (cd_ranks c)))
  else None.

Inductive cop : Type :=
  | NewGrids (l : list (Z * (nat -> bool))) | DropGrids (ids : list Z)
  | Make (ids : list Z) | Drop (ids : list Z) | DropAll | Edit (r : nat) (g : Z) (f : N) | Sync.
Definition cstep (c : cdom) (o : cop) : option cdom :=
  match o with
  | NewGrids l => cgrids c l
  | DropGrids ids => cdying c ids
  | Make ids => ccreate c ids
  | Drop ids => cdestroy c ids
  | DropAll => cclear c
  | Edit r g f => cedit c r g f
  | Sync => let? ks := csync (cd_ranks c) in Some (CD (cd_grids c) ks)
  end.
Definition crun (n : nat) (h : list cop) : option cdom := ofold cstep h (cdom0 n).
End Ops.
