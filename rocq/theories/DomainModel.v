(** Model of src/core/Domain.cpp (grid creation, destruction and events) and of
    src/core/OverlapComponent.cpp (overlap records, their events and their reaction to grid
    events), on all ranks of the domain's communicator.

    src/core/ConnectivityComponent.cpp is the same code with other names (the two files differ,
    after renaming, only in line breaks and in one overload of Insert).

    Every call is collective, so the ranks are advanced call by call; the state the ranks hold
    separately (the records, the local halves with their edit flags, and what the listeners have
    been told) is kept per rank.  The domain's own records and the accumulated grid event flags
    receive the same arguments on every rank and are kept once.  The contents of grids and
    overlaps are not represented here; listeners are observers that record what they are told.
    None is undefined behaviour (an access outside a container) or an MPI error. *)
From Coq Require Import List ZArith NArith Bool.
From Verif Require Import ContModel.
Import ListNotations.

Notation "'let?' x := e 'in' r" := (match e with Some x => r | None => None end)
  (at level 200, x name, e at level 100, r at level 200).

Fixpoint ofold {S A} (f : S -> A -> option S) (l : list A) (s : S) : option S :=
  match l with [] => Some s | a :: r => let? s' := f s a in ofold f r s' end.
(** Apply [f] on every rank, [i] being the number of the first rank of the list. *)
Fixpoint on_ranks {A B} (f : nat -> A -> option B) (i : nat) (l : list A) : option (list B) :=
  match l with
  | [] => Some []
  | a :: r => let? b := f i a in let? bs := on_ranks f (S i) r in Some (b :: bs)
  end.

Notation oid := (Z * Z)%type.

(** Domain.h 15-22 and OverlapComponent.h 15-44: event flags. *)
Definition GRID_CREATE : N := 1.
Definition GRID_DESTROY : N := 2.
Definition OVERLAP_CREATE : N := 1.
Definition OVERLAP_DESTROY : N := 2.

(** An event as a listener sees it: subject, flags, LastInSequence.  For grid events also whether
    the grid exists when the listener is called. *)
Definition oevent := (oid * N * bool)%type.
Definition gevent := (Z * N * bool * bool)%type.

(** One rank's part of the component: OverlapRecords_, the event flags of LocalMs_ and LocalNs_,
    and what the listeners of OverlapEvent_ have been told. *)
Record rank_state := mkRank {
  r_recs : smap oid unit;
  r_ms : smap oid N;
  r_ns : smap oid N;
  r_log : list oevent }.
Definition rank_init : rank_state := mkRank map_empty map_empty map_empty [].

(** The domain: GridRecords_ (with the ranks each grid is local to), what the listeners of
    GridEvent_ have been told, GridEventFlags_ of the component, the ranks. *)
Record dom := mkDom {
  d_grids : smap Z (nat -> bool);
  d_glog : list gevent;
  d_gflags : smap Z N;
  d_ranks : list rank_state }.
Definition dom_init (n : nat) : dom := mkDom map_empty [] map_empty (repeat rank_init n).

Definition set_ranks (c : dom) (rs : list rank_state) : dom :=
  mkDom (d_grids c) (d_glog c) (d_gflags c) rs.
Definition tell (rs : rank_state) (e : oevent) : rank_state :=
  mkRank (r_recs rs) (r_ms rs) (r_ns rs) (r_log rs ++ [e]).

(** OverlapComponent.cpp 126-142: HasEdits on one rank. *)
Definition nonzero (f : N) : bool := negb (N.eqb f 0).
Definition has_edits (rs : rank_state) : bool :=
  existsb (fun e => nonzero (snd e)) (m_entries (r_ms rs)) ||
  existsb (fun e => nonzero (snd e)) (m_entries (r_ns rs)).

(** 149-155: GridIDsToIndex. *)
Definition index_map (keys : list oid) : smap oid nat :=
  fst (fold_left (fun mi k => (fst (map_insert pair_less (fst mi) k (snd mi)), S (snd mi)))
         keys (map_empty, 0)).

(** 157-170: the rank's AllOverlapEventFlags before the reduction. *)
Definition or_at (a : list N) (i : nat) (f : N) : option (list N) :=
  match nth_error a i with
  | Some x => Some (replace_at a i (N.lor x f))
  | None => None
  end.
Definition accumulate (idx : smap oid nat) (entries : list (oid * N)) (a : list N)
  : option (list N) :=
  ofold (fun a e => let? i := map_at pair_less idx (fst e) in or_at a i (snd e)) entries a.
Definition rank_flags (rs : rank_state) : option (list N) :=
  let idx := index_map (m_keys (r_recs rs)) in
  let? a := accumulate idx (m_entries (r_ms rs)) (repeat 0%N (length (m_keys (r_recs rs)))) in
  accumulate idx (m_entries (r_ns rs)) a.

(** 172-173: MPI_Allreduce with MPI_BOR; the counts must agree. *)
Fixpoint bor2 (a b : list N) : option (list N) :=
  match a, b with
  | [], [] => Some []
  | x :: a', y :: b' => let? r := bor2 a' b' in Some (N.lor x y :: r)
  | _, _ => None
  end.
Definition allreduce_bor (l : list (list N)) : option (list N) :=
  match l with [] => Some [] | a :: r => ofold bor2 r a end.

(** 175-185: NumTriggers and the loop that triggers. *)
Definition num_triggers (all : list N) : Z := Z.of_nat (length (filter nonzero all)).
Definition trigger_step (idx : smap oid nat) (all : list N) (s : rank_state * Z) (k : oid)
  : option (rank_state * Z) :=
  let? i := map_at pair_less idx k in
  let? f := nth_error all i in
  if nonzero f then
    let n := (snd s - 1)%Z in Some (tell (fst s) (k, f, Z.eqb n 0), n)
  else Some s.
Definition trigger_edits (all : list N) (rs : rank_state) : option rank_state :=
  let? s := ofold (trigger_step (index_map (m_keys (r_recs rs))) all) (m_keys (r_recs rs))
              (rs, num_triggers all) in
  Some (fst s).

(** 189-197: the local flags are cleared. *)
Definition clear_flags (m : smap oid N) : smap oid N :=
  mkM (m_keys m) (map (fun e => (fst e, 0%N)) (m_entries m)).
Definition clear_edits (rs : rank_state) : rank_state :=
  mkRank (r_recs rs) (clear_flags (r_ms rs)) (clear_flags (r_ns rs)) (r_log rs).

(** 122-199: SyncEdits_. *)
Definition sync_ranks (ranks : list rank_state) : option (list rank_state) :=
  if existsb has_edits ranks then
    let? arrays := on_ranks (fun _ rs => rank_flags rs) 0 ranks in
    let? all := allreduce_bor arrays in
    on_ranks (fun _ rs => let? rs' := trigger_edits all rs in Some (clear_edits rs')) 0 ranks
  else Some ranks.

(** The loops "int NumRemaining = …; for (ID : IDs) Trigger(ID, Flag, --NumRemaining == 0)" of
    CreateOverlaps (348-351) and DestroyOverlaps (459-462). *)
Definition tell_all (flag : N) (ids : list oid) (rs : rank_state) : rank_state :=
  fst (fold_left (fun s k => let n := (snd s - 1)%Z in (tell (fst s) (k, flag, Z.eqb n 0), n))
         ids (rs, Z.of_nat (length ids))).

(** grid_info::IsLocal on rank [r]; None when there is no such grid. *)
Definition grid_local (c : dom) (g : Z) (r : nat) : option bool :=
  if map_contains Z.ltb (d_grids c) g then
    let? f := map_at Z.ltb (d_grids c) g in Some (f r)
  else None.

(** 236-246, 311-327: the local halves of a new overlap. *)
Definition create_local (c : dom) (r : nat) (rs : rank_state) (k : oid) : option rank_state :=
  let? lm := grid_local c (fst k) r in
  let? ln := grid_local c (snd k) r in
  Some (mkRank (r_recs rs)
          (if lm then fst (map_insert pair_less (r_ms rs) k 0%N) else r_ms rs)
          (if ln then fst (map_insert pair_less (r_ns rs) k 0%N) else r_ns rs)
          (r_log rs)).
Definition add_record (rs : rank_state) (k : oid) : rank_state :=
  mkRank (fst (map_insert pair_less (r_recs rs) k tt)) (r_ms rs) (r_ns rs) (r_log rs).

(** 218-270: CreateOverlap, and 272-356: CreateOverlaps. *)
Definition create_overlap (c : dom) (k : oid) : option dom :=
  let? rs := sync_ranks (d_ranks c) in
  let? rs := on_ranks (fun r s => let? s' := create_local c r s k in
                                  Some (tell (add_record s' k) (k, OVERLAP_CREATE, true))) 0 rs in
  Some (set_ranks c rs).
Definition create_overlaps (c : dom) (ids : list oid) : option dom :=
  let? rs := sync_ranks (d_ranks c) in
  let? rs := on_ranks (fun r s => let? s' := ofold (create_local c r) ids s in
                                  Some (tell_all OVERLAP_CREATE ids (fold_left add_record ids s')))
               0 rs in
  Some (set_ranks c rs).

Definition erase_local (rs : rank_state) (k : oid) : rank_state :=
  mkRank (r_recs rs) (map_erase pair_less (r_ms rs) k) (map_erase pair_less (r_ns rs) k) (r_log rs).
Definition erase_record (rs : rank_state) (k : oid) : rank_state :=
  mkRank (map_erase pair_less (r_recs rs) k) (r_ms rs) (r_ns rs) (r_log rs).

(** 358-413: DestroyOverlap. *)
Definition destroy_overlap (c : dom) (k : oid) : option dom :=
  let? rs := sync_ranks (d_ranks c) in
  Some (set_ranks c (map (fun s => erase_record (erase_local (tell s (k, OVERLAP_DESTROY, true)) k) k)
                       rs)).

(** 415-506: DestroyOverlaps on a list of IDs that the component does not own; each rank passes
    its own list. *)
Definition destroy_on (ids : list oid) (rs : rank_state) : rank_state :=
  fold_left erase_record ids (fold_left erase_local ids (tell_all OVERLAP_DESTROY ids rs)).
Definition destroy_overlaps (c : dom) (ids_of : rank_state -> list oid) : option dom :=
  let? rs := sync_ranks (d_ranks c) in
  Some (set_ranks c (map (fun s => destroy_on (ids_of s) s) rs)).

(** 508-512: ClearOverlaps calls DestroyOverlaps on a view of the array of keys that the last loop
    erases from: position [i] of the view is read after [i] erasures. *)
Fixpoint erase_viewed (n i : nat) (rs : rank_state) : option rank_state :=
  match n with
  | O => Some rs
  | S n' => let? k := nth_error (m_keys (r_recs rs)) i in erase_viewed n' (S i) (erase_record rs k)
  end.
Definition clear_on (rs : rank_state) : option rank_state :=
  let ids := m_keys (r_recs rs) in
  erase_viewed (length ids) 0 (fold_left erase_local ids (tell_all OVERLAP_DESTROY ids rs)).
Definition clear_overlaps (c : dom) : option dom :=
  let? rs := sync_ranks (d_ranks c) in
  let? rs := on_ranks (fun _ s => clear_on s) 0 rs in
  Some (set_ranks c rs).

(** The same loop on an implementation whose reads beyond the end return the bytes the erasures
    left there: [mem] is the storage, of which the first [cnt] elements are the keys; erasing
    moves the later keys down and leaves the tail as it was. *)
Definition erase_stale (mem : list oid) (cnt : nat) (k : oid) : list oid * nat :=
  let keys := firstn cnt mem in
  let n := set_lower pair_less keys k in
  match nth_error keys n with
  | Some x => if pair_less k x then (mem, cnt)
              else (firstn n mem ++ skipn (S n) keys ++ skipn (pred cnt) mem, pred cnt)
  | None => (mem, cnt)
  end.
Fixpoint erase_viewed_stale (n i : nat) (mem : list oid) (cnt : nat) : list oid :=
  match n with
  | O => firstn cnt mem
  | S n' => match nth_error mem i with
            | Some k => let mc := erase_stale mem cnt k in erase_viewed_stale n' (S i) (fst mc) (snd mc)
            | None => firstn cnt mem
            end
  end.

(** 88-113: DestroyOverlapsForDyingGrids_. *)
Definition dying_grids (flags : smap Z N) : list Z :=
  fold_left (fun s e => if nonzero (N.land (snd e) GRID_DESTROY) then set_insert Z.ltb s (fst e) else s)
    (m_entries flags) [].
Definition dying_overlaps (dying : list Z) (rs : rank_state) : list oid :=
  fold_left (fun s k => if set_contains Z.ltb dying (fst k) || set_contains Z.ltb dying (snd k)
                        then set_insert pair_less s k else s)
    (m_keys (r_recs rs)) [].

(** 80-86: OnGridEvent_. *)
Definition on_grid_event (c : dom) : option dom :=
  let? c := destroy_overlaps c (dying_overlaps (dying_grids (d_gflags c))) in
  Some (mkDom (d_grids c) (d_glog c) map_empty (d_ranks c)).

(** GridEvent_.Trigger: the observers and the component's listener (OverlapComponent.cpp 63-72). *)
Definition grid_trigger (c : dom) (g : Z) (flag : N) (last : bool) : option dom :=
  let log := d_glog c ++ [(g, flag, last, map_contains Z.ltb (d_grids c) g)] in
  let mf := map_fetch Z.ltb (d_gflags c) g 0%N in
  let? old := option_map snd (nth_error (m_entries (fst mf)) (snd mf)) in
  let c := mkDom (d_grids c) log (map_write (fst mf) (snd mf) (N.lor old flag)) (d_ranks c) in
  if last then on_grid_event c else Some c.

(** Domain.cpp 76-128: CreateGrid, and 130-211: CreateGrids. *)
Definition add_grid (c : dom) (gf : Z * (nat -> bool)) : dom :=
  mkDom (fst (map_insert Z.ltb (d_grids c) (fst gf) (snd gf))) (d_glog c) (d_gflags c) (d_ranks c).
(** The loop "for (i…) Trigger(ID, Flag, i == Num-1)". *)
Definition grid_trigger_all (flag : N) (num : nat) (ids : list Z) (c : dom) : option dom :=
  let? s := ofold (fun s g => let? c' := grid_trigger (fst s) g flag
                                           (Z.eqb (Z.of_nat (snd s)) (Z.of_nat num - 1)) in
                              Some (c', S (snd s))) ids (c, 0) in
  Some (fst s).
Definition create_grid (c : dom) (g : Z) (f : nat -> bool) : option dom :=
  grid_trigger (add_grid c (g, f)) g GRID_CREATE true.
Definition create_grids (c : dom) (l : list (Z * (nat -> bool))) : option dom :=
  grid_trigger_all GRID_CREATE (length l) (map fst l) (fold_left add_grid l c).

(** Domain.cpp 213-245: DestroyGrid, and 247-302: DestroyGrids. *)
Definition del_grid (c : dom) (g : Z) : dom :=
  mkDom (map_erase Z.ltb (d_grids c) g) (d_glog c) (d_gflags c) (d_ranks c).
Definition destroy_grid (c : dom) (g : Z) : option dom :=
  let? c := grid_trigger c g GRID_DESTROY true in Some (del_grid c g).
Definition destroy_grids (c : dom) (ids : list Z) : option dom :=
  let? c := grid_trigger_all GRID_DESTROY (length ids) ids c in Some (fold_left del_grid ids c).

(** OverlapComponent.cpp 733-780: on rank [r] a listener of the local half raises a flag. *)
Definition raise (m : smap oid N) (k : oid) (f : N) : option (smap oid N) :=
  if map_contains pair_less m k then
    let? old := map_at pair_less m k in
    Some (map_write m (set_lower pair_less (m_keys m) k) (N.lor old f))
  else None.
Definition at_rank (c : dom) (r : nat) (f : rank_state -> option rank_state) : option dom :=
  let? s := nth_error (d_ranks c) r in
  let? s' := f s in
  Some (set_ranks c (replace_at (d_ranks c) r s')).
Definition edit_m (c : dom) (r : nat) (k : oid) (f : N) : option dom :=
  at_rank c r (fun s => let? m := raise (r_ms s) k f in Some (mkRank (r_recs s) m (r_ns s) (r_log s))).
Definition edit_n (c : dom) (r : nat) (k : oid) (f : N) : option dom :=
  at_rank c r (fun s => let? m := raise (r_ns s) k f in Some (mkRank (r_recs s) (r_ms s) m (r_log s))).

(** 115-119: EndEdit. *)
Definition end_edit (c : dom) : option dom :=
  let? rs := sync_ranks (d_ranks c) in Some (set_ranks c rs).

Inductive dop :=
| CreateGrid (g : Z) (f : nat -> bool) | CreateGrids (l : list (Z * (nat -> bool)))
| DestroyGrid (g : Z) | DestroyGrids (ids : list Z)
| CreateOverlap (k : oid) | CreateOverlaps (ids : list oid)
| DestroyOverlap (k : oid) | DestroyOverlaps (ids : list oid)
| ClearOverlaps
| EditM (r : nat) (k : oid) (f : N) | EditN (r : nat) (k : oid) (f : N)
| EndEdit.

Definition dstep (c : dom) (o : dop) : option dom :=
  match o with
  | CreateGrid g f => create_grid c g f
  | CreateGrids l => create_grids c l
  | DestroyGrid g => destroy_grid c g
  | DestroyGrids ids => destroy_grids c ids
  | CreateOverlap k => create_overlap c k
  | CreateOverlaps ids => create_overlaps c ids
  | DestroyOverlap k => destroy_overlap c k
  | DestroyOverlaps ids => destroy_overlaps c (fun _ => ids)
  | ClearOverlaps => clear_overlaps c
  | EditM r k f => edit_m c r k f
  | EditN r k f => edit_n c r k f
  | EndEdit => end_edit c
  end.
Definition drun (n : nat) (h : list dop) : option dom := ofold dstep h (dom_init n).

(** GridExists, OverlapExists on a rank. *)
Definition grid_exists (c : dom) (g : Z) : bool := map_contains Z.ltb (d_grids c) g.
Definition overlap_exists (rs : rank_state) (k : oid) : bool := map_contains pair_less (r_recs rs) k.
