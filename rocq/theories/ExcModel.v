(** Model of how an exchanger follows the connectivities it is bound to: src/core/Exchanger.cpp 102-165 and 191-280 (Bind,
    Unbind, OnConnectivityEvent_, Update_, CreateLocals_, DestroyLocals_), 779-815 (ResetExchanges_) and the creation of
    collects, sends, receives and disperses (868-1551), on all ranks, with the connectivity component of DomainModel
    (src/core/ConnectivityComponent.cpp is the code modelled there with other names) as the source of the events.

    Simplifications.  The collective UpdateSourceDestRanks_ (282-777) is represented by its outcome as a function of the
    connectivities that take part, [find_dest] and [find_src]; XchModel models the messages, and C81_matching states
    that they have this outcome.  A map (collect_map, send_map, recv_map, disperse_map) is represented by the arrays it
    was made from.  Collects and sends, and receives and disperses, are represented by their IDs.  An edit of the arrays
    of a connectivity on a rank is one call, which also raises the flags that the edit events of the arrays raise.  The
    global and local ranges of the grids are given by a table.  The exchanger is the only listener. *)
From Coq Require Import List ZArith NArith Bool.
From Verif Require Import TupleModel RangeModel ContModel DomainModel XchModel.
Import ListNotations.

(** ConnectivityComponent.h 19-28: the flags the exchanger looks at. *)
Definition RESIZE_M : N := 4.
Definition EDIT_M_EXTENTS : N := 8.
Definition EDIT_M_COORDS : N := 16.
Definition EDIT_M_INTERP : N := 32.
Definition EDIT_M_DESTINATIONS : N := 64.
Definition RESIZE_N : N := 128.
Definition EDIT_N_POINTS : N := 256.
Definition EDIT_N_SOURCES : N := 512.
Definition ALL_EDITS : N := 1020.

(** The tables of the grids: global range, local range on a rank. *)
Record tables : Type := Tables { t_range : Z -> range; t_local : Z -> nat -> range }.

(** ** The outcome of UpdateSourceDestRanks_ *)

(** The last rank below n for which [P] holds, or -1. *)
Definition rank_of (n : nat) (P : nat -> bool) : Z :=
  fold_left (fun x q => if P q then Z.of_nat q else x) (seq 0 n) (-1)%Z.

(** Whether a rank announces point p of grid g as a receiver (as a destination) without a given rank. *)
Definition has_receiver (ns : list nconn) (g : Z) (p : tup Z) : bool :=
  existsb (fun nc => Z.eqb (nc_grid nc) g && existsb (fun y => Z.ltb (r_rank y) 0 && teqb (r_point y) p) (nc_receivers nc)) ns.
Definition has_donor (ms : list mconn) (g : Z) (p : tup Z) : bool :=
  existsb (fun mc => Z.eqb (mc_grid mc) g &&
    existsb (fun d => rcontains (mc_local mc) (d_lower d) && Z.ltb (d_rank d) 0 && teqb (d_point d) p) (mc_donors mc)) ms.

(** Exchanger.cpp 303-322 and 715-740: the rank of the destination of a donor; 322-326 and 742-770: of the source of a
    receiver. *)
Definition find_dest (n : nat) (ns : nat -> list nconn) (mc : mconn) (d : donor) : Z :=
  if rcontains (mc_local mc) (d_lower d) then
    if Z.ltb (d_rank d) 0 then rank_of n (fun q => has_receiver (ns q) (mc_grid mc) (d_point d)) else d_rank d
  else (-1)%Z.
Definition find_src (n : nat) (ms : nat -> list mconn) (nc : nconn) (y : receiver) : Z :=
  if Z.ltb (r_rank y) 0 then rank_of n (fun q => has_donor (ms q) (nc_grid nc) (r_point y)) else r_rank y.

(** ** State *)

(** Exchanger.hpp 147-165: local_m and local_n.  What the collect map and the send map were made from (lower corners;
    destinations and their ranks), and what the receive map and the disperse map were made from (points and the source
    ranks); None before they are made. *)
Record loc_m : Type := LocM { lm_ranks : list Z; lm_maps : option (list (tup Z) * list (tup Z) * list Z); lm_ops : list Z }.
Record loc_n : Type := LocN { ln_ranks : list Z; ln_maps : option (list (tup Z) * list Z); ln_ops : list Z }.

(** Exchanger.hpp 167-190: LocalMs_, LocalNs_ and UpdateManifest_ of a rank. *)
Record xrank : Type := XR { x_ms : smap oid loc_m; x_ns : smap oid loc_n;
  x_create : list oid; x_destroy : list oid; x_ranks : list oid; x_reset : list oid }.
Definition xrank0 : xrank := XR map_empty map_empty [] [] [] [].

(** The component, the arrays of the connectivities on each rank, whether the exchanger is bound, the exchanger. *)
Record est : Type := ES { e_dom : dom; e_m : nat -> oid -> list donor; e_n : nat -> oid -> list receiver;
  e_bound : bool; e_x : list xrank }.
Definition est0 (n : nat) : est := ES (dom_init n) (fun _ _ => []) (fun _ _ => []) false (repeat xrank0 n).

Definition conn_m (t : tables) (em : nat -> oid -> list donor) (r : nat) (k : oid) : mconn :=
  MConn (fst k) (snd k) (t_local t (fst k) r) (em r k).
Definition conn_n (en : nat -> oid -> list receiver) (r : nat) (k : oid) : nconn := NConn (fst k) (snd k) (en r k).

(** ** Events *)

(** Exchanger.cpp 191-218: OnConnectivityEvent_ up to the update. *)
Definition noted (x : xrank) (e : oevent) : xrank :=
  let '(k, f, _) := e in
  let create := nonzero (N.land f OVERLAP_CREATE) in
  let destroy := nonzero (N.land f OVERLAP_DESTROY) in
  let edit := nonzero (N.land f ALL_EDITS) in
  let dests := nonzero (N.land f EDIT_M_DESTINATIONS) in
  let sources := nonzero (N.land f EDIT_N_SOURCES) in
  XR (x_ms x) (x_ns x)
    (if create then set_insert pair_less (x_create x) k else x_create x)
    (if destroy then set_insert pair_less (x_destroy x) k else x_destroy x)
    (if create || dests || sources then set_insert pair_less (x_ranks x) k else x_ranks x)
    (if create || edit then set_insert pair_less (x_reset x) k else x_reset x).

(** LocalMs_(ID) = v, an access to an entry that must be there. *)
Definition assign {V} (m : smap oid V) (k : oid) (f : V -> option V) : option (smap oid V) :=
  if map_contains pair_less m k then
    let? v := map_at pair_less m k in
    let? w := f v in
    Some (map_write m (set_lower pair_less (m_keys m) k) w)
  else None.

Section Update.
(** The tables; the number of ranks; the grids of the domain; the arrays of the connectivities. *)
Context (t : tables) (n : nat) (c : dom) (em : nat -> oid -> list donor) (en : nat -> oid -> list receiver).

(** 249-269: CreateLocals_. *)
Definition create_loc (r : nat) (x : xrank) (k : oid) : option xrank :=
  let? lm := grid_local c (fst k) r in
  let? ln := grid_local c (snd k) r in
  Some (XR (if lm then fst (map_insert pair_less (x_ms x) k (LocM [] None [])) else x_ms x)
           (if ln then fst (map_insert pair_less (x_ns x) k (LocN [] None [])) else x_ns x)
           (x_create x) (x_destroy x) (x_ranks x) (x_reset x)).
(** 271-280: DestroyLocals_. *)
Definition destroy_loc (x : xrank) (k : oid) : xrank :=
  XR (map_erase pair_less (x_ms x) k) (map_erase pair_less (x_ns x) k) (x_create x) (x_destroy x) (x_ranks x) (x_reset x).

(** 290-301: the connectivities of the rank that take part in finding ranks. *)
Fixpoint local_ids (side : oid -> Z) (r : nat) (ids : list oid) : option (list oid) :=
  match ids with
  | [] => Some []
  | k :: ids => let? b := grid_local c (side k) r in let? l := local_ids side r ids in Some (if b then k :: l else l)
  end.
(** 303-777: the ranks of the connectivities of rank r; [ms] and [ns] are what takes part on all ranks. *)
Definition take_ranks (ms : nat -> list mconn) (ns : nat -> list nconn) (r : nat) (mids nids : list oid) (x : xrank) : option xrank :=
  let? xm := ofold (fun m k => assign m k (fun l => let mc := conn_m t em r k in
               Some (LocM (map (find_dest n ns mc) (mc_donors mc)) (lm_maps l) (lm_ops l)))) mids (x_ms x) in
  let? xn := ofold (fun m k => assign m k (fun l => let nc := conn_n en r k in
               Some (LocN (map (find_src n ms nc) (nc_receivers nc)) (ln_maps l) (ln_ops l)))) nids (x_ns x) in
  Some (XR xm xn (x_create x) (x_destroy x) (x_ranks x) (x_reset x)).
Definition update_ranks (xs : list xrank) : option (list xrank) :=
  if forallb (fun x => match x_ranks x with [] => true | _ => false end) xs then Some xs
  else if existsb (fun x => match x_ranks x with [] => true | _ => false end) xs then None
  else
    let? mids := on_ranks (fun r x => local_ids fst r (x_ranks x)) 0 xs in
    let? nids := on_ranks (fun r x => local_ids snd r (x_ranks x)) 0 xs in
    let ms := fun q => map (conn_m t em q) (nth q mids []) in
    let ns := fun q => map (conn_n en q) (nth q nids []) in
    on_ranks (fun r x => take_ranks ms ns r (nth r mids []) (nth r nids []) x) 0 xs.

(** 779-815: ResetExchanges_. *)
Definition reset_loc (r : nat) (x : xrank) (k : oid) : option xrank :=
  let? lm := grid_local c (fst k) r in
  let? ln := grid_local c (snd k) r in
  let? xm := (if lm then assign (x_ms x) k (fun l =>
      Some (LocM (lm_ranks l) (Some (map d_lower (em r k), map d_point (em r k), lm_ranks l)) [])) else Some (x_ms x)) in
  let? xn := (if ln then assign (x_ns x) k (fun l =>
      Some (LocN (ln_ranks l) (Some (map r_point (en r k), ln_ranks l)) [])) else Some (x_ns x)) in
  Some (XR xm xn (x_create x) (x_destroy x) (x_ranks x) (x_reset x)).

(** 226-247: Update_. *)
Definition forget (x : xrank) : xrank := XR (x_ms x) (x_ns x) [] [] [] [].
Definition update (xs : list xrank) : option (list xrank) :=
  let? xs := on_ranks (fun r x => ofold (create_loc r) (x_create x) x) 0 xs in
  let xs := map (fun x => fold_left destroy_loc (x_destroy x) x) xs in
  let? xs := update_ranks xs in
  let? xs := on_ranks (fun r x => ofold (reset_loc r) (x_reset x) x) 0 xs in
  Some (map forget xs).

(** The listeners are called with the same number of events on all ranks, [evs] being what each rank is told; an update
    is collective, so the ranks have to come to it together (220-222). *)
Fixpoint zip_noted (xs : list xrank) (es : list oevent) : list xrank :=
  match xs, es with x :: xs, e :: es => noted x e :: zip_noted xs es | _, _ => [] end.
Fixpoint deliver (m : nat) (evs : list (list oevent)) (xs : list xrank) : option (list xrank) :=
  match m with
  | O => if forallb (fun l => match l with [] => true | _ => false end) evs then Some xs else None
  | S m =>
    let? es := on_ranks (fun _ l => hd_error l) 0 evs in
    let xs := zip_noted xs es in
    let? xs := (if forallb (fun e : oevent => snd e) es then update xs
                else if existsb (fun e : oevent => snd e) es then None else Some xs) in
    deliver m (map (@tl oevent) evs) xs
  end.
End Update.

(** ** Calls *)

(** A call of the component; an edit of the arrays of connectivity [k] on rank [r] that raises [f]; binding and
    unbinding the exchanger; creation of a collect or a send (of a receive or a disperse) on rank [r]. *)
Inductive eop : Type :=
| Comp (o : dop)
| SetM (r : nat) (k : oid) (f : N) (ds : list donor)
| SetN (r : nat) (k : oid) (f : N) (ys : list receiver)
| Bind | Unbind
| AddM (r : nat) (k : oid) (i : Z)
| AddN (r : nat) (k : oid) (i : Z).

Definition put {A} (f : nat -> oid -> A) (r : nat) (k : oid) (a : A) : nat -> oid -> A :=
  fun q j => if Nat.eqb q r && (Z.eqb (fst j) (fst k) && Z.eqb (snd j) (snd k)) then a else f q j.
(** ConnectivityComponent.cpp 241-251, 316-331: new connectivities are empty. *)
Definition created (o : dop) : list oid := match o with CreateOverlap k => [k] | CreateOverlaps ids => ids | _ => [] end.
Definition blank {A} (f : nat -> oid -> list A) (ids : list oid) : nat -> oid -> list A :=
  fun q j => if existsb (fun k => Z.eqb (fst j) (fst k) && Z.eqb (snd j) (snd k)) ids then [] else f q j.

(** What the listeners are told during a call. *)
Definition new_events (c c' : dom) : list (list oevent) :=
  map (fun rr => skipn (length (r_log (fst rr))) (r_log (snd rr))) (combine (d_ranks c) (d_ranks c')).
(** The domain at that time: grids are there before the event of their creation and until after that of their
    destruction (Domain.cpp 76-302). *)
Definition event_dom (o : dop) (c c' : dom) : dom := match o with DestroyGrid _ | DestroyGrids _ => c | _ => c' end.

Definition comp_step (t : tables) (s : est) (o : dop) : option est :=
  let? c' := dstep (e_dom s) o in
  let em := blank (e_m s) (created o) in
  let en := blank (e_n s) (created o) in
  let evs := new_events (e_dom s) c' in
  let? xs := (if e_bound s then deliver t (length (d_ranks c')) (event_dom o (e_dom s) c') em en (length (hd [] evs)) evs (e_x s)
              else Some (e_x s)) in
  Some (ES c' em en (e_bound s) xs).

(** 134-140: the manifest of Bind. *)
Definition bind_noted (rx : rank_state * xrank) : xrank :=
  fold_left (fun x k => XR (x_ms x) (x_ns x) (set_insert pair_less (x_create x) k) (x_destroy x)
                          (set_insert pair_less (x_ranks x) k) (set_insert pair_less (x_reset x) k))
    (m_keys (r_recs (fst rx))) (snd rx).
Definition bind (t : tables) (s : est) : option est :=
  if e_bound s then None else
  let? xs := update t (length (d_ranks (e_dom s))) (e_dom s) (e_m s) (e_n s) (map bind_noted (combine (d_ranks (e_dom s)) (e_x s))) in
  Some (ES (e_dom s) (e_m s) (e_n s) true xs).
(** 144-165 *)
Definition unbind (s : est) : option est :=
  if e_bound s then
    Some (ES (e_dom s) (e_m s) (e_n s) false
      (map (fun x => XR map_empty map_empty (x_create x) (x_destroy x) (x_ranks x) (x_reset x)) (e_x s)))
  else None.

Definition x_at (s : est) (r : nat) (f : xrank -> option xrank) : option est :=
  if e_bound s then
    let? x := nth_error (e_x s) r in
    let? x' := f x in
    Some (ES (e_dom s) (e_m s) (e_n s) true (replace_at (e_x s) r x'))
  else None.

Definition estep (t : tables) (s : est) (o : eop) : option est :=
  match o with
  | Comp o => comp_step t s o
  | SetM r k f ds => let? s' := comp_step t s (EditM r k f) in Some (ES (e_dom s') (put (e_m s') r k ds) (e_n s') (e_bound s') (e_x s'))
  | SetN r k f ys => let? s' := comp_step t s (EditN r k f) in Some (ES (e_dom s') (e_m s') (put (e_n s') r k ys) (e_bound s') (e_x s'))
  | Bind => bind t s
  | Unbind => unbind s
  | AddM r k i => x_at s r (fun x => let? m := assign (x_ms x) k (fun l => Some (LocM (lm_ranks l) (lm_maps l) (i :: lm_ops l))) in
                                     Some (XR m (x_ns x) (x_create x) (x_destroy x) (x_ranks x) (x_reset x)))
  | AddN r k i => x_at s r (fun x => let? m := assign (x_ns x) k (fun l => Some (LocN (ln_ranks l) (ln_maps l) (i :: ln_ops l))) in
                                     Some (XR (x_ms x) m (x_create x) (x_destroy x) (x_ranks x) (x_reset x)))
  end.
Definition erun (t : tables) (n : nat) (h : list eop) : option est := ofold (estep t) h (est0 n).

(** What the exchanger has for a connectivity on a rank. *)
Definition local_m (s : est) (r : nat) (k : oid) : option loc_m :=
  let? x := nth_error (e_x s) r in if map_contains pair_less (x_ms x) k then map_at pair_less (x_ms x) k else None.
Definition local_n (s : est) (r : nat) (k : oid) : option loc_n :=
  let? x := nth_error (e_x s) r in if map_contains pair_less (x_ns x) k then map_at pair_less (x_ns x) k else None.

(** What a send and a receive of connectivity [k] on a rank work with (Exchanger.cpp 1088-1127, 1250-1289: the maps
    made by 799-809); nothing where the rank does not have the grid. *)
Definition dest_ranks (s : est) (k : oid) (r : nat) : list Z :=
  match local_m s r k with Some l => match lm_maps l with Some (_, _, q) => q | None => [] end | None => [] end.
Definition dest_points (s : est) (k : oid) (r : nat) : list (tup Z) :=
  match local_m s r k with Some l => match lm_maps l with Some (_, p, _) => p | None => [] end | None => [] end.
Definition source_ranks (s : est) (k : oid) (r : nat) : list Z :=
  match local_n s r k with Some l => match ln_maps l with Some (_, q) => q | None => [] end | None => [] end.
Definition source_points (s : est) (k : oid) (r : nat) : list (tup Z) :=
  match local_n s r k with Some l => match ln_maps l with Some (p, _) => p | None => [] end | None => [] end.
