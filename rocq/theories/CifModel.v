(** The arrays of the sides of connectivities and overlaps and their C interface: model of the Resize, Edit and
    Restore functions of src/core/ConnectivityM.cpp, ConnectivityN.cpp, OverlapM.cpp and OverlapN.cpp, and of the
    functions of src/core-c of the same names, which give a client one pointer per dimension (and point) into the
    flat storage of an array.

    Simplifications: one process (its barriers are left out); debug assertions are on and a failed one is None, as is
    a write through a null or dangling pointer or outside of the storage; the values of all arrays are [value];
    the handles of the editor are used as the C interface does it (the handle is released at once, so that the editor
    is left with one more share), for all other uses see EditModel. *)
From Coq Require Import List ZArith Bool QArith.
From Verif Require Import RangeModel IndexerModel ArrayModel FRefModel.
Import ListNotations.
Local Open Scope Z_scope.

(** connectivity_m, connectivity_n, overlap_m, overlap_n. *)
Inductive ckind : Type := ConnM | ConnN | OvlM | OvlN.

(** The arrays: Extents_, Coords_, InterpCoefs_, Destinations_, DestinationRanks_ (ConnectivityM.hpp), Points_,
    Sources_, SourceRanks_ (ConnectivityN.hpp, OverlapN.hpp), Cells_ (OverlapM.hpp). *)
Inductive cfield : Type :=
| FExtents | FCoords | FCoefs | FDests | FDestRanks | FPoints | FSources | FSourceRanks | FCells.

Definition cfield_eqb (f g : cfield) : bool :=
  match f, g with
  | FExtents, FExtents | FCoords, FCoords | FCoefs, FCoefs | FDests, FDests | FDestRanks, FDestRanks
  | FPoints, FPoints | FSources, FSources | FSourceRanks, FSourceRanks | FCells, FCells => true
  | _, _ => false
  end.

Definition updf {A} (h : cfield -> A) (f : cfield) (x : A) : cfield -> A :=
  fun g => if cfield_eqb f g then x else h g.

(** The arrays of a side, in the order of the events of Resize: ConnectivityM.cpp 150-155, ConnectivityN.cpp 128-131,
    OverlapM.cpp 133-137, OverlapN.cpp 129-132. *)
Definition cfields (k : ckind) : list cfield :=
  match k with
  | ConnM => [FExtents; FCoords; FCoefs; FDests; FDestRanks]
  | ConnN => [FPoints; FSources; FSourceRanks]
  | OvlM => [FCells; FCoords; FDests; FDestRanks]
  | OvlN => [FPoints; FSources; FSourceRanks]
  end.

Inductive value : Type := VI (z : Z) | VD (q : Q).

(** ResizeEvent_ and the event of each array. *)
Inductive cev : Type := EvResize | EvField (f : cfield).

(** What a side knows of its grids: dimension, begins of GlobalRange and CellGlobalRange of its own grid and of the
    grid on the other side. *)
Record ccfg : Type := mkCC {
  cc_kind : ckind; cc_nd : Z; cc_point : Z -> Z; cc_cell : Z -> Z; cc_opoint : Z -> Z; cc_ocell : Z -> Z }.

(** The sizes passed to Resize of the arrays: ConnectivityM.cpp 116-120, ConnectivityN.cpp 108-110,
    OverlapM.cpp 107-110, OverlapN.cpp 108-110. *)
Definition lead_ext (f : cfield) (s : Z) : extents :=
  match f with
  | FExtents => [(0, 2); (0, 3)]
  | FCoefs => [(0, 3); (0, s)]
  | FDestRanks | FSourceRanks => []
  | FCoords | FDests | FPoints | FSources | FCells => [(0, 3)]
  end.
Definition field_ext (f : cfield) (s n : Z) : extents := lead_ext f s ++ [(0, n)].

(** Value-initialised element of an array. *)
Definition dvalue (f : cfield) : value :=
  match f with FCoords | FCoefs => VD 0 | _ => VI 0 end.

(** RefCount_ and DeactivateFunc_ of each editor (Editor.hpp 45-47), the events triggered so far, and the variables of
    the client that hold pointers: the array, the number of the storage and the offsets in it (two for extents). *)
Record cside : Type := mkCS {
  cs_num : Z; cs_sten : Z; cs_arr : cfield -> array value; cs_gen : nat;
  cs_cnt : cfield -> Z; cs_act : cfield -> bool; cs_log : list cev;
  cs_var : nat -> option (cfield * nat * list Z) }.

(** The constructors: ConnectivityM.cpp 49-59, ConnectivityN.cpp, OverlapM.cpp 48-57, OverlapN.cpp. *)
Definition cside0 : cside :=
  mkCS 0 1 (fun f => mkA (field_ext f 0 0) []) 0 (fun _ => 0) (fun _ => false) [] (fun _ => None).

(** for (int i = a; i < b; ++i) *)
Definition cfor {A} (a b : Z) (g : Z -> list A) : list A := flat_map g (zseq a (Z.to_nat (b - a))).

(** The assignments made by the loops of Resize, in order: ConnectivityM.cpp 122-148, ConnectivityN.cpp 112-126,
    OverlapM.cpp 112-129, OverlapN.cpp 112-126. *)
Definition init_writes (c : ccfg) (n s : Z) : list (cfield * list Z * value) :=
  let nd := cc_nd c in
  cfor 0 n (fun i =>
    match cc_kind c with
    | ConnM =>
        cfor 0 nd (fun d => [(FExtents, [0; d; i], VI (cc_cell c d - 1)); (FExtents, [1; d; i], VI (cc_cell c d - 1))])
        ++ cfor nd 3 (fun d => [(FExtents, [0; d; i], VI 0); (FExtents, [1; d; i], VI 1)])
        ++ cfor 0 3 (fun d => [(FCoords, [d; i], VD 0)])
        ++ cfor 0 nd (fun d => cfor 0 s (fun p => [(FCoefs, [d; p; i], VD 0)]))
        ++ cfor nd 3 (fun d => (FCoefs, [d; 0; i], VD 1) :: cfor 1 s (fun p => [(FCoefs, [d; p; i], VD 0)]))
        ++ cfor 0 nd (fun d => [(FDests, [d; i], VI (cc_opoint c d - 1))])
        ++ cfor nd 3 (fun d => [(FDests, [d; i], VI 0)])
        ++ [(FDestRanks, [i], VI (-1))]
    | OvlM =>
        cfor 0 nd (fun d => [(FCells, [d; i], VI (cc_cell c d - 1))])
        ++ cfor nd 3 (fun d => [(FCells, [d; i], VI 0)])
        ++ cfor 0 3 (fun d => [(FCoords, [d; i], VD 0)])
        ++ cfor 0 nd (fun d => [(FDests, [d; i], VI (cc_opoint c d - 1))])
        ++ cfor nd 3 (fun d => [(FDests, [d; i], VI 0)])
        ++ [(FDestRanks, [i], VI (-1))]
    | ConnN | OvlN =>
        cfor 0 nd (fun d => [(FPoints, [d; i], VI (cc_point c d - 1))])
        ++ cfor nd 3 (fun d => [(FPoints, [d; i], VI 0)])
        ++ cfor 0 nd (fun d => [(FSources, [d; i], VI (cc_ocell c d - 1))])
        ++ cfor nd 3 (fun d => [(FSources, [d; i], VI 0)])
        ++ [(FSourceRanks, [i], VI (-1))]
    end).

(** Array.hpp 243-248: Array(Tuple...) = v. *)
Definition aput {V} (a : array V) (t : list Z) (v : V) : option (array V) :=
  option_map (mkA (a_ext a)) (vwrite (a_vals a) (to_index (indexer RowMajor (a_ext a)) t) v).

Definition put_one (o : option (cfield -> array value)) (w : cfield * list Z * value)
    : option (cfield -> array value) :=
  match o with
  | None => None
  | Some arr => let '(f, t, v) := w in
                match aput (arr f) t v with Some a => Some (updf arr f a) | None => None end
  end.

Definition resize_one (n s : Z) (o : option (cfield -> array value)) (f : cfield)
    : option (cfield -> array value) :=
  match o with
  | None => None
  | Some arr => match aresize RowMajor (arr f) (field_ext f s n) (dvalue f) with
                | Some a => Some (updf arr f a)
                | None => None
                end
  end.

Definition is_connm (k : ckind) : bool := match k with ConnM => true | _ => false end.

(** ovkResizeConnectivityM (core-c/ConnectivityM.cpp 135-143) and the three others with
    ConnectivityM.cpp 98-159, ConnectivityN.cpp 96-135, OverlapM.cpp 93-141, OverlapN.cpp 96-136.  Only the M side of a
    connectivity has a stencil size. *)
Definition c_resize (c : ccfg) (x : cside) (n s : Z) : option cside :=
  if (0 <=? n) && (negb (is_connm (cc_kind c)) || (0 <? s))
     && forallb (fun f => negb (cs_act x f)) (cfields (cc_kind c)) then
    let s' := if is_connm (cc_kind c) then s else cs_sten x in
    match fold_left put_one (init_writes c n s')
            (fold_left (resize_one n s') (cfields (cc_kind c)) (Some (cs_arr x))) with
    | None => None
    | Some arr =>
        Some (mkCS n s' arr (S (cs_gen x)) (cs_cnt x) (cs_act x)
                (cs_log x ++ EvResize :: map EvField (cfields (cc_kind c))) (cs_var x))
    end
  else None.

(** The checks of the Dimension and Point arguments: core-c/ConnectivityM.cpp 149, 178, 196, 211, 230, 244, 257, 262,
    281, 286, 299, 304, 316, 336, 351, and likewise in the three other files. *)
Definition lead_ok (f : cfield) (s : Z) (lead : list Z) : bool :=
  match f, lead with
  | (FExtents | FCoords | FDests | FPoints | FSources | FCells), [d] => (0 <=? d) && (d <? 3)
  | FCoefs, [d; p] => (0 <=? d) && (d <? 3) && (0 <=? p) && (p <? s)
  | (FDestRanks | FSourceRanks), [] => true
  | _, _ => false
  end.

(** The tuples of which the pointers are given: Data(0,Dimension,0) and Data(1,Dimension,0) for extents
    (core-c/ConnectivityM.cpp 188-189), Data(Dimension,Point,0) for coefficients (291), Data(Dimension,0) (232, 341) and
    Data() (391). *)
Definition places (f : cfield) (lead : list Z) : list (list Z) :=
  match f with
  | FExtents => [0 :: lead ++ [0]; 1 :: lead ++ [0]]
  | _ => [lead ++ [0]]
  end.

(** ArrayView.hpp 106-108: Data(Tuple...). *)
Definition ptr_offset (a : array value) (t : list Z) : Z := to_index (indexer RowMajor (a_ext a)) t.

Definition has_field (k : ckind) (f : cfield) : bool := existsb (cfield_eqb f) (cfields k).

(** ovkEditConnectivityMExtents (core-c/ConnectivityM.cpp 174-191), ...Coords (227-234), ...InterpCoefs (277-293),
    ...Destinations (332-343), ...DestinationRanks (379-391) and likewise for the other sides, with EditExtents etc.
    (ConnectivityM.cpp 167-183), Editor.inl 25-36, 44-48, 60-65, 134-145. *)
Definition c_edit (c : ccfg) (x : cside) (v : nat) (f : cfield) (lead : list Z) : option cside :=
  if has_field (cc_kind c) f && lead_ok f (cs_sten x) lead then
    Some (mkCS (cs_num x) (cs_sten x) (cs_arr x) (cs_gen x)
            (updf (cs_cnt x) f (cs_cnt x f + 1))
            (updf (cs_act x) f true) (cs_log x)
            (upd (cs_var x) v (Some (f, cs_gen x, map (ptr_offset (cs_arr x f)) (places f lead)))))
  else None.

(** ovkRestoreConnectivityMExtents (core-c/ConnectivityM.cpp 193-207) and likewise, with ConnectivityM.cpp 185-192 and
    Editor.inl 38-42, 50-58. *)
Definition c_restore (c : ccfg) (x : cside) (v : nat) (f : cfield) (lead : list Z) : option cside :=
  if has_field (cc_kind c) f && lead_ok f (cs_sten x) lead && cs_act x f then
    let n := cs_cnt x f - 1 in
    Some (mkCS (cs_num x) (cs_sten x) (cs_arr x) (cs_gen x) (updf (cs_cnt x) f n)
            (if n =? 0 then updf (cs_act x) f false else cs_act x)
            (if n =? 0 then cs_log x ++ [EvField f] else cs_log x)
            (upd (cs_var x) v None))
  else None.

(** The client: V[j][i] = y for the j-th pointer held by variable V. *)
Definition c_write (c : ccfg) (x : cside) (v j : nat) (i : Z) (y : value) : option cside :=
  match cs_var x v with
  | Some (f, g, offs) =>
      match nth_error offs j with
      | Some o =>
          if Nat.eqb g (cs_gen x) then
            match vwrite (a_vals (cs_arr x f)) (o + i) y with
            | Some l => Some (mkCS (cs_num x) (cs_sten x) (updf (cs_arr x) f (mkA (a_ext (cs_arr x f)) l)) (cs_gen x)
                                (cs_cnt x) (cs_act x) (cs_log x) (cs_var x))
            | None => None
            end
          else None
      | None => None
      end
  | None => None
  end.

(** ovkGetConnectivityMExtents (core-c/ConnectivityM.cpp 145-158) and likewise: reading [i] from the j-th of the
    pointers given. *)
Definition c_get (c : ccfg) (x : cside) (f : cfield) (lead : list Z) (j : nat) (i : Z) : option value :=
  if has_field (cc_kind c) f && lead_ok f (cs_sten x) lead then
    match nth_error (places f lead) j with
    | Some t => vread (a_vals (cs_arr x f)) (ptr_offset (cs_arr x f) t + i)
    | None => None
    end
  else None.

Inductive cop : Type :=
| COResize (n s : Z)
| COEdit (v : nat) (f : cfield) (lead : list Z)
| CORestore (v : nat) (f : cfield) (lead : list Z)
| COWrite (v j : nat) (i : Z) (y : value).

Definition cstep (c : ccfg) (x : cside) (o : cop) : option cside :=
  match o with
  | COResize n s => c_resize c x n s
  | COEdit v f lead => c_edit c x v f lead
  | CORestore v f lead => c_restore c x v f lead
  | COWrite v j i y => c_write c x v j i y
  end.

Fixpoint crun (c : ccfg) (x : cside) (ops : list cop) : option cside :=
  match ops with
  | [] => Some x
  | o :: r => match cstep c x o with Some x' => crun c x' r | None => None end
  end.

(** The functions of the C interface a client calls. *)
Inductive cfun : Type := FnResize | FnEdit (f : cfield) | FnRestore (f : cfield).
Definition fun_of (o : cop) : list cfun :=
  match o with
  | COResize _ _ => [FnResize]
  | COEdit _ f _ => [FnEdit f]
  | CORestore _ f _ => [FnRestore f]
  | COWrite _ _ _ _ => []
  end.

(** core-c/ConnectivityM.h, ConnectivityN.h, OverlapM.h, OverlapN.h: the functions declared. *)
Definition declared (k : ckind) (g : cfun) : bool :=
  match g with FnResize => true | FnEdit f | FnRestore f => has_field k f end.

(** core-c/ConnectivityM.cpp, ConnectivityN.cpp, OverlapM.cpp, OverlapN.cpp: the functions defined.
    ConnectivityN.cpp 268 and OverlapN.cpp 272 define a function of another name (ovkRelease...SourceRanks) in place of
    ovkRestore...SourceRanks; it is declared nowhere. *)
Definition defined (k : ckind) (g : cfun) : bool :=
  match g with
  | FnResize => true
  | FnEdit f => has_field k f
  | FnRestore FSourceRanks => false
  | FnRestore f => has_field k f
  end.

(** A program links when all the functions it calls are defined. *)
Definition links (k : ckind) (ops : list cop) : bool :=
  forallb (fun o => forallb (defined k) (fun_of o)) ops.
