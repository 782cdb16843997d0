(** Model of src/core/AssemblerOptions.cpp and the class assembler::options
    (src/core/Assembler.hpp): the per-grid and per-pair assembly options. *)
From Coq Require Import List ZArith Bool.
From Verif Require Import ContModel.
Import ListNotations.
Local Open Scope Z_scope.

(** ALL_GRIDS (Global.h, OVK_ALL_GRIDS). *)
Definition ALL_GRIDS : Z := -1.

(** Values of options.  A double that is not NaN is represented by a code, with 0 for 0. and 1
    for 1.e-12; an enumerator by its position. *)
Inductive oval := VB (b : bool) | VI (n : Z) | VD (code : Z) | VE (n : Z).
Definition oval_eqb (a b : oval) : bool :=
  match a, b with
  | VB x, VB y => Bool.eqb x y
  | VI x, VI y => Z.eqb x y
  | VD x, VD y => Z.eqb x y
  | VE x, VE y => Z.eqb x y
  | _, _ => false
  end.

(** The options of one grid and those of a pair of grids (Assembler.hpp, members of options). *)
Inductive opt1 := OverlapAccelDepthAdjust | OverlapAccelResolutionAdjust | InferBoundaries
  | EdgeSmoothing | FringeSize.
Inductive opt2 := Overlappable | OverlapTolerance | CutBoundaryHoles | Occludes | EdgePadding
  | ConnectionType | MinimizeOverlap | DisjointConnections.
Definition opt1_eq_dec (a b : opt1) : {a = b} + {a <> b}. Proof. decide equality. Defined.
Definition opt2_eq_dec (a b : opt2) : {a = b} + {a <> b}. Proof. decide equality. Defined.

(** The default passed to GetOption_ by each getter: lines 107, 130, 153, 248, 297; 59, 82, 175,
    198, 223, 272, 321, 344. *)
Definition get_default1 (k : opt1) : oval :=
  match k with
  | OverlapAccelDepthAdjust | OverlapAccelResolutionAdjust => VD 0
  | InferBoundaries => VB false
  | EdgeSmoothing | FringeSize => VI 0
  end.
Definition get_default2 (k : opt2) : oval :=
  match k with
  | Overlappable | CutBoundaryHoles | MinimizeOverlap => VB false
  | OverlapTolerance => VD 1
  | Occludes | ConnectionType => VE 0
  | EdgePadding => VI 0
  | DisjointConnections => VB true
  end.
(** The default passed to SetOption_ by each setter: lines 114, 137, 159, 256, 305; 66, 91, 182,
    207, 232, 281, 328, 351. *)
Definition set_default1 (k : opt1) : oval :=
  match k with
  | OverlapAccelDepthAdjust | OverlapAccelResolutionAdjust => VD 0
  | InferBoundaries => VB false
  | EdgeSmoothing | FringeSize => VI 0
  end.
Definition set_default2 (k : opt2) : oval :=
  match k with
  | Overlappable | CutBoundaryHoles | MinimizeOverlap => VB false
  | OverlapTolerance => VD 1
  | Occludes | ConnectionType => VE 0
  | EdgePadding => VI 0
  | DisjointConnections => VB true
  end.
(** The value and default passed to SetOption_ by each Reset function: lines 122, 145, 167, 264,
    313; 74, 99, 190, 215, 240, 289, 336, 359. *)
Definition reset_args1 (k : opt1) : oval * oval :=
  match k with
  | OverlapAccelDepthAdjust | OverlapAccelResolutionAdjust => (VD 0, VD 0)
  | InferBoundaries => (VB false, VB false)
  | EdgeSmoothing | FringeSize => (VI 0, VI 0)
  end.
Definition reset_args2 (k : opt2) : oval * oval :=
  match k with
  | Overlappable | CutBoundaryHoles | MinimizeOverlap => (VB false, VB false)
  | OverlapTolerance => (VD 1, VD 1)
  | Occludes | ConnectionType => (VE 0, VE 0)
  | EdgePadding => (VI 0, VI 0)
  | DisjointConnections => (VB true, VB true)
  end.

(** The members: GridIDs_ and the option maps. *)
Record options := mkO {
  o_ids : list Z;
  o_map1 : opt1 -> smap Z oval;
  o_map2 : opt2 -> smap (Z * Z) oval }.
Definition options_init : options := mkO [] (fun _ => map_empty) (fun _ => map_empty).

Definition put1 (o : options) (k : opt1) (m : smap Z oval) : options :=
  mkO (o_ids o) (fun k' => if opt1_eq_dec k' k then m else o_map1 o k') (o_map2 o).
Definition put2 (o : options) (k : opt2) (m : smap (Z * Z) oval) : options :=
  mkO (o_ids o) (o_map1 o) (fun k' => if opt2_eq_dec k' k then m else o_map2 o k').

(** AssemblerOptions.cpp 19-25: AddGrids. *)
Definition add_grids (o : options) (ids : list Z) : options :=
  mkO (fold_left (set_insert Z.ltb) ids (o_ids o)) (o_map1 o) (o_map2 o).

(** AssemblerOptions.cpp 27-55: RemoveGrids; the maps whose EraseIf is called. *)
Definition removed1 : list opt1 := [OverlapAccelDepthAdjust; OverlapAccelResolutionAdjust;
  InferBoundaries; EdgeSmoothing; FringeSize].
Definition removed2 : list opt2 := [Overlappable; OverlapTolerance; CutBoundaryHoles; Occludes;
  EdgePadding; ConnectionType; MinimizeOverlap; DisjointConnections].
Definition remove_grids (o : options) (ids : list Z) : options :=
  let one g := set_contains Z.ltb ids g in
  let pair p := set_contains Z.ltb ids (fst p) || set_contains Z.ltb ids (snd p) in
  let o := fold_left (fun o k => put1 o k (map_erase_if_key one (o_map1 o k))) removed1 o in
  let o := fold_left (fun o k => put2 o k (map_erase_if_key pair (o_map2 o k))) removed2 o in
  mkO (set_erase_if one (o_ids o)) (o_map1 o) (o_map2 o).

(** 460-475 and 477-498: GetOption_. *)
Definition get_option1 (m : smap Z oval) (g : Z) (d : oval) : oval :=
  match nth_error (m_entries m) (map_find Z.ltb m g) with
  | Some e => snd e
  | None => d
  end.
Definition get_option2 (m : smap (Z * Z) oval) (p : Z * Z) (d : oval) : oval :=
  match nth_error (m_entries m) (map_find pair_less m p) with
  | Some e => snd e
  | None => d
  end.

(** 500-521: SetOption_ for one grid. *)
Definition set_option1 (ids : list Z) (m : smap Z oval) (g : Z) (v d : oval) : smap Z oval :=
  if negb (oval_eqb v d) then
    if Z.eqb g ALL_GRIDS then fold_left (fun m i => fst (map_insert Z.ltb m i v)) ids m
    else fst (map_insert Z.ltb m g v)
  else
    if Z.eqb g ALL_GRIDS then map_empty
    else map_erase Z.ltb m g.

(** 523-566: SetOption_ for a pair. *)
Definition set_option2 (ids : list Z) (m : smap (Z * Z) oval) (p : Z * Z) (v d : oval)
  : smap (Z * Z) oval :=
  let ins m q := fst (map_insert pair_less m q v) in
  let del m q := map_erase pair_less m q in
  let mall := Z.eqb (fst p) ALL_GRIDS in
  let nall := Z.eqb (snd p) ALL_GRIDS in
  if negb (oval_eqb v d) then
    if mall && nall then
      fold_left (fun m i => fold_left (fun m j => ins m (i, j)) ids m) ids m
    else if mall then fold_left (fun m i => ins m (i, snd p)) ids m
    else if nall then fold_left (fun m j => ins m (fst p, j)) ids m
    else ins m p
  else
    if mall && nall then map_empty
    else if mall then fold_left (fun m i => del m (i, snd p)) ids m
    else if nall then fold_left (fun m j => del m (fst p, j)) ids m
    else del m p.

(** The public getters, setters and resets (56-361). *)
Definition option1 (o : options) (k : opt1) (g : Z) : oval :=
  get_option1 (o_map1 o k) g (get_default1 k).
Definition option2 (o : options) (k : opt2) (p : Z * Z) : oval :=
  get_option2 (o_map2 o k) p (get_default2 k).

Inductive opt_op :=
| AddGrids (ids : list Z)
| RemoveGrids (ids : list Z)
| Set1 (k : opt1) (g : Z) (v : oval)
| Set2 (k : opt2) (p : Z * Z) (v : oval)
| Reset1 (k : opt1) (g : Z)
| Reset2 (k : opt2) (p : Z * Z).

Definition opt_step (o : options) (op : opt_op) : options :=
  match op with
  | AddGrids ids => add_grids o ids
  | RemoveGrids ids => remove_grids o ids
  | Set1 k g v => put1 o k (set_option1 (o_ids o) (o_map1 o k) g v (set_default1 k))
  | Set2 k p v => put2 o k (set_option2 (o_ids o) (o_map2 o k) p v (set_default2 k))
  | Reset1 k g => put1 o k (set_option1 (o_ids o) (o_map1 o k) g (fst (reset_args1 k))
                              (snd (reset_args1 k)))
  | Reset2 k p => put2 o k (set_option2 (o_ids o) (o_map2 o k) p (fst (reset_args2 k))
                              (snd (reset_args2 k)))
  end.
Definition opt_run (h : list opt_op) : options := fold_left opt_step h options_init.
