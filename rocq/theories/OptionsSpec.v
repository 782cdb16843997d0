(** What the assembly options mean: read off the history of calls, newest first. *)
From Coq Require Import List ZArith Bool Sorting.Sorted.
From Verif Require Import OptionsModel.
Import ListNotations.
Local Open Scope Z_scope.

Definition zin (g : Z) (ids : list Z) : bool := existsb (Z.eqb g) ids.

(** The documented defaults. *)
Definition default1 (k : opt1) : oval :=
  match k with
  | OverlapAccelDepthAdjust | OverlapAccelResolutionAdjust => VD 0
  | InferBoundaries => VB false
  | EdgeSmoothing | FringeSize => VI 0
  end.
Definition default2 (k : opt2) : oval :=
  match k with
  | Overlappable | CutBoundaryHoles | MinimizeOverlap => VB false
  | OverlapTolerance => VD 1
  | Occludes | ConnectionType => VE 0
  | EdgePadding => VI 0
  | DisjointConnections => VB true
  end.

(** [h] is a history, newest call first. *)

(** Is grid [g] among the assembler's grids? *)
Fixpoint bound (h : list opt_op) (g : Z) : bool :=
  match h with
  | AddGrids ids :: h' => zin g ids || bound h' g
  | RemoveGrids ids :: h' => negb (zin g ids) && bound h' g
  | _ :: h' => bound h' g
  | [] => false
  end.

(** Does an argument (a grid or ALL_GRIDS) designate [g]? *)
Definition covers (arg g : Z) : bool := Z.eqb arg ALL_GRIDS || Z.eqb arg g.

(** The value in force for [g] (for the pair [p]): the one given by the newest call that
    designates it, unless the grid has been removed since. *)
Fixpoint value1 (k : opt1) (g : Z) (h : list opt_op) : oval :=
  match h with
  | [] => default1 k
  | Set1 k' arg v :: h' =>
      if opt1_eq_dec k' k then if covers arg g then v else value1 k g h' else value1 k g h'
  | Reset1 k' arg :: h' =>
      if opt1_eq_dec k' k then if covers arg g then default1 k else value1 k g h'
      else value1 k g h'
  | RemoveGrids ids :: h' => if zin g ids then default1 k else value1 k g h'
  | AddGrids ids :: h' => if bound h' g then value1 k g h' else default1 k
  | _ :: h' => value1 k g h'
  end.

Definition covers2 (arg p : Z * Z) : bool := covers (fst arg) (fst p) && covers (snd arg) (snd p).

Fixpoint value2 (k : opt2) (p : Z * Z) (h : list opt_op) : oval :=
  match h with
  | [] => default2 k
  | Set2 k' arg v :: h' =>
      if opt2_eq_dec k' k then if covers2 arg p then v else value2 k p h' else value2 k p h'
  | Reset2 k' arg :: h' =>
      if opt2_eq_dec k' k then if covers2 arg p then default2 k else value2 k p h'
      else value2 k p h'
  | RemoveGrids ids :: h' => if zin (fst p) ids || zin (snd p) ids then default2 k
                             else value2 k p h'
  | AddGrids ids :: h' => if bound h' (fst p) && bound h' (snd p) then value2 k p h'
                          else default2 k
  | _ :: h' => value2 k p h'
  end.

(** Legal calls: grid IDs are non-negative; an option is set for a grid of the assembler or
    for ALL_GRIDS.  The argument of RemoveGrids is a set, hence sorted. *)
Definition designates (h : list opt_op) (arg : Z) : Prop := arg = ALL_GRIDS \/ bound h arg = true.
Definition legal (h : list opt_op) (op : opt_op) : Prop :=
  match op with
  | AddGrids ids => Forall (fun g => 0 <= g) ids
  | RemoveGrids ids => StronglySorted Z.lt ids
  | Set1 _ arg _ | Reset1 _ arg => designates h arg
  | Set2 _ arg _ | Reset2 _ arg => designates h (fst arg) /\ designates h (snd arg)
  end.
Fixpoint legal_history (h : list opt_op) : Prop :=
  match h with [] => True | op :: h' => legal h' op /\ legal_history h' end.
