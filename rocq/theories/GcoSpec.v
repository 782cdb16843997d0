(** What geometry and state components must do: one component that all ranks see. *)
From Coq Require Import List ZArith NArith Bool Sorting.Sorted.
From Verif Require Import DomainSpec GcoModel.
Import ListNotations.
Local Open Scope Z_scope.

(** The grids and their ranks, the IDs of the geometries, the union of the edits since the last events, and the events *)
Record sp : Type := SP { p_grids : list (Z * (nat -> bool)); p_ids : Z -> Prop; p_pend : Z -> N; p_log : list (Z * N * bool) }.
Definition sp0 : sp := SP [] (fun _ => False) (fun _ => 0%N) [].

(** Events of the edits: one for each ID that has been edited, in order, the last one marked *)
Definition edit_events_of (ids : Z -> Prop) (pend : Z -> N) (l : list (Z * N * bool)) : Prop :=
  exists es, l = mark_last (map (fun g => (g, pend g)) es) /\ StronglySorted Z.lt es /\ forall g, In g es <-> ids g /\ pend g <> 0%N.

(** Calls the component may be given.  Creating or destroying no grids gives no grid events and is left out. *)
Definition clegal (n : nat) (s : sp) (o : cop) : Prop :=
  match o with
  | NewGrids l => l <> [] /\ NoDup (map fst l) /\ forall g, In g (map fst l) -> 0 <= g /\ ~ In g (map fst (p_grids s))
  | DropGrids ids => ids <> [] /\ NoDup ids /\ forall g, In g ids -> In g (map fst (p_grids s))
  | Make ids => NoDup ids /\ forall g, In g ids -> In g (map fst (p_grids s)) /\ ~ p_ids s g
  | Drop ids => NoDup ids /\ forall g, In g ids -> p_ids s g
  | DropAll => True
  | Edit r g f => (r < n)%nat /\ p_ids s g /\ exists at_, In (g, at_) (p_grids s) /\ at_ r = true
  | Sync => True
  end.

(** [evs]: the events of a call, after those of the edits *)
Inductive sp_step (s : sp) : cop -> sp -> Prop :=
  | SNew l ed : edit_events_of (p_ids s) (p_pend s) ed ->
      sp_step s (NewGrids l) (SP (p_grids s ++ l) (p_ids s) (fun _ => 0%N) (p_log s ++ ed))
  | SDropGrids ids ed gone : edit_events_of (p_ids s) (p_pend s) ed ->
      StronglySorted Z.lt gone -> (forall g, In g gone <-> In g ids /\ p_ids s g) ->
      sp_step s (DropGrids ids) (SP (filter (fun x => negb (memz (fst x) ids)) (p_grids s)) (fun g => p_ids s g /\ ~ In g ids) (fun _ => 0%N)
        (p_log s ++ ed ++ mark_last (map (fun g => (g, GDESTROY)) gone)))
  | SMake ids ed : edit_events_of (p_ids s) (p_pend s) ed ->
      sp_step s (Make ids) (SP (p_grids s) (fun g => p_ids s g \/ In g ids) (fun _ => 0%N) (p_log s ++ ed ++ mark_last (map (fun g => (g, GCREATE)) ids)))
  | SDrop ids ed : edit_events_of (p_ids s) (p_pend s) ed ->
      sp_step s (Drop ids) (SP (p_grids s) (fun g => p_ids s g /\ ~ In g ids) (fun _ => 0%N) (p_log s ++ ed ++ mark_last (map (fun g => (g, GDESTROY)) ids)))
  | SDropAll ed all : edit_events_of (p_ids s) (p_pend s) ed -> StronglySorted Z.lt all -> (forall g, In g all <-> p_ids s g) ->
      sp_step s DropAll (SP (p_grids s) (fun _ => False) (fun _ => 0%N) (p_log s ++ ed ++ mark_last (map (fun g => (g, GDESTROY)) all)))
  | SEdit r g f : sp_step s (Edit r g f) (SP (p_grids s) (p_ids s) (fun x => if Z.eqb x g then N.lor (p_pend s x) f else p_pend s x) (p_log s))
  | SSync ed : edit_events_of (p_ids s) (p_pend s) ed -> sp_step s Sync (SP (p_grids s) (p_ids s) (fun _ => 0%N) (p_log s ++ ed)).

(** Legal calls one after the other *)
Inductive sp_run (n : nat) : list cop -> sp -> Prop :=
  | RNil : sp_run n [] sp0
  | RSnoc h s o s' : sp_run n h s -> clegal n s o -> sp_step s o s' -> sp_run n (h ++ [o]) s'.

(** Every grid that is destroyed has a geometry. *)
Inductive covered_run (n : nat) : list cop -> sp -> Prop :=
  | CNil : covered_run n [] sp0
  | CSnoc h s o s' : covered_run n h s -> clegal n s o -> (forall ids, o = DropGrids ids -> forall g, In g ids -> p_ids s g) -> sp_step s o s' -> covered_run n (h ++ [o]) s'.

(** All ranks hold what the specification says. *)
Definition shows (n : nat) (c : cdom) (s : sp) : Prop :=
  length (cd_ranks c) = n /\ cd_grids c = p_grids s /\
  forall r k, nth_error (cd_ranks c) r = Some k ->
    StronglySorted Z.lt (cr_recs k) /\ (forall g, In g (cr_recs k) <-> p_ids s g) /\
    (forall g, In g (map fst (cr_loc k)) <-> p_ids s g /\ exists at_, In (g, at_) (p_grids s) /\ at_ r = true) /\
    cr_log k = p_log s.

(** Whether there is a geometry, by reading the history from its beginning *)
Fixpoint has_geometry (g : Z) (h : list cop) (b : Prop) : Prop :=
  match h with
  | [] => b
  | o :: h => has_geometry g h match o with Make ids => b \/ In g ids | Drop ids | DropGrids ids => b /\ ~ In g ids | DropAll => False | _ => b end
  end.
