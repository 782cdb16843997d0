(** What a domain and its overlap component should show their users. *)
From Coq Require Import List ZArith NArith Bool.
From Verif Require Import DomainModel.
Import ListNotations.

(** The existing grids with the ranks they live on; the existing overlaps in increasing order
    (M grid first); the flags of the edits not yet announced; the announced events. *)
Record dspec := mkDS {
  s_grids : list (Z * (nat -> bool));
  s_over : list oid;
  s_pend : oid -> N;
  s_glog : list gevent;
  s_log : list oevent }.
Definition dspec_init : dspec := mkDS [] [] (fun _ => 0%N) [] [].

(** Exactly the last of a sequence of events is flagged. *)
Fixpoint mark_last {A} (l : list A) : list (A * bool) :=
  match l with
  | [] => []
  | [a] => [(a, true)]
  | a :: r => (a, false) :: mark_last r
  end.

Definition oid_eqb (a b : oid) : bool := Z.eqb (fst a) (fst b) && Z.eqb (snd a) (snd b).
Definition oid_before (a b : oid) : Prop :=
  (fst a < fst b)%Z \/ (fst a = fst b /\ (snd a < snd b)%Z).
Definition oid_beforeb (a b : oid) : bool :=
  Z.ltb (fst a) (fst b) || (Z.eqb (fst a) (fst b) && Z.ltb (snd a) (snd b)).
Fixpoint add_sorted (k : oid) (l : list oid) : list oid :=
  match l with
  | [] => [k]
  | x :: r => if oid_beforeb k x then k :: l else x :: add_sorted k r
  end.

(** Announce the pending edits: one event per edited overlap, with all its flags. *)
Definition announce (s : dspec) : dspec :=
  let edited := filter (fun k => negb (N.eqb (s_pend s k) 0)) (s_over s) in
  mkDS (s_grids s) (s_over s) (fun _ => 0%N) (s_glog s)
       (s_log s ++ mark_last (map (fun k => (k, s_pend s k)) edited)).

Definition say (s : dspec) (flag : N) (ids : list oid) : dspec :=
  mkDS (s_grids s) (s_over s) (s_pend s) (s_glog s)
       (s_log s ++ mark_last (map (fun k => (k, flag)) ids)).
Definition with_over (s : dspec) (l : list oid) : dspec :=
  mkDS (s_grids s) l (s_pend s) (s_glog s) (s_log s).
Definition with_grids (s : dspec) (l : list (Z * (nat -> bool))) : dspec :=
  mkDS l (s_over s) (s_pend s) (s_glog s) (s_log s).

Definition kin (k : oid) (l : list oid) : bool := existsb (oid_eqb k) l.
Definition gin (g : Z) (l : list Z) : bool := existsb (Z.eqb g) l.

Definition s_create (s : dspec) (ids : list oid) : dspec :=
  let s := announce s in
  say (with_over s (fold_left (fun l k => add_sorted k l) ids (s_over s))) 1 ids.
Definition s_destroy (s : dspec) (ids : list oid) : dspec :=
  let s := say (announce s) 2 ids in
  with_over s (filter (fun k => negb (kin k ids)) (s_over s)).

(** Grid events: every event tells the listener about a grid that exists. *)
Definition say_grids (s : dspec) (flag : N) (ids : list Z) : dspec :=
  mkDS (s_grids s) (s_over s) (s_pend s)
       (s_glog s ++ map (fun e => (fst e, flag, snd e, true)) (mark_last ids)) (s_log s).
(** Creating or destroying grids announces pending edits; destroying grids destroys the
    overlaps that involve them. *)
Definition involves (ids : list Z) (k : oid) : bool := gin (fst k) ids || gin (snd k) ids.
Definition s_create_grids (s : dspec) (l : list (Z * (nat -> bool))) : dspec :=
  match l with
  | [] => s
  | _ => announce (say_grids (with_grids s (rev l ++ s_grids s)) 1 (map fst l))
  end.
Definition s_destroy_grids (s : dspec) (ids : list Z) : dspec :=
  match ids with
  | [] => s
  | _ => let s := s_destroy (say_grids s 2 ids) (filter (involves ids) (s_over s)) in
         with_grids s (filter (fun gf => negb (gin (fst gf) ids)) (s_grids s))
  end.

Definition s_edit (s : dspec) (k : oid) (f : N) : dspec :=
  mkDS (s_grids s) (s_over s) (fun k' => if oid_eqb k' k then N.lor (s_pend s k') f else s_pend s k')
       (s_glog s) (s_log s).

Definition sstep (s : dspec) (o : dop) : dspec :=
  match o with
  | CreateGrid g f => s_create_grids s [(g, f)]
  | CreateGrids l => s_create_grids s l
  | DestroyGrid g => s_destroy_grids s [g]
  | DestroyGrids ids => s_destroy_grids s ids
  | CreateOverlap k => s_create s [k]
  | CreateOverlaps ids => s_create s ids
  | DestroyOverlap k => s_destroy s [k]
  | DestroyOverlaps ids => s_destroy s ids
  | ClearOverlaps => s_destroy s (s_over s)
  | EditM _ k f | EditN _ k f => s_edit s k f
  | EndEdit => announce s
  end.
Definition srun (h : list dop) : dspec := fold_left sstep h dspec_init.

(** Legal calls on [n] ranks. *)
Definition lives (s : dspec) (g : Z) (r : nat) : Prop := exists f, In (g, f) (s_grids s) /\ f r = true.
Definition has_grid (s : dspec) (g : Z) : Prop := In g (map fst (s_grids s)).
Definition dlegal (n : nat) (s : dspec) (o : dop) : Prop :=
  match o with
  | CreateGrid g _ => ~ has_grid s g
  | CreateGrids l => NoDup (map fst l) /\ forall g, In g (map fst l) -> ~ has_grid s g
  | DestroyGrid g => has_grid s g
  | DestroyGrids ids => NoDup ids /\ forall g, In g ids -> has_grid s g
  | CreateOverlap k => has_grid s (fst k) /\ has_grid s (snd k) /\ ~ In k (s_over s)
  | CreateOverlaps ids =>
      NoDup ids /\ forall k, In k ids -> has_grid s (fst k) /\ has_grid s (snd k) /\ ~ In k (s_over s)
  | DestroyOverlap k => In k (s_over s)
  | DestroyOverlaps ids => NoDup ids /\ forall k, In k ids -> In k (s_over s)
  | ClearOverlaps => length (s_over s) <= 1
  | EditM r k _ => r < n /\ In k (s_over s) /\ lives s (fst k) r
  | EditN r k _ => r < n /\ In k (s_over s) /\ lives s (snd k) r
  | EndEdit => True
  end.
Fixpoint dlegal_from (n : nat) (s : dspec) (h : list dop) : Prop :=
  match h with [] => True | o :: h' => dlegal n s o /\ dlegal_from n (sstep s o) h' end.
Definition dlegal_history (n : nat) (h : list dop) : Prop := dlegal_from n dspec_init h.

(** The same things read directly off the history of calls. *)
Definition grid_events (o : dop) : list gevent :=
  match o with
  | CreateGrid g _ => [(g, 1%N, true, true)]
  | CreateGrids l => map (fun e => (fst e, 1%N, snd e, true)) (mark_last (map fst l))
  | DestroyGrid g => [(g, 2%N, true, true)]
  | DestroyGrids ids => map (fun e => (fst e, 2%N, snd e, true)) (mark_last ids)
  | _ => []
  end.
(** Newest call first. *)
Fixpoint grid_there (h : list dop) (g : Z) : bool :=
  match h with
  | CreateGrid g' _ :: h' => Z.eqb g g' || grid_there h' g
  | CreateGrids l :: h' => gin g (map fst l) || grid_there h' g
  | DestroyGrid g' :: h' => negb (Z.eqb g g') && grid_there h' g
  | DestroyGrids ids :: h' => negb (gin g ids) && grid_there h' g
  | _ :: h' => grid_there h' g
  | [] => false
  end.
(** All the flags some rank raised for overlap [k]. *)
Fixpoint edit_flags (k : oid) (es : list dop) : N :=
  match es with
  | EditM _ k' f :: r | EditN _ k' f :: r => if oid_eqb k k' then N.lor f (edit_flags k r) else edit_flags k r
  | _ :: r => edit_flags k r
  | [] => 0%N
  end.
Definition is_edit (o : dop) : Prop := match o with EditM _ _ _ | EditN _ _ _ => True | _ => False end.
