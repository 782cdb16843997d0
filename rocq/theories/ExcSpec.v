(** What users of an exchanger rely on while they create, edit and destroy connectivities. *)
From Coq Require Import List ZArith NArith Bool.
From Verif Require Import TupleModel RangeModel DomainModel DomainSpec XchModel XchSpec ExcModel.
Import ListNotations.

(** ** Histories *)

(** What a history of calls has led to: the component; the arrays of the connectivities on each rank; whether the
    exchanger is bound; the exchange operations created on each rank that are still there (newest first). *)
Record espec : Type := ESp { q_d : dspec; q_m : nat -> oid -> list donor; q_n : nat -> oid -> list receiver; q_bound : bool;
  q_om : nat -> oid -> list Z; q_on : nat -> oid -> list Z }.
Definition espec0 : espec := ESp dspec_init (fun _ _ => []) (fun _ _ => []) false (fun _ _ => []) (fun _ _ => []).

(** Whether a call ends the edits before it. *)
Definition ends_edits (o : dop) : bool :=
  match o with EditM _ _ _ | EditN _ _ _ | CreateGrids [] | DestroyGrids [] => false | _ => true end.

(** Exchange operations last until the connectivity is edited. *)
Definition drop_ops (s : espec) (o : dop) (ops : nat -> oid -> list Z) : nat -> oid -> list Z :=
  fun r k => if (ends_edits o && (kin k (s_over (q_d s)) && nonzero (s_pend (q_d s) k))) || kin k (created o) then [] else ops r k.
Definition comp_spec (s : espec) (o : dop) : espec :=
  ESp (sstep (q_d s) o) (blank (q_m s) (created o)) (blank (q_n s) (created o)) (q_bound s) (drop_ops s o (q_om s)) (drop_ops s o (q_on s)).
Definition espec_step (s : espec) (o : eop) : espec :=
  match o with
  | Comp o => comp_spec s o
  | SetM r k f ds => let s' := comp_spec s (EditM r k f) in ESp (q_d s') (put (q_m s') r k ds) (q_n s') (q_bound s') (q_om s') (q_on s')
  | SetN r k f ys => let s' := comp_spec s (EditN r k f) in ESp (q_d s') (q_m s') (put (q_n s') r k ys) (q_bound s') (q_om s') (q_on s')
  | Bind => ESp (q_d s) (q_m s) (q_n s) true (fun _ _ => []) (fun _ _ => [])
  | Unbind => ESp (q_d s) (q_m s) (q_n s) false (q_om s) (q_on s)
  | AddM r k i => ESp (q_d s) (q_m s) (q_n s) (q_bound s) (put (q_om s) r k (i :: q_om s r k)) (q_on s)
  | AddN r k i => ESp (q_d s) (q_m s) (q_n s) (q_bound s) (q_om s) (put (q_on s) r k (i :: q_on s r k))
  end.
Definition espec_run (h : list eop) : espec := fold_left espec_step h espec0.

(** The grid is on the rank. *)
Definition livesb (s : dspec) (g : Z) (r : nat) : bool := existsb (fun gf => Z.eqb (fst gf) g && snd gf r) (s_grids s).

(** ** Legal histories *)

(** Edits of the M side raise flags of the M side, and flags for the arrays that change: the extents; the destinations
    and their ranks.  The same for the N side: the points; the source ranks. *)
Definition m_flags (f : N) : Prop := N.land f 124 = f.
Definition n_flags (f : N) : Prop := N.land f 896 = f.
Definition covers_m (f : N) (old new : list donor) : Prop :=
  (N.land f EDIT_M_EXTENTS = 0%N -> map d_lower new = map d_lower old) /\
  (N.land f EDIT_M_DESTINATIONS = 0%N -> map d_point new = map d_point old /\ map d_rank new = map d_rank old).
Definition covers_n (f : N) (old new : list receiver) : Prop :=
  (N.land f EDIT_N_POINTS = 0%N -> map r_point new = map r_point old) /\
  (N.land f EDIT_N_SOURCES = 0%N -> map r_rank new = map r_rank old).

Definition elegal (n : nat) (s : espec) (o : eop) : Prop :=
  match o with
  | Comp o => dlegal n (q_d s) o /\ match o with EditM _ _ f => m_flags f | EditN _ _ f => n_flags f | _ => True end
  | SetM r k f ds => dlegal n (q_d s) (EditM r k f) /\ m_flags f /\ covers_m f (q_m s r k) ds
  | SetN r k f ys => dlegal n (q_d s) (EditN r k f) /\ n_flags f /\ covers_n f (q_n s r k) ys
  | Bind => q_bound s = false
  | Unbind => q_bound s = true
  | AddM r k _ => q_bound s = true /\ (r < n)%nat /\ In k (s_over (q_d s)) /\ livesb (q_d s) (fst k) r = true
  | AddN r k _ => q_bound s = true /\ (r < n)%nat /\ In k (s_over (q_d s)) /\ livesb (q_d s) (snd k) r = true
  end.
Fixpoint always (P : espec -> eop -> Prop) (s : espec) (h : list eop) : Prop :=
  match h with [] => True | o :: h => P s o /\ always P (espec_step s o) h end.
Definition elegal_history (n : nat) (h : list eop) : Prop := always (elegal n) espec0 h.

(** ** Consistent connectivities *)

(** The connectivities on each rank. *)
Definition all_m (t : tables) (s : espec) (r : nat) : list mconn :=
  map (conn_m t (q_m s) r) (filter (fun k => livesb (q_d s) (fst k) r) (s_over (q_d s))).
Definition all_n (s : espec) (r : nat) : list nconn :=
  map (conn_n (q_n s) r) (filter (fun k => livesb (q_d s) (snd k) r) (s_over (q_d s))).

(** Whether a call ends the edits before it or looks at the connectivities. *)
Definition looks (o : eop) : bool := match o with Comp o => ends_edits o | Bind => true | _ => false end.

(** Whenever edits end, the connectivities fit together. *)
Definition consistent (t : tables) (n : nat) (s : espec) (o : eop) : Prop :=
  looks o = true -> fitting n (all_m t s) (all_n s).

(** Whenever edits of extents or points end, destinations or sources (or the ranks of either) of the same connectivity
    have been edited, too, possibly on another rank. *)
Definition careful (s : espec) (o : eop) : Prop :=
  looks o = true -> q_bound s = true -> forall k, In k (s_over (q_d s)) ->
  N.land (s_pend (q_d s) k) (EDIT_M_EXTENTS + EDIT_N_POINTS) <> 0%N ->
  N.land (s_pend (q_d s) k) (EDIT_M_DESTINATIONS + EDIT_N_SOURCES) <> 0%N.
