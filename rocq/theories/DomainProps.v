(** Properties of assembly options, domains and overlap components. *)
From Coq Require Import ZArith NArith List Bool Arith Sorting.Sorted.
From Verif Require Import ContModel OptionsModel OptionsSpec OptionsProof DomainModel DomainSpec DomainProof.
Import ListNotations.

(** C39. After any legal history of calls, the option of a grid (of a pair of grids) of the
    assembler is the one given by the newest call that designates it, unless the grid was
    removed since, and the default when there is no such call. *)
Theorem C39_options : forall h, legal_history (rev h) ->
  (forall k g, bound (rev h) g = true -> option1 (opt_run h) k g = value1 k g (rev h)) /\
  (forall k p, bound (rev h) (fst p) = true -> bound (rev h) (snd p) = true ->
     option2 (opt_run h) k p = value2 k p (rev h)).
Proof. exact options_correct. Qed.
Print Assumptions C39_options.

(** Wildcards on both sides, a value overwritten by a default, a grid removed and added again. *)
Definition ex_options : list opt_op :=
  [AddGrids [3; 1; 2]%Z; Set1 FringeSize ALL_GRIDS (VI 2); Set1 FringeSize 2%Z (VI 0);
   Set2 Overlappable (ALL_GRIDS, 1%Z) (VB true); Set2 EdgePadding (3%Z, ALL_GRIDS) (VI 5);
   Set2 EdgePadding (ALL_GRIDS, 2%Z) (VI 6); RemoveGrids [1%Z]; AddGrids [1%Z];
   Set2 DisjointConnections (2%Z, 3%Z) (VB false); Reset2 EdgePadding (3%Z, 3%Z)].
Example C39_example : legal_history (rev ex_options) /\
  map (option1 (opt_run ex_options) FringeSize) [1; 2; 3]%Z = [VI 0; VI 0; VI 2] /\
  option2 (opt_run ex_options) EdgePadding (3, 2)%Z = VI 6 /\
  option2 (opt_run ex_options) EdgePadding (3, 3)%Z = VI 0 /\
  option2 (opt_run ex_options) EdgePadding (3, 1)%Z = VI 0 /\
  option2 (opt_run ex_options) Overlappable (2, 1)%Z = VB false /\
  option2 (opt_run ex_options) DisjointConnections (2, 3)%Z = VB false.
Proof.
  repeat split; try reflexivity; try (repeat constructor; discriminate);
    unfold designates; cbn; auto.
Qed.

(** C40. After any legal history of calls on any number of ranks, exactly the grids created and
    not destroyed since exist, and the listeners have been told once about every creation and
    every destruction, in order, the last one of each call flagged as such, the grid existing
    at that time. *)
Theorem C40_grid_lifecycle : forall n h, dlegal_history n h ->
  exists c, drun n h = Some c /\
    (forall g, grid_exists c g = true <-> grid_there (rev h) g = true) /\
    d_glog c = flat_map grid_events h.
Proof. exact grid_lifecycle. Qed.
Print Assumptions C40_grid_lifecycle.

(** C41. Destroying grids destroys, on every rank, exactly the overlaps that involve them. *)
Theorem C41_dying_records : forall n h ids, dlegal_history n (h ++ [DestroyGrids ids]) ->
  exists c c', drun n h = Some c /\ drun n (h ++ [DestroyGrids ids]) = Some c' /\
    length (d_ranks c) = n /\ length (d_ranks c') = n /\
    forall r rs rs' k, nth_error (d_ranks c) r = Some rs -> nth_error (d_ranks c') r = Some rs' ->
      (overlap_exists rs' k = true <->
       overlap_exists rs k = true /\ ~ In (fst k) ids /\ ~ In (snd k) ids).
Proof. exact dying_records. Qed.
Print Assumptions C41_dying_records.

(** C41, C42. After any legal history every rank has a record of exactly the existing overlaps,
    the local halves of those whose grid lives there, and has been told exactly the events of
    the specification. *)
Theorem C41_records : forall n h, dlegal_history n h ->
  exists c, drun n h = Some c /\ length (d_ranks c) = n /\
    forall r rs, nth_error (d_ranks c) r = Some rs ->
      m_keys (r_recs rs) = s_over (srun h) /\
      (forall k, overlap_exists rs k = true <-> In k (s_over (srun h))) /\
      (forall k, map_contains pair_less (r_ms rs) k = true <->
                 In k (s_over (srun h)) /\ lives (srun h) (fst k) r) /\
      (forall k, map_contains pair_less (r_ns rs) k = true <->
                 In k (s_over (srun h)) /\ lives (srun h) (snd k) r) /\
      r_log rs = s_log (srun h).
Proof. exact records_refine. Qed.
Print Assumptions C41_records.

(** C42. Whatever edits the ranks make between two synchronisations, the second one tells every
    rank once about each overlap edited on any rank, with the union of the flags, the last event
    flagged, and about no other; a third synchronisation tells nothing. *)
Theorem C42_edit_events : forall n h es,
  dlegal_history n (h ++ [EndEdit] ++ es ++ [EndEdit]) -> Forall is_edit es ->
  exists c0 c c2, drun n (h ++ [EndEdit]) = Some c0 /\
    drun n (h ++ [EndEdit] ++ es ++ [EndEdit]) = Some c /\
    drun n (h ++ [EndEdit] ++ es ++ [EndEdit; EndEdit]) = Some c2 /\
    length (d_ranks c0) = n /\ length (d_ranks c) = n /\ length (d_ranks c2) = n /\
    forall r rs0 rs rs2, nth_error (d_ranks c0) r = Some rs0 -> nth_error (d_ranks c) r = Some rs ->
      nth_error (d_ranks c2) r = Some rs2 ->
      r_log rs = r_log rs0 ++ mark_last (map (fun k => (k, edit_flags k es))
                   (filter (fun k => negb (N.eqb (edit_flags k es) 0)) (m_keys (r_recs rs0)))) /\
      r_log rs2 = r_log rs.
Proof. exact edit_events. Qed.
Print Assumptions C42_edit_events.

(** Three grids on overlapping sets of ranks, three overlaps, edits of two of them on several
    ranks, and the destruction of one grid. *)
Definition on (l : list nat) (r : nat) : bool := existsb (Nat.eqb r) l.
Definition ex_dom : list dop :=
  [CreateGrid 7%Z (on [0; 1]); CreateGrids [(3%Z, on [1]); (5%Z, on [2])];
   CreateOverlaps [(7, 3); (5, 7); (3, 5)]%Z; EndEdit].
Definition ex_edits : list dop :=
  [EditM 0 (7, 3)%Z 4%N; EditN 1 (7, 3)%Z 16%N; EditM 1 (7, 3)%Z 4%N; EditN 2 (3, 5)%Z 32%N].
Example C40_example : dlegal_history 3 (ex_dom ++ ex_edits ++ [EndEdit; DestroyGrids [3; 7]%Z]) /\
  option_map d_glog (drun 3 (ex_dom ++ ex_edits ++ [EndEdit; DestroyGrids [3; 7]%Z])) =
  Some [(7, 1%N, true, true); (3, 1%N, false, true); (5, 1%N, true, true);
        (3, 2%N, false, true); (7, 2%N, true, true)]%Z /\
  option_map (fun c => map (fun rs => m_keys (r_recs rs)) (d_ranks c)) (drun 3 (ex_dom ++ ex_edits ++ [EndEdit])) =
  Some (repeat [(3, 5); (5, 7); (7, 3)]%Z 3) /\
  option_map (fun c => map (fun rs => skipn 3 (r_log rs)) (d_ranks c)) (drun 3 (ex_dom ++ ex_edits ++ [EndEdit])) =
  Some (repeat [((3, 5)%Z, 32%N, false); ((7, 3)%Z, 20%N, true)] 3) /\
  option_map (fun c => map (fun rs => m_keys (r_recs rs)) (d_ranks c))
    (drun 3 (ex_dom ++ ex_edits ++ [EndEdit; DestroyGrids [3]%Z])) = Some (repeat [(5, 7)%Z] 3).
Proof.
  split; [|repeat split; reflexivity].
  unfold dlegal_history, ex_dom, ex_edits. cbn [app dlegal_from].
  repeat match goal with |- _ /\ _ => split end; cbn; unfold has_grid, lives; cbn;
    repeat match goal with |- _ /\ _ => split end;
    try solve [repeat constructor; cbn; intuition discriminate | intuition (subst; cbn; auto; discriminate)
              | eexists; split; [eauto 9|reflexivity]]; try tauto.
Qed.

(** C43, full statement: clearing the component leaves no overlap.  It is false: the list of IDs
    is a view of the keys of the records, and the loop that erases the records reads beyond
    their end. *)
Definition ex_two : list dop :=
  [CreateGrids [(1%Z, on [0]); (2%Z, on [1])]; CreateOverlaps [(1, 2); (2, 1)]%Z].
Example C43_two_legal : dlegal_history 2 ex_two /\ s_over (srun ex_two) = [(1, 2); (2, 1)]%Z.
Proof.
  split; [|reflexivity]. unfold dlegal_history, ex_two. cbn [dlegal_from dlegal sstep].
  unfold has_grid. cbn. repeat split; try (repeat constructor; cbn; intuition discriminate);
  intuition (subst; cbn; auto; try discriminate).
Qed.
Theorem C43_clear_refuted : exists n h c, dlegal_history n h /\ drun n h = Some c /\
  clear_overlaps c = None.
Proof. exists 2, ex_two. eexists. split; [apply C43_two_legal|]. split; reflexivity. Qed.
Print Assumptions C43_clear_refuted.

(** It is false in every state with two overlaps or more. *)
Theorem C43_clear_fails : forall n h, 0 < n -> dlegal_history n h -> 2 <= length (s_over (srun h)) ->
  exists c, drun n h = Some c /\ clear_overlaps c = None.
Proof. exact clear_long. Qed.
Print Assumptions C43_clear_fails.

(** C43, second form: on an implementation where those reads return what the erasures left in
    memory, some overlaps survive the call. *)
Theorem C43_clear_stale_refuted : exists keys : list (Z * Z), StronglySorted oid_before keys /\
  erase_viewed_stale (length keys) 0 keys (length keys) <> [].
Proof.
  exists [(1, 2); (1, 3); (2, 3)]%Z. split.
  - repeat constructor; unfold oid_before; cbn; first [left; reflexivity|right; split; reflexivity].
  - discriminate.
Qed.
Print Assumptions C43_clear_stale_refuted.

(** C43. Clearing works with at most one overlap.  Missing: two or more, where it is false. *)
Theorem C43_clear_partial : forall n h, dlegal_history n h -> length (s_over (srun h)) <= 1 ->
  exists c, drun n (h ++ [ClearOverlaps]) = Some c /\ length (d_ranks c) = n /\
    forall r rs k, nth_error (d_ranks c) r = Some rs -> overlap_exists rs k = false.
Proof. exact clear_short. Qed.
Print Assumptions C43_clear_partial.
Example C43_example :
  option_map (fun c => map (fun rs => m_keys (r_recs rs)) (d_ranks c))
    (drun 2 [CreateGrids [(1%Z, on [0]); (2%Z, on [1])]; CreateOverlap (1, 2)%Z]) = Some [[(1, 2)%Z]; [(1, 2)%Z]] /\
  length (s_over (srun [CreateGrids [(1%Z, on [0]); (2%Z, on [1])]; CreateOverlap (1, 2)%Z])) <= 1.
Proof. split; [reflexivity|]. cbn. auto. Qed.
