(** Property theorems C102. *)
From Coq Require Import List ZArith Bool QArith Lia.
From Verif Require Import IndexerModel ArrayModel CifModel CifSpec CifProof CifEx.
Import ListNotations.
Local Open Scope Z_scope.

(** C102. Whatever a client does with the arrays of a side of a connectivity or an overlap through the C interface, in
    any correct sequence of any length of resizes, edits (also of several dimensions or points at the same time),
    writes and restores, nothing fails; afterwards the pointers given for reading show for every array, dimension,
    point and connection exactly the value written last by the pointers for that dimension and point, or the value
    new connections are given, of the last resize; an array is being edited as long as an edit of it is open; and the
    changes are announced in order, one per resize and array, and one per outermost edit. *)
Theorem C102_client : forall c ops a, cfg_ok c -> srun c sside0 ops = Some a ->
  exists x, crun c cside0 ops = Some x /\
    cs_num x = ss_num a /\ cs_sten x = ss_sten a /\ cs_log x = ss_log a /\
    (forall f, cs_act x f = Nat.ltb 0 (ss_depth a f)) /\
    (forall f lead j r i, has_field (cc_kind c) f = true -> lead_ok f (ss_sten a) lead = true ->
       nth_error (rows f lead) j = Some r -> 0 <= i < ss_num a ->
       c_get c x f lead j i = Some (ss_val a f (r ++ [i]))).
Proof. exact client_sees. Qed.
Print Assumptions C102_client.

Example C102_case : cfg_ok cif_cfg /\ (exists a, srun cif_cfg sside0 cif_prog = Some a) /\
  option_map (fun x => (map (fun i => c_get cif_cfg x FExtents [0] 0 i) [0; 1; 2],
                        map (fun i => c_get cif_cfg x FExtents [1] 1 i) [0; 1; 2],
                        map (fun i => c_get cif_cfg x FCoefs [1; 1] 0 i) [0; 1; 2],
                        map (fun i => c_get cif_cfg x FCoefs [2; 0] 0 i) [0; 1; 2],
                        c_get cif_cfg x FCoords [2] 0 0, cs_act x FCoefs, skipn 7 (cs_log x)))
    (crun cif_cfg cside0 cif_prog) =
  Some ([Some (VI (-1)); Some (VI (-1)); Some (VI 5)], [Some (VI 6); Some (VI 0); Some (VI 0)],
        [Some (VD 0); Some (VD (1 # 4)); Some (VD 0)], [Some (VD 1); Some (VD 1); Some (VD 1)],
        Some (VD 0), true,
        EvResize :: map EvField [FExtents; FCoords; FCoefs; FDests; FDestRanks] ++ [EvField FExtents]).
Proof.
  split; [unfold cfg_ok; cbn; lia|]. split; [apply is_some_ex; vm_compute; reflexivity|vm_compute; reflexivity].
Qed.

(** While one of its arrays is being edited, a side cannot be resized (its pointers would be left without storage). *)
Theorem C102_no_resize_while_editing : forall c ops a f n s, cfg_ok c -> srun c sside0 ops = Some a ->
  has_field (cc_kind c) f = true -> (0 < ss_depth a f)%nat ->
  exists x, crun c cside0 ops = Some x /\ cstep c x (COResize n s) = None.
Proof. exact no_resize_while_editing. Qed.
Print Assumptions C102_no_resize_while_editing.

Example C102_case_editing : exists a, srun cif_cfg sside0 cif_prog = Some a /\ (0 < ss_depth a FCoefs)%nat.
Proof.
  destruct (srun cif_cfg sside0 cif_prog) as [a|] eqn:E; [|exfalso; revert E; apply some_not_none; vm_compute; reflexivity].
  exists a; split; [reflexivity|].
  assert (D : option_map (fun a => ss_depth a FCoefs) (srun cif_cfg sside0 cif_prog) = Some 1%nat)
    by (vm_compute; reflexivity).
  rewrite E in D. inversion D. lia.
Qed.

(** A program that calls only functions the headers declare links, as long as it does not restore source ranks ... *)
Theorem C102_links_other : forall k ops,
  (forall o g, In o ops -> In g (fun_of o) -> declared k g = true) ->
  (forall v lead, ~ In (CORestore v FSourceRanks lead) ops) -> links k ops = true.
Proof. exact links_other. Qed.
Print Assumptions C102_links_other.

Example C102_case_links : links ConnM cif_prog = true.
Proof. reflexivity. Qed.

(** ... but not in general: ovkRestoreConnectivityNSourceRanks and ovkRestoreOverlapNSourceRanks are declared but
    defined under another name.  A correct program that edits the source ranks does not link. *)
Theorem C102_link_refuted : exists c ops a, cfg_ok c /\ srun c sside0 ops = Some a /\
  (forall o g, In o ops -> In g (fun_of o) -> declared (cc_kind c) g = true) /\ links (cc_kind c) ops = false.
Proof. exact link_refuted. Qed.
Print Assumptions C102_link_refuted.

(** So no program that links can end an edit of the source ranks: whatever it does after having begun one, they stay
    being edited, their change is never announced, and the side can never be resized again. *)
Theorem C102_source_ranks_stuck : forall c ops1 v ops2 x y,
  has_field (cc_kind c) FSourceRanks = true -> links (cc_kind c) ops2 = true ->
  crun c cside0 (ops1 ++ [COEdit v FSourceRanks []]) = Some x -> crun c x ops2 = Some y ->
  cs_act y FSourceRanks = true /\ (forall n s, cstep c y (COResize n s) = None) /\
  exists evs, cs_log y = cs_log x ++ evs /\ ~ In (EvField FSourceRanks) evs.
Proof. exact source_ranks_stuck. Qed.
Print Assumptions C102_source_ranks_stuck.

Example C102_case_stuck :
  links (cc_kind link_cfg) [COWrite 0 0 0 (VI 3); COEdit 1 FPoints [0]; CORestore 1 FPoints [0]] = true /\
  (exists x, crun link_cfg cside0 ([COResize 2 1] ++ [COEdit 0 FSourceRanks []]) = Some x) /\
  option_map (fun y => c_get link_cfg y FSourceRanks [] 0 0)
    (crun link_cfg cside0 (([COResize 2 1] ++ [COEdit 0 FSourceRanks []])
       ++ [COWrite 0 0 0 (VI 3); COEdit 1 FPoints [0]; CORestore 1 FPoints [0]])) = Some (Some (VI 3)).
Proof. split; [reflexivity|]. split; [apply is_some_ex; vm_compute; reflexivity|vm_compute; reflexivity]. Qed.
