(** Properties of edit handles, events, floating references and optionals. *)
From Coq Require Import ZArith List Bool Arith Permutation.
From Verif Require Import FRefModel FRefSpec FRefProof EditModel EditSpec EditProof
  Assoc EventModel EventSpec EventProof OptModel OptSpec OptProof.
Import ListNotations.

(** C30. In any history of edit handles without explicit Restore, every editor's k-th
    end-of-edit action has run exactly once if its k-th session is over (all shares
    gone) and not at all otherwise; an action is pending exactly while someone has a
    share. *)
Theorem C30_edit_sessions : forall l t, Forall no_restore l -> srun sst0 l = Some t ->
  exists s, erun est0 l = Some s /\ forall e,
    ran e (e_log s) = seq 0 (ends e sst0 l) /\
    (e_fun s e <> None <-> 0 < shares t e).
Proof. exact edit_correct. Qed.
Print Assumptions C30_edit_sessions.

(** Two sessions on editor 0 (the second still open) and one on editor 1 ended by a
    handle being overwritten. *)
Definition ex_edit : list eop :=
  [EdEdit 0 0; EdEdit 1 0; EdMoveNew 2 0; EdDestroy 1; EdDestroy 2; EdDestroy 0;
   EdEdit 3 1; EdEdit 4 0; EdMoveAssign 3 4; EdCopyNew 5 3; EdDestroy 3; EdRelease 5].
Example C30_example : Forall no_restore ex_edit /\
  option_map (fun t => (shares t 0, shares t 1)) (srun sst0 ex_edit) = Some (1, 0) /\
  option_map e_log (erun est0 ex_edit) = Some [(0, 0); (1, 0)].
Proof. split; [repeat constructor|]. split; reflexivity. Qed.

(** C31, full statement: C30 for histories that use Restore on handles as well.  It is
    false: a restored handle still refers to its editor, and its destructor gives the
    share back a second time.  Here the only handle is restored and destroyed; the next
    session never runs its action although every handle is gone. *)
Theorem C31_restore_refuted : exists l t s e, srun sst0 l = Some t /\ erun est0 l = Some s /\
  shares t e = 0 /\ sh_h t = [] /\ e_fun s e <> None /\ ran e (e_log s) <> seq 0 (ends e sst0 l).
Proof.
  exists [EdEdit 0 0; EdRestore 0; EdDestroy 0; EdEdit 1 0; EdDestroy 1].
  eexists _, _, 0. split; [reflexivity|]. split; [reflexivity|].
  split; [reflexivity|]. split; [reflexivity|]. split; discriminate.
Qed.
Print Assumptions C31_restore_refuted.

(** C31, second form of the same defect: another handle is still in use, but the
    session is ended under it. *)
Theorem C31_early_end_refuted : exists l t s e, srun sst0 l = Some t /\ erun est0 l = Some s /\
  0 < shares t e /\ e_fun s e = None.
Proof.
  exists [EdEdit 0 0; EdEdit 1 0; EdRestore 0; EdDestroy 0].
  eexists _, _, 0. split; [reflexivity|]. split; [reflexivity|].
  split; [constructor|reflexivity].
Qed.
Print Assumptions C31_early_end_refuted.

(** C31. It holds when each Restore is immediately followed by Release.  Missing:
    histories where a restored handle is destroyed, copied or assigned instead. *)
Theorem C31_restore_partial : forall l t, paired l -> srun sst0 l = Some t ->
  exists s, erun est0 l = Some s /\ forall e,
    ran e (e_log s) = seq 0 (ends e sst0 l) /\
    (e_fun s e <> None <-> 0 < shares t e).
Proof. exact edit_paired. Qed.
Print Assumptions C31_restore_partial.

Example C31_example :
  let l := [EdEdit 0 0; EdCopyNew 1 0; EdRestore 0; EdRelease 0; EdDestroy 0; EdRestore 1; EdRelease 1] in
  paired l /\ option_map e_log (erun est0 l) = Some [(0, 0)].
Proof.
  cbv zeta. split; [|reflexivity].
  apply pr_other; [exact I|]. apply pr_other; [exact I|]. apply pr_pair. apply pr_other; [exact I|].
  apply pr_pair. apply pr_nil.
Qed.

(** C32. In any history in which handles are detached only while their event exists,
    every Trigger calls exactly the functions attached at that moment, each as many
    times as it is attached. *)
Theorem C32_events : forall l t, lrun lst0 l = Some t ->
  exists s, vrun vst0 l = Some s /\
  Forall2 (fun a b => fst a = fst b /\ Permutation (snd a) (snd b)) (v_log s) (l_log t).
Proof. exact events_correct. Qed.
Print Assumptions C32_events.

(** Two events; a listener ID is reused; a handle is moved over another one. *)
Definition ex_event : list vop :=
  [VEvent 0; VEvent 1; VAdd 0 0 10; VAdd 1 0 11; VAdd 2 1 12; VTrigger 0; VReset 0; VAddAssign 0 0 13;
   VTrigger 0; VMoveAssign 1 2; VTrigger 0; VTrigger 1; VMoveNew 3 0; VDestroy 0; VDestroy 3; VTrigger 0].
Example C32_example :
  option_map l_log (lrun lst0 ex_event) = Some [(0, [11; 10]); (0, [11; 13]); (0, [13]); (1, [12]); (0, [])] /\
  option_map v_log (vrun vst0 ex_event) = Some [(0, [10; 11]); (0, [13; 11]); (0, [13]); (1, [12]); (0, [])].
Proof. split; vm_compute; reflexivity. Qed.

(** C33. A reference generated from the object in variable n, and every copy of it,
    gives the address of its target inside the variable the object has moved to since,
    and is dead once the object is destroyed or overwritten. *)
Theorem C33_floating_follows : forall addr l1 s1 r0 n off l2 s2,
  frun addr fst0 l1 = Some s1 -> frun addr s1 (FGen r0 n off :: l2) = Some s2 ->
  forall r, all_refer l2 (fun x => Nat.eqb x r0) r = true ->
  deref s2 r = option_map (fun m => (addr m + off)%Z) (follows l2 (Some n)).
Proof. exact floating_follows. Qed.
Print Assumptions C33_floating_follows.

(** C33. Operations on the objects are defined exactly when moved-from objects are
    only destroyed, copied from or assigned to (and become usable again only by being
    moved into). *)
Theorem C33_defined : forall addr l,
  (exists s, frun addr fst0 l = Some s) <-> (exists t, fstatus_run no_vars l = Some t).
Proof. exact floating_defined. Qed.
Print Assumptions C33_defined.

Example C33_example :
  let l2 := [FMoveNew 1 0; FRefCopy 7 5; FNew 2; FMoveAssign 2 1; FCopyNew 3 2; FRefReset 5] in
  let addr := fun n => (100 * Z.of_nat n)%Z in
  all_refer l2 (fun x => Nat.eqb x 5) 7 = true /\ follows l2 (Some 0) = Some 2 /\
  option_map (fun s => (deref s 7, deref s 5)) (frun addr fst0 (FNew 0 :: FGen 5 0 8%Z :: l2)) =
    Some (Some 208%Z, None).
Proof. repeat split. Qed.

(** C59, full statement: an object that was moved from and then copy-assigned can be
    referenced again.  It is false: copy assignment does not give the generator a new
    cell. *)
Theorem C59_reuse_refuted : exists l n m, forall addr,
  (exists s, frun addr fst0 (l ++ [FCopyAssign n m]) = Some s) /\
  forall r off, frun addr fst0 (l ++ [FCopyAssign n m; FGen r n off]) = None.
Proof. exists [FNew 0; FMoveNew 1 0], 0, 1. intros addr. split; [eexists; reflexivity|reflexivity]. Qed.
Print Assumptions C59_reuse_refuted.

(** C59. It holds when the moved-from object is given its new value by move
    assignment.  Missing: copy assignment (see above). *)
Theorem C59_reuse_partial : forall addr l s n m, frun addr fst0 l = Some s ->
  f_gen s n <> None -> (exists c, f_gen s m = Some (Some c)) ->
  exists s', frun addr fst0 (l ++ [FMoveAssign n m]) = Some s' /\
  forall r off, exists s'', fstep addr s' (FGen r n off) = Some s'' /\ deref s'' r = Some (addr n + off)%Z.
Proof. exact reuse_after_move. Qed.
Print Assumptions C59_reuse_partial.

Example C59_example : exists s, frun (fun n => Z.of_nat n) fst0 [FNew 0; FMoveNew 1 0] = Some s /\
  f_gen s 0 = Some None /\ f_gen s 1 = Some (Some 0).
Proof. eexists. repeat split. Qed.

(** C34. In any history of optionals (no self-moves) that reads values only where there
    are values: no destroyed object is accessed, the values read and the presence flags
    are those of variables holding at most one value, no object is destroyed twice, and
    the objects constructed are those destroyed, those in optionals, and one for each
    move-assignment from an optional that holds a value.  Missing for the full property:
    the last summand, and self-moves (see below). *)
Theorem C34_optional_partial : forall l t, Forall not_self l -> prun pst0 l = Some t ->
  exists s, orun ost0 l = Some s /\
  o_out s = p_out t /\
  (forall h, present s h =
     option_map (fun v => match v with Some _ => true | None => false end) (aget (p_h t) h)) /\
  NoDup (o_dead s) /\ (forall i, In i (o_dead s) -> i < o_next s) /\
  o_next s = length (o_dead s) + values t + full_moves pst0 l.
Proof. exact optional_correct. Qed.
Print Assumptions C34_optional_partial.

Definition ex_opt : list oop :=
  [OpVal 0 5; OpNew 1; OpCopyAssign 1 0; OpMoveNew 2 0; OpAssign 0 6; OpAssignMoveOf 1 0; OpGet 1;
   OpRelease 2; OpMoveAssign 2 1; OpGet 2; OpAssignCopyOf 2 2; OpGet 2; OpGet 0;
   OpReset 0; OpDestroy 0; OpDestroy 1; OpDestroy 2].
Example C34_example : Forall not_self ex_opt /\
  option_map (fun t => (p_h t, p_out t)) (prun pst0 ex_opt) =
    Some ([], [Some 6; Some 5; Some 6; Some 6; None]) /\
  full_moves pst0 ex_opt = 1 /\
  option_map (fun s => (o_next s, length (o_dead s))) (orun ost0 ex_opt) = Some (11, 10).
Proof. split; [repeat constructor; discriminate|]. split; [vm_compute; reflexivity|]. split; vm_compute; reflexivity. Qed.

(** C34, full statement: once all optionals are gone, every object constructed has been
    destroyed.  It is false: move assignment leaves the moved-from object in the other
    optional's storage without destroying it. *)
Theorem C34_leak_refuted : exists l t s, Forall not_self l /\ prun pst0 l = Some t /\ p_h t = [] /\
  orun ost0 l = Some s /\ exists i, i < o_next s /\ ~ In i (o_dead s).
Proof.
  exists [OpVal 0 5; OpNew 1; OpMoveAssign 1 0; OpDestroy 0; OpDestroy 1].
  eexists _, _. split; [repeat constructor; discriminate|]. split; [reflexivity|]. split; [reflexivity|].
  split; [reflexivity|]. exists 0. split; [constructor; constructor|]. cbn. intros [H|H]; [discriminate|exact H].
Qed.
Print Assumptions C34_leak_refuted.

(** C34. Moving an optional that holds a value into itself reads a destroyed object. *)
Theorem C34_self_move_refuted : exists l t, prun pst0 l = Some t /\ orun ost0 l = None.
Proof. exists [OpVal 0 5; OpMoveAssign 0 0]. eexists. split; reflexivity. Qed.
Print Assumptions C34_self_move_refuted.
