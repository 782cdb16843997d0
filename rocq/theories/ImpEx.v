(** Instances of importing donors and receivers of files, and of its failures. *)
From Coq Require Import List ZArith Bool Lia.
From Verif Require Import TupleModel RangeModel Base ContModel HashModel ProtoModel ProtoSpec NetModel NetSpec DDecompProof XinModel MatModel DistModel ImpModel ImpSpec ImpProof ImpMain.
Import ListNotations.
Local Open Scope Z_scope.

(** Two ranks that both have grids 1 and 2; a donor of grid 1 on both, its receiver of grid 2 on the second. *)
Definition im_donor (j a : Z) : dval := (DonorEntry (T3 a 0 0) (T3 (a + 2) 1 1) (T3 5 6 7) (T3 [3; 4] [1] [1]), (j, T3 9 0 0)).
Definition im_receiver (i : Z) : rval := (T3 9 0 0, (i, T3 4 0 0)).
Definition im_L (r : nat) : locals := match r with O => [(1, ([im_donor 2 4], [])); (2, ([], []))] | _ => [(1, ([im_donor 2 4], [])); (2, ([], [im_receiver 1]))] end.

Lemma im_whole j a : whole (im_donor j a).
Proof. intros d Hd. destruct d as [|[|[|d]]]; cbn -[Z.add Z.sub]; lia. Qed.
Lemma im_connected : connected 2 im_L 1 2.
Proof. exists 1%nat, [], [im_receiver 1], (im_receiver 1). split; [lia|]. split; [right; now left|]. split; [now left|reflexivity]. Qed.
Lemma im_importable : importable 2 2 im_L.
Proof.
  assert (X : forall s id ds rs, (s < 2)%nat -> In (id, (ds, rs)) (im_L s) ->
    (id = 1 /\ ds = [im_donor 2 4] /\ rs = []) \/ (id = 2 /\ ds = [] /\ (rs = [] \/ rs = [im_receiver 1]))).
  { intros [|[|s]] id ds rs Hs H; try lia; cbn in H; destruct H as [H|[H|[]]]; injection H as <- <- <-; auto. }
  constructor.
  - intros s id ds rs Hs H. destruct (X s id ds rs Hs H) as [(-> & _)|(-> & _)]; lia.
  - intros s id ds rs v Hs H Hv. destruct (X s id ds rs Hs H) as [(_ & _ & ->)|(_ & _ & [->| ->])]; cbn in Hv; try contradiction. destruct Hv as [<-|[]]. cbn. lia.
  - intros s id ds rs v Hs H Hv. destruct (X s id ds rs Hs H) as [(-> & -> & _)|(_ & -> & _)]; [|contradiction]. destruct Hv as [<-|[]]. exact im_connected.
  - intros s id ds rs v d Hs H Hv Hd. destruct (X s id ds rs Hs H) as [(_ & -> & _)|(_ & -> & _)]; [|contradiction]. destruct Hv as [<-|[]]. now apply im_whole.
Qed.

(** A source that is no grid. *)
Definition im_zero (r : nat) : locals := match r with O => [(1, ([], [im_receiver 0]))] | _ => [] end.
(** A donor without a receiver, alone and ... *)
Definition im_lone (r : nat) : locals := match r with O => [(1, ([im_donor 2 4], []))] | _ => [(2, ([], []))] end.
(** ... with another. *)
Definition im_more (r : nat) : locals := match r with O => [(1, ([im_donor 2 4; im_donor 3 4], []))] | _ => [(2, ([], [im_receiver 1])); (3, ([], []))] end.
Definition no_connectivities (s : ist) : bool := match s with IDone [] o => forallb (fun x : Z * imported => match snd x with ([], []) => true | _ => false end) o | _ => false end.
