(** Two threads on each of four ranks. *)
From Coq Require Import List ZArith Bool Lia Arith.
From Verif Require Import TupleModel RangeModel Base RangeProof CartModel IndexerModel ArrayModel ArrayProof HashModel HashProof SendModel SendProof NeighSpec HaloEx FieldSpec CollectModel CollectSpec CollectProof CollectLaws CollectProps.
From Verif Require Import DDecompProof ThrModel ThrSpec ThrProof.
Import ListNotations.
Local Open Scope Z_scope.

Definition tx_M (r : nat) : cmap :=
  match collect_map ex_c (ex_L r) (map (fun q => (q, ex_L q)) (cl_N r)) (cl_cells r) with Some cm => cm | None => CM [] 0 [] [] [] end.
Definition tx_bufs (r : nat) : list (list Z) :=
  map (fun v => match find (fun s => Nat.eqb (fst s) r) (cm_sends (tx_M (v_rank v))) with
                | Some s => match send_buffer ColMajor 2 (ex_L (v_rank v)) (cl_fields (v_rank v)) (snd s) with Some b => b | None => [] end
                | None => [] end) (cm_recvs (tx_M r)).
Definition tx_coefs (d : nat) (i icell : Z) : option Z := Some (Z.of_nat d + i + 1).
Definition tx_w (cell : range) (p : tup Z) : Z := (c0 p - c0 (rb cell) + 1) * (c1 p - c1 (rb cell) + 2) * (c2 p - c2 (rb cell) + 3).
Definition tx_acc (a w x : Z) : Z := a + w * x.
(** The second cell first, on thread 0 *)
Definition tx_work (r : nat) (t : nat) : list (Z * (range * list (Z * (Z * Z)))) :=
  match t with O => firstn 1 (rev (items (tx_M r))) | 1%nat => skipn 1 (rev (items (tx_M r))) | _ => [] end.
Definition tx_mem : mem Z Z := fun l => match l with LCi _ _ | LFi _ _ | LNum => WZ 99 | LVal _ _ _ | LOut _ _ => WV 77 | LCo _ _ => WD 55 end.
Definition tx_prog (r : nat) (t : nat) : list (instr Z Z) :=
  prog_thread ColMajor ex_c 2 (ex_L r) (ex_L r) (cl_fields r) (tx_M r) (tx_bufs r) Z.mul tx_acc 0 tx_coefs (Z.of_nat t) (tx_work r t).
(** Turns are taken alternately, as long as both threads are at it. *)
Fixpoint tx_turns (ok : loc -> bool) (fuel : nat) (t : nat) (s : thst Z Z) : list nat * thst Z Z :=
  match fuel with
  | O => ([], s)
  | S fuel =>
      match tstep ok 2 s t with
      | Some (Some s') => let (ts, r) := tx_turns ok fuel (1 - t) s' in (t :: ts, r)
      | Some None => ([], s)
      | None => match tstep ok 2 s (1 - t) with
                | Some (Some s') => let (ts, r) := tx_turns ok fuel t s' in ((1 - t)%nat :: ts, r)
                | _ => ([], s)
                end
      end
  end.

Lemma tx_typed : typed tx_mem.
Proof. intros l. destruct l; cbn; eauto. Qed.
Lemma tx_maps r : (r < 4)%nat -> collect_map ex_c (ex_L r) (map (fun q => (q, ex_L q)) (cl_N r)) (cl_cells r) = Some (tx_M r).
Proof. intros Hr. ex_ranks r Hr; vm_compute; reflexivity. Qed.
Lemma tx_received r : (r < 4)%nat -> received ColMajor 2 ex_L cl_fields tx_M r (tx_bufs r).
Proof.
  intros Hr ir v Ev. assert (C : forallb (fun v => match find (fun s => Nat.eqb (fst s) r) (cm_sends (tx_M (v_rank v))) with
    | Some s => match send_buffer ColMajor 2 (ex_L (v_rank v)) (cl_fields (v_rank v)) (snd s) with Some _ => true | None => false end | None => false end) (cm_recvs (tx_M r)) = true) by (ex_ranks r Hr; vm_compute; reflexivity).
  rewrite forallb_forall in C. pose proof (C v (vread_In _ _ _ Ev)) as Cv. unfold tx_bufs. rewrite vread_fmap, Ev. cbn [option_map].
  destruct (find _ _) as [[q ps]|] eqn:F; [|discriminate]. apply find_some in F. destruct F as [Iq Eq]. cbn [fst snd] in *. apply Nat.eqb_eq in Eq. subst q.
  destruct (send_buffer _ _ _ _ _) as [b|] eqn:Eb; [|discriminate]. exists ps, b. auto.
Qed.
Lemma tx_shared r : (r < 4)%nat -> shared_out 2 (items (tx_M r)) (tx_work r).
Proof.
  intros Hr. assert (ND : NoDup (rev (items (tx_M r)))).
  { apply NoDup_rev. apply (NoDup_map_inv fst). replace (map fst (items (tx_M r))) with (zseq 0 (length (cl_cells r))) by (ex_ranks r Hr; vm_compute; reflexivity). ex_ranks r Hr; vm_compute; repeat constructor; cbn; intuition discriminate. }
  set (l := rev (items (tx_M r))) in *. assert (Hl : forall a, In a (items (tx_M r)) <-> In a l) by (intros a; apply in_rev).
  assert (E : l = tx_work r 0 ++ tx_work r 1) by (symmetry; apply (firstn_skipn 1 l)).
  assert (ND' := ND). rewrite E in ND'.
  assert (Dis : forall a, In a (tx_work r 0) -> In a (tx_work r 1) -> False).
  { revert ND'. generalize (tx_work r 0), (tx_work r 1). clear. intros u v ND a Iu Iv. apply in_split in Iu. destruct Iu as (x & y & ->). rewrite <- app_assoc in ND. apply NoDup_remove_2 in ND. apply ND. rewrite !in_app_iff. tauto. }
  split; [|split; [|split]].
  - intros a Ia. apply Hl in Ia. rewrite E in Ia. apply in_app_or in Ia. destruct Ia; [exists 0%nat|exists 1%nat]; split; auto.
  - intros t a Ht Ia. apply Hl. rewrite E. apply in_or_app. destruct t as [|[|t]]; [tauto|tauto|lia].
  - intros t Ht. assert (Pa : forall (u v : list (Z * (range * list (Z * (Z * Z))))), NoDup (u ++ v) -> NoDup u /\ NoDup v).
    { clear. induction u as [|x u IH]; cbn; intros v H; [split; [constructor|exact H]|]. inversion H as [|? ? Nx H']; subst. destruct (IH v H'). split; [|auto]. constructor; [|auto]. intros I. apply Nx, in_or_app. auto. }
    destruct (Pa _ _ ND') as [P0 P1]. destruct t as [|[|t]]; [exact P0|exact P1|lia].
  - intros t u a Ht Hu It Iu. destruct t as [|[|t]]; destruct u as [|[|u]]; try lia; exfalso; eapply Dis; eauto.
Qed.
