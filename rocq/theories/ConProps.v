(** Property C79: filling the connectivity of a pair of grids on all ranks. *)
From Coq Require Import List ZArith QArith Bool Lia.
From Verif Require Import TupleModel RangeModel Base RangeProof CartModel CartProof DecompModel DecompProof IndexerModel ArrayModel HashModel.
From Verif Require Import ProtoModel ProtoSpec NetModel NetSpec NetProof DDecompProof NeighSpec FieldSpec HaloEx SendModel SendSpec SendLaws.
From Verif Require Import CollectModel CollectSpec EmbedModel CellModel OvlModel OvlSpec OvlProof OvlEx ConModel ConSpec ConLaws ConEx.
Import ListNotations.
Local Open Scope Z_scope.

(** C79. However the messages of the ranks interleave, filling the connectivity of a pair of grids ends, if the M grid stores each
    point once.  On each rank of the M grid there is afterwards a donor for each point whose donor grid this is
    and whose cell has a vertex on this rank, and no other, in the order of the points; it has the coordinates, the extents
    of an image of the cell that is on this rank (the cell itself if the rank owns it) and no rank.  The other ranks have
    none.  Each rank of the N grid has as receivers the points whose donor grid this is, in their order, with the cells. *)
Theorem C79_fill : forall c n mem L R D MG NG NB M N NL donor rm mg sort dp dc,
  conn_input c n mem L R D MG NG NB M N NL donor rm mg -> stored_once c -> (forall i, (i < length mem)%nat -> sorts (sort i)) ->
  exists S', computes n (conn_fill c n mem (fun i => map (fun q => (q, L q)) (NB i)) R sort M N NL donor rm mg dp dc) (start_fill M N donor mg) S' /\
    (forall i r, nth_error mem i = Some r -> d_side c n (L i) R (chosen D donor mg) (h_donors (f_h (S' r)))) /\
    (forall r, (r < n)%nat -> ~ In r mem -> h_donors (f_h (S' r)) = []) /\
    (forall q, (q < n)%nat -> f_n (S' q) = map (fun e => (e_point e, e_cell e)) (chosen D donor mg q)).
Proof. exact fill_computes. Qed.
Print Assumptions C79_fill.

(** C79. The donor cells can be collected (C37, C69): all ranks with a vertex of a donor cell list it. *)
Theorem C79_collect : forall c n mem L R D MG NG N dons, overlap_input c n mem L R D MG NG -> stored_once c ->
  (forall i r, nth_error mem i = Some r -> d_side c n (L i) R D (dons r)) ->
  (forall i, (i < length mem)%nat -> NoDup (N i) /\ forall j, In j (N i) <-> adjacent c (length mem) L i j) ->
  distributed c (length mem) L N (fun i => match nth_error mem i with Some r => map dr_ext (dons r) | None => [] end).
Proof. exact donors_distributed. Qed.
Print Assumptions C79_collect.

(** Refuted, without the condition on the storage: that there is one donor for each receiver.  On a periodic grid with DUPLICATED
    storage, the cell at the first point is given to the rank of the last point, which is the same point, as an image whose
    lower corner is on that rank; so two ranks have the donor, with its lower corner on each of them. *)
Theorem C79_duplicated_refuted : exists c n mem L R D MG NG NB M N NL donor rm mg sort dp dc ls s i i' r r' d d',
  conn_input c n mem L R D MG NG NB M N NL donor rm mg /\ (forall i, (i < length mem)%nat -> sorts (sort i)) /\
  let prog := conn_fill c n mem (fun i => map (fun q => (q, L q)) (NB i)) R sort M N NL donor rm mg dp dc in
  run (nstep true n prog) (net0 (start_fill M N donor mg)) ls = Some s /\ (forall r, (r < n)%nat -> n_pc s r = length prog) /\
  nth_error mem i = Some r /\ nth_error mem i' = Some r' /\ r <> r' /\
  In d (h_donors (f_h (n_st s r))) /\ In d' (h_donors (f_h (n_st s r'))) /\ dr_dest d = dr_dest d' /\
  pt_in (L i) (rb (dr_ext d)) /\ pt_in (L i') (rb (dr_ext d')).
Proof. exact two_donors. Qed.
Print Assumptions C79_duplicated_refuted.

(** The pair of grids of C78_example, on five ranks, whose points 0 and 2 get their values from the M grid and point 1 from another
    grid: the hypotheses hold, and the donors and receivers after an execution. *)
Example C79_example :
  conn_input ex_c 5 ov_mem ex_L ov_R ov_D ov_MG ov_NG co_NB (fun r => o_m (ov_S r)) (fun r => o_n (ov_S r)) co_NL co_donor co_rm 7 /\
  stored_once ex_c /\
  match final 5 (conn_fill ex_c 5 ov_mem (fun i => map (fun q => (q, ex_L q)) (co_NB i)) ov_R (fun _ => isort) (fun r => o_m (ov_S r)) (fun r => o_n (ov_S r))
      co_NL co_donor co_rm 7 (T3 (-1) 0 0) (T3 (-1) (-1) 0)) 8 2000 (start_fill (fun r => o_m (ov_S r)) (fun r => o_n (ov_S r)) co_donor 7) with
  | Some s => map (fun r => map (fun x => (dr_ext x, dr_dest x, dr_rank x)) (h_donors (f_h (n_st s r)))) (seq 0 5) = co_out /\
              map (fun r => f_n (n_st s r)) (seq 0 5) = [[]; [(T3 2 0 0, T3 1 2 0)]; []; []; [(T3 0 0 0, T3 2 1 0)]]
  | None => False
  end.
Proof.
  split; [exact co_input|]. split; [|exact co_example].
  intros d Hd. destruct d as [|[|[|d]]]; [| | |lia]; cbn; auto; discriminate.
Qed.
