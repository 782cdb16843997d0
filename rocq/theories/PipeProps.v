(** Property C69, for a whole exchange on all ranks. *)
From Coq Require Import List ZArith Bool Lia Reals.
From Verif Require Import TupleModel RangeModel RangeProof CartModel IndexerModel ArrayModel HashModel NetModel NetSpec NetProof FieldSpec DDecompProof.
From Verif Require Import SendModel SendSpec SendLaws CollectModel CollectSpec CollectLaws HaloEx XchModel XchSpec XchProps EmbedModel PipeModel PipeSpec PipeProof PipeLaws.
Import ListNotations.
Local Open Scope Z_scope.

(** C69. However the messages of the ranks interleave, after an exchange each receiver point of a connectivity has the
    reduction of the values at the vertices of its donor cell, every other point of the N grid has its old value, and the
    values of the M grid are unchanged.  Partial as C37 is: column-major values of the M grid, or no cell that is
    on more than one rank. *)
Theorem C69_exchange_partial : forall V cnt (junk : V) ssort rsort grids R n ms ns id lay c mem L FR N cells red nlay NR fields vv m out nfields,
  0 <= cnt -> (0 < n)%nat -> 0 < total_points grids ->
  exchangeable grids n ms ns id R mem L cells NR ->
  distributed c (length mem) L N cells ->
  (forall i cell, (i < length mem)%nat -> In cell (cells i) -> lay = ColMajor \/ whole c (L i) cell) ->
  (forall i, (i < length mem)%nat ->
     has_values lay cnt (L i) (FR i) (fields i) m /\ Z.of_nat (length (vv i)) = cnt * max_vertices (cells i) /\ reduces (red i) (cells i)) ->
  (forall r, (r < n)%nat -> sorts (ssort r) /\ sorts (rsort r)) ->
  (forall r, (r < n)%nat -> shaped cnt (length (n_points id (ns r))) (out r)) ->
  (forall r, (r < n)%nat -> shaped cnt (Z.to_nat (rcount (NR r))) (nfields r)) ->
  exists S',
    computes n (exchange cnt junk ssort rsort grids R n ms ns id lay c mem L FR (fun i => map (fun q => (q, L q)) (N i)) cells red nlay NR)
      (start ms ns mem fields vv out nfields) S' /\
    forall r, (r < n)%nat -> k_field (p_c (S' r)) = at_member mem fields r /\
      forall p, pt_in (NR r) p ->
        (receiver_at (ns r) id p -> exists i j cell, donor_of ms id mem L cells p i j cell /\
           forall q, 0 <= q < cnt -> vals_at (p_n (S' r)) q (rindex nlay (NR r) p) =
             red i j cell (map (fun u => m q (home c cell u)) (in_order lay cell))) /\
        (~ receiver_at (ns r) id p -> forall q, 0 <= q < cnt ->
           vals_at (p_n (S' r)) q (rindex nlay (NR r) p) = vals_at (nfields r) q (rindex nlay (NR r) p)).
Proof. exact @exchange_computes. Qed.
Print Assumptions C69_exchange_partial.

(** C69 with interpolation, over the reals: if the values of the M grid are a polynomial on the donor cell, of degree at
    most 1 in each index for linear and 3 for cubic interpolation, then the receiver gets the value of the polynomial at
    the place of the donor; for nearest-point interpolation, the value at the nearest point.  Partial as above, and
    real arithmetic. *)
Theorem C69_interp_partial : forall cnt junk ssort rsort grids gr n ms ns id lay c mem L FR N cells nlay NR fields vv m out nfields ct nd coords,
  0 <= cnt -> (0 < n)%nat -> 0 < total_points grids ->
  exchangeable grids n ms ns id gr mem L cells NR ->
  distributed c (length mem) L N cells ->
  (forall i cell, (i < length mem)%nat -> In cell (cells i) -> lay = ColMajor \/ whole c (L i) cell) ->
  (forall i, (i < length mem)%nat -> has_values lay cnt (L i) (FR i) (fields i) m /\ Z.of_nat (length (vv i)) = cnt * max_vertices (cells i)) ->
  (forall r, (r < n)%nat -> sorts (ssort r) /\ sorts (rsort r)) ->
  (forall r, (r < n)%nat -> shaped cnt (length (n_points id (ns r))) (out r)) ->
  (forall r, (r < n)%nat -> shaped cnt (Z.to_nat (rcount (NR r))) (nfields r)) ->
  (forall i cell, (i < length mem)%nat -> In cell (cells i) -> fits_stencil ct nd cell) ->
  exists S',
    computes n (exchange cnt junk ssort rsort grids gr n ms ns id lay c mem L FR (fun i => map (fun q => (q, L q)) (N i)) cells
        (fun i => red_interp Rmult (fun a w v => (a + w * v)%R) 0%R junk (fun d o j => interp_coefs ct nd (coords i j) d o) lay) nlay NR)
      (start ms ns mem fields vv out nfields) S' /\
    forall r, (r < n)%nat -> k_field (p_c (S' r)) = at_member mem fields r /\
      forall p, pt_in (NR r) p ->
        (receiver_at (ns r) id p -> exists i j cell, donor_of ms id mem L cells p i j cell /\ forall q, 0 <= q < cnt ->
          (forall P, pdegree (exact_degree ct) P ->
             (forall u, pt_in cell u -> m q (home c cell u) = peval P (IZR (c0 u)) (IZR (c1 u)) (IZR (c2 u))) ->
             vals_at (p_n (S' r)) q (rindex nlay (NR r) p) =
               Some (peval P (located ct nd cell (coords i j) 0) (located ct nd cell (coords i j) 1) (located ct nd cell (coords i j) 2))) /\
          (ct = NEAREST -> vals_at (p_n (S' r)) q (rindex nlay (NR r) p) = Some (m q (home c cell (nearest nd cell (coords i j)))))) /\
        (~ receiver_at (ns r) id p -> forall q, 0 <= q < cnt ->
           vals_at (p_n (S' r)) q (rindex nlay (NR r) p) = vals_at (nfields r) q (rindex nlay (NR r) p)).
Proof. exact exchange_interp. Qed.
Print Assumptions C69_interp_partial.

(** Four ranks: grid 1 on the ranks 2, 0 and 1, with the points [0,2), [2,4) and [4,6); grid 2 on the ranks 3 and 1, with
    [0,3) and [3,5).  The cell [1,3), on ranks 2 and 0, gives to point 1, on rank 3, and the cell [4,6) to point 4; both are
    on rank 1. *)
Definition pp_grids : list (Z * range) := [(1, xx_line 0 6); (2, xx_line 0 5)].
Definition pp_ms (r : nat) : list mconn :=
  match r with
  | 0%nat => [MConn 1 2 (xx_line 2 4) [xx_d 1 1]] | 1%nat => [MConn 1 2 (xx_line 4 6) [xx_d 4 4]]
  | 2%nat => [MConn 1 2 (xx_line 0 2) [xx_d 1 1]] | _ => [] end.
Definition pp_ns (r : nat) : list nconn := match r with 1%nat => [NConn 1 2 [xx_r 4]] | 3%nat => [NConn 1 2 [xx_r 1]] | _ => [] end.
Definition pp_cells (i : nat) : list range := match i with 0%nat | 1%nat => [xx_line 1 3] | 2%nat => [xx_line 4 6] | _ => [] end.
Definition pp_N (i : nat) : list nat := match i with 0%nat => [1%nat] | 1%nat => [0%nat; 2%nat] | _ => [1%nat] end.
Definition pp_mem : list nat := [2; 0; 1]%nat.
Definition pp_NR (r : nat) : range := match r with 3%nat => xx_line 0 3 | 1%nat => xx_line 3 5 | _ => xx_line 0 0 end.
Definition pp_L : nat -> range := ex_L1 2 4.
Definition pp_m (_ : Z) (p : tup Z) : Z := 10 + c0 p.
Definition pp_fields (i : nat) : list (list Z) := rows_of ColMajor 1 (pp_L i) pp_m.
Definition pp_vv (i : nat) : list Z := [0; 0].
Definition pp_out (r : nat) : list (list Z) := match r with 1%nat | 3%nat => [[0]] | _ => [[]] end.
Definition pp_nfields (r : nat) : list (list Z) := match r with 3%nat => [[-1; -2; -3]] | 1%nat => [[-4; -5]] | _ => [[]] end.
Definition pp_sum (_ : nat) (_ : Z) (_ : range) (vals : list Z) : option Z := Some (fold_left Z.add vals 0).

Example C69_exchangeable : exchangeable pp_grids 4 pp_ms pp_ns (1, 2) (xx_line 0 5) pp_mem pp_L pp_cells pp_NR.
Proof.
  constructor.
  - split; [xx_nd|].
    intros r g p Hr H. destruct r as [|[|[|[|r]]]]; [| | | |lia]; (destruct H as [(mc & d & I & J & _ & _ & <- & <-)|(mc & d & I & J & _ & <- & <-)]); xx_in I; xx_in J;
      exists (xx_line 0 5); (split; [right; left; reflexivity|vm_compute; intuition congruence]).
  - constructor.
    1,2: intros r mc d Hr I J; destruct r as [|[|[|[|r]]]]; try lia; xx_in I; xx_in J; reflexivity.
    1,2: intros r Hr; destruct r as [|[|[|[|r]]]]; try lia; vm_compute; xx_nd.
    + intros i p; split; intros (r & mc & Hr & I & <- & P); destruct r as [|[|[|[|r]]]]; try lia; xx_in I; vm_compute in P;
        repeat (destruct P as [<-|P]; [first [exists 0%nat; eexists; split; [lia|]; split; [left; reflexivity|]; split; [reflexivity|]; vm_compute; tauto
          |exists 1%nat; eexists; split; [lia|]; split; [left; reflexivity|]; split; [reflexivity|]; vm_compute; tauto
          |exists 2%nat; eexists; split; [lia|]; split; [left; reflexivity|]; split; [reflexivity|]; vm_compute; tauto
          |exists 3%nat; eexists; split; [lia|]; split; [left; reflexivity|]; split; [reflexivity|]; vm_compute; tauto]|]); contradiction.
    + intros r r' mc mc' p Hr Hr' I I' G P P'. destruct r as [|[|[|[|r]]]]; try lia; destruct r' as [|[|[|[|r']]]]; try lia; xx_in I; xx_in I'; vm_compute in P, P'; (split; [|try reflexivity]); intuition congruence.
    + intros r r' mc mc' p Hr Hr' I I' G P P'. destruct r as [|[|[|[|r]]]]; try lia; destruct r' as [|[|[|[|r']]]]; try lia; xx_in I; xx_in I'; vm_compute in P, P'; (split; [|try reflexivity]); intuition congruence.
    + intros r mc Hr I. destruct r as [|[|[|[|r]]]]; try lia; xx_in I; vm_compute; xx_nd.
    + intros r mc Hr I. destruct r as [|[|[|[|r]]]]; try lia; xx_in I; vm_compute; xx_nd.
  - right; left; reflexivity.
  - split; [unfold pp_mem; xx_nd|]. intros r I. repeat (destruct I as [<-|I]; [lia|]). contradiction.
  - intros i r E. destruct i as [|[|[|i]]]; [injection E as <-|injection E as <-|injection E as <-|destruct i; discriminate E]; eexists; (split; [left; reflexivity|]); repeat split.
  - intros r mc Hr I _. destruct r as [|[|[|[|r]]]]; try lia; xx_in I; vm_compute; tauto.
  - intros r mc d Hr I _ J. destruct r as [|[|[|[|r]]]]; try lia; xx_in I; xx_in J; vm_compute; intuition congruence.
  - intros r nc y Hr I _ J. destruct r as [|[|[|[|r]]]]; try lia; xx_in I; xx_in J; vm_compute; intuition congruence.
  - intros r mc Hr I _. destruct r as [|[|[|[|r]]]]; try lia; xx_in I; vm_compute; congruence.
  - intros r nc Hr I _. destruct r as [|[|[|[|r]]]]; try lia; xx_in I; vm_compute; congruence.
Qed.

Example C69_hypotheses : 0 < total_points pp_grids /\ distributed ex_line (length pp_mem) pp_L pp_N pp_cells /\
  (forall i, (i < length pp_mem)%nat -> has_values ColMajor 1 (pp_L i) (pp_L i) (pp_fields i) pp_m /\ Z.of_nat (length (pp_vv i)) = 1 * max_vertices (pp_cells i) /\
     reduces (pp_sum i) (pp_cells i)) /\
  (forall r, (r < 4)%nat -> shaped 1 (length (n_points (1, 2) (pp_ns r))) (pp_out r) /\ shaped 1 (Z.to_nat (rcount (pp_NR r))) (pp_nfields r)) /\
  (forall i cell, (i < length pp_mem)%nat -> In cell (pp_cells i) -> fits_stencil LINEAR 1 cell).
Proof.
  split; [reflexivity|]. split; [|split; [|split]].
  - split; [apply ex_line_decomposed; lia|]. split; [|split; [apply listedb_ok; vm_compute; reflexivity|apply reachb_ok; vm_compute; reflexivity]].
    intros r Hr. ex_ranks r Hr; (split; [xx_nd|]); intros q I; repeat (destruct I as [<-|I]; [cbn; lia|]); contradiction.
  - intros i Hi. split; [apply rows_values; [lia|intros p H; exact H]|]. split; [ex_ranks i Hi; reflexivity|]. intros j cell vals _ _. discriminate.
  - intros r Hr. ex_ranks r Hr; (split; (split; [reflexivity|intros row I; repeat (destruct I as [<-|I]; [reflexivity|]); contradiction])).
  - intros i cell Hi I d Hd. ex_ranks i Hi; repeat (destruct I as [<-|I]; [ex_dims d|]); contradiction.
Qed.

(** 11 + 12 at point 1, 14 + 15 at point 4. *)
Example C69_execution :
  match final 4 (exchange 1 0 (fun _ => isort) (fun _ => isort) pp_grids (xx_line 0 5) 4 pp_ms pp_ns (1, 2) ColMajor ex_line pp_mem pp_L pp_L
      (fun i => map (fun q => (q, pp_L q)) (pp_N i)) pp_cells pp_sum ColMajor pp_NR) 20 1000 (start pp_ms pp_ns pp_mem pp_fields pp_vv pp_out pp_nfields) with
  | Some s => (p_n (n_st s 3%nat), p_n (n_st s 1%nat)) = ([[-1; 23; -3]], [[-4; 29]])
  | None => False
  end.
Proof. vm_compute. reflexivity. Qed.
