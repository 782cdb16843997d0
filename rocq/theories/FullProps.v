(** Property C80: from the cells found to the values exchanged, for all pairs of grids on all ranks. *)
From Coq Require Import List ZArith QArith Bool Lia Reals Qreals.
From Verif Require Import TupleModel RangeModel Base RangeProof CartModel CartProof DecompModel DecompProof IndexerModel ArrayModel HashModel.
From Verif Require Import ProtoModel ProtoSpec NetModel NetSpec NetProof DDecompProof NeighSpec FieldSpec HaloEx SendModel SendSpec SendLaws.
From Verif Require Import CollectModel CollectSpec CollectLaws EmbedModel CellModel XchModel XchSpec PipeModel PipeSpec OvlModel OvlSpec OvlEx ConModel ConSpec ConEx.
From Verif Require Import FullSpec FullProof FullLaws FullEx.
From Verif Require GeomSpec.
Import ListNotations.
Local Open Scope Z_scope.

(** C80. Whatever the programs of C78 and C79 compute from the cells found and the donor grids, in whatever execution, is a
    connectivity as the exchanges below need it. *)
Theorem C80_filled : forall n NL donor rm sort sort' dp dc P,
  (forall r, (r < n)%nat -> sorts (sort r)) -> (forall i, (i < length (gp_mem P))%nat -> sorts (sort' i)) ->
  made n NL donor rm sort sort' dp dc P -> filled n NL donor rm P.
Proof. exact @made_filled. Qed.
Print Assumptions C80_filled.

(** C80. The connectivities of all pairs of grids together can be exchanged (C69): donors and receivers fit together, no point
    gets its values twice, and the donor cells can be collected. *)
Theorem C80_exchangeable : forall grids n NL donor rm ps, assembled grids n NL donor rm ps -> forall P, In P ps ->
  exchangeable grids n (m_conns ps) (n_conns ps) (gp_id P) (gp_R P) (gp_mem P) (gp_L P) (donor_cells P) (NL (gp_n P)) /\
  distributed (gp_c P) (length (gp_mem P)) (gp_L P) (gp_NB P) (donor_cells P).
Proof. exact all_exchangeable. Qed.
Print Assumptions C80_exchangeable.

(** C80. However the messages interleave, after an exchange each point whose donor grid is the M grid has the reduction
    of the values at the vertices of the cell that was found for it, wherever these are; every other point has its old value.
    Partial as C69 is: column-major values of the M grid, or no donor cell that is on more than one rank. *)
Theorem C80_exchange_partial : forall V cnt (junk : V) ssort rsort grids n NL donor rm ps P lay FR red nlay fields vv m out nfields,
  0 <= cnt -> (0 < n)%nat -> 0 < total_points grids -> assembled grids n NL donor rm ps -> In P ps ->
  (forall i r d, nth_error (gp_mem P) i = Some r -> In d (gp_dons P r) -> lay = ColMajor \/ whole (gp_c P) (gp_L P i) (dr_ext d)) ->
  (forall i, (i < length (gp_mem P))%nat -> has_values lay cnt (gp_L P i) (FR i) (fields i) m /\
     Z.of_nat (length (vv i)) = cnt * max_vertices (donor_cells P i) /\ reduces (red i) (donor_cells P i)) ->
  (forall r, (r < n)%nat -> sorts (ssort r) /\ sorts (rsort r)) ->
  (forall r, (r < n)%nat -> shaped cnt (length (gp_recv P r)) (out r) /\ shaped cnt (Z.to_nat (rcount (NL (gp_n P) r))) (nfields r)) ->
  exists S',
    computes n (exchange cnt junk ssort rsort grids (gp_R P) n (m_conns ps) (n_conns ps) (gp_id P) lay (gp_c P) (gp_mem P) (gp_L P) FR
        (fun i => map (fun q => (q, gp_L P q)) (gp_NB P i)) (donor_cells P) red nlay (NL (gp_n P)))
      (start (m_conns ps) (n_conns ps) (gp_mem P) fields vv out nfields) S' /\
    forall r, (r < n)%nat -> k_field (p_c (S' r)) = at_member (gp_mem P) fields r /\
      (forall e, In e (gp_chosen donor P r) -> exists i j k d, pt_in (gp_L P i) (e_cell e) /\ nth_error (gp_mem P) i = Some k /\
         vread (gp_dons P k) j = Some d /\ dr_dest d = e_point e /\ dr_coords d = e_coords e /\
         let cell := cell_box (c_nd (gp_c P)) (e_cell e) in
         forall q, 0 <= q < cnt -> vals_at (p_n (S' r)) q (rindex nlay (NL (gp_n P) r) (e_point e)) =
           red i j cell (map (fun u => m q (home (gp_c P) cell u)) (in_order lay cell))) /\
      (forall p, pt_in (NL (gp_n P) r) p -> ~ In p (map e_point (gp_chosen donor P r)) -> forall q, 0 <= q < cnt ->
         vals_at (p_n (S' r)) q (rindex nlay (NL (gp_n P) r) p) = vals_at (nfields r) q (rindex nlay (NL (gp_n P) r) p)).
Proof. exact @full_exchange. Qed.
Print Assumptions C80_exchange_partial.

(** C80. With interpolation at the coordinates that were found, over the reals: if the values are a polynomial of degree at
    most 1 in each index on the cell, then the point gets the value of the polynomial at the place that was found, for linear
    interpolation; the value at the nearest vertex, for nearest-point interpolation.  Partial as above, and real arithmetic. *)
Theorem C80_interp_partial : forall cnt junk ssort rsort grids n NL donor rm ps P lay FR nlay fields vv m out nfields ct,
  0 <= cnt -> (0 < n)%nat -> 0 < total_points grids -> assembled grids n NL donor rm ps -> In P ps -> ct = NEAREST \/ ct = LINEAR ->
  (forall i r d, nth_error (gp_mem P) i = Some r -> In d (gp_dons P r) -> lay = ColMajor \/ whole (gp_c P) (gp_L P i) (dr_ext d)) ->
  (forall i, (i < length (gp_mem P))%nat -> has_values lay cnt (gp_L P i) (FR i) (fields i) m /\ Z.of_nat (length (vv i)) = cnt * max_vertices (donor_cells P i)) ->
  (forall r, (r < n)%nat -> sorts (ssort r) /\ sorts (rsort r)) ->
  (forall r, (r < n)%nat -> shaped cnt (length (gp_recv P r)) (out r) /\ shaped cnt (Z.to_nat (rcount (NL (gp_n P) r))) (nfields r)) ->
  exists S',
    computes n (exchange cnt junk ssort rsort grids (gp_R P) n (m_conns ps) (n_conns ps) (gp_id P) lay (gp_c P) (gp_mem P) (gp_L P) FR
        (fun i => map (fun q => (q, gp_L P q)) (gp_NB P i)) (donor_cells P)
        (fun i => red_interp Rmult (fun a w v => (a + w * v)%R) 0%R junk (fun d o j => interp_coefs ct (c_nd (gp_c P)) (donor_coords P i j) d o) lay) nlay (NL (gp_n P)))
      (start (m_conns ps) (n_conns ps) (gp_mem P) fields vv out nfields) S' /\
    forall r, (r < n)%nat -> k_field (p_c (S' r)) = at_member (gp_mem P) fields r /\
      (forall e, In e (gp_chosen donor P r) ->
         let cell := cell_box (c_nd (gp_c P)) (e_cell e) in
         let value q := vals_at (p_n (S' r)) q (rindex nlay (NL (gp_n P) r) (e_point e)) in
         forall q, 0 <= q < cnt ->
         (forall Y, pdegree (exact_degree ct) Y ->
            (forall u, pt_in cell u -> m q (home (gp_c P) cell u) = peval Y (IZR (c0 u)) (IZR (c1 u)) (IZR (c2 u))) ->
            value q = Some (peval Y (place (c_nd (gp_c P)) e 0) (place (c_nd (gp_c P)) e 1) (place (c_nd (gp_c P)) e 2))) /\
         (ct = NEAREST -> value q = Some (m q (home (gp_c P) cell (nearest (c_nd (gp_c P)) cell (fun d => Q2R (tget (e_coords e) d))))))) /\
      (forall p, pt_in (NL (gp_n P) r) p -> ~ In p (map e_point (gp_chosen donor P r)) -> forall q, 0 <= q < cnt ->
         vals_at (p_n (S' r)) q (rindex nlay (NL (gp_n P) r) p) = vals_at (nfields r) q (rindex nlay (NL (gp_n P) r) p)).
Proof. exact @full_interp. Qed.
Print Assumptions C80_interp_partial.

(** C80. In physical space: if the cells that were found have parallel edges, and the coordinates found are those of the
    point (C75), then after an exchange with linear interpolation of an affine function of the physical coordinates each
    receiver has its value at the point itself.  Partial as above. *)
Theorem C80_physical_partial : forall cnt junk ssort rsort grids n NL donor rm ps P lay FR nlay fields vv m out nfields X x a b,
  0 <= cnt -> (0 < n)%nat -> 0 < total_points grids -> assembled grids n NL donor rm ps -> In P ps -> (1 <= c_nd (gp_c P) <= 3)%nat ->
  (forall i r d, nth_error (gp_mem P) i = Some r -> In d (gp_dons P r) -> lay = ColMajor \/ whole (gp_c P) (gp_L P i) (dr_ext d)) ->
  (forall i, (i < length (gp_mem P))%nat -> has_values lay cnt (gp_L P i) (FR i) (fields i) m /\ Z.of_nat (length (vv i)) = cnt * max_vertices (donor_cells P i)) ->
  (forall r, (r < n)%nat -> sorts (ssort r) /\ sorts (rsort r)) ->
  (forall r, (r < n)%nat -> shaped cnt (length (gp_recv P r)) (out r) /\ shaped cnt (Z.to_nat (rcount (NL (gp_n P) r))) (nfields r)) ->
  (forall r e, (r < n)%nat -> In e (gp_chosen donor P r) ->
     GeomSpec.parallel (c_nd (gp_c P)) X (e_cell e) /\ GeomSpec.located (c_nd (gp_c P)) X (e_cell e) (e_coords e) (x (e_point e)) /\
     let cell := cell_box (c_nd (gp_c P)) (e_cell e) in
     forall q u, 0 <= q < cnt -> pt_in cell u -> m q (home (gp_c P) cell u) = affine (c_nd (gp_c P)) (a q) (b q) (X u)) ->
  exists S',
    computes n (exchange cnt junk ssort rsort grids (gp_R P) n (m_conns ps) (n_conns ps) (gp_id P) lay (gp_c P) (gp_mem P) (gp_L P) FR
        (fun i => map (fun q => (q, gp_L P q)) (gp_NB P i)) (donor_cells P)
        (fun i => red_interp Rmult (fun a w v => (a + w * v)%R) 0%R junk (fun d o j => interp_coefs LINEAR (c_nd (gp_c P)) (donor_coords P i j) d o) lay) nlay (NL (gp_n P)))
      (start (m_conns ps) (n_conns ps) (gp_mem P) fields vv out nfields) S' /\
    forall r e q, (r < n)%nat -> In e (gp_chosen donor P r) -> 0 <= q < cnt ->
      vals_at (p_n (S' r)) q (rindex nlay (NL (gp_n P) r) (e_point e)) = Some (affine (c_nd (gp_c P)) (a q) (b q) (x (e_point e))).
Proof. exact @full_physical. Qed.
Print Assumptions C80_physical_partial.

(** Two pairs of grids on five ranks: an M grid and, on a grid of four points, two receivers that get values from it and one that
    gets them from another grid.  The hypotheses hold; the values after an execution. *)
Example C80_example : assembled fu_grids 5 (fun _ => co_NL) (fun _ => co_donor) (fun _ => co_rm) fu_ps /\ In fu_P fu_ps /\
  made 5 (fun _ => co_NL) (fun _ => co_donor) (fun _ => co_rm) (fun _ => isort) (fun _ => isort) (T3 (-1) 0 0) (T3 (-1) (-1) 0) fu_P.
Proof. split; [exact fu_assembled|]. split; [left; reflexivity|exact fu_made7]. Qed.
Example C80_hypotheses : 0 < total_points fu_grids /\
  (forall i, (i < 4)%nat -> has_values ColMajor 1 (ex_L i) (ex_L i) (fu_fields i) fu_m /\ Z.of_nat (length (fu_vv i)) = 1 * max_vertices (donor_cells fu_P i) /\
     reduces (fu_sum i) (donor_cells fu_P i)) /\
  (forall r, (r < 5)%nat -> shaped 1 (length (gp_recv fu_P r)) (fu_out r) /\ shaped 1 (Z.to_nat (rcount (co_NL r))) (fu_old r)) /\
  map (fun r => map e_point (gp_chosen (fun _ => co_donor) fu_P r)) (seq 0 5) = [[]; [T3 2 0 0]; []; []; [T3 0 0 0]].
Proof. exact fu_hypotheses. Qed.
Example C80_physical_hypotheses : forall (a : Z -> nat -> R) (b : Z -> R) r e, (r < 5)%nat -> In e (gp_chosen (fun _ => co_donor) fu_P r) ->
  GeomSpec.parallel 2 fu_X (e_cell e) /\ GeomSpec.located 2 fu_X (e_cell e) (e_coords e) (fu_x (e_point e)) /\
  let cell := cell_box 2 (e_cell e) in
  forall q u, 0 <= q < 1 -> pt_in cell u -> affine 2 (a q) (b q) (fu_X (home ex_c cell u)) = affine 2 (a q) (b q) (fu_X u).
Proof. exact fu_physical. Qed.
Example C80_execution :
match final 5 (exchange 1 0 (fun _ => isort) (fun _ => isort) fu_grids ov_R 5 (m_conns fu_ps) (n_conns fu_ps) (7, 8) ColMajor ex_c ov_mem ex_L ex_L
      (fun i => map (fun q => (q, ex_L q)) (co_NB i)) (donor_cells fu_P) fu_sum ColMajor co_NL) 20 2000 (start (m_conns fu_ps) (n_conns fu_ps) ov_mem fu_fields fu_vv fu_out fu_old) with
  | Some s => map (fun r => p_n (n_st s r)) (seq 0 5) = [[[]]; [[70; -4]]; [[]]; [[]]; [[106; -2]]]
  | None => False
  end.
Proof. exact fu_execution. Qed.
