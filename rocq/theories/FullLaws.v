(** A whole exchange over the connectivities assembled: proofs for C80. *)
From Coq Require Import List ZArith QArith Bool Lia Sorting.Sorted Reals Qreals Lra.
From Verif Require Import TupleModel RangeModel Base RangeProof CartModel CartProof DecompModel DecompProof IndexerModel ArrayModel HashModel HashProof.
From Verif Require Import ProtoModel ProtoSpec NetModel NetSpec NetProof DDecompProof EmbedModel EmbedProof NeighSpec NeighProof FieldSpec FieldProof.
From Verif Require Import SendModel SendSpec SendProof SendLaws CellModel CollectModel CollectSpec CollectLaws XchModel XchSpec XchProof PipeModel PipeSpec PipeProof PipeLaws.
From Verif Require Import OvlModel OvlSpec OvlProof OvlLaws ConModel ConSpec ConProof ConLaws ConEx FullSpec FullProof.
From Verif Require GeomSpec.
Import ListNotations.
Local Open Scope Z_scope.

(** ** The result of a program does not depend on the execution. *)
Lemma stuck_dec {St Msg} n (prog : list (phase St Msg)) c : stuck (nstep true n prog) c \/ exists l c', nstep true n prog c l = Some c'.
Proof.
  set (k := fold_right Nat.max 0%nat (map (open_recvs prog c) (seq 0 n))).
  assert (K : forallb (fun r => Nat.leb (open_recvs prog c r) k) (seq 0 n) = true).
  { apply forallb_forall. intros r Hr. apply Nat.leb_le. unfold k. clear k. induction (seq 0 n) as [|a l IH]; [contradiction|]. cbn [map fold_right].
    destruct Hr as [->|Hr]; [lia|]. specialize (IH Hr). lia. }
  destruct (forallb (fun l => match nstep true n prog c l with Some _ => false | None => true end) (labels n k)) eqn:E.
  - left. apply (stuck_check_ok n prog k). unfold stuck_check. rewrite K. exact E.
  - right. assert (X : exists l, match nstep true n prog c l with Some _ => false | None => true end = false).
    { clear -E. induction (labels n k) as [|a l IH]; [discriminate|]. cbn [forallb] in E. destruct (nstep true n prog c a) eqn:F; [exists a; rewrite F; reflexivity|apply IH, E]. }
    destruct X as (l & X). exists l. destruct (nstep true n prog c l); [eauto|discriminate].
Qed.

Lemma stuck_reached {St Msg} n (prog : list (phase St Msg)) S S' : computes n prog S S' ->
  exists ls c, run (nstep true n prog) (net0 S) ls = Some c /\ stuck (nstep true n prog) c.
Proof.
  intros (bound & H). assert (G : forall m ls c, run (nstep true n prog) (net0 S) ls = Some c -> (bound <= length ls + m)%nat ->
    exists ls c, run (nstep true n prog) (net0 S) ls = Some c /\ stuck (nstep true n prog) c).
  { assert (RA : forall ls s l c c', run (nstep true n prog) s ls = Some c -> nstep true n prog c l = Some c' -> run (nstep true n prog) s (ls ++ [l]) = Some c').
    { induction ls as [|a ls IH]; intros s l c c' E1 E2; cbn [run app] in *; [injection E1 as <-; rewrite E2; reflexivity|].
      destruct (nstep true n prog s a); [eapply IH; eauto|discriminate]. }
    induction m as [|m IH]; intros ls c E B; destruct (stuck_dec n prog c) as [St'|(l & c' & E')]; eauto.
    - exfalso. specialize (RA _ _ _ _ _ E E'). destruct (H _ _ _ RA) as (L & _). rewrite app_length in L. cbn in L. lia.
    - apply (IH (ls ++ [l]) c' (RA _ _ _ _ _ E E')). rewrite app_length. cbn. lia. }
  apply (G bound [] (net0 S)); [reflexivity|cbn; lia].
Qed.

Lemma computes_once {St Msg} n (prog : list (phase St Msg)) S S1 S2 : computes n prog S S1 -> computes n prog S S2 -> forall r, (r < n)%nat -> S1 r = S2 r.
Proof.
  intros H1 H2 r Hr. destruct (stuck_reached n prog S S1 H1) as (ls & c & E & St'). destruct H1 as (b1 & H1). destruct H2 as (b2 & H2).
  destruct (H1 _ _ _ E) as (_ & A1 & F). destruct (H2 _ _ _ E) as (_ & A2 & _). rewrite <- (A1 r Hr), <- (A2 r Hr); auto.
Qed.

Theorem made_filled n NL donor rm sort sort' dp dc P : (forall r, (r < n)%nat -> sorts (sort r)) -> (forall i, (i < length (gp_mem P))%nat -> sorts (sort' i)) ->
  made n NL donor rm sort sort' dp dc P -> filled n NL donor rm P.
Proof.
  intros HS HS' (HI & SO & HB & HL & HDn & HM & (S1 & C1 & E1) & (S2 & C2 & E2)).
  destruct (fill_correct (gp_c P) n (gp_mem P) (gp_L P) (gp_R P) (gp_D P) (gp_MG P) (gp_NG P) sort HI HS) as (S1' & C1' & A1 & A2 & A3).
  pose proof (computes_once _ _ _ _ _ C1 C1') as Q1.
  assert (CI : conn_input (gp_c P) n (gp_mem P) (gp_L P) (gp_R P) (gp_D P) (gp_MG P) (gp_NG P) (gp_NB P) (gp_M P) (gp_N P) (NL (gp_n P)) (donor (gp_n P)) (rm (gp_n P)) (gp_m P)).
  { constructor.
    - exact HI.
    - intros i r Hi. assert (Hr : (r < n)%nat) by (apply (oi_mem _ _ _ _ _ _ _ _ HI); eapply nth_error_In; eauto).
      rewrite (proj1 (E1 r Hr)), (Q1 r Hr). apply (A1 i r Hi).
    - intros r Hr Nr. rewrite (proj1 (E1 r Hr)), (Q1 r Hr). apply (A2 r Hr Nr).
    - intros q Hq. rewrite (proj2 (E1 q Hq)), (Q1 q Hq). apply (A3 q Hq).
    - exact HB.
    - intros q Hq. destruct (HL q Hq) as (X & Y & _). auto.
    - intros q Hq. apply (HL q Hq).
    - exact HDn.
    - exact HM. }
  destruct (fill_computes (gp_c P) n (gp_mem P) (gp_L P) (gp_R P) (gp_D P) (gp_MG P) (gp_NG P) (gp_NB P) (gp_M P) (gp_N P) (NL (gp_n P)) (donor (gp_n P)) (rm (gp_n P)) (gp_m P) sort' dp dc CI SO HS')
    as (S2' & C2' & B1 & B2 & B3).
  pose proof (computes_once _ _ _ _ _ C2 C2') as Q2.
  split; [exact CI|]. split; [exact SO|]. split.
  - intros i r Hi. assert (Hr : (r < n)%nat) by (apply (oi_mem _ _ _ _ _ _ _ _ HI); eapply nth_error_In; eauto).
    rewrite (proj1 (E2 r Hr)), (Q2 r Hr). apply (B1 i r Hi).
  - intros q Hq. rewrite (proj2 (E2 q Hq)), (Q2 q Hq). apply (B3 q Hq).
Qed.

Section Exchange.
Variables (grids : list (Z * range)) (n : nat) (NL : Z -> nat -> range)
  (donor : Z -> nat -> tup Z -> Z) (rm : Z -> nat -> tup Z -> bool) (ps : list pair) (P : pair).
Hypothesis HA : assembled grids n NL donor rm ps.
Hypothesis HP : In P ps.
Notation E := (gp_chosen donor P).

Let fl : filled n NL donor rm P. Proof. exact (as_filled _ _ _ _ _ _ HA P HP). Qed.

Lemma receiver_chosen r p : (r < n)%nat -> receiver_at (n_conns ps r) (gp_id P) p <-> In p (map e_point (E r)).
Proof.
  intros Hr. split.
  - intros (nc & H & Ei & Hp). apply (n_conns_In ps) in H as (P' & HP' & _ & ->). assert (P' = P) as -> by (apply (same_pair grids n NL donor rm ps HA); auto).
    apply (receiver_point n NL donor rm P fl r p Hr) in Hp as (e & He & <-). apply in_map, He.
  - intros H. apply in_map_iff in H as (e & <- & He). exists (n_conn P r). split; [|split; [reflexivity|apply (receiver_point n NL donor rm P fl); eauto]].
    apply (n_conns_In ps). exists P. split; [exact HP|]. split; [|reflexivity]. destruct (in_dec Nat.eq_dec r (gp_nmem P)) as [|Nr]; [assumption|].
    apply chosen_D in He as [He _]. rewrite (as_nmem _ _ _ _ _ _ HA P r HP Hr Nr) in He. contradiction.
Qed.

(** The donor of a receiver. *)
Lemma donor_chosen r e i j cell : (r < n)%nat -> In e (E r) -> donor_of (m_conns ps) (gp_id P) (gp_mem P) (gp_L P) (donor_cells P) (e_point e) i j cell ->
  pt_in (gp_L P i) (e_cell e) /\ cell = cell_box (c_nd (gp_c P)) (e_cell e) /\
  exists k d, nth_error (gp_mem P) i = Some k /\ vread (gp_dons P k) j = Some d /\ dr_dest d = e_point e /\ dr_coords d = e_coords e.
Proof.
  intros Hr He (k & mc & d & Hi & Hm & Em & Hd & Ep & Hc & Hl).
  apply (m_conns_In grids n NL donor rm ps HA) in Hm as (P' & i' & HP' & Hi' & ->). assert (P' = P) as -> by (apply (same_pair grids n NL donor rm ps HA); auto).
  assert (i' = i) as ->. { pose proof (proj1 (pair_mem n NL donor rm P fl)) as ND. rewrite NoDup_nth_error in ND. apply ND; [apply nth_error_Some; congruence|congruence]. }
  cbn [m_conn mc_donors] in Hd. rewrite vread_fmap in Hd. unfold donor_cells in Hc. rewrite Hi, vread_fmap in Hc.
  destruct (vread (gp_dons P k) j) as [x|] eqn:Ex; [|discriminate]. cbn [option_map] in *. injection Hd as <-. injection Hc as <-. cbn [d_point] in Ep.
  destruct (own_donors n NL donor rm P fl i k x Hi (vread_In _ _ _ Ex) Hl) as (q & e' & Hq & He' & E1 & E2 & Hl' & E3).
  destruct (chosen_same n NL donor rm P fl r q e e' Hr Hq He He' ltac:(congruence)) as [<- <-].
  split; [exact Hl'|]. split; [exact E3|]. exists k, x. auto.
Qed.

Lemma points_recv r : (r < n)%nat -> length (n_points (gp_id P) (n_conns ps r)) = length (gp_recv P r).
Proof.
  intros Hr. unfold n_points. destruct (in_dec Nat.eq_dec r (gp_nmem P)) as [I|Nr].
  - assert (In (n_conn P r) (n_conns ps r)) by (apply (n_conns_In ps); eauto).
    change (gp_id P) with (n_id (n_conn P r)). rewrite (of_id_map n_id (fun nc => map r_point (nc_receivers nc)) (n_conns ps r) (n_conn P r)); [|apply (fit_n_id _ _ _ (all_fitting grids n NL donor rm ps HA) r Hr)|assumption].
    cbn [n_conn nc_receivers]. rewrite !map_length. reflexivity.
  - rewrite of_id_none.
    + destruct fl as (_ & _ & _ & HR). rewrite (HR r Hr). unfold gp_chosen, chosen. rewrite (as_nmem _ _ _ _ _ _ HA P r HP Hr Nr). reflexivity.
    + intros nc H Ei. apply (n_conns_In ps) in H as (P' & HP' & I & ->). assert (P' = P) as -> by (apply (same_pair grids n NL donor rm ps HA); auto). contradiction.
Qed.

Lemma donor_cells_In i cell : (i < length (gp_mem P))%nat -> In cell (donor_cells P i) -> exists r d, nth_error (gp_mem P) i = Some r /\ In d (gp_dons P r) /\ cell = dr_ext d.
Proof.
  intros Hi H. unfold donor_cells in H. destruct (nth_error (gp_mem P) i) as [r|] eqn:Er; [|contradiction]. apply in_map_iff in H as (d & <- & Hd). eauto.
Qed.
Lemma donor_fits ct i cell : ct = NEAREST \/ ct = LINEAR -> (i < length (gp_mem P))%nat -> In cell (donor_cells P i) -> fits_stencil ct (c_nd (gp_c P)) cell.
Proof.
  intros Hct Hi H. destruct (donor_cells_In i cell Hi H) as (r & d & Hr & Hd & ->). destruct (pair_donors n NL donor rm P fl i r Hr) as (_ & H2 & _).
  destruct (H2 d Hd) as (q & e & u & _ & _ & _ & _ & _ & _ & -> & _). intros k Hk. unfold cell_box. cbn [rb re]. rewrite !tget_tmake by exact Hk.
  assert (stencil_size ct = 2) as -> by (destruct Hct as [-> | ->]; reflexivity). destruct (Nat.ltb k _); lia.
Qed.
End Exchange.

Theorem full_exchange V cnt (junk : V) ssort rsort grids n NL donor rm ps P lay FR red nlay fields vv m out nfields :
  0 <= cnt -> (0 < n)%nat -> 0 < total_points grids -> assembled grids n NL donor rm ps -> In P ps ->
  (forall i r d, nth_error (gp_mem P) i = Some r -> In d (gp_dons P r) -> lay = ColMajor \/ whole (gp_c P) (gp_L P i) (dr_ext d)) ->
  (forall i, (i < length (gp_mem P))%nat -> has_values lay cnt (gp_L P i) (FR i) (fields i) m /\
     Z.of_nat (length (vv i)) = cnt * max_vertices (donor_cells P i) /\ reduces (red i) (donor_cells P i)) ->
  (forall r, (r < n)%nat -> sorts (ssort r) /\ sorts (rsort r)) ->
  (forall r, (r < n)%nat -> shaped cnt (length (gp_recv P r)) (out r) /\ shaped cnt (Z.to_nat (rcount (NL (gp_n P) r))) (nfields r)) ->
  exists S',
    computes n (exchange cnt junk ssort rsort grids (gp_R P) n (m_conns ps) (n_conns ps) (gp_id P) lay (gp_c P) (gp_mem P) (gp_L P) FR
        (fun i => map (fun q => (q, gp_L P q)) (gp_NB P i)) (donor_cells P) red nlay (NL (gp_n P)))
      (start (m_conns ps) (n_conns ps) (gp_mem P) fields vv out nfields) S' /\
    forall r, (r < n)%nat -> k_field (p_c (S' r)) = at_member (gp_mem P) fields r /\
      (forall e, In e (gp_chosen donor P r) -> exists i j k d, pt_in (gp_L P i) (e_cell e) /\ nth_error (gp_mem P) i = Some k /\
         vread (gp_dons P k) j = Some d /\ dr_dest d = e_point e /\ dr_coords d = e_coords e /\
         let cell := cell_box (c_nd (gp_c P)) (e_cell e) in
         forall q, 0 <= q < cnt -> vals_at (p_n (S' r)) q (rindex nlay (NL (gp_n P) r) (e_point e)) =
           red i j cell (map (fun u => m q (home (gp_c P) cell u)) (in_order lay cell))) /\
      (forall p, pt_in (NL (gp_n P) r) p -> ~ In p (map e_point (gp_chosen donor P r)) -> forall q, 0 <= q < cnt ->
         vals_at (p_n (S' r)) q (rindex nlay (NL (gp_n P) r) p) = vals_at (nfields r) q (rindex nlay (NL (gp_n P) r) p)).
Proof.
  intros HC Hn Ht HA HP HW HM HS HO. destruct (all_exchangeable grids n NL donor rm ps HA P HP) as [HX HD].
  destruct (exchange_computes V cnt junk ssort rsort grids (gp_R P) n (m_conns ps) (n_conns ps) (gp_id P) lay (gp_c P) (gp_mem P) (gp_L P) FR (gp_NB P) (donor_cells P) red nlay (NL (gp_n P))
    fields vv m out nfields HC Hn Ht HX HD) as (S' & C & H); auto.
  - intros i cell Hi Hc. destruct (donor_cells_In P i cell Hi Hc) as (r & d & Hr & Hd & ->). eauto.
  - intros r Hr. rewrite (points_recv grids n NL donor rm ps P HA HP r Hr). apply (HO r Hr).
  - intros r Hr. apply (HO r Hr).
  - exists S'. split; [exact C|]. intros r Hr. destruct (H r Hr) as (H1 & H2). split; [exact H1|]. split.
    + intros e He. pose proof (as_filled _ _ _ _ _ _ HA P HP) as fl. destruct (H2 (e_point e) (chosen_local n NL donor rm P fl r e Hr He)) as (H3 & _).
      destruct H3 as (i & j & cell & Hd & Hv); [apply (receiver_chosen grids n NL donor rm ps P HA HP r _ Hr), in_map, He|].
      destruct (donor_chosen grids n NL donor rm ps P HA HP r e i j cell Hr He Hd) as (Hl & -> & k & d & K1 & K2 & K3 & K4).
      exists i, j, k, d. repeat (split; [assumption|]). exact Hv.
    + intros p Hp Nr. destruct (H2 p Hp) as (_ & H4). apply H4. intros X. apply Nr. apply (receiver_chosen grids n NL donor rm ps P HA HP r p Hr), X.
Qed.

Theorem full_interp cnt junk ssort rsort grids n NL donor rm ps P lay FR nlay fields vv m out nfields ct :
  0 <= cnt -> (0 < n)%nat -> 0 < total_points grids -> assembled grids n NL donor rm ps -> In P ps -> ct = NEAREST \/ ct = LINEAR ->
  (forall i r d, nth_error (gp_mem P) i = Some r -> In d (gp_dons P r) -> lay = ColMajor \/ whole (gp_c P) (gp_L P i) (dr_ext d)) ->
  (forall i, (i < length (gp_mem P))%nat -> has_values lay cnt (gp_L P i) (FR i) (fields i) m /\ Z.of_nat (length (vv i)) = cnt * max_vertices (donor_cells P i)) ->
  (forall r, (r < n)%nat -> sorts (ssort r) /\ sorts (rsort r)) ->
  (forall r, (r < n)%nat -> shaped cnt (length (gp_recv P r)) (out r) /\ shaped cnt (Z.to_nat (rcount (NL (gp_n P) r))) (nfields r)) ->
  exists S',
    computes n (exchange cnt junk ssort rsort grids (gp_R P) n (m_conns ps) (n_conns ps) (gp_id P) lay (gp_c P) (gp_mem P) (gp_L P) FR
        (fun i => map (fun q => (q, gp_L P q)) (gp_NB P i)) (donor_cells P)
        (fun i => red_interp Rmult (fun a w v => (a + w * v)%R) 0%R junk (fun d o j => interp_coefs ct (c_nd (gp_c P)) (donor_coords P i j) d o) lay) nlay (NL (gp_n P)))
      (start (m_conns ps) (n_conns ps) (gp_mem P) fields vv out nfields) S' /\
    forall r, (r < n)%nat -> k_field (p_c (S' r)) = at_member (gp_mem P) fields r /\
      (forall e, In e (gp_chosen donor P r) ->
         let cell := cell_box (c_nd (gp_c P)) (e_cell e) in
         let value q := vals_at (p_n (S' r)) q (rindex nlay (NL (gp_n P) r) (e_point e)) in
         forall q, 0 <= q < cnt ->
         (forall Y, pdegree (exact_degree ct) Y ->
            (forall u, pt_in cell u -> m q (home (gp_c P) cell u) = peval Y (IZR (c0 u)) (IZR (c1 u)) (IZR (c2 u))) ->
            value q = Some (peval Y (place (c_nd (gp_c P)) e 0) (place (c_nd (gp_c P)) e 1) (place (c_nd (gp_c P)) e 2))) /\
         (ct = NEAREST -> value q = Some (m q (home (gp_c P) cell (nearest (c_nd (gp_c P)) cell (fun d => Q2R (tget (e_coords e) d))))))) /\
      (forall p, pt_in (NL (gp_n P) r) p -> ~ In p (map e_point (gp_chosen donor P r)) -> forall q, 0 <= q < cnt ->
         vals_at (p_n (S' r)) q (rindex nlay (NL (gp_n P) r) p) = vals_at (nfields r) q (rindex nlay (NL (gp_n P) r) p)).
Proof.
  intros HC Hn Ht HA HP Hct HW HM HS HO. destruct (all_exchangeable grids n NL donor rm ps HA P HP) as [HX HD].
  destruct (exchange_interp cnt junk ssort rsort grids (gp_R P) n (m_conns ps) (n_conns ps) (gp_id P) lay (gp_c P) (gp_mem P) (gp_L P) FR (gp_NB P) (donor_cells P) nlay (NL (gp_n P))
    fields vv m out nfields ct (c_nd (gp_c P)) (donor_coords P) HC Hn Ht HX HD) as (S' & C & H); auto.
  - intros i cell Hi Hc. destruct (donor_cells_In P i cell Hi Hc) as (r & d & Hr & Hd & ->). eauto.
  - intros r Hr. rewrite (points_recv grids n NL donor rm ps P HA HP r Hr). apply (HO r Hr).
  - intros r Hr. apply (HO r Hr).
  - intros i cell Hi Hc. apply (donor_fits grids n NL donor rm ps P HA HP ct i cell Hct Hi Hc).
  - exists S'. split; [exact C|]. intros r Hr. destruct (H r Hr) as (H1 & H2). split; [exact H1|]. pose proof (as_filled _ _ _ _ _ _ HA P HP) as fl. split.
    + intros e He cell value q Hq. destruct (H2 (e_point e) (chosen_local n NL donor rm P fl r e Hr He)) as (H3 & _).
      destruct H3 as (i & j & cell' & Hd & Hv); [apply (receiver_chosen grids n NL donor rm ps P HA HP r _ Hr), in_map, He|].
      destruct (donor_chosen grids n NL donor rm ps P HA HP r e i j cell' Hr He Hd) as (Hl & -> & k & d & K1 & K2 & K3 & K4).
      assert (DC : forall x, donor_coords P i j x = Q2R (tget (e_coords e) x)) by (intros x; unfold donor_coords; rewrite K1, K2, K4; reflexivity).
      assert (B : rb cell = e_cell e) by (apply (box_lower n NL donor rm P fl e r (e_cell e) Hr He), is_image_refl).
      assert (LC : forall x, (x < 3)%nat -> PipeSpec.located ct (c_nd (gp_c P)) cell (donor_coords P i j) x = place (c_nd (gp_c P)) e x).
      { intros x Hx. unfold PipeSpec.located, place. rewrite B, DC. destruct (Nat.ltb x _); [|reflexivity]. destruct Hct as [-> | ->]; ring. }
      destruct (Hv q Hq) as (V1 & V2). split.
      * intros Y DY HY. unfold value. rewrite (V1 Y DY HY). fold cell. rewrite !LC by lia. reflexivity.
      * intros E. unfold value. rewrite (V2 E). fold cell. do 3 f_equal. unfold nearest. apply tup_ext. intros x Hx. rewrite !tget_tmake by exact Hx. rewrite DC. reflexivity.
    + intros p Hp Nr. destruct (H2 p Hp) as (_ & H4). apply H4. intros X. apply Nr. apply (receiver_chosen grids n NL donor rm ps P HA HP r p Hr), X.
Qed.

(** ** Functions of the physical coordinates *)
Definition index_poly (k : R) (a : nat -> R) : poly := [(k, (0, 0, 0)%nat); (a 0%nat, (1, 0, 0)%nat); (a 1%nat, (0, 1, 0)%nat); (a 2%nat, (0, 0, 1)%nat)].
Lemma index_poly_degree k a : pdegree 1 (index_poly k a).
Proof. intros t [<-|[<-|[<-|[<-|[]]]]]; cbn; lia. Qed.
Lemma index_poly_value k a x y z : peval (index_poly k a) x y z = (k + a 0%nat * x + a 1%nat * y + a 2%nat * z)%R.
Proof. cbn. ring. Qed.

(** On a cell with parallel edges an affine function of the coordinates is affine in the indices. *)
Definition edge_rate (nd : nat) (X : tup Z -> tup Q) (cell : tup Z) (a : nat -> R) (e : nat) : R :=
  if Nat.ltb e nd then fold_right (fun d s => (a d * Q2R (GeomSpec.side X cell e d) + s)%R) 0%R (seq 0 nd) else 0%R.
Lemma located_affine nd X cell u x a b : (1 <= nd <= 3)%nat -> GeomSpec.located nd X cell u x ->
  affine nd a b x = (affine nd a b (X cell) + edge_rate nd X cell a 0 * Q2R (tget u 0) + edge_rate nd X cell a 1 * Q2R (tget u 1) + edge_rate nd X cell a 2 * Q2R (tget u 2))%R.
Proof.
  intros Hnd H. assert (G : forall d, (d < nd)%nat -> Q2R (tget x d) = fold_right (fun e s => (Q2R (tget u e) * Q2R (GeomSpec.side X cell e d) + s)%R) (Q2R (tget (X cell) d)) (seq 0 nd)).
  { intros d Hd. rewrite (Qeq_eqR _ _ (H d Hd)). rewrite Q2R_plus. generalize (seq 0 nd). induction l as [|e l IH]; cbn [map GeomSpec.qtotal fold_right].
    - rewrite RMicromega.Q2R_0. ring.
    - unfold GeomSpec.qtotal in IH. rewrite Q2R_plus, Q2R_mult, <- IH. ring. }
  unfold affine, edge_rate. destruct nd as [|[|[|[|nd]]]]; [lia| | | |lia]; cbn [seq fold_right Nat.ltb Nat.leb].
  - rewrite (G 0%nat) by lia. cbn [seq fold_right]. ring.
  - rewrite (G 0%nat), (G 1%nat) by lia. cbn [seq fold_right]. ring.
  - rewrite (G 0%nat), (G 1%nat), (G 2%nat) by lia. cbn [seq fold_right]. ring.
Qed.

Lemma box_corners nd e u : (1 <= nd <= 3)%nat -> (forall d, (nd <= d < 3)%nat -> tget e d = 0) -> pt_in (cell_box nd e) u -> exists o, In o (GeomSpec.corners nd) /\ u = tadd e o.
Proof.
  intros Hnd F H. rewrite pt_in_tget in H. pose proof (H 0%nat ltac:(lia)) as H0. pose proof (H 1%nat ltac:(lia)) as H1. pose proof (H 2%nat ltac:(lia)) as H2.
  unfold cell_box in H0, H1, H2. cbn [rb re] in H0, H1, H2. rewrite !tget_tmake in H0, H1, H2 by lia.
  exists (T3 (c0 u - c0 e) (c1 u - c1 e) (c2 u - c2 e)). destruct e as [e0 e1 e2], u as [u0 u1 u2]. cbn [c0 c1 c2]. split; [|unfold tadd, tmake; cbn [tget c0 c1 c2]; f_equal; ring].
  destruct nd as [|[|[|[|nd]]]]; [lia| | | |lia]; cbn [Nat.ltb Nat.leb tget c0 c1 c2] in *.
  - pose proof (F 1%nat ltac:(lia)) as F1. pose proof (F 2%nat ltac:(lia)) as F2. cbn in F1, F2. subst.
    assert (u1 - 0 = 0) as -> by lia. assert (u2 - 0 = 0) as -> by lia. assert (u0 - e0 = 0 \/ u0 - e0 = 1) as [-> | ->] by lia; cbn; auto.
  - pose proof (F 2%nat ltac:(lia)) as F2. cbn in F2. subst. assert (u2 - 0 = 0) as -> by lia.
    assert (u0 - e0 = 0 \/ u0 - e0 = 1) as [-> | ->] by lia; assert (u1 - e1 = 0 \/ u1 - e1 = 1) as [-> | ->] by lia; cbn; auto 6.
  - assert (u0 - e0 = 0 \/ u0 - e0 = 1) as [-> | ->] by lia; assert (u1 - e1 = 0 \/ u1 - e1 = 1) as [-> | ->] by lia;
      assert (u2 - e2 = 0 \/ u2 - e2 = 1) as [-> | ->] by lia; cbn; auto 10.
Qed.

Lemma Q2R_inject z : Q2R (inject_Z z) = IZR z.
Proof. unfold Q2R, inject_Z. cbn. field. Qed.

(** The polynomial in the indices, and its value at the place of a point. *)
Lemma affine_poly nd X e x a b : (1 <= nd <= 3)%nat -> (forall d, (nd <= d < 3)%nat -> tget (e_cell e) d = 0) ->
  GeomSpec.parallel nd X (e_cell e) -> GeomSpec.located nd X (e_cell e) (e_coords e) x ->
  exists Y, pdegree 1 Y /\
    (forall u, pt_in (cell_box nd (e_cell e)) u -> affine nd a b (X u) = peval Y (IZR (c0 u)) (IZR (c1 u)) (IZR (c2 u))) /\
    affine nd a b x = peval Y (place nd e 0) (place nd e 1) (place nd e 2).
Proof.
  intros Hnd F HPar HL. set (rate := edge_rate nd X (e_cell e) a).
  exists (index_poly (affine nd a b (X (e_cell e)) - rate 0%nat * IZR (c0 (e_cell e)) - rate 1%nat * IZR (c1 (e_cell e)) - rate 2%nat * IZR (c2 (e_cell e)))%R rate).
  split; [apply index_poly_degree|]. split.
  - intros u Hu. destruct (box_corners nd (e_cell e) u Hnd F Hu) as (o & Ho & ->). rewrite index_poly_value.
    rewrite (located_affine nd X (e_cell e) _ _ a b Hnd (HPar o Ho)). fold rate. rewrite !tget_tmake by lia. rewrite !Q2R_inject. destruct (e_cell e) as [e0 e1 e2], o as [o0 o1 o2].
    unfold tadd, tmake. cbn [c0 c1 c2 tget]. rewrite !plus_IZR. ring.
  - rewrite index_poly_value, (located_affine nd X (e_cell e) _ _ a b Hnd HL). fold rate.
    assert (Z0 : forall d, (nd <= d)%nat -> rate d = 0%R) by (intros d Hd; unfold rate, edge_rate; destruct (Nat.ltb_spec d nd); [lia|reflexivity]).
    assert (K : forall d, (d < 3)%nat -> (rate d * place nd e d = rate d * IZR (tget (e_cell e) d) + rate d * Q2R (tget (e_coords e) d))%R).
    { intros d Hd. unfold place. destruct (Nat.ltb_spec d nd) as [|Hge]; [ring|]. rewrite (Z0 d Hge). ring. }
    rewrite !K by lia. cbn [tget]. ring.
Qed.

Theorem full_physical cnt junk ssort rsort grids n NL donor rm ps P lay FR nlay fields vv m out nfields X x a b :
  0 <= cnt -> (0 < n)%nat -> 0 < total_points grids -> assembled grids n NL donor rm ps -> In P ps -> (1 <= c_nd (gp_c P) <= 3)%nat ->
  (forall i r d, nth_error (gp_mem P) i = Some r -> In d (gp_dons P r) -> lay = ColMajor \/ whole (gp_c P) (gp_L P i) (dr_ext d)) ->
  (forall i, (i < length (gp_mem P))%nat -> has_values lay cnt (gp_L P i) (FR i) (fields i) m /\ Z.of_nat (length (vv i)) = cnt * max_vertices (donor_cells P i)) ->
  (forall r, (r < n)%nat -> sorts (ssort r) /\ sorts (rsort r)) ->
  (forall r, (r < n)%nat -> shaped cnt (length (gp_recv P r)) (out r) /\ shaped cnt (Z.to_nat (rcount (NL (gp_n P) r))) (nfields r)) ->
  (forall r e, (r < n)%nat -> In e (gp_chosen donor P r) ->
     GeomSpec.parallel (c_nd (gp_c P)) X (e_cell e) /\ GeomSpec.located (c_nd (gp_c P)) X (e_cell e) (e_coords e) (x (e_point e)) /\
     let cell := cell_box (c_nd (gp_c P)) (e_cell e) in
     forall q u, 0 <= q < cnt -> pt_in cell u -> m q (home (gp_c P) cell u) = affine (c_nd (gp_c P)) (a q) (b q) (X u)) ->
  exists S',
    computes n (exchange cnt junk ssort rsort grids (gp_R P) n (m_conns ps) (n_conns ps) (gp_id P) lay (gp_c P) (gp_mem P) (gp_L P) FR
        (fun i => map (fun q => (q, gp_L P q)) (gp_NB P i)) (donor_cells P)
        (fun i => red_interp Rmult (fun a w v => (a + w * v)%R) 0%R junk (fun d o j => interp_coefs LINEAR (c_nd (gp_c P)) (donor_coords P i j) d o) lay) nlay (NL (gp_n P)))
      (start (m_conns ps) (n_conns ps) (gp_mem P) fields vv out nfields) S' /\
    forall r e q, (r < n)%nat -> In e (gp_chosen donor P r) -> 0 <= q < cnt ->
      vals_at (p_n (S' r)) q (rindex nlay (NL (gp_n P) r) (e_point e)) = Some (affine (c_nd (gp_c P)) (a q) (b q) (x (e_point e))).
Proof.
  intros HC Hn Ht HA HP Hnd HW HM HS HO HG.
  destruct (full_interp cnt junk ssort rsort grids n NL donor rm ps P lay FR nlay fields vv m out nfields LINEAR HC Hn Ht HA HP (or_intror eq_refl) HW HM HS HO) as (S' & C & H).
  exists S'. split; [exact C|]. intros r e q Hr He Hq. destruct (H r Hr) as (_ & H2 & _). destruct (H2 e He q Hq) as (H3 & _). destruct (HG r e Hr He) as (G1 & G2 & G3).
  pose proof (as_filled _ _ _ _ _ _ HA P HP) as fl. pose proof (pair_input n NL donor rm P fl) as CI.
  assert (F : forall d, (c_nd (gp_c P) <= d < 3)%nat -> tget (e_cell e) d = 0).
  { intros d Hd. apply (cell_flat (gp_c P) n (gp_mem P) (gp_L P) (gp_R P) (gp_D P) (gp_MG P) (gp_NG P) (gp_M P) (ci_overlap _ _ _ _ _ _ _ _ _ _ _ _ _ _ _ CI)
      (ci_m _ _ _ _ _ _ _ _ _ _ _ _ _ _ _ CI) (e_cell e)); [|apply is_image_refl|exact Hd].
    apply (oi_entries _ _ _ _ _ _ _ _ (pair_overlap n NL donor rm P fl) r e Hr He). }
  destruct (affine_poly (c_nd (gp_c P)) X e (x (e_point e)) (a q) (b q) Hnd F G1 G2) as (Y & Y1 & Y2 & Y3).
  rewrite (H3 Y Y1); [rewrite Y3; reflexivity|]. intros u Hu. rewrite (G3 q u Hq Hu). apply Y2, Hu.
Qed.
