From Coq Require Import List ZArith Bool Lia.
From Verif Require Import TupleModel RangeModel Base RangeProof CartModel IndexerModel ArrayModel ContModel HashModel HashProof ProtoModel ProtoSpec NetModel NetSpec NetProof NetPhase NetTools.
From Verif Require Import LiftModel LiftProof EmbedModel EmbedProof SendModel SendSpec SendProof SendLaws DisperseModel DisperseProof CollectModel CollectSpec CollectProof CollectLaws.
From Verif Require Import XchModel XchSpec XchProof XchLaws XchMain AsmRep PipeModel PipeSpec.
Import ListNotations.
Local Open Scope Z_scope.

Lemma of_id_none {A B} (ident : A -> Z * Z) id conns (l : list (list B)) : (forall x, In x conns -> ident x <> id) -> of_id ident id conns l = [].
Proof.
  unfold of_id. revert l. induction conns as [|c conns IH]; intros [|x l] H; cbn [combine find fst snd]; try reflexivity.
  destruct ((fst (ident c) =? fst id) && (snd (ident c) =? snd id)) eqn:E; [|apply IH; intros y Hy; apply H; right; exact Hy].
  exfalso. apply (H c (or_introl eq_refl)). apply andb_prop in E as [E1 E2]. apply Z.eqb_eq in E1, E2. destruct (ident c), id. cbn in *. congruence.
Qed.
Lemma of_id_map {A B} (ident : A -> Z * Z) (f : A -> list B) conns c : NoDup (map ident conns) -> In c conns ->
  of_id ident (ident c) conns (map f conns) = f c.
Proof. intros N I. apply In_nth_error in I as (a & Ea). apply (of_id_at ident conns _ a c (f c) N Ea). apply map_nth_error, Ea. Qed.

Lemma donor_values_ok {V} cnt (out : list (list V)) len : 0 <= cnt -> length out = len -> (forall row, In row out -> Z.of_nat (length row) = cnt) ->
  exists vals, donor_values cnt out = Some vals /\ shaped cnt len vals /\
    forall k j row, 0 <= k < cnt -> vread out j = Some row -> vals_at vals k j = vread row k.
Proof.
  intros C Lo H. unfold donor_values.
  assert (I : forall k, In k (zseq 0 (Z.to_nat cnt)) -> exists b, omap (fun row => vread row k) out = Some b).
  { intros k Hk. apply zseq_In in Hk. apply omap_total. intros row Hr. apply vread_ge. specialize (H row Hr). lia. }
  destruct (omap_total _ _ I) as (vals & E). exists vals. split; [exact E|]. split.
  - split; [rewrite (omap_length _ _ _ E), zseq_length; lia|]. intros row Hr. apply In_nth_error in Hr as (a & Ha).
    pose proof (omap_some _ _ _ E) as F. assert (G : exists k, omap (fun row => vread row k) out = Some row).
    { clear -F Ha. revert a Ha. induction F as [|k b l1 l2 Hb F IH]; intros [|a] Ha; try discriminate Ha; [injection Ha as ->; eauto|eapply IH; eauto]. }
    destruct G as (k & G). rewrite (omap_length _ _ _ G). exact Lo.
  - intros k j row Hk Hj. unfold vals_at. assert (Ek : nth_error (zseq 0 (Z.to_nat cnt)) (Z.to_nat k) = Some k).
    { rewrite zseq_nth by lia. f_equal. lia. }
    destruct (omap_nth _ _ _ _ _ E Ek) as (b & Hb & Eb).
    assert (Vb : vread vals k = Some b) by (unfold vread; destruct (Z.ltb_spec k 0); [lia|exact Hb]). rewrite Vb.
    unfold vread in Hj. destruct (Z.ltb_spec j 0); [discriminate|]. destruct (omap_nth _ _ _ _ _ Eb Hj) as (x & Hx & Ex).
    rewrite Ex. unfold vread. destruct (Z.ltb_spec j 0); [lia|exact Hx].
Qed.

Section Pipe.
Context {V : Type}.
Variables (cnt : Z) (junk : V) (ssort rsort : nat -> list Z -> list Z) (grids : list (Z * range)) (R : range) (n : nat)
  (ms : nat -> list mconn) (ns : nat -> list nconn) (id : Z * Z) (lay : layout) (c : cart) (mem : list nat) (L FR : nat -> range)
  (N : nat -> list nat) (cells : nat -> list range) (red : nat -> Z -> range -> list V -> option V) (nlay : layout) (NR : nat -> range)
  (fields : nat -> list (list V)) (vv : nat -> list V) (m : Z -> tup Z -> V) (out nfields : nat -> list (list V)).
Notation k := (length mem).
Hypothesis HC : 0 <= cnt.
Hypothesis Hn : (0 < n)%nat.
Hypothesis Ht : 0 < total_points grids.
Hypothesis HX : exchangeable grids n ms ns id R mem L cells NR.
Hypothesis HD : distributed c k L N cells.
Hypothesis HW : forall i cell, (i < k)%nat -> In cell (cells i) -> lay = ColMajor \/ whole c (L i) cell.
Hypothesis HM : forall i, (i < k)%nat -> has_values lay cnt (L i) (FR i) (fields i) m /\ Z.of_nat (length (vv i)) = cnt * max_vertices (cells i) /\ reduces (red i) (cells i).
Hypothesis HS : forall r, (r < n)%nat -> sorts (ssort r) /\ sorts (rsort r).
Hypothesis HO : forall r, (r < n)%nat -> shaped cnt (length (n_points id (ns r))) (out r).
Hypothesis HF : forall r, (r < n)%nat -> shaped cnt (Z.to_nat (rcount (NR r))) (nfields r).

Notation begin := (start ms ns mem fields vv out nfields).

Lemma n_points_In r p : (r < n)%nat -> (In p (n_points id (ns r)) <-> receiver_at (ns r) id p).
Proof.
  intros Hr. unfold n_points. split.
  - intros I. destruct (at_index _ _ I) as (j & Hj). destruct (of_id_inv _ _ _ _ _ _ Hj) as (a & nc & l & E1 & E2 & E3 & E4).
    rewrite (map_nth_error _ _ _ E1) in E2. injection E2 as <-. exists nc. split; [apply nth_error_In in E1; exact E1|]. split; [exact E3|]. rewrite <- E4. exact I.
  - intros (nc & I & E & P). rewrite <- E. rewrite (of_id_map n_id (fun nc => map r_point (nc_receivers nc)) (ns r) nc (fit_n_id _ _ _ (ex_fit _ _ _ _ _ _ _ _ _ _ HX) r Hr) I). exact P.
Qed.
Lemma n_points_NoDup r : (r < n)%nat -> NoDup (n_points id (ns r)).
Proof.
  intros Hr. destruct (n_points id (ns r)) as [|p l] eqn:E; [constructor|]. rewrite <- E.
  assert (I : In p (n_points id (ns r))) by (rewrite E; left; reflexivity). apply (n_points_In r p Hr) in I as (nc & I & Ei & _).
  unfold n_points. rewrite <- Ei. rewrite (of_id_map n_id (fun nc => map r_point (nc_receivers nc)) (ns r) nc (fit_n_id _ _ _ (ex_fit _ _ _ _ _ _ _ _ _ _ HX) r Hr) I).
  apply (fit_n_distinct _ _ _ (ex_fit _ _ _ _ _ _ _ _ _ _ HX) r nc Hr I).
Qed.

Theorem exchange_prog : exists S',
  prog_ok n (exchange cnt junk ssort rsort grids R n ms ns id lay c mem L FR (fun i => map (fun q => (q, L q)) (N i)) cells red nlay NR) begin S' /\
  forall r, (r < n)%nat ->
    k_field (p_c (S' r)) = at_member mem fields r /\ shaped cnt (Z.to_nat (rcount (NR r))) (p_n (S' r)) /\
    forall p, pt_in (NR r) p ->
      (receiver_at (ns r) id p -> exists i j cell, donor_of ms id mem L cells p i j cell /\
         forall q, 0 <= q < cnt -> vals_at (p_n (S' r)) q (rindex nlay (NR r) p) =
           red i j cell (map (fun u => m q (home c cell u)) (in_order lay cell))) /\
      (~ receiver_at (ns r) id p -> forall q, 0 <= q < cnt ->
         vals_at (p_n (S' r)) q (rindex nlay (NR r) p) = vals_at (nfields r) q (rindex nlay (NR r) p)).
Proof.
  destruct HX as [XK XF XG [XM XM'] XI XO XD XP XN XR].
  destruct (find_ranks_prog grids n ms ns Hn Ht XK) as (SX & PX & FX).
  destruct (collect_prog V lay c cnt k L FR N cells red fields vv m HD HW HM) as (SC & PC & FC).
  pose (om := fun r => sd_out (xm (SX r))). pose (on := fun r => sd_out (xn (SX r))).
  pose proof (fitting_agreed n ms ns om on XF FX id) as AG. pose proof (fitting_found n ms ns om on XF FX id) as FF.
  pose (dst := fun r => of_id m_id id (ms r) (om r)). pose (src := fun r => of_id n_id id (ns r) (on r)).
  pose (T := fun r : nat => CS0 (@nil (list V)) []).
  pose (C' := spread mem SC T).
  (* the donor values *)
  assert (DV : forall r, (r < n)%nat -> exists vals, donor_values cnt (k_out (C' r)) = Some vals /\ shaped cnt (length (dst r)) vals /\
    forall i j cell q, position mem r = Some i -> vread (cells i) j = Some cell -> 0 <= q < cnt ->
      vals_at vals q j = red i j cell (map (fun u => m q (home c cell u)) (in_order lay cell))).
  { intros r Hr. unfold C', spread. destruct (position mem r) as [i|] eqn:P.
    - assert (Hi : (i < k)%nat) by (apply position_nth in P; apply nth_error_Some; congruence).
      destruct (FC i Hi) as (_ & LO & RO). destruct (XI i r (position_nth _ _ _ P)) as (mc & Im & Em & _ & El).
      assert (LD : length (dst r) = length (cells i)).
      { destruct (FF r Hr) as (_ & _ & E & _). unfold dst. rewrite <- E. unfold m_points. rewrite <- Em.
        rewrite (of_id_map m_id (fun mc => map d_point (mc_donors mc)) (ms r) mc (fit_m_id _ _ _ XF r Hr) Im). rewrite map_length.
        apply (f_equal (@length _)) in El. rewrite !map_length in El. exact El. }
      destruct (donor_values_ok cnt (k_out (SC i)) (length (dst r)) HC) as (vals & E & Sh & At).
      + congruence.
      + intros row Ir. destruct (at_index _ _ Ir) as (j & Hj). destruct (vread_ge (cells i) j) as (cell & Hcell); [rewrite <- LO; apply vread_lt in Hj; exact Hj|].
        apply (RO j cell row Hcell Hj).
      + exists vals. split; [exact E|]. split; [exact Sh|]. intros i' j cell q [= <-] Hcell Hq.
        destruct (vread_ge (k_out (SC i)) j) as (row & Hrow); [rewrite LO; apply vread_lt in Hcell; exact Hcell|].
        rewrite (At q j row Hq Hrow). apply (RO j cell row Hcell Hrow), Hq.
    - cbn [k_out T CS0]. destruct (donor_values_ok cnt (@nil (list V)) (length (dst r)) HC) as (vals & E & Sh & _).
      + unfold dst. rewrite of_id_none; [reflexivity|]. intros mc Im Em. apply position_none in P. apply P. eapply XO; eauto.
      + intros row [].
      + exists vals. split; [exact E|]. split; [exact Sh|]. discriminate. }
  pose (vals := fun r => match donor_values cnt (k_out (C' r)) with Some v => v | None => [] end).
  assert (DV' : forall r, (r < n)%nat -> donor_values cnt (k_out (C' r)) = Some (vals r)) by (intros r Hr; unfold vals; destruct (DV r Hr) as (v & -> & _); reflexivity).
  (* sending and receiving *)
  destruct (points_prog cnt junk n R ssort rsort dst src (fun r => m_points id (ms r)) (fun r => n_points id (ns r)) vals out HC) as (SS' & out' & PS & F1 & F2 & F3).
  - intros r q Hr Iq. destruct (FF r Hr) as (X & _). apply X, Iq.
  - intros r q Hr Iq. destruct (FF r Hr) as (_ & X & _). apply X, Iq.
  - exact AG.
  - intros r Hr. destruct (FF r Hr) as (A1 & A2 & A3 & A4 & A5 & A6). split; [apply HS, Hr|]. split; [exact A3|]. split; [|split; [exact A5|split]].
    + intros p I. destruct (at_index _ _ I) as (j & Hj). destruct (of_id_inv _ _ _ _ _ _ Hj) as (a & mc & l & E1 & E2 & E3 & E4).
      rewrite (map_nth_error _ _ _ E1) in E2. injection E2 as <-. unfold m_points in I. rewrite E4 in I. apply in_map_iff in I as (d & <- & I).
      apply (XD r mc d Hr); auto. apply nth_error_In in E1. exact E1.
    + fold (dst r) in A3. rewrite <- A3. unfold m_points. destruct (of_id m_id id (ms r) (map (fun mc => map d_point (mc_donors mc)) (ms r))) as [|x l] eqn:El; [cbn; lia|].
      assert (Hj : vread (of_id m_id id (ms r) (map (fun mc => map d_point (mc_donors mc)) (ms r))) 0 = Some x) by (rewrite El; reflexivity). rewrite <- El.
      destruct (of_id_inv _ _ _ _ _ _ Hj) as (a & mc & l' & E1 & E2 & E3 & E4). rewrite (map_nth_error _ _ _ E1) in E2. injection E2 as <-.
      rewrite E4, map_length. apply (XN r mc Hr); auto. apply nth_error_In in E1. exact E1.
    + destruct (DV r Hr) as (v & E & Sh & _). rewrite (DV' r Hr) in E. injection E as ->. exact Sh.
  - intros r Hr. destruct (FF r Hr) as (A1 & A2 & A3 & A4 & A5 & A6). split; [apply HS, Hr|]. split; [exact A4|]. split; [|split; [exact A6|split]].
    + intros p I. apply (n_points_In r p Hr) in I as (nc & I & E & P). apply in_map_iff in P as (y & <- & Iy).
      destruct XK as [XU XK]. destruct (XK r (nc_grid nc) (r_point y) Hr) as (R' & IR & PR).
      { right. exists nc, y. split; [exact I|]. split; [exact Iy|]. split; [apply (fit_n_given _ _ _ XF r nc y Hr I Iy)|auto]. }
      replace R with R'; [exact PR|]. unfold n_id in E. subst id. cbn [snd] in XG. clear -XU IR XG.
      induction grids as [|[g Q] gs IH]; [contradiction|]. cbn [map fst] in XU. inversion XU; subst.
      destruct IR as [[= -> ->]|IR], XG as [[= XG]|XG]; auto.
      * exfalso. apply H1. change (nc_grid nc) with (fst (nc_grid nc, R)). apply in_map, XG.
      * exfalso. subst. apply H1. change (nc_grid nc) with (fst (nc_grid nc, R')). apply in_map, IR.
    + fold (src r) in A4. rewrite <- A4. unfold n_points. destruct (of_id n_id id (ns r) (map (fun mc => map r_point (nc_receivers mc)) (ns r))) as [|x l] eqn:El; [cbn; lia|].
      assert (Hj : vread (of_id n_id id (ns r) (map (fun mc => map r_point (nc_receivers mc)) (ns r))) 0 = Some x) by (rewrite El; reflexivity). rewrite <- El.
      destruct (of_id_inv _ _ _ _ _ _ Hj) as (a & mc & l' & E1 & E2 & E3 & E4). rewrite (map_nth_error _ _ _ E1) in E2. injection E2 as <-.
      rewrite E4, map_length. apply (XR r mc Hr); auto. apply nth_error_In in E1. exact E1.
    + fold (src r) in A4. rewrite <- A4. apply HO, Hr.
  - (* dispersing *)
    assert (DP : forall r, (r < n)%nat -> exists f, disperse_overwrite cnt nlay (NR r) (n_points id (ns r)) (s_out (SS' r)) (nfields r) = Some f /\
      shaped cnt (Z.to_nat (rcount (NR r))) f /\ forall q p, 0 <= q < cnt -> pt_in (NR r) p ->
      (forall i, vread (n_points id (ns r)) i = Some p -> vals_at f q (rindex nlay (NR r) p) = vals_at (out' r) q i) /\
      (~ In p (n_points id (ns r)) -> vals_at f q (rindex nlay (NR r) p) = vals_at (nfields r) q (rindex nlay (NR r) p))).
    { intros r Hr. destruct (F1 r Hr) as [Eo So]. destruct (FF r Hr) as (_ & _ & _ & A4 & _). fold (src r) in A4.
      destruct (overwrite_ok cnt nlay (NR r) (n_points id (ns r)) (s_out (SS' r)) (nfields r) HC) as (f & E & Sh & G).
      - rewrite Eo, A4. exact So.
      - apply HF, Hr.
      - intros p I. apply (n_points_In r p Hr) in I as (nc & I & Ei & P). apply in_map_iff in P as (y & <- & Iy). apply (XP r nc y Hr I Ei Iy).
      - exists f. split; [exact E|]. split; [exact Sh|]. intros q p Hq Hp. destruct (G q p Hq Hp) as [G1 G2]. split; [|exact G2].
        intros i Hi. rewrite <- Eo. apply G1; [exact Hi|]. intros j Hj Hj'. pose proof (vread_inj [] (n_points id (ns r)) i j p (n_points_NoDup r Hr) Hi Hj'). lia. }
    pose (f' := fun r => match disperse_overwrite cnt nlay (NR r) (n_points id (ns r)) (s_out (SS' r)) (nfields r) with Some f => f | None => [] end).
    exists (fun r => Pipe (SX r) (C' r) (SS' r) (f' r)). split.
    + unfold exchange. apply prog_ok_app. exists (fun r => put_x (begin r) (SX r)). split.
      { apply (lift_ok (fun b => Some (p_x b)) put_x n _ begin (fun r => XS0 (ms r) (ns r)) SX); [reflexivity|reflexivity|]. apply remsg_ok; [reflexivity|exact PX]. }
      apply prog_ok_app. exists (fun r => put_c (put_x (begin r) (SX r)) (C' r)). split.
      { assert (E : forall r, (r < n)%nat -> put_x (begin r) (SX r) = put_c (put_x (begin r) (SX r)) (spread mem (fun i => CS0 (fields i) (vv i)) T r)).
        { intros r Hr. unfold start, pipe0, put_c, put_x, spread, at_member. cbn. destruct (position mem r); reflexivity. }
        eapply (prog_ok_start n _ (fun r => put_c (put_x (begin r) (SX r)) (spread mem (fun i => CS0 (fields i) (vv i)) T r))); [intros r Hr; symmetry; apply (E r Hr)|]. apply (lift_ok (fun b => Some (p_c b)) put_c n _ (fun r => put_x (begin r) (SX r))); [reflexivity|reflexivity|]. apply remsg_ok; [reflexivity|].
        apply embed_ok; auto. repeat constructor. }
      destruct PS as (S1 & PS1 & S2 & PS2 & PS3). cbn [phase_ok] in PS1.
      apply prog_ok_app. exists (fun r => put_s (put_c (put_x (begin r) (SX r)) (C' r)) (S1 r)). split.
      { eexists. split; [|intros r Hr; reflexivity]. cbn [phase_ok]. intros r Hr. unfold start_exchange. cbn [p_c p_x p_s put_c put_x].
        rewrite (DV' r Hr). unfold start, pipe0. cbn [s_out p_s SS0]. change (s_out (SS0 [] (out r))) with (out r).
        specialize (PS1 r Hr). unfold dst, src, om, on in PS1. cbn beta in PS1. rewrite PS1. reflexivity. }
      apply prog_ok_app. exists (fun r => put_s (put_c (put_x (begin r) (SX r)) (C' r)) (SS' r)). split.
      { apply (lift_ok (fun b => Some (p_s b)) put_s n _ (fun r => put_c (put_x (begin r) (SX r)) (C' r)) S1 SS'); [reflexivity|reflexivity|]. apply remsg_ok; [reflexivity|].
        exists S2. split; [exact PS2|exact PS3]. }
      eexists. split; [|intros r Hr; reflexivity]. cbn [phase_ok]. intros r Hr. unfold end_exchange. cbn [p_c p_x p_s p_n put_c put_x put_s].
      unfold start, pipe0. cbn [p_n]. unfold f'. destruct (DP r Hr) as (f & -> & _). reflexivity.
    + intros r Hr. cbn [p_c p_n]. destruct (DP r Hr) as (f & E & Sh & G). unfold f'. rewrite E. split; [|split; [exact Sh|]].
      * unfold C', spread, at_member. destruct (position mem r) as [i|] eqn:P; [|reflexivity]. apply FC. apply position_nth in P. apply nth_error_Some. congruence.
      * intros p Hp. split.
        -- intros Rp. apply (n_points_In r p Hr) in Rp as Ip. destruct (at_index _ _ Ip) as (b & Hb).
           destruct (FF r Hr) as (_ & A2 & _ & A4 & _). fold (src r) in A4.
           destruct (vread_ge (src r) b) as (s & Hs); [rewrite <- A4; apply vread_lt in Hb; exact Hb|].
           assert (Bs : 0 <= s < Z.of_nat n) by (apply A2; apply vread_In in Hs; exact Hs).
           assert (Hsn : (Z.to_nat s < n)%nat) by lia. assert (Es : s = Z.of_nat (Z.to_nat s)) by lia. rewrite Es in Hs.
           destruct (proj2 (AG (Z.to_nat s) r p Hsn Hr)) as (j & Hj & Hjp); [exists b; split; [exact Hs|exact Hb]|].
           destruct (m_at n ms ns om on XF FX id (Z.to_nat s) j Hsn _ _ Hj Hjp) as (mc & d & Im & Em & Hd & Ed & Dk).
           pose proof (XO _ mc Hsn Im Em) as Mem. destruct (position mem (Z.to_nat s)) as [i|] eqn:P; [|apply position_none in P; contradiction].
           destruct (XI i _ (position_nth _ _ _ P)) as (mc' & Im' & Em' & El & Ec).
           assert (mc' = mc).
           { apply In_nth_error in Im as (a & Ha). apply In_nth_error in Im' as (a' & Ha'). assert (a = a'); [|congruence].
             pose proof (fit_m_id _ _ _ XF _ Hsn) as ND. rewrite NoDup_nth_error in ND. apply ND; [rewrite map_length; apply nth_error_Some; congruence|].
             rewrite (map_nth_error _ _ _ Ha), (map_nth_error _ _ _ Ha'). congruence. }
           subst mc'. assert (Hl : vread (map d_lower (mc_donors mc)) j = Some (d_lower d)) by (rewrite vread_fmap, Hd; reflexivity).
           rewrite Ec, vread_fmap in Hl. destruct (vread (cells i) j) as [cell|] eqn:Hcell; [|discriminate]. injection Hl as Hl.
           exists i, j, cell. split.
           ++ exists (Z.to_nat s), mc, d. split; [apply position_nth, P|]. split; [exact Im|]. split; [exact Em|]. split; [exact Hd|]. split; [exact Ed|]. split; [exact Hcell|].
              rewrite Hl, <- El. apply local_In. eapply (donor_here n ms ns om on FX id); [exact Dk|lia|]. apply vread_In in Hd. exact Hd.
           ++ intros q Hq. destruct (G q p Hq Hp) as [G1 _]. rewrite (G1 b Hb). rewrite (F2 (Z.to_nat s) r j b p q Hsn Hr Hq Hj Hjp Hs Hb).
              destruct (DV _ Hsn) as (v & Ev & _ & At). rewrite (DV' _ Hsn) in Ev. injection Ev as ->. apply (At i j cell q P Hcell Hq).
        -- intros NRp q Hq. apply (G q p Hq Hp). intros I. apply NRp, (n_points_In r p Hr), I.
Qed.
End Pipe.
