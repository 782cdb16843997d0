(** Values sent over an overlap: proofs for FwdModel. *)
From Coq Require Import List ZArith QArith Bool Lia Sorting.Sorted.
From Verif Require Import TupleModel RangeModel Base RangeProof CartModel CartProof DecompModel DecompProof IndexerModel ArrayModel ArrayProof HashModel HashProof.
From Verif Require Import NetModel NetSpec NetProof NetPhase NetTools LiftModel LiftProof EmbedModel EmbedProof NeighSpec NeighProof FieldSpec FieldProof AsmRep.
From Verif Require Import SendModel SendSpec SendProof SendLaws DisperseModel DisperseProof CellModel CellProof CollectModel CollectSpec CollectProof CollectLaws.
From Verif Require Import XchMain PipeModel PipeSpec PipeProof OvlModel OvlSpec OvlProof OvlLaws ConModel ConSpec ConProof ConLaws FwdModel FwdSpec.
Import ListNotations.
Local Open Scope Z_scope.

Section Forward.
Variables (c : cart) (n : nat) (mem : list nat) (L : nat -> range) (NB : nat -> list nat) (R : range) (D : nat -> list entry)
  (M : nat -> list mrow) (N : nat -> list nrow).
Hypothesis HV : overlapped c n mem L NB R D M N.
Let HM := fw_m _ _ _ _ _ _ _ _ _ HV.
Let HO := fw_none _ _ _ _ _ _ _ _ _ HV.
Let HN := fw_n _ _ _ _ _ _ _ _ _ HV.
Let HA := fw_order _ _ _ _ _ _ _ _ _ HV.
Let HB := fw_size _ _ _ _ _ _ _ _ _ HV.

(** ** Sending and receiving *)
Lemma forward_rows {V} (junk : V) (w : nat -> list V) (out : nat -> list (list V)) :
  (forall r, (r < n)%nat -> length (w r) = length (M r)) -> (forall r, (r < n)%nat -> shaped 1 (length (N r)) (out r)) ->
  exists S', prog_ok n (send_recv 1 junk (fun r => map mr_rank (M r)) (fun r => default_order (map mr_rank (M r)))
                              (fun r => map nr_rank (N r)) (fun r => default_order (map nr_rank (N r))))
    (fun r => SS0 [w r] (out r)) S' /\
  forall r, (r < n)%nat -> shaped 1 (length (N r)) (s_out (S' r)) /\
    forall j b, vread (N r) j = Some b -> exists i a, vread (M (Z.to_nat (nr_rank b))) i = Some a /\ mr_dest a = nr_point b /\ mr_rank a = Z.of_nat r /\
      vals_at (s_out (S' r)) 0 j = vread (w (Z.to_nat (nr_rank b))) i.
Proof.
  intros HW HS. destruct (fw_input _ _ _ _ _ _ _ _ _ HV) as (MG & NG & HI).
  destruct (SendLaws.exchange_prog 1 junk n (fun r => map mr_rank (M r)) (fun r => default_order (map mr_rank (M r)))
    (fun r => map nr_rank (N r)) (fun r => default_order (map nr_rank (N r))) (fun r => [w r]) out) as (S' & out' & P & A & B & C & E).
  - lia.
  - exact (fit_paired c n mem L R D MG NG M N HI HM HO HN HA).
  - intros r Hr. split; [apply order_default|]. split; [rewrite map_length; apply HB, Hr|]. split; [reflexivity|]. intros row [<-|[]]. rewrite map_length. apply HW, Hr.
  - intros r Hr. split; [apply order_default|]. split; [rewrite map_length; apply HB, Hr|]. rewrite map_length. apply HS, Hr.
  - exists S'. split; [exact P|]. intros r Hr. destruct (A r Hr) as (_ & Eo & Sh). rewrite map_length in Sh. rewrite Eo. split; [exact Sh|].
    intros j b Hb. assert (Rb : vread (map nr_rank (N r)) j = Some (nr_rank b)) by (rewrite vread_fmap, Hb; reflexivity).
    destruct (n_row' c n mem L R D MG NG M N HI HM HO HN r b Hr (vread_In _ _ _ Hb)) as [_ Pos].
    destruct (C r j (nr_rank b) Hr Rb ltac:(lia)) as (k & i & N1 & N2). assert (Hs : (Z.to_nat (nr_rank b) < n)%nat) by lia.
    pose proof N1 as N1'. replace (nr_rank b) with (Z.of_nat (Z.to_nat (nr_rank b))) in N1' by lia.
    destruct (numbered_default mr_rank _ _ _ _ N2) as (a & Ha & Ra & _). exists i, a. split; [exact Ha|]. split; [|split; [exact Ra|]].
    + exact (fit_default c n mem L R D MG NG M N HI HM HO HN HA (Z.to_nat (nr_rank b)) r i j k a b Hs Hr N2 N1' Ha Hb).
    + rewrite (B _ r i j k 0 Hs Hr ltac:(lia) N2 N1'). reflexivity.
Qed.

(** A row with a rank is the row of the owner. *)
Lemma owner_row r j b e i k a j' : (r < n)%nat -> vread (D r) j = Some e -> vread (N r) j = Some b -> nth_error mem i = Some k -> nr_rank b = Z.of_nat k -> 
  pt_in (L i) (e_cell e) -> nr_point b = e_point e ->
  vread (M k) j' = Some a -> mr_dest a = nr_point b -> mr_rank a = Z.of_nat r ->
  mr_dest a = e_point e /\ mr_coords a = e_coords e /\ vread (overlap_cells c mem M i) j' = Some (cell_box (c_nd c) (e_cell e)).
Proof.
  intros Hr He Hb Hi Rk Own Pb Ha Ed Ra. destruct (fw_input _ _ _ _ _ _ _ _ _ HV) as (MG & NG & HI).
  destruct (HM i k Hi) as (_ & H2 & _). destruct (H2 a (vread_In _ _ _ Ha)) as (q & e' & Hq & He' & Ep & Ec & _ & _ & X).
  destruct X as [(_ & Ece & Rq)|(_ & X)]; [|lia]. assert (q = r) by lia. subst q.
  assert (e' = e).
  { apply vread_In in He. pose proof (oi_points _ _ _ _ _ _ _ _ HI r Hr) as ND. apply In_nth_error in He as (x & Hx). apply In_nth_error in He' as (y & Hy).
    rewrite NoDup_nth_error in ND. assert (x = y); [|congruence]. apply ND; [rewrite map_length; apply nth_error_Some; congruence|].
    rewrite (map_nth_error _ _ _ Hx), (map_nth_error _ _ _ Hy). congruence. }
  subst e'. split; [congruence|]. split; [exact Ec|]. unfold overlap_cells. rewrite Hi, vread_fmap, Ha. cbn [option_map]. rewrite cell_extents_box, Ece. reflexivity.
Qed.

Lemma n_of_d r j e : (r < n)%nat -> vread (D r) j = Some e -> exists b i k, vread (N r) j = Some b /\ nr_point b = e_point e /\
  nth_error mem i = Some k /\ pt_in (L i) (e_cell e) /\ nr_rank b = Z.of_nat k.
Proof.
  intros Hr. pose proof (HN r Hr) as F. unfold n_side in F. unfold vread. destruct (Z.ltb_spec j 0); [discriminate|]. generalize (Z.to_nat j) as x.
  induction F as [|e0 b l l' G F IH]; intros [|x] H0; try discriminate H0.
  - injection H0 as <-. destruct G as (A & _ & i & k & B1 & B2 & B3). exists b, i, k. auto.
  - apply IH, H0.
Qed.
Lemma n_points_same r : (r < n)%nat -> map nr_point (N r) = map e_point (D r).
Proof.
  intros Hr. pose proof (HN r Hr) as F. unfold n_side in F. induction F as [|e b l l' G F IH]; [reflexivity|]. cbn [map]. f_equal; [apply G|exact IH].
Qed.

Context {V : Type}.
Variables (junk : V) (FR : nat -> range) (red : nat -> Z -> range -> list V -> option V) (NR : nat -> range)
  (fields : nat -> list (list V)) (vv : nat -> list V) (m : Z -> tup Z -> V) (out nfields : nat -> list (list V)).
Hypothesis HF : fwd_arrays c n mem L FR M N NR red fields vv m out nfields.
Notation begin := (fwd0 mem fields vv out nfields).
Notation prog := (forward junk c n mem M N L FR (fun i => map (fun q => (q, L q)) (NB i)) red).

(** What a rank has received. *)
Definition received (r : nat) (out' : list (list V)) : Prop :=
  shaped 1 (length (D r)) out' /\
  forall j e, vread (D r) j = Some e -> exists i k j' a v, nth_error mem i = Some k /\ pt_in (L i) (e_cell e) /\
    vread (M k) j' = Some a /\ mr_dest a = e_point e /\ mr_coords a = e_coords e /\ vread (overlap_cells c mem M i) j' = Some (cell_box (c_nd c) (e_cell e)) /\
    red i j' (cell_box (c_nd c) (e_cell e)) (map (m 0) (vertices c e)) = Some v /\ vals_at out' 0 j = Some v.

Theorem forward_prog : exists S', prog_ok n prog begin S' /\
  forall r, (r < n)%nat -> k_field (w_c (S' r)) = at_member mem fields r /\ w_n (S' r) = nfields r /\ received r (s_out (w_s (S' r))).
Proof.
  destruct (fw_input _ _ _ _ _ _ _ _ _ HV) as (MG & NG & HI). destruct HF as [HF1 HF2]. destruct (oi_mem _ _ _ _ _ _ _ _ HI) as [NM BM].
  pose proof (rows_distributed c n mem L R D MG NG M HI HM (fw_once _ _ _ _ _ _ _ _ _ HV) NB (fw_neighbours _ _ _ _ _ _ _ _ _ HV)) as HD.
  change (row_cells c mem M) with (overlap_cells c mem M) in HD.
  destruct (collect_prog V ColMajor c 1 (length mem) L FR NB (overlap_cells c mem M) red fields vv m HD) as (SC & PC & FC).
  { intros; left; reflexivity. }
  { intros i Hi. destruct (HF1 i Hi) as (A & B & C). split; [exact A|]. split; [rewrite Z.mul_1_l; exact B|exact C]. }
  pose (T := fun r : nat => CS0 (@nil (list V)) []). pose (C' := spread mem SC T).
  assert (DV : forall r, (r < n)%nat -> exists w, donor_values 1 (k_out (C' r)) = Some [w] /\ length w = length (M r) /\
    forall i j cell, position mem r = Some i -> vread (overlap_cells c mem M i) j = Some cell ->
      vread w j = red i j cell (map (fun u => m 0 (home c cell u)) (foreach_col cell))).
  { intros r Hr. unfold C', spread. destruct (position mem r) as [i|] eqn:P.
    - assert (Hi : nth_error mem i = Some r) by (apply position_nth, P). assert (Li : (i < length mem)%nat) by (apply nth_error_Some; congruence).
      destruct (FC i Li) as (_ & LO & RO). assert (LM : length (overlap_cells c mem M i) = length (M r)) by (unfold overlap_cells; rewrite Hi; apply map_length).
      destruct (donor_values_ok 1 (k_out (SC i)) (length (M r)) ltac:(lia)) as (vals & E & Sh & At).
      + congruence.
      + intros row Ir. destruct (at_index _ _ Ir) as (j & Hj). destruct (vread_ge (overlap_cells c mem M i) j) as (cell & Hcell); [rewrite <- LO; apply vread_lt in Hj; exact Hj|].
        apply (RO j cell row Hcell Hj).
      + apply shaped_one in Sh as (w & -> & Lw). exists w. split; [exact E|]. split; [exact Lw|]. intros i' j cell [= <-] Hcell.
        destruct (vread_ge (k_out (SC i)) j) as (row & Hrow); [rewrite LO; apply vread_lt in Hcell; exact Hcell|].
        specialize (At 0 j row ltac:(lia) Hrow). unfold vals_at in At. change (vread [w] 0) with (Some w) in At. rewrite At.
        apply (RO j cell row Hcell Hrow). lia.
    - apply position_none in P. rewrite (HO r Hr P). exists []. split; [reflexivity|]. split; [reflexivity|]. discriminate. }
  pose (w := fun r => match donor_values 1 (k_out (C' r)) with Some (v :: _) => v | _ => [] end).
  assert (DV' : forall r, (r < n)%nat -> donor_values 1 (k_out (C' r)) = Some [w r]) by (intros r Hr; unfold w; destruct (DV r Hr) as (v & -> & _); reflexivity).
  destruct (forward_rows junk w out) as (SS' & PS & FS).
  { intros r Hr. destruct (DV r Hr) as (v & E & Lv & _). rewrite (DV' r Hr) in E. injection E as ->. exact Lv. }
  { intros r Hr. apply HF2, Hr. }
  exists (fun r => Fwd (C' r) (SS' r) (nfields r)). split.
  - unfold forward. apply prog_ok_app. exists (fun r => put_wc (begin r) (C' r)). split.
    { assert (E : forall r, (r < n)%nat -> begin r = put_wc (begin r) (spread mem (fun i => CS0 (fields i) (vv i)) T r)).
      { intros r Hr. unfold fwd0, put_wc, spread, at_member. cbn. destruct (position mem r); reflexivity. }
      eapply (prog_ok_start n _ (fun r => put_wc (begin r) (spread mem (fun i => CS0 (fields i) (vv i)) T r))); [intros r Hr; symmetry; apply (E r Hr)|].
      apply (lift_ok (fun b => Some (w_c b)) put_wc n _ begin); [reflexivity|reflexivity|]. apply embed_ok; auto. repeat constructor. }
    apply prog_ok_app. exists (fun r => put_ws (put_wc (begin r) (C' r)) (SS0 [w r] (out r))). split.
    { eexists. split; [|intros r Hr; reflexivity]. cbn [phase_ok]. intros r Hr. unfold fill_buffer. cbn [w_c put_wc]. rewrite (DV' r Hr). reflexivity. }
    apply (lift_ok (fun b => Some (w_s b)) put_ws n _ (fun r => put_ws (put_wc (begin r) (C' r)) (SS0 [w r] (out r))) (fun r => SS0 [w r] (out r)) SS'); [reflexivity|reflexivity|exact PS].
  - intros r Hr. cbn [w_c w_s w_n]. split; [|split; [reflexivity|]].
    + unfold C', spread, at_member. destruct (position mem r) as [i|] eqn:P; [|reflexivity]. apply FC. apply position_nth in P. apply nth_error_Some. congruence.
    + destruct (FS r Hr) as [Sh G]. assert (LN : length (N r) = length (D r)) by (rewrite <- (map_length nr_point), (n_points_same r Hr); apply map_length).
      rewrite LN in Sh. split; [exact Sh|]. intros j e He. destruct (n_of_d r j e Hr He) as (b & i & k & Hb & Pb & Hi & Own & Rk).
      destruct (G j b Hb) as (j' & a & Ha & Ed & Ra & Vj). rewrite Rk, Nat2Z.id in Ha, Vj.
      destruct (owner_row r j b e i k a j' Hr He Hb Hi Rk Own Pb Ha Ed Ra) as (E1 & E2 & E3).
      assert (Hk : (k < n)%nat) by (apply BM; eapply nth_error_In; eauto).
      assert (Pk : position mem k = Some i).
      { destruct (position mem k) as [i'|] eqn:P; [|apply position_none in P; elim P; eapply nth_error_In; eauto]. f_equal. apply position_nth in P.
        rewrite NoDup_nth_error in NM. apply NM; [apply nth_error_Some; congruence|congruence]. }
      destruct (DV k Hk) as (v & Ev & _ & At). rewrite (DV' k Hk) in Ev. injection Ev as <-.
      rewrite (At i j' _ Pk E3) in Vj. assert (Li : (i < length mem)%nat) by (apply nth_error_Some; congruence).
      assert (X : map (fun u => m 0 (home c (cell_box (c_nd c) (e_cell e)) u)) (foreach_col (cell_box (c_nd c) (e_cell e))) = map (m 0) (vertices c e)) by (unfold vertices; rewrite map_map; reflexivity).
      rewrite X in Vj. destruct (red i j' (cell_box (c_nd c) (e_cell e)) (map (m 0) (vertices c e))) as [v|] eqn:Er.
      * exists i, k, j', a, v. auto 10.
      * exfalso. destruct (HF1 i Li) as (_ & _ & Rd). apply (Rd j' (cell_box (c_nd c) (e_cell e)) (map (m 0) (vertices c e)) E3); [|exact Er].
        unfold vertices. rewrite !map_length. apply foreach_col_length. 
Qed.

Theorem forward_mask_prog : exists S', prog_ok n (forward_mask junk c n mem M N L FR (fun i => map (fun q => (q, L q)) (NB i)) red NR) begin S' /\
  forall r, (r < n)%nat -> k_field (w_c (S' r)) = at_member mem fields r /\ received r (s_out (w_s (S' r))) /\
    shaped 1 (Z.to_nat (rcount (NR r))) (w_n (S' r)) /\
    (forall j e, vread (D r) j = Some e -> vals_at (w_n (S' r)) 0 (rindex ColMajor (NR r) (e_point e)) = vals_at (s_out (w_s (S' r))) 0 j) /\
    (forall p, pt_in (NR r) p -> ~ In p (map e_point (D r)) -> vals_at (w_n (S' r)) 0 (rindex ColMajor (NR r) p) = vals_at (nfields r) 0 (rindex ColMajor (NR r) p)).
Proof.
  destruct forward_prog as (S1 & P1 & F1). destruct (fw_input _ _ _ _ _ _ _ _ _ HV) as (MG & NG & HI). destruct HF as [_ HF2].
  assert (DP : forall r, (r < n)%nat -> exists f, disperse_overwrite 1 ColMajor (NR r) (map nr_point (N r)) (s_out (w_s (S1 r))) (w_n (S1 r)) = Some f /\
    shaped 1 (Z.to_nat (rcount (NR r))) f /\
    (forall j e, vread (D r) j = Some e -> vals_at f 0 (rindex ColMajor (NR r) (e_point e)) = vals_at (s_out (w_s (S1 r))) 0 j) /\
    (forall p, pt_in (NR r) p -> ~ In p (map e_point (D r)) -> vals_at f 0 (rindex ColMajor (NR r) p) = vals_at (nfields r) 0 (rindex ColMajor (NR r) p))).
  { intros r Hr. destruct (F1 r Hr) as (_ & En & Sh & _). destruct (HF2 r Hr) as (_ & Sn & Pn). rewrite (n_points_same r Hr), En.
    destruct (overwrite_ok 1 ColMajor (NR r) (map e_point (D r)) (s_out (w_s (S1 r))) (nfields r) ltac:(lia)) as (f & E & Sf & G).
    - rewrite map_length. exact Sh.
    - exact Sn.
    - intros p Ip. rewrite <- (n_points_same r Hr) in Ip. apply in_map_iff in Ip as (x & <- & Ix). apply Pn, Ix.
    - exists f. split; [exact E|]. split; [exact Sf|]. split.
      + intros j e He. assert (Hj : vread (map e_point (D r)) j = Some (e_point e)) by (rewrite vread_fmap, He; reflexivity).
        assert (Hp : pt_in (NR r) (e_point e)).
        { pose proof (vread_In _ _ _ Hj) as Ip. rewrite <- (n_points_same r Hr) in Ip. apply in_map_iff in Ip as (x & <- & Ix). apply Pn, Ix. }
        destruct (G 0 (e_point e) ltac:(lia) Hp) as [G1 _]. apply G1; [exact Hj|]. intros j2 Hlt Hj2.
        pose proof (vread_inj [] (map e_point (D r)) j j2 (e_point e) (oi_points _ _ _ _ _ _ _ _ HI r Hr) Hj Hj2). lia.
      + intros p Hp NI. apply (G 0 p ltac:(lia) Hp), NI. }
  pose (f' := fun r => match disperse_overwrite 1 ColMajor (NR r) (map nr_point (N r)) (s_out (w_s (S1 r))) (w_n (S1 r)) with Some f => f | None => [] end).
  exists (fun r => Fwd (w_c (S1 r)) (w_s (S1 r)) (f' r)). split.
  - unfold forward_mask. apply prog_ok_app. exists S1. split; [exact P1|]. eexists. split; [|intros r Hr; reflexivity]. cbn [phase_ok]. intros r Hr.
    unfold spread_values, f'. destruct (DP r Hr) as (f & -> & _). reflexivity.
  - intros r Hr. cbn [w_c w_s w_n]. destruct (F1 r Hr) as (A & _ & B). destruct (DP r Hr) as (f & E & Sh & G1 & G2). unfold f'. rewrite E. auto.
Qed.
End Forward.
