(** Values sent over an overlap: flags, distances and volumes. *)
From Coq Require Import List ZArith QArith Bool Lia Sorting.Sorted.
From Verif Require Import TupleModel RangeModel Base RangeProof CartModel CartProof DecompModel DecompProof IndexerModel ArrayModel ArrayProof HashModel HashProof.
From Verif Require Import NetModel NetSpec NetProof NetPhase NetTools LiftModel LiftProof EmbedModel EmbedProof NeighSpec NeighProof FieldSpec FieldProof AsmRep.
From Verif Require Import SendModel SendSpec SendProof SendLaws DisperseModel DisperseProof CellModel CellProof CollectModel CollectSpec CollectProof CollectLaws.
From Verif Require Import XchMain PipeModel PipeSpec PipeProof GeomModel OvlModel OvlSpec OvlProof OvlLaws ConModel ConSpec ConProof ConLaws FwdModel FwdSpec FwdProof.
Import ListNotations.
Local Open Scope Z_scope.

Section Laws.
Variables (c : cart) (n : nat) (mem : list nat) (L : nat -> range) (NB : nat -> list nat) (R : range) (D : nat -> list entry)
  (M : nat -> list mrow) (N : nat -> list nrow).
Hypothesis HV : overlapped c n mem L NB R D M N.
Notation nbs := (fun i => map (fun q => (q, L q)) (NB i)).

Lemma vertex_some e : (exists q, (q < n)%nat /\ In e (D q)) -> exists p, In p (vertices c e).
Proof.
  intros (q & Hq & He). destruct (fw_input _ _ _ _ _ _ _ _ _ HV) as (MG & NG & HI). destruct (oi_entries _ _ _ _ _ _ _ _ HI q e Hq He) as [Hc _].
  unfold vertices. destruct (foreach_col (cell_box (c_nd c) (e_cell e))) as [|p l] eqn:E; [|exists (home c (cell_box (c_nd c) (e_cell e)) p); left; reflexivity].
  exfalso. assert (X : pt_in (cell_box (c_nd c) (e_cell e)) (rb (cell_box (c_nd c) (e_cell e)))).
  { rewrite pt_in_tget. intros d Hd. unfold cell_box. cbn [rb re]. rewrite !tget_tmake by exact Hd. destruct (Nat.ltb d (c_nd c)); lia. }
  apply foreach_col_In in X. rewrite E in X. exact X.
Qed.

Section Arrays.
Context {V : Type}.
Variables (junk : V) (FR : nat -> range) (red : nat -> Z -> range -> list V -> option V) (NR : nat -> range)
  (fields : nat -> list (list V)) (vv : nat -> list V) (m : Z -> tup Z -> V) (out nfields : nat -> list (list V)).
Hypothesis HF : fwd_arrays c n mem L FR M N NR red fields vv m out nfields.
Variable P : entry -> V -> Prop.
Hypothesis HP : forall q e i k j a v, (q < n)%nat -> In e (D q) -> nth_error mem i = Some k -> vread (M k) j = Some a -> mr_coords a = e_coords e ->
  vread (overlap_cells c mem M i) j = Some (cell_box (c_nd c) (e_cell e)) ->
  red i j (cell_box (c_nd c) (e_cell e)) (map (m 0) (vertices c e)) = Some v -> P e v.

Lemma received_values r o : (r < n)%nat -> received c mem L D M red m r o -> values_for (D r) o P.
Proof.
  intros Hr [A B]. split; [exact A|]. intros j e He. destruct (B j e He) as (i & k & j' & a & v & B1 & B2 & B3 & B4 & B5 & B6 & B7 & B8).
  exists v. split; [exact B8|]. apply (HP r e i k j' a v Hr (vread_In _ _ _ He) B1 B3 B5 B6 B7).
Qed.

Theorem forward_ok : exists S', prog_ok n (forward junk c n mem M N L FR nbs red) (fwd0 mem fields vv out nfields) S' /\
  forall r, (r < n)%nat -> k_field (w_c (S' r)) = at_member mem fields r /\ w_n (S' r) = nfields r /\ values_for (D r) (s_out (w_s (S' r))) P.
Proof.
  destruct (forward_prog c n mem L NB R D M N HV junk FR red NR fields vv m out nfields HF) as (S' & A & B). exists S'. split; [exact A|].
  intros r Hr. destruct (B r Hr) as (B1 & B2 & B3). split; [exact B1|]. split; [exact B2|]. apply received_values; auto.
Qed.

Theorem forward_mask_ok : exists S', prog_ok n (forward_mask junk c n mem M N L FR nbs red NR) (fwd0 mem fields vv out nfields) S' /\
  forall r, (r < n)%nat -> k_field (w_c (S' r)) = at_member mem fields r /\ written (NR r) (D r) (nfields r) (w_n (S' r)) P.
Proof.
  destruct (forward_mask_prog c n mem L NB R D M N HV junk FR red NR fields vv m out nfields HF) as (S' & A & B). exists S'. split; [exact A|].
  intros r Hr. destruct (B r Hr) as (B1 & B2 & B3 & B4 & B5). split; [exact B1|]. destruct (received_values r _ Hr B2) as [_ G]. split; [exact B3|]. split; [|exact B5].
  intros e He. apply In_vread in He as (j & Hj). destruct (G j e Hj) as (v & Hv & Pv). exists v. split; [|exact Pv]. rewrite (B4 j e Hj). exact Hv.
Qed.
End Arrays.

(** ** Flags *)
Lemma flag_reduces op i : reduces (red_flag (fun b : bool => b) (fun b => b) op) (overlap_cells c mem M i).
Proof. intros j cell vals _ _. destruct op; discriminate. Qed.

Lemma flag_values op (m : Z -> tup Z -> bool) e j cell v :
  red_flag (fun b : bool => b) (fun b => b) op j cell (map (m 0) (vertices c e)) = Some v -> flag_value op c (m 0) e v.
Proof.
  intros E. destruct (flag_ok (fun b : bool => b) (fun b => b) (fun _ => eq_refl) op j cell (map (m 0) (vertices c e))) as (x & Ex & Hx).
  rewrite E in Ex. injection Ex as <-. unfold flag_value. rewrite Hx.
  assert (X : forall b, In b (map (m 0) (vertices c e)) <-> exists p, In p (vertices c e) /\ b = m 0 p).
  { intros b. rewrite in_map_iff. split; intros (p & A & B); exists p; auto. }
  destruct op; cbn [flagged]; setoid_rewrite X; reflexivity.
Qed.

(** ** Volumes *)
Lemma zrange2 x : zrange x (x + 2) = [x; x + 1].
Proof. unfold zrange. replace (Z.to_nat (x + 2 - x)) with 2%nat by lia. reflexivity. Qed.

Lemma coef_weight i k j a e p : nth_error mem i = Some k -> vread (M k) j = Some a -> mr_coords a = e_coords e -> (1 <= c_nd c <= 3)%nat ->
  pt_in (cell_box (c_nd c) (e_cell e)) p ->
  exists w, vertex_coef Qmult (volume_coefs (c_nd c) (match nth_error mem i with Some r => M r | None => [] end)) j (cell_box (c_nd c) (e_cell e)) p = Some w /\
    (w == weight (c_nd c) (e_cell e) (e_coords e) p)%Q.
Proof.
  intros Hi Ha Ec Hnd Hp. rewrite Hi. rewrite pt_in_tget in Hp.
  assert (X : forall d, (d < 3)%nat -> exists w, volume_coefs (c_nd c) (M k) d (tget p d - tget (rb (cell_box (c_nd c) (e_cell e))) d) j = Some w /\
    (w == if Nat.ltb d (c_nd c) then if tget p d =? tget (e_cell e) d then 1 - tget (e_coords e) d else tget (e_coords e) d else 1)%Q).
  { intros d Hd. unfold volume_coefs. rewrite Ha, Ec. specialize (Hp d Hd). unfold cell_box in *. cbn [rb re] in *. rewrite !tget_tmake in * by exact Hd.
    destruct (Nat.ltb_spec d (c_nd c)).
    - destruct (Z.eqb_spec (tget p d) (tget (e_cell e) d)) as [->|Ne].
      + rewrite Z.sub_diag. eexists. split; [reflexivity|]. reflexivity.
      + replace (tget p d - tget (e_cell e) d) with 1 by lia. eexists. split; reflexivity.
    - replace (tget p d - 0) with 0 by lia. eexists. split; reflexivity. }
  destruct (X 0%nat ltac:(lia)) as (w0 & E0 & Q0). destruct (X 1%nat ltac:(lia)) as (w1 & E1 & Q1). destruct (X 2%nat ltac:(lia)) as (w2 & E2 & Q2).
  exists (w0 * w1 * w2)%Q. unfold vertex_coef. cbn [tget] in E0, E1, E2. rewrite E0, E1, E2. split; [reflexivity|]. rewrite Q0, Q1, Q2. unfold weight.
  destruct (c_nd c) as [|[|[|[|nd]]]]; try lia; cbn [seq map fold_right Nat.ltb Nat.leb]; ring.
Qed.
End Laws.

Lemma fold_sum {A} (w w' f : A -> Q) l : (forall p, In p l -> w p == w' p)%Q -> forall a,
  (fold_left (fun a p => a + w p * f p) l a == a + fold_right Qplus 0 (map (fun p => w' p * f p) l))%Q.
Proof.
  induction l as [|x l IH]; intros H a; cbn [fold_left map fold_right]; [ring|]. rewrite IH by (intros p Hp; apply H; right; exact Hp). rewrite (H x) by (left; reflexivity). ring.
Qed.

(** The weights of the vertices add up to 1. *)
Lemma weights_one nd cell u : (1 <= nd <= 3)%nat -> (fold_right Qplus 0 (map (weight nd cell u) (foreach_col (cell_box nd cell))) == 1)%Q.
Proof.
  intros Hnd. destruct cell as [x y z], u as [a b d]. unfold cell_box, foreach_col, tmake. cbn [rb re c0 c1 c2].
  destruct nd as [|[|[|[|nd]]]]; try lia; cbn [Nat.ltb Nat.leb tget c0 c1 c2]; rewrite ?zrange2; change (zrange 0 1) with [0]; cbn [flat_map map app];
    unfold weight; cbn [seq map fold_right tget c0 c1 c2]; rewrite ?Z.eqb_refl;
    repeat match goal with |- context [?x + 1 =? ?x] => replace (x + 1 =? x) with false by (symmetry; apply Z.eqb_neq; lia) end; ring.
Qed.

Lemma weight_pos nd cell u p : (forall d, (d < nd)%nat -> 0 <= tget u d <= 1)%Q -> (0 <= weight nd cell u p)%Q.
Proof.
  intros H. unfold weight. assert (X : forall l, (forall d, In d l -> (d < nd)%nat) -> (0 <= fold_right Qmult 1 (map (fun d => if (tget p d =? tget cell d)%Z then 1 - tget u d else tget u d) l))%Q).
  { induction l as [|d l IH]; intros Hl; cbn [map fold_right]; [discriminate|]. apply Qmult_le_0_compat; [|apply IH; intros x Hx; apply Hl; right; exact Hx].
    destruct (H d (Hl d (or_introl eq_refl))) as [A B]. destruct (tget p d =? tget cell d); [|exact A]. apply (Qplus_le_l _ _ (tget u d)). ring_simplify. exact B. }
  apply X. intros d Hd. apply in_seq in Hd. lia.
Qed.

Lemma sum_bounds {A} (w f : A -> Q) lo hi l : (forall p, In p l -> 0 <= w p /\ lo <= f p <= hi)%Q ->
  (lo * fold_right Qplus 0 (map w l) <= fold_right Qplus 0 (map (fun p => w p * f p) l) <= hi * fold_right Qplus 0 (map w l))%Q.
Proof.
  induction l as [|x l IH]; intros H; cbn [map fold_right]; [split; ring_simplify; discriminate|].
  destruct (H x (or_introl eq_refl)) as (W & F1 & F2). destruct IH as [I1 I2]; [intros p Hp; apply H; right; exact Hp|].
  rewrite !Qmult_plus_distr_r. split; apply Qplus_le_compat; auto; rewrite (Qmult_comm _ (w x)), !(Qmult_comm (w x)); apply Qmult_le_compat_r; auto.
Qed.

Lemma interpolated_bounds c f e lo hi : (1 <= c_nd c <= 3)%nat -> (forall d, (d < c_nd c)%nat -> 0 <= tget (e_coords e) d <= 1)%Q ->
  (forall p, In p (vertices c e) -> lo <= f p <= hi)%Q -> (lo <= interpolated c f e <= hi)%Q.
Proof.
  intros Hnd Hu Hf. unfold interpolated. set (cell := cell_box (c_nd c) (e_cell e)).
  destruct (sum_bounds (weight (c_nd c) (e_cell e) (e_coords e)) (fun p => f (home c cell p)) lo hi (foreach_col cell)) as [A B].
  - intros p Hp. split; [apply weight_pos, Hu|]. apply Hf. unfold vertices. apply (in_map (home c cell)), Hp.
  - pose proof (weights_one (c_nd c) (e_cell e) (e_coords e) Hnd) as W. fold cell in W. rewrite W, Qmult_1_r in A, B. auto.
Qed.

Section Results.
Variables (c : cart) (n : nat) (mem : list nat) (L : nat -> range) (NB : nat -> list nat) (R : range) (D : nat -> list entry)
  (M : nat -> list mrow) (N : nat -> list nrow).
Hypothesis HV : overlapped c n mem L NB R D M N.
Notation nbs := (fun i => map (fun q => (q, L q)) (NB i)).
Variables (FR NR : nat -> range).

Lemma dims : (1 <= c_nd c <= 3)%nat.
Proof. destruct (fw_input _ _ _ _ _ _ _ _ _ HV) as (MG & NG & HI). pose proof (oi_grid _ _ _ _ _ _ _ _ HI) as D0. apply D0. Qed.

Theorem forward_flags op fields vv m out nfields : fwd_arrays c n mem L FR M N NR (fun _ => red_flag (fun b : bool => b) (fun b => b) op) fields vv m out nfields ->
  exists S', computes n (forward_mask false c n mem M N L FR nbs (fun _ => red_flag (fun b => b) (fun b => b) op) NR) (fwd0 mem fields vv out nfields) S' /\
  forall r, (r < n)%nat -> k_field (w_c (S' r)) = at_member mem fields r /\ written (NR r) (D r) (nfields r) (w_n (S' r)) (flag_value op c (m 0)).
Proof.
  intros HF. destruct (forward_mask_ok c n mem L NB R D M N HV false FR _ NR fields vv m out nfields HF (flag_value op c (m 0))) as (S' & A & B).
  - intros. eapply flag_values; eauto.
  - exists S'. split; [apply prog_computes, A|exact B].
Qed.

Theorem forward_least start fields vv m out nfields : (forall p, m 0 p <= start) ->
  fwd_arrays c n mem L FR M N NR (fun _ => red_min Z.ltb start) fields vv m out nfields ->
  exists S', computes n (forward 0 c n mem M N L FR nbs (fun _ => red_min Z.ltb start)) (fwd0 mem fields vv out nfields) S' /\
  forall r, (r < n)%nat -> k_field (w_c (S' r)) = at_member mem fields r /\
    values_for (D r) (s_out (w_s (S' r))) (fun e v => (exists p, In p (vertices c e) /\ v = m 0 p) /\ forall p, In p (vertices c e) -> v <= m 0 p).
Proof.
  intros Hs HF. destruct (forward_ok c n mem L NB R D M N HV 0 FR _ NR fields vv m out nfields HF
    (fun e v => (exists p, In p (vertices c e) /\ v = m 0 p) /\ forall p, In p (vertices c e) -> v <= m 0 p)) as (S' & A & B).
  - intros q e i k j a v Hq He _ _ _ _ E. destruct (min_ok Z.ltb) with (start := start) (i := j) (cell := cell_box (c_nd c) (e_cell e)) (vals := map (m 0) (vertices c e)) as (x & Ex & Lx).
    + split; [intros a' b' d' H1 H2; apply Z.ltb_lt in H1, H2; apply Z.ltb_lt; lia|]. split; [intros a'; apply Z.ltb_irrefl|]. intros a' b' H1 H2. apply Z.ltb_ge in H1, H2. lia.
    + destruct (vertex_some c n mem L NB R D M N HV e) as (p & Hp); [eauto|]. intros X. apply map_eq_nil in X. rewrite X in Hp. exact Hp.
    + intros v' Hv. apply in_map_iff in Hv as (p & <- & _). apply Z.ltb_ge. apply Hs.
    + rewrite E in Ex. injection Ex as <-. destruct Lx as [X1 X2]. apply in_map_iff in X1 as (p & E1 & Hp). split; [exists p; auto|].
      intros p' Hp'. specialize (X2 (m 0 p') (in_map _ _ _ Hp')). cbn beta in X2. apply Z.ltb_ge in X2. exact X2.
  - exists S'. split; [apply prog_computes, A|]. intros r Hr. destruct (B r Hr) as (B1 & _ & B3). auto.
Qed.

Lemma volumes_reduce i : (i < length mem)%nat -> reduces (red_interp Qmult (fun a w v => a + w * v)%Q 0%Q 0%Q (volume_coefs (c_nd c) (match nth_error mem i with Some r => M r | None => [] end)) ColMajor) (overlap_cells c mem M i).
Proof.
  intros Hi j cell vals Hc Hl. unfold overlap_cells in Hc. destruct (nth_error mem i) as [k|] eqn:Ei; [|apply vread_In in Hc; contradiction].
  rewrite vread_fmap in Hc. destruct (vread (M k) j) as [a|] eqn:Ha; [|discriminate]. injection Hc as <-. rewrite cell_extents_box in Hl |- *.
  assert (HW : forall p, pt_in (cell_box (c_nd c) (mr_cell a)) p ->
    vertex_coef Qmult (volume_coefs (c_nd c) (M k)) j (cell_box (c_nd c) (mr_cell a)) p =
    Some (match vertex_coef Qmult (volume_coefs (c_nd c) (M k)) j (cell_box (c_nd c) (mr_cell a)) p with Some w => w | None => 0%Q end)).
  { intros p Hp. destruct (coef_weight c mem M i k j a (Entry (mr_cell a) (mr_coords a) (mr_dest a)) p Ei Ha eq_refl dims Hp) as (w & E & _).
    rewrite Ei in E. cbn [e_cell] in E. rewrite E. reflexivity. }
  rewrite (interp_ok Qmult _ 0%Q 0%Q _ ColMajor j _ _ HW vals Hl). discriminate.
Qed.

Theorem forward_interpolated fields vv m out nfields :
  fwd_arrays c n mem L FR M N NR (fun i => red_interp Qmult (fun a w v => a + w * v)%Q 0%Q 0%Q (volume_coefs (c_nd c) (match nth_error mem i with Some r => M r | None => [] end)) ColMajor)
    fields vv m out nfields ->
  exists S', computes n (forward_volumes c n mem M N L FR nbs) (fwd0 mem fields vv out nfields) S' /\
  forall r, (r < n)%nat -> k_field (w_c (S' r)) = at_member mem fields r /\
    values_for (D r) (s_out (w_s (S' r))) (fun e v => v == interpolated c (m 0%Z) e)%Q.
Proof.
  intros HF. destruct (forward_ok c n mem L NB R D M N HV 0%Q FR _ NR fields vv m out nfields HF (fun e v => v == interpolated c (m 0%Z) e)%Q) as (S' & A & B).
  - intros q e i k j a v Hq He Hi Ha Ec Hcell E. set (cell := cell_box (c_nd c) (e_cell e)) in *.
    set (cf := volume_coefs (c_nd c) (match nth_error mem i with Some r => M r | None => [] end)) in *.
    set (w := fun p => match vertex_coef Qmult cf j cell p with Some w => w | None => 0%Q end).
    assert (HW : forall p, pt_in cell p -> vertex_coef Qmult cf j cell p = Some (w p) /\ (w p == weight (c_nd c) (e_cell e) (e_coords e) p)%Q).
    { intros p Hp. destruct (coef_weight c mem M i k j a e p Hi Ha Ec dims Hp) as (w' & E' & Q'). fold cf cell in E'. unfold w. rewrite E'. auto. }
    assert (X : map (m 0) (vertices c e) = map (fun p => m 0 (home c cell p)) (foreach_col cell)) by (unfold vertices; rewrite map_map; reflexivity).
    rewrite X, (interp_ok Qmult _ 0%Q 0%Q cf ColMajor j cell w (fun p Hp => proj1 (HW p Hp))) in E; [|rewrite map_length; apply foreach_col_length].
    injection E as <-. cbn [in_order]. rewrite (interp_fold (fun a w v => a + w * v)%Q w (fun p => m 0%Z (home c cell p)) (foreach_col cell) 0%Q). rewrite (fold_sum w (weight (c_nd c) (e_cell e) (e_coords e)) (fun p => m 0 (home c cell p))); [|intros p Hp; apply HW, foreach_col_In, Hp].
    unfold interpolated. fold cell. ring.
  - exists S'. split; [apply prog_computes, A|]. intros r Hr. destruct (B r Hr) as (B1 & _ & B3). auto.
Qed.

(** ** The overlap masks after points became inactive *)
Lemma and_row (row act : list bool) len i : length row = len -> length act = len ->
  vread (map (fun x => fst x && snd x) (combine row act)) i = match vread row i, vread act i with Some a, Some b => Some (a && b) | _, _ => None end.
Proof.
  intros A B. rewrite vread_fmap. unfold vread. destruct (i <? 0); [reflexivity|]. revert act len A B. generalize (Z.to_nat i) as k.
  induction row as [|x row IH]; intros k [|y act] len A B; cbn in *; try (destruct k; reflexivity); try congruence.
  destruct k; [reflexivity|]. cbn. apply (IH k act (pred len)); lia.
Qed.

Theorem update_ok fields vv m out nfields act : fwd_arrays c n mem L FR M N NR (fun _ => red_all (fun b : bool => b) (fun b => b)) fields vv m out nfields ->
  (forall r, (r < n)%nat -> length (act r) = Z.to_nat (rcount (NR r))) ->
  exists S', computes n (update_overlap c n mem M N L FR nbs NR act) (fwd0 mem fields vv out nfields) S' /\
  forall r, (r < n)%nat -> k_field (w_c (S' r)) = at_member mem fields r /\ shaped 1 (Z.to_nat (rcount (NR r))) (w_n (S' r)) /\
    (forall e, In e (D r) -> exists v, vals_at (w_n (S' r)) 0 (rindex ColMajor (NR r) (e_point e)) = Some v /\ (v = true <-> forall p, In p (vertices c e) -> m 0 p = true)) /\
    (forall p, pt_in (NR r) p -> ~ In p (map e_point (D r)) -> exists a b, vals_at (nfields r) 0 (rindex ColMajor (NR r) p) = Some a /\
       vread (act r) (rindex ColMajor (NR r) p) = Some b /\ vals_at (w_n (S' r)) 0 (rindex ColMajor (NR r) p) = Some (a && b)).
Proof.
  intros HF HL. set (nf := fun r => map (fun row => map (fun x => fst x && snd x) (combine row (act r))) (nfields r)).
  assert (HF' : fwd_arrays c n mem L FR M N NR (fun _ => red_all (fun b : bool => b) (fun b => b)) fields vv m out nf).
  { destruct HF as [H1 H2]. split; [exact H1|]. intros r Hr. destruct (H2 r Hr) as (A & B & C). split; [exact A|]. split; [|exact C].
    unfold nf. split; [rewrite map_length; apply B|]. intros row Hrow. apply in_map_iff in Hrow as (row0 & <- & I0). rewrite map_length, combine_length, (HL r Hr). destruct B as [_ B]. rewrite (B row0 I0). lia. }
  destruct (forward_mask_ok c n mem L NB R D M N HV false FR _ NR fields vv m out nf HF' (flag_value AllOf c (m 0))) as (S' & A & B).
  { intros q e i k j a v Hq He Hi Ha Ec Hcell E. apply (flag_values c AllOf m e j (cell_box (c_nd c) (e_cell e)) v E). }
  exists S'. split.
  - apply prog_computes. unfold update_overlap. apply prog_ok_app. exists (fwd0 mem fields vv out nf). split; [|exact A].
    eexists. split; [|intros r Hr; reflexivity]. cbn [phase_ok]. intros r Hr. reflexivity.
  - intros r Hr. destruct (B r Hr) as (B1 & B2 & B3 & B4). split; [exact B1|]. split; [exact B2|]. split.
    + intros e He. destruct (B3 e He) as (v & Hv & Fv). exists v. split; [exact Hv|]. unfold flag_value in Fv. cbn [flagged] in Fv. rewrite Fv. split.
      * intros X p Hp. apply X. exists p. auto.
      * intros X b (p & Hp & ->). apply X, Hp.
    + intros p Hp NI. rewrite (B4 p Hp NI). destruct HF as [_ H2]. destruct (H2 r Hr) as (_ & Sn & _). destruct (shaped_one _ _ Sn) as (row & En & Lrow).
      pose proof (rindex_bounds ColMajor (NR r) p Hp) as Bd.
      destruct (vread_ge row (rindex ColMajor (NR r) p)) as (a & Ha); [lia|]. destruct (vread_ge (act r) (rindex ColMajor (NR r) p)) as (b & Hb); [rewrite (HL r Hr); lia|].
      exists a, b. unfold nf, vals_at. rewrite En. cbn [map]. change (vread [row] 0) with (Some row). split; [exact Ha|]. split; [exact Hb|].
      match goal with |- context [vread [?x] 0] => change (vread [x] 0) with (Some x) end. cbv iota.
      rewrite (and_row row (act r) _ (rindex ColMajor (NR r) p) eq_refl); [rewrite Ha, Hb; reflexivity|]. rewrite (HL r Hr). lia.
Qed.
End Results.
