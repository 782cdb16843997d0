(** Geometries after their coordinates have been edited. *)
From Coq Require Import List ZArith QArith Bool Lia Arith.
From Verif Require Import TupleModel RangeModel CartModel Base RangeProof CartProof IndexerModel ArrayModel ArrayProof.
From Verif Require Import ContModel HashModel HashSpec HashProof DecompModel DecompProof NetModel NetSpec NetPhase NetProof NeighSpec NeighProof HaloModel HaloProof LiftModel LiftProof FieldModel FieldSpec FieldProof AsmRep GeomModel GedModel GedSpec GedGeo.
Import ListNotations.
Local Open Scope Z_scope.

(** ** Fields *)
Lemma at_some e l p : Z.of_nat (length l) = rcount e -> pt_in e p -> exists x, at_ e l p = Some x.
Proof.
  intros HL Hp. pose proof (rindex_bounds ColMajor e p Hp) as B. unfold at_, vread. destruct (Z.ltb_spec (rindex ColMajor e p) 0); [lia|].
  destruct (nth_error l (Z.to_nat (rindex ColMajor e p))) as [x|] eqn:E; [eauto|]. apply nth_error_None in E. lia.
Qed.
Lemma build_read (f : tup Z -> option Q) e l : omap f (RangeModel.foreach_col e) = Some l ->
  Z.of_nat (length l) = rcount e /\ forall p, pt_in e p -> at_ e l p = f p.
Proof.
  intros H. split; [rewrite (omap_length _ _ _ H); apply foreach_col_length|]. intros p Hp.
  destruct (omap_nth f _ _ _ _ H (foreach_index_nth e p Hp)) as (b & B & ->). unfold at_, vread. pose proof (rindex_bounds ColMajor e p Hp).
  destruct (Z.ltb_spec (rindex ColMajor e p) 0); [lia|exact B].
Qed.
Definition built (f : tup Z -> option Q) (e : range) : list Q := match omap f (RangeModel.foreach_col e) with Some l => l | None => [] end.
Lemma built_ok f e : (forall p, pt_in e p -> exists x, f p = Some x) ->
  omap f (RangeModel.foreach_col e) = Some (built f e) /\ Z.of_nat (length (built f e)) = rcount e /\ forall p, pt_in e p -> at_ e (built f e) p = f p.
Proof.
  intros H. destruct (omap_total f (RangeModel.foreach_col e)) as [l Hl]; [intros p Hp; apply H, foreach_col_In, Hp|].
  unfold built. rewrite Hl. split; [reflexivity|]. now apply build_read.
Qed.

(** ** Volumes depend on vertices *)
Lemma cell_volume_ext g nd X Y cell : (1 <= nd <= 3)%nat -> (forall i, (i < num_vertices nd)%nat -> X (tadd cell (offset i)) = Y (tadd cell (offset i))) ->
  cell_volume g nd X cell = cell_volume g nd Y cell.
Proof.
  intros Hn H. change (forall i, (i < num_vertices nd)%nat -> node X cell i = node Y cell i) in H. unfold cell_volume. revert H. generalize (node X cell) (node Y cell). intros p q H.
  destruct nd as [|[|[|[|]]]]; try lia; cbn [num_vertices] in H.
  - cbn. rewrite !(H 0%nat), !(H 1%nat) by lia. reflexivity.
  - pose proof (H 0%nat ltac:(lia)) as H0. pose proof (H 1%nat ltac:(lia)) as H1. pose proof (H 2%nat ltac:(lia)) as H2. pose proof (H 3%nat ltac:(lia)) as H3.
    destruct g; cbn; rewrite ?H0, ?H1, ?H2, ?H3; reflexivity.
  - pose proof (H 0%nat ltac:(lia)) as H0. pose proof (H 1%nat ltac:(lia)) as H1. pose proof (H 2%nat ltac:(lia)) as H2. pose proof (H 3%nat ltac:(lia)) as H3.
    pose proof (H 4%nat ltac:(lia)) as H4. pose proof (H 5%nat ltac:(lia)) as H5. pose proof (H 6%nat ltac:(lia)) as H6. pose proof (H 7%nat ltac:(lia)) as H7.
    destruct g; cbn; rewrite ?H0, ?H1, ?H2, ?H3, ?H4, ?H5, ?H6, ?H7; reflexivity.
Qed.

Lemma get_period_periods c p : cart_ok c -> exists k, get_period c p = Some k /\ forall d, (d < 3)%nat -> tget k d = periods c p d.
Proof.
  intros Hok. destruct (get_period_spec c p Hok) as (k & K & B). exists k. split; [exact K|]. intros d Hd. destruct (B d Hd) as [B1 B2]. unfold periods.
  destruct (tget (c_per c) d); [|auto]. specialize (B1 eq_refl). cbn zeta in B1. specialize (Hok d Hd).
  apply (Z.div_unique _ _ _ (tget p d - tget (rb (c_range c)) d - per_len c d * tget k d)); nia.
Qed.

Section Main.
Context (g : geometry) (c : cart) (n : nat) (L : nat -> range) (N : nat -> list nat) (H CH : nat -> hmap) (len : tup Q) (X : tup Z -> tup Q).
Hypothesis G : gridded c n L N H CH.
Notation cc := (cart_point_to_cell c).
Notation E := (points_extended c L).
Notation CE := (cells_extended c L).
Notation CL := (cells_local c L).
Notation vol := (cell_volume g (c_nd c) (placed c len X)).

Lemma GD : decomposed c n L. Proof. apply G. Qed.
Lemma GS : stored_once c. Proof. apply G. Qed.
Lemma GN : forall r, (r < n)%nat -> rempty (CL r) = false. Proof. apply G. Qed.
Lemma Gnear : forall r q p u, (r < n)%nat -> (q < n)%nat -> pt_in (L r) p -> pt_in (L q) u -> near c p u -> q = r \/ In q (N r).
Proof. apply G. Qed.
Lemma Gok : cart_ok c. Proof. pose proof GD as (_ & _ & A & _). exact A. Qed.
Lemma Gcok : cart_ok cc. Proof. pose proof (decomposed_cells c n L GD GS GN) as (_ & _ & A & _). exact A. Qed.
Lemma own_hand r p : (r < n)%nat -> pt_in (L r) p -> at_hand c n L N r p.
Proof. intros Hr Hp. exists r, p. split; [exact Hr|]. split; [exact Hp|]. split; [apply is_image_refl|]. now left. Qed.

(** Exchanging a field of points *)
Lemma points_exch (F : nat -> list Q) m : holds n L E F m ->
  exists F', phase_ok n halo_exchange (fun r => (H r, F r)) (fun r => (H r, F' r)) /\ holds n L E F' m /\
    forall r p, (r < n)%nat -> pt_in (E r) p -> at_hand c n L N r p -> at_ (E r) (F' r) p = Some (m (wrap c p)).
Proof.
  intros Hm. pose proof G as ((_ & _ & _ & _ & _ & X1) & _). destruct (X1 Q F m Hm) as (F' & A & B). exists F'. split; [exact A|]. split; [apply B|].
  intros r p Hr Hp (q & u & Hq & Hu & I & W). unfold at_. rewrite (proj2 B r p q u Hr Hq Hp Hu I W). f_equal. f_equal. symmetry. apply wrap_in; auto using Gok, GS. apply (L_sub c n L GD q Hq), Hu.
Qed.
Lemma cells_exch (F : nat -> list Q) m : holds n CL CE F m ->
  exists F', phase_ok n halo_exchange (fun r => (CH r, F r)) (fun r => (CH r, F' r)) /\ holds n CL CE F' m /\
    forall r p, (r < n)%nat -> pt_in (CE r) p -> at_hand cc n CL N r p -> at_ (CE r) (F' r) p = Some (m (wrap cc p)).
Proof.
  intros Hm. pose proof G as (_ & _ & X1). destruct (X1 Q F m Hm) as (F' & A & B). exists F'. split; [exact A|]. split; [apply B|].
  intros r p Hr Hp (q & u & Hq & Hu & I & W). unfold at_. rewrite (proj2 B r p q u Hr Hq Hp Hu I W). f_equal. f_equal. symmetry.
  apply wrap_in; [exact Gcok|exact (stored_once_cells c L)|exact I|]. apply (L_sub cc n CL (decomposed_cells c n L GD GS GN) q Hq), Hu.
Qed.

(** One component of coordinates *)
Lemma shift_ok (d : nat) (F : nat -> list Q) : (d < 3)%nat ->
  (forall r, (r < n)%nat -> Z.of_nat (length (F r)) = rcount (E r)) ->
  (forall r p, (r < n)%nat -> pt_in (E r) p -> at_hand c n L N r p -> at_ (E r) (F r) p = Some (tget (X (wrap c p)) d)) ->
  exists F', forall r, (r < n)%nat -> shift c (E r) len d (F r) = Some (F' r) /\ Z.of_nat (length (F' r)) = rcount (E r) /\
    forall p, pt_in (E r) p -> at_hand c n L N r p -> at_ (E r) (F' r) p = Some (tget (placed c len X p) d).
Proof.
  intros Hd HL HA. unfold shift.
  set (f r p := let! x := at_ (E r) (F r) p in if rcontains (c_range c) p then Some x else let! k := get_period c p in Some (x + inject_Z (tget k d) * tget len d)%Q).
  exists (fun r => built (f r) (E r)). intros r Hr.
  assert (T : forall p, pt_in (E r) p -> exists x, f r p = Some x).
  { intros p Hp. destruct (at_some (E r) (F r) p (HL r Hr) Hp) as [x Ex]. unfold f. rewrite Ex. destruct (rcontains (c_range c) p); [eauto|]. destruct (get_period_periods c p Gok) as (k & -> & _). eauto. }
  destruct (built_ok (f r) (E r) T) as (A1 & A2 & A3). split; [exact A1|]. split; [exact A2|]. intros p Hp Hh. rewrite (A3 p Hp). unfold f. rewrite (HA r p Hr Hp Hh). unfold placed.
  destruct (rcontains (c_range c) p) eqn:R.
  - rewrite (wrap_id c Gok GS p); [reflexivity|]. now apply rcontains_spec.
  - destruct (get_period_periods c p Gok) as (k & -> & K). rewrite tget_tmake by exact Hd. now rewrite (K d Hd).
Qed.

Lemma volume_ok s r cell : (r < n)%nat -> pt_in (CL r) cell ->
  (forall p, pt_in (E r) p -> at_hand c n L N r p -> at_ (E r) (g_x s) p = Some (c0 (placed c len X p)) /\ at_ (E r) (g_y s) p = Some (c1 (placed c len X p)) /\ at_ (E r) (g_z s) p = Some (c2 (placed c len X p))) ->
  volume_at g (c_nd c) (E r) s cell = Some (vol cell).
Proof.
  intros Hr Hc K. unfold volume_at.
  assert (F : forallb (fun i => rcontains (E r) (tadd cell (offset i))) (seq 0 (num_vertices (c_nd c))) = true).
  { apply forallb_forall. intros i Hi. apply in_seq in Hi. apply rcontains_spec. apply (vertex_hand c n L GD GS N Gnear r cell i Hr Hc). lia. }
  rewrite F. f_equal. apply cell_volume_ext; [pose proof GD as (A & _); exact A|]. intros i Hi.
  destruct (vertex_hand c n L GD GS N Gnear r cell i Hr Hc Hi) as [V1 V2]. destruct (K _ V1 V2) as (-> & -> & ->) || (unfold coords_at; destruct (K _ V1 V2) as (-> & -> & ->)). cbn [value]. now destruct (placed c len X (tadd cell (offset i))).
Qed.

Theorem end_edit_ok S : edited c n L H CH len X S ->
  exists S', prog_ok n (end_edit g c L) S S' /\ edited c n L H CH len X S' /\ up_to_date g c n L N len X S'.
Proof.
  intros (HS & HX & HY & HZ).
  destruct (points_exch _ _ HX) as (F0 & P0 & K0 & A0). destruct (points_exch _ _ HY) as (F1 & P1 & K1 & A1). destruct (points_exch _ _ HZ) as (F2 & P2 & K2 & A2).
  destruct (shift_ok 0 F0 ltac:(lia) (fun r Hr => proj1 (K0 r Hr)) A0) as (X0 & Y0).
  destruct (shift_ok 1 F1 ltac:(lia) (fun r Hr => proj1 (K1 r Hr)) A1) as (X1 & Y1).
  destruct (shift_ok 2 F2 ltac:(lia) (fun r Hr => proj1 (K2 r Hr)) A2) as (X2 & Y2).
  set (st3 r := Gst (H r) (CH r) len (X0 r) (X1 r) (X2 r) (g_cv (S r)) (g_v (S r))).
  assert (C3 : forall r p, (r < n)%nat -> pt_in (E r) p -> at_hand c n L N r p ->
     at_ (E r) (X0 r) p = Some (c0 (placed c len X p)) /\ at_ (E r) (X1 r) p = Some (c1 (placed c len X p)) /\ at_ (E r) (X2 r) p = Some (c2 (placed c len X p))).
  { intros r p Hr Hp Hh. split; [|split]; [apply (Y0 r Hr)|apply (Y1 r Hr)|apply (Y2 r Hr)]; auto. }
  (* cells *)
  set (fc r p := if rcontains (CL r) p then volume_at g (c_nd c) (E r) (st3 r) p else at_ (CE r) (g_cv (S r)) p).
  assert (TC : forall r, (r < n)%nat -> forall p, pt_in (CE r) p -> exists x, fc r p = Some x).
  { intros r Hr p Hp. unfold fc. destruct (rcontains (CL r) p) eqn:R.
    - apply rcontains_spec in R. rewrite (volume_ok (st3 r) r p Hr R); [eauto|]. intros q Hq Hh. apply C3; auto.
    - apply at_some; [apply HS, Hr|exact Hp]. }
  assert (HC : holds n CL CE (fun r => built (fc r) (CE r)) vol).
  { intros r Hr. destruct (built_ok (fc r) (CE r) (TC r Hr)) as (_ & B2 & B3). split; [exact B2|]. intros p Hp. change (at_ (CE r) (built (fc r) (CE r)) p = Some (vol p)). rewrite B3 by (apply (CL_in_CE c n L r); auto).
    unfold fc. replace (rcontains (CL r) p) with true by (symmetry; now apply rcontains_spec). apply volume_ok; auto. intros q Hq Hh. apply C3; auto. }
  destruct (cells_exch _ _ HC) as (V & PV & KV & AV).
  set (st5 r := Gst (H r) (CH r) len (X0 r) (X1 r) (X2 r) (V r) (g_v (S r))).
  (* points *)
  set (fp r p := if rcontains (L r) p then let! vs := omap (at_ (CE r) (V r)) (RangeModel.foreach_col (cells_by c (CE r) p)) in average vs (rcount (cells_by c (CE r) p)) else at_ (E r) (g_v (S r)) p).
  assert (FP : forall r p, (r < n)%nat -> pt_in (L r) p -> fp r p = Some (point_volume c vol p)).
  { intros r p Hr Hp. unfold fp. replace (rcontains (L r) p) with true by (symmetry; now apply rcontains_spec). rewrite (cells_by_of c n L GD GS N Gnear r p Hr Hp).
    rewrite (omap_map _ (fun q => vol (wrap cc q))).
    - unfold average. pose proof (cells_some c n L GD GS N Gnear GN p r Hr Hp). destruct (Z.eqb_spec (rcount (cells_of c p)) 0); [lia|]. reflexivity.
    - intros q Hq. apply foreach_col_In in Hq. destruct (cell_hand c n L GD GS N Gnear GN r p q Hr Hp Hq) as [W1 W2]. apply AV; auto. }
  assert (TP : forall r, (r < n)%nat -> forall p, pt_in (E r) p -> exists x, fp r p = Some x).
  { intros r Hr p Hp. destruct (rcontains (L r) p) eqn:R.
    - apply rcontains_spec in R. rewrite (FP r p Hr R). eauto.
    - unfold fp. rewrite R. apply at_some; [apply HS, Hr|exact Hp]. }
  assert (HV : holds n L E (fun r => built (fp r) (E r)) (point_volume c vol)).
  { intros r Hr. destruct (built_ok (fp r) (E r) (TP r Hr)) as (_ & B2 & B3). split; [exact B2|]. intros p Hp. change (at_ (E r) (built (fp r) (E r)) p = Some (point_volume c vol p)). rewrite B3 by (apply (L_in_ext c n L GD GS r Hr), Hp).
    apply FP; auto. }
  destruct (points_exch _ _ HV) as (W & PW & KW & AW).
  set (st7 r := Gst (H r) (CH r) len (X0 r) (X1 r) (X2 r) (V r) (W r)).
  assert (O1 : forall (f f' : nat -> hmap * list Q), phase_ok n halo_exchange f f' -> prog_ok n [halo_exchange] f f').
  { intros f f' Q. exists f'. split; [exact Q|]. intros r Hr. reflexivity. }
  exists st7. split; [|split].
  - unfold end_edit.
    apply prog_ok_seq with (S1 := fun r => Gst (H r) (CH r) len (F0 r) (g_y (S r)) (g_z (S r)) (g_cv (S r)) (g_v (S r))).
    { apply prog_ok_start with (S := fun r => put_x (Gst (H r) (CH r) len (F0 r) (g_y (S r)) (g_z (S r)) (g_cv (S r)) (g_v (S r))) (H r, g_x (S r))).
      - intros r Hr. destruct (HS r Hr) as (E1 & E2 & E3 & _). unfold put_x. cbn. rewrite <- E1, <- E2, <- E3. now destruct (S r).
      - apply (lift_ok get_x put_x n [halo_exchange] (fun r => Gst (H r) (CH r) len (F0 r) (g_y (S r)) (g_z (S r)) (g_cv (S r)) (g_v (S r))) _ (fun r => (H r, F0 r))).
        + intros r [h l] Hr. reflexivity.
        + intros r a a' Hr. reflexivity.
        + apply O1. exact P0. }
    apply prog_ok_seq with (S1 := fun r => Gst (H r) (CH r) len (F0 r) (F1 r) (g_z (S r)) (g_cv (S r)) (g_v (S r))).
    { apply (lift_ok get_y put_y n [halo_exchange] (fun r => Gst (H r) (CH r) len (F0 r) (F1 r) (g_z (S r)) (g_cv (S r)) (g_v (S r))) (fun r => (H r, g_y (S r))) (fun r => (H r, F1 r))).
      - intros r [h l] Hr. reflexivity.
      - intros r a a' Hr. reflexivity.
      - apply O1. exact P1. }
    apply prog_ok_seq with (S1 := fun r => Gst (H r) (CH r) len (F0 r) (F1 r) (F2 r) (g_cv (S r)) (g_v (S r))).
    { apply (lift_ok get_z put_z n [halo_exchange] (fun r => Gst (H r) (CH r) len (F0 r) (F1 r) (F2 r) (g_cv (S r)) (g_v (S r))) (fun r => (H r, g_z (S r))) (fun r => (H r, F2 r))).
      - intros r [h l] Hr. reflexivity.
      - intros r a a' Hr. reflexivity.
      - apply O1. exact P2. }
    apply prog_ok_seq with (S1 := fun r => Gst (H r) (CH r) len (X0 r) (X1 r) (X2 r) (built (fc r) (CE r)) (g_v (S r))).
    { exists st3. split.
      - intros r Hr. unfold g_shift. cbn [g_len g_x g_y g_z g_h g_ch g_cv g_v]. change (grid_extended c (L r)) with (E r). rewrite (proj1 (Y0 r Hr)), (proj1 (Y1 r Hr)), (proj1 (Y2 r Hr)). reflexivity.
      - exists (fun r => Gst (H r) (CH r) len (X0 r) (X1 r) (X2 r) (built (fc r) (CE r)) (g_v (S r))). split; [|intros r Hr; reflexivity].
        intros r Hr. unfold g_cells. change (grid_cell_extended c (L r)) with (CE r). change (omap _ _) with (omap (fc r) (RangeModel.foreach_col (CE r))).
        rewrite (proj1 (built_ok (fc r) (CE r) (TC r Hr))). reflexivity. }
    apply prog_ok_seq with (S1 := st5).
    { apply (lift_ok get_cv put_cv n [halo_exchange] st5 (fun r => (CH r, built (fc r) (CE r))) (fun r => (CH r, V r))).
      - intros r [h l] Hr. reflexivity.
      - intros r a a' Hr. reflexivity.
      - apply O1. exact PV. }
    apply prog_ok_seq with (S1 := fun r => Gst (H r) (CH r) len (X0 r) (X1 r) (X2 r) (V r) (built (fp r) (E r))).
    { exists (fun r => Gst (H r) (CH r) len (X0 r) (X1 r) (X2 r) (V r) (built (fp r) (E r))). split; [|intros r Hr; reflexivity].
      intros r Hr. unfold g_points. change (grid_extended c (L r)) with (E r). change (grid_cell_extended c (L r)) with (CE r). change (omap _ _) with (omap (fp r) (RangeModel.foreach_col (E r))).
      rewrite (proj1 (built_ok (fp r) (E r) (TP r Hr))). reflexivity. }
    apply (lift_ok get_v put_v n [halo_exchange] st7 (fun r => (H r, built (fp r) (E r))) (fun r => (H r, W r))).
    + intros r [h l] Hr. reflexivity.
    + intros r a a' Hr. reflexivity.
    + apply O1. exact PW.
  - assert (HP : forall r p, (r < n)%nat -> pt_in (L r) p -> pt_in (E r) p /\ placed c len X p = X p).
    { intros r p Hr Hp. split; [apply (L_in_ext c n L GD GS r Hr), Hp|]. unfold placed. replace (rcontains (c_range c) p) with true; [reflexivity|]. symmetry. apply rcontains_spec. apply (L_sub c n L GD r Hr), Hp. }
    split; [|split; [|split]].
    + intros r Hr. split; [reflexivity|]. split; [reflexivity|]. split; [reflexivity|]. split; [apply (KV r Hr)|apply (KW r Hr)].
    + intros r Hr. split; [apply (Y0 r Hr)|]. intros p Hp. destruct (HP r p Hr Hp) as [Q1 Q2]. destruct (C3 r p Hr Q1 (own_hand r p Hr Hp)) as (U & _). rewrite Q2 in U. exact U.
    + intros r Hr. split; [apply (Y1 r Hr)|]. intros p Hp. destruct (HP r p Hr Hp) as [Q1 Q2]. destruct (C3 r p Hr Q1 (own_hand r p Hr Hp)) as (_ & U & _). rewrite Q2 in U. exact U.
    + intros r Hr. split; [apply (Y2 r Hr)|]. intros p Hp. destruct (HP r p Hr Hp) as [Q1 Q2]. destruct (C3 r p Hr Q1 (own_hand r p Hr Hp)) as (_ & _ & U). rewrite Q2 in U. exact U.
  - split.
    + intros r p Hr Hp Hh. destruct (C3 r p Hr Hp Hh) as (U0 & U1 & U2). split; [exact U0|]. split; [exact U1|]. split; [exact U2|]. apply AW; auto.
    + intros r p Hr Hp Hh. apply AV; auto.
Qed.
End Main.

(** ** Grids as the library sets them up *)
Lemma setup_ok c n L : decomposed c n L -> stored_once c -> (forall r, (r < n)%nat -> rempty (cells_local c L r) = false) ->
  gridded c n L (nb c n L) (hm c L (points_extended c L) (nb c n L)) (hm (cart_point_to_cell c) (cells_local c L) (cells_extended c L) (nb c n L)).
Proof.
  intros D SO NE. pose proof (nb_partitioned c n L (points_extended c L) D SO (fun r Hr => grid_extended_ok c n L r D SO Hr)) as P. split; [exact P|]. split; [exact NE|].
  intros V F m Hm. apply gen_exchange; auto.
  - apply decomposed_cells; auto.
  - apply (stored_once_cells c L).
  - intros r Hr. apply (CL_in_CE c n L r Hr).
  - apply P.
Qed.

(** ** Consequences *)
Theorem geometry_exact g c n L N H CH len X S : gridded c n L N H CH -> edited c n L H CH len X S ->
  exists S', computes n (end_edit g c L) S S' /\ edited c n L H CH len X S' /\ up_to_date g c n L N len X S'.
Proof. intros G E. destruct (end_edit_ok g c n L N H CH len X G S E) as (S' & A & B & C). exists S'. split; [apply prog_computes, A|]. auto. Qed.

Theorem geometry_same g c len X n L N H CH S n2 L2 N2 H2 CH2 S2 :
  gridded c n L N H CH -> edited c n L H CH len X S -> gridded c n2 L2 N2 H2 CH2 -> edited c n2 L2 H2 CH2 len X S2 ->
  exists S' S2', computes n (end_edit g c L) S S' /\ computes n2 (end_edit g c L2) S2 S2' /\
    (forall r r2 p, (r < n)%nat -> (r2 < n2)%nat -> pt_in (points_extended c L r) p -> pt_in (points_extended c L2 r2) p -> at_hand c n L N r p -> at_hand c n2 L2 N2 r2 p ->
       at_ (points_extended c L r) (g_x (S' r)) p = at_ (points_extended c L2 r2) (g_x (S2' r2)) p /\ at_ (points_extended c L r) (g_y (S' r)) p = at_ (points_extended c L2 r2) (g_y (S2' r2)) p /\
       at_ (points_extended c L r) (g_z (S' r)) p = at_ (points_extended c L2 r2) (g_z (S2' r2)) p /\ at_ (points_extended c L r) (g_v (S' r)) p = at_ (points_extended c L2 r2) (g_v (S2' r2)) p) /\
    (forall r r2 p, (r < n)%nat -> (r2 < n2)%nat -> pt_in (cells_local c L r) p -> pt_in (cells_local c L2 r2) p ->
       at_ (cells_extended c L r) (g_cv (S' r)) p = at_ (cells_extended c L2 r2) (g_cv (S2' r2)) p).
Proof.
  intros G E G2 E2. destruct (geometry_exact g c n L N H CH len X S G E) as (S' & A & _ & B1 & B2). destruct (geometry_exact g c n2 L2 N2 H2 CH2 len X S2 G2 E2) as (S2' & A' & _ & B1' & B2').
  exists S', S2'. split; [exact A|]. split; [exact A'|]. split.
  - intros r r2 p Hr Hr2 Hp Hp2 Hh Hh2. destruct (B1 r p Hr Hp Hh) as (-> & -> & -> & ->). destruct (B1' r2 p Hr2 Hp2 Hh2) as (-> & -> & -> & ->). auto.
  - intros r r2 p Hr Hr2 Hp Hp2. rewrite (B2 r p Hr), (B2' r2 p Hr2); auto.
    + apply (CL_in_CE c n2 L2 r2 Hr2), Hp2.
    + exists r2, p. split; [exact Hr2|]. split; [exact Hp2|]. split; [apply is_image_refl|now left].
    + apply (CL_in_CE c n L r Hr), Hp.
    + exists r, p. split; [exact Hr|]. split; [exact Hp|]. split; [apply is_image_refl|now left].
Qed.

(** The shift does not accumulate. *)
Theorem geometry_again g c n L N H CH len X S : gridded c n L N H CH -> edited c n L H CH len X S -> up_to_date g c n L N len X S ->
  exists S', computes n (end_edit g c L) S S' /\
    (forall r p, (r < n)%nat -> pt_in (points_extended c L r) p -> at_hand c n L N r p ->
       at_ (points_extended c L r) (g_x (S' r)) p = at_ (points_extended c L r) (g_x (S r)) p /\ at_ (points_extended c L r) (g_y (S' r)) p = at_ (points_extended c L r) (g_y (S r)) p /\
       at_ (points_extended c L r) (g_z (S' r)) p = at_ (points_extended c L r) (g_z (S r)) p /\ at_ (points_extended c L r) (g_v (S' r)) p = at_ (points_extended c L r) (g_v (S r)) p) /\
    (forall r p, (r < n)%nat -> pt_in (cells_extended c L r) p -> at_hand (cart_point_to_cell c) n (cells_local c L) N r p ->
       at_ (cells_extended c L r) (g_cv (S' r)) p = at_ (cells_extended c L r) (g_cv (S r)) p).
Proof.
  intros G E [U1 U2]. destruct (geometry_exact g c n L N H CH len X S G E) as (S' & A & _ & B1 & B2). exists S'. split; [exact A|]. split.
  - intros r p Hr Hp Hh. destruct (B1 r p Hr Hp Hh) as (-> & -> & -> & ->). destruct (U1 r p Hr Hp Hh) as (-> & -> & -> & ->). auto.
  - intros r p Hr Hp Hh. rewrite (B2 r p Hr Hp Hh), (U2 r p Hr Hp Hh). reflexivity.
Qed.

Lemma periods_out c p d : cart_ok c -> stored_once c -> (d < 3)%nat -> periods c p d <> 0 -> rcontains (c_range c) p = false.
Proof.
  intros Hok SO Hd Hp. destruct (rcontains (c_range c) p) eqn:R; [|reflexivity]. exfalso. apply Hp. apply rcontains_spec in R. pose proof (proj1 (pt_in_tget _ _) R d Hd) as B. unfold periods. specialize (Hok d Hd). specialize (SO d Hd).
  destruct (tget (c_per c) d); [|reflexivity]. apply Z.div_small. lia.
Qed.
(** SetPeriodicLength leaves coordinates as they are. *)
Theorem geometry_length g c n L N len len' X S r p d : cart_ok c -> stored_once c -> up_to_date g c n L N len X S ->
  (r < n)%nat -> pt_in (points_extended c L r) p -> at_hand c n L N r p -> (d < 3)%nat -> periods c p d <> 0 -> ~ (tget len d == tget len' d)%Q ->
  ~ up_to_date g c n L N len' X (fun r => set_length len' (S r)).
Proof.
  intros Hok SO [U _] Hr Hp Hh Hd K Ne [V _]. destruct (U r p Hr Hp Hh) as (X0 & X1 & X2 & _). destruct (V r p Hr Hp Hh) as (Y0 & Y1 & Y2 & _). cbn [set_length g_x g_y g_z] in Y0, Y1, Y2.
  assert (Q : tget (placed c len X p) d = tget (placed c len' X p) d).
  { destruct d as [|[|[|d]]]; [| | |lia]; cbn [tget]; congruence. }
  unfold placed in Q. rewrite (periods_out c p d Hok SO Hd K), !tget_tmake in Q by exact Hd. apply Ne.
  assert (Q' : (inject_Z (periods c p d) * tget len d == inject_Z (periods c p d) * tget len' d)%Q).
  { apply (Qplus_inj_l _ _ (tget (X (wrap c p)) d)). rewrite Q. reflexivity. }
  apply Qmult_inj_l in Q'; [exact Q'|]. intros Z. change 0%Q with (inject_Z 0) in Z. apply (proj1 (inject_Z_injective _ _)) in Z. contradiction.
Qed.

Lemma created_read e (f : tup Z -> Q) p : pt_in e p -> at_ e (map f (RangeModel.foreach_col e)) p = Some (f p).
Proof.
  intros Hp. pose proof (rindex_bounds ColMajor e p Hp) as B. unfold at_, vread. destruct (Z.ltb_spec (rindex ColMajor e p) 0); [lia|]. rewrite nth_error_map, (foreach_index_nth e p Hp). reflexivity.
Qed.
Theorem geometry_created c n L N H CH len : gridded c n L N H CH ->
  let S r := created (H r) (CH r) len (points_extended c L r) (cells_extended c L r) in
  edited c n L H CH len indices S /\
  forall r p d, (r < n)%nat -> pt_in (points_extended c L r) p -> (d < 3)%nat ->
    at_ (points_extended c L r) (component d (S r)) p = Some (tget (indices p) d) /\
    ((tget (indices p) d == tget (placed c len indices p) d)%Q <-> periods c p d = 0 \/ (tget len d == inject_Z (per_len c d))%Q).
Proof.
  intros G S. pose proof (GD c n L N H CH G) as D. pose proof (GS c n L N H CH G) as SO. pose proof (Gok c n L N H CH G) as Hok. split.
  - assert (HL : forall e (f : tup Z -> Q), Z.of_nat (length (map f (RangeModel.foreach_col e))) = rcount e) by (intros; rewrite map_length; apply foreach_col_length).
    split; [|split; [|split]].
    + intros r Hr. split; [reflexivity|]. split; [reflexivity|]. split; [reflexivity|]. split; apply HL.
    + intros r Hr. split; [apply HL|]. intros p Hp. apply (created_read _ (fun p => inject_Z (tget p 0))). apply (L_in_ext c n L D SO r Hr), Hp.
    + intros r Hr. split; [apply HL|]. intros p Hp. apply (created_read _ (fun p => inject_Z (tget p 1))). apply (L_in_ext c n L D SO r Hr), Hp.
    + intros r Hr. split; [apply HL|]. intros p Hp. apply (created_read _ (fun p => inject_Z (tget p 2))). apply (L_in_ext c n L D SO r Hr), Hp.
  - intros r p d Hr Hp Hd. split.
    { destruct d as [|[|[|d]]]; [| | |lia]; unfold S, created, component; cbn [g_x g_y g_z]; now rewrite created_read. }
    assert (I : forall u, tget (indices u) d = inject_Z (tget u d)) by (intros u; destruct d as [|[|[|d]]]; try reflexivity; lia).
    assert (W : tget p d = tget (wrap c p) d + periods c p d * per_len c d).
    { unfold wrap, periods. rewrite tget_tmake by exact Hd. specialize (Hok d Hd). destruct (tget (c_per c) d); [|lia].
      pose proof (Z.div_mod (tget p d - tget (rb (c_range c)) d) (per_len c d) ltac:(lia)). lia. }
    unfold placed. destruct (rcontains (c_range c) p) eqn:R.
    + split; [|reflexivity]. intros _. left. destruct (Z.eq_dec (periods c p d) 0) as [|K]; [assumption|]. pose proof (periods_out c p d Hok SO Hd K). congruence.
    + rewrite tget_tmake, !I by exact Hd. rewrite W at 1. rewrite inject_Z_plus, inject_Z_mult. split.
      * intros Q. apply Qplus_inj_l in Q. destruct (Z.eq_dec (periods c p d) 0) as [|K]; [left; assumption|]. right. symmetry. apply Qmult_inj_l in Q; [exact Q|].
        intros Z. change 0%Q with (inject_Z 0) in Z. apply (proj1 (inject_Z_injective _ _)) in Z. contradiction.
      * intros [K|Q]; [rewrite K|rewrite Q]; [ring|reflexivity].
Qed.

(** An edit after SetPeriodicLength uses the new length. *)
Theorem geometry_new_length g c n L N H CH len len' X S : gridded c n L N H CH -> edited c n L H CH len X S ->
  exists S', computes n (end_edit g c L) (fun r => set_length len' (S r)) S' /\ edited c n L H CH len' X S' /\ up_to_date g c n L N len' X S'.
Proof.
  intros G (A & B). apply geometry_exact; [exact G|]. split; [|exact B]. intros r Hr. destruct (A r Hr) as (E1 & E2 & _ & E3). cbn [set_length g_h g_ch g_len g_cv g_v]. auto.
Qed.
