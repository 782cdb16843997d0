(** Proofs about choosing donors (C71). *)
From Coq Require Import List ZArith QArith Qminmax Qabs Bool Lia Lqa Sorting.Sorted.
From Verif Require Import TupleModel RangeModel Base RangeProof IndexerModel IndexerProof ArrayModel ArrayProof HashModel HashProof.
From Verif Require Import FieldModel SendProof SendLaws CollectSpec CollectProof CollectLaws CellModel CellSpec CellProof.
Import ListNotations.
Local Open Scope Z_scope.

(** ** One point *)

Section Point.
Variable occ : Z -> Z -> occludes.

(** M grid, normalized distance, volume *)
Definition cand : Type := Z * Q * Q.
Definition c_id (c : cand) : Z := fst (fst c).
Definition c_x (c : cand) : Q := snd (fst c).
Definition c_v (c : cand) : Q := snd c.
Definition cstate (c : cand) : donor_state := DS (c_id c) (c_x c) (c_v c).
Definition start_state : donor_state := DS (-1) 0%Q 0%Q.

Definition take (s : donor_state) (c : cand) : donor_state :=
  if s_id s <? 0 then cstate c else if better_donor occ s (c_id c) (c_x c) (c_v c) then cstate c else s.

Lemma donor_step_take disj c s : donor_step occ disj (c_id c) (c_x c) (c_v c) s = if negb disj || q_lt 0 (c_x c) then take s c else s.
Proof. unfold donor_step, take, cstate. destruct (s_id s <? 0), (negb disj || q_lt 0 (c_x c)), (better_donor occ s (c_id c) (c_x c) (c_v c)); reflexivity. Qed.

(** Distances that differ, differ by more than the tolerance. *)
Definition separated (cs : list cand) : Prop := forall a b, In a cs -> In b cs -> (Qabs (c_x a - c_x b) <= TOLERANCE)%Q -> (c_x a == c_x b)%Q.

(** What is preferred among the candidates of the same distance. *)
Definition tie_rule (K : occludes) (a b : cand) : Prop := preferred K (c_id a) (c_v a) (c_id b) (c_v b).

Definition uniform (K : occludes) (cs : list cand) : Prop := forall a b, In a cs -> In b cs -> c_id a < c_id b -> occ (c_id a) (c_id b) = K.

Lemma tol_pos : (0 < TOLERANCE)%Q.
Proof. reflexivity. Qed.

Lemma take_all cs : (forall c, In c cs -> 0 <= c_id c) -> separated cs -> StronglySorted (fun a b => c_id a < c_id b) cs ->
  (cs = [] /\ fold_left take cs start_state = start_state) \/
  exists a, In a cs /\ fold_left take cs start_state = cstate a /\ (forall b, In b cs -> (c_x b <= c_x a)%Q) /\
    (forall K, uniform K cs -> forall b, In b cs -> (c_x b == c_x a)%Q -> tie_rule K a b) /\
    forall b, In b cs -> (c_x b == c_x a)%Q -> c_id a < c_id b -> holds_against (occ (c_id a) (c_id b)) (c_v a) (c_v b).
Proof.
  induction cs as [|c cs IH] using rev_ind; intros HP HS HO; [left; split; reflexivity|]. right. rewrite fold_left_app. cbn [fold_left].
  assert (HO' : StronglySorted (fun a b => c_id a < c_id b) cs /\ forall a, In a cs -> c_id a < c_id c).
  { clear - HO. induction cs as [|x cs IH]; [split; [constructor|intros a []]|]. cbn in HO. inversion HO as [|? ? H1 H2]; subst. destruct (IH H1) as [I1 I2]. rewrite Forall_forall in H2. split.
    - constructor; [exact I1|]. apply Forall_forall. intros y Hy. apply H2, in_or_app. left; exact Hy.
    - intros a [->|Ha]; [apply H2, in_or_app; right; left; reflexivity|apply I2, Ha]. }
  destruct HO' as [HO1 HO2].
  assert (INL : forall a, In a cs -> In a (cs ++ [c])) by (intros; apply in_or_app; left; assumption).
  assert (INC : In c (cs ++ [c])) by (apply in_or_app; right; left; reflexivity).
  destruct IH as [[-> E]|(a & Ha & E & M & T & W)].
  - intros; apply HP; auto.
  - intros x y Hx Hy; apply HS; auto.
  - exact HO1.
  - exists c. split; [exact INC|]. rewrite E. split; [reflexivity|]. split; [|split].
    + intros b [<-|[]]. lra.
    + intros K _ b [<-|[]] _. destruct K; cbn; [lia|lia|right; split; [reflexivity|lia]].
    + intros b [<-|[]] _ L. lia.
  - rewrite E. unfold take. cbn [cstate s_id]. destruct (Z.ltb_spec (c_id a) 0); [specialize (HP a (INL a Ha)); lia|].
    unfold better_donor. change (s_distance (cstate a)) with (c_x a). change (s_volume (cstate a)) with (c_v a). change (s_id (cstate a)) with (c_id a).
    assert (SEP := HS c a INC (INL a Ha)).
    destruct (q_lt_spec TOLERANCE (Qabs (c_x c - c_x a))) as [HT|HT].
    + assert (NE : ~ (c_x c == c_x a)%Q). { intros Q0. rewrite Q0 in HT. assert (c_x a - c_x a == 0)%Q as Z0 by lra. rewrite Z0 in HT. change (Qabs 0) with 0%Q in HT. assert (P := tol_pos). lra. }
      destruct (q_lt_spec (c_x a) (c_x c)) as [HL|HL].
      * exists c. split; [exact INC|]. split; [reflexivity|]. split; [|split].
        -- intros b Hb. apply in_app_or in Hb as [Hb|[<-|[]]]; [specialize (M b Hb); lra|lra].
        -- intros K _ b Hb Eb. apply in_app_or in Hb as [Hb|[<-|[]]]; [specialize (M b Hb); lra|]. destruct K; cbn; [lia|lia|right; split; [reflexivity|lia]].
        -- intros b Hb Eb L. apply in_app_or in Hb as [Hb|[<-|[]]]; [specialize (HO2 b Hb); lia|lia].
      * exists a. split; [auto|]. split; [reflexivity|]. split; [|split].
        -- intros b Hb. apply in_app_or in Hb as [Hb|[<-|[]]]; [apply M, Hb|lra].
        -- intros K HU b Hb Eb. apply in_app_or in Hb as [Hb|[<-|[]]]; [|contradiction]. apply T; auto. intros x y Hx Hy. apply HU; auto.
        -- intros b Hb Eb L. apply in_app_or in Hb as [Hb|[<-|[]]]; [|contradiction]. apply W; auto.
    + assert (EX : (c_x c == c_x a)%Q) by (apply SEP; lra).
      set (sel := match occ (c_id a) (c_id c) with OCC_ALL => false | OCC_NONE => true | OCC_COARSE => q_lt (c_v c) (c_v a) end).
      destruct sel eqn:EQ.
      * exists c. split; [exact INC|]. split; [reflexivity|]. split; [|split].
        -- intros b Hb. apply in_app_or in Hb as [Hb|[<-|[]]]; [specialize (M b Hb); lra|lra].
        -- intros K HU b Hb Eb. assert (EO : occ (c_id a) (c_id c) = K) by (apply HU; auto).
           apply in_app_or in Hb as [Hb|[<-|[]]]; [|destruct K; cbn; [lia|lia|right; split; [reflexivity|lia]]].
           assert (TA : tie_rule K a b). { apply T; auto; [intros x y Hx Hy; apply HU; auto|lra]. }
           specialize (HO2 b Hb). unfold sel in EQ. rewrite EO in EQ. destruct K; cbn in *; [lia|discriminate|].
           destruct (q_lt_spec (c_v c) (c_v a)); [|discriminate]. left. destruct TA as [TA|[TA _]]; lra.
        -- intros b Hb Eb L. apply in_app_or in Hb as [Hb|[<-|[]]]; [specialize (HO2 b Hb); lia|lia].
      * exists a. split; [auto|]. split; [reflexivity|]. split; [|split].
        -- intros b Hb. apply in_app_or in Hb as [Hb|[<-|[]]]; [apply M, Hb|lra].
        -- intros K HU b Hb Eb. assert (EO : occ (c_id a) (c_id c) = K) by (apply HU; auto).
           apply in_app_or in Hb as [Hb|[<-|[]]]; [apply T; auto; intros x y Hx Hy; apply HU; auto|].
           specialize (HO2 a Ha). unfold sel in EQ. rewrite EO in EQ. destruct K; cbn in *; [discriminate|lia|].
           destruct (q_lt_spec (c_v c) (c_v a)); [discriminate|]. destruct (Qlt_le_dec (c_v a) (c_v c)); [left; assumption|right; split; [lra|lia]].
        -- intros b Hb Eb L. apply in_app_or in Hb as [Hb|[<-|[]]]; [apply W; auto|]. unfold sel in EQ. unfold holds_against. destruct (occ (c_id a) (c_id c)); [discriminate|exact I|].
           destruct (q_lt_spec (c_v c) (c_v a)); [discriminate|lra].
Qed.
End Point.

(** ** Normalized distances *)

Lemma normalized_frac d p : 0 <= p -> (normalized d p == inject_Z (Z.min d (1 + p)) / inject_Z (1 + p))%Q.
Proof.
  intros Hp. unfold normalized. assert (B : (0 < inject_Z (1 + p))%Q) by (change 0%Q with (inject_Z 0); rewrite <- Zlt_Qlt; lia).
  assert (Y : forall x, (x / inject_Z (1 + p) * inject_Z (1 + p) == x)%Q) by (intros; field; lra).
  destruct (Z.le_ge_cases d (1 + p)) as [H|H].
  - rewrite Z.min_l by lia. apply Q.min_l. apply Qle_shift_div_r; [exact B|]. rewrite Qmult_1_l, <- Zle_Qle. lia.
  - rewrite Z.min_r by lia. rewrite Q.min_r; [field; lra|]. apply Qle_shift_div_l; [exact B|]. rewrite Qmult_1_l, <- Zle_Qle. lia.
Qed.

Lemma frac_lt a b c d : 0 < b -> 0 < d -> (inject_Z a / inject_Z b < inject_Z c / inject_Z d)%Q <-> a * d < c * b.
Proof.
  intros Hb Hd. assert (B : (0 < inject_Z b)%Q) by (change 0%Q with (inject_Z 0); rewrite <- Zlt_Qlt; lia). assert (D : (0 < inject_Z d)%Q) by (change 0%Q with (inject_Z 0); rewrite <- Zlt_Qlt; lia).
  rewrite Zlt_Qlt, !inject_Z_mult.
  assert (EX : (inject_Z a / inject_Z b * inject_Z b == inject_Z a)%Q) by (field; lra). assert (EY : (inject_Z c / inject_Z d * inject_Z d == inject_Z c)%Q) by (field; lra).
  set (x := (inject_Z a / inject_Z b)%Q) in *. set (y := (inject_Z c / inject_Z d)%Q) in *. rewrite <- EX, <- EY.
  assert (P : (0 < inject_Z b * inject_Z d)%Q) by nra.
  setoid_replace (x * inject_Z b * inject_Z d)%Q with (x * (inject_Z b * inject_Z d))%Q by ring.
  setoid_replace (y * inject_Z d * inject_Z b)%Q with (y * (inject_Z b * inject_Z d))%Q by ring. split; intros; [nra|].
  apply (Qmult_lt_r x y (inject_Z b * inject_Z d)); [exact P|assumption].
Qed.

Lemma normalized_lt d1 p1 d2 p2 : 0 <= p1 -> 0 <= p2 -> (normalized d2 p2 < normalized d1 p1)%Q <-> farther_from_edge d1 p1 d2 p2.
Proof.
  intros. rewrite !normalized_frac, frac_lt by lia. unfold farther_from_edge. lia.
Qed.

Lemma normalized_sep d1 p1 d2 p2 : 0 <= p1 < 999999 -> 0 <= p2 < 999999 ->
  (Qabs (normalized d1 p1 - normalized d2 p2) <= TOLERANCE)%Q -> (normalized d1 p1 == normalized d2 p2)%Q.
Proof.
  intros H2 H4 HT.
  assert (G : forall d1 p1 d2 p2, 0 <= p1 < 999999 -> 0 <= p2 < 999999 -> (normalized d1 p1 - normalized d2 p2 <= TOLERANCE)%Q -> ~ (normalized d2 p2 < normalized d1 p1)%Q).
  { clear. intros d1 p1 d2 p2 H2 H4 HT HL. assert (HZ := HL). apply normalized_lt in HZ; try lia. unfold farther_from_edge in HZ.
    rewrite !normalized_frac in HT by lia. set (a := Z.min d1 (1 + p1)) in *. set (b := 1 + p1) in *. set (c := Z.min d2 (1 + p2)) in *. set (d := 1 + p2) in *.
    assert (B : (0 < inject_Z b)%Q) by (change 0%Q with (inject_Z 0); rewrite <- Zlt_Qlt; lia). assert (D : (0 < inject_Z d)%Q) by (change 0%Q with (inject_Z 0); rewrite <- Zlt_Qlt; lia).
    assert (BD : b * d < 1000000000000) by nia. assert (GE : c * b + 1 <= a * d) by lia.
    rewrite Zle_Qle, inject_Z_plus, !inject_Z_mult in GE. rewrite Zlt_Qlt, inject_Z_mult in BD. change (inject_Z 1) with 1%Q in GE. change (inject_Z 1000000000000) with 1000000000000%Q in BD.
    assert (P : (0 < inject_Z b * inject_Z d)%Q) by nra.
    assert (HT2 : ((inject_Z a / inject_Z b - inject_Z c / inject_Z d) * (inject_Z b * inject_Z d) <= TOLERANCE * (inject_Z b * inject_Z d))%Q) by (apply Qmult_le_compat_r; [exact HT|lra]).
    assert (EQ : ((inject_Z a / inject_Z b - inject_Z c / inject_Z d) * (inject_Z b * inject_Z d) == inject_Z a * inject_Z d - inject_Z c * inject_Z b)%Q) by (field; split; lra).
    rewrite EQ in HT2. unfold TOLERANCE in HT2. lra. }
  assert (T1 : (normalized d1 p1 - normalized d2 p2 <= TOLERANCE)%Q) by (assert (X := Qle_Qabs (normalized d1 p1 - normalized d2 p2)); lra).
  assert (T2 : (normalized d2 p2 - normalized d1 p1 <= TOLERANCE)%Q).
  { rewrite <- Qabs_opp in HT. assert (X := Qle_Qabs (- (normalized d1 p1 - normalized d2 p2))). lra. }
  assert (N1 := G d1 p1 d2 p2 H2 H4 T1). assert (N2 := G d2 p2 d1 p1 H4 H2 T2). lra.
Qed.

Lemma normalized_pos d p : 0 <= p -> (0 < normalized d p)%Q <-> 0 < d.
Proof.
  intros Hp. rewrite normalized_frac by lia. setoid_replace 0%Q with (inject_Z 0 / inject_Z 1)%Q by reflexivity. rewrite frac_lt by lia. lia.
Qed.

(** ** All points *)

Lemma vread_points {A} (g : tup Z -> A) R p : pt_in R p -> vread (map g (RangeModel.foreach_col R)) (rindex ColMajor R p) = Some (g p).
Proof.
  intros Hp. assert (B := rindex_bounds ColMajor R p Hp). unfold vread. destruct (Z.ltb_spec (rindex ColMajor R p) 0); [lia|].
  rewrite nth_error_map. change (RangeModel.foreach_col R) with (in_order ColMajor R). rewrite order_nth by exact Hp. reflexivity.
Qed.

Lemma vwrite_points {A} (g g' : tup Z -> A) R p v : pt_in R p -> g' p = v -> (forall q, pt_in R q -> q <> p -> g' q = g q) ->
  vwrite (map g (RangeModel.foreach_col R)) (rindex ColMajor R p) v = Some (map g' (RangeModel.foreach_col R)).
Proof.
  intros Hp HV HO. assert (B := rindex_bounds ColMajor R p Hp). assert (LN := foreach_col_length R).
  destruct (vwrite_spec (map g (RangeModel.foreach_col R)) (rindex ColMajor R p) v) as (l' & E1 & E2 & E3); [rewrite map_length; lia|]. rewrite E1. f_equal.
  rewrite map_length in E2. apply list_vread_ext; [rewrite map_length; exact E2|]. intros i Hi. rewrite E2 in Hi.
  assert (Hr : exists q, pt_in R q /\ rindex ColMajor R q = i). { destruct (rtuple_ok ColMajor R i ltac:(lia)) as (q & _ & Q1 & Q2). eauto. }
  destruct Hr as (q & Hq & <-). rewrite E3, !vread_points by assumption. destruct (Z.eqb_spec (rindex ColMajor R q) (rindex ColMajor R p)) as [EI|NI].
  - apply (rindex_inj ColMajor R) in EI; [subst; reflexivity|exact Hq|exact Hp].
  - rewrite HO; [reflexivity|exact Hq|]. intros ->. apply NI. reflexivity.
Qed.

Lemma foreach_index R done p todo : RangeModel.foreach_col R = done ++ p :: todo -> rindex ColMajor R p = Z.of_nat (length done).
Proof.
  intros E. assert (H := rindex_foreach R). rewrite E, map_app in H. cbn [map] in H. symmetry in H. apply zseq_split in H. rewrite map_length in H. lia.
Qed.

Section Donors.
Variables (occ : Z -> Z -> occludes) (loc ext : range) (receiver : list bool).
Hypothesis INC : forall p, pt_in loc p -> pt_in ext p.
Hypothesis LREC : Z.of_nat (length receiver) = rcount ext.

Definition flag (R : range) (l : list bool) (p : tup Z) : bool := match vread l (rindex ColMajor R p) with Some b => b | None => false end.

Lemma flag_read R l p : pt_in R p -> Z.of_nat (length l) = rcount R -> vread l (rindex ColMajor R p) = Some (flag R l p).
Proof.
  intros Hp HL. unfold flag. destruct (vread_ge l (rindex ColMajor R p)) as (b & E); [rewrite HL; apply rindex_bounds, Hp|]. rewrite E. reflexivity.
Qed.

(** The index of the values stored for p. *)
Definition slot (o : overlap) (p : tup Z) : Z := Z.of_nat (length (filter (fun b : bool => b) (firstn (Z.to_nat (rindex ColMajor loc p)) (o_base o)))).

Definition offers (o : overlap) (p : tup Z) : bool := o_connects o && (flag loc (o_base o) p && (flag ext receiver p && flag ext (o_mask o) p)).

Definition offer (o : overlap) (p : tup Z) : cand :=
  (o_m o, normalized (match vread (o_distances o) (slot o p) with Some d => d | None => 0 end) (o_padding o), match vread (o_volumes o) (slot o p) with Some v => v | None => 0%Q end).

Definition apply_offer (p : tup Z) (s : donor_state) (o : overlap) : donor_state :=
  if offers o p then donor_step occ (o_disjoint o) (o_m o) (c_x (offer o p)) (c_v (offer o p)) s else s.

Lemma slot_lt o p : valid_overlap loc ext o -> pt_in loc p -> flag loc (o_base o) p = true -> 0 <= slot o p < Z.of_nat (length (filter (fun b : bool => b) (o_base o))).
Proof.
  intros (_ & _ & HB & _) Hp HF. unfold slot. assert (B := rindex_bounds ColMajor loc p Hp).
  assert (E : nth_error (o_base o) (Z.to_nat (rindex ColMajor loc p)) = Some true).
  { assert (E := flag_read loc (o_base o) p Hp HB). rewrite HF in E. unfold vread in E. destruct (Z.ltb_spec (rindex ColMajor loc p) 0); [lia|exact E]. }
  apply nth_error_split in E as (l1 & l2 & E & EL). rewrite E, <- EL, firstn_app, Nat.sub_diag, firstn_all. cbn [firstn]. rewrite app_nil_r, filter_app, app_length. cbn. lia.
Qed.

Lemma slot_read o p : valid_overlap loc ext o -> pt_in loc p -> flag loc (o_base o) p = true ->
  exists d v, vread (o_distances o) (slot o p) = Some d /\ vread (o_volumes o) (slot o p) = Some v.
Proof.
  intros HV Hp HF. assert (S := slot_lt o p HV Hp HF). destruct HV as (_ & _ & _ & _ & H1 & H2).
  destruct (vread_ge (o_distances o) (slot o p)) as (d & Ed); [lia|]. destruct (vread_ge (o_volumes o) (slot o p)) as (v & Ev); [lia|].
  exists d, v. split; [exact Ed|exact Ev].
Qed.

Lemma pt_dec (p q : tup Z) : {p = q} + {p <> q}.
Proof. destruct p as [a b c], q as [a' b' c']. destruct (Z.eq_dec a a'), (Z.eq_dec b b'), (Z.eq_dec c c'); try (right; congruence). left; congruence. Qed.

Definition seen (done : list (tup Z)) (p : tup Z) : bool := if in_dec pt_dec p done then true else false.

Lemma donor_overlap_ok o D : valid_overlap loc ext o ->
  donor_overlap occ loc ext receiver (map D (RangeModel.foreach_col loc)) o = Some (map (fun p => apply_offer p (D p) o) (RangeModel.foreach_col loc)).
Proof.
  intros HV. unfold donor_overlap. destruct (o_connects o) eqn:EC.
  2:{ f_equal. apply map_ext. intros p. unfold apply_offer, offers. rewrite EC. reflexivity. }
  assert (HV' := HV). destruct HV' as (_ & _ & HB & HM & HD & HVo).
  destruct (ofoldl_split (donor_point occ loc ext receiver o)
    (fun done st => fst st = map (fun p => if seen done p then apply_offer p (D p) o else D p) (RangeModel.foreach_col loc) /\
       snd st = Z.of_nat (length (filter (fun b : bool => b) (firstn (length done) (o_base o))))) (RangeModel.foreach_col loc)) with (s0 := (map D (RangeModel.foreach_col loc), 0)) as (st & E & E1 & E2).
  - intros done p todo [l k] EQ [I1 I2]. cbn [fst snd] in I1, I2.
    assert (Hp : pt_in loc p) by (apply foreach_col_In; rewrite EQ; apply in_or_app; right; left; reflexivity).
    assert (HI := foreach_index loc done p todo EQ).
    assert (NS : seen done p = false). { unfold seen. destruct (in_dec pt_dec p done) as [Hin|]; [|reflexivity]. assert (ND := foreach_col_NoDup loc). rewrite EQ in ND. apply NoDup_remove_2 in ND. exfalso. apply ND, in_or_app. left; exact Hin. }
    assert (KS : k = slot o p). { unfold slot. rewrite HI, Nat2Z.id. exact I2. }
    assert (ST : forall q, pt_in loc q -> q <> p -> seen (done ++ [p]) q = seen done q).
    { intros q _ Hq. unfold seen. destruct (in_dec pt_dec q (done ++ [p])) as [H|H], (in_dec pt_dec q done) as [H'|H']; try reflexivity.
      - apply in_app_or in H as [H|[H|[]]]; [contradiction|congruence].
      - exfalso. apply H, in_or_app. left; exact H'. }
    assert (SP : seen (done ++ [p]) p = true). { unfold seen. destruct (in_dec pt_dec p (done ++ [p])) as [H|H]; [reflexivity|]. exfalso. apply H, in_or_app. right; left; reflexivity. }
    assert (FN : firstn (length (done ++ [p])) (o_base o) = firstn (length done) (o_base o) ++ [flag loc (o_base o) p]).
    { assert (E := flag_read loc (o_base o) p Hp HB). rewrite HI, vread_nth in E. generalize dependent (flag loc (o_base o) p). intros b E. apply nth_error_split in E as (l1 & l2 & E & EL).
      rewrite E, <- EL, !firstn_app, Nat.sub_diag, firstn_all. cbn [firstn]. rewrite app_nil_r, app_length, <- EL. cbn [length].
      rewrite firstn_all2 by lia. replace (length l1 + 1 - length l1)%nat with 1%nat by lia. reflexivity. }
    assert (SAME : apply_offer p (D p) o = D p -> map (fun p0 => if seen done p0 then apply_offer p0 (D p0) o else D p0) (RangeModel.foreach_col loc)
       = map (fun p0 => if seen (done ++ [p]) p0 then apply_offer p0 (D p0) o else D p0) (RangeModel.foreach_col loc)).
    { intros EO. apply map_ext_in. intros q Hq. destruct (pt_dec q p) as [->|NE]; [rewrite NS, SP, EO; reflexivity|]. apply foreach_col_In in Hq. rewrite (ST q Hq NE). reflexivity. }
    unfold donor_point. rewrite !FieldProof.fread_in by auto. rewrite (flag_read loc (o_base o) p Hp HB).
    destruct (flag loc (o_base o) p) eqn:EB.
    + rewrite (flag_read ext receiver p (INC p Hp) LREC). cbn [fst snd].
      assert (CNT : k + 1 = Z.of_nat (length (filter (fun b : bool => b) (firstn (length (done ++ [p])) (o_base o))))).
      { rewrite FN, filter_app, app_length. cbn [filter length]. rewrite I2. lia. }
      destruct (flag ext receiver p) eqn:ER.
      * rewrite (flag_read ext (o_mask o) p (INC p Hp) HM). destruct (flag ext (o_mask o) p) eqn:EM.
        -- destruct (slot_read o p HV Hp EB) as (d & v & Sd & Sv). rewrite KS, Sd, Sv. rewrite I1, vread_points by exact Hp. rewrite NS.
           unfold fwrite. rewrite (proj2 (rcontains_spec _ _) Hp).
           rewrite (vwrite_points (fun p0 => if seen done p0 then apply_offer p0 (D p0) o else D p0) (fun p0 => if seen (done ++ [p]) p0 then apply_offer p0 (D p0) o else D p0)).
           ++ eexists. split; [reflexivity|]. cbn [fst snd]. split; [reflexivity|]. rewrite <- KS. exact CNT.
           ++ exact Hp.
           ++ rewrite SP. unfold apply_offer, offers, offer. rewrite EC, EB, ER, EM, Sd, Sv. reflexivity.
           ++ intros q Hq NE. rewrite (ST q Hq NE). reflexivity.
        -- eexists. split; [reflexivity|]. cbn [fst snd]. split; [|exact CNT]. rewrite I1. apply SAME. unfold apply_offer, offers. rewrite EM, !andb_false_r. reflexivity.
      * eexists. split; [reflexivity|]. cbn [fst snd]. split; [|exact CNT]. rewrite I1. apply SAME. unfold apply_offer, offers. rewrite ER, !andb_false_r. reflexivity.
    + eexists. split; [reflexivity|]. cbn [fst snd]. split.
      * rewrite I1. apply SAME. unfold apply_offer, offers. rewrite EB, andb_false_r. reflexivity.
      * rewrite FN, filter_app, app_length. cbn [filter length]. rewrite I2. lia.
  - cbn [fst snd]. split; [reflexivity|]. reflexivity.
  - rewrite E. rewrite E1. f_equal. apply map_ext_in. intros p Hp. unfold seen. destruct (in_dec pt_dec p (RangeModel.foreach_col loc)); [reflexivity|contradiction].
Qed.

Lemma choose_donors_ok os : (forall o, In o os -> valid_overlap loc ext o) ->
  choose_donors occ loc ext receiver os = Some (map (fun p => fold_left (apply_offer p) os start_state) (RangeModel.foreach_col loc)).
Proof.
  intros HV. unfold choose_donors.
  replace (repeat (DS (-1) 0%Q 0%Q) (Z.to_nat (rcount loc))) with (map (fun p : tup Z => start_state) (RangeModel.foreach_col loc)).
  2:{ rewrite <- foreach_col_length, Nat2Z.id. induction (RangeModel.foreach_col loc) as [|x l IH]; cbn [length repeat map]; [reflexivity|]. rewrite IH. reflexivity. }
  assert (G : forall os D, (forall o, In o os -> valid_overlap loc ext o) -> ofoldl (donor_overlap occ loc ext receiver) os (map D (RangeModel.foreach_col loc)) =
    Some (map (fun p => fold_left (apply_offer p) os (D p)) (RangeModel.foreach_col loc))).
  { clear HV os. induction os as [|o os IH]; intros D HV; cbn [ofoldl fold_left]; [reflexivity|]. rewrite donor_overlap_ok by (apply HV; left; reflexivity).
    rewrite (IH (fun p => apply_offer p (D p) o)) by (intros; apply HV; right; assumption). reflexivity. }
  apply (G os (fun _ => start_state)). exact HV.
Qed.

(** The admissible offers for p. *)
Definition admitted (p : tup Z) (o : overlap) : bool := offers o p && (negb (o_disjoint o) || q_lt 0 (c_x (offer o p))).
Definition offers_for (os : list overlap) (p : tup Z) : list cand := map (fun o => offer o p) (filter (admitted p) os).

Lemma fold_offers p os : forall s, fold_left (apply_offer p) os s = fold_left (take occ) (offers_for os p) s.
Proof.
  unfold offers_for. induction os as [|o os IH]; intros s; cbn [fold_left filter map]; [reflexivity|]. rewrite IH. unfold apply_offer, admitted. destruct (offers o p); cbn [andb]; [|reflexivity].
  assert (X := donor_step_take occ (o_disjoint o) (offer o p) s). change (c_id (offer o p)) with (o_m o) in X. rewrite X.
  destruct (negb (o_disjoint o) || q_lt 0 (c_x (offer o p))); cbn [map fold_left]; reflexivity.
Qed.

Lemma admitted_candidate p o : valid_overlap loc ext o -> pt_in loc p ->
  (admitted p o = true <-> exists d v, candidate loc ext receiver o p d v) /\
  forall d v, candidate loc ext receiver o p d v -> offer o p = (o_m o, normalized d (o_padding o), v).
Proof.
  intros HV Hp. assert (HV' := HV). destruct HV' as (_ & HP0 & HB & HM & _ & _).
  assert (R1 := flag_read loc (o_base o) p Hp HB). assert (R2 := flag_read ext receiver p (INC p Hp) LREC). assert (R3 := flag_read ext (o_mask o) p (INC p Hp) HM).
  assert (OF : forall d v, candidate loc ext receiver o p d v -> offer o p = (o_m o, normalized d (o_padding o), v)).
  { intros d v (_ & _ & _ & (_ & A1 & A2) & _). fold (slot o p) in A1, A2. unfold offer. rewrite A1, A2. reflexivity. }
  split; [|exact OF]. split.
  - unfold admitted, offers. intros H. apply andb_true_iff in H as [H H5]. apply andb_true_iff in H as [H1 H]. apply andb_true_iff in H as [H2 H]. apply andb_true_iff in H as [H3 H4].
    destruct (slot_read o p HV Hp H2) as (d & v & Sd & Sv). exists d, v. unfold candidate, overlaps_at. cbn zeta. fold (slot o p). rewrite R1, R2, R3, H2, H3, H4, Sd, Sv.
    repeat split; auto. intros HDis. rewrite HDis in H5. cbn [negb orb] in H5. destruct (q_lt_spec 0 (c_x (offer o p))) as [HQ|]; [|discriminate]. unfold offer in HQ. rewrite Sd in HQ. cbn in HQ. apply normalized_pos in HQ; assumption.
  - intros (d & v & C). pose proof (OF d v C) as EO. destruct C as (C1 & C2 & C3 & (C4 & _) & C5). unfold admitted, offers. rewrite C1.
    rewrite R1 in C4. injection C4 as C4. rewrite R2 in C2. injection C2 as C2. rewrite R3 in C3. injection C3 as C3. rewrite C4, C2, C3. cbn [andb].
    destruct (o_disjoint o); cbn [negb orb]; [|reflexivity]. destruct (q_lt_spec 0 (c_x (offer o p))) as [|HQ]; [reflexivity|]. exfalso. apply HQ. rewrite EO. cbn. apply normalized_pos; auto.
Qed.

Lemma offers_sorted os p : StronglySorted (fun a b => o_m a < o_m b) os -> StronglySorted (fun a b => c_id a < c_id b) (offers_for os p).
Proof. intros H. unfold offers_for. apply (sorted_map (fun a b => o_m a < o_m b)); [intros; cbn; assumption|]. apply sorted_filter, H. Qed.

Lemma chosen os p : valid_overlaps loc ext os -> (forall o, In o os -> o_padding o < 999999) -> pt_in loc p ->
  let s := fold_left (apply_offer p) os start_state in
  (s_id s < 0 /\ forall o d v, In o os -> ~ candidate loc ext receiver o p d v) \/
  exists o d v, s_id s = o_m o /\ best_candidate loc ext receiver os p o d v /\
    forall o' d' v', In o' os -> candidate loc ext receiver o' p d' v' -> ~ farther_from_edge d (o_padding o) d' (o_padding o') ->
      (o_m o < o_m o' -> holds_against (occ (o_m o) (o_m o')) v v') /\
      forall K, (forall a b, In a os -> In b os -> o_m a < o_m b -> occ (o_m a) (o_m b) = K) -> preferred K (o_m o) v (o_m o') v'.
Proof.
  intros [HV HS] HP Hp s.
  assert (ADM : forall c, In c (offers_for os p) <-> exists o d v, In o os /\ candidate loc ext receiver o p d v /\ c = (o_m o, normalized d (o_padding o), v)).
  { intros c. unfold offers_for. rewrite in_map_iff. split.
    - intros (o & <- & Ho). apply filter_In in Ho as [Ho Ha]. destruct (admitted_candidate p o (HV o Ho) Hp) as [A B]. apply A in Ha as (d & v & C). exists o, d, v. pose proof (B d v C). auto.
    - intros (o & d & v & Ho & C & ->). destruct (admitted_candidate p o (HV o Ho) Hp) as [A B]. exists o. split; [apply (B d v C)|]. apply filter_In. split; [exact Ho|]. apply A. eauto. }
  destruct (take_all occ (offers_for os p)) as [[E1 E2]|(a & A1 & A2 & A3 & A4 & A5)].
  - intros c Hc. apply ADM in Hc as (o & d & v & Ho & _ & ->). cbn. apply (HV o Ho).
  - intros a b Ha Hb. apply ADM in Ha as (o & d & v & Ho & _ & ->), Hb as (o' & d' & v' & Ho' & _ & ->). unfold c_x; cbn [fst snd].
    destruct (HV o Ho) as (_ & P1 & _), (HV o' Ho') as (_ & P2 & _). assert (P3 := HP o Ho). assert (P4 := HP o' Ho'). apply normalized_sep; lia.
  - apply offers_sorted, HS.
  - left. unfold s. rewrite fold_offers, E2. split; [cbn; lia|]. intros o d v Ho C. assert (X : In (o_m o, normalized d (o_padding o), v) (offers_for os p)).
    { apply ADM. exists o, d, v. repeat split; auto; apply C. }
    rewrite E1 in X. exact X.
  - right. apply ADM in A1 as (o & d & v & Ho & C & ->). exists o, d, v. unfold s. rewrite fold_offers, A2. split; [reflexivity|].
    assert (NF : forall o' d' v', In o' os -> candidate loc ext receiver o' p d' v' -> (normalized d' (o_padding o') <= normalized d (o_padding o))%Q).
    { intros o' d' v' Ho' C'. destruct (admitted_candidate p o' (HV o' Ho') Hp) as [_ B]. apply (A3 (o_m o', normalized d' (o_padding o'), v')). apply ADM. exists o', d', v'. auto. }
    destruct (HV o Ho) as (_ & P1 & _). split.
    + split; [exact Ho|]. split; [exact C|]. intros o' d' v' Ho' C' HFar. pose proof (NF o' d' v' Ho' C') as NL. destruct (HV o' Ho') as (_ & P2 & _). apply normalized_lt in HFar; try assumption. lra.
    + intros o' d' v' Ho' C' HNF. pose proof (NF o' d' v' Ho' C') as NL. destruct (HV o' Ho') as (_ & P2 & _).
      assert (EQ : (normalized d' (o_padding o') == normalized d (o_padding o))%Q).
      { destruct (Qlt_le_dec (normalized d' (o_padding o')) (normalized d (o_padding o))) as [HL|HL]; [|lra]. exfalso. apply HNF. apply normalized_lt; assumption. }
      assert (I : In (o_m o', normalized d' (o_padding o'), v') (offers_for os p)) by (apply ADM; exists o', d', v'; auto).
      split; [intros L; exact (A5 _ I EQ L)|]. intros K HU. refine (A4 K _ _ I EQ).
      intros x y Hx Hy. apply ADM in Hx as (ox & dx & vx & Hox & _ & ->), Hy as (oy & dy & vy & Hoy & _ & ->). cbn. apply HU; assumption.
Qed.
End Donors.

Lemma donors_ok occ loc ext receiver os : (forall p, pt_in loc p -> pt_in ext p) -> Z.of_nat (length receiver) = rcount ext ->
  valid_overlaps loc ext os -> (forall o, In o os -> o_padding o < 999999) ->
  exists ds, choose_donors occ loc ext receiver os = Some ds /\ Z.of_nat (length ds) = rcount loc /\
  forall p, pt_in loc p -> exists s, vread ds (rindex ColMajor loc p) = Some s /\
    (s_id s < 0 /\ (forall o d v, In o os -> ~ candidate loc ext receiver o p d v) \/
     exists o d v, s_id s = o_m o /\ best_candidate loc ext receiver os p o d v /\
       forall o' d' v', In o' os -> candidate loc ext receiver o' p d' v' -> ~ farther_from_edge d (o_padding o) d' (o_padding o') ->
         (o_m o < o_m o' -> holds_against (occ (o_m o) (o_m o')) v v') /\
         forall K, (forall a b, In a os -> In b os -> o_m a < o_m b -> occ (o_m a) (o_m b) = K) -> preferred K (o_m o) v (o_m o') v').
Proof.
  intros HI HL HV HP. rewrite (choose_donors_ok occ loc ext receiver HI HL os) by apply HV. eexists. split; [reflexivity|]. split; [rewrite map_length; apply foreach_col_length|].
  intros p Hp. rewrite vread_points by exact Hp. eexists. split; [reflexivity|]. exact (chosen occ loc ext receiver HI HL os p HV HP Hp).
Qed.

Lemma orphans_ok occ loc ext receiver os ds : (forall p, pt_in loc p -> pt_in ext p) -> Z.of_nat (length receiver) = rcount ext ->
  valid_overlaps loc ext os -> (forall o, In o os -> o_padding o < 999999) -> choose_donors occ loc ext receiver os = Some ds ->
  forall p, pt_in loc p -> exists b, orphan_at loc ext receiver ds p = Some b /\
    (b = true <-> vread receiver (rindex ColMajor ext p) = Some true /\ forall o d v, In o os -> ~ candidate loc ext receiver o p d v).
Proof.
  intros HI HL HV HP HC p Hp. destruct (donors_ok occ loc ext receiver os HI HL HV HP) as (ds' & E & _ & H). rewrite HC in E. injection E as <-.
  destruct (H p Hp) as (s & Es & Hs). unfold orphan_at. rewrite !FieldProof.fread_in by auto. rewrite (flag_read ext receiver p (HI p Hp) HL), Es.
  destruct (flag ext receiver p); eexists; (split; [reflexivity|]).
  - destruct (Z.ltb_spec (s_id s) 0) as [HN|HN].
    + split; [|reflexivity]. intros _. split; [reflexivity|]. destruct Hs as [[_ Hs]|(o & d & v & E & (Ho & _) & _)]; [exact Hs|]. destruct (proj1 HV o Ho) as (P & _). lia.
    + split; [discriminate|]. intros [_ Hn]. destruct Hs as [[Hs _]|(o & d & v & E & (Ho & C & _) & _)]; [lia|]. destruct (Hn o d v Ho C).
  - split; [discriminate|]. intros [E _]. discriminate.
Qed.
