(** Histories of calls: the exchanger follows the connectivities. *)
From Coq Require Import List ZArith NArith Bool Lia.
From Verif Require Import TupleModel RangeModel ContModel DomainModel DomainSpec OMap PairMap DomainProof XchModel ExcModel ExcSpec ExcProof ExcLaws.
Import ListNotations.

(** ** What a call of the component announces *)
Definition destroyed (s : dspec) (o : dop) : list oid :=
  match o with
  | DestroyOverlap k => [k] | DestroyOverlaps ids => ids | ClearOverlaps => s_over s
  | DestroyGrid g => filter (involves [g]) (s_over s)
  | DestroyGrids [] => [] | DestroyGrids ids => filter (involves ids) (s_over s)
  | _ => []
  end.
Definition ev_spec (s : dspec) (o : dop) : dspec := match o with DestroyGrid _ | DestroyGrids _ => s | _ => sstep s o end.
Definition edits (s : dspec) : list (oid * N) := map (fun k => (k, s_pend s k)) (filter (fun k => nonzero (s_pend s k)) (s_over s)).

Lemma sstep_log s o : s_log (sstep s o) =
  s_log s ++ (if ends_edits o then mark_last (edits s) else []) ++ mark_last (map (fun k => (k, 1%N)) (created o)) ++ mark_last (map (fun k => (k, 2%N)) (destroyed s o)).
Proof.
  destruct o as [g f|l|g|l|k|l|k|l| |r k f|r k f|]; cbn [ends_edits created destroyed map mark_last app sstep].
  2: destruct l; cbn [ends_edits created destroyed map mark_last app s_create_grids]; [rewrite app_nil_r; reflexivity|].
  4: destruct l; cbn [ends_edits created destroyed map mark_last app s_destroy_grids]; [rewrite app_nil_r; reflexivity|].
  all: unfold s_create_grids, s_destroy_grids, s_create, s_destroy, say, announce, with_over, with_grids, say_grids, s_edit, edits, nonzero; cbn [s_log s_pend s_over]; rewrite ?app_nil_r, <- ?app_assoc; reflexivity.
Qed.

Lemma In_add_sorted k l j : In j (add_sorted k l) <-> j = k \/ In j l.
Proof. induction l as [|x l IH]; cbn; [intuition congruence|]. destruct (oid_beforeb k x); cbn; [intuition congruence|]. rewrite IH. intuition congruence. Qed.
Lemma In_add_all ids : forall l j, In j (fold_left (fun l k => add_sorted k l) ids l) <-> In j l \/ In j ids.
Proof. induction ids as [|k ids IH]; intros l j; cbn; [tauto|]. rewrite IH, In_add_sorted. intuition congruence. Qed.

Lemma sstep_over s o k : (forall j, In j (created o) -> ~ In j (s_over s)) ->
  (In k (s_over (sstep s o)) <-> (In k (s_over s) \/ In k (created o)) /\ ~ In k (destroyed s o)).
Proof.
  intros H. assert (HN : forall ids : list oid, In k (filter (fun k => negb (kin k ids)) (s_over s)) <-> In k (s_over s) /\ ~ In k ids).
  { intros ids. rewrite filter_In, negb_true_iff, <- (kin_spec k ids). destruct (kin k ids); intuition congruence. }
  destruct o as [g f|l|g|l|j|l|j|l| |r j f|r j f|]; cbn [created destroyed sstep] in *;
    unfold s_create_grids, s_destroy_grids, s_create, s_destroy, say, announce, with_over, with_grids, say_grids, s_edit;
    try (destruct l as [|a l]); cbn [s_over fold_left filter]; rewrite ?HN, ?In_add_all, ?In_add_sorted; cbn [In]; try tauto; try (intuition congruence).
Qed.

Lemma sstep_pend s o k : s_pend (sstep s o) k =
  if ends_edits o then 0%N else match o with EditM _ j f | EditN _ j f => if oid_eqb k j then N.lor (s_pend s k) f else s_pend s k | _ => s_pend s k end.
Proof.
  destruct o as [g f|l|g|l|j|l|j|l| |r j f|r j f|]; cbn [ends_edits sstep];
    unfold s_create_grids, s_destroy_grids, s_create, s_destroy, say, announce, with_over, with_grids, say_grids, s_edit;
    try (destruct l as [|a l]); reflexivity.
Qed.

Lemma sstep_grids s o : s_grids (sstep s o) =
  match o with CreateGrid g f => (g, f) :: s_grids s | CreateGrids l => rev l ++ s_grids s
  | DestroyGrid g => filter (fun gf => negb (gin (fst gf) [g])) (s_grids s) | DestroyGrids [] => s_grids s
  | DestroyGrids l => filter (fun gf => negb (gin (fst gf) l)) (s_grids s) | _ => s_grids s end.
Proof.
  destruct o as [g f|l|g|l|j|l|j|l| |r j f|r j f|]; cbn [sstep];
    unfold s_create_grids, s_destroy_grids, s_create, s_destroy, say, announce, with_over, with_grids, say_grids, s_edit;
    try (destruct l as [|a l]); reflexivity.
Qed.

Lemma livesb_spec s g r : livesb s g r = true <-> lives s g r.
Proof.
  unfold livesb, lives. rewrite existsb_exists. split.
  - intros ([g' f] & I & E). cbn in E. apply andb_true_iff in E as [E F]. apply Z.eqb_eq in E. subst. exists f. auto.
  - intros (f & I & F). exists (g, f). split; [exact I|]. cbn. rewrite Z.eqb_refl, F. reflexivity.
Qed.
Lemma livesb_app g r l1 l2 : (forall f, ~ In (g, f) l1) ->
  existsb (fun gf : Z * (nat -> bool) => Z.eqb (fst gf) g && snd gf r) (l1 ++ l2) = existsb (fun gf => Z.eqb (fst gf) g && snd gf r) l2.
Proof.
  intros H. rewrite existsb_app. assert (existsb (fun gf : Z * (nat -> bool) => Z.eqb (fst gf) g && snd gf r) l1 = false) as ->; [|reflexivity].
  apply not_true_iff_false. intros T. apply existsb_exists in T as ([g' f] & I & E). cbn in E. apply andb_true_iff in E as [E _]. apply Z.eqb_eq in E. subst. exact (H f I).
Qed.
Lemma livesb_filter g r ids l : gin g ids = false ->
  existsb (fun gf : Z * (nat -> bool) => Z.eqb (fst gf) g && snd gf r) (filter (fun gf => negb (gin (fst gf) ids)) l) = existsb (fun gf => Z.eqb (fst gf) g && snd gf r) l.
Proof.
  intros H. induction l as [|[g' f] l IH]; [reflexivity|]. cbn [filter existsb fst snd]. destruct (gin g' ids) eqn:E; cbn [negb].
  - rewrite IH. destruct (Z.eqb_spec g' g) as [->|]; [congruence|reflexivity].
  - cbn [existsb fst snd]. rewrite IH. reflexivity.
Qed.

(** A grid stays where it is. *)
Lemma lives_ev n s o g r : dlegal n s o -> has_grid s g -> livesb (ev_spec s o) g r = livesb s g r.
Proof.
  intros HL Hg. assert (Hg' : forall f l, (forall x, In x (map fst l) -> ~ has_grid s x) -> ~ In (g, f : nat -> bool) l).
  { intros f l H I. apply (H g); [apply in_map_iff; exists (g, f); auto|exact Hg]. }
  destruct o as [g' f|l|g'|l|j|l|j|l| |q j f|q j f|]; unfold ev_spec; try reflexivity; unfold livesb; rewrite sstep_grids; try reflexivity.
  - change ((g', f) :: s_grids s) with ([(g', f)] ++ s_grids s). apply livesb_app. intros f' [E|[]]. injection E as -> _. exact (HL Hg).
  - apply livesb_app. intros f' I. apply in_rev in I. revert I. apply Hg'. apply HL.
Qed.
Lemma ev_has_grid n s o g : dlegal n s o -> has_grid s g -> has_grid (ev_spec s o) g.
Proof.
  intros HL Hg. destruct o as [g' f|l|g'|l|j|l|j|l| |q j f|q j f|]; unfold ev_spec; try exact Hg; unfold has_grid; rewrite sstep_grids; try exact Hg.
  - right. exact Hg.
  - rewrite map_app. apply in_or_app. right. exact Hg.
Qed.
Lemma lives_after s o k r : In k (s_over (sstep s o)) -> (forall j, In j (created o) -> ~ In j (s_over s)) ->
  livesb (sstep s o) (fst k) r = livesb (ev_spec s o) (fst k) r /\ livesb (sstep s o) (snd k) r = livesb (ev_spec s o) (snd k) r.
Proof.
  intros I HC. apply (sstep_over s o k HC) in I as [I D].
  destruct o as [g' f|l|g'|l|j|l|j|l| |q j f|q j f|]; unfold ev_spec; try (split; reflexivity); unfold livesb; rewrite sstep_grids; cbn [created destroyed] in I, D.
  - destruct I as [I|[]]. assert (involves [g'] k = false) as E by (apply not_true_iff_false; intros T; apply D, filter_In; auto). apply orb_false_iff in E as [E1 E2].
    split; apply livesb_filter; assumption.
  - destruct l as [|a l]; [split; reflexivity|]. destruct I as [I|[]].
    assert (involves (a :: l) k = false) as E by (apply not_true_iff_false; intros T; apply D, filter_In; auto). apply orb_false_iff in E as [E1 E2].
    split; apply livesb_filter; assumption.
Qed.

Lemma created_new n s o : dlegal n s o -> forall k, In k (created o) -> ~ In k (s_over s) /\ has_grid s (fst k) /\ has_grid s (snd k).
Proof.
  intros HL k I. destruct o as [g' f|l|g'|l|j|l|j|l| |q j f|q j f|]; cbn [created dlegal] in *; try contradiction.
  - destruct I as [<-|[]]. tauto.
  - destruct (proj2 HL k I) as (A & B & C). auto.
Qed.
Lemma destroyed_old n s o : dlegal n s o -> forall k, In k (destroyed s o) -> In k (s_over s).
Proof.
  intros HL k I. destruct o as [g' f|l|g'|l|j|l|j|l| |q j f|q j f|]; cbn [destroyed dlegal] in *; try contradiction; auto.
  - apply filter_In in I. apply I.
  - destruct l; [contradiction|]. apply filter_In in I. apply I.
  - destruct I as [<-|[]]. exact HL.
  - apply HL, I.
Qed.
Lemma created_destroyed s o : created o = [] \/ destroyed s o = [].
Proof. destruct o; cbn; auto. Qed.

(** ** The ranks found *)

Section Run.
Context (t : tables) (n : nat).

(** The connectivities whose ranks are found again. *)
Definition again (s : espec) (k : oid) : bool :=
  kin k (s_over (q_d s)) && nonzero (N.land (s_pend (q_d s) k) (EDIT_M_DESTINATIONS + EDIT_N_SOURCES)).
Definition some_m (s : espec) (loc : Z -> nat -> bool) (em : nat -> oid -> list donor) (q : nat) : list mconn :=
  map (conn_m t em q) (filter (fun k => again s k && loc (fst k) q) (s_over (q_d s))).
Definition some_n (s : espec) (loc : Z -> nat -> bool) (en : nat -> oid -> list receiver) (q : nat) : list nconn :=
  map (conn_n en q) (filter (fun k => again s k && loc (snd k) q) (s_over (q_d s))).
Definition comp_rm (s : espec) (o : dop) (rm : nat -> oid -> list Z) (r : nat) (k : oid) : list Z :=
  let em := blank (q_m s) (created o) in let en := blank (q_n s) (created o) in
  if kin k (created o) then [] else
  if ends_edits o && again s k then map (find_dest n (some_n s (livesb (ev_spec (q_d s) o)) en) (conn_m t em r k)) (em r k) else rm r k.
Definition comp_rn (s : espec) (o : dop) (rn : nat -> oid -> list Z) (r : nat) (k : oid) : list Z :=
  let em := blank (q_m s) (created o) in let en := blank (q_n s) (created o) in
  if kin k (created o) then [] else
  if ends_edits o && again s k then map (find_src n (some_m s (livesb (ev_spec (q_d s) o)) em) (conn_n en r k)) (en r k) else rn r k.
Definition step_rm (s : espec) (o : eop) (rm : nat -> oid -> list Z) : nat -> oid -> list Z :=
  match o with
  | Comp o => comp_rm s o rm
  | Bind => fun r k => map (find_dest n (all_n s) (conn_m t (q_m s) r k)) (q_m s r k)
  | _ => rm
  end.
Definition step_rn (s : espec) (o : eop) (rn : nat -> oid -> list Z) : nat -> oid -> list Z :=
  match o with
  | Comp o => comp_rn s o rn
  | Bind => fun r k => map (find_src n (all_m t s) (conn_n (q_n s) r k)) (q_n s r k)
  | _ => rn
  end.

Record einv (s : espec) (rm rn : nat -> oid -> list Z) (st : est) : Prop := EInv {
  ei_d : dinv n (q_d s) (e_dom st);
  ei_g : d_gflags (e_dom st) = map_empty;
  ei_pend : forall k, N.land (s_pend (q_d s) k) ALL_EDITS = s_pend (q_d s) k;
  ei_m : e_m st = q_m s;
  ei_nn : e_n st = q_n s;
  ei_b : e_bound st = q_bound s;
  ei_len : length (e_x st) = n;
  ei_on : q_bound s = true -> xinv n (livesb (q_d s)) (s_over (q_d s)) (s_pend (q_d s)) (q_m s) (q_n s) rm rn (q_om s) (q_on s) (e_x st);
  ei_off : q_bound s = false -> forall r x, nth_error (e_x st) r = Some x ->
    xgood x /\ man x = ([], [], [], []) /\ forall k, mget pair_less (x_ms x) k = None /\ mget pair_less (x_ns x) k = None }.

Lemma events_same c c' s s' E : dinv n s c -> dinv n s' c' -> s_log s' = s_log s ++ E -> new_events c c' = repeat E n.
Proof.
  intros I I' HE. unfold new_events. pose proof (di_n _ _ _ I) as L. pose proof (di_n _ _ _ I') as L'.
  pose proof (di_ranks _ _ _ I) as R. pose proof (di_ranks _ _ _ I') as R'.
  assert (A : forall rs, In rs (d_ranks c) -> r_log rs = s_log s) by (intros rs H; apply In_nth_error in H as (i & Hi); apply (ri_log _ _ _ (R i rs Hi))).
  assert (A' : forall rs, In rs (d_ranks c') -> r_log rs = s_log s') by (intros rs H; apply In_nth_error in H as (i & Hi); apply (ri_log _ _ _ (R' i rs Hi))).
  revert L L' A A'. generalize (d_ranks c) (d_ranks c'). clear -HE. intros l l' L L' A A'. revert l l' L L' A A'.
  induction n as [|m IH]; intros [|a l] [|b l'] L L' A A'; cbn in *; try discriminate; [reflexivity|]. f_equal.
  - rewrite A, A', HE by (left; reflexivity). rewrite skipn_app, skipn_all, Nat.sub_diag. reflexivity.
  - apply IH; auto.
Qed.

Lemma comp_ok s rm rn st o : (0 < n)%nat -> einv s rm rn st -> dlegal n (q_d s) o ->
  (match o with EditM _ _ f => m_flags f | EditN _ _ f => n_flags f | _ => True end) ->
  exists st', comp_step t st o = Some st' /\ einv (comp_spec s o) (comp_rm s o rm) (comp_rn s o rn) st'.
Proof.
  intros Hn [I1 I2 I3 I4 I5 I6 I7 I8 I9] HL HF.
  destruct (dstep_ok n (q_d s) (e_dom st) o I1 I2 HL) as (c' & E & I1' & I2'). unfold comp_step. rewrite E.
  set (em := blank (e_m st) (created o)). set (en := blank (e_n st) (created o)).
  pose proof (created_new n (q_d s) o HL) as HC. pose proof (destroyed_old n (q_d s) o HL) as HD.
  assert (HC' : forall j, In j (created o) -> ~ In j (s_over (q_d s))) by (intros j J; apply HC, J).
  assert (P3 : forall k, N.land (s_pend (sstep (q_d s) o) k) ALL_EDITS = s_pend (sstep (q_d s) o) k).
  { intros k. rewrite sstep_pend. destruct (ends_edits o); [reflexivity|].
    destruct o as [g' f|l|g'|l|j|l|j|l| |q j f|q j f|]; try apply I3; destruct (oid_eqb k j); try apply I3; rewrite N.land_lor_distr_l, I3; f_equal.
    - rewrite <- HF. rewrite <- N.land_assoc. reflexivity.
    - rewrite <- HF. rewrite <- N.land_assoc. reflexivity. }
  rewrite (events_same (e_dom st) c' (q_d s) (sstep (q_d s) o) _ I1 I1' (sstep_log (q_d s) o)).
  set (E3 := mark_last (map (fun k => (k, 2%N)) (destroyed (q_d s) o))). set (E2 := mark_last (map (fun k => (k, 1%N)) (created o))).
  assert (Hhd : forall l : list oevent, length (hd [] (repeat l n)) = length l) by (intros l; destruct n as [|m]; [lia|reflexivity]).
  rewrite Hhd.
  destruct (e_bound st) eqn:Eb; symmetry in I6.
  2:{ exists (ES c' em en false (e_x st)). split; [reflexivity|]. split; cbn [e_dom e_m e_n e_bound e_x comp_spec q_d q_m q_n q_bound q_om q_on]; auto.
      - unfold em. rewrite I4. reflexivity.
      - unfold en. rewrite I5. reflexivity.
      - intros Hb. congruence. }
  rewrite (di_n _ _ _ I1'). specialize (I8 I6).
  set (c0 := event_dom o (e_dom st) c'). set (loc := livesb (ev_spec (q_d s) o)).
  assert (I0 : dinv n (ev_spec (q_d s) o) c0) by (unfold c0, ev_spec, event_dom; destruct o; assumption).
  assert (HG : forall g r, has_grid (ev_spec (q_d s) o) g -> grid_local c0 g r = Some (loc g r)).
  { intros g r Hg. destruct (grid_local_ok n _ _ g r I0 Hg) as (b & Hb & Hi). rewrite Hb. f_equal. unfold loc. apply eq_true_iff_eq. rewrite livesb_spec. exact Hi. }
  assert (KN : forall g, has_grid (q_d s) g -> has_grid (ev_spec (q_d s) o) g) by (intros g; apply (ev_has_grid n), HL).
  assert (OG : forall k, In k (s_over (q_d s)) -> has_grid (ev_spec (q_d s) o) (fst k) /\ has_grid (ev_spec (q_d s) o) (snd k)).
  { intros k Ik. destruct (di_og _ _ _ I1 k Ik). auto. }
  assert (BL : forall A (f : nat -> oid -> list A) r k, blank f (created o) r k = if kin k (created o) then [] else f r k) by reflexivity.
  (* the exchanger before the events *)
  assert (X0 : xinv n loc (s_over (q_d s)) (s_pend (q_d s)) em en rm rn (q_om s) (q_on s) (e_x st)).
  { refine (xinv_ext n _ _ _ _ _ _ _ _ _ _ _ _ _ _ _ _ _ _ _ _ _ _ _ I8).
    - tauto.
    - intros k r Ik. destruct (di_og _ _ _ I1 k Ik). unfold loc. rewrite !(lives_ev n) by assumption. auto.
    - intros k Ik P. split; [exact P|]. intros r. unfold em, en. rewrite I4, I5, !BL.
      assert (kin k (created o) = false) as -> by (apply not_true_iff_false; rewrite kin_spec; intros J; apply (HC' k J Ik)). auto.
    - auto. }
  assert (ND : NoDup (s_over (q_d s))) by (eapply sok_NoDup; [exact pair_swo|]; apply (di_over _ _ _ I1)).
  (* ended edits *)
  assert (S1 : exists xs1, deliver t n c0 em en (length ((if ends_edits o then mark_last (edits (q_d s)) else []) ++ E2 ++ E3)) (repeat ((if ends_edits o then mark_last (edits (q_d s)) else []) ++ E2 ++ E3) n) (e_x st) =
      deliver t n c0 em en (length (E2 ++ E3)) (repeat (E2 ++ E3) n) xs1 /\
    xinv n loc (s_over (q_d s)) (fun k => if ends_edits o then 0%N else s_pend (q_d s) k) em en
      (fun r k => if ends_edits o && again s k then map (find_dest n (some_n s loc en) (conn_m t em r k)) (em r k) else rm r k)
      (fun r k => if ends_edits o && again s k then map (find_src n (some_m s loc em) (conn_n en r k)) (en r k) else rn r k)
      (fun r k => if ends_edits o && (kin k (s_over (q_d s)) && nonzero (s_pend (q_d s) k)) then [] else q_om s r k)
      (fun r k => if ends_edits o && (kin k (s_over (q_d s)) && nonzero (s_pend (q_d s) k)) then [] else q_on s r k) xs1).
  { destruct (ends_edits o); [|exists (e_x st); split; [reflexivity|exact X0]].
    destruct (stage_sync t n c0 em en loc _ HG (s_over (q_d s)) (s_pend (q_d s)) rm rn (q_om s) (q_on s) (e_x st) (E2 ++ E3) Hn ND OG I3 X0) as (xs1 & D1 & X1).
    exists xs1. split; [exact D1|]. exact X1. }
  destruct S1 as (xs1 & D1 & X1).
  (* creation *)
  destruct (stage_create t n c0 em en loc _ HG (s_over (q_d s)) (s_over (q_d s) ++ created o) _ (created o) _ _ _ _ xs1 E3 Hn
    (fun k J => conj (KN _ (proj1 (proj2 (HC k J)))) (KN _ (proj2 (proj2 (HC k J)))))
    (fun r k J => conj (eq_trans (BL _ (e_m st) r k) ltac:(rewrite (proj2 (kin_spec k _) J); reflexivity)) (eq_trans (BL _ (e_n st) r k) ltac:(rewrite (proj2 (kin_spec k _) J); reflexivity)))
    (fun k => in_app_iff _ _ _) X1) as (xs2 & D2 & X2).
  (* destruction *)
  destruct (stage_destroy t n c0 em en loc _ HG (s_over (q_d s) ++ created o) (s_over (sstep (q_d s) o)) _ (destroyed (q_d s) o) _ _ _ _ xs2 [] Hn
    (fun k J => OG k (HD k J)) (fun k => ltac:(rewrite in_app_iff; apply sstep_over, HC')) X2) as (xs3 & D3 & X3).
  rewrite app_nil_r in D3. fold E3 in D3. fold E2 in D2.
  match goal with |- context[deliver ?a ?b ?c1 ?d1 ?e1 ?m ?e ?x] =>
    replace (deliver a b c1 d1 e1 m e x) with (Some xs3) by (symmetry; exact (eq_trans D1 (eq_trans D2 (eq_trans D3 (deliver_end t n c0 em en xs3))))) end.
  eexists. split; [reflexivity|].
  split; cbn [e_dom e_m e_n e_bound e_x comp_spec q_d q_m q_n q_bound q_om q_on]; auto.
  - unfold em. rewrite I4. reflexivity.
  - unfold en. rewrite I5. reflexivity.
  - apply X3.
  - intros _. refine (xinv_ext n _ _ _ _ _ _ _ _ _ _ _ _ _ _ _ _ _ _ _ _ _ _ _ X3).
    + tauto.
    + intros k r Ik. destruct (lives_after (q_d s) o k r Ik HC') as [A B]. unfold loc. auto.
    + intros k Ik P. split; [|intros r; unfold em, en; rewrite I4, I5; auto]. rewrite sstep_pend in P.
      destruct (ends_edits o) eqn:Ee; [reflexivity|].
      destruct o as [g' f|l|g'|l|j|l|j|l| |q j f|q j f|]; try exact P; destruct (oid_eqb k j); try exact P; apply N.lor_eq_0_iff in P; apply P.
    + intros k r Ik. unfold comp_rm, comp_rn, drop_ops. unfold em, en, loc. rewrite I4, I5. cbv zeta.
      split; [reflexivity|]. split; [reflexivity|]. destruct (kin k (created o)); rewrite ?orb_true_r, ?orb_false_r; auto.
  - intros Hb. congruence.
Qed.


Lemma oid_eqb_iff j k : oid_eqb j k = true <-> j = k.
Proof. destruct (oid_eqb_spec j k); split; congruence. Qed.
Lemma peqb_oid j k : peqb j k = oid_eqb j k.
Proof. reflexivity. Qed.
Lemma replace_length {A} (l : list A) : forall i v, (i < length l)%nat -> length (replace_at l i v) = length l.
Proof. induction l as [|x l IH]; intros [|i] v H; cbn in H; try lia; [reflexivity|]. rewrite replace_at_S. cbn [length]. rewrite IH; lia. Qed.
Lemma put_at {A} (f : nat -> oid -> A) r k a q j : put f r k a q j = if Nat.eqb q r && oid_eqb j k then a else f q j.
Proof. reflexivity. Qed.

Lemma estep_ok s rm rn st o : (0 < n)%nat -> einv s rm rn st -> elegal n s o ->
  exists st', estep t st o = Some st' /\ einv (espec_step s o) (step_rm s o rm) (step_rn s o rn) st'.
Proof.
  intros Hn I HL. destruct o as [o|r k f ds|r k f ys| | |r k i|r k i]; cbn [estep espec_step step_rm step_rn elegal] in *.
  - destruct HL as [HL HF]. apply comp_ok; assumption.
  - destruct HL as (HL & HF & HC). destruct (comp_ok s rm rn st (EditM r k f) Hn I HL HF) as (st' & E & I'). rewrite E. eexists. split; [reflexivity|].
    destruct I' as [J1 J2 J3 J4 J5 J6 J7 J8 J9]. split; cbn [e_dom e_m e_n e_bound e_x q_d q_m q_n q_bound q_om q_on]; auto.
    + rewrite J4. reflexivity.
    + intros Hb. refine (xinv_ext n _ _ _ _ _ _ _ _ _ _ _ _ _ _ _ _ _ _ _ _ _ _ _ (J8 Hb)); [tauto|auto| |auto].
      intros j Ij P. split; [exact P|]. intros q. split; [|reflexivity]. rewrite put_at. destruct (Nat.eqb q r && oid_eqb j k) eqn:Ej; [|reflexivity].
      apply andb_true_iff in Ej as [Eq Ej]. apply Nat.eqb_eq in Eq. apply oid_eqb_iff in Ej. subst q j.
      cbn [comp_spec q_d] in P. rewrite sstep_pend in P. cbn [ends_edits] in P. rewrite (proj2 (oid_eqb_iff k k) eq_refl) in P.
      apply N.lor_eq_0_iff in P as [_ ->]. destruct HC as [C1 C2]. destruct (C2 eq_refl) as [C3 C4]. specialize (C1 eq_refl).
      change (q_m (comp_spec s (EditM r k 0)) r k) with (q_m s r k). revert C1 C3 C4. generalize (q_m s r k). clear. induction ds as [|[a b c0] ds IH]; intros [|[a' b' c'] l]; cbn; intros; try discriminate; [reflexivity|].
      f_equal; [congruence|]. apply IH; congruence.
  - destruct HL as (HL & HF & HC). destruct (comp_ok s rm rn st (EditN r k f) Hn I HL HF) as (st' & E & I'). rewrite E. eexists. split; [reflexivity|].
    destruct I' as [J1 J2 J3 J4 J5 J6 J7 J8 J9]. split; cbn [e_dom e_m e_n e_bound e_x q_d q_m q_n q_bound q_om q_on]; auto.
    + rewrite J5. reflexivity.
    + intros Hb. refine (xinv_ext n _ _ _ _ _ _ _ _ _ _ _ _ _ _ _ _ _ _ _ _ _ _ _ (J8 Hb)); [tauto|auto| |auto].
      intros j Ij P. split; [exact P|]. intros q. split; [reflexivity|]. rewrite put_at. destruct (Nat.eqb q r && oid_eqb j k) eqn:Ej; [|reflexivity].
      apply andb_true_iff in Ej as [Eq Ej]. apply Nat.eqb_eq in Eq. apply oid_eqb_iff in Ej. subst q j.
      cbn [comp_spec q_d] in P. rewrite sstep_pend in P. cbn [ends_edits] in P. rewrite (proj2 (oid_eqb_iff k k) eq_refl) in P.
      apply N.lor_eq_0_iff in P as [_ ->]. destruct HC as [C1 C2]. specialize (C2 eq_refl). specialize (C1 eq_refl).
      change (q_n (comp_spec s (EditN r k 0)) r k) with (q_n s r k). revert C1 C2. generalize (q_n s r k). clear. induction ys as [|[a b] ds IH]; intros [|[a' b'] l]; cbn; intros; try discriminate; [reflexivity|].
      f_equal; [congruence|]. apply IH; congruence.
  - unfold bind. destruct I as [I1 I2 I3 I4 I5 I6 I7 I8 I9]. rewrite I6, HL, I4, I5, (di_n _ _ _ I1).
    destruct (stage_bind t n (e_dom st) (q_m s) (q_n s) (livesb (q_d s)) (has_grid (q_d s))
      (fun g r Hg => ltac:(destruct (grid_local_ok n _ _ g r I1 Hg) as (b & Hb & Hi); rewrite Hb; f_equal; apply eq_true_iff_eq; rewrite livesb_spec; exact Hi))
      (s_over (q_d s)) (s_pend (q_d s)) (d_ranks (e_dom st)) (e_x st) I7 (di_n _ _ _ I1) (di_og _ _ _ I1) (I9 HL)
      (fun r rs H => ri_keys _ _ _ (di_ranks _ _ _ I1 r rs H))) as (xs' & E & X).
    rewrite E. eexists. split; [reflexivity|]. split; cbn [e_dom e_m e_n e_bound e_x q_d q_m q_n q_bound q_om q_on]; auto; [apply X|discriminate].
  - unfold unbind. destruct I as [I1 I2 I3 I4 I5 I6 I7 I8 I9]. rewrite I6, HL. eexists. split; [reflexivity|].
    split; cbn [e_dom e_m e_n e_bound e_x q_d q_m q_n q_bound q_om q_on]; auto; [rewrite map_length; exact I7|discriminate|].
    intros _ r x Hx. rewrite nth_error_map in Hx. destruct (nth_error (e_x st) r) as [x0|] eqn:E0; [|discriminate]. injection Hx as <-.
    destruct (xi_good _ _ _ _ _ _ _ _ _ _ _ (I8 HL) r x0 E0) as [G M]. split; [split; apply mok_empty|]. split; [exact M|]. intros k. split; reflexivity.
  - destruct HL as (Hb & Hr & Ik & Lk). unfold x_at. destruct I as [I1 I2 I3 I4 I5 I6 I7 I8 I9]. rewrite I6, Hb. specialize (I8 Hb). destruct I8 as [X1 X2 X3 X4 X5 X6].
    destruct (nth_error (e_x st) r) as [x|] eqn:Ex; [|apply nth_error_None in Ex; lia].
    destruct (mget pair_less (x_ms x) k) as [l|] eqn:El; [|exfalso; apply (X3 r x k Ex); auto]. destruct (X2 r x Ex) as [[G1 G2] M].
    destruct (assign_ok (x_ms x) k (fun l => Some (LocM (lm_ranks l) (lm_maps l) (i :: lm_ops l))) l (LocM (lm_ranks l) (lm_maps l) (i :: lm_ops l)) G1 El eq_refl) as (m & E & Gm & Hm).
    rewrite E. eexists. split; [reflexivity|].
    assert (NX : forall q x', nth_error (replace_at (e_x st) r (XR m (x_ns x) (x_create x) (x_destroy x) (x_ranks x) (x_reset x))) q = Some x' ->
      exists x0, nth_error (e_x st) q = Some x0 /\ xgood x' /\ man x' = ([], [], [], []) /\ x_ns x' = x_ns x0 /\
      forall j, mget pair_less (x_ms x') j = if Nat.eqb q r && oid_eqb j k then Some (LocM (lm_ranks l) (lm_maps l) (i :: lm_ops l)) else mget pair_less (x_ms x0) j).
    { intros q x' H. rewrite ReqProof.replace_at_nth in H by lia. destruct (Nat.eqb_spec q r) as [->|Ne].
      - injection H as <-. exists x. split; [exact Ex|]. split; [split; [exact Gm|exact G2]|]. split; [exact M|]. split; [reflexivity|]. intros j. cbn [x_ms andb]. rewrite Hm, peqb_oid. reflexivity.
      - exists x'. destruct (X2 q x' H) as [G' M']. auto. }
    assert (LX : length (replace_at (e_x st) r (XR m (x_ns x) (x_create x) (x_destroy x) (x_ranks x) (x_reset x))) = n).
    { rewrite <- I7. apply replace_length. lia. }
    split; cbn [e_dom e_m e_n e_bound e_x q_d q_m q_n q_bound q_om q_on]; auto; [|congruence]. intros _. split.
    + exact LX.
    + intros q x' H. destruct (NX q x' H) as (x0 & _ & G' & M' & _). auto.
    + intros q x' j H. destruct (NX q x' H) as (x0 & H0 & _ & _ & _ & A). rewrite A. destruct (Nat.eqb q r && oid_eqb j k) eqn:Ej; [|apply (X3 q x0 j H0)].
      apply andb_true_iff in Ej as [Eq Ej]. apply Nat.eqb_eq in Eq. apply oid_eqb_iff in Ej. subst q j. split; [auto|discriminate].
    + intros q x' j H. destruct (NX q x' H) as (x0 & H0 & _ & _ & -> & A). apply (X4 q x0 j H0).
    + intros q x' j l' H. destruct (NX q x' H) as (x0 & H0 & _ & _ & _ & A). rewrite A, put_at. destruct (Nat.eqb q r && oid_eqb j k) eqn:Ej; [|apply (X5 q x0 j l' H0)].
      apply andb_true_iff in Ej as [Eq Ej]. apply Nat.eqb_eq in Eq. apply oid_eqb_iff in Ej. subst q j. intros E'. injection E' as <-. cbn [lm_ranks lm_maps lm_ops].
      destruct (X5 r x k l Ex El) as (P & Q & S). rewrite Q. auto.
    + intros q x' j l' H. destruct (NX q x' H) as (x0 & H0 & _ & _ & -> & A). apply (X6 q x0 j l' H0).
  - destruct HL as (Hb & Hr & Ik & Lk). unfold x_at. destruct I as [I1 I2 I3 I4 I5 I6 I7 I8 I9]. rewrite I6, Hb. specialize (I8 Hb). destruct I8 as [X1 X2 X3 X4 X5 X6].
    destruct (nth_error (e_x st) r) as [x|] eqn:Ex; [|apply nth_error_None in Ex; lia].
    destruct (mget pair_less (x_ns x) k) as [l|] eqn:El; [|exfalso; apply (X4 r x k Ex); auto]. destruct (X2 r x Ex) as [[G1 G2] M].
    destruct (assign_ok (x_ns x) k (fun l => Some (LocN (ln_ranks l) (ln_maps l) (i :: ln_ops l))) l (LocN (ln_ranks l) (ln_maps l) (i :: ln_ops l)) G2 El eq_refl) as (m & E & Gm & Hm).
    rewrite E. eexists. split; [reflexivity|].
    assert (NX : forall q x', nth_error (replace_at (e_x st) r (XR (x_ms x) m (x_create x) (x_destroy x) (x_ranks x) (x_reset x))) q = Some x' ->
      exists x0, nth_error (e_x st) q = Some x0 /\ xgood x' /\ man x' = ([], [], [], []) /\ x_ms x' = x_ms x0 /\
      forall j, mget pair_less (x_ns x') j = if Nat.eqb q r && oid_eqb j k then Some (LocN (ln_ranks l) (ln_maps l) (i :: ln_ops l)) else mget pair_less (x_ns x0) j).
    { intros q x' H. rewrite ReqProof.replace_at_nth in H by lia. destruct (Nat.eqb_spec q r) as [->|Ne].
      - injection H as <-. exists x. split; [exact Ex|]. split; [split; [exact G1|exact Gm]|]. split; [exact M|]. split; [reflexivity|]. intros j. cbn [x_ns andb]. rewrite Hm, peqb_oid. reflexivity.
      - exists x'. destruct (X2 q x' H) as [G' M']. auto. }
    assert (LX : length (replace_at (e_x st) r (XR (x_ms x) m (x_create x) (x_destroy x) (x_ranks x) (x_reset x))) = n).
    { rewrite <- I7. apply replace_length. lia. }
    split; cbn [e_dom e_m e_n e_bound e_x q_d q_m q_n q_bound q_om q_on]; auto; [|congruence]. intros _. split.
    + exact LX.
    + intros q x' H. destruct (NX q x' H) as (x0 & _ & G' & M' & _). auto.
    + intros q x' j H. destruct (NX q x' H) as (x0 & H0 & _ & _ & -> & A). apply (X3 q x0 j H0).
    + intros q x' j H. destruct (NX q x' H) as (x0 & H0 & _ & _ & _ & A). rewrite A. destruct (Nat.eqb q r && oid_eqb j k) eqn:Ej; [|apply (X4 q x0 j H0)].
      apply andb_true_iff in Ej as [Eq Ej]. apply Nat.eqb_eq in Eq. apply oid_eqb_iff in Ej. subst q j. split; [auto|discriminate].
    + intros q x' j l' H. destruct (NX q x' H) as (x0 & H0 & _ & _ & -> & A). apply (X5 q x0 j l' H0).
    + intros q x' j l' H. destruct (NX q x' H) as (x0 & H0 & _ & _ & _ & A). rewrite A, put_at. destruct (Nat.eqb q r && oid_eqb j k) eqn:Ej; [|apply (X6 q x0 j l' H0)].
      apply andb_true_iff in Ej as [Eq Ej]. apply Nat.eqb_eq in Eq. apply oid_eqb_iff in Ej. subst q j. intros E'. injection E' as <-. cbn [ln_ranks ln_maps ln_ops].
      destruct (X6 r x k l Ex El) as (P & Q & S). rewrite Q. auto.
Qed.

Lemma einv_init rm rn : einv espec0 rm rn (est0 n).
Proof.
  split; cbn [espec0 est0 q_d q_m q_n q_bound q_om q_on e_dom e_m e_n e_bound e_x]; auto; try discriminate.
  - apply dinv_init.
  - apply repeat_length.
  - intros _ r x Hx. apply nth_error_In, repeat_spec in Hx. subst x. split; [split; apply mok_empty|]. split; [reflexivity|]. intros k. split; reflexivity.
Qed.

(** The ranks found by the end of a history. *)
Fixpoint run_rm (s : espec) (h : list eop) (rm : nat -> oid -> list Z) : nat -> oid -> list Z :=
  match h with [] => rm | o :: h => run_rm (espec_step s o) h (step_rm s o rm) end.
Fixpoint run_rn (s : espec) (h : list eop) (rn : nat -> oid -> list Z) : nat -> oid -> list Z :=
  match h with [] => rn | o :: h => run_rn (espec_step s o) h (step_rn s o rn) end.

Lemma erun_from h : forall s rm rn st, (0 < n)%nat -> einv s rm rn st -> always (elegal n) s h ->
  exists st', ofold (estep t) h st = Some st' /\ einv (fold_left espec_step h s) (run_rm s h rm) (run_rn s h rn) st'.
Proof.
  induction h as [|o h IH]; intros s rm rn st Hn I HL; cbn [ofold fold_left run_rm run_rn always] in *; [exists st; auto|].
  destruct HL as [HL HL']. destruct (estep_ok s rm rn st o Hn I HL) as (st1 & E & I1). rewrite E. apply IH; assumption.
Qed.

Lemma local_m_get st r k x : nth_error (e_x st) r = Some x -> xgood x -> local_m st r k = mget pair_less (x_ms x) k.
Proof.
  intros H [G _]. unfold local_m. rewrite H. rewrite (mget_contains pair_less pair_swo _ k G). destruct (mget pair_less (x_ms x) k) as [l|] eqn:E; [|reflexivity].
  apply (mget_at pair_less pair_swo _ k l G E).
Qed.
Lemma local_n_get st r k x : nth_error (e_x st) r = Some x -> xgood x -> local_n st r k = mget pair_less (x_ns x) k.
Proof.
  intros H [_ G]. unfold local_n. rewrite H. rewrite (mget_contains pair_less pair_swo _ k G). destruct (mget pair_less (x_ns x) k) as [l|] eqn:E; [|reflexivity].
  apply (mget_at pair_less pair_swo _ k l G E).
Qed.

(** What users see of an exchanger in such a state. *)
Lemma einv_seen s rm rn st : einv s rm rn st -> forall r k, (r < n)%nat ->
  (local_m st r k <> None <-> q_bound s = true /\ In k (s_over (q_d s)) /\ livesb (q_d s) (fst k) r = true) /\
  (local_n st r k <> None <-> q_bound s = true /\ In k (s_over (q_d s)) /\ livesb (q_d s) (snd k) r = true) /\
  (forall l, local_m st r k = Some l -> lm_ranks l = rm r k /\ lm_ops l = q_om s r k /\
    (s_pend (q_d s) k = 0%N -> lm_maps l = Some (map d_lower (q_m s r k), map d_point (q_m s r k), lm_ranks l))) /\
  (forall l, local_n st r k = Some l -> ln_ranks l = rn r k /\ ln_ops l = q_on s r k /\
    (s_pend (q_d s) k = 0%N -> ln_maps l = Some (map r_point (q_n s r k), ln_ranks l))).
Proof.
  intros [I1 I2 I3 I4 I5 I6 I7 I8 I9] r k Hr. destruct (nth_error (e_x st) r) as [x|] eqn:Ex; [|apply nth_error_None in Ex; lia].
  destruct (q_bound s) eqn:Eb.
  - destruct (I8 eq_refl) as [X1 X2 X3 X4 X5 X6]. destruct (X2 r x Ex) as [G _]. rewrite (local_m_get st r k x Ex G), (local_n_get st r k x Ex G).
    rewrite (X3 r x k Ex), (X4 r x k Ex). split; [tauto|]. split; [tauto|]. split; [intros l; apply (X5 r x k l Ex)|intros l; apply (X6 r x k l Ex)].
  - destruct (I9 eq_refl r x Ex) as (G & _ & N0). rewrite (local_m_get st r k x Ex G), (local_n_get st r k x Ex G).
    destruct (N0 k) as [-> ->]. intuition congruence.
Qed.
End Run.
