(** Proofs about the model of geometry and state components. *)
From Coq Require Import List ZArith NArith Bool Lia Sorting.Sorted.
From Verif Require Import DomainModel DomainSpec DomainProof GcoModel GcoSpec.
Import ListNotations.
Local Open Scope Z_scope.

Definition zflag (E : list (Z * N)) (g : Z) : N := fold_right (fun e a => if Z.eqb g (fst e) then N.lor (snd e) a else a) 0%N E.
Definition zor (ks : list crank) (g : Z) : N := fold_right (fun k a => N.lor (zflag (cr_loc k) g) a) 0%N ks.

(** * Indices and the arrays of flags *)
Lemma index_of_nth l : forall g, In g l -> exists i, index_of g l = Some i /\ nth_error l i = Some g.
Proof.
  induction l as [|x l IH]; intros g H; [destruct H|]. cbn [index_of]. destruct (Z.eqb_spec x g) as [->|N]; [exists O; auto|].
  destruct H as [H|H]; [congruence|]. destruct (IH g H) as (i & -> & Hi). exists (S i). auto.
Qed.
Lemma or_at_mapz (l : list Z) (p : Z -> N) i g f : NoDup l -> nth_error l i = Some g ->
  or_at (map p l) i f = Some (map (fun x => if Z.eqb x g then N.lor (p x) f else p x) l).
Proof.
  intros ND H. unfold or_at. rewrite nth_error_map, H. cbn. f_equal. revert i H. induction l as [|x l IH]; intros [|i] H; cbn in *; try discriminate.
  - injection H as ->. rewrite Z.eqb_refl. f_equal. apply map_ext_in. intros y Hy. inversion ND; subst. destruct (Z.eqb_spec y g); [|reflexivity]. subst. contradiction.
  - inversion ND as [|? ? Hn ND']; subst. f_equal; [|apply IH; assumption]. destruct (Z.eqb_spec x g); [|reflexivity]. subst. exfalso. apply Hn. eapply nth_error_In, H.
Qed.
Lemma flags_acc recs E : NoDup recs -> (forall e, In e E -> In (fst e) recs) -> forall p,
  ofold (fun a e => let? i := index_of (fst e) recs in or_at a i (snd e)) E (map p recs) = Some (map (fun g => N.lor (p g) (zflag E g)) recs).
Proof.
  intros ND. induction E as [|e E IH]; cbn [ofold zflag fold_right]; intros HE p; [f_equal; apply map_ext; intros g; symmetry; apply N.lor_0_r|].
  destruct (index_of_nth recs (fst e) (HE e (or_introl eq_refl))) as (i & -> & Hi). rewrite (or_at_mapz recs p i (fst e) (snd e) ND Hi).
  rewrite IH by (intros; apply HE; right; assumption). f_equal. apply map_ext. intros g. fold (zflag E g). destruct (Z.eqb g (fst e)); [|reflexivity]. rewrite N.lor_assoc. reflexivity.
Qed.
Lemma cr_flags_ok k : NoDup (cr_recs k) -> (forall e, In e (cr_loc k) -> In (fst e) (cr_recs k)) -> cr_flags k = Some (map (zflag (cr_loc k)) (cr_recs k)).
Proof. intros ND HE. unfold cr_flags. rewrite repeat_map, (flags_acc _ _ ND HE). reflexivity. Qed.
Lemma bor_foldz recs ks : forall p, ofold bor2 (map (fun k => map (zflag (cr_loc k)) recs) ks) (map p recs) = Some (map (fun g => N.lor (p g) (zor ks g)) recs).
Proof.
  induction ks as [|k ks IH]; cbn; intros p; [f_equal; apply map_ext; intros g; symmetry; apply N.lor_0_r|].
  rewrite bor2_map, IH. f_equal. apply map_ext. intros g. symmetry. apply N.lor_assoc.
Qed.
Lemma allreducez recs ks : ks <> [] -> allreduce_bor (map (fun k => map (zflag (cr_loc k)) recs) ks) = Some (map (zor ks) recs).
Proof. destruct ks as [|k ks]; [congruence|]. intros _. cbn [map allreduce_bor]. rewrite bor_foldz. reflexivity. Qed.

Lemma zflag_zero E : (forall e, In e E -> snd e = 0%N) -> forall g, zflag E g = 0%N.
Proof.
  induction E as [|e E IH]; intros H g; [reflexivity|]. cbn [zflag fold_right]. fold (zflag E g). rewrite IH by (intros; apply H; right; assumption).
  rewrite (H e (or_introl eq_refl)). destruct (Z.eqb g (fst e)); reflexivity.
Qed.
Lemma zflag_none E g : ~ In g (map fst E) -> zflag E g = 0%N.
Proof.
  induction E as [|e E IH]; intros H; [reflexivity|]. cbn [zflag fold_right]. fold (zflag E g). cbn in H. destruct (Z.eqb_spec g (fst e)) as [->|N]; [exfalso; apply H; left; reflexivity|].
  apply IH. intros I. apply H. right. exact I.
Qed.
Lemma zor_zero ks : (forall k, In k ks -> forall g, zflag (cr_loc k) g = 0%N) -> forall g, zor ks g = 0%N.
Proof.
  induction ks as [|k ks IH]; intros H g; [reflexivity|]. cbn [zor fold_right]. fold (zor ks g). rewrite IH by (intros; apply H; right; assumption). rewrite (H k (or_introl eq_refl)). reflexivity.
Qed.
Lemma unedited ks : existsb cr_edited ks = false -> forall k, In k ks -> forall e, In e (cr_loc k) -> snd e = 0%N.
Proof.
  intros H k Hk e He. destruct (N.eq_dec (snd e) 0) as [E|E]; [exact E|]. exfalso.
  assert (T : existsb cr_edited ks = true).
  { apply existsb_exists. exists k. split; [exact Hk|]. unfold cr_edited. apply existsb_exists. exists e. split; [exact He|]. apply nonzero_iff. exact E. }
  congruence.
Qed.

(** * Events *)
Definition told (p : Z -> N) (recs : list Z) : list (Z * N * bool) := mark_last (map (fun g => (g, p g)) (filter (fun g => nonzero (p g)) recs)).

Lemma ctrigger_loop recs (p : Z -> N) num : NoDup recs -> forall pre suf log j, recs = pre ++ suf ->
  num = j + Z.of_nat (length (filter (fun g => nonzero (p g)) suf)) ->
  exists j', ofold (fun (s : list (Z * N * bool) * Z) g =>
     let? i := index_of g recs in
     let? f := nth_error (map p recs) i in
     Some (if nonzero f then (fst s ++ [(g, f, Z.eqb (snd s) (num - 1))], snd s + 1) else s)) suf (log, j) = Some (log ++ told p suf, j').
Proof.
  intros ND pre suf. revert pre. induction suf as [|g suf IH]; intros pre log j Ho Hn.
  - exists j. cbn. rewrite app_nil_r. reflexivity.
  - assert (Hg : In g recs) by (rewrite Ho; apply in_or_app; right; left; reflexivity).
    destruct (index_of_nth recs g Hg) as (i & Ei & Hi). cbn [ofold]. rewrite Ei, nth_error_map, Hi. cbn [option_map fst snd].
    assert (Ho' : recs = (pre ++ [g]) ++ suf) by (rewrite <- app_assoc; exact Ho). unfold told. cbn [filter] in Hn |- *. destruct (nonzero (p g)) eqn:E.
    + cbn [length] in Hn. destruct (IH (pre ++ [g]) (log ++ [(g, p g, j =? num - 1)]) (j + 1) Ho' ltac:(lia)) as (j' & ->). exists j'. do 2 f_equal.
      cbn [map]. rewrite mark_last_cons, <- app_assoc. cbn [app]. do 3 f_equal. destruct (filter (fun k => nonzero (p k)) suf) as [|x l] eqn:F; cbn [map length] in *; lia.
    + apply (IH (pre ++ [g]) log j Ho' Hn).
Qed.
Lemma filter_mapz (p : Z -> N) l : length (filter nonzero (map p l)) = length (filter (fun g => nonzero (p g)) l).
Proof. induction l as [|g l IH]; cbn; [reflexivity|]. destruct (nonzero (p g)); cbn; congruence. Qed.
Lemma cr_trigger_ok (p : Z -> N) k : NoDup (cr_recs k) -> cr_trigger (map p (cr_recs k)) k = Some (CR (cr_recs k) (cr_loc k) (cr_log k ++ told p (cr_recs k))).
Proof.
  intros ND. unfold cr_trigger. cbv zeta. rewrite filter_mapz.
  destruct (ctrigger_loop (cr_recs k) p (Z.of_nat (length (filter (fun g => nonzero (p g)) (cr_recs k)))) ND [] (cr_recs k) (cr_log k) 0 eq_refl ltac:(lia)) as (j & ->). reflexivity.
Qed.

Lemma ctell_gen flag num ids : forall log j, num = j + Z.of_nat (length ids) ->
  fst (fold_left (fun (s : list (Z * N * bool) * Z) g => (fst s ++ [(g, flag, Z.eqb (snd s) (num - 1))], snd s + 1)) ids (log, j)) = log ++ mark_last (map (fun g => (g, flag)) ids).
Proof.
  induction ids as [|g ids IH]; intros log j Hn; [cbn; rewrite app_nil_r; reflexivity|]. cbn [length] in Hn. cbn [fold_left fst snd]. rewrite IH by lia.
  cbn [map]. rewrite mark_last_cons, <- app_assoc. cbn [app]. do 3 f_equal. destruct ids; cbn [map length] in *; lia.
Qed.
Lemma ctell_ok flag ids k : ctell flag ids k = CR (cr_recs k) (cr_loc k) (cr_log k ++ mark_last (map (fun g => (g, flag)) ids)).
Proof. unfold ctell. rewrite (ctell_gen flag (Z.of_nat (length ids)) ids (cr_log k) 0) by lia. reflexivity. Qed.

(** * SyncEdits_ *)
Definition zeroed (l : list (Z * N)) : list (Z * N) := map (fun e => (fst e, 0%N)) l.
Definition synced (p : Z -> N) (k : crank) : crank := CR (cr_recs k) (zeroed (cr_loc k)) (cr_log k ++ told p (cr_recs k)).

Lemma zeroed_id l : (forall e, In e l -> snd e = 0%N) -> zeroed l = l.
Proof. induction l as [|[g f] l IH]; intros H; [reflexivity|]. cbn [zeroed map]. fold (zeroed l). rewrite IH by (intros; apply H; right; assumption). specialize (H _ (or_introl eq_refl)). cbn in H. subst f. reflexivity. Qed.
Lemma told_nil p l : (forall g, p g = 0%N) -> told p l = [].
Proof. intros H. unfold told. replace (filter _ l) with (@nil Z); [reflexivity|]. induction l as [|g l IH]; [reflexivity|]. cbn. rewrite H. exact IH. Qed.

Lemma csync_ok ks recs : NoDup recs -> (forall k, In k ks -> cr_recs k = recs /\ forall e, In e (cr_loc k) -> In (fst e) recs) ->
  csync ks = Some (map (synced (zor ks)) ks).
Proof.
  intros ND H. unfold csync. destruct (existsb cr_edited ks) eqn:E.
  - assert (Hne : ks <> []) by (intros ->; discriminate).
    rewrite (on_ranks_map _ (fun k => map (zflag (cr_loc k)) recs) ks 0%nat).
    2:{ intros _ k Hk. destruct (H k Hk) as [E1 E2]. rewrite cr_flags_ok; rewrite E1; auto. }
    rewrite (allreducez recs ks Hne). apply on_ranks_map. intros _ k Hk. destruct (H k Hk) as [E1 E2]. rewrite <- E1, cr_trigger_ok by (rewrite E1; exact ND). reflexivity.
  - pose proof (unedited ks E) as U. assert (Z0 : forall g, zor ks g = 0%N) by (apply zor_zero; intros k Hk; apply zflag_zero, U, Hk).
    f_equal. rewrite <- (map_id ks) at 1. apply map_ext_in. intros k Hk. unfold synced. rewrite (told_nil _ _ Z0), app_nil_r, (zeroed_id _ (U k Hk)). destruct k; reflexivity.
Qed.

(** * Sorted lists *)
Lemma ss_nodup l : StronglySorted Z.lt l -> NoDup l.
Proof.
  induction 1 as [|g l S IH F]; constructor; [|exact IH]. intros I. rewrite Forall_forall in F. specialize (F g I). lia.
Qed.
Lemma ss_filter p l : StronglySorted Z.lt l -> StronglySorted Z.lt (filter p l).
Proof.
  induction 1 as [|g l S IH F]; cbn; [constructor|]. destruct (p g); [|exact IH]. constructor; [exact IH|]. rewrite Forall_forall in *. intros x Hx. apply filter_In in Hx. apply F, Hx.
Qed.
Lemma ss_app l1 l2 : StronglySorted Z.lt l1 -> StronglySorted Z.lt l2 -> (forall a b, In a l1 -> In b l2 -> a < b) -> StronglySorted Z.lt (l1 ++ l2).
Proof.
  induction 1 as [|g l S IH F]; intros S2 H; cbn; [exact S2|]. constructor; [apply IH; [exact S2|intros a b Ha Hb; apply H; [right; exact Ha|exact Hb]]|].
  rewrite Forall_forall in *. intros x Hx. apply in_app_or in Hx. destruct Hx as [Hx|Hx]; [apply F, Hx|apply H; [left; reflexivity|exact Hx]].
Qed.
Lemma ss_eq l1 : forall l2, StronglySorted Z.lt l1 -> StronglySorted Z.lt l2 -> (forall g, In g l1 <-> In g l2) -> l1 = l2.
Proof.
  induction l1 as [|a l1 IH]; intros [|b l2] S1 S2 H; [reflexivity| | |].
  - exfalso. apply (proj2 (H b)). left. reflexivity.
  - exfalso. apply (proj1 (H a)). left. reflexivity.
  - inversion S1 as [|? ? S1' F1]; inversion S2 as [|? ? S2' F2]; subst. rewrite Forall_forall in F1, F2.
    assert (E : a = b).
    { destruct (proj1 (H a) (or_introl eq_refl)) as [E|I]; [auto|]. destruct (proj2 (H b) (or_introl eq_refl)) as [E|I']; [auto|]. specialize (F2 a I). specialize (F1 b I'). lia. }
    subst b. f_equal. apply IH; [exact S1'|exact S2'|]. intros g. split; intros I.
    + destruct (proj1 (H g) (or_intror I)) as [E|E]; [|exact E]. subst g. specialize (F1 a I). lia.
    + destruct (proj2 (H g) (or_intror I)) as [E|E]; [|exact E]. subst g. specialize (F2 a I). lia.
Qed.
Lemma insz_In g l x : In x (insz g l) <-> x = g \/ In x l.
Proof.
  unfold insz. rewrite !in_app_iff, !filter_In. cbn. split; [intuition|]. intros [->|I]; [auto|]. destruct (Z.lt_trichotomy x g) as [L|[E|L]]; [left|right; left; left; auto|right; right]; (split; [exact I|lia]).
Qed.
Lemma insz_ss g l : StronglySorted Z.lt l -> StronglySorted Z.lt (insz g l).
Proof.
  intros S. unfold insz. apply ss_app; [apply ss_filter, S| |].
  - cbn [app]. constructor; [apply ss_filter, S|]. rewrite Forall_forall. intros x Hx. apply filter_In in Hx. lia.
  - intros a b Ha Hb. apply filter_In in Ha. destruct Hb as [<-|Hb]; [lia|]. apply filter_In in Hb. lia.
Qed.
Lemma insz_all ids : forall l, StronglySorted Z.lt l -> StronglySorted Z.lt (fold_left (fun l g => insz g l) ids l) /\ forall x, In x (fold_left (fun l g => insz g l) ids l) <-> In x ids \/ In x l.
Proof.
  induction ids as [|g ids IH]; intros l S; cbn [fold_left]; [split; [exact S|intros x; cbn; tauto]|]. destruct (IH (insz g l) (insz_ss g l S)) as [A B]. split; [exact A|].
  intros x. rewrite B, insz_In. cbn. intuition.
Qed.
Lemma erasez_all ids : forall l, StronglySorted Z.lt l -> StronglySorted Z.lt (fold_left (fun l g => erasez g l) ids l) /\ forall x, In x (fold_left (fun l g => erasez g l) ids l) <-> In x l /\ ~ In x ids.
Proof.
  induction ids as [|g ids IH]; intros l S; cbn [fold_left]; [split; [exact S|intros x; cbn; tauto]|]. destruct (IH (erasez g l) (ss_filter _ l S)) as [A B]. split; [exact A|].
  intros x. rewrite B. unfold erasez. rewrite filter_In. cbn [In]. destruct (Z.eqb_spec x g) as [->|N]; cbn [negb]; [intuition congruence|].
  assert (g <> x) by congruence. tauto.
Qed.
(** Local data: all flags 0 after SyncEdits_ *)
Definition zero_loc (l : list (Z * N)) : Prop := forall e, In e l -> snd e = 0%N.
Lemma inse_In e l g : In g (map fst (inse e l)) <-> g = fst e \/ In g (map fst l).
Proof.
  unfold inse. rewrite !map_app, !in_app_iff. cbn. split.
  - intros [I|[I|I]]; [right|left; intuition|right]; apply in_map_iff in I; destruct I as (x & <- & I); apply filter_In in I; apply in_map, I.
  - intros [->|I]; [auto|]. apply in_map_iff in I. destruct I as (x & <- & I). destruct (Z.lt_trichotomy (fst x) (fst e)) as [L|[E|L]].
    + left. apply in_map, filter_In. split; [exact I|lia].
    + right. left. left. auto.
    + right. right. apply in_map, filter_In. split; [exact I|lia].
Qed.
Lemma inse_zero g l : zero_loc l -> zero_loc (inse (g, 0%N) l).
Proof. intros Z e H. unfold inse in H. rewrite !in_app_iff, !filter_In in H. cbn in H. destruct H as [[H _]|[[<-|[]]|[H _]]]; [apply Z, H|reflexivity|apply Z, H]. Qed.
Lemma erasee_all ids : forall l, zero_loc l -> zero_loc (fold_left (fun l g => erasee g l) ids l) /\ forall g, In g (map fst (fold_left (fun l g => erasee g l) ids l)) <-> In g (map fst l) /\ ~ In g ids.
Proof.
  induction ids as [|i ids IH]; intros l Z; cbn [fold_left]; [split; [exact Z|intros x; cbn; tauto]|].
  destruct (IH (erasee i l)) as [A B]; [intros e He; unfold erasee in He; apply filter_In in He; apply Z, He|]. split; [exact A|]. intros g. rewrite B. cbn.
  assert (X : In g (map fst (erasee i l)) <-> In g (map fst l) /\ g <> i).
  { unfold erasee. rewrite !in_map_iff. split.
    - intros (x & <- & I). apply filter_In in I. destruct I as [I J]. split; [exists x; auto|]. destruct (Z.eqb_spec (fst x) i); [discriminate|assumption].
    - intros [(x & <- & I) J]. exists x. split; [reflexivity|]. apply filter_In. split; [exact I|]. destruct (Z.eqb_spec (fst x) i); [contradiction|reflexivity]. }
  rewrite X. intuition.
Qed.
Lemma inse_all c r ids : forall l, zero_loc l -> (forall g, In g ids -> exists b, here c g r = Some b) ->
  exists l', ofold (fun l g => let? b := here c g r in Some (if b : bool then inse (g, 0%N) l else l)) ids l = Some l' /\ zero_loc l' /\
    forall g, In g (map fst l') <-> In g (map fst l) \/ In g ids /\ here c g r = Some true.
Proof.
  induction ids as [|i ids IH]; intros l Z H; cbn [ofold]; [exists l; split; [reflexivity|]; split; [exact Z|]; intros g; cbn; tauto|].
  destruct (H i (or_introl eq_refl)) as [b Eb]. rewrite Eb. destruct (IH (if b then inse (i, 0%N) l else l)) as (l' & E & Z' & I).
  { destruct b; [apply inse_zero, Z|exact Z]. } { intros g Hg. apply H. right. exact Hg. }
  exists l'. split; [exact E|]. split; [exact Z'|]. intros g. rewrite I. destruct b; [rewrite inse_In|]; cbn [fst In].
  - split; [intros [[->|A]|[A B]]|intros [A|[[->|A] B]]]; tauto.
  - split; [tauto|]. intros [A|[[->|A] B]]; [tauto|congruence|tauto].
Qed.
