(** Lemmas about OptModel. *)
From Coq Require Import List ZArith Bool Arith Lia Permutation.
From Verif Require Import FRefModel FRefProof OptModel OptSpec Assoc.
Import ListNotations.
Local Open Scope nat_scope.

Definition og : Type := option (nat * option nat).
Definition ospec (v : og) : option (option nat) := option_map snd v.
Definition oids (v : og) : list nat := match v with Some (i, _) => [i] | None => [] end.
Definition isS (v : og) : bool := match v with Some _ => true | None => false end.

Definition cellrel (v : option og) (c : option cell) : Prop :=
  match v, c with
  | None, None => True
  | Some (Some x), Some (p, c) => p = true /\ c = Some x
  | Some None, Some (p, _) => p = false
  | _, _ => False
  end.
Definition cells (hs : nat -> option cell) (g : list (nat * og)) : Prop := forall h, cellrel (aget g h) (hs h).

Record orel (s : ost) (t : pst) (g : list (nat * og)) (lk : list nat) : Prop := {
  or_spec : p_h t = map (fun p => (fst p, ospec (snd p))) g;
  or_cell : cells (o_h s) g;
  or_nd : akeys_nd g;
  or_obj : Permutation (seq 0 (o_next s)) (o_dead s ++ contents oids g ++ lk);
  or_out : o_out s = p_out t }.

Lemma ospec_get s t g lk h : orel s t g lk -> aget (p_h t) h = option_map ospec (aget g h).
Proof. intros R. rewrite (or_spec _ _ _ _ R). apply aget_map. Qed.

Lemma cell_none hs g h : cells hs g -> aget g h = None -> hs h = None.
Proof. intros C E. specialize (C h). rewrite E in C. cbn in C. destruct (hs h); [contradiction|reflexivity]. Qed.
Lemma cell_some hs g h v : cells hs g -> aget g h = Some v ->
  exists c, hs h = Some (isS v, c) /\ (forall x, v = Some x -> c = Some x).
Proof.
  intros C E. specialize (C h). rewrite E in C. cbn in C.
  destruct v as [x|]; cbn in *; destruct (hs h) as [[p c]|]; try contradiction.
  - destruct C as [-> ->]. exists (Some x). split; [reflexivity|]. congruence.
  - subst p. exists c. split; [reflexivity|]. discriminate.
Qed.

Lemma seq_next n : seq 0 (S n) = seq 0 n ++ [n].
Proof. replace (S n) with (n + 1) by lia. rewrite seq_app. reflexivity. Qed.

Ltac eqbs := repeat (rewrite Nat.eqb_refl in * || match goal with
  | |- context[Nat.eqb ?a ?b] =>
      let E := fresh "E" in destruct (Nat.eqb_spec a b) as [E|E]; [try subst a|]; try congruence
  end).

(** Multiset reasoning: both sides as counts. *)
Lemma perm_count (a b : list nat) : (forall x, count_occ Nat.eq_dec a x = count_occ Nat.eq_dec b x) -> Permutation a b.
Proof. intros H. apply (Permutation_count_occ Nat.eq_dec). exact H. Qed.
Lemma count_perm (a b : list nat) : Permutation a b -> forall x, count_occ Nat.eq_dec a x = count_occ Nat.eq_dec b x.
Proof. intros H. apply (Permutation_count_occ Nat.eq_dec). exact H. Qed.

Local Notation cn x l := (count_occ Nat.eq_dec l x).

Lemma cn_nil x : cn x [] = 0.
Proof. reflexivity. Qed.
Lemma cn_cons x y l : cn x (y :: l) = cn x [y] + cn x l.
Proof. cbn. destruct (Nat.eq_dec y x); reflexivity. Qed.

Lemma cn_put g h v w x : akeys_nd g -> aget g h = Some w ->
  cn x (oids w) + cn x (contents oids (aput g h v)) = cn x (oids v) + cn x (contents oids g).
Proof.
  intros K E. rewrite <- !count_occ_app. apply count_perm. exact (contents_aput oids g h v w K E).
Qed.
Lemma cn_drop g h w x : akeys_nd g -> aget g h = Some w ->
  cn x (contents oids g) = cn x (oids w) + cn x (contents oids (adrop g h)).
Proof. intros K E. rewrite <- !count_occ_app. apply count_perm. exact (contents_adrop oids g h w K E). Qed.
Lemma cn_new g h v x : cn x (contents oids ((h, v) :: g)) = cn x (oids v) + cn x (contents oids g).
Proof. unfold contents. cbn [flat_map snd]. rewrite count_occ_app. reflexivity. Qed.

Local Opaque seq.
Local Arguments count_occ : simpl never.

Ltac cnt := apply perm_count; let x := fresh "x" in intros x; cbn [oids app];
  repeat rewrite seq_next;
  repeat match goal with
  | H : Permutation (seq 0 ?n) _ |- _ => apply count_perm with (x := x) in H
  end;
  repeat (rewrite count_occ_app in * || rewrite cn_new in *);
  repeat match goal with
  | |- _ => rewrite count_occ_app
  | |- _ => rewrite cn_new
  | |- context[cn x (?a :: ?b :: ?l)] => rewrite (cn_cons x a (b :: l))
  | |- context[cn x (?a :: ?l)] => lazymatch l with [] => fail | _ => rewrite (cn_cons x a l) end
  end; cbn [oids]; rewrite ?cn_nil.

Definition leak (o : oop) (t : pst) : nat :=
  match o with
  | OpMoveAssign h g => match aget (p_h t) g with Some (Some _) => 1 | _ => 0 end
  | _ => 0 end.

Lemma destroy_if_ok s g h v : cells (o_h s) g -> aget g h = Some v ->
  exists s', destroy_if s h = Some s' /\ (forall x, x <> h -> o_h s' x = o_h s x) /\
  (exists c, o_h s' h = Some (isS v, c)) /\
  o_next s' = o_next s /\ o_dead s' = oids v ++ o_dead s /\ o_out s' = o_out s.
Proof.
  intros C E. destruct (cell_some _ _ _ _ C E) as (c & Hc & Hx). unfold destroy_if, present. rewrite Hc. cbn.
  destruct v as [[i w]|]; cbn.
  - unfold destroy. rewrite Hc. rewrite (Hx (i, w) eq_refl). eexists. split; [reflexivity|].
    cbn. split; [intros x N; apply upd_other, N|]. split; [|auto]. rewrite upd_same. eauto.
  - exists s. repeat split; auto. exists c. exact Hc.
Qed.

Lemma cells_ext hs hs' g : cells hs g -> (forall x, hs' x = hs x) -> cells hs' g.
Proof. intros C E x. rewrite E. apply C. Qed.

Lemma cells_put hs hs' g h v c : cells hs g -> aget g h <> None ->
  (forall x, x <> h -> hs' x = hs x) -> hs' h = Some c -> cellrel (Some v) (Some c) -> cells hs' (aput g h v).
Proof.
  intros C N E Eh R x. rewrite aget_aput. destruct (Nat.eqb_spec x h) as [Ex|Nx].
  - subst x. rewrite Eh. destruct (aget g h); [exact R|congruence].
  - rewrite E by exact Nx. apply C.
Qed.
Lemma cells_new hs hs' g h v c : cells hs g ->
  (forall x, x <> h -> hs' x = hs x) -> hs' h = Some c -> cellrel (Some v) (Some c) -> cells hs' ((h, v) :: g).
Proof.
  intros C E Eh R x. cbn. destruct (Nat.eqb_spec h x) as [Ex|Nx].
  - subst x. rewrite Eh. exact R.
  - rewrite E by auto. apply C.
Qed.
Lemma cells_drop hs hs' g h : cells hs g -> (forall x, x <> h -> hs' x = hs x) -> hs' h = None ->
  cells hs' (adrop g h).
Proof.
  intros C E Eh x. rewrite aget_adrop. destruct (Nat.eqb_spec x h) as [Ex|Nx].
  - subst x. rewrite Eh. exact Logic.I.
  - rewrite E by exact Nx. apply C.
Qed.

(** The common part of the assignments that make one value. *)
Lemma assign_value_ok s t g lk h w v : orel s t g lk -> aget g h = Some w ->
  exists s' i, assign_value s h v = Some s' /\
  orel s' (mkP (aput (p_h t) h (Some v)) (p_out t)) (aput g h (Some (i, v))) lk.
Proof.
  intros R E. pose proof (or_nd _ _ _ _ R) as K.
  unfold assign_value, temp_begin.
  destruct (destroy_if_ok (mkO (o_h s) (S (o_next s)) (o_dead s) (o_out s)) g h w (or_cell _ _ _ _ R) E)
    as (s1 & -> & Ho & (c & Hc) & Hn & Hd & Hu). cbn [bind].
  unfold create. rewrite Hc. cbn [bind]. unfold set_present. cbn [o_h]. rewrite upd_same. cbn [bind].
  eexists _, (o_next s1). split; [reflexivity|].
  constructor; cbn [o_h o_next o_dead o_out set_cell temp_end p_h p_out].
  - rewrite (or_spec _ _ _ _ R). rewrite <- aput_map. reflexivity.
  - eapply cells_put; [exact (or_cell _ _ _ _ R)|congruence| |apply upd_same|].
    + intros x N. rewrite !upd_other by exact N. apply Ho, N.
    + split; reflexivity.
  - apply akeys_aput, K.
  - rewrite Hn, Hd. cbn [o_next o_dead]. pose proof (or_obj _ _ _ _ R) as P. cnt.
    pose proof (cn_put g h (Some (S (o_next s), v)) w x K E) as Q. cbn [oids] in Q. lia.
  - rewrite Hu. apply (or_out _ _ _ _ R).
Qed.

Lemma get_ok s t g lk h i v : orel s t g lk -> aget g h = Some (Some (i, v)) ->
  o_h s h = Some (true, Some (i, v)).
Proof.
  intros R E. destruct (cell_some _ _ _ _ (or_cell _ _ _ _ R) E) as (c & -> & Hx).
  rewrite (Hx _ eq_refl). reflexivity.
Qed.
Lemma absent_ok s t g lk h : orel s t g lk -> aget g h = Some None -> exists c, o_h s h = Some (false, c).
Proof. intros R E. destruct (cell_some _ _ _ _ (or_cell _ _ _ _ R) E) as (c & -> & _). eauto. Qed.

Lemma reset_ok s t g lk h w : orel s t g lk -> aget g h = Some w ->
  exists s', (do s1 <- destroy_if s h; set_present s1 h false) = Some s' /\
  orel s' (mkP (aput (p_h t) h None) (p_out t)) (aput g h None) lk.
Proof.
  intros R E. pose proof (or_nd _ _ _ _ R) as K.
  destruct (destroy_if_ok s g h w (or_cell _ _ _ _ R) E) as (s1 & -> & Ho & (c & Hc) & Hn & Hd & Hu).
  cbn [bind]. unfold set_present. rewrite Hc. eexists. split; [reflexivity|].
  constructor; cbn [o_h o_next o_dead o_out set_cell p_h p_out].
  - rewrite (or_spec _ _ _ _ R). rewrite <- aput_map. reflexivity.
  - eapply cells_put; [exact (or_cell _ _ _ _ R)|congruence| |apply upd_same|reflexivity].
    intros x N. rewrite upd_other by exact N. apply Ho, N.
  - apply akeys_aput, K.
  - rewrite Hn, Hd. pose proof (or_obj _ _ _ _ R) as P. cnt.
    pose proof (cn_put g h None w x K E) as Q. cbn [oids] in Q. rewrite ?cn_nil in *. lia.
  - rewrite Hu. apply (or_out _ _ _ _ R).
Qed.

Lemma ostep_ok s t g lk o t' : orel s t g lk -> not_self o -> pstep t o = Some t' ->
  exists s' g' lk', ostep s o = Some s' /\ orel s' t' g' lk' /\ length lk' = length lk + leak o t.
Proof.
  intros R NS H. pose proof (or_nd _ _ _ _ R) as K. pose proof (or_spec _ _ _ _ R) as HS.
  pose proof (or_cell _ _ _ _ R) as HC. pose proof (or_obj _ _ _ _ R) as P. pose proof (or_out _ _ _ _ R) as HO.
  destruct o as [h|h v|h g0|h g0|h g0|h g0|h v|h g0|h g0|h|h|h|h]; cbn [pstep ostep not_self leak] in *;
    cbv zeta in H; pose proof (fun h => ospec_get _ _ _ _ h R) as HG; rewrite ?HG in H; rewrite ?HG.
  - (* OpNew *)
    destruct (aget g h) as [w|] eqn:E; [discriminate|]. cbn [option_map] in H. injection H as <-. rewrite (cell_none _ _ _ HC E).
    eexists _, ((h, None) :: g), lk. split; [reflexivity|]. split; [|lia].
    constructor; cbn [o_h o_next o_dead o_out set_cell p_h p_out]; try assumption.
    + rewrite HS. reflexivity.
    + eapply cells_new; [exact HC|intros x N; apply upd_other, N|apply upd_same|reflexivity].
    + apply akeys_cons; assumption.
  - (* OpVal *)
    destruct (aget g h) as [w|] eqn:E; [discriminate|]. cbn [option_map] in H. injection H as <-. rewrite (cell_none _ _ _ HC E).
    unfold create. cbn [set_cell o_h]. rewrite upd_same.
    eexists _, ((h, Some (o_next s, Some v)) :: g), lk. split; [reflexivity|]. split; [|lia].
    constructor; cbn [o_h o_next o_dead o_out set_cell p_h p_out]; try assumption.
    + rewrite HS. reflexivity.
    + eapply cells_new; [exact HC| |apply upd_same|split; reflexivity].
      intros x N. rewrite !upd_other by exact N. reflexivity.
    + apply akeys_cons; assumption.
    + cnt. lia.
  - (* OpCopyNew *)
    destruct (aget g g0) as [w|] eqn:Eg; [|discriminate]. cbn [option_map] in H.
    destruct (aget g h) as [w'|] eqn:E; [discriminate|]. cbn [option_map] in H. injection H as <-. rewrite (cell_none _ _ _ HC E).
    assert (N : g0 <> h) by congruence.
    unfold present. destruct w as [[i v]|].
    + rewrite (get_ok _ _ _ _ _ _ _ R Eg). cbn [option_map fst bind]. unfold get, create. cbn [set_cell o_h].
      rewrite upd_same, (upd_other _ h _ g0 N), (get_ok _ _ _ _ _ _ _ R Eg). cbn [bind].
      eexists _, ((h, Some (o_next s, v)) :: g), lk. split; [reflexivity|]. split; [|lia].
      constructor; cbn [o_h o_next o_dead o_out set_cell p_h p_out]; try assumption.
      * rewrite HS. reflexivity.
      * eapply cells_new; [exact HC| |apply upd_same|split; reflexivity].
        intros x Nx. rewrite !upd_other by exact Nx. reflexivity.
      * apply akeys_cons; assumption.
      * cnt. lia.
    + destruct (absent_ok _ _ _ _ _ R Eg) as (c & ->). cbn [option_map fst bind].
      eexists _, ((h, None) :: g), lk. split; [reflexivity|]. split; [|lia].
      constructor; cbn [o_h o_next o_dead o_out set_cell p_h p_out]; try assumption.
      * rewrite HS. reflexivity.
      * eapply cells_new; [exact HC|intros x Nx; apply upd_other, Nx|apply upd_same|reflexivity].
      * apply akeys_cons; assumption.
  - (* OpMoveNew *)
    destruct (aget g h) as [w'|] eqn:E; [discriminate|].
    destruct (aget g g0) as [w|] eqn:Eg; [|discriminate]. cbn [option_map] in H. injection H as <-. rewrite (cell_none _ _ _ HC E).
    assert (N : g0 <> h) by congruence.
    assert (Ka : akeys_nd (aput g g0 None)) by (apply akeys_aput, K).
    assert (Eh : aget (aput g g0 None) h = None).
    { rewrite aget_aput. destruct (Nat.eqb_spec h g0); [congruence|exact E]. }
    unfold present. destruct w as [[i v]|].
    + rewrite (get_ok _ _ _ _ _ _ _ R Eg). cbn [option_map fst bind]. unfold take. cbn [set_cell o_h].
      rewrite (upd_other _ h _ g0 N), (get_ok _ _ _ _ _ _ _ R Eg). cbn [bind set_cell o_h o_next o_dead o_out].
      unfold create. cbn [set_cell o_h o_next o_dead o_out]. rewrite (upd_other _ g0 _ h) by auto. rewrite upd_same. cbn [bind].
      unfold destroy. cbn [set_cell o_h o_next o_dead o_out]. rewrite (upd_other _ h _ g0 N), upd_same. cbn [bind].
      unfold set_present. cbn [set_cell o_h o_next o_dead o_out]. rewrite upd_same.
      eexists _, ((h, Some (o_next s, v)) :: aput g g0 None), lk. split; [reflexivity|]. split; [|lia].
      constructor; cbn [o_h o_next o_dead o_out set_cell p_h p_out]; try assumption.
      * rewrite HS. cbn. rewrite <- aput_map. reflexivity.
      * apply cells_new with (hs := upd (o_h s) g0 (Some (false, None))) (c := (true, Some (o_next s, v))); [| | |split; reflexivity].
        -- eapply cells_put; [exact HC|congruence|intros x Nx; apply upd_other, Nx|apply upd_same|reflexivity].
        -- intros x Nx. unfold upd. destruct (Nat.eqb_spec x g0); [reflexivity|].
           destruct (Nat.eqb_spec x h); [congruence|reflexivity].
        -- rewrite !upd_other by auto. apply upd_same.
      * apply akeys_cons; assumption.
      * cnt. pose proof (cn_put g g0 None _ x K Eg) as Q. cbn [oids] in Q. rewrite ?cn_nil in *. lia.
    + destruct (absent_ok _ _ _ _ _ R Eg) as (c & Hc). rewrite Hc. cbn [option_map fst bind].
      unfold set_present. cbn [o_h set_cell o_next o_dead o_out]. rewrite (upd_other _ h _ g0 N), Hc.
      eexists _, ((h, None) :: aput g g0 None), lk. split; [reflexivity|]. split; [|lia].
      constructor; cbn [o_h o_next o_dead o_out set_cell p_h p_out]; try assumption.
      * rewrite HS. cbn. rewrite <- aput_map. reflexivity.
      * apply cells_new with (hs := upd (o_h s) g0 (Some (false, c))) (c := (false, None)); [| | |reflexivity].
        -- eapply cells_put; [exact HC|congruence|intros x Nx; apply upd_other, Nx|apply upd_same|reflexivity].
        -- intros x Nx. unfold upd. destruct (Nat.eqb_spec x g0); [reflexivity|].
           destruct (Nat.eqb_spec x h); [congruence|reflexivity].
        -- rewrite upd_other by auto. apply upd_same.
      * apply akeys_cons; assumption.
      * cnt. pose proof (cn_put g g0 None _ x K Eg) as Q. cbn [oids] in Q. rewrite ?cn_nil in *. lia.
  - (* OpCopyAssign *)
    destruct (aget g g0) as [w|] eqn:Eg; [|discriminate]. cbn [option_map] in H.
    destruct (aget g h) as [w'|] eqn:E; [|discriminate]. cbn [option_map] in H. injection H as <-.
    destruct (cell_some _ _ _ _ HC E) as (c & Hc & _). rewrite Hc.
    destruct (Nat.eqb_spec h g0) as [E0|N].
    + subst g0. assert (w' = w) by congruence. subst w'. exists s, g, lk. split; [reflexivity|]. split; [|lia].
      replace (mkP (aput (p_h t) h (ospec w)) (p_out t)) with t; [exact R|]. destruct t as [ph po]. cbn [p_h p_out] in *. f_equal.
      rewrite HS. rewrite aput_map. f_equal. clear -K E. unfold akeys_nd in K.
      induction g as [|[k y] g IH]; cbn in *; [reflexivity|]. inversion K as [|? ? Nk K']; subst.
      destruct (Nat.eqb_spec k h) as [->|]; cbn.
      * injection E as ->. f_equal. symmetry. apply aput_absent, aget_None, Nk.
      * f_equal. apply IH; assumption.
    + unfold present. destruct w as [[i v]|].
      * rewrite (get_ok _ _ _ _ _ _ _ R Eg). cbn [option_map fst bind]. unfold get.
        rewrite (get_ok _ _ _ _ _ _ _ R Eg). cbn [bind].
        destruct (assign_value_ok s t g lk h w' v R E) as (s' & j & A & R').
        unfold assign_value, temp_begin in A. unfold temp_begin.
        destruct (destroy_if (mkO (o_h s) (S (o_next s)) (o_dead s) (o_out s)) h) as [s2|]; cbn [bind] in *; [|discriminate].
        destruct (create s2 h v) as [s3|]; cbn [bind] in *; [|discriminate].
        unfold set_present in *. cbn [temp_end o_h] in *. destruct (o_h s3 h) as [[p0 c0]|]; cbn [bind] in *; [|discriminate].
        injection A as <-. eexists _, _, lk. split; [reflexivity|]. split; [|lia]. exact R'.
      * destruct (absent_ok _ _ _ _ _ R Eg) as (c' & ->). cbn [option_map fst bind].
        destruct (reset_ok s t g lk h w' R E) as (s' & A & R'). exists s', (aput g h None), lk.
        split; [exact A|]. split; [exact R'|lia].
  - (* OpMoveAssign *)
    destruct (aget g h) as [w'|] eqn:E; [|discriminate].
    destruct (aget g g0) as [w|] eqn:Eg; [|discriminate]. cbn [option_map] in H. injection H as <-. assert (N : g0 <> h) by auto.
    destruct (destroy_if_ok s g h w' HC E) as (s1 & -> & Ho & (c & Hc) & Hn & Hd & Hu). cbn [bind].
    unfold present. rewrite (Ho g0 N).
    assert (Ka : akeys_nd (aput g g0 None)) by (apply akeys_aput, K).
    assert (Eh : aget (aput g g0 None) h = Some w').
    { rewrite aget_aput. destruct (Nat.eqb_spec h g0); [congruence|exact E]. }
    destruct w as [[i v]|].
    + rewrite (get_ok _ _ _ _ _ _ _ R Eg). cbn [option_map fst bind]. unfold take. rewrite (Ho g0 N).
      rewrite (get_ok _ _ _ _ _ _ _ R Eg). cbn [bind]. unfold create. cbn [set_cell o_h o_next o_dead o_out].
      rewrite (upd_other _ g0 _ h) by auto. rewrite Hc. cbn [bind]. unfold set_present. cbn [set_cell o_h o_next o_dead o_out].
      rewrite upd_same. cbn [bind set_cell o_h o_next o_dead o_out]. rewrite !(upd_other _ h _ g0 N), upd_same.
      eexists _, (aput (aput g g0 None) h (Some (o_next s1, v))), (i :: lk). split; [reflexivity|].
      split; [|cbn; lia]. constructor; cbn [o_h o_next o_dead o_out set_cell p_h p_out].
      * rewrite HS, <- !aput_map. reflexivity.
      * apply cells_put with (hs := upd (o_h s) g0 (Some (false, Some (i, None)))) (c := (true, Some (o_next s1, v))); [|congruence| | |split; reflexivity].
        -- eapply cells_put; [exact HC|congruence|intros x Nx; apply upd_other, Nx|apply upd_same|reflexivity].
        -- intros x Nx. unfold upd. destruct (Nat.eqb_spec x g0); [reflexivity|].
           destruct (Nat.eqb_spec x h); [congruence|]. apply Ho, Nx.
        -- rewrite upd_other by auto. rewrite upd_same. reflexivity.
      * apply akeys_aput, Ka.
      * rewrite Hn, Hd. cnt. pose proof (cn_put g g0 None _ x K Eg) as Q.
        pose proof (cn_put _ h (Some (o_next s, v)) _ x Ka Eh) as Q'. cbn [oids] in Q, Q'. rewrite ?cn_nil in *. lia.
      * rewrite Hu. exact HO.
    + destruct (absent_ok _ _ _ _ _ R Eg) as (c' & Hc'). rewrite Hc'. cbn [option_map fst bind].
      unfold set_present. rewrite Hc. cbn [bind set_cell o_h o_next o_dead o_out].
      rewrite (upd_other _ h _ g0 N), (Ho g0 N), Hc'.
      eexists _, (aput (aput g g0 None) h None), lk. split; [reflexivity|].
      split; [|cbn; lia]. constructor; cbn [o_h o_next o_dead o_out set_cell p_h p_out].
      * rewrite HS, <- !aput_map. reflexivity.
      * apply cells_put with (hs := upd (o_h s) g0 (Some (false, c'))) (c := (false, c)); [|congruence| | |].
        -- eapply cells_put; [exact HC|congruence|intros x Nx; apply upd_other, Nx|apply upd_same|reflexivity].
        -- intros x Nx. unfold upd. destruct (Nat.eqb_spec x g0); [reflexivity|].
           destruct (Nat.eqb_spec x h); [congruence|]. apply Ho, Nx.
        -- rewrite upd_other by auto. rewrite upd_same. reflexivity.
        -- reflexivity.
      * apply akeys_aput, Ka.
      * rewrite Hn, Hd. cnt. pose proof (cn_put g g0 None _ x K Eg) as Q.
        pose proof (cn_put _ h None _ x Ka Eh) as Q'. cbn [oids] in Q, Q'. rewrite ?cn_nil in *. lia.
      * rewrite Hu. exact HO.
  - (* OpAssign *)
    destruct (aget g h) as [w'|] eqn:E; [|discriminate]. cbn [option_map] in H. injection H as <-.
    destruct (assign_value_ok s t g lk h w' (Some v) R E) as (s' & j & A & R').
    eexists _, _, lk. split; [exact A|]. split; [exact R'|lia].
  - (* OpAssignCopyOf *)
    destruct (aget g g0) as [[[i v]|]|] eqn:Eg; cbn in H; try discriminate.
    destruct (aget g h) as [w'|] eqn:E; [|discriminate]. cbn [option_map] in H. injection H as <-.
    unfold get, present. rewrite (get_ok _ _ _ _ _ _ _ R Eg). cbn [option_map bind fst].
    destruct (assign_value_ok s t g lk h w' v R E) as (s' & j & A & R').
    eexists _, _, lk. split; [exact A|]. split; [exact R'|lia].
  - (* OpAssignMoveOf *)
    destruct (aget g h) as [w'|] eqn:E; [|discriminate].
    destruct (aget g g0) as [[[i v]|]|] eqn:Eg; cbn in H; try discriminate.
    cbn [option_map] in H. injection H as <-. assert (N : g0 <> h) by auto.
    unfold present. rewrite (get_ok _ _ _ _ _ _ _ R Eg). cbn [option_map bind fst].
    destruct (destroy_if_ok s g h w' HC E) as (s1 & -> & Ho & (c & Hc) & Hn & Hd & Hu). cbn [bind].
    unfold take. rewrite (Ho g0 N), (get_ok _ _ _ _ _ _ _ R Eg). cbn [bind].
    unfold create. cbn [set_cell o_h o_next o_dead o_out]. rewrite (upd_other _ g0 _ h) by auto. rewrite Hc. cbn [bind].
    unfold set_present. cbn [set_cell o_h o_next o_dead o_out]. rewrite upd_same.
    assert (Ka : akeys_nd (aput g g0 (Some (i, None)))) by (apply akeys_aput, K).
    assert (Eh : aget (aput g g0 (Some (i, None))) h = Some w').
    { rewrite aget_aput. destruct (Nat.eqb_spec h g0); [congruence|exact E]. }
    eexists _, (aput (aput g g0 (Some (i, None))) h (Some (o_next s1, v))), lk. split; [reflexivity|].
    split; [|lia]. constructor; cbn [o_h o_next o_dead o_out set_cell p_h p_out].
    * rewrite HS, <- !aput_map. reflexivity.
    * eapply cells_put with (hs := upd (o_h s) g0 (Some (true, Some (i, None)))); [|congruence| |apply upd_same|split; reflexivity].
      -- eapply cells_put; [exact HC|congruence|intros x Nx; apply upd_other, Nx|apply upd_same|split; reflexivity].
      -- intros x Nx. unfold upd. destruct (Nat.eqb_spec x h); [congruence|].
         destruct (Nat.eqb_spec x g0); [reflexivity|]. apply Ho, Nx.
    * apply akeys_aput, Ka.
    * rewrite Hn, Hd. cnt. pose proof (cn_put g g0 (Some (i, None)) _ x K Eg) as Q.
      pose proof (cn_put _ h (Some (o_next s, v)) _ x Ka Eh) as Q'. cbn [oids] in Q, Q'. lia.
    * rewrite Hu. exact HO.
  - (* OpGet *)
    destruct (aget g h) as [[[i v]|]|] eqn:E; cbn in H; try discriminate. cbn [option_map] in H. injection H as <-.
    unfold present, get. rewrite (get_ok _ _ _ _ _ _ _ R E). cbn [option_map bind fst].
    eexists _, g, lk. split; [reflexivity|]. split; [|lia].
    constructor; cbn [o_h o_next o_dead o_out set_cell p_h p_out]; try assumption. rewrite HO. reflexivity.
  - (* OpRelease *)
    destruct (aget g h) as [[[i v]|]|] eqn:E; cbn in H; try discriminate. cbn [option_map] in H. injection H as <-.
    unfold present. rewrite (get_ok _ _ _ _ _ _ _ R E). cbn [option_map bind fst temp_begin].
    unfold take. cbn [o_h]. rewrite (get_ok _ _ _ _ _ _ _ R E). cbn [bind]. unfold destroy. cbn [set_cell o_h o_next o_dead o_out].
    rewrite upd_same. cbn [bind]. unfold set_present. cbn [set_cell o_h o_next o_dead o_out]. rewrite upd_same.
    cbn [bind set_cell o_h o_next o_dead o_out temp_end].
    eexists _, (aput g h None), lk. split; [reflexivity|]. split; [|lia].
    constructor; cbn [o_h o_next o_dead o_out set_cell p_h p_out]; try assumption.
    + rewrite HS, <- aput_map. reflexivity.
    + eapply cells_put; [exact HC|congruence| |apply upd_same|reflexivity].
      intros x N. rewrite !upd_other by exact N. reflexivity.
    + apply akeys_aput, K.
    + cnt. pose proof (cn_put g h None _ x K E) as Q. cbn [oids] in Q. rewrite ?cn_nil in *. lia.
    + rewrite HO. reflexivity.
  - (* OpReset *)
    destruct (aget g h) as [w'|] eqn:E; [|discriminate]. cbn [option_map] in H. injection H as <-.
    destruct (reset_ok s t g lk h w' R E) as (s' & A & R'). eexists _, _, lk. split; [exact A|]. split; [exact R'|lia].
  - (* OpDestroy *)
    destruct (aget g h) as [w'|] eqn:E; [|discriminate]. cbn [option_map] in H. injection H as <-.
    destruct (destroy_if_ok s g h w' HC E) as (s1 & -> & Ho & (c & Hc) & Hn & Hd & Hu). cbn [bind]. rewrite Hc.
    eexists _, (adrop g h), lk. split; [reflexivity|]. split; [|lia].
    constructor; cbn [o_h o_next o_dead o_out set_cell p_h p_out].
    + rewrite HS, <- adrop_map. reflexivity.
    + eapply cells_drop; [exact HC| |apply upd_same]. intros x N. rewrite upd_other by exact N. apply Ho, N.
    + apply akeys_adrop, K.
    + rewrite Hn, Hd. cnt. pose proof (cn_drop g h _ x K E) as Q. lia.
    + rewrite Hu. exact HO.
Qed.

Lemma orun_ok l : forall s t g lk t', orel s t g lk -> Forall not_self l -> prun t l = Some t' ->
  exists s' g' lk', orun s l = Some s' /\ orel s' t' g' lk' /\ length lk' = length lk + full_moves t l.
Proof.
  induction l as [|o l IH]; intros s t g lk t' R F H; cbn in *.
  - cbn [option_map] in H. injection H as <-. exists s, g, lk. split; [reflexivity|]. split; [exact R|lia].
  - inversion F as [|? ? Fo Fl]; subst. destruct (pstep t o) as [t1|] eqn:E; [|discriminate].
    destruct (ostep_ok _ _ _ _ _ _ R Fo E) as (s1 & g1 & lk1 & -> & R1 & L1). cbn [bind].
    destruct (IH _ _ _ _ _ R1 Fl H) as (s2 & g2 & lk2 & A & R2 & L2).
    exists s2, g2, lk2. split; [exact A|]. split; [exact R2|]. rewrite L2, L1. unfold leak. lia.
Qed.

Lemma orel0 : orel ost0 pst0 [] [].
Proof. constructor; cbn; auto; try constructor. Qed.

Lemma values_contents t g : p_h t = map (fun p => (fst p, ospec (snd p))) g ->
  values t = length (contents oids g).
Proof.
  unfold values. intros ->. induction g as [|[k [[i v]|]] g IH]; cbn; auto.
Qed.

Lemma optional_correct l t : Forall not_self l -> prun pst0 l = Some t ->
  exists s, orun ost0 l = Some s /\
  o_out s = p_out t /\
  (forall h, present s h = option_map (fun v => match v with Some _ => true | None => false end) (aget (p_h t) h)) /\
  NoDup (o_dead s) /\ (forall i, In i (o_dead s) -> i < o_next s) /\
  o_next s = length (o_dead s) + values t + full_moves pst0 l.
Proof.
  intros F H. destruct (orun_ok _ _ _ _ _ _ orel0 F H) as (s & g & lk & E & R & L). exists s.
  split; [exact E|]. split; [apply R|].
  pose proof (or_obj _ _ _ _ R) as P. split; [|split; [|split]].
  - intros h. rewrite (ospec_get _ _ _ _ h R). unfold present.
    pose proof (or_cell _ _ _ _ R h) as C. destruct (aget g h) as [[x|]|]; destruct (o_h s h) as [[p c]|]; cbn in *;
      try contradiction; try reflexivity.
    + destruct C as [-> _]. reflexivity.
    + subst p. reflexivity.
  - assert (D : NoDup (o_dead s ++ contents oids g ++ lk)).
    { refine (Permutation_NoDup P _). apply seq_NoDup. }
    clear -D. induction (o_dead s) as [|a l IH]; [constructor|]. inversion D as [|? ? Na D']; subst.
    constructor; [|apply IH, D']. intros Hi. apply Na. apply in_or_app. auto.
  - intros i Hi. assert (In i (seq 0 (o_next s))) as Hs.
    { rewrite P. apply in_or_app. auto. }
    apply in_seq in Hs. lia.
  - apply Permutation_length in P. rewrite seq_length, !app_length in P.
    rewrite (values_contents t g (or_spec _ _ _ _ R)). cbn in L. lia.
Qed.
