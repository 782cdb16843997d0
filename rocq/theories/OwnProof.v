(** Proofs about owners (C103). *)
From Coq Require Import List ZArith Bool Arith Lia Permutation.
From Verif Require Import FRefModel OwnModel OwnSpec.
Import ListNotations.

Lemma upd_same {A} (f : nat -> A) n v : upd f n v n = v.
Proof. unfold upd; now rewrite Nat.eqb_refl. Qed.
Lemma upd_other {A} (f : nat -> A) n m v : m <> n -> upd f n v m = f m.
Proof. unfold upd; destruct (Nat.eqb_spec m n); congruence. Qed.

Lemma owner_without_other l h k : k <> h -> owner (without l h) k = owner l k.
Proof.
  intros N; induction l as [|[i x] l IH]; cbn; auto.
  destruct (Nat.eqb_spec i h) as [->|].
  - destruct (Nat.eqb_spec h k); [congruence|auto].
  - cbn. destruct (Nat.eqb i k); auto.
Qed.

Definition keys (l : list (nat * option nat)) : list nat := map fst l.

Lemma owner_none l h : owner l h = None <-> ~ In h (keys l).
Proof.
  induction l as [|[i x] l IH]; cbn; [tauto|]. destruct (Nat.eqb_spec i h) as [->|].
  - split; [discriminate|tauto].
  - rewrite IH; intuition congruence.
Qed.

Lemma keys_without l h : forall k, In k (keys (without l h)) -> In k (keys l).
Proof.
  induction l as [|[i x] l IH]; cbn; [tauto|]. intros k; destruct (Nat.eqb_spec i h); cbn; [tauto|]. intuition.
Qed.

Lemma nodup_without l h : NoDup (keys l) -> NoDup (keys (without l h)) /\ ~ In h (keys (without l h)).
Proof.
  induction l as [|[i x] l IH]; cbn; intros N; [split; [constructor|tauto]|]. inversion N; subst.
  destruct (Nat.eqb_spec i h) as [->|D]; [auto|]. destruct (IH H2) as [A B]. cbn; split.
  - constructor; auto. intros K; apply keys_without in K; auto.
  - intros [K|K]; auto.
Qed.

Definition owns (l : list (nat * option nat)) : list nat := flat_map (fun p => opt_list (snd p)) l.

Lemma owns_without l h x t : owner l h = Some x ->
  count_occ Nat.eq_dec (owns l) t = count_occ Nat.eq_dec (opt_list x) t + count_occ Nat.eq_dec (owns (without l h)) t.
Proof.
  induction l as [|[i y] l IH]; cbn [owner without owns flat_map snd]; [discriminate|].
  destruct (Nat.eqb_spec i h) as [->|].
  - intros E; inversion E; subst. rewrite count_occ_app. reflexivity.
  - intros E; specialize (IH E). fold (owns l). cbn [owns flat_map snd]. fold (owns (without l h)).
    rewrite !count_occ_app, IH. lia.
Qed.

(** ** Accounting *)

Definition pinv (s : pst) : Prop :=
  NoDup (keys (p_vars s)) /\
  forall t, count_occ Nat.eq_dec (p_made s) t =
    count_occ Nat.eq_dec (p_ended s) t + count_occ Nat.eq_dec (p_freed s) t + count_occ Nat.eq_dec (owns (p_vars s)) t.

Lemma pinv0 : pinv pst0.
Proof. split; [constructor|reflexivity]. Qed.

Lemma keys_cons2 l (h g : nat) (x y : option nat) : h <> g -> ~ In h (keys l) -> ~ In g (keys l) -> NoDup (keys l) ->
  NoDup (keys ((h, x) :: (g, y) :: l)).
Proof. intros; cbn; repeat constructor; auto. intros [K|K]; auto. Qed.

Lemma pinv_step s o s' : pinv s -> pstep s o = Some s' -> pinv s'.
Proof.
  intros [N C] E. destruct o as [h|h t|h g|h g|h|h|h]; cbn [pstep] in E.
  - destruct (owner (p_vars s) h) eqn:Oh; inversion E; subst; split; cbn.
    + constructor; auto. now apply owner_none.
    + exact C.
  - destruct (owner (p_vars s) h) eqn:Oh; inversion E; subst; split; cbn [p_vars p_ended p_made p_freed].
    + constructor; auto. now apply owner_none.
    + intros u; specialize (C u). cbn [owns flat_map snd]. fold (owns (p_vars s)). rewrite !count_occ_app.
      cbn [opt_list]. lia.
  - destruct (owner (p_vars s) h) eqn:Oh; [discriminate|]. destruct (owner (p_vars s) g) as [x|] eqn:Og; inversion E; subst.
    assert (h <> g) by congruence. destruct (nodup_without (p_vars s) g N) as [A B].
    split; cbn [p_vars p_ended p_made p_freed].
    + apply keys_cons2; auto. intros K; apply keys_without in K. apply owner_none in Oh; auto.
    + intros u; specialize (C u). cbn [owns flat_map snd opt_list app]. fold (owns (without (p_vars s) g)).
      rewrite count_occ_app. rewrite (owns_without _ g x u Og) in C. lia.
  - destruct (Nat.eqb_spec h g); [discriminate|].
    destruct (owner (p_vars s) h) as [y|] eqn:Oh; [|discriminate].
    destruct (owner (p_vars s) g) as [x|] eqn:Og; inversion E; subst.
    destruct (nodup_without (p_vars s) h N) as [A B]. destruct (nodup_without (without (p_vars s) h) g A) as [A' B'].
    split; cbn [p_vars p_ended p_made p_freed].
    + apply keys_cons2; auto. intros K; apply keys_without in K; auto.
    + intros u; specialize (C u). cbn [owns flat_map snd opt_list app]. fold (owns (without (without (p_vars s) h) g)).
      rewrite !count_occ_app. rewrite (owns_without _ h y u Oh) in C.
      rewrite (owns_without (without (p_vars s) h) g x u) in C by (rewrite owner_without_other; auto). lia.
  - destruct (owner (p_vars s) h) as [x|] eqn:Oh; inversion E; subst. destruct (nodup_without (p_vars s) h N) as [A B].
    split; cbn [p_vars p_ended p_made p_freed].
    + constructor; auto.
    + intros u; specialize (C u). cbn [owns flat_map snd opt_list app]. fold (owns (without (p_vars s) h)).
      rewrite count_occ_app. rewrite (owns_without _ h x u Oh) in C. lia.
  - destruct (owner (p_vars s) h) as [[t|]|] eqn:Oh; inversion E; subst. destruct (nodup_without (p_vars s) h N) as [A B].
    split; cbn [p_vars p_ended p_made p_freed].
    + constructor; auto.
    + intros u; specialize (C u). cbn [owns flat_map snd opt_list app]. fold (owns (without (p_vars s) h)).
      rewrite count_occ_app. rewrite (owns_without _ h (Some t) u Oh) in C. cbn [opt_list] in C. lia.
  - destruct (owner (p_vars s) h) as [x|] eqn:Oh; inversion E; subst. destruct (nodup_without (p_vars s) h N) as [A B].
    split; cbn [p_vars p_ended p_made p_freed]; auto.
    intros u; specialize (C u). rewrite count_occ_app. rewrite (owns_without _ h x u Oh) in C. lia.
Qed.

Lemma pinv_run s ops s' : pinv s -> prun s ops = Some s' -> pinv s'.
Proof.
  revert s; induction ops as [|o r IH]; intros s I E; cbn in E; [inversion E; subst; auto|].
  destruct (pstep s o) as [s1|] eqn:S; [|discriminate]. eapply IH; [eapply pinv_step; eauto|auto].
Qed.

Lemma accounts s : pinv s -> Permutation (p_made s) (p_ended s ++ p_freed s ++ owned s).
Proof.
  intros [_ C]. apply (Permutation_count_occ Nat.eq_dec). intros t. rewrite C, !count_occ_app. unfold owned. fold (owns (p_vars s)). lia.
Qed.

(** ** The classes do what the specification says *)

Section Refine.
Context {O : Type}.
Variable rel : O -> option nat -> Prop.   (* what an object owns *)

Definition vars_agree (s : pst) (w : wst O) : Prop :=
  forall h, match owner (p_vars s) h, w_obj w h with
            | None, None => True
            | Some x, Some o => rel o x
            | _, _ => False
            end.

Lemma agree_some s w h x : vars_agree s w -> owner (p_vars s) h = Some x -> exists o, w_obj w h = Some o /\ rel o x.
Proof. intros A E; specialize (A h). rewrite E in A. destruct (w_obj w h); [eauto|contradiction]. Qed.
Lemma agree_none s w h : vars_agree s w -> owner (p_vars s) h = None -> w_obj w h = None.
Proof. intros A E; specialize (A h). rewrite E in A. destruct (w_obj w h); [contradiction|auto]. Qed.

Lemma agree_push s w h x o e m f L : vars_agree s w -> rel o x ->
  vars_agree (mkP ((h, x) :: p_vars s) e m f) (mkW (upd (w_obj w) h (Some o)) L).
Proof.
  intros A R k. cbn [p_vars owner w_obj]. unfold upd. destruct (Nat.eqb_spec h k) as [->|].
  - now rewrite Nat.eqb_refl.
  - destruct (Nat.eqb_spec k h); [congruence|apply A].
Qed.
Lemma agree_set s w h x o e m f L : vars_agree s w -> rel o x ->
  vars_agree (mkP ((h, x) :: without (p_vars s) h) e m f) (mkW (upd (w_obj w) h (Some o)) L).
Proof.
  intros A R k. cbn [p_vars owner w_obj]. unfold upd. destruct (Nat.eqb_spec h k) as [->|].
  - now rewrite Nat.eqb_refl.
  - destruct (Nat.eqb_spec k h); [congruence|]. rewrite owner_without_other by auto. apply A.
Qed.
Lemma agree_out s w h e m f L : NoDup (keys (p_vars s)) -> vars_agree s w ->
  vars_agree (mkP (without (p_vars s) h) e m f) (mkW (upd (w_obj w) h None) L).
Proof.
  intros N A k. cbn [p_vars w_obj]. unfold upd. destruct (Nat.eqb_spec k h) as [->|].
  - destruct (nodup_without (p_vars s) h N) as [_ B]. apply owner_none in B. now rewrite B.
  - rewrite owner_without_other by auto. apply A.
Qed.
Lemma agree_two s w h g x o o' e m f L : h <> g -> vars_agree s w -> rel o x -> rel o' None ->
  vars_agree (mkP ((h, x) :: (g, None) :: without (without (p_vars s) h) g) e m f)
             (mkW (upd (upd (w_obj w) g (Some o')) h (Some o)) L).
Proof.
  intros N A R R' k. cbn [p_vars owner w_obj]. unfold upd. destruct (Nat.eqb_spec h k) as [->|].
  - now rewrite Nat.eqb_refl.
  - destruct (Nat.eqb_spec k h); [congruence|]. destruct (Nat.eqb_spec g k) as [->|].
    + now rewrite Nat.eqb_refl.
    + destruct (Nat.eqb_spec k g); [congruence|]. rewrite !owner_without_other by auto. apply A.
Qed.
Lemma agree_move s w h g x o o' e m f L : h <> g -> vars_agree s w -> rel o x -> rel o' None ->
  vars_agree (mkP ((h, x) :: (g, None) :: without (p_vars s) g) e m f)
             (mkW (upd (upd (w_obj w) g (Some o')) h (Some o)) L).
Proof.
  intros N A R R' k. cbn [p_vars owner w_obj]. unfold upd. destruct (Nat.eqb_spec h k) as [->|].
  - now rewrite Nat.eqb_refl.
  - destruct (Nat.eqb_spec k h); [congruence|]. destruct (Nat.eqb_spec g k) as [->|].
    + now rewrite Nat.eqb_refl.
    + destruct (Nat.eqb_spec k g); [congruence|]. rewrite !owner_without_other by auto. apply A.
Qed.

Variable step : wst O -> wop -> option (wst O).
Variable allowed : wop -> bool.
Variable gone : pst -> wop -> list nat.

Definition step_good : Prop := forall s w o s', NoDup (keys (p_vars s)) -> vars_agree s w -> allowed o = true ->
  pstep s o = Some s' -> exists w' l, step w o = Some w' /\ vars_agree s' w' /\ w_log w' = w_log w ++ l /\
    p_ended s' = p_ended s ++ l ++ gone s o.

Fixpoint all_gone (s : pst) (ops : list wop) : list nat :=
  match ops with
  | [] => []
  | o :: r => gone s o ++ match pstep s o with Some s' => all_gone s' r | None => [] end
  end.

Lemma run_good : step_good -> forall ops s w s', pinv s -> vars_agree s w -> forallb allowed ops = true -> prun s ops = Some s' ->
  exists w' l e, wrun step w ops = Some w' /\ vars_agree s' w' /\ w_log w' = w_log w ++ l /\ p_ended s' = p_ended s ++ e /\
    Permutation e (l ++ all_gone s ops) /\ (all_gone s ops = [] -> e = l).
Proof.
  intros G; induction ops as [|o r IH]; intros s w s' I A F E; cbn [prun forallb] in *.
  - inversion E; subst. exists w, [], []. rewrite !app_nil_r. cbn. repeat split; auto.
  - apply andb_true_iff in F; destruct F as [F1 F2]. destruct (pstep s o) as [s1|] eqn:P; [|discriminate].
    destruct (G s w o s1 (proj1 I) A F1 P) as (w1 & l1 & S1 & A1 & L1 & E1).
    destruct (IH s1 w1 s' (pinv_step _ _ _ I P) A1 F2 E) as (w' & l & e & S & A' & L & E' & Pm & Eq).
    exists w', (l1 ++ l), ((l1 ++ gone s o) ++ e). unfold wrun in *; cbn [fold_left]. rewrite S1.
    split; [exact S|]. split; [exact A'|]. split; [rewrite L, L1, app_assoc; auto|].
    split; [rewrite E', E1, !app_assoc; auto|]. cbn [all_gone]. rewrite P. split.
    + rewrite Pm. rewrite <- !app_assoc. apply Permutation_app_head.
      rewrite !app_assoc. apply Permutation_app_tail. apply Permutation_app_comm.
    + intros Z. apply app_eq_nil in Z; destruct Z as [Z1 Z2]. rewrite Z1, app_nil_r, (Eq Z2). auto.
Qed.
End Refine.

Definition none_gone (s : pst) (o : wop) : list nat := [].
Lemma none_all s ops : all_gone none_gone s ops = [].
Proof. revert s; induction ops as [|o r IH]; intros s; cbn; auto. destruct (pstep s o); auto. Qed.
Lemma lost_all s ops : all_gone overwritten s ops = lost s ops.
Proof. revert s; induction ops as [|o r IH]; intros s; cbn; auto. Qed.

Definition rel_pair (o : hobj) (x : option nat) : Prop := o = (x, x).
Definition rel_comm (o : mobj) (x : option nat) : Prop := o = (x, x).
Definition rel_guard (o : gobj) (x : option nat) : Prop :=
  match x with Some t => o = (t, false) | None => snd o = true end.
Definition rel_level (o : lobj) (x : option nat) : Prop := o = x.

Ltac done_with l := eexists; exists l; split; [reflexivity|]; split; [|split; [cbn; rewrite ?app_nil_r; reflexivity|
  cbn [p_ended none_gone overwritten]; rewrite ?app_nil_r; auto]].

Lemma handle_good : step_good rel_pair handle_step (fun _ => true) overwritten.
Proof.
  intros s w o s' N A _ P. destruct o as [h|h t|h g|h g|h|h|h]; cbn [pstep] in P; cbn [handle_step overwritten].
  - destruct (owner (p_vars s) h) eqn:Oh; inversion P; subst. unfold define. rewrite (agree_none _ _ _ _ A Oh).
    done_with (@nil nat). apply agree_push; auto; reflexivity.
  - destruct (owner (p_vars s) h) eqn:Oh; inversion P; subst. unfold define. rewrite (agree_none _ _ _ _ A Oh).
    done_with (@nil nat). apply agree_push; auto; reflexivity.
  - destruct (owner (p_vars s) h) eqn:Oh; [discriminate|]. destruct (owner (p_vars s) g) as [x|] eqn:Og; inversion P; subst.
    assert (D : h <> g) by congruence. destruct (agree_some _ _ _ _ _ A Og) as (ob & W & R). rewrite W. unfold define.
    cbn [wset w_obj]. rewrite upd_other by auto. rewrite (agree_none _ _ _ _ A Oh).
    done_with (@nil nat). apply agree_move; auto; reflexivity.
  - destruct (Nat.eqb_spec h g); [discriminate|]. destruct (owner (p_vars s) h) as [y|] eqn:Oh; [|discriminate].
    destruct (owner (p_vars s) g) as [x|] eqn:Og; inversion P; subst.
    destruct (agree_some _ _ _ _ _ A Oh) as (oh & Wh & Rh). destruct (agree_some _ _ _ _ _ A Og) as (og & Wg & Rg).
    rewrite Wh, Wg. done_with (@nil nat).
    + apply agree_two; auto; reflexivity.
  - destruct (owner (p_vars s) h) as [x|] eqn:Oh; inversion P; subst.
    destruct (agree_some _ _ _ _ _ A Oh) as (oh & Wh & Rh). red in Rh; subst oh. unfold handle_reset. rewrite Wh.
    destruct x as [t|].
    + done_with [t]. apply agree_set; auto; reflexivity.
    + done_with (@nil nat). destruct w as [wo wl].
      intros k. cbn [p_vars owner]. destruct (Nat.eqb_spec h k) as [<-|]; [cbn [w_obj] in *; rewrite Wh; reflexivity|].
      rewrite owner_without_other by auto. apply A.
  - destruct (owner (p_vars s) h) as [[t|]|] eqn:Oh; inversion P; subst.
    destruct (agree_some _ _ _ _ _ A Oh) as (oh & Wh & Rh). red in Rh; subst oh. rewrite Wh.
    done_with (@nil nat). apply agree_set; auto; reflexivity.
  - destruct (owner (p_vars s) h) as [x|] eqn:Oh; inversion P; subst.
    destruct (agree_some _ _ _ _ _ A Oh) as (oh & Wh & Rh). red in Rh; subst oh. unfold handle_reset. rewrite Wh.
    destruct x as [t|].
    + done_with [t]. intros k. pose proof (agree_out rel_pair s w h (p_ended s) (p_made s) (p_freed s) [] N A k) as B.
      cbn [p_vars w_obj wlog wset] in *. unfold upd in *. destruct (Nat.eqb k h); auto.
    + done_with (@nil nat). apply agree_out; auto.
Qed.

Lemma comm_good : step_good rel_comm comm_step (fun _ => true) none_gone.
Proof.
  intros s w o s' N A _ P. destruct o as [h|h t|h g|h g|h|h|h]; cbn [pstep] in P; cbn [comm_step].
  - destruct (owner (p_vars s) h) eqn:Oh; inversion P; subst. unfold define. rewrite (agree_none _ _ _ _ A Oh).
    done_with (@nil nat). apply agree_push; auto; reflexivity.
  - destruct (owner (p_vars s) h) eqn:Oh; inversion P; subst. unfold define. rewrite (agree_none _ _ _ _ A Oh).
    done_with (@nil nat). apply agree_push; auto; reflexivity.
  - destruct (owner (p_vars s) h) eqn:Oh; [discriminate|]. destruct (owner (p_vars s) g) as [x|] eqn:Og; inversion P; subst.
    assert (D : h <> g) by congruence. destruct (agree_some _ _ _ _ _ A Og) as (ob & W & R). rewrite W. unfold define.
    cbn [wset w_obj]. rewrite upd_other by auto. rewrite (agree_none _ _ _ _ A Oh).
    done_with (@nil nat). apply agree_move; auto; reflexivity.
  - destruct (Nat.eqb_spec h g); [discriminate|]. destruct (owner (p_vars s) h) as [y|] eqn:Oh; [|discriminate].
    destruct (owner (p_vars s) g) as [x|] eqn:Og; inversion P; subst.
    destruct (agree_some _ _ _ _ _ A Oh) as (oh & Wh & Rh). destruct (agree_some _ _ _ _ _ A Og) as (og & Wg & Rg).
    rewrite Wg. cbn [wset w_obj]. rewrite upd_other by auto. rewrite Wh. red in Rh; subst oh; cbn [fst].
    done_with (opt_list y). apply agree_two; auto; reflexivity.
  - destruct (owner (p_vars s) h) as [x|] eqn:Oh; inversion P; subst.
    destruct (agree_some _ _ _ _ _ A Oh) as (oh & Wh & Rh). red in Rh; subst oh. rewrite Wh; cbn [fst].
    done_with (opt_list x). apply agree_set; auto; reflexivity.
  - destruct (owner (p_vars s) h) as [[t|]|] eqn:Oh; inversion P; subst.
    destruct (agree_some _ _ _ _ _ A Oh) as (oh & Wh & Rh). red in Rh; subst oh. rewrite Wh.
    done_with (@nil nat). apply agree_set; auto; reflexivity.
  - destruct (owner (p_vars s) h) as [x|] eqn:Oh; inversion P; subst.
    destruct (agree_some _ _ _ _ _ A Oh) as (oh & Wh & Rh). red in Rh; subst oh. rewrite Wh; cbn [fst].
    done_with (opt_list x). apply agree_out; auto.
Qed.

Lemma guard_end_rel o x : rel_guard o x -> guard_end o = opt_list x.
Proof. unfold rel_guard, guard_end; destruct x; [intros ->; reflexivity|intros ->; reflexivity]. Qed.

Lemma agree_swap s w h g x o o' e m f L : h <> g -> vars_agree rel_guard s w -> rel_guard o x -> rel_guard o' None ->
  vars_agree rel_guard (mkP ((h, x) :: (g, None) :: without (without (p_vars s) h) g) e m f)
             (mkW (upd (upd (w_obj w) h (Some o)) g (Some o')) L).
Proof.
  intros N A R R' k. pose proof (agree_two rel_guard s w h g x o o' e m f L N A R R' k) as B.
  cbn [p_vars w_obj] in *. unfold upd in *.
  destruct (Nat.eqb_spec k g), (Nat.eqb_spec k h); subst; auto; congruence.
Qed.

Lemma guard_good : step_good rel_guard guard_step guard_op none_gone.
Proof.
  intros s w o s' N A Al P. destruct o as [h|h t|h g|h g|h|h|h]; cbn [pstep] in P; cbn [guard_step guard_op] in *; try discriminate.
  - destruct (owner (p_vars s) h) eqn:Oh; inversion P; subst. unfold define. rewrite (agree_none _ _ _ _ A Oh).
    done_with (@nil nat). apply agree_push; auto; reflexivity.
  - destruct (owner (p_vars s) h) eqn:Oh; [discriminate|]. destruct (owner (p_vars s) g) as [x|] eqn:Og; inversion P; subst.
    assert (D : h <> g) by congruence. destruct (agree_some _ _ _ _ _ A Og) as (ob & W & R). rewrite W. unfold define.
    cbn [wset w_obj]. rewrite upd_other by auto. rewrite (agree_none _ _ _ _ A Oh).
    done_with (@nil nat). apply agree_move; auto; reflexivity.
  - destruct (Nat.eqb_spec h g); [discriminate|]. destruct (owner (p_vars s) h) as [y|] eqn:Oh; [|discriminate].
    destruct (owner (p_vars s) g) as [x|] eqn:Og; inversion P; subst.
    destruct (agree_some _ _ _ _ _ A Oh) as (oh & Wh & Rh). destruct (agree_some _ _ _ _ _ A Og) as (og & Wg & Rg).
    rewrite Wh, Wg, (guard_end_rel _ _ Rh). done_with (opt_list y). apply agree_swap; auto; reflexivity.
  - destruct (owner (p_vars s) h) as [[t|]|] eqn:Oh; inversion P; subst.
    destruct (agree_some _ _ _ _ _ A Oh) as (oh & Wh & Rh). rewrite Wh.
    done_with (@nil nat). apply agree_set; auto; reflexivity.
  - destruct (owner (p_vars s) h) as [x|] eqn:Oh; inversion P; subst.
    destruct (agree_some _ _ _ _ _ A Oh) as (oh & Wh & Rh). rewrite Wh, (guard_end_rel _ _ Rh).
    done_with (opt_list x). apply agree_out; auto.
Qed.

Lemma level_good : step_good rel_level level_step level_op none_gone.
Proof.
  intros s w o s' N A Al P. destruct o as [h|h t|h g|h g|h|h|h]; cbn [pstep] in P; cbn [level_step level_op] in *; try discriminate.
  - destruct (owner (p_vars s) h) eqn:Oh; inversion P; subst. unfold define. rewrite (agree_none _ _ _ _ A Oh).
    done_with (@nil nat). apply agree_push; auto; reflexivity.
  - destruct (owner (p_vars s) h) eqn:Oh; inversion P; subst. unfold define. rewrite (agree_none _ _ _ _ A Oh).
    done_with (@nil nat). apply agree_push; auto; reflexivity.
  - destruct (owner (p_vars s) h) eqn:Oh; [discriminate|]. destruct (owner (p_vars s) g) as [x|] eqn:Og; inversion P; subst.
    assert (D : h <> g) by congruence. destruct (agree_some _ _ _ _ _ A Og) as (ob & W & R). rewrite W. unfold define.
    cbn [wset w_obj]. rewrite upd_other by auto. rewrite (agree_none _ _ _ _ A Oh).
    done_with (@nil nat). apply agree_move; auto; reflexivity.
  - destruct (Nat.eqb_spec h g); [discriminate|]. destruct (owner (p_vars s) h) as [y|] eqn:Oh; [|discriminate].
    destruct (owner (p_vars s) g) as [x|] eqn:Og; inversion P; subst.
    destruct (agree_some _ _ _ _ _ A Oh) as (oh & Wh & Rh). destruct (agree_some _ _ _ _ _ A Og) as (og & Wg & Rg).
    rewrite Wg. cbn [wset w_obj]. rewrite upd_other by auto. rewrite Wh. red in Rh; subst oh.
    done_with (opt_list y). apply agree_two; auto; reflexivity.
  - destruct (owner (p_vars s) h) as [x|] eqn:Oh; inversion P; subst.
    destruct (agree_some _ _ _ _ _ A Oh) as (oh & Wh & Rh). red in Rh; subst oh. rewrite Wh.
    done_with (opt_list x). apply agree_set; auto; reflexivity.
  - destruct (owner (p_vars s) h) as [x|] eqn:Oh; inversion P; subst.
    destruct (agree_some _ _ _ _ _ A Oh) as (oh & Wh & Rh). red in Rh; subst oh. rewrite Wh.
    done_with (opt_list x). apply agree_out; auto.
Qed.

Lemma agree00 {O} (rel : O -> option nat -> Prop) : vars_agree rel pst0 wst0.
Proof. intros h; cbn; auto. Qed.

Lemma all_allowed ops : forallb (fun _ : wop => true) ops = true.
Proof. induction ops; cbn; auto. Qed.

Lemma comm_exact : forall ops a, prun pst0 ops = Some a ->
  exists w, wrun comm_step wst0 ops = Some w /\ w_log w = p_ended a /\
    Permutation (p_made a) (w_log w ++ p_freed a ++ owned a) /\
    forall h x, owner (p_vars a) h = Some x -> w_obj w h = Some (x, x).
Proof.
  intros ops a P. destruct (run_good _ _ _ _ comm_good ops pst0 wst0 a pinv0 (agree00 _) (all_allowed _) P)
    as (w & l & e & W & A & L & E & _ & Eq).
  rewrite none_all in Eq. specialize (Eq eq_refl); subst e. cbn in L, E. exists w. split; [exact W|].
  split; [congruence|]. split; [rewrite L, <- E; apply accounts, (pinv_run _ _ _ pinv0 P)|].
  intros h x O. destruct (agree_some _ _ _ _ _ A O) as (o & Wo & R). now rewrite Wo, R.
Qed.

Lemma guard_exact : forall ops a, forallb guard_op ops = true -> prun pst0 ops = Some a ->
  exists w, wrun guard_step wst0 ops = Some w /\ w_log w = p_ended a /\
    Permutation (p_made a) (w_log w ++ p_freed a ++ owned a).
Proof.
  intros ops a F P. destruct (run_good _ _ _ _ guard_good ops pst0 wst0 a pinv0 (agree00 _) F P)
    as (w & l & e & W & A & L & E & _ & Eq).
  rewrite none_all in Eq. specialize (Eq eq_refl); subst e. cbn in L, E. exists w. split; [exact W|].
  split; [congruence|]. rewrite L, <- E; apply accounts, (pinv_run _ _ _ pinv0 P).
Qed.

Lemma handle_leaks : forall ops a, prun pst0 ops = Some a ->
  exists w, wrun handle_step wst0 ops = Some w /\
    Permutation (p_ended a) (w_log w ++ lost pst0 ops) /\ (lost pst0 ops = [] -> w_log w = p_ended a) /\
    Permutation (p_made a) (w_log w ++ lost pst0 ops ++ p_freed a ++ owned a).
Proof.
  intros ops a P. destruct (run_good _ _ _ _ handle_good ops pst0 wst0 a pinv0 (agree00 _) (all_allowed _) P)
    as (w & l & e & W & A & L & E & Pm & Eq).
  rewrite lost_all in *. cbn in L, E. exists w. split; [exact W|]. rewrite L, E.
  split; [exact Pm|]. split; [intros Z; rewrite (Eq Z); auto|].
  rewrite (accounts _ (pinv_run _ _ _ pinv0 P)), E. rewrite (app_assoc l). now apply Permutation_app_tail.
Qed.

Lemma handle_refuted : exists ops a w t, prun pst0 ops = Some a /\ wrun handle_step wst0 ops = Some w /\
  p_vars a = [] /\ In t (p_made a) /\ ~ In t (p_freed a) /\ In t (p_ended a) /\ ~ In t (w_log w).
Proof.
  exists [WMake 0 5; WMake 1 6; WMoveAssign 0 1; WDestroy 1; WDestroy 0]. eexists _, _, 5.
  split; [vm_compute; reflexivity|]. split; [vm_compute; reflexivity|]. split; [reflexivity|].
  cbn. intuition lia.
Qed.

(** ** Levels *)

Lemma total_app amt l l' : total amt (l ++ l') = (total amt l + total amt l')%Z.
Proof. unfold total; induction l; cbn; [lia|]. rewrite IHl; lia. Qed.
Lemma total_perm amt l l' : Permutation l l' -> total amt l = total amt l'.
Proof. unfold total; induction 1; cbn in *; lia. Qed.

Definition made_by (o : wop) : list nat := match o with WMake _ t => [t] | _ => [] end.
Lemma pstep_made s o s' : pstep s o = Some s' -> p_made s' = p_made s ++ made_by o.
Proof.
  destruct o as [h|h t|h g|h g|h|h|h]; cbn [pstep made_by]; try destruct (Nat.eqb h g); try discriminate;
  repeat match goal with |- context[match ?x with _ => _ end] => destruct x end; try discriminate;
  intros E; inversion E; subst; cbn; rewrite ?app_nil_r; auto.
Qed.
Lemma pstep_freed s o s' : level_op o = true -> pstep s o = Some s' -> p_freed s' = p_freed s.
Proof.
  destruct o as [h|h t|h g|h g|h|h|h]; cbn [pstep level_op]; try destruct (Nat.eqb h g); try discriminate;
  repeat match goal with |- context[match ?x with _ => _ end] => destruct x end; try discriminate;
  intros _ E; inversion E; subst; auto.
Qed.

Lemma level_run_good amt : forall ops s w s' n, pinv s -> vars_agree rel_level s w -> forallb level_op ops = true ->
  w_log w = p_ended s -> prun s ops = Some s' ->
  exists w', level_run amt w n ops = Some (w', n + (total amt (p_made s') - total amt (p_made s))
                - (total amt (p_ended s') - total amt (p_ended s)))%Z /\ p_freed s' = p_freed s /\ w_log w' = p_ended s'.
Proof.
  induction ops as [|o r IH]; intros s w s' n I A F Lg P; cbn [prun forallb level_run] in *.
  - inversion P; subst. exists w. repeat split; auto. do 2 f_equal. lia.
  - apply andb_true_iff in F; destruct F as [F1 F2]. destruct (pstep s o) as [s1|] eqn:S; [|discriminate].
    destruct (level_good s w o s1 (proj1 I) A F1 S) as (w1 & l & W & A1 & L & E).
    unfold none_gone in E. rewrite app_nil_r in E. rewrite W.
    assert (Lg1 : w_log w1 = p_ended s1) by congruence.
    destruct (IH s1 w1 s' (n + level_change amt o - fold_right Z.add 0%Z (map amt (skipn (length (w_log w)) (w_log w1))))%Z
                (pinv_step _ _ _ I S) A1 F2 Lg1 P) as (w' & R & Fr & Lg').
    exists w'. split; [|split; [rewrite Fr; eapply pstep_freed; eauto|auto]].
    rewrite R. f_equal; f_equal.
    rewrite L. rewrite skipn_app, skipn_all, Nat.sub_diag. cbn [skipn app]. fold (total amt l).
    rewrite E, total_app, (pstep_made _ _ _ S), total_app.
    replace (total amt (made_by o)) with (level_change amt o) by (destruct o; cbn; lia). lia.
Qed.

Lemma level_exact : forall amt ops a n, forallb level_op ops = true -> prun pst0 ops = Some a ->
  exists w, level_run amt wst0 n ops = Some (w, n + total amt (owned a))%Z.
Proof.
  intros amt ops a n F P. destruct (level_run_good amt ops pst0 wst0 a n pinv0 (agree00 _) F eq_refl P) as (w & R & Fr & _).
  exists w. rewrite R. do 2 f_equal.
  rewrite (total_perm amt _ _ (accounts _ (pinv_run _ _ _ pinv0 P))), !total_app, Fr. cbn. lia.
Qed.

Lemma once (l m r : list nat) : Permutation m (l ++ r) -> NoDup m -> NoDup l.
Proof.
  intros P N. apply (Permutation_NoDup P) in N. clear P. induction l as [|t l IH]; constructor.
  - inversion N; subst. intros I; apply H1, in_or_app; auto.
  - inversion N; auto.
Qed.

Lemma comm_all : forall ops a, prun pst0 ops = Some a -> p_vars a = [] -> p_freed a = [] ->
  exists w, wrun comm_step wst0 ops = Some w /\ Permutation (p_made a) (w_log w) /\ (NoDup (p_made a) -> NoDup (w_log w)).
Proof.
  intros ops a P V F. destruct (comm_exact _ _ P) as (w & W & _ & A & _). exists w. split; auto.
  unfold owned in A. rewrite V, F in A. cbn in A. rewrite app_nil_r in A. split; auto.
  intros N; eapply Permutation_NoDup; eauto.
Qed.
