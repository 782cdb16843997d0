(** Proofs about C requests. *)
From Coq Require Import List Bool Arith Lia Permutation.
From Verif Require Import ReqModel ReqSpec ReqProof CrqModel CrqSpec.
Import ListNotations.

Definition same_ids (s s' : rst) : Prop := forall n r', slots s' n = Some r' ->
  exists r, slots s n = Some r /\ rq_id r' = rq_id r.

Lemma same_ids_trans a b c : same_ids a b -> same_ids b c -> same_ids a c.
Proof.
  intros H1 H2 n r' H. destruct (H2 n r' H) as (r & A & B). destruct (H1 n r A) as (q & C & D).
  exists q. split; [exact C|congruence].
Qed.

Lemma weq_ids s s' : weq s s' -> same_ids s s'.
Proof. intros Q n r' H. rewrite (q_slots _ _ Q) in H. eauto. Qed.

Lemma evolves_ids s s' : evolves s s' -> same_ids s s'.
Proof.
  induction 1 as [s s' [Q _]|s s1 s2 n r j h M _ IH|s s1 s2 n r M _ IH].
  - apply weq_ids, Q.
  - eapply same_ids_trans; [|exact IH]. intros m r' H. rewrite (ms_slots _ _ _ _ _ _ M) in H.
    destruct (Nat.eqb_spec m n) as [->|Hm]; [|eauto]. injection H as <-. exists r.
    split; [apply M|reflexivity].
  - eapply same_ids_trans; [|exact IH]. intros m r' H. rewrite (fs_slots _ _ _ _ M) in H.
    destruct (Nat.eqb_spec m n) as [->|Hm]; [discriminate|eauto].
Qed.

Record CI (s : cst) (b : list (list bool)) : Prop := {
  ci_inv : inv [] (cs s);
  ci_starts : starts_match (cs s) b;
  ci_next : length b = cnext s;
  ci_id : forall a r, slots (cs s) a = Some r -> rq_id r = a;
  ci_alive : forall a, calive s a = true <-> slots (cs s) a <> None;
  ci_var : forall v a, cvar s v = Some a -> calive s a = true;
  ci_inj : forall v v' a, cvar s v = Some a -> cvar s v' = Some a -> v = v' }.

Lemma CI_ops s b : CI s b -> length (ops (cs s)) = cnext s.
Proof.
  intros I. rewrite <- (ci_next _ _ I). pose proof (ci_starts _ _ I) as H. unfold starts_match in H.
  clear I. induction H as [|x y l l' _ _ IH]; cbn; [reflexivity|rewrite IH; reflexivity].
Qed.

Lemma CI_lt s b a : CI s b -> slots (cs s) a <> None -> a < cnext s.
Proof.
  intros I H. destruct (slots (cs s) a) as [r|] eqn:E; [|contradiction].
  destruct (i_op _ _ (ci_inv _ _ I) a r E) as (x & l & A & _).
  rewrite (ci_id _ _ I a r E) in A. rewrite <- (CI_ops s b I). apply nth_error_Some. congruence.
Qed.

Lemma CI0 : CI cst0 [].
Proof.
  split; cbn; try discriminate; try reflexivity.
  - exact inv0.
  - constructor.
  - intros a. split; [discriminate|intros H; contradiction].
Qed.

Lemma CI_send s b v bs : CI s b -> CI (c_send v bs s) (b ++ [bs]).
Proof.
  intros I. set (a := cnext s).
  assert (Ha : slots (cs s) a = None).
  { destruct (slots (cs s) a) eqn:E; [|reflexivity]. exfalso.
    assert (a < cnext s) by (apply (CI_lt s b a I); congruence). unfold a in *. lia. }
  split; cbn.
  - apply inv_construct; [exact Ha|apply I].
  - apply starts_construct, I.
  - rewrite app_length. cbn. rewrite (ci_next _ _ I). lia.
  - intros x r. unfold construct, start. cbn. fold a. destruct (Nat.eqb_spec x a) as [->|Hx].
    + intros [= <-]. cbn. rewrite (CI_ops s b I). reflexivity.
    + apply (ci_id _ _ I).
  - intros x. unfold construct, start. cbn. fold a. destruct (Nat.eqb_spec x a) as [->|Hx].
    + split; [discriminate|reflexivity].
    + apply (ci_alive _ _ I).
  - intros w x. fold a. destruct (Nat.eqb_spec w v) as [->|Hw].
    + intros [= <-]. rewrite Nat.eqb_refl. reflexivity.
    + intros H. destruct (Nat.eqb_spec x a); [reflexivity|]. apply (ci_var _ _ I w x H).
  - assert (N : forall w, cvar s w <> Some a).
    { intros w H. apply (ci_var _ _ I) in H. apply (ci_alive _ _ I) in H. contradiction. }
    intros w w' x. fold a. destruct (Nat.eqb_spec w v), (Nat.eqb_spec w' v); subst; intros H H'.
    + reflexivity.
    + injection H as <-. destruct (N _ H').
    + injection H' as <-. destruct (N _ H).
    + apply (ci_inj _ _ I w w' x H H').
Qed.

(** A call that completes and deletes exactly the objects of the variables [W]. *)
Record call (W : nat -> Prop) (s s' : cst) : Prop := {
  ca_inv : inv [] (cs s');
  ca_ops : ops (cs s') = ops (cs s);
  ca_ids : same_ids (cs s) (cs s');
  ca_done : forall v a, W v -> cvar s v = Some a -> slots (cs s') a = None;
  ca_rest : forall a, slots (cs s) a <> None -> (forall v, W v -> cvar s v <> Some a) ->
    slots (cs s') a <> None;
  ca_next : cnext s' = cnext s;
  ca_null : forall v, W v -> cvar s' v = None;
  ca_vars : forall v, ~ W v -> cvar s' v = cvar s v;
  ca_dec : forall v, W v \/ ~ W v;
  ca_alive : forall a, calive s' a = true <->
    calive s a = true /\ forall v, W v -> cvar s v <> Some a }.

Lemma CI_call W s s' b : CI s b -> call W s s' -> CI s' b.
Proof.
  intros I C.
  assert (P : forall v a, cvar s' v = Some a -> ~ W v /\ cvar s v = Some a).
  { intros v a H. destruct (ca_dec _ _ _ C v) as [w|w].
    - rewrite (ca_null _ _ _ C v w) in H. discriminate.
    - rewrite (ca_vars _ _ _ C v w) in H. auto. }
  split.
  - apply C.
  - unfold starts_match. rewrite (ca_ops _ _ _ C). apply I.
  - rewrite (ca_next _ _ _ C). apply I.
  - intros a r' H. destruct (ca_ids _ _ _ C a r' H) as (r & A & B). rewrite B.
    apply (ci_id _ _ I a r A).
  - intros a. rewrite (ca_alive _ _ _ C). split.
    + intros [A N]. apply (ca_rest _ _ _ C); [|exact N]. apply (ci_alive _ _ I), A.
    + intros H. split.
      * apply (ci_alive _ _ I). destruct (slots (cs s') a) as [r'|] eqn:E; [|contradiction].
        destruct (ca_ids _ _ _ C a r' E) as (r & A & _). congruence.
      * intros v w Hv. apply H, (ca_done _ _ _ C v a w Hv).
  - intros v a H. destruct (P v a H) as [w Hv]. apply (ca_alive _ _ _ C). split.
    + apply (ci_var _ _ I v a Hv).
    + intros v' w' Hv'. rewrite (ci_inj _ _ I v v' a Hv Hv') in w. contradiction.
  - intros v v' a H H'. destruct (P v a H) as [_ A], (P v' a H') as [_ B].
    apply (ci_inj _ _ I v v' a A B).
Qed.

Lemma wait_idle sched a s : slots s a = None -> wait sched a s = Some s.
Proof. intros H. unfold wait. rewrite H. reflexivity. Qed.

Lemma delete_idle sched a s : calive s a = true -> slots (cs s) a = None ->
  c_delete sched (Some a) s = Some (mkCS (cs s) (cnext s)
    (fun x => if Nat.eqb x a then false else calive s x) (cvar s)).
Proof. intros H N. unfold c_delete. rewrite H, (wait_idle _ _ _ N). reflexivity. Qed.

Lemma wait_call sched v s b : CI s b ->
  exists s', c_wait sched v s = Some s' /\ call (fun w => w = v) s s'.
Proof.
  intros I. unfold c_wait. destruct (cvar s v) as [a|] eqn:Ev.
  - pose proof (ci_var _ _ I v a Ev) as Al. rewrite Al.
    destruct (wait_spec [] sched a (cs s) (ci_inv _ _ I)) as (r & E & V & Z & O). rewrite E.
    rewrite delete_idle by (cbn; assumption). eexists. split; [reflexivity|].
    set (s1 := match slots (cs s) a with Some r => emit (cs s) (EWaitStart (rq_id r))
               | None => cs s end) in V.
    assert (Q : weq (cs s) s1).
    { unfold s1. destruct (slots (cs s) a); [|apply weq_refl]. apply emit_weq. intros k; reflexivity. }
    split; cbn.
    + apply (inv_evolves [] _ _ V). apply (inv_weq [] _ _ Q), I.
    + rewrite (evolves_ops _ _ V). apply Q.
    + eapply same_ids_trans; [apply weq_ids, Q|apply evolves_ids, V].
    + intros w x -> H. congruence.
    + intros x H N. rewrite O; [exact H|]. intros ->. apply (N v eq_refl Ev).
    + reflexivity.
    + intros w ->. rewrite Nat.eqb_refl. reflexivity.
    + intros w Hw. destruct (Nat.eqb_spec w v); [contradiction|reflexivity].
    + intros w. destruct (Nat.eq_dec w v); auto.
    + intros x. destruct (Nat.eqb_spec x a) as [->|Hx]; split.
      * discriminate.
      * intros [_ N]. destruct (N v eq_refl Ev).
      * intros H. split; [exact H|]. intros w -> H'. congruence.
      * intros [H _]. exact H.
  - exists s. split; [reflexivity|]. split; auto.
    + apply I.
    + apply weq_ids, weq_refl.
    + intros w a -> H. congruence.
    + intros w ->. exact Ev.
    + intros w. destruct (Nat.eq_dec w v); auto.
    + intros a. split; [|tauto]. intros H. split; [exact H|]. intros w -> H'. congruence.
Qed.

Lemma all_alive_vars s b vs : CI s b -> all_alive s (map (cvar s) vs) = true.
Proof.
  intros I. unfold all_alive. apply forallb_forall. intros p Hp. apply in_map_iff in Hp.
  destruct Hp as (v & <- & _). destruct (cvar s v) eqn:E; [|reflexivity]. apply (ci_var _ _ I v n E).
Qed.

Lemma distinct_vars s b vs : CI s b -> NoDup vs -> distinct_ps (map (cvar s) vs).
Proof.
  intros I N i i' n H H'. rewrite nth_error_map in H, H'.
  destruct (nth_error vs i) as [v|] eqn:E; [|discriminate].
  destruct (nth_error vs i') as [v'|] eqn:E'; [|discriminate]. cbn in H, H'.
  injection H as H. injection H' as H'. pose proof (ci_inj _ _ I v v' n H H') as ->.
  apply (proj1 (NoDup_nth_error vs) N i i'); [|congruence]. apply nth_error_Some. congruence.
Qed.

Lemma delete_loop_spec sched vs : forall ps s, NoDup vs -> ps = map (cvar s) vs ->
  (forall v a, In v vs -> cvar s v = Some a -> calive s a = true /\ slots (cs s) a = None) ->
  (forall v v' a, cvar s v = Some a -> cvar s v' = Some a -> v = v') ->
  exists s', delete_loop sched vs ps s = Some s' /\ cs s' = cs s /\ cnext s' = cnext s /\
    (forall v, In v vs -> cvar s' v = None) /\ (forall v, ~ In v vs -> cvar s' v = cvar s v) /\
    (forall a, calive s' a = true <-> calive s a = true /\ forall v, In v vs -> cvar s v <> Some a).
Proof.
  induction vs as [|v vs IH]; intros ps s N -> H J; cbn [map delete_loop].
  - exists s. repeat split; auto; try tauto. intros v [].
  - inversion N as [|? ? Nv N']; subst.
    assert (D : exists s1, c_delete sched (cvar s v) s = Some s1 /\ cs s1 = cs s /\
      cnext s1 = cnext s /\ (forall w, cvar s1 w = cvar s w) /\
      (forall a, calive s1 a = true <-> calive s a = true /\ cvar s v <> Some a)).
    { destruct (cvar s v) as [a|] eqn:E.
      - destruct (H v a (or_introl eq_refl) E) as [A B]. rewrite (delete_idle _ _ _ A B).
        eexists. split; [reflexivity|]. cbn. repeat split; auto.
        + destruct (Nat.eqb a0 a); [discriminate|auto].
        + destruct (Nat.eqb_spec a0 a); congruence.
        + intros [X Y]. destruct (Nat.eqb_spec a0 a); congruence.
      - exists s. cbn. repeat split; auto; try congruence. tauto. }
    destruct D as (s1 & E & C1 & X1 & V1 & A1). rewrite E.
    assert (NV : forall w, In w vs -> (if Nat.eqb w v then None else cvar s1 w) = cvar s w).
    { intros w Hw. destruct (Nat.eqb_spec w v) as [->|]; [contradiction|apply V1]. }
    destruct (IH (map (cvar s) vs) (set_cvar s1 v None)) as (s2 & E2 & C2 & X2 & Z2 & O2 & A2); cbn.
    + exact N'.
    + apply map_ext_in. intros w Hw. symmetry. apply NV, Hw.
    + intros w a Hw. rewrite (NV w Hw), C1. intros Hc.
      destruct (H w a (or_intror Hw) Hc) as [P Q]. split; [|exact Q]. apply A1. split; [exact P|].
      intros Hv. rewrite (J w v a Hc Hv) in Hw. contradiction.
    + intros w w' a. rewrite !V1. destruct (Nat.eqb w v), (Nat.eqb w' v); try discriminate. apply J.
    + exists s2. split; [exact E2|]. cbn in *. split; [congruence|]. split; [congruence|].
      split; [|split].
      * intros w [<-|Hw]; [|apply Z2, Hw]. destruct (in_dec Nat.eq_dec v vs) as [i|i]; [contradiction|].
        rewrite (O2 v i), Nat.eqb_refl. reflexivity.
      * intros w Hw. rewrite O2 by tauto. destruct (Nat.eqb_spec w v) as [->|]; [tauto|apply V1].
      * intros a. rewrite A2, A1. split.
        -- intros [[P Q] R]. split; [exact P|]. intros w [<-|Hw]; [exact Q|].
           rewrite <- (NV w Hw). apply R, Hw.
        -- intros [P Q]. split; [split; [exact P|]|].
           ++ apply Q. left. reflexivity.
           ++ intros w Hw. rewrite (NV w Hw). apply Q. right. exact Hw.
Qed.

Lemma ps_In s vs i a : nth_error (map (cvar s) vs) i = Some (Some a) ->
  exists v, nth_error vs i = Some v /\ In v vs /\ cvar s v = Some a.
Proof.
  rewrite nth_error_map. destruct (nth_error vs i) as [v|] eqn:E; [|discriminate]. cbn.
  intros [= H]. exists v. split; [reflexivity|]. split; [eapply nth_error_In; eauto|exact H].
Qed.

Lemma In_ps s vs v a : In v vs -> cvar s v = Some a ->
  exists i, nth_error (map (cvar s) vs) i = Some (Some a).
Proof.
  intros H E. destruct (In_nth_error _ _ H) as [i Hi]. exists i. rewrite nth_error_map, Hi. cbn. congruence.
Qed.

Lemma wait_all_call sched vs s b : CI s b -> NoDup vs ->
  exists s', c_wait_all sched vs s = Some s' /\ call (fun w => In w vs) s s'.
Proof.
  intros I N. unfold c_wait_all. rewrite (all_alive_vars s b vs I).
  destruct (wait_all_spec [] sched (map (cvar s) vs) (cs s) (ci_inv _ _ I) (distinct_vars s b vs I N))
    as (r & E & V & Z & O). rewrite E.
  assert (Q : weq (cs s) (emit_all EWaitStart (map (cvar s) vs) (cs s)))
    by (apply emit_all_weq; intros k k'; reflexivity).
  destruct (delete_loop_spec sched vs (map (cvar s) vs) (set_cs s r) N eq_refl)
    as (s' & E' & C' & X' & Z' & O' & A'); cbn.
  - intros v a Hv Hc. split; [apply (ci_var _ _ I v a Hc)|].
    destruct (In_ps s vs v a Hv Hc) as [i Hi]. apply (Z i a Hi).
  - apply (ci_inj _ _ I).
  - cbn in *. exists s'. split; [exact E'|]. split; auto.
    + rewrite C'. apply (inv_evolves [] _ _ V). apply (inv_weq [] _ _ Q), I.
    + rewrite C', (evolves_ops _ _ V). apply Q.
    + rewrite C'. eapply same_ids_trans; [apply weq_ids, Q|apply evolves_ids, V].
    + intros v a Hv Hc. rewrite C'. destruct (In_ps s vs v a Hv Hc) as [i Hi]. apply (Z i a Hi).
    + intros a H Hn. rewrite C', O; [exact H|]. intros i Hi.
      destruct (ps_In s vs i a Hi) as (v & _ & A & B). apply (Hn v A B).
    + intros v. destruct (in_dec Nat.eq_dec v vs); auto.
Qed.

Lemma wait_any_call sched vs s b : CI s b -> NoDup vs ->
  exists s' res, c_wait_any sched vs s = Some (s', res) /\
  match res with
  | None => (forall v, In v vs -> cvar s v = None) /\ call (fun _ => False) s s'
  | Some i => exists v, nth_error vs i = Some v /\ cvar s v <> None /\ call (fun w => w = v) s s'
  end.
Proof.
  intros I N. unfold c_wait_any. rewrite (all_alive_vars s b vs I).
  destruct (wait_any_spec [] sched (map (cvar s) vs) (cs s) (ci_inv _ _ I) (distinct_vars s b vs I N))
    as (r & res & E & V & O & R). rewrite E.
  assert (Q : weq (cs s) (emit_all EWaitStart (map (cvar s) vs) (cs s)))
    by (apply emit_all_weq; intros k k'; reflexivity).
  assert (P1 : inv [] r) by (apply (inv_evolves [] _ _ V), (inv_weq [] _ _ Q), I).
  assert (P2 : ops r = ops (cs s)) by (rewrite (evolves_ops _ _ V); apply Q).
  assert (P3 : same_ids (cs s) r)
    by (eapply same_ids_trans; [apply weq_ids, Q|apply evolves_ids, V]).
  destruct res as [i|].
  - destruct R as (a & q & Hi & Hs & Hz & Hr). rewrite Hi.
    destruct (ps_In s vs i a Hi) as (v & Ei & Iv & Ev). rewrite Ei.
    pose proof (ci_var _ _ I v a Ev) as Al. rewrite delete_idle by (cbn; assumption).
    eexists. exists (Some i). split; [reflexivity|]. exists v. split; [exact Ei|].
    split; [congruence|]. split; cbn; auto.
    + intros w x -> H. congruence.
    + intros x H Hn. apply Hr; [|exact H]. intros ->. apply (Hn v eq_refl Ev).
    + intros w ->. rewrite Nat.eqb_refl. reflexivity.
    + intros w Hw. destruct (Nat.eqb_spec w v); [contradiction|reflexivity].
    + intros w. destruct (Nat.eq_dec w v); auto.
    + intros x. destruct (Nat.eqb_spec x a) as [->|Hx]; split.
      * discriminate.
      * intros [_ M]. destruct (M v eq_refl Ev).
      * intros H. split; [exact H|]. intros w -> H'. congruence.
      * intros [H _]. exact H.
  - assert (Nu : forall v, In v vs -> cvar s v = None).
    { intros v Hv. destruct (cvar s v) as [a|] eqn:Ev; [|reflexivity]. exfalso.
      destruct (In_ps s vs v a Hv Ev) as [i Hi]. pose proof (R i a Hi) as Z.
      apply (ci_var _ _ I) in Ev. apply (ci_alive _ _ I) in Ev. contradiction. }
    exists (set_cs s r), None. split; [reflexivity|]. split; [exact Nu|].
    split; cbn; auto; try tauto.
    + intros a H _. rewrite O; [exact H|]. intros i Hi.
      destruct (ps_In s vs i a Hi) as (v & _ & A & B). rewrite (Nu v A) in B. discriminate.
Qed.

Lemma cstep_spec sched s b o : CI s b -> cop_ok o ->
  exists s', cstep sched s o = Some s' /\ CI s' (b ++ sends [o]).
Proof.
  intros I H. destruct o as [v bs|v|vs|vs]; cbn [cstep sends flat_map]; rewrite ?app_nil_r; cbn in H.
  - eexists. split; [reflexivity|]. apply CI_send, I.
  - destruct (wait_call sched v s b I) as (s' & E & C). exists s'. split; [exact E|].
    apply (CI_call _ _ _ _ I C).
  - destruct (wait_all_call sched vs s b I H) as (s' & E & C). exists s'. split; [exact E|].
    apply (CI_call _ _ _ _ I C).
  - destruct (wait_any_call sched vs s b I H) as (s' & res & E & R). exists s'. rewrite E.
    split; [reflexivity|]. destruct res.
    + destruct R as (v & _ & _ & C). apply (CI_call _ _ _ _ I C).
    + destruct R as (_ & C). apply (CI_call _ _ _ _ I C).
Qed.

Lemma crun_spec sched l : Forall cop_ok l -> forall s b, CI s b ->
  exists s', crun sched s l = Some s' /\ CI s' (b ++ sends l).
Proof.
  induction 1 as [|o l Ho _ IH]; intros s b I.
  - exists s. cbn. rewrite app_nil_r. auto.
  - destruct (cstep_spec sched s b o I Ho) as (s1 & E & I1).
    destruct (IH s1 _ I1) as (s2 & E2 & I2). exists s2. cbn [crun]. rewrite E. split; [exact E2|].
    rewrite <- app_assoc in I2. unfold sends in *. cbn [flat_map] in *. rewrite app_nil_r in I2.
    exact I2.
Qed.

Lemma CI_objects s b : CI s b -> forall k bs, nth_error b k = Some bs ->
  (calive s k = true /\ underway (cs s) k bs) \/ (calive s k = false /\ finished (cs s) k bs).
Proof.
  intros I k bs Hk. destruct (F2_nth _ _ _ (ci_starts _ _ I) k bs Hk) as (a & Ha & h & ->).
  destruct (slots (cs s) k) as [r|] eqn:E.
  - left. split; [apply (ci_alive _ _ I); congruence|].
    destruct (i_op _ _ (ci_inv _ _ I) k r E) as (a & ll & A & B & C & D).
    rewrite (ci_id _ _ I k r E) in A, C. assert (a = fresh_handles bs h) by congruence. subst a.
    exists ll, (nonnull (rq_mpi r)). rewrite fresh_nonnull in D. auto.
  - right. split.
    + destruct (calive s k) eqn:A; [|reflexivity]. apply (ci_alive _ _ I) in A. contradiction.
    + pose proof (i_done _ _ (ci_inv _ _ I) k _ Ha) as F. unfold afinished in F.
      rewrite fresh_nonnull in F. apply F; [|intros []].
      intros n (r & Hr & Er). rewrite (ci_id _ _ I n r Hr) in Er. congruence.
Qed.

Lemma client_correct sched l : Forall cop_ok l ->
  exists s, crun sched cst0 l = Some s /\
  (forall v a, cvar s v = Some a -> a < length (sends l) /\ calive s a = true) /\
  (forall v v' a, cvar s v = Some a -> cvar s v' = Some a -> v = v') /\
  forall k bs, nth_error (sends l) k = Some bs ->
    (calive s k = true /\ underway (cs s) k bs) \/ (calive s k = false /\ finished (cs s) k bs).
Proof.
  intros H. destruct (crun_spec sched l H cst0 [] CI0) as (s & E & I). cbn in I.
  exists s. split; [exact E|]. split; [|split].
  - intros v a Hv. pose proof (ci_var _ _ I v a Hv) as A. split; [|exact A].
    rewrite (ci_next _ _ I). apply (CI_lt s _ a I). apply (ci_alive _ _ I), A.
  - apply (ci_inj _ _ I).
  - apply (CI_objects s _ I).
Qed.

Lemma calls_correct sched l s : Forall cop_ok l -> crun sched cst0 l = Some s ->
  (forall v, exists s', c_wait sched v s = Some s' /\ cvar s' v = None /\
     forall w, w <> v -> cvar s' w = cvar s w) /\
  (forall vs, NoDup vs -> exists s', c_wait_all sched vs s = Some s' /\
     (forall v, In v vs -> cvar s' v = None) /\ forall w, ~ In w vs -> cvar s' w = cvar s w) /\
  (forall vs, NoDup vs -> exists s' res, c_wait_any sched vs s = Some (s', res) /\
     match res with
     | None => (forall v, In v vs -> cvar s v = None) /\ forall w, cvar s' w = cvar s w
     | Some i => exists v k bs, nth_error vs i = Some v /\ cvar s v = Some k /\
         nth_error (sends l) k = Some bs /\ finished (cs s') k bs /\ cvar s' v = None /\
         forall w, w <> v -> cvar s' w = cvar s w
     end).
Proof.
  intros H E. destruct (crun_spec sched l H cst0 [] CI0) as (s0 & E0 & I). cbn in I.
  rewrite E in E0. injection E0 as <-. split; [|split].
  - intros v. destruct (wait_call sched v s _ I) as (s' & A & C). exists s'. split; [exact A|].
    split; [apply (ca_null _ _ _ C); reflexivity|]. intros w Hw. apply (ca_vars _ _ _ C). exact Hw.
  - intros vs N. destruct (wait_all_call sched vs s _ I N) as (s' & A & C). exists s'.
    split; [exact A|]. split; [apply (ca_null _ _ _ C)|apply (ca_vars _ _ _ C)].
  - intros vs N. destruct (wait_any_call sched vs s _ I N) as (s' & res & A & R).
    exists s', res. split; [exact A|]. destruct res as [i|].
    + destruct R as (v & Ei & Nn & C). destruct (cvar s v) as [k|] eqn:Ev; [|contradiction].
      assert (Hk : k < length (sends l)).
      { rewrite (ci_next _ _ I). apply (CI_lt s _ k I), (ci_alive _ _ I), (ci_var _ _ I v k Ev). }
      destruct (nth_error (sends l) k) as [bs|] eqn:Eb; [|apply nth_error_None in Eb; lia].
      exists v, k, bs. split; [exact Ei|]. split; [exact Ev|]. split; [exact Eb|].
      split; [|split; [apply (ca_null _ _ _ C); reflexivity|intros w Hw; apply (ca_vars _ _ _ C), Hw]].
      destruct (CI_objects s' _ (CI_call _ _ _ _ I C) k bs Eb) as [[X _]|[_ X]]; [|exact X].
      apply (ca_alive _ _ _ C) in X. destruct (proj2 X v eq_refl Ev).
    + destruct R as (Nu & C). split; [exact Nu|]. intros w. apply (ca_vars _ _ _ C). tauto.
Qed.

(** * Nothing is leaked by tidy clients *)

Definition owned (s : cst) : Prop := forall a, calive s a = true -> exists v, cvar s v = Some a.

Lemma owned_call W s s' : call W s s' -> owned s -> owned s'.
Proof.
  intros C O a H. apply (ca_alive _ _ _ C) in H. destruct H as [A N]. destruct (O a A) as [v Hv].
  exists v. rewrite (ca_vars _ _ _ C); [exact Hv|]. intros w. apply (N v w Hv).
Qed.

Lemma cstep_owned sched s b o s' : CI s b -> cop_ok o ->
  (match o with CSend v _ => cvar s v = None | _ => True end) ->
  cstep sched s o = Some s' -> owned s -> owned s'.
Proof.
  intros I H T E O. destruct o as [v bs|v|vs|vs]; cbn [cstep] in E; cbn in H.
  - injection E as <-. intros a. cbn. destruct (Nat.eqb_spec a (cnext s)) as [->|Ha].
    + intros _. exists v. rewrite Nat.eqb_refl. reflexivity.
    + intros A. destruct (O a A) as [w Hw]. exists w.
      destruct (Nat.eqb_spec w v) as [->|]; [congruence|exact Hw].
  - destruct (wait_call sched v s b I) as (s1 & E1 & C). rewrite E in E1. injection E1 as <-.
    apply (owned_call _ _ _ C O).
  - destruct (wait_all_call sched vs s b I H) as (s1 & E1 & C). rewrite E in E1. injection E1 as <-.
    apply (owned_call _ _ _ C O).
  - destruct (wait_any_call sched vs s b I H) as (s1 & res & E1 & R). rewrite E1 in E.
    cbn in E. injection E as ->. destruct res.
    + destruct R as (v & _ & _ & C). apply (owned_call _ _ _ C O).
    + destruct R as (_ & C). apply (owned_call _ _ _ C O).
Qed.

Lemma crun_owned sched l : Forall cop_ok l -> forall s b s', CI s b -> tidy sched s l ->
  crun sched s l = Some s' -> owned s -> owned s'.
Proof.
  induction 1 as [|o l Ho _ IH]; intros s b s' I T E O; cbn in E, T.
  - injection E as <-. exact O.
  - destruct T as [T1 T2]. destruct (cstep_spec sched s b o I Ho) as (s1 & E1 & I1).
    rewrite E1 in E. apply (IH s1 _ s' I1 (T2 s1 E1) E).
    apply (cstep_owned sched s b o s1 I Ho T1 E1 O).
Qed.

Lemma tidy_no_leak sched l s : Forall cop_ok l -> tidy sched cst0 l -> crun sched cst0 l = Some s ->
  (forall v, cvar s v = None) ->
  forall k bs, nth_error (sends l) k = Some bs -> calive s k = false /\ finished (cs s) k bs.
Proof.
  intros H T E Nu k bs Hk. destruct (client_correct sched l H) as (s0 & E0 & _ & _ & D).
  rewrite E in E0. injection E0 as <-. destruct (D k bs Hk) as [[A _]|A]; [|exact A].
  assert (O : owned s).
  { apply (crun_owned sched l H cst0 [] s CI0 T E). intros a. discriminate. }
  destruct (O k A) as [v Hv]. rewrite Nu in Hv. discriminate.
Qed.
