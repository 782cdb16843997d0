(** Proofs about failures of some grids. *)
From Coq Require Import List Arith Bool Lia.
From Verif Require Import ContModel FRefModel ProtoModel ProtoSpec ErrModel ErrSpec.
Import ListNotations.

Lemma eupd_same {A} (f : nat -> A) i v : upd f i v i = v.
Proof. unfold upd. now rewrite Nat.eqb_refl. Qed.
Lemma eupd_other {A} (f : nat -> A) i v j : j <> i -> upd f i v j = f j.
Proof. intros H. unfold upd. destruct (Nat.eqb_spec j i); [contradiction|reflexivity]. Qed.

Section Err.
Context (n G : nat) (mem : nat -> nat -> bool) (fails : nat -> bool).
Notation ST := (fate_before n mem fails).
Notation step := (estep n G mem fails).

Lemma fate_keep g h r : g <= h -> ST g r <> Reads -> ST h r = ST g r.
Proof. intros L H. induction L as [|h L IH]; [reflexivity|]. cbn [fate_before]. rewrite IH. now destruct (ST g r). Qed.
Lemma fate_reads g h r : g <= h -> ST h r = Reads -> ST g r = Reads.
Proof. intros L H. destruct (ST g r) eqn:E; [reflexivity| |]; rewrite (fate_keep g h r L) in H by congruence; congruence. Qed.
Lemma fate_skip g r : ST g r = Reads -> mem g r = false -> ST (S g) r = Reads.
Proof. intros H M. cbn [fate_before]. now rewrite H, M. Qed.
Lemma fate_go g r : ST g r = Reads -> mem g r = true -> (forall q, q < n -> mem g q = true -> ST g q = Reads) -> ST (S g) r = if fails g then Stopped g else Reads.
Proof.
  intros H M A. cbn [fate_before]. rewrite H, M. replace (forallb _ (seq 0 n)) with true; [reflexivity|]. symmetry. apply forallb_forall. intros q Hq. apply in_seq in Hq.
  destruct (mem g q) eqn:E; [|reflexivity]. rewrite (A q) by (auto; lia). reflexivity.
Qed.
Lemma fate_cases g r : ST g r = Reads -> mem g r = true ->
  ((forall q, q < n -> mem g q = true -> ST g q = Reads) /\ ST (S g) r = if fails g then Stopped g else Reads) \/ ST (S g) r = Waits g.
Proof.
  intros H M. cbn [fate_before]. rewrite H, M. destruct (forallb _ (seq 0 n)) eqn:F; [left|now right]. split; [|reflexivity]. intros q Hq Mq.
  rewrite forallb_forall in F. specialize (F q). rewrite Mq in F. cbn in F. assert (X : reads (ST g q) = true) by (apply F, in_seq; lia). now destruct (ST g q).
Qed.
(** Where a rank stops or waits. *)
Lemma fate_where h r : match ST h r with Reads => True | Stopped g => g < h /\ ST g r = Reads /\ mem g r = true /\ fails g = true /\ (forall q, q < n -> mem g q = true -> ST g q = Reads)
  | Waits g => g < h /\ ST g r = Reads /\ mem g r = true /\ ST (S g) r = Waits g end.
Proof.
  induction h as [|h IH]; [exact I|]. destruct (ST h r) eqn:E.
  - destruct (mem h r) eqn:M; [|rewrite (fate_skip h r E M); exact I]. destruct (fate_cases h r E M) as [[A ->]|W].
    + destruct (fails h) eqn:F; [|exact I]. repeat split; auto.
    + rewrite W. repeat split; auto.
  - rewrite (fate_keep h (S h) r) by (congruence || lia). rewrite E. destruct IH as (L & R). split; [lia|exact R].
  - rewrite (fate_keep h (S h) r) by (congruence || lia). rewrite E. destruct IH as (L & R). split; [lia|exact R].
Qed.

Definition stopped (f : fate) : option nat := match f with Stopped g => Some g | _ => None end.
Record inv (s : ers) : Prop := {
  i_le : forall r, r < n -> e_pc s r <= S G;
  i_reads : forall r, r < n -> e_pc s r < G -> ST (e_pc s r) r = Reads /\ e_threw s r = None;
  i_in : forall g r, r < n -> g < G -> e_in s g r = true -> mem g r = true /\ ST g r = Reads;
  i_past : forall g r, r < n -> g < G -> g < e_pc s r -> mem g r = true -> ST g r = Reads -> e_in s g r = true;
  i_out : forall r, r < n -> G <= e_pc s r -> (forall g, ST G r <> Waits g) /\ e_threw s r = stopped (ST G r);
  i_end : forall r, r < n -> e_in s G r = true -> G <= e_pc s r;
  i_done : forall r, r < n -> e_pc s r = S G -> (forall q, q < n -> e_in s G q = true) /\ (e_fail s r = true <-> exists q g, q < n /\ ST G q = Stopped g) }.

Lemma inv0 : inv ers0.
Proof. constructor; cbn; intros; try lia; try discriminate; try (split; reflexivity). assert (G = 0) by lia. subst G. split; [discriminate|reflexivity]. Qed.

Lemma all_in_spec s g : all_in n G mem s g = true <-> forall q, q < n -> in_loop G mem g q = true -> e_in s g q = true.
Proof.
  unfold all_in. rewrite forallb_forall. split.
  - intros H q Hq M. specialize (H q). rewrite M in H. apply H, in_seq. lia.
  - intros H q Hq. apply in_seq in Hq. destruct (in_loop G mem g q) eqn:M; [|reflexivity]. cbn. apply H; [lia|exact M].
Qed.
Lemma in_loop_lt g q : g < G -> in_loop G mem g q = mem g q.
Proof. intros H. unfold in_loop. apply Nat.ltb_lt in H. now rewrite H. Qed.
Lemma in_loop_G q : in_loop G mem G q = true.
Proof. unfold in_loop. now rewrite Nat.ltb_irrefl. Qed.

Lemma enter_in s g r h q : e_in (enter s g r) h q = if (h =? g) && (q =? r) then true else e_in s h q.
Proof. unfold enter. cbn [e_in]. unfold upd. destruct (Nat.eqb_spec h g) as [->|]; cbn [andb]; [|reflexivity]. now destruct (q =? r). Qed.
Lemma inv_enter s g r : inv s -> r < n -> g = e_pc s r -> g <= G -> (g < G -> mem g r = true) -> inv (enter s g r).
Proof.
  intros I Hr Eg Lg Mg. destruct I as [I1 I2 I3 I4 I5 I6 I7]. constructor; try exact I1; try exact I2; try exact I5.
  - intros h q Hq Hh E. rewrite enter_in in E. destruct (Nat.eqb_spec h g) as [->|]; cbn [andb] in E; [|exact (I3 h q Hq Hh E)]. destruct (Nat.eqb_spec q r) as [->|]; [|exact (I3 g q Hq Hh E)].
    split; [auto|]. rewrite Eg. apply (I2 r Hr). lia.
  - intros h q Hq Hh L M R. rewrite enter_in. destruct ((h =? g) && (q =? r)); [reflexivity|]. exact (I4 h q Hq Hh L M R).
  - intros q Hq E. rewrite enter_in in E. destruct (Nat.eqb_spec G g) as [F|]; cbn [andb] in E; [|exact (I6 q Hq E)]. destruct (Nat.eqb_spec q r) as [->|]; [cbn; lia|exact (I6 q Hq E)].
  - intros q Hq E. destruct (I7 q Hq E) as [A B]. split; [|exact B]. intros t Ht. rewrite enter_in. destruct ((G =? g) && (t =? r)); [reflexivity|]. exact (A t Ht).
Qed.
(** Going on to a grid behind. *)
Lemma inv_move s r p t : inv s -> r < n -> e_pc s r < G -> e_pc s r < p <= G -> (mem (e_pc s r) r = true -> e_in s (e_pc s r) r = true) ->
  (p < G -> ST p r = Reads /\ t = None) -> (p = G -> (forall g, ST G r <> Waits g) /\ t = stopped (ST G r)) ->
  (forall g, e_pc s r < g -> g < p -> ST g r <> Reads) ->
  inv (mkE (upd (e_pc s) r p) (e_in s) (upd (e_threw s) r t) (e_fail s)).
Proof.
  intros [I1 I2 I3 I4 I5 I6 I7] Hr Lr Lp In HA HB HC. constructor; cbn [e_pc e_in e_threw e_fail].
  - intros q Hq. destruct (Nat.eq_dec q r) as [->|N]; [rewrite eupd_same; lia|rewrite eupd_other by exact N; auto].
  - intros q Hq L. destruct (Nat.eq_dec q r) as [->|N]; [rewrite !eupd_same in *; auto|rewrite !eupd_other in * by exact N; auto].
  - exact I3.
  - intros g q Hq Hg L M R. destruct (Nat.eq_dec q r) as [->|N]; [|rewrite eupd_other in L by exact N; auto]. rewrite eupd_same in L.
    destruct (Nat.lt_trichotomy g (e_pc s r)) as [X|[X|X]]; [auto|rewrite X in *; auto|]. exfalso. exact (HC g X L R).
  - intros q Hq L. destruct (Nat.eq_dec q r) as [->|N]; [rewrite !eupd_same in *; apply HB; lia|rewrite !eupd_other in * by exact N; auto].
  - intros q Hq E. destruct (Nat.eq_dec q r) as [->|N]; [|rewrite eupd_other by exact N; auto]. pose proof (I6 r Hr E). lia.
  - intros q Hq E. destruct (Nat.eq_dec q r) as [->|N]; [rewrite eupd_same in E; lia|rewrite eupd_other in E by exact N; auto].
Qed.

Lemma upd_id {A} (f : nat -> A) r q : upd f r (f r) q = f q.
Proof. unfold upd. destruct (Nat.eqb_spec q r); congruence. Qed.
Lemma inv_ext s s' : inv s -> e_pc s' = e_pc s -> e_in s' = e_in s -> e_fail s' = e_fail s -> (forall q, e_threw s' q = e_threw s q) -> inv s'.
Proof.
  intros [I1 I2 I3 I4 I5 I6 I7] A B C D. constructor; rewrite ?A, ?B, ?C; auto.
  - intros r Hr L. rewrite D. auto.
  - intros r Hr L. rewrite D. auto.
Qed.

Lemma step_inv s r s' : inv s -> step s r = Some s' -> inv s'.
Proof.
  intros I. unfold estep. destruct (Nat.ltb_spec r n) as [Hr|]; [|discriminate]. destruct (Nat.ltb_spec (e_pc s r) G) as [Lr|Lr].
  - destruct (i_reads s I r Hr Lr) as [R T]. destruct (mem (e_pc s r) r) eqn:M.
    + destruct (e_in s (e_pc s r) r) eqn:In.
      * destruct (all_in n G mem s (e_pc s r)) eqn:A; [|discriminate]. intros E. injection E as <-.
        assert (F : ST (S (e_pc s r)) r = if fails (e_pc s r) then Stopped (e_pc s r) else Reads).
        { apply fate_go; auto. intros q Hq Mq. rewrite all_in_spec in A. apply (i_in s I (e_pc s r) q Hq Lr). apply A; [exact Hq|]. now rewrite in_loop_lt. }
        unfold leave. destruct (fails (e_pc s r)) eqn:Fl.
        -- apply inv_move; auto; try lia.
           ++ intros _. rewrite (fate_keep (S (e_pc s r)) G r) by (congruence || lia). rewrite F. split; [discriminate|reflexivity].
           ++ intros g L1 L2. rewrite (fate_keep (S (e_pc s r)) g r) by (congruence || lia). rewrite F. discriminate.
        -- eapply inv_ext; [apply (inv_move s r (S (e_pc s r)) (e_threw s r)); auto; try lia|reflexivity|reflexivity|reflexivity|].
           ++ intros E. rewrite <- E, F, T. split; [discriminate|reflexivity].
           ++ intros q. cbn [e_threw]. symmetry. apply upd_id.
      * intros E. injection E as <-. apply inv_enter; auto. lia.
    + intros E. injection E as <-. pose proof (fate_skip _ r R M) as F.
      eapply inv_ext; [apply (inv_move s r (S (e_pc s r)) (e_threw s r)); auto; try lia|reflexivity|reflexivity|reflexivity|].
      * rewrite M. discriminate.
      * intros E. rewrite <- E, F, T. split; [discriminate|reflexivity].
      * intros q. cbn [e_threw]. symmetry. apply upd_id.
  - destruct (Nat.eqb_spec (e_pc s r) G) as [Er|]; [|discriminate]. destruct (e_in s G r) eqn:In.
    + destruct (all_in n G mem s G) eqn:A; [|discriminate]. intros E. injection E as <-. rewrite all_in_spec in A.
      assert (A' : forall q, q < n -> e_in s G q = true) by (intros q Hq; apply A; [exact Hq|apply in_loop_G]).
      assert (D : existsb (fun q => match e_threw s q with Some _ => true | None => false end) (seq 0 n) = true <-> exists q g, q < n /\ ST G q = Stopped g).
      { rewrite existsb_exists. split.
        - intros (q & Hq & E). apply in_seq in Hq. assert (Lq : q < n) by lia. destruct (i_out s I q Lq) as [_ T]; [apply (i_end s I q Lq), A', Lq|]. rewrite T in E.
          destruct (ST G q) eqn:F; try discriminate. eauto.
        - intros (q & g & Hq & E). exists q. split; [apply in_seq; lia|]. destruct (i_out s I q Hq) as [_ T]; [apply (i_end s I q Hq), A', Hq|]. rewrite T, E. reflexivity. }
      destruct I as [I1 I2 I3 I4 I5 I6 I7]. unfold finish. constructor; cbn [e_pc e_in e_threw e_fail].
      * intros q Hq. destruct (Nat.eq_dec q r) as [->|N]; [rewrite eupd_same; lia|rewrite eupd_other by exact N; auto].
      * intros q Hq L. destruct (Nat.eq_dec q r) as [->|N]; [rewrite eupd_same in L; lia|rewrite !eupd_other in * by exact N; auto].
      * exact I3.
      * intros g q Hq Hg L M R. destruct (Nat.eq_dec q r) as [->|N]; [apply I4; auto; lia|rewrite eupd_other in L by exact N; auto].
      * intros q Hq L. destruct (Nat.eq_dec q r) as [->|N]; [apply I5; auto; lia|rewrite eupd_other in L by exact N; auto].
      * intros q Hq E. destruct (Nat.eq_dec q r) as [->|N]; [rewrite eupd_same; lia|rewrite eupd_other by exact N; auto].
      * intros q Hq E. split; [exact A'|]. destruct (Nat.eq_dec q r) as [->|N]; [rewrite eupd_same; exact D|rewrite eupd_other in E by exact N; rewrite eupd_other by exact N; apply (I7 q Hq E)].
    + intros E. injection E as <-. apply inv_enter; auto; lia.
Qed.
Lemma run_inv rs : forall s s', inv s -> run step s rs = Some s' -> inv s'.
Proof.
  induction rs as [|r rs IH]; cbn [run]; intros s s' I E; [injection E as <-; exact I|]. destruct (step s r) as [t|] eqn:F; [|discriminate]. exact (IH t s' (step_inv s r t I F) E).
Qed.

(** Executions are finite. *)
Definition load (s : ers) (r : nat) : nat := 2 * e_pc s r + (if e_in s (e_pc s r) r then 1 else 0).
Fixpoint total (f : nat -> nat) (k : nat) : nat := match k with 0 => 0 | S k => f k + total f k end.
Lemma total_le f g k : (forall q, q < k -> f q <= g q) -> total f k <= total g k.
Proof. induction k as [|k IH]; intros H; cbn; [lia|]. pose proof (H k). assert (total f k <= total g k) by (apply IH; intros; apply H; lia). lia. Qed.
Lemma total_lt f g k r : r < k -> (forall q, q < k -> q <> r -> f q <= g q) -> f r < g r -> total f k < total g k.
Proof.
  revert r. induction k as [|k IH]; intros r Hr H L; [lia|]. cbn. destruct (Nat.eq_dec r k) as [->|N].
  - assert (total f k <= total g k) by (apply total_le; intros; apply H; lia). lia.
  - assert (total f k < total g k) by (apply (IH r); [lia| |exact L]; intros; apply H; lia). pose proof (H k). lia.
Qed.
Lemma step_load s r s' : step s r = Some s' -> r < n /\ load s r < load s' r /\ forall q, q <> r -> load s' q = load s q.
Proof.
  unfold estep. destruct (Nat.ltb_spec r n) as [Hr|]; [|discriminate].
  assert (EN : forall g, g = e_pc s r -> e_in s g r = false -> load s r < load (enter s g r) r /\ forall q, q <> r -> load (enter s g r) q = load s q).
  { intros g -> E. unfold load. split.
    - rewrite enter_in. cbn [enter e_pc]. rewrite !Nat.eqb_refl, E. cbn. lia.
    - intros q N. rewrite enter_in. cbn [enter e_pc]. destruct (Nat.eqb_spec q r); [contradiction|]. now rewrite andb_false_r. }
  assert (MV : forall p t f, e_pc s r < p -> load s r < load (mkE (upd (e_pc s) r p) (e_in s) t f) r /\ forall q, q <> r -> load (mkE (upd (e_pc s) r p) (e_in s) t f) q = load s q).
  { intros p t f L. unfold load. cbn [e_pc e_in]. split.
    - rewrite eupd_same. destruct (e_in s (e_pc s r) r), (e_in s p r); lia.
    - intros q N. now rewrite eupd_other by exact N. }
  destruct (Nat.ltb_spec (e_pc s r) G) as [Lr|Lr].
  - destruct (mem (e_pc s r) r).
    + destruct (e_in s (e_pc s r) r) eqn:In.
      * destruct (all_in n G mem s (e_pc s r)); [|discriminate]. intros E. injection E as <-. split; [exact Hr|]. unfold leave. destruct (fails (e_pc s r)); apply MV; lia.
      * intros E. injection E as <-. split; [exact Hr|]. apply EN; auto.
    + intros E. injection E as <-. split; [exact Hr|]. apply MV; lia.
  - destruct (Nat.eqb_spec (e_pc s r) G) as [Er|]; [|discriminate]. destruct (e_in s G r) eqn:In.
    + destruct (all_in n G mem s G); [|discriminate]. intros E. injection E as <-. split; [exact Hr|]. unfold finish. apply MV. lia.
    + intros E. injection E as <-. split; [exact Hr|]. apply EN; auto.
Qed.
Lemma run_load rs : forall s s', run step s rs = Some s' -> total (load s) n + length rs <= total (load s') n.
Proof.
  induction rs as [|r rs IH]; cbn [run length]; intros s s' E; [injection E as <-; lia|]. destruct (step s r) as [t|] eqn:F; [|discriminate].
  destruct (step_load s r t F) as (Hr & L & O). pose proof (IH t s' E). assert (total (load s) n < total (load t) n) by (apply (total_lt _ _ n r Hr); [intros q _ N; rewrite (O q N); lia|exact L]). lia.
Qed.
Lemma total_const k c : total (fun _ => c) k = k * c.
Proof. induction k; cbn; lia. Qed.
Lemma run_bound rs s : run step ers0 rs = Some s -> length rs <= n * (2 * G + 3).
Proof.
  intros E. pose proof (run_load rs _ _ E) as L. pose proof (run_inv rs _ _ inv0 E) as I.
  assert (total (load s) n <= total (fun _ => 2 * G + 3) n).
  { apply total_le. intros q Hq. unfold load. pose proof (i_le s I q Hq). destruct (e_in s (e_pc s q) q); lia. }
  rewrite total_const in H. lia.
Qed.

(** Where the ranks are when nothing can go on. *)
Section Stuck.
Context (s : ers).
Hypothesis (I : inv s) (Q : stuck step s).
Lemma stuck_at g r : r < n -> g < G -> e_pc s r = g -> mem g r = true /\ e_in s g r = true /\ all_in n G mem s g = false.
Proof.
  intros Hr Hg <-. specialize (Q r). unfold estep in Q. apply Nat.ltb_lt in Hr, Hg. rewrite Hr, Hg in Q. destruct (mem (e_pc s r) r); [|discriminate]. destruct (e_in s (e_pc s r) r); [|discriminate].
  destruct (all_in n G mem s (e_pc s r)); [discriminate|]. auto.
Qed.
Lemma stuck_arrived g r : r < n -> g < G -> mem g r = true -> ST g r = Reads -> g <= e_pc s r -> e_in s g r = true.
Proof.
  intros Hr Hg M R L. destruct (Nat.eq_dec (e_pc s r) g) as [E|N]; [exact (proj1 (proj2 (stuck_at g r Hr Hg E)))|]. apply (i_past s I g r Hr Hg); auto. lia.
Qed.
Lemma stuck_past g : g <= G -> forall r, r < n -> ST g r = Reads -> g <= e_pc s r.
Proof.
  induction g as [|g IH]; intros Hg r Hr R; [lia|]. assert (R' : ST g r = Reads) by (apply (fate_reads g (S g)); auto).
  assert (L : g <= e_pc s r) by (apply IH; auto; lia). destruct (Nat.eq_dec (e_pc s r) g) as [E|]; [|lia]. exfalso. destruct (stuck_at g r Hr) as (M & In & A); [lia|exact E|].
  destruct (fate_cases g r R' M) as [[B _]|B]; [|congruence]. enough (X : all_in n G mem s g = true) by congruence. apply all_in_spec. intros q Hq Mq. rewrite in_loop_lt in Mq by lia.
  apply stuck_arrived; auto; try lia. apply IH; auto; lia.
Qed.
Lemma stuck_waits g r : r < n -> ST G r = Waits g -> e_pc s r = g.
Proof.
  intros Hr W. pose proof (fate_where G r) as F. rewrite W in F. destruct F as (L & R & M & W'). pose proof (stuck_past g (Nat.lt_le_incl _ _ L) r Hr R).
  destruct (Nat.lt_ge_cases (e_pc s r) G) as [X|X]; [|destruct (i_out s I r Hr X) as [Y _]; now destruct (Y g)].
  destruct (Nat.eq_dec (e_pc s r) g) as [|N]; [assumption|]. exfalso. destruct (i_reads s I r Hr X) as [Y _].
  assert (Z : ST (S g) r = Reads) by (apply (fate_reads (S g) (e_pc s r)); auto; lia). congruence.
Qed.
Lemma stuck_out r : r < n -> (forall g, ST G r <> Waits g) -> G <= e_pc s r.
Proof.
  intros Hr W. pose proof (fate_where G r) as F. destruct (ST G r) eqn:E; [exact (stuck_past G (Nat.le_refl _) r Hr E)| |now destruct (W g)].
  destruct F as (L & R & M & Fl & A). pose proof (stuck_past g (Nat.lt_le_incl _ _ L) r Hr R) as P. destruct (Nat.lt_ge_cases (e_pc s r) G) as [X|X]; [|exact X]. exfalso.
  assert (Z : ST (S g) r = Stopped g) by (rewrite (fate_go g r R M A), Fl; reflexivity).
  destruct (Nat.eq_dec (e_pc s r) g) as [Eg|N].
  - destruct (stuck_at g r Hr L Eg) as (_ & _ & B). enough (Y : all_in n G mem s g = true) by congruence. apply all_in_spec. intros q Hq Mq. rewrite in_loop_lt in Mq by exact L.
    apply stuck_arrived; auto. apply (stuck_past g); auto. lia.
  - destruct (i_reads s I r Hr X) as [Y _]. assert (ST (S g) r = Reads) by (apply (fate_reads (S g) (e_pc s r)); auto; lia). congruence.
Qed.
Lemma stuck_end r : r < n -> (forall g, ST G r <> Waits g) ->
  (e_pc s r = S G /\ (forall q g, q < n -> ST G q <> Waits g) /\ (e_fail s r = true <-> exists q g, q < n /\ ST G q = Stopped g)) \/
  (e_pc s r = G /\ exists q g, q < n /\ ST G q = Waits g).
Proof.
  intros Hr W. pose proof (stuck_out r Hr W) as L. pose proof (i_le s I r Hr) as U. destruct (Nat.eq_dec (e_pc s r) (S G)) as [E|N].
  - left. destruct (i_done s I r Hr E) as [A B]. split; [exact E|]. split; [|exact B]. intros q g Hq. apply (i_out s I q Hq). apply (i_end s I q Hq), A, Hq.
  - right. assert (E : e_pc s r = G) by lia. split; [exact E|]. pose proof (Q r) as Qr. unfold estep in Qr. apply Nat.ltb_lt in Hr. rewrite Hr, E, Nat.ltb_irrefl, Nat.eqb_refl in Qr.
    destruct (e_in s G r) eqn:In; [|discriminate]. destruct (all_in n G mem s G) eqn:A; [discriminate|].
    destruct (existsb (fun q => match ST G q with Waits _ => true | _ => false end) (seq 0 n)) eqn:X.
    + apply existsb_exists in X as (q & Hq & X). apply in_seq in Hq. destruct (ST G q) eqn:Y; try discriminate. exists q, g. split; [lia|exact Y].
    + exfalso. enough (Y : all_in n G mem s G = true) by congruence. apply all_in_spec. intros q Hq _.
      assert (Wq : forall g, ST G q <> Waits g).
      { intros g Y. enough (existsb (fun q => match ST G q with Waits _ => true | _ => false end) (seq 0 n) = true) by congruence. apply existsb_exists. exists q. split; [apply in_seq; lia|now rewrite Y]. }
      pose proof (stuck_out q Hq Wq) as Lq. pose proof (i_le s I q Hq) as Uq. destruct (Nat.eq_dec (e_pc s q) (S G)) as [Eq|Nq]; [exact (proj1 (i_done s I q Hq Eq) q Hq)|].
      assert (Eq : e_pc s q = G) by lia. pose proof (Q q) as Qq. unfold estep in Qq. apply Nat.ltb_lt in Hq. rewrite Hq, Eq, Nat.ltb_irrefl, Nat.eqb_refl in Qq. destruct (e_in s G q); [reflexivity|discriminate].
Qed.
End Stuck.

(** From every state some execution goes on until nothing can. *)
Lemma stuck_dec s : stuck step s \/ exists r s', step s r = Some s'.
Proof.
  destruct (existsb (fun r => match step s r with Some _ => true | None => false end) (seq 0 n)) eqn:X.
  - apply existsb_exists in X as (r & _ & X). destruct (step s r) eqn:Y; [|discriminate]. right. eauto.
  - left. intros r. destruct (step s r) eqn:Y; [|reflexivity]. exfalso. enough (existsb (fun r => match step s r with Some _ => true | None => false end) (seq 0 n) = true) by congruence.
    apply existsb_exists. exists r. split; [|now rewrite Y]. destruct (step_load s r e Y) as (Hr & _). apply in_seq. lia.
Qed.
Lemma run_snoc rs r : forall s s' t, run step s rs = Some s' -> step s' r = Some t -> run step s (rs ++ [r]) = Some t.
Proof. induction rs as [|a rs IH]; cbn; intros s s' t E F; [injection E as ->; now rewrite F|]. destruct (step s a); [|discriminate]. exact (IH _ _ _ E F). Qed.
Lemma run_end : exists rs s, run step ers0 rs = Some s /\ stuck step s.
Proof.
  assert (H : forall k rs s, run step ers0 rs = Some s -> n * (2 * G + 3) - length rs <= k -> exists rs s, run step ers0 rs = Some s /\ stuck step s).
  { induction k as [|k IH]; intros rs s E L; destruct (stuck_dec s) as [D|(r & t & D)]; try (exists rs, s; auto; fail).
    - pose proof (run_bound _ _ (run_snoc rs r _ _ _ E D)) as B. rewrite app_length in B. cbn in B. lia.
    - apply (IH _ _ (run_snoc rs r _ _ _ E D)). rewrite app_length. cbn. lia. }
  exact (H _ [] ers0 eq_refl (Nat.le_refl _)).
Qed.

Theorem err_exact : exists bound, forall rs s, run step ers0 rs = Some s ->
  length rs <= bound /\ (stuck step s -> forall r, r < n ->
    match ST G r with
    | Waits g => e_pc s r = g
    | _ => (e_pc s r = S G /\ (forall q g, q < n -> ST G q <> Waits g) /\ (e_fail s r = true <-> exists q g, q < n /\ ST G q = Stopped g)) \/
           (e_pc s r = G /\ exists q g, q < n /\ ST G q = Waits g)
    end).
Proof.
  exists (n * (2 * G + 3)). intros rs s E. split; [exact (run_bound rs s E)|]. intros Q r Hr. pose proof (run_inv rs _ _ inv0 E) as I.
  destruct (ST G r) eqn:F; [| |exact (stuck_waits s I Q g r Hr F)]; apply stuck_end; auto; rewrite F; discriminate.
Qed.
Lemma err_finishes : (forall q g, q < n -> ST G q <> Waits g) -> finishes n G mem fails (exists q g, q < n /\ ST G q = Stopped g).
Proof.
  intros W. destruct err_exact as [b H]. exists b. intros rs s E. destruct (H rs s E) as [L X]. split; [exact L|]. intros Q r Hr. specialize (X Q r Hr).
  destruct (ST G r) eqn:F; [| |now destruct (W r g Hr)]; (destruct X as [(A & _ & B)|(_ & q & g' & Hq & Y)]; [auto|now destruct (W q g' Hq)]).
Qed.
Lemma err_hangs : (exists q g, q < n /\ ST G q = Waits g) -> hangs n G mem fails.
Proof.
  intros (q & g & Hq & W). destruct run_end as (rs & s & E & Q). exists rs, s, q. repeat split; auto. rewrite (stuck_waits s (run_inv rs _ _ inv0 E) Q g q Hq W).
  pose proof (fate_where G q) as F. rewrite W in F. lia.
Qed.
Lemma finishes_not_hangs P : finishes n G mem fails P -> ~ hangs n G mem fails.
Proof. intros [b H] (rs & s & r & E & Q & Hr & L). destruct (H rs s E) as [_ X]. destruct (X Q r Hr) as [Y _]. lia. Qed.
End Err.
