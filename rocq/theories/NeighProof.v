(** Proofs about the detection of neighbours. *)
From Coq Require Import List ZArith QArith Bool Lia Sorting.Sorted.
From Verif Require Import TupleModel RangeModel CartModel Base RangeProof CartProof DecompModel DecompProof.
From Verif Require Import ContModel ContSpec ContProof OMap PairMap HashModel HashSpec HashProof.
From Verif Require Import ProtoModel ProtoSpec HandProof NetModel NetSpec NetProof NetPhase NetTools.
From Verif Require Import DHashModel DRangeProof DDecompProof LiftModel LiftProof NeighModel NeighSpec.
Import ListNotations.
Local Open Scope Z_scope.

Lemma bin_swo : swo bin_less.
Proof.
  unfold bin_less. pose proof pair_swo as [A B C]. constructor; intros; eauto.
Qed.

Lemma bEQ a b : eqv bin_less a b = true -> a = b.
Proof.
  unfold eqv, bin_less. intros H. apply (pEQ (Z.of_nat (fst a), snd a) (Z.of_nat (fst b), snd b)) in H.
  destruct a as [a1 a2], b as [b1 b2]. cbn in H. injection H as H1 H2. f_equal; lia.
Qed.

Lemma bset_In l x : In x (fold_left (set_insert bin_less) l []) <-> In x l.
Proof.
  destruct (set_of_In bin_less bin_swo bEQ l [] (sok_nil _)) as [_ H]. rewrite H. cbn. tauto.
Qed.

Lemma omap_In {A B} (f : A -> option B) l r : omap f l = Some r ->
  forall b, In b r <-> exists a, In a l /\ f a = Some b.
Proof.
  intros H b. apply omap_some in H. induction H as [|x y l r E H IH]; cbn [In].
  - split; [contradiction|intros (a & [] & _)].
  - rewrite IH. split.
    + intros [->|(a & I & F)]; eauto.
    + intros (a & [->|I] & F); [left; congruence|right; eauto].
Qed.

Lemma find_unique {A} (P : A -> bool) l x : In x l -> P x = true -> (forall y, In y l -> P y = true -> y = x) ->
  find P l = Some x.
Proof.
  induction l as [|a l IH]; intros H Px U; [contradiction|]. cbn [find].
  destruct (P a) eqn:E; [f_equal; apply U; [left; reflexivity|exact E]|].
  apply IH; [|exact Px|intros; apply U; [right|]; assumption].
  destruct H as [->|H]; [congruence|exact H].
Qed.

(** The number of points of a range that are not in a range inside it. *)
Lemma outside_count ext loc : pt_subset loc ext ->
  Z.of_nat (length (filter (fun p => negb (rcontains loc p)) (RangeModel.foreach_col ext))) = rcount ext - rcount loc.
Proof.
  intros Sub. rewrite <- !foreach_col_length.
  assert (P : length (RangeModel.foreach_col loc) = length (filter (rcontains loc) (RangeModel.foreach_col ext))).
  { assert (I : forall p, In p (RangeModel.foreach_col loc) <-> In p (filter (rcontains loc) (RangeModel.foreach_col ext))).
    { intros p. rewrite filter_In, !foreach_col_In, rcontains_spec. split; [split; auto|tauto]. }
    apply Nat.le_antisymm; apply NoDup_incl_length;
      try (intros p; apply I); [apply foreach_col_NoDup|apply NoDup_filter, foreach_col_NoDup]. }
  rewrite P. generalize (RangeModel.foreach_col ext). intros l. clear.
  induction l as [|a l IH]; cbn [filter]; [reflexivity|]. destruct (rcontains loc a); cbn [negb length]; lia.
Qed.

Section Neigh.
Variables (c : cart) (n : nat) (L : nat -> range).
Hypothesis D : decomposed c n L.

Lemma L_sub r : (r < n)%nat -> pt_subset (L r) (c_range c).
Proof.
  intros Hr. destruct D as (_ & _ & _ & _ & _ & (S & _) & _). apply (S r). apply nth_map_seq, Hr.
Qed.

Lemma L_owner u : pt_in (c_range c) u -> exists s, (s < n)%nat /\ pt_in (L s) u.
Proof.
  intros Hu. destruct D as (_ & _ & _ & _ & _ & (_ & S & _) & _). destruct (S u Hu) as (i & g & E & I).
  assert (i < n)%nat.
  { assert (i < length (map L (seq 0 n)))%nat by (apply nth_error_Some; congruence). rewrite map_length, seq_length in H. exact H. }
  rewrite nth_map_seq in E by assumption. exists i. split; [assumption|]. congruence.
Qed.

Lemma L_unique r s u : (r < n)%nat -> (s < n)%nat -> pt_in (L r) u -> pt_in (L s) u -> r = s.
Proof.
  intros Hr Hs A B. destruct D as (_ & _ & _ & _ & _ & (_ & _ & S) & _).
  apply (S r s (L r) (L s) u); auto; apply nth_map_seq; assumption.
Qed.

Lemma L_within r : (r < n)%nat -> range_within (L r) (c_range c).
Proof.
  intros Hr d Hd. pose proof D as D'. destruct D' as (_ & _ & _ & _ & _ & _ & NE).
  exact (DecompProof.subset_bounds (L r) (c_range c) (NE r Hr) (L_sub r Hr) d Hd).
Qed.

Lemma L_grid r : (r < n)%nat -> grid_range (c_nd c) (L r).
Proof.
  intros Hr. pose proof D as D'. destruct D' as (Hnd & _ & _ & HD & _ & _ & NE). specialize (NE r Hr).
  rewrite rempty_false in NE.
  split; [intros d Hd; pose proof (proj1 (pt_in_tget _ _) NE d Hd); lia|].
  intros d Hd. pose proof (L_within r Hr d ltac:(lia)). pose proof (proj1 (pt_in_tget _ _) NE d ltac:(lia)).
  destruct (HD d Hd). lia.
Qed.

(** A point next to a local range, moved to the base period, is in the domain. *)
Lemma ring_adjusts r p : (r < n)%nat -> pt_in (extend_local_range c (L r) 1) p ->
  exists u, periodic_adjust c p = Some u /\ pt_in (c_range c) u.
Proof.
  intros Hr Hp. pose proof D as D'. destruct D' as (Hnd & _ & Hok & HD & Hper & _ & _).
  destruct (periodic_adjust_full c p Hok) as (u & E & Im & Ba). exists u. split; [exact E|].
  apply pt_in_tget. intros d Hd. destruct (Im d Hd) as [I1 I2]. destruct (tget (c_per c) d) eqn:P.
  - specialize (Ba d Hd P). unfold per_len in Ba. destruct (c_stor c); rewrite ?P in Ba; lia.
  - rewrite (I2 eq_refl). pose proof (L_within r Hr) as W.
    destruct (extend_inside c (L r) 1 W ltac:(lia)) with (d := d) as [A B]; auto.
    + intros e He He3 Pe. specialize (W e He3). lia.
    + pose proof (proj1 (pt_in_tget _ _) Hp d Hd). lia.
Qed.

Lemma ext_sup r : (r < n)%nat -> pt_subset (L r) (extend_local_range c (L r) 1).
Proof.
  intros Hr p Hp. destruct (extend_grows c (L r) 1 (L_within r Hr) ltac:(lia)) as [W _].
  apply pt_in_tget. intros d Hd. specialize (W d Hd). pose proof (proj1 (pt_in_tget _ _) Hp d Hd). lia.
Qed.

Lemma ring_ok r : (r < n)%nat -> exists pts, ring_points c (L r) = Some pts /\
  (forall u, In u pts <-> exists p, pt_in (extend_local_range c (L r) 1) p /\ ~ pt_in (L r) p /\ periodic_adjust c p = Some u).
Proof.
  intros Hr. unfold ring_points. rewrite (outside_count _ _ (ext_sup r Hr)), Z.eqb_refl.
  set (l := filter _ _).
  assert (Il : forall p, In p l <-> pt_in (extend_local_range c (L r) 1) p /\ ~ pt_in (L r) p).
  { intros p. unfold l. rewrite filter_In, foreach_col_In, negb_true_iff, <- not_true_iff_false, rcontains_spec. tauto. }
  destruct (omap_total (periodic_adjust c) l) as [pts E].
  { intros p Hp. apply Il in Hp as [Hp _]. destruct (ring_adjusts r p Hr Hp) as (u & Eu & _). eauto. }
  exists pts. split; [exact E|]. intros u. rewrite (omap_In _ _ _ E). split.
  - intros (p & Hp & Eu). apply Il in Hp as [A B]. eauto.
  - intros (p & A & B & Eu). exists p. split; [apply Il; auto|exact Eu].
Qed.

Definition rpts (r : nat) : list (tup Z) := match ring_points c (L r) with Some l => l | None => [] end.

Lemma rpts_ok r : (r < n)%nat -> ring_points c (L r) = Some (rpts r) /\
  forall u, In u (rpts r) <-> exists p, pt_in (extend_local_range c (L r) 1) p /\ ~ pt_in (L r) p /\ periodic_adjust c p = Some u.
Proof.
  intros Hr. unfold rpts. destruct (ring_ok r Hr) as (pts & E & H). rewrite E. auto.
Qed.

Lemma rpts_in r u : (r < n)%nat -> In u (rpts r) -> exists s, (s < n)%nat /\ pt_in (L s) u.
Proof.
  intros Hr Hu. apply (rpts_ok r Hr) in Hu as (p & Hp & _ & E). destruct (ring_adjusts r p Hr Hp) as (u' & E' & I).
  apply L_owner. congruence.
Qed.

Definition ownerf (u : tup Z) : nat := match find (fun s => rcontains (L s) u) (seq 0 n) with Some s => s | None => 0%nat end.

Lemma ownerf_spec u s : (s < n)%nat -> pt_in (L s) u -> ownerf u = s.
Proof.
  intros Hs Hu. unfold ownerf. rewrite (find_unique _ _ s); [reflexivity|apply in_seq; lia|apply rcontains_spec, Hu|].
  intros y Hy Cy. apply in_seq in Hy. apply rcontains_spec in Cy. apply (L_unique y s u); auto. lia.
Qed.


Definition nb (r : nat) : list nat :=
  set_erase Nat.ltb (fold_left (set_insert Nat.ltb) (map ownerf (rpts r)) []) r.

Lemma nb_set r : sok Nat.ltb (nb r) /\ forall q, In q (nb r) <-> q <> r /\ In q (map ownerf (rpts r)).
Proof.
  destruct (set_of_In Nat.ltb nltb_swo nEQ (map ownerf (rpts r)) [] (sok_nil _)) as [A B]. unfold nb. split.
  - apply sok_erase; [exact nltb_swo|exact A].
  - intros q. rewrite (In_set_erase Nat.ltb nltb_swo nEQ _ _ _ A), B. cbn. tauto.
Qed.

Section Prog.
Variables (guess : list Q -> Z -> Z) (rnd : Q -> Q).
Hypothesis G : forall l m, 1 <= m -> guess l m <= m.
Hypothesis HR : rounding rnd.
Hypothesis R1 : (rnd 1 == 1)%Q.

Theorem neighbors_ok :
  prog_ok n (detect_neighbors c n (range_decomp guess (c_nd c)) (range_ratio rnd (c_nd c)))
    (fun r => N0 (L r)) (fun r => NDone (L r) (nb r)).
Proof.
  pose proof D as D'. destruct D' as (Hnd & Hn & Hok & HD & Hper & _ & NE).
  destruct (range_dhash_complete (c_nd c) n (range_decomp guess (c_nd c)) (range_ratio rnd (c_nd c)) (fun r => [L r]))
    as (H & HB & HS & HM & HRet); auto.
  { intros r g Hr [<-|[]]. apply L_grid, Hr. }
  { intros x. apply range_decomp_ok; auto. }
  { intros. apply range_ratio_ok; auto. }
  set (mapf := fun r u => match dh_map zcoords (c_nd c) (H r) u with Some x => x | None => (0%nat, 0) end).
  assert (MF : forall r u, (r < n)%nat -> In u (rpts r) -> dh_map zcoords (c_nd c) (H r) u = Some (mapf r u)).
  { intros r u Hr Hu. destruct (rpts_in r u Hr Hu) as (s & Hs & I).
    destruct (HM r (L s) s u Hr Hs ltac:(left; reflexivity) I) as (q & b & E). unfold mapf. rewrite E. reflexivity. }
  set (bids := fun r => map (mapf r) (rpts r)).
  set (ids := fun r => fold_left (set_insert bin_less) (bids r) []).
  assert (Iids : forall r x, In x (ids r) <-> exists u, In u (rpts r) /\ mapf r u = x).
  { intros r x. unfold ids. rewrite bset_In. unfold bids. rewrite in_map_iff. split; intros (u & A & B); eauto. }
  destruct (HRet ids) as (res & RB & RR).
  { intros r q b Hr Hx. apply Iids in Hx as (u & Hu & E). pose proof (MF r u Hr Hu) as Mu. rewrite E in Mu.
    split; [eauto|]. destruct (rpts_in r u Hr Hu) as (s & Hs & I). exists (L s), s, u, b.
    split; [exact Hs|]. split; [left; reflexivity|]. auto. }
  unfold detect_neighbors.
  apply prog_ok_app. exists (fun r => NBuild (L r) (D0 [L r])). split.
  { eexists. split; [|cbn [prog_ok]; reflexivity]. intros r Hr. reflexivity. }
  apply prog_ok_app. exists (fun r => NBuild (L r) (DH (H r))). split.
  { apply (lift_ok n_hash n_put_hash n _ (fun r => NBuild (L r) (D0 []))) in HB; [exact HB|reflexivity|reflexivity]. }
  apply prog_ok_app. exists (fun r => NRetr (L r) (rpts r) (bids r) (R0 (H r) (ids r))). split.
  { eexists. split; [|cbn [prog_ok]; reflexivity]. intros r Hr. cbn [nb_query].
    rewrite (proj1 (rpts_ok r Hr)). rewrite (omap_map _ (mapf r)) by (intros; apply MF; auto). reflexivity. }
  apply prog_ok_app. exists (fun r => NRetr (L r) (rpts r) (bids r) (RH (H r) (res r))). split.
  { apply (lift_ok n_retr n_put_retr n _ (fun r => NRetr (L r) (rpts r) (bids r) (R0 (H r) []))) in RB;
      [exact RB|reflexivity|reflexivity]. }
  eexists. split; [|cbn [prog_ok]; reflexivity]. intros r Hr. cbn [nb_finish].
  assert (E : omap (point_rank (res r)) (combine (rpts r) (bids r)) = Some (map (fun x => [ownerf (fst x)]) (combine (rpts r) (bids r)))).
  { apply omap_map. unfold bids. rewrite combine_map_r. intros x Hx. apply in_map_iff in Hx as (u & <- & Hu). cbn [fst].
    unfold point_rank. cbn [fst snd]. destruct (RR r (fst (mapf r u)) (snd (mapf r u)) Hr) as (f & Ef & Hf).
    { rewrite <- surjective_pairing. apply Iids. eauto. }
    rewrite Ef. destruct (rpts_in r u Hr Hu) as (s & Hs & I).
    rewrite (find_unique _ _ (L s, s)).
    - cbn [snd]. rewrite (ownerf_spec u s Hs I). reflexivity.
    - apply filter_In. split.
      + unfold contributions. apply in_flat_map. exists s. split; [apply in_seq; lia|left; reflexivity].
      + apply (Hf (L s) s u Hs ltac:(left; reflexivity) I). rewrite <- surjective_pairing. apply MF; auto.
    - cbn [fst]. apply rcontains_spec, I.
    - intros [g s'] Hy Cy. cbn [fst] in Cy. apply filter_In in Hy as [Hy _]. unfold contributions in Hy.
      apply in_flat_map in Hy as (s'' & Hs'' & Hy). apply in_map_iff in Hy as (g' & E1 & [<-|[]]).
      injection E1 as <- <-. apply in_seq in Hs''. apply rcontains_spec in Cy.
      rewrite (L_unique s'' s u) by (auto; lia). reflexivity. }
  rewrite E. unfold nb, bids. do 3 f_equal. rewrite combine_map_r, map_map. cbn [fst]. clear.
  f_equal. induction (rpts r) as [|u l IH]; cbn [map concat app]; [reflexivity|]. f_equal. exact IH.
Qed.

End Prog.

Theorem neighbors_spec r : (r < n)%nat -> StronglySorted lt (nb r) /\
  forall q, In q (nb r) <-> (q < n)%nat /\ q <> r /\ exists p u, pt_in (extend_local_range c (L r) 1) p /\ ~ pt_in (L r) p /\
    is_image c p u /\ in_base c u /\ pt_in (L q) u.
Proof.
  intros Hr. destruct (nb_set r) as [A B]. pose proof D as D'. destruct D' as (Hnd & Hn & Hok & HD & Hper & _ & NE). split.
  - destruct A as [A _]. clear B. induction A as [|x l A IH F]; constructor; auto.
    eapply Forall_impl; [|exact F]. intros y Hy. apply Nat.ltb_lt, Hy.
  - intros q. rewrite B, in_map_iff. split.
    + intros (N & u & <- & Hu). destruct (rpts_in r u Hr Hu) as (s & Hs & I). rewrite (ownerf_spec u s Hs I) in *.
      split; [exact Hs|]. split; [exact N|]. apply (rpts_ok r Hr) in Hu as (p & P1 & P2 & P3).
      apply (periodic_adjust_iff c p u Hok) in P3 as [P3 P4]. exists p, u. auto.
    + intros (Hq & N & p & u & P1 & P2 & P3 & P4 & P5). split; [exact N|]. exists u. split; [apply ownerf_spec; auto|].
      apply (rpts_ok r Hr). exists p. split; [exact P1|]. split; [exact P2|]. apply periodic_adjust_iff; auto.
Qed.

Lemma near_sym p u : near c p u -> near c u p.
Proof.
  intros (v & I & N). exists (tmake (fun d => tget p d + tget u d - tget v d)). split.
  - intros d Hd. rewrite tget_tmake by exact Hd. destruct (I d Hd) as [I1 I2]. split.
    + intros P. destruct (I1 P) as [k Hk]. exists (- k). lia.
    + intros P. rewrite (I2 P). lia.
  - intros d Hd. rewrite tget_tmake by exact Hd. specialize (N d Hd). lia.
Qed.

Lemma base_of_in u : stored_once c -> pt_in (c_range c) u -> in_base c u.
Proof.
  intros S H d Hd P. rewrite (S d Hd). pose proof (proj1 (pt_in_tget _ _) H d Hd). lia.
Qed.

Theorem neighbors_near r q : stored_once c -> (r < n)%nat ->
  (In q (nb r) <-> (q < n)%nat /\ q <> r /\ exists p u, pt_in (L r) p /\ pt_in (L q) u /\ near c p u).
Proof.
  intros SO Hr. pose proof D as D'. destruct D' as (Hnd & Hn & Hok & HD & Hper & _ & NE).
  rewrite (proj2 (neighbors_spec r Hr)). split; intros (Hq & N & H); (split; [exact Hq|split; [exact N|]]).
  - destruct H as (p & u & P1 & P2 & P3 & P4 & P5). exists (clamp_to_range (L r) p), u.
    split; [apply clamp_in, NE, Hr|]. split; [exact P5|]. exists p. split; [apply is_image_sym, P3|].
    intros d Hd. pose proof (NE r Hr) as NEr. rewrite rempty_false in NEr. pose proof (proj1 (pt_in_tget _ _) NEr d Hd).
    pose proof (proj1 (pt_in_tget _ _) P1 d Hd) as Q. destruct (extend_get c (L r) 1 d Hd) as [E1 E2]. rewrite E1, E2 in Q.
    unfold clamp_to_range. rewrite tget_tmake by exact Hd.
    destruct (Z.ltb_spec (tget p d) (tget (rb (L r)) d)), (Z.leb_spec (tget (re (L r)) d) (tget p d));
      destruct (_ && _) in Q; destruct (_ && _) in Q; lia.
  - destruct H as (p & u & P1 & P2 & v & P3 & P4).
    assert (Iu : pt_in (c_range c) u) by (eapply L_sub; eauto).
    assert (Bu : in_base c u) by (apply base_of_in; auto).
    exists v, u. split; [|split; [|split; [apply is_image_sym, P3|auto]]].
    + apply pt_in_tget. intros d Hd. destruct (extend_get c (L r) 1 d Hd) as [-> ->].
      pose proof (proj1 (pt_in_tget _ _) P1 d Hd). specialize (P4 d Hd). destruct (P3 d Hd) as [I1 I2].
      pose proof (proj1 (pt_in_tget _ _) Iu d Hd) as U. pose proof (L_within r Hr d Hd).
      destruct (tget (c_per c) d) eqn:P.
      * rewrite !orb_true_r, !andb_true_r.
        destruct (Nat.ltb_spec d (c_nd c)); [lia|]. specialize (Hper d ltac:(lia)). congruence.
      * rewrite !orb_false_r. rewrite (I2 eq_refl) in *.
        destruct (Nat.ltb_spec d (c_nd c)); cbn [andb].
        -- destruct (Z.eqb_spec (tget (rb (L r)) d) (tget (rb (c_range c)) d));
           destruct (Z.eqb_spec (tget (re (L r)) d) (tget (re (c_range c)) d)); cbn [negb]; lia.
        -- destruct (HD d ltac:(lia)) as [E1 E2]. rewrite E1, E2 in *. lia.
    + intros Iv. assert (v = u).
      { apply (base_unique c u v u Hok); auto using is_image_refl. apply base_of_in; [exact SO|apply (L_sub r Hr v Iv)]. }
      subst v. apply N. eapply L_unique; eauto.
Qed.

Theorem neighbors_sym r q : stored_once c -> (r < n)%nat -> (q < n)%nat -> (In q (nb r) <-> In r (nb q)).
Proof.
  intros SO Hr Hq. rewrite !neighbors_near by auto.
  split; intros (H1 & H2 & p & u & P1 & P2 & P3); (split; [assumption|split; [congruence|]]);
    exists u, p; split; auto; split; auto; apply near_sym; auto.
Qed.

(** Every point next to a local range is an image of a point of a neighbour or of the
    rank itself. *)
Theorem neighbors_cover r p : (r < n)%nat -> pt_in (extend_local_range c (L r) 1) p -> ~ pt_in (L r) p ->
  exists q u, (q = r \/ In q (nb r)) /\ is_image c p u /\ in_base c u /\ pt_in (L q) u.
Proof.
  intros Hr Hp Np. pose proof D as D'. destruct D' as (Hnd & Hn & Hok & HD & Hper & _ & NE).
  destruct (ring_adjusts r p Hr Hp) as (u & E & I). destruct (L_owner u I) as (q & Hq & J).
  apply (periodic_adjust_iff c p u Hok) in E as [E1 E2]. exists q, u. split; [|auto].
  destruct (Nat.eq_dec q r) as [->|N]; [left; reflexivity|right]. apply (neighbors_spec r Hr).
  split; [exact Hq|]. split; [exact N|]. exists p, u. auto 6.
Qed.
End Neigh.
