(** Proofs about choosing cells (C70). *)
From Coq Require Import List ZArith QArith Qminmax Qabs Bool Lia Lqa Sorting.Sorted.
From Verif Require Import TupleModel RangeModel Base RangeProof IndexerModel IndexerProof ArrayModel ArrayProof HashModel HashProof SendProof CollectProof CellModel CellSpec.
Import ListNotations.
Local Open Scope Z_scope.

Lemma q_lt_spec x y : reflect (x < y)%Q (q_lt x y).
Proof.
  unfold q_lt. destruct (Qle_bool y x) eqn:E; cbn [negb]; constructor.
  - apply Qle_bool_iff in E. lra.
  - destruct (Qlt_le_dec x y) as [H|H]; [exact H|]. apply Qle_bool_iff in H. congruence.
Qed.

Lemma q_eq_spec x y : reflect (x == y)%Q (Qeq_bool x y).
Proof. destruct (Qeq_bool x y) eqn:E; constructor; [apply Qeq_bool_iff; exact E|apply Qeq_bool_neq; exact E]. Qed.

(** ** The order on candidates *)

Ltac qcases := repeat match goal with
  | |- context [q_lt ?a ?b] => destruct (q_lt_spec a b)
  | |- context [Qeq_bool ?a ?b] => destruct (q_eq_spec a b)
  | |- context [?a <? ?b] => destruct (Z.ltb_spec a b)
  end; cbn [orb andb] in *.

Section Order.
Variables (rnd : Q -> Q) (nd : nat).
Notation bet := (better_cell rnd nd).

Lemma better_irrefl u i : bet u u i i = false.
Proof. unfold better_cell. destruct (inside nd u); qcases; auto; try lra; try lia. Qed.

Lemma better_asym u v i j : bet u v i j = true -> bet v u j i = false.
Proof.
  unfold better_cell. destruct (inside nd u), (inside nd v); try discriminate; auto; qcases; intros; try discriminate; auto; try lra; try lia.
Qed.

Lemma better_trans u v w i j k : bet u v i j = false -> bet v w j k = false -> bet u w i k = false.
Proof.
  unfold better_cell. destruct (inside nd u), (inside nd v), (inside nd w); try discriminate; auto; qcases; intros; try discriminate; auto; try lra; try lia.
Qed.

(** Candidates that are as good as each other are of the same cell. *)
Lemma better_antisym u v i j : bet u v i j = false -> bet v u j i = false -> i = j.
Proof.
  unfold better_cell. destruct (inside nd u), (inside nd v); try discriminate; auto; qcases; intros; try discriminate; auto; try lra; try lia.
Qed.
End Order.

(** ** Loops *)

Lemma nest_concat {A S} (f : S -> A -> option S) ll : forall s, ofoldl (fun s l => ofoldl f l s) ll s = ofoldl f (concat ll) s.
Proof.
  induction ll as [|l ll IH]; intros s; cbn [ofoldl concat]; [reflexivity|]. rewrite ofoldl_app. destruct (ofoldl f l s); auto.
Qed.

Definition foundb (qs : list query) (l : Z) : bool :=
  existsb (fun q => (q_point q =? l) && match q_cell q with Some _ => true | None => false end) qs.

Lemma foundb_iff qs l : foundb qs l = true <-> exists i u, In (Query l (Some i) u) qs.
Proof.
  unfold foundb. rewrite existsb_exists. split.
  - intros (q & Hq & E). apply andb_true_iff in E as [E1 E2]. apply Z.eqb_eq in E1. destruct q as [l' [i|] u]; cbn in *; [|discriminate]. subst. eauto.
  - intros (i & u & H). exists (Query l (Some i) u). split; [exact H|]. cbn. rewrite Z.eqb_refl. reflexivity.
Qed.

Lemma list_vread_ext {A} (a b : list A) : length a = length b -> (forall i, 0 <= i < Z.of_nat (length a) -> vread a i = vread b i) -> a = b.
Proof.
  revert b; induction a as [|x a IH]; intros [|y b] HL HE; cbn in HL; try lia; auto.
  assert (E := HE 0 ltac:(cbn; lia)). cbn in E. injection E as E. f_equal; [exact E|]. apply IH; [lia|].
  intros i Hi. assert (F := HE (i + 1) ltac:(cbn [length]; lia)). unfold vread in *. destruct (Z.ltb_spec (i + 1) 0); [lia|]. destruct (Z.ltb_spec i 0); [lia|].
  replace (Z.to_nat (i + 1)) with (S (Z.to_nat i)) in F by lia. exact F.
Qed.

Lemma zseq_vread n i : 0 <= i < Z.of_nat n -> vread (zseq 0 n) i = Some i.
Proof.
  intros Hi. unfold vread. destruct (Z.ltb_spec i 0); [lia|]. rewrite zseq_nth by lia. f_equal. lia.
Qed.

Lemma mark_ok n frags : (forall q, In q (concat frags) -> 0 <= q_point q < Z.of_nat n) ->
  mark n frags = Some (map (foundb (concat frags)) (zseq 0 n)).
Proof.
  intros HV. unfold mark. rewrite nest_concat.
  assert (LZ : length (zseq 0 n) = n) by apply zseq_length.
  destruct (ofoldl_split (fun m q => let! b := vread m (q_point q) in
                                         match q_cell q with
                                         | Some _ => if b : bool then Some m else vwrite m (q_point q) true
                                         | None => Some m
                                         end) (fun done m => m = map (foundb done) (zseq 0 n)) (concat frags)) with (s0 := repeat false n) as (m & E & I).
  - intros done q todo m E ->. assert (Hq : 0 <= q_point q < Z.of_nat n) by (apply HV; rewrite E; apply in_or_app; right; left; reflexivity).
    rewrite vread_fmap, zseq_vread by exact Hq. cbn [option_map].
    assert (ST : forall l, foundb (done ++ [q]) l = foundb done l || ((q_point q =? l) && match q_cell q with Some _ => true | None => false end)).
    { intros l. unfold foundb. rewrite existsb_app. cbn [existsb]. rewrite orb_false_r. reflexivity. }
    destruct (q_cell q) as [i|] eqn:EC.
    + destruct (foundb done (q_point q)) eqn:EF.
      * eexists; split; [reflexivity|]. apply map_ext. intros l. rewrite ST. destruct (Z.eqb_spec (q_point q) l); [subst; rewrite EF; reflexivity|cbn; rewrite orb_false_r; reflexivity].
      * destruct (vwrite_spec (map (foundb done) (zseq 0 n)) (q_point q) true) as (l' & E1 & E2 & E3); [rewrite map_length, LZ; exact Hq|].
        exists l'. split; [exact E1|]. rewrite map_length, LZ in E2. apply list_vread_ext; [rewrite map_length, LZ; exact E2|]. intros i0 Hi. rewrite E2 in Hi.
        rewrite E3, !vread_fmap, zseq_vread by exact Hi. cbn [option_map]. rewrite ST. rewrite Z.eqb_sym. destruct (Z.eqb_spec (q_point q) i0); cbn; [rewrite orb_true_r; reflexivity|rewrite orb_false_r; reflexivity].
    + eexists; split; [reflexivity|]. apply map_ext. intros l. rewrite ST, andb_false_r, orb_false_r. reflexivity.
  - apply list_vread_ext; [rewrite repeat_length, map_length, LZ; reflexivity|]. intros i Hi. rewrite repeat_length in Hi.
    rewrite vread_fmap, zseq_vread by exact Hi. unfold vread. destruct (Z.ltb_spec i 0); [lia|]. rewrite nth_error_repeat_lt by lia. reflexivity.
  - rewrite E, I. reflexivity.
Qed.

(** The points that are found, in order; their numbers. *)
Lemma number_app m b : number (m ++ [b]) = (let a := number m in if b : bool then (fst a ++ [snd a], snd a + 1) else (fst a ++ [-1], snd a)).
Proof. unfold number. rewrite fold_left_app. reflexivity. Qed.

Lemma zseq_snoc a n : zseq a (S n) = zseq a n ++ [a + Z.of_nat n].
Proof. replace (S n) with (n + 1)%nat by lia. rewrite zseq_app. reflexivity. Qed.

Lemma number_ok (g : Z -> bool) n : let fs := filter g (zseq 0 n) in
  snd (number (map g (zseq 0 n))) = Z.of_nat (length fs) /\ length (fst (number (map g (zseq 0 n)))) = n /\
  forall l, 0 <= l < Z.of_nat n -> g l = true -> exists k, vread (fst (number (map g (zseq 0 n)))) l = Some k /\ vread fs k = Some l.
Proof.
  induction n as [|n IH]; cbn zeta in *; [cbn; repeat split; intros; lia|]. destruct IH as (I1 & I2 & I3).
  rewrite zseq_snoc, map_app, filter_app. cbn [map filter]. rewrite number_app. cbn zeta. rewrite Z.add_0_l.
  assert (V : forall (a b : list Z) l, vread a l <> None -> vread (a ++ b) l = vread a l).
  { intros a b l H. unfold vread in *. destruct (Z.ltb_spec l 0); [reflexivity|]. apply nth_error_app1, nth_error_Some. exact H. }
  assert (W : forall (a : list Z) x, vread (a ++ [x]) (Z.of_nat (length a)) = Some x).
  { intros a x. rewrite vread_nth, nth_error_app2, Nat.sub_diag by lia. reflexivity. }
  assert (LR : forall y, length (fst (number (map g (zseq 0 n))) ++ [y]) = S n) by (intros; rewrite app_length, I2; cbn; lia).
  destruct (g (Z.of_nat n)) eqn:EG; cbn [fst snd].
  - split; [rewrite app_length, I1; cbn; lia|]. split; [apply LR|]. intros l Hl Hg.
    destruct (Z.eq_dec l (Z.of_nat n)) as [->|NE].
    + exists (Z.of_nat (length (filter g (zseq 0 n)))). rewrite <- I1. split; [|rewrite I1; apply W]. assert (X := W (fst (number (map g (zseq 0 n)))) (snd (number (map g (zseq 0 n))))). rewrite I2 in X. exact X.
    + destruct (I3 l ltac:(lia) Hg) as (k & K1 & K2). exists k. rewrite !V by congruence. split; assumption.
  - rewrite app_nil_r. split; [exact I1|]. split; [apply LR|]. intros l Hl Hg. destruct (Z.eq_dec l (Z.of_nat n)) as [->|NE]; [congruence|].
    destruct (I3 l ltac:(lia) Hg) as (k & K1 & K2). exists k. rewrite V by congruence. split; assumption.
Qed.

Lemma vwrite_map {A} (g g' : Z -> A) fs k l v : NoDup fs -> vread fs k = Some l -> g' l = v -> (forall m, In m fs -> m <> l -> g' m = g m) ->
  vwrite (map g fs) k v = Some (map g' fs).
Proof.
  intros ND HR HL HO. assert (Hk := vread_lt _ _ _ HR).
  destruct (vwrite_spec (map g fs) k v) as (l' & E1 & E2 & E3); [rewrite map_length; exact Hk|]. rewrite E1. f_equal.
  rewrite map_length in E2. apply list_vread_ext; [rewrite map_length; exact E2|]. intros i Hi. rewrite E2 in Hi. rewrite E3, !vread_fmap.
  destruct (Z.eqb_spec i k) as [->|NE]; [rewrite HR; cbn; congruence|].
  destruct (vread fs i) as [m|] eqn:EM; cbn; [|reflexivity]. rewrite HO; [reflexivity|eapply vread_In; exact EM|].
  intros ->. apply NE. eapply SendProof.vread_inj; eassumption.
Qed.

(** ** The candidates of one point *)

Section Agg.
Variables (rnd : Q -> Q) (nd : nat) (cellR loc : range).
Notation bet := (better_cell rnd nd).

Definition the_cell (i : Z) : tup Z := match rtuple ColMajor cellR i with Some t => t | None => T3 0 0 0 end.
Definition the_point (l : Z) : tup Z := match rtuple ColMajor loc l with Some t => t | None => T3 0 0 0 end.

Definition pick_step (l : Z) (x : option entry) (q : query) : option entry :=
  if q_point q =? l
  then match q_cell q with
       | None => x
       | Some i => match x with
                   | None => Some (Entry (the_cell i) (q_coords q) (the_point l))
                   | Some e => if bet (e_coords e) (q_coords q) (rindex ColMajor cellR (e_cell e)) i
                               then Some (Entry (the_cell i) (q_coords q) (e_point e)) else x
                   end
       end
  else x.
Definition pick (l : Z) (qs : list query) : option entry := fold_left (pick_step l) qs None.

Definition vq (q : query) : Prop := 0 <= q_point q < rcount loc /\ forall i, q_cell q = Some i -> 0 <= i < rcount cellR.

Lemma the_cell_ok i : 0 <= i < rcount cellR -> rtuple ColMajor cellR i = Some (the_cell i) /\ pt_in cellR (the_cell i) /\ rindex ColMajor cellR (the_cell i) = i.
Proof. intros Hi. destruct (rtuple_ok ColMajor cellR i Hi) as (t & E & P & I). unfold the_cell. rewrite E. auto. Qed.
Lemma the_point_ok i : 0 <= i < rcount loc -> rtuple ColMajor loc i = Some (the_point i) /\ pt_in loc (the_point i) /\ rindex ColMajor loc (the_point i) = i.
Proof. intros Hi. destruct (rtuple_ok ColMajor loc i Hi) as (t & E & P & I). unfold the_point. rewrite E. auto. Qed.

Lemma pick_app l qs q : pick l (qs ++ [q]) = pick_step l (pick l qs) q.
Proof. unfold pick. rewrite fold_left_app. reflexivity. Qed.

Lemma pick_ok l qs : (forall q, In q qs -> vq q) ->
  match pick l qs with
  | None => forall i u, ~ In (Query l (Some i) u) qs
  | Some e => e_point e = the_point l /\ exists i, 0 <= i < rcount cellR /\ e_cell e = the_cell i /\ In (Query l (Some i) (e_coords e)) qs /\
                forall j v, In (Query l (Some j) v) qs -> bet (e_coords e) v i j = false
  end.
Proof.
  induction qs as [|q qs IH] using rev_ind; intros HV; [cbn; intros i u []|].
  rewrite pick_app. specialize (IH (fun q0 H => HV q0 (in_or_app _ _ _ (or_introl H)))).
  destruct (HV q (in_or_app qs [q] q (or_intror (in_eq q [])))) as [HP HC].
  destruct q as [l' oc u]; unfold pick_step; cbn [q_point q_cell q_coords] in *.
  assert (OTH : (l' <> l \/ oc = None) -> forall i v, In (Query l (Some i) v) (qs ++ [Query l' oc u]) <-> In (Query l (Some i) v) qs).
  { intros HO i v. rewrite in_app_iff. cbn [In]. split; [intros [H|[H|[]]]; [exact H|injection H; intros; subst; destruct HO; congruence]|tauto]. }
  destruct (Z.eqb_spec l' l) as [->|NE].
  - destruct oc as [i|].
    + specialize (HC i eq_refl). destruct (the_cell_ok i HC) as (C1 & C2 & C3).
      destruct (pick l qs) as [e|].
      * destruct IH as (I1 & i0 & I2 & I3 & I4 & I5). destruct (the_cell_ok i0 I2) as (D1 & D2 & D3). rewrite I3, D3.
        destruct (bet (e_coords e) u i0 i) eqn:EB.
        -- cbn [e_point e_cell e_coords]. split; [exact I1|]. exists i. split; [exact HC|]. split; [reflexivity|]. split; [apply in_or_app; right; left; reflexivity|].
           intros j v Hj. apply in_app_or in Hj as [Hj|[Hj|[]]].
           ++ apply (better_trans rnd nd u (e_coords e) v i i0 j); [apply better_asym; exact EB|apply I5; exact Hj].
           ++ injection Hj as <- <-. apply better_irrefl.
        -- split; [exact I1|]. exists i0. split; [exact I2|]. split; [exact I3|]. split; [apply in_or_app; left; exact I4|].
           intros j v Hj. apply in_app_or in Hj as [Hj|[Hj|[]]]; [apply I5; exact Hj|]. injection Hj as <- <-. exact EB.
      * cbn [e_point e_cell e_coords]. split; [reflexivity|]. exists i. split; [exact HC|]. split; [reflexivity|]. split; [apply in_or_app; right; left; reflexivity|].
        intros j v Hj. apply in_app_or in Hj as [Hj|[Hj|[]]]; [destruct (IH _ _ Hj)|]. injection Hj as <- <-. apply better_irrefl.
    + specialize (OTH (or_intror eq_refl)). destruct (pick l qs) as [e|].
      * destruct IH as (I1 & i0 & I2 & I3 & I4 & I5). split; [exact I1|]. exists i0. split; [exact I2|]. split; [exact I3|]. split; [apply OTH; exact I4|].
        intros j v Hj. apply I5. apply OTH, Hj.
      * intros i v Hj. apply OTH in Hj. exact (IH _ _ Hj).
  - specialize (OTH (or_introl NE)). destruct (pick l qs) as [e|].
    + destruct IH as (I1 & i0 & I2 & I3 & I4 & I5). split; [exact I1|]. exists i0. split; [exact I2|]. split; [exact I3|]. split; [apply OTH; exact I4|].
      intros j v Hj. apply I5. apply OTH, Hj.
    + intros i v Hj. apply OTH in Hj. exact (IH _ _ Hj).
Qed.

(** ** All points *)

Lemma aggregate_pick frags : valid_queries cellR loc frags ->
  let qs := concat frags in let fs := filter (foundb qs) (zseq 0 (Z.to_nat (rcount loc))) in
  exists es, aggregate rnd nd cellR loc frags = Some es /\ map Some es = map (fun l => pick l qs) fs.
Proof.
  intros HV qs fs. unfold aggregate.
  assert (HQ : forall q, In q qs -> vq q).
  { intros q Hq. apply in_concat in Hq as (fr & H1 & H2). exact (HV fr q H1 H2). }
  assert (HN : forall q, In q qs -> 0 <= q_point q < Z.of_nat (Z.to_nat (rcount loc))).
  { intros q Hq. destruct (HQ q Hq) as [H _]. lia. }
  rewrite (mark_ok _ _ HN). fold qs.
  destruct (number_ok (foundb qs) (Z.to_nat (rcount loc))) as (N1 & N2 & N3). fold fs in N1, N3.
  destruct (number (map (foundb qs) (zseq 0 (Z.to_nat (rcount loc))))) as [before cnt]. cbn [fst snd] in *.
  assert (ND : NoDup fs) by (apply NoDup_filter, zseq_NoDup).
  destruct (Z.eqb_spec cnt 0) as [E0|NE0].
  { exists []. split; [reflexivity|]. destruct fs; [reflexivity|cbn in N1; lia]. }
  rewrite nest_concat. fold qs.
  destruct (ofoldl_split (put_entry rnd nd cellR loc before) (fun done arr => arr = map (fun l => pick l done) fs) qs) with (s0 := repeat (@None entry) (Z.to_nat cnt)) as (arr & EA & IA).
  - intros done q todo arr E ->.
    assert (Hin : In q qs) by (rewrite E; apply in_or_app; right; left; reflexivity).
    destruct (HQ q Hin) as [HP HC]. destruct (the_point_ok _ HP) as (P1 & P2 & P3). unfold put_entry.
    destruct (q_cell q) as [i|] eqn:EC.
    + destruct (the_cell_ok i (HC i eq_refl)) as (C1 & C2 & C3).
      assert (HF : foundb qs (q_point q) = true). { apply foundb_iff. exists i, (q_coords q). rewrite <- EC. destruct q; exact Hin. }
      destruct (N3 (q_point q) (HN q Hin) HF) as (k & K1 & K2). rewrite K1, P1, C1, vread_fmap, K2. cbn [option_map].
      assert (ST : forall m, pick m (done ++ [q]) = if q_point q =? m then pick m (done ++ [q]) else pick m done).
      { intros m. rewrite pick_app. unfold pick_step. destruct (q_point q =? m); reflexivity. }
      assert (SQ : pick (q_point q) (done ++ [q]) = match pick (q_point q) done with
                 | None => Some (Entry (the_cell i) (q_coords q) (the_point (q_point q)))
                 | Some e => if bet (e_coords e) (q_coords q) (rindex ColMajor cellR (e_cell e)) i
                             then Some (Entry (the_cell i) (q_coords q) (e_point e)) else pick (q_point q) done end).
      { rewrite pick_app. unfold pick_step at 1. rewrite Z.eqb_refl, EC. destruct (pick (q_point q) done); reflexivity. }
      assert (OTH : forall m, In m fs -> m <> q_point q -> pick m (done ++ [q]) = pick m done).
      { intros m _ Hm. rewrite ST. destruct (Z.eqb_spec (q_point q) m); [congruence|reflexivity]. }
      destruct (pick (q_point q) done) as [e|] eqn:EP.
      * destruct (bet (e_coords e) (q_coords q) (rindex ColMajor cellR (e_cell e)) i) eqn:EB.
        -- eexists; split; [eapply (vwrite_map (fun l => pick l done) (fun l => pick l (done ++ [q]))); [exact ND|exact K2|exact SQ|exact OTH]|reflexivity].
        -- eexists; split; [reflexivity|]. apply map_ext_in. intros m Hm. destruct (Z.eq_dec m (q_point q)) as [->|NE]; [rewrite SQ, EP; reflexivity|symmetry; apply OTH; assumption].
      * eexists; split; [eapply (vwrite_map (fun l => pick l done) (fun l => pick l (done ++ [q]))); [exact ND|exact K2|exact SQ|exact OTH]|reflexivity].
    + eexists; split; [reflexivity|]. apply map_ext. intros m. rewrite pick_app. unfold pick_step. rewrite EC. destruct (q_point q =? m); reflexivity.
  - rewrite N1, Nat2Z.id. clear. induction fs as [|x fs IH]; cbn [length repeat map]; [reflexivity|]. rewrite IH. reflexivity.
  - rewrite EA, IA. clear EA IA arr.
    assert (HF : forall l, In l fs -> exists e, pick l qs = Some e).
    { intros l Hl. apply filter_In in Hl as [_ Hl]. apply foundb_iff in Hl as (i & u & Hl). assert (G := pick_ok l qs HQ). destruct (pick l qs); [eauto|]. destruct (G _ _ Hl). }
    clear - HF. induction fs as [|x fs IH]; [exists []; split; reflexivity|].
    destruct (HF x (or_introl eq_refl)) as (e & Ee). destruct IH as (es & E1 & E2); [intros l Hl; apply HF; right; exact Hl|].
    exists (e :: es). cbn [map]. rewrite Ee, E2. split; [|reflexivity]. unfold omap in *. cbn [fold_right]. rewrite E1. reflexivity.
Qed.

Lemma entries_at frags es : valid_queries cellR loc frags -> map Some es = map (fun l => pick l (concat frags)) (filter (foundb (concat frags)) (zseq 0 (Z.to_nat (rcount loc)))) ->
  forall e, In e es <-> exists l, 0 <= l < rcount loc /\ pick l (concat frags) = Some e.
Proof.
  intros HV HE e. assert (HQ : forall q, In q (concat frags) -> vq q).
  { intros q Hq. apply in_concat in Hq as (fr & H1 & H2). exact (HV fr q H1 H2). }
  split.
  - intros Hi. apply (in_map Some) in Hi. rewrite HE in Hi. apply in_map_iff in Hi as (l & El & Hl). apply filter_In in Hl as [Hl _].
    apply zseq_In in Hl. exists l. split; [lia|exact El].
  - intros (l & Hl & El). assert (G := pick_ok l (concat frags) HQ). rewrite El in G. destruct G as (_ & i & _ & _ & Gi & _).
    assert (Hm : In (Some e) (map Some es)).
    { rewrite HE. rewrite <- El. apply (in_map (fun l => pick l (concat frags))). apply filter_In. split.
      - apply zseq_In. lia.
      - apply foundb_iff. eauto. }
    apply in_map_iff in Hm as (e' & E' & H'). injection E' as ->. exact H'.
Qed.

Lemma finds_concat frags l i u : finds frags l i u <-> In (Query l (Some i) u) (concat frags).
Proof. unfold finds. rewrite in_concat. reflexivity. Qed.

Lemma sorted_filter {A} (R : A -> A -> Prop) f l : StronglySorted R l -> StronglySorted R (filter f l).
Proof.
  induction 1 as [|a l HS IH HF]; cbn; [constructor|]. destruct (f a); [|exact IH]. constructor; [exact IH|].
  apply Forall_forall. intros x Hx. apply filter_In in Hx as [Hx _]. rewrite Forall_forall in HF. auto.
Qed.
Lemma sorted_zseq n : forall a, StronglySorted Z.lt (zseq a n).
Proof.
  induction n as [|n IH]; intros a; cbn [zseq]; [constructor|].
  constructor; [apply IH|]. apply Forall_forall. intros x Hx. apply zseq_In in Hx. lia.
Qed.
Lemma sorted_map {A B} (R : A -> A -> Prop) (R' : B -> B -> Prop) (f : A -> B) l : (forall x y, In x l -> In y l -> R x y -> R' (f x) (f y)) -> StronglySorted R l -> StronglySorted R' (map f l).
Proof.
  intros HF HS. induction HS as [|a l HS IH HA]; cbn; [constructor|]. constructor; [apply IH; intros; apply HF; cbn; auto|].
  apply Forall_forall. intros y Hy. apply in_map_iff in Hy as (x & <- & Hx). rewrite Forall_forall in HA. apply HF; cbn; auto.
Qed.

Lemma aggregate_ok frags : valid_queries cellR loc frags ->
  exists es, aggregate rnd nd cellR loc frags = Some es /\ lists_found loc frags es /\ from_candidates cellR loc frags es /\
  forall e j v, In e es -> finds frags (rindex ColMajor loc (e_point e)) j v -> bet (e_coords e) v (rindex ColMajor cellR (e_cell e)) j = false.
Proof.
  intros HV. destruct (aggregate_pick frags HV) as (es & E1 & E2). exists es. split; [exact E1|].
  assert (HQ : forall q, In q (concat frags) -> vq q).
  { intros q Hq. apply in_concat in Hq as (fr & H1 & H2). exact (HV fr q H1 H2). }
  assert (EP : map e_point es = map the_point (filter (foundb (concat frags)) (zseq 0 (Z.to_nat (rcount loc))))).
  { clear E1. revert es E2. induction (filter (foundb (concat frags)) (zseq 0 (Z.to_nat (rcount loc)))) as [|l fs IH]; intros [|e es] E; cbn in E; try discriminate; [reflexivity|].
    injection E as E F. cbn. f_equal; [|apply IH; exact F]. assert (G := pick_ok l (concat frags) HQ). rewrite <- E in G. apply G. }
  assert (ZI : forall l, In l (filter (foundb (concat frags)) (zseq 0 (Z.to_nat (rcount loc)))) -> 0 <= l < rcount loc /\ foundb (concat frags) l = true).
  { intros l Hl. apply filter_In in Hl as [Hl Hf]. apply zseq_In in Hl. split; [lia|exact Hf]. }
  split; [split|split].
  - rewrite EP. apply (sorted_map Z.lt); [|apply sorted_filter, sorted_zseq]. intros x y Hx Hy HL.
    rewrite (proj2 (proj2 (the_point_ok x (proj1 (ZI x Hx))))), (proj2 (proj2 (the_point_ok y (proj1 (ZI y Hy))))). exact HL.
  - intros p. rewrite EP, in_map_iff. split.
    + intros (l & <- & Hl). destruct (ZI l Hl) as [Hr Hf]. destruct (the_point_ok l Hr) as (_ & P2 & P3). split; [exact P2|]. rewrite P3. apply foundb_iff in Hf as (i & u & Hf). exists i, u. apply finds_concat, Hf.
    + intros (Hp & i & u & Hf). assert (B := rindex_bounds ColMajor loc p Hp). exists (rindex ColMajor loc p). split.
      * unfold the_point. rewrite rtuple_rindex by exact Hp. reflexivity.
      * apply filter_In. split; [apply zseq_In; lia|]. apply foundb_iff. exists i, u. apply finds_concat, Hf.
  - intros e He. apply (entries_at frags es HV E2) in He as (l & Hl & El). assert (G := pick_ok l (concat frags) HQ). rewrite El in G. destruct G as (G1 & i & G2 & G3 & G4 & _).
    destruct (the_cell_ok i G2) as (_ & C2 & C3). rewrite G3, G1, C3, (proj2 (proj2 (the_point_ok l Hl))). split; [exact C2|]. apply finds_concat, G4.
  - intros e j v He Hf. apply (entries_at frags es HV E2) in He as (l & Hl & El). assert (G := pick_ok l (concat frags) HQ). rewrite El in G. destruct G as (G1 & i & G2 & G3 & G4 & G5).
    destruct (the_cell_ok i G2) as (_ & C2 & C3). rewrite G3, C3. rewrite G1, (proj2 (proj2 (the_point_ok l Hl))) in Hf. apply G5. apply finds_concat, Hf.
Qed.
End Agg.

(** Whatever the local ranges, the fragments and their order: the same candidates, the same cell. *)
Lemma aggregate_same rnd nd cellR loc loc' frags frags' es es' :
  valid_queries cellR loc frags -> valid_queries cellR loc' frags' -> consistent frags ->
  aggregate rnd nd cellR loc frags = Some es -> aggregate rnd nd cellR loc' frags' = Some es' ->
  forall p, pt_in loc p -> pt_in loc' p ->
  (forall i u, finds frags (rindex ColMajor loc p) i u <-> finds frags' (rindex ColMajor loc' p) i u) ->
  forall e, e_point e = p -> (In e es <-> In e es').
Proof.
  intros V1 V2 HC A1 A2 p P1 P2 HF.
  assert (DIR : forall la lb fa fb ea eb, valid_queries cellR la fa -> valid_queries cellR lb fb ->
    (forall i u v, finds fa (rindex ColMajor la p) i u -> finds fa (rindex ColMajor la p) i v -> u = v) ->
    aggregate rnd nd cellR la fa = Some ea -> aggregate rnd nd cellR lb fb = Some eb -> pt_in la p -> pt_in lb p ->
    (forall i u, finds fa (rindex ColMajor la p) i u <-> finds fb (rindex ColMajor lb p) i u) -> forall e, e_point e = p -> In e ea -> In e eb).
  { clear. intros la lb fa fb ea eb V1 V2 HC A1 A2 P1 P2 HF e Ep He.
    destruct (aggregate_ok rnd nd cellR la fa V1) as (ea' & B1 & (_ & _) & B3 & B4). rewrite A1 in B1. injection B1 as <-.
    destruct (aggregate_ok rnd nd cellR lb fb V2) as (eb' & D1 & (D2 & D2') & D3 & D4). rewrite A2 in D1. injection D1 as <-.
    destruct (B3 e He) as [B5 B6]. rewrite Ep in B6.
    assert (Hp : In p (map e_point eb)). { apply D2'. split; [exact P2|]. eexists _, _. apply HF. exact B6. }
    apply in_map_iff in Hp as (e2 & Ep2 & He2). destruct (D3 e2 He2) as [D5 D6]. rewrite Ep2 in D6. apply HF in D6.
    assert (X1 := fun j v => B4 e j v He). rewrite Ep in X1. specialize (X1 _ _ D6).
    assert (X2 := fun j v => D4 e2 j v He2). rewrite Ep2 in X2. specialize (X2 _ _ (proj1 (HF _ _) B6)).
    assert (EC := better_antisym _ _ _ _ _ _ X1 X2). assert (ECC := rindex_inj ColMajor cellR _ _ B5 D5 EC). rewrite <- EC in D6. assert (EU := HC _ _ _ B6 D6).
    replace e with e2; [exact He2|]. destruct e, e2; cbn in *. congruence. }
  intros e Ep. split; intros He.
  - apply (DIR loc loc' frags frags' es es'); auto. intros i u v Hu Hv. exact (HC _ _ _ _ Hu Hv).
  - apply (DIR loc' loc frags' frags es' es); auto; [|intros; symmetry; apply HF]. intros i u v Hu Hv. apply HF in Hu, Hv. exact (HC _ _ _ _ Hu Hv).
Qed.

(** ** Exact arithmetic *)

Section Exact.
Variable nd : nat.
Notation id_q := (fun x : Q => x).

Lemma beyond_cases x : beyond x == (if q_lt 1 x then x - 1 else if q_lt x 0 then x else 0).
Proof.
  unfold beyond. destruct (q_lt_spec 1 x); [|destruct (q_lt_spec x 0)].
  - rewrite Q.min_r, Q.max_r by lra. reflexivity.
  - rewrite Q.min_l, Q.max_l by lra. lra.
  - rewrite Q.min_l, Q.max_r by lra. lra.
Qed.

Lemma excess_nonneg u : (0 <= excess nd u)%Q.
Proof.
  unfold excess. induction (seq 0 nd) as [|d l IH]; cbn; [lra|]. assert (0 <= beyond (tget u d) * beyond (tget u d))%Q by nra. lra.
Qed.

Lemma outside_excess u : (outside_distance id_q nd u == excess nd u)%Q.
Proof.
  unfold outside_distance, excess, dims.
  assert (G : forall l a, (fold_left (fun a d => let o := if q_lt 1 (tget u d) then (1 - tget u d)%Q else if q_lt (tget u d) 0 then (- tget u d)%Q else 0%Q in (a + o * o)%Q) l a
    == a + fold_right Qplus 0 (map (fun d => beyond (tget u d) * beyond (tget u d)) l))%Q).
  { induction l as [|d l IH]; intros a; cbn [fold_left fold_right map]; [lra|]. rewrite IH. cbn zeta. rewrite (beyond_cases (tget u d)).
    destruct (q_lt 1 (tget u d)); [|destruct (q_lt (tget u d) 0)]; ring. }
  rewrite (G (seq 0 nd) 0%Q). ring.
Qed.

Lemma inside_excess u : if inside nd u then (excess nd u == 0)%Q else (0 < excess nd u)%Q.
Proof.
  unfold inside, excess, dims. induction (seq 0 nd) as [|d l IH]; cbn [forallb map fold_right]; [reflexivity|].
  assert (B := beyond_cases (tget u d)).
  assert (NN : (0 <= fold_right Qplus 0 (map (fun d => beyond (tget u d) * beyond (tget u d)) l))%Q).
  { clear. induction l as [|d l IH]; cbn; [lra|]. assert (0 <= beyond (tget u d) * beyond (tget u d))%Q by nra. lra. }
  destruct (q_lt_spec (tget u d) 0); cbn [orb negb andb].
  - destruct (q_lt_spec 1 (tget u d)); [lra|]. assert (0 < beyond (tget u d) * beyond (tget u d))%Q by nra. lra.
  - destruct (q_lt_spec 1 (tget u d)); cbn [orb negb andb].
    + assert (0 < beyond (tget u d) * beyond (tget u d))%Q by nra. lra.
    + destruct (forallb _ l); rewrite B; lra.
Qed.

Lemma center_spec u : let c := center_distance id_q nd u in
  (0 <= c)%Q /\ (forall d, (d < nd)%nat -> (Qabs (tget u d - (1 # 2)) <= c)%Q) /\ ((c == 0)%Q \/ exists d, (d < nd)%nat /\ (c == Qabs (tget u d - (1 # 2)))%Q).
Proof.
  unfold center_distance, dims. cbn zeta.
  assert (G : forall l a, (0 <= a)%Q -> let c := fold_left (fun a d => Qmax a (Qabs (tget u d - (1 # 2)))) l a in
    (a <= c)%Q /\ (forall d, In d l -> (Qabs (tget u d - (1 # 2)) <= c)%Q) /\ ((c == a)%Q \/ exists d, In d l /\ (c == Qabs (tget u d - (1 # 2)))%Q)).
  { induction l as [|d l IH]; intros a Ha; cbn [fold_left]; cbn zeta.
    - split; [lra|]. split; [intros d []|left; reflexivity].
    - assert (M1 := Q.le_max_l a (Qabs (tget u d - (1 # 2)))). assert (M2 := Q.le_max_r a (Qabs (tget u d - (1 # 2)))).
      destruct (IH (Qmax a (Qabs (tget u d - (1 # 2)))) ltac:(lra)) as (I1 & I2 & I3). split; [lra|]. split.
      + intros e [->|He]; [lra|apply I2, He].
      + destruct I3 as [I3|(e & He & I3)]; [|right; exists e; split; [right; exact He|exact I3]].
        destruct (Q.max_dec a (Qabs (tget u d - (1 # 2)))) as [H|H]; [left; lra|right; exists d; split; [left; reflexivity|lra]]. }
  destruct (G (seq 0 nd) 0%Q ltac:(lra)) as (G1 & G2 & G3). split; [exact G1|]. split.
  - intros d Hd. apply G2, in_seq. lia.
  - destruct G3 as [G3|(d & Hd & G3)]; [left; exact G3|right; exists d; split; [apply in_seq in Hd; lia|exact G3]].
Qed.

Lemma center_le u v : (center_distance id_q nd u <= center_distance id_q nd v)%Q <-> no_farther nd u v.
Proof.
  destruct (center_spec u) as (U0 & U1 & U2), (center_spec v) as (V0 & V1 & V2). unfold no_farther. split.
  - intros H d Hd. destruct V2 as [V2|(e & He & V2)].
    + exists d. split; [exact Hd|]. specialize (U1 d Hd). assert (N := Qabs_nonneg (tget v d - (1 # 2))). lra.
    + exists e. split; [exact He|]. specialize (U1 d Hd). lra.
  - intros H. destruct U2 as [U2|(d & Hd & U2)]; [lra|]. destruct (H d Hd) as (e & He & HE). specialize (V1 e He). lra.
Qed.

Lemma better_exact u v i j : better_cell id_q nd u v i j = false <-> as_good nd u i v j.
Proof.
  unfold better_cell, as_good. assert (IU := inside_excess u). assert (IV := inside_excess v).
  assert (OU := outside_excess u). assert (OV := outside_excess v). assert (CL := center_le u v). assert (CR := center_le v u).
  destruct (inside nd u), (inside nd v).
  - split.
    + destruct (q_lt_spec (center_distance id_q nd v) (center_distance id_q nd u)) as [H|H]; cbn [orb]; [discriminate|].
      destruct (q_eq_spec (center_distance id_q nd v) (center_distance id_q nd u)) as [E|E]; cbn [andb].
      * intros HZ. apply Z.ltb_ge in HZ. right. right. split; [exact IU|]. split; [exact IV|]. split; [apply CL; lra|auto].
      * intros _. right. right. split; [exact IU|]. split; [exact IV|]. split; [apply CL; lra|]. intros HN. apply CR in HN. exfalso. apply E. lra.
    + intros [H|[(H1 & H2 & _)|(_ & _ & H1 & H2)]]; [lra|lra|]. apply CL in H1. destruct (q_lt_spec (center_distance id_q nd v) (center_distance id_q nd u)) as [H|H]; [lra|].
      destruct (q_eq_spec (center_distance id_q nd v) (center_distance id_q nd u)) as [E|E]; cbn [orb andb]; [|reflexivity]. apply Z.ltb_ge, H2, CR. lra.
  - split; [intros _; left; lra|reflexivity].
  - split; [discriminate|]. intros [H|[(H1 & H2 & _)|(H1 & _)]]; lra.
  - split.
    + destruct (q_lt_spec (outside_distance id_q nd v) (outside_distance id_q nd u)) as [H|H]; cbn [orb]; [discriminate|].
      destruct (q_eq_spec (outside_distance id_q nd v) (outside_distance id_q nd u)) as [E|E]; cbn [andb].
      * intros HZ. apply Z.ltb_ge in HZ. right. left. split; [lra|]. split; [lra|exact HZ].
      * intros _. left. destruct (Qlt_le_dec (excess nd u) (excess nd v)) as [L|L]; [exact L|]. exfalso. apply E. lra.
    + intros [H|[(H1 & _ & H2)|(H1 & _)]]; [| |lra].
      * destruct (q_lt_spec (outside_distance id_q nd v) (outside_distance id_q nd u)); [lra|]. destruct (q_eq_spec (outside_distance id_q nd v) (outside_distance id_q nd u)); [lra|reflexivity].
      * destruct (q_lt_spec (outside_distance id_q nd v) (outside_distance id_q nd u)); [lra|]. cbn [orb]. destruct (Z.ltb_spec j i); [lia|]. apply andb_false_r.
Qed.

Lemma aggregate_exact cellR loc frags : valid_queries cellR loc frags ->
  exists es, aggregate id_q nd cellR loc frags = Some es /\ lists_found loc frags es /\ from_candidates cellR loc frags es /\
  forall e j v, In e es -> finds frags (rindex ColMajor loc (e_point e)) j v -> as_good nd (e_coords e) (rindex ColMajor cellR (e_cell e)) v j.
Proof.
  intros HV. destruct (aggregate_ok id_q nd cellR loc frags HV) as (es & E & A & B & C). exists es. repeat split; try assumption; try apply A; try apply B; auto.
  intros e j v He Hf. apply better_exact. apply C; assumption.
Qed.
End Exact.

Lemma aggregate_listed rnd nd cellR loc frags : valid_queries cellR loc frags ->
  exists es, aggregate rnd nd cellR loc frags = Some es /\ lists_found loc frags es /\ from_candidates cellR loc frags es.
Proof. intros HV. destruct (aggregate_ok rnd nd cellR loc frags HV) as (es & E & A & B & _). eauto. Qed.
