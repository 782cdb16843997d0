(** An update of the exchanger on all ranks. *)
From Coq Require Import List ZArith NArith Bool Lia.
From Verif Require Import TupleModel RangeModel ContModel DomainModel DomainSpec OMap PairMap DomainProof XchModel ExcModel.
Import ListNotations.

Lemma kin_spec k l : kin k l = true <-> In k l.
Proof.
  unfold kin. rewrite existsb_exists. split.
  - intros (x & I & E). destruct (oid_eqb_spec k x); congruence.
  - intros I. exists k. split; [exact I|]. destruct (oid_eqb_spec k k); congruence.
Qed.
Lemma kin_cons k a l : kin k (a :: l) = peqb k a || kin k l.
Proof. reflexivity. Qed.

(** ** Maps *)
Lemma assign_ok {V} (m : smap oid V) k f v w : mok pair_less m -> mget pair_less m k = Some v -> f v = Some w ->
  exists m', assign m k f = Some m' /\ mok pair_less m' /\ forall j, mget pair_less m' j = if peqb j k then Some w else mget pair_less m j.
Proof.
  intros G E F. unfold assign. rewrite (mget_contains pair_less pair_swo m k G), E, (mget_at pair_less pair_swo m k v G E), F.
  assert (HN : mget pair_less m k <> None) by congruence.
  eexists. split; [reflexivity|]. split; [apply (mok_write pair_less pair_swo m k w G HN)|].
  intros j. rewrite (mget_write pair_less pair_swo pEQ m k w j G HN), pkq. reflexivity.
Qed.

Lemma assign_all {V} (g : oid -> V -> V) ids : NoDup ids -> forall m : smap oid V, mok pair_less m ->
  (forall k, In k ids -> mget pair_less m k <> None) ->
  exists m', ofold (fun m k => assign m k (fun l => Some (g k l))) ids m = Some m' /\ mok pair_less m' /\
    forall j, mget pair_less m' j = if kin j ids then option_map (g j) (mget pair_less m j) else mget pair_less m j.
Proof.
  induction ids as [|k ids IH]; intros ND m G H; [exists m; split; [reflexivity|]; split; [exact G|]; reflexivity|].
  inversion ND as [|? ? Nk ND']; subst.
  destruct (mget pair_less m k) as [v|] eqn:E; [|elim (H k (or_introl eq_refl) E)].
  destruct (assign_ok m k (fun l => Some (g k l)) v (g k v) G E eq_refl) as (m1 & E1 & G1 & M1).
  destruct (IH ND' m1 G1) as (m2 & E2 & G2 & M2).
  { intros j Ij. rewrite M1. destruct (peqb j k); [discriminate|]. apply H. right. exact Ij. }
  exists m2. cbn [ofold]. rewrite E1. split; [exact E2|]. split; [exact G2|]. intros j. rewrite M2, M1, kin_cons.
  destruct (peqb_spec j k) as [->|Nj].
  - destruct (kin k ids) eqn:Ek; [apply kin_spec in Ek; contradiction|]. cbn [orb]. rewrite E. reflexivity.
  - reflexivity.
Qed.

(** ** One rank *)
Definition xgood (x : xrank) : Prop := mok pair_less (x_ms x) /\ mok pair_less (x_ns x).
Definition man (x : xrank) := (x_create x, x_destroy x, x_ranks x, x_reset x).

Section Rank.
Context (c : dom) (loc : Z -> nat -> bool) (known : Z -> Prop).
Hypothesis HL : forall g r, known g -> grid_local c g r = Some (loc g r).
Definition ok_ids (ids : list oid) : Prop := NoDup ids /\ forall k, In k ids -> known (fst k) /\ known (snd k).

Lemma ok_tail k ids : ok_ids (k :: ids) -> ok_ids ids.
Proof. intros [A B]. split; [inversion A; auto|]. intros j J. apply B. right. exact J. Qed.

Lemma create_all r ids : ok_ids ids -> forall x, xgood x ->
  exists x', ofold (create_loc c r) ids x = Some x' /\ xgood x' /\ man x' = man x /\ forall k,
    mget pair_less (x_ms x') k = (if kin k ids && loc (fst k) r then Some (LocM [] None []) else mget pair_less (x_ms x) k) /\
    mget pair_less (x_ns x') k = (if kin k ids && loc (snd k) r then Some (LocN [] None []) else mget pair_less (x_ns x) k).
Proof.
  induction ids as [|a ids IH]; intros HO x G; [exists x; split; [reflexivity|]; split; [exact G|]; split; [reflexivity|]; intros k; split; reflexivity|].
  destruct G as [Gm Gn]. cbn [ofold]. unfold create_loc at 1. destruct (proj2 HO a (or_introl eq_refl)) as [K1 K2].
  rewrite (HL _ r K1), (HL _ r K2).
  set (x1 := XR _ _ _ _ _ _).
  assert (M1 : xgood x1).
  { split; cbn [x1 x_ms x_ns]; [destruct (loc (fst a) r)|destruct (loc (snd a) r)]; try apply mok_insert; auto; exact pair_swo. }
  destruct (IH (ok_tail _ _ HO) x1 M1) as (x' & E & G' & MN & M). exists x'. split; [exact E|]. split; [exact G'|]. split; [rewrite MN; reflexivity|].
  intros k. destruct (M k) as [A B]. rewrite A, B. cbn [x1 x_ms x_ns]. rewrite kin_cons. split.
  - destruct (loc (fst a) r) eqn:La.
    + rewrite (mget_insert pair_less pair_swo _ a _ k Gm), pkq. destruct (peqb_spec k a) as [->|N]; cbn [orb]; [|reflexivity].
      rewrite La. destruct (kin a ids); reflexivity.
    + destruct (peqb_spec k a) as [->|N]; cbn [orb]; [|reflexivity]. rewrite La, andb_false_r. reflexivity.
  - destruct (loc (snd a) r) eqn:La.
    + rewrite (mget_insert pair_less pair_swo _ a _ k Gn), pkq. destruct (peqb_spec k a) as [->|N]; cbn [orb]; [|reflexivity].
      rewrite La. destruct (kin a ids); reflexivity.
    + destruct (peqb_spec k a) as [->|N]; cbn [orb]; [|reflexivity]. rewrite La, andb_false_r. reflexivity.
Qed.

Lemma destroy_all ids : forall x, xgood x ->
  let x' := fold_left destroy_loc ids x in xgood x' /\ man x' = man x /\ forall k,
    mget pair_less (x_ms x') k = (if kin k ids then None else mget pair_less (x_ms x) k) /\
    mget pair_less (x_ns x') k = (if kin k ids then None else mget pair_less (x_ns x) k).
Proof.
  induction ids as [|a ids IH]; intros x G; [split; [exact G|]; split; [reflexivity|]; intros k; split; reflexivity|].
  cbn [fold_left]. destruct G as [Gm Gn].
  destruct (IH (destroy_loc x a)) as (G' & MN & M).
  { split; apply mok_erase; auto; exact pair_swo. }
  split; [exact G'|]. split; [rewrite MN; reflexivity|]. intros k. destruct (M k) as [A B]. rewrite A, B. cbn [destroy_loc x_ms x_ns].
  rewrite (mget_erase pair_less pair_swo _ a k Gm), (mget_erase pair_less pair_swo _ a k Gn), pkq, kin_cons.
  destruct (peqb k a), (kin k ids); split; reflexivity.
Qed.

Lemma local_ids_ok side r ids : (forall k, In k ids -> known (side k)) -> local_ids c side r ids = Some (filter (fun k => loc (side k) r) ids).
Proof.
  induction ids as [|a ids IH]; intros H; [reflexivity|]. cbn [local_ids filter]. rewrite (HL _ r (H a (or_introl eq_refl))).
  rewrite IH by (intros k K; apply H; right; exact K). destruct (loc (side a) r); reflexivity.
Qed.

Lemma kin_filter k (p : oid -> bool) ids : kin k (filter p ids) = kin k ids && p k.
Proof.
  apply eq_true_iff_eq. rewrite andb_true_iff, !kin_spec, filter_In. reflexivity.
Qed.

Lemma take_ok (t : tables) (n : nat) em en ms ns r mids nids x : NoDup mids -> NoDup nids -> xgood x ->
  (forall k, In k mids -> mget pair_less (x_ms x) k <> None) -> (forall k, In k nids -> mget pair_less (x_ns x) k <> None) ->
  exists x', take_ranks t n em en ms ns r mids nids x = Some x' /\ xgood x' /\ man x' = man x /\ forall k,
    mget pair_less (x_ms x') k = (if kin k mids then option_map (fun l => LocM (map (find_dest n ns (conn_m t em r k)) (em r k)) (lm_maps l) (lm_ops l)) (mget pair_less (x_ms x) k)
      else mget pair_less (x_ms x) k) /\
    mget pair_less (x_ns x') k = (if kin k nids then option_map (fun l => LocN (map (find_src n ms (conn_n en r k)) (en r k)) (ln_maps l) (ln_ops l)) (mget pair_less (x_ns x) k)
      else mget pair_less (x_ns x) k).
Proof.
  intros N1 N2 [Gm Gn] H1 H2. unfold take_ranks.
  destruct (assign_all (fun k l => LocM (map (find_dest n ns (conn_m t em r k)) (em r k)) (lm_maps l) (lm_ops l)) mids N1 _ Gm H1) as (m1 & E1 & G1 & M1).
  destruct (assign_all (fun k l => LocN (map (find_src n ms (conn_n en r k)) (en r k)) (ln_maps l) (ln_ops l)) nids N2 _ Gn H2) as (m2 & E2 & G2 & M2).
  cbv zeta. cbn [conn_m conn_n mc_donors nc_receivers] in *. rewrite E1, E2. eexists. split; [reflexivity|]. split; [split; assumption|]. split; [reflexivity|].
  intros k. cbn [x_ms x_ns]. split; [apply M1|apply M2].
Qed.

Lemma reset_all em en r ids : ok_ids ids -> forall x, xgood x ->
  (forall k, In k ids -> loc (fst k) r = true -> mget pair_less (x_ms x) k <> None) ->
  (forall k, In k ids -> loc (snd k) r = true -> mget pair_less (x_ns x) k <> None) ->
  exists x', ofold (reset_loc c em en r) ids x = Some x' /\ xgood x' /\ man x' = man x /\ forall k,
    mget pair_less (x_ms x') k = (if kin k ids && loc (fst k) r then option_map (fun l => LocM (lm_ranks l) (Some (map d_lower (em r k), map d_point (em r k), lm_ranks l)) []) (mget pair_less (x_ms x) k)
      else mget pair_less (x_ms x) k) /\
    mget pair_less (x_ns x') k = (if kin k ids && loc (snd k) r then option_map (fun l => LocN (ln_ranks l) (Some (map r_point (en r k), ln_ranks l)) []) (mget pair_less (x_ns x) k)
      else mget pair_less (x_ns x) k).
Proof.
  induction ids as [|a ids IH]; intros HO x G H1 H2; [exists x; split; [reflexivity|]; split; [exact G|]; split; [reflexivity|]; intros k; split; reflexivity|].
  destruct G as [Gm Gn]. cbn [ofold]. unfold reset_loc at 1. destruct (proj2 HO a (or_introl eq_refl)) as [K1 K2].
  rewrite (HL _ r K1), (HL _ r K2).
  assert (Na : ~ In a ids) by (destruct HO as [ND _]; inversion ND; auto).
  assert (Ka : kin a ids = false) by (destruct (kin a ids) eqn:E; [apply kin_spec in E; contradiction|reflexivity]).
  assert (A : exists m, (if loc (fst a) r then assign (x_ms x) a (fun l => Some (LocM (lm_ranks l) (Some (map d_lower (em r a), map d_point (em r a), lm_ranks l)) [])) else Some (x_ms x)) = Some m /\
    mok pair_less m /\ forall k, mget pair_less m k = if peqb k a && loc (fst a) r then
      option_map (fun l => LocM (lm_ranks l) (Some (map d_lower (em r a), map d_point (em r a), lm_ranks l)) []) (mget pair_less (x_ms x) a) else mget pair_less (x_ms x) k).
  { destruct (loc (fst a) r) eqn:La; [|exists (x_ms x); split; [reflexivity|]; split; [exact Gm|]; intros k; rewrite andb_false_r; reflexivity].
    destruct (mget pair_less (x_ms x) a) as [l|] eqn:E; [|elim (H1 a (or_introl eq_refl) La E)].
    edestruct (assign_ok (x_ms x) a (fun l => Some (LocM (lm_ranks l) (Some (map d_lower (em r a), map d_point (em r a), lm_ranks l)) []))) as (m & E' & G' & M'); [exact Gm|exact E|cbv beta; reflexivity|].
    exists m. split; [exact E'|]. split; [exact G'|]. intros k. rewrite M', andb_true_r. reflexivity. }
  assert (B : exists m, (if loc (snd a) r then assign (x_ns x) a (fun l => Some (LocN (ln_ranks l) (Some (map r_point (en r a), ln_ranks l)) [])) else Some (x_ns x)) = Some m /\
    mok pair_less m /\ forall k, mget pair_less m k = if peqb k a && loc (snd a) r then
      option_map (fun l => LocN (ln_ranks l) (Some (map r_point (en r a), ln_ranks l)) []) (mget pair_less (x_ns x) a) else mget pair_less (x_ns x) k).
  { destruct (loc (snd a) r) eqn:La; [|exists (x_ns x); split; [reflexivity|]; split; [exact Gn|]; intros k; rewrite andb_false_r; reflexivity].
    destruct (mget pair_less (x_ns x) a) as [l|] eqn:E; [|elim (H2 a (or_introl eq_refl) La E)].
    edestruct (assign_ok (x_ns x) a (fun l => Some (LocN (ln_ranks l) (Some (map r_point (en r a), ln_ranks l)) []))) as (m & E' & G' & M'); [exact Gn|exact E|cbv beta; reflexivity|].
    exists m. split; [exact E'|]. split; [exact G'|]. intros k. rewrite M', andb_true_r. reflexivity. }
  destruct A as (ma & EA & GA & MA). destruct B as (mb & EB & GB & MB). rewrite EA, EB.
  set (x1 := XR _ _ _ _ _ _). destruct (IH (ok_tail _ _ HO) x1 (conj GA GB)) as (x' & E & G' & MN & M).
  { intros k Ik Lk. cbn [x1 x_ms]. rewrite MA. destruct (peqb_spec k a) as [->|N]; [contradiction|]. apply H1; [right; exact Ik|exact Lk]. }
  { intros k Ik Lk. cbn [x1 x_ns]. rewrite MB. destruct (peqb_spec k a) as [->|N]; [contradiction|]. apply H2; [right; exact Ik|exact Lk]. }
  exists x'. split; [exact E|]. split; [exact G'|]. split; [rewrite MN; reflexivity|]. intros k. destruct (M k) as [P Q]. rewrite P, Q. cbn [x1 x_ms x_ns].
  rewrite MA, MB, kin_cons. destruct (peqb_spec k a) as [->|N]; cbn [orb andb]; [|split; reflexivity]. rewrite Ka. cbn [andb].
  split; [destruct (loc (fst a) r)|destruct (loc (snd a) r)]; reflexivity.
Qed.
End Rank.

(** ** All ranks *)
Lemma rank_of_ext n P Q : (forall q, (q < n)%nat -> P q = Q q) -> rank_of n P = rank_of n Q.
Proof.
  intros H. unfold rank_of. assert (G : forall l x, incl l (seq 0 n) ->
    fold_left (fun x q => if P q then Z.of_nat q else x) l x = fold_left (fun x q => if Q q then Z.of_nat q else x) l x); [|apply G, incl_refl].
  induction l as [|q l IH]; intros x I; [reflexivity|]. cbn [fold_left]. rewrite (H q) by (specialize (I q (or_introl eq_refl)); apply in_seq in I; lia).
  apply IH. intros z Hz. apply I. right. exact Hz.
Qed.
Lemma find_dest_ext n ns ns' mc d : (forall q, (q < n)%nat -> ns q = ns' q) -> find_dest n ns mc d = find_dest n ns' mc d.
Proof.
  intros H. unfold find_dest. rewrite (rank_of_ext n _ (fun q => has_receiver (ns' q) (mc_grid mc) (d_point d))); [reflexivity|].
  intros q Hq. rewrite (H q Hq). reflexivity.
Qed.
Lemma find_src_ext n ms ms' nc y : (forall q, (q < n)%nat -> ms q = ms' q) -> find_src n ms nc y = find_src n ms' nc y.
Proof.
  intros H. unfold find_src. rewrite (rank_of_ext n _ (fun q => has_donor (ms' q) (nc_grid nc) (r_point y))); [reflexivity|].
  intros q Hq. rewrite (H q Hq). reflexivity.
Qed.

Section All.
Context (t : tables) (n : nat) (c : dom) (em : nat -> oid -> list donor) (en : nat -> oid -> list receiver).
Context (loc : Z -> nat -> bool) (known : Z -> Prop).
Hypothesis HL : forall g r, known g -> grid_local c g r = Some (loc g r).
(** The manifest, the same on all ranks. *)
Context (C D R S : list oid).
Hypothesis HC : ok_ids known C.
Hypothesis HR : ok_ids known R.
Hypothesis HS : ok_ids known S.

(** The connectivities that take part in finding ranks. *)
Definition part_m (q : nat) : list mconn := map (conn_m t em q) (filter (fun k => loc (fst k) q) R).
Definition part_n (q : nat) : list nconn := map (conn_n en q) (filter (fun k => loc (snd k) q) R).

(** What the update makes of what the exchanger has for a connectivity. *)
Definition after_m (r : nat) (k : oid) (o : option loc_m) : option loc_m :=
  let o := if kin k C && loc (fst k) r then Some (LocM [] None []) else o in
  let o := if kin k D then None else o in
  let o := if kin k R && loc (fst k) r then
      option_map (fun l => LocM (map (find_dest n part_n (conn_m t em r k)) (em r k)) (lm_maps l) (lm_ops l)) o else o in
  if kin k S && loc (fst k) r then
    option_map (fun l => LocM (lm_ranks l) (Some (map d_lower (em r k), map d_point (em r k), lm_ranks l)) []) o else o.
Definition after_n (r : nat) (k : oid) (o : option loc_n) : option loc_n :=
  let o := if kin k C && loc (snd k) r then Some (LocN [] None []) else o in
  let o := if kin k D then None else o in
  let o := if kin k R && loc (snd k) r then
      option_map (fun l => LocN (map (find_src n part_m (conn_n en r k)) (en r k)) (ln_maps l) (ln_ops l)) o else o in
  if kin k S && loc (snd k) r then
    option_map (fun l => LocN (ln_ranks l) (Some (map r_point (en r k), ln_ranks l)) []) o else o.

Definition there (r : nat) (x : xrank) : Prop := forall k, In k R \/ In k S ->
  (loc (fst k) r = true -> In k C \/ mget pair_less (x_ms x) k <> None) /\
  (loc (snd k) r = true -> In k C \/ mget pair_less (x_ns x) k <> None) /\ ~ In k D.

Lemma forallb_same {A} (p : A -> bool) b l : (forall x, In x l -> p x = b) -> l <> [] -> forallb p l = b /\ existsb p l = b.
Proof.
  intros H. induction l as [|x l IH]; intros N; [congruence|]. cbn. rewrite (H x (or_introl eq_refl)).
  destruct l as [|y l]; [cbn; destruct b; auto|]. destruct IH as [X Y]; [intros z Iz; apply H; right; exact Iz|discriminate|]. rewrite X, Y. destruct b; auto.
Qed.

Theorem update_ok xs : length xs = n ->
  (forall r x, nth_error xs r = Some x -> xgood x /\ man x = (C, D, R, S) /\ there r x) ->
  exists xs', update t n c em en xs = Some xs' /\ length xs' = n /\
    forall r x, nth_error xs r = Some x -> exists x', nth_error xs' r = Some x' /\ xgood x' /\ man x' = ([], [], [], []) /\ forall k,
      mget pair_less (x_ms x') k = after_m r k (mget pair_less (x_ms x) k) /\
      mget pair_less (x_ns x') k = after_n r k (mget pair_less (x_ns x) k).
Proof.
  intros Ln HX. unfold update.
  destruct (on_ranks_spec (fun r x => ofold (create_loc c r) (x_create x) x) (fun r x x' => xgood x' /\ man x' = (C, D, R, S) /\ forall k,
    mget pair_less (x_ms x') k = (if kin k C && loc (fst k) r then Some (LocM [] None []) else mget pair_less (x_ms x) k) /\
    mget pair_less (x_ns x') k = (if kin k C && loc (snd k) r then Some (LocN [] None []) else mget pair_less (x_ns x) k)) xs 0) as (xs1 & E1 & L1 & H1).
  { intros r x Hx. destruct (HX r x Hx) as (G & M & _). cbn [Nat.add]. assert (EC : x_create x = C) by (unfold man in M; congruence). rewrite EC.
    destruct (create_all c loc known HL r C HC x G) as (x' & E & G' & M' & A). exists x'. split; [exact E|]. split; [exact G'|]. split; [congruence|exact A]. }
  rewrite E1. clear E1.
  set (xs2 := map (fun x => fold_left destroy_loc (x_destroy x) x) xs1).
  assert (L2 : length xs2 = n) by (unfold xs2; rewrite map_length; congruence).
  assert (H2 : forall r x, nth_error xs r = Some x -> exists x', nth_error xs2 r = Some x' /\ xgood x' /\ man x' = (C, D, R, S) /\ forall k,
    mget pair_less (x_ms x') k = (if kin k D then None else if kin k C && loc (fst k) r then Some (LocM [] None []) else mget pair_less (x_ms x) k) /\
    mget pair_less (x_ns x') k = (if kin k D then None else if kin k C && loc (snd k) r then Some (LocN [] None []) else mget pair_less (x_ns x) k)).
  { intros r x Hx. destruct (H1 r x Hx) as (x1 & N1 & G1 & M1 & A1). destruct (destroy_all (x_destroy x1) x1 G1) as (G2 & M2 & A2).
    assert (ED : x_destroy x1 = D) by (unfold man in M1; congruence). rewrite ED in *.
    eexists. split; [unfold xs2; apply (map_nth_error _ r xs1 N1)|]. rewrite ED. split; [exact G2|]. split; [congruence|].
    intros k. destruct (A2 k) as [P Q]. destruct (A1 k) as [P' Q']. rewrite P, Q, P', Q'. split; reflexivity. }
  assert (H3 : exists xs3, update_ranks t n c em en xs2 = Some xs3 /\ length xs3 = n /\ forall r x, nth_error xs2 r = Some x ->
    exists x', nth_error xs3 r = Some x' /\ xgood x' /\ man x' = (C, D, R, S) /\ forall k,
    mget pair_less (x_ms x') k = (if kin k R && loc (fst k) r then
      option_map (fun l => LocM (map (find_dest n part_n (conn_m t em r k)) (em r k)) (lm_maps l) (lm_ops l)) (mget pair_less (x_ms x) k) else mget pair_less (x_ms x) k) /\
    mget pair_less (x_ns x') k = (if kin k R && loc (snd k) r then
      option_map (fun l => LocN (map (find_src n part_m (conn_n en r k)) (en r k)) (ln_maps l) (ln_ops l)) (mget pair_less (x_ns x) k) else mget pair_less (x_ns x) k)).
  { assert (HR2 : forall r x, nth_error xs2 r = Some x -> exists x0, nth_error xs r = Some x0 /\ xgood x /\ man x = (C, D, R, S) /\ forall k,
      mget pair_less (x_ms x) k = (if kin k D then None else if kin k C && loc (fst k) r then Some (LocM [] None []) else mget pair_less (x_ms x0) k) /\
      mget pair_less (x_ns x) k = (if kin k D then None else if kin k C && loc (snd k) r then Some (LocN [] None []) else mget pair_less (x_ns x0) k)).
    { intros r x Hx. assert (Hr : (r < n)%nat) by (rewrite <- L2; apply nth_error_Some; congruence).
      destruct (nth_error xs r) as [x0|] eqn:E0; [|apply nth_error_None in E0; lia]. destruct (H2 r x0 E0) as (x' & N' & G' & M' & A').
      exists x0. rewrite Hx in N'. injection N' as <-. auto. }
    unfold update_ranks. destruct (Nat.eq_dec n 0) as [Z0|Z0].
    { destruct xs2; [|cbn in L2; lia]. exists []. cbn. split; [reflexivity|]. split; [lia|]. intros [|r] x; discriminate. }
    assert (NE : xs2 <> []) by (intros E; rewrite E in L2; cbn in L2; lia).
    destruct (forallb_same (fun x => match x_ranks x with [] => true | _ => false end) (match R with [] => true | _ => false end) xs2) as [F1 F2].
    { intros x I. apply In_nth_error in I as (r & Hr). destruct (HR2 r x Hr) as (_ & _ & _ & M & _). unfold man in M. injection M as _ _ -> _. reflexivity. }
    { exact NE. }
    rewrite F1, F2. clear F1 F2. destruct R as [|k0 R0] eqn:ER.
    { exists xs2. split; [reflexivity|]. split; [exact L2|]. intros r x Hx. destruct (HR2 r x Hx) as (_ & _ & G & M & _).
      exists x. split; [exact Hx|]. split; [exact G|]. split; [exact M|]. intros k. cbn [kin existsb andb]. split; reflexivity. }
    rewrite <- ER in *. clear k0 R0 ER.
    destruct (on_ranks_spec (fun r x => local_ids c fst r (x_ranks x)) (fun r x l => l = filter (fun k => loc (fst k) r) R) xs2 0) as (mids & Em & Lm & Hm).
    { intros r x Hx. destruct (HR2 r x Hx) as (_ & _ & _ & M & _). assert (x_ranks x = R) as -> by (unfold man in M; congruence).
      eexists. split; [apply (local_ids_ok c loc known HL); intros k Ik; apply HR, Ik|reflexivity]. }
    destruct (on_ranks_spec (fun r x => local_ids c snd r (x_ranks x)) (fun r x l => l = filter (fun k => loc (snd k) r) R) xs2 0) as (nids & En & Ln' & Hn).
    { intros r x Hx. destruct (HR2 r x Hx) as (_ & _ & _ & M & _). assert (x_ranks x = R) as -> by (unfold man in M; congruence).
      eexists. split; [apply (local_ids_ok c loc known HL); intros k Ik; apply HR, Ik|reflexivity]. }
    rewrite Em, En. cbv zeta.
    assert (Nm : forall q, (q < n)%nat -> nth q mids [] = filter (fun k => loc (fst k) q) R).
    { intros q Hq. destruct (nth_error xs2 q) as [x|] eqn:Ex; [|apply nth_error_None in Ex; lia]. destruct (Hm q x Ex) as (l & A & B). erewrite nth_error_nth; [|exact A]. exact B. }
    assert (Nn : forall q, (q < n)%nat -> nth q nids [] = filter (fun k => loc (snd k) q) R).
    { intros q Hq. destruct (nth_error xs2 q) as [x|] eqn:Ex; [|apply nth_error_None in Ex; lia]. destruct (Hn q x Ex) as (l & A & B). erewrite nth_error_nth; [|exact A]. exact B. }
    set (ms := fun q => map (conn_m t em q) (nth q mids [])). set (ns := fun q => map (conn_n en q) (nth q nids [])).
    assert (Pm : forall q, (q < n)%nat -> ms q = part_m q) by (intros q Hq; unfold ms, part_m; rewrite (Nm q Hq); reflexivity).
    assert (Pn : forall q, (q < n)%nat -> ns q = part_n q) by (intros q Hq; unfold ns, part_n; rewrite (Nn q Hq); reflexivity).
    destruct (on_ranks_spec (fun r x => take_ranks t n em en ms ns r (nth r mids []) (nth r nids []) x) (fun r x x' => xgood x' /\ man x' = (C, D, R, S) /\ forall k,
      mget pair_less (x_ms x') k = (if kin k R && loc (fst k) r then
        option_map (fun l => LocM (map (find_dest n part_n (conn_m t em r k)) (em r k)) (lm_maps l) (lm_ops l)) (mget pair_less (x_ms x) k) else mget pair_less (x_ms x) k) /\
      mget pair_less (x_ns x') k = (if kin k R && loc (snd k) r then
        option_map (fun l => LocN (map (find_src n part_m (conn_n en r k)) (en r k)) (ln_maps l) (ln_ops l)) (mget pair_less (x_ns x) k) else mget pair_less (x_ns x) k)) xs2 0)
      as (xs3 & E3 & L3 & H3).
    { intros r x Hx. cbn [Nat.add]. assert (Hr : (r < n)%nat) by (rewrite <- L2; apply nth_error_Some; congruence).
      destruct (HR2 r x Hx) as (x0 & N0 & G & M & A). destruct (HX r x0 N0) as (_ & _ & T). rewrite (Nm r Hr), (Nn r Hr).
      destruct (take_ok t n em en ms ns r (filter (fun k => loc (fst k) r) R) (filter (fun k => loc (snd k) r) R) x) as (x' & E & G' & M' & A').
      - apply NoDup_filter, HR.
      - apply NoDup_filter, HR.
      - exact G.
      - intros k Ik. apply filter_In in Ik as [Ik Lk]. rewrite (proj1 (A k)). destruct (T k (or_introl Ik)) as (T1 & _ & T3).
        destruct (kin k D) eqn:KD; [apply kin_spec in KD; contradiction|]. rewrite Lk. destruct (T1 Lk) as [X|X]; [apply kin_spec in X; rewrite X; discriminate|].
        destruct (kin k C); [discriminate|exact X].
      - intros k Ik. apply filter_In in Ik as [Ik Lk]. rewrite (proj2 (A k)). destruct (T k (or_introl Ik)) as (_ & T1 & T3).
        destruct (kin k D) eqn:KD; [apply kin_spec in KD; contradiction|]. rewrite Lk. destruct (T1 Lk) as [X|X]; [apply kin_spec in X; rewrite X; discriminate|].
        destruct (kin k C); [discriminate|exact X].
      - exists x'. split; [exact E|]. split; [exact G'|]. split; [congruence|]. intros k. destruct (A' k) as [P Q]. rewrite P, Q, !kin_filter. split.
        + destruct (kin k R && loc (fst k) r); [|reflexivity]. destruct (mget pair_less (x_ms x) k); [|reflexivity]. cbn [option_map]. do 2 f_equal.
          apply map_ext. intros d. apply find_dest_ext, Pn.
        + destruct (kin k R && loc (snd k) r); [|reflexivity]. destruct (mget pair_less (x_ns x) k); [|reflexivity]. cbn [option_map]. do 2 f_equal.
          apply map_ext. intros d. apply find_src_ext, Pm. }
    exists xs3. split; [exact E3|]. split; [congruence|]. intros r x Hx. apply (H3 r x Hx). }
  destruct H3 as (xs3 & E3 & L3 & H3). rewrite E3. clear E3.
  destruct (on_ranks_spec (fun r x => ofold (reset_loc c em en r) (x_reset x) x) (fun r x x' => xgood x' /\ man x' = (C, D, R, S) /\ forall k,
    mget pair_less (x_ms x') k = (if kin k S && loc (fst k) r then option_map (fun l => LocM (lm_ranks l) (Some (map d_lower (em r k), map d_point (em r k), lm_ranks l)) []) (mget pair_less (x_ms x) k)
      else mget pair_less (x_ms x) k) /\
    mget pair_less (x_ns x') k = (if kin k S && loc (snd k) r then option_map (fun l => LocN (ln_ranks l) (Some (map r_point (en r k), ln_ranks l)) []) (mget pair_less (x_ns x) k)
      else mget pair_less (x_ns x) k)) xs3 0) as (xs4 & E4 & L4 & H4).
  { intros r x Hx. cbn [Nat.add]. assert (Hr : (r < n)%nat) by (rewrite <- L3; apply nth_error_Some; congruence).
    destruct (nth_error xs r) as [x0|] eqn:E0; [|apply nth_error_None in E0; lia]. destruct (HX r x0 E0) as (_ & _ & T).
    destruct (H2 r x0 E0) as (x2 & N2 & G2 & M2 & A2). destruct (H3 r x2 N2) as (x3 & N3 & G3 & M3 & A3).
    rewrite Hx in N3. injection N3 as <-. assert (x_reset x = S) as -> by (unfold man in M3; congruence).
    destruct (reset_all c loc known HL em en r S HS x G3) as (x' & E & G' & M' & A').
    - intros k Ik Lk. destruct (T k (or_intror Ik)) as (T1 & _ & T3). rewrite (proj1 (A3 k)), (proj1 (A2 k)).
      destruct (kin k D) eqn:KD; [apply kin_spec in KD; contradiction|]. rewrite Lk.
      assert (X : (if kin k C && true then Some (LocM [] None []) else mget pair_less (x_ms x0) k) <> None).
      { destruct (T1 Lk) as [X|X]; [apply kin_spec in X; rewrite X; discriminate|]. destruct (kin k C); [discriminate|exact X]. }
      destruct (if kin k C && true then Some (LocM [] None []) else mget pair_less (x_ms x0) k); [|congruence]. destruct (kin k R); discriminate.
    - intros k Ik Lk. destruct (T k (or_intror Ik)) as (_ & T1 & T3). rewrite (proj2 (A3 k)), (proj2 (A2 k)).
      destruct (kin k D) eqn:KD; [apply kin_spec in KD; contradiction|]. rewrite Lk.
      assert (X : (if kin k C && true then Some (LocN [] None []) else mget pair_less (x_ns x0) k) <> None).
      { destruct (T1 Lk) as [X|X]; [apply kin_spec in X; rewrite X; discriminate|]. destruct (kin k C); [discriminate|exact X]. }
      destruct (if kin k C && true then Some (LocN [] None []) else mget pair_less (x_ns x0) k); [|congruence]. destruct (kin k R); discriminate.
    - exists x'. split; [exact E|]. split; [exact G'|]. split; [congruence|exact A']. }
  rewrite E4. eexists. split; [reflexivity|]. split; [rewrite map_length; congruence|].
  intros r x Hx. destruct (HX r x Hx) as (_ & _ & T). destruct (H2 r x Hx) as (x2 & N2 & G2 & M2 & A2).
  destruct (H3 r x2 N2) as (x3 & N3 & G3 & M3 & A3). destruct (H4 r x3 N3) as (x4 & N4 & G4 & M4 & A4).
  exists (forget x4). split; [apply (map_nth_error forget r xs4 N4)|]. split; [exact G4|]. split; [reflexivity|].
  intros k. cbn [forget x_ms x_ns]. destruct (A4 k) as [P4 Q4]. destruct (A3 k) as [P3 Q3]. destruct (A2 k) as [P2 Q2].
  rewrite P4, Q4, P3, Q3, P2, Q2. split; reflexivity.
Qed.
End All.
