(** Proofs about the assembly options. *)
From Coq Require Import List ZArith Bool Arith Lia Sorting.Sorted.
From Verif Require Import ContModel ContSpec ContProof MapProof OMap PairMap OptionsModel OptionsSpec.
Import ListNotations.
Local Open Scope Z_scope.

Lemma oval_eqb_spec a b : reflect (a = b) (oval_eqb a b).
Proof.
  destruct a as [x|x|x|x], b as [y|y|y|y]; cbn; try (constructor; discriminate).
  - destruct (Bool.eqb_spec x y); constructor; congruence.
  - destruct (Z.eqb_spec x y); constructor; congruence.
  - destruct (Z.eqb_spec x y); constructor; congruence.
  - destruct (Z.eqb_spec x y); constructor; congruence.
Qed.

Lemma zin_In g ids : zin g ids = true <-> In g ids.
Proof.
  unfold zin. rewrite existsb_exists. split.
  - intros (x & H & E). apply Z.eqb_eq in E. congruence.
  - intros H. exists g. rewrite Z.eqb_refl. auto.
Qed.
Lemma zin_false g ids : zin g ids = false <-> ~ In g ids.
Proof. rewrite <- zin_In. destruct (zin g ids); intuition discriminate. Qed.

Lemma zsok_sorted ids : StronglySorted Z.lt ids -> sok Z.ltb ids.
Proof.
  intros S. split; [|apply Forall_forall; intros; exact I].
  induction S as [|x l S IH H]; constructor; [exact IH|].
  apply Forall_forall. intros y Hy. rewrite Forall_forall in H. apply Z.ltb_lt. auto.
Qed.
Lemma contains_zin ids g : StronglySorted Z.lt ids -> set_contains Z.ltb ids g = zin g ids.
Proof.
  intros S. pose proof (set_contains_iff Z.ltb zltb_swo zEQ ids g (zsok_sorted ids S)) as H.
  rewrite <- zin_In in H. destruct (set_contains Z.ltb ids g), (zin g ids); intuition.
Qed.

Definition stored (d v : oval) : option oval := if oval_eqb v d then None else Some v.

Record oinv (h : list opt_op) (o : options) : Prop := {
  oi_ids : sok Z.ltb (o_ids o);
  oi_bound : forall g, In g (o_ids o) <-> bound h g = true;
  oi_nonneg : forall g, bound h g = true -> 0 <= g;
  oi_m1 : forall k, mok Z.ltb (o_map1 o k);
  oi_m2 : forall k, mok pair_less (o_map2 o k);
  oi_v1 : forall k g, mget Z.ltb (o_map1 o k) g =
    if bound h g then stored (default1 k) (value1 k g h) else None;
  oi_v2 : forall k p, mget pair_less (o_map2 o k) p =
    if bound h (fst p) && bound h (snd p) then stored (default2 k) (value2 k p h) else None }.

Lemma oinv_init : oinv [] options_init.
Proof.
  split; cbn.
  - apply sok_nil.
  - intuition discriminate.
  - discriminate.
  - intros. apply mok_empty.
  - intros. apply mok_empty.
  - reflexivity.
  - reflexivity.
Qed.

Lemma fold_sok ids : forall s, sok Z.ltb s -> sok Z.ltb (fold_left (set_insert Z.ltb) ids s) /\
  forall x, In x (fold_left (set_insert Z.ltb) ids s) <-> In x ids \/ In x s.
Proof.
  induction ids as [|i ids IH]; cbn; intros s G; [intuition|].
  destruct (IH _ (sok_insert Z.ltb zltb_swo s i G)) as [A B]. split; [exact A|].
  intros x. rewrite B, (In_set_insert Z.ltb zltb_swo zEQ s i x G). intuition.
Qed.

Lemma stored_self d : stored d d = None.
Proof. unfold stored. destruct (oval_eqb_spec d d); congruence. Qed.

Lemma oinv_add h o ids : oinv h o -> Forall (fun g => 0 <= g) ids ->
  oinv (AddGrids ids :: h) (add_grids o ids).
Proof.
  intros [A B C D E F G] N. destruct (fold_sok ids _ A) as [A' B'].
  split; unfold add_grids; cbn [o_ids o_map1 o_map2 bound value1 value2]; try assumption.
  - intros g. rewrite B', B, orb_true_iff, zin_In. tauto.
  - intros g. rewrite orb_true_iff, zin_In. intros [H|H]; [|auto].
    rewrite Forall_forall in N. auto.
  - intros k g. rewrite F. destruct (bound h g); [rewrite orb_true_r; reflexivity|].
    rewrite stored_self. destruct (zin g ids || false); reflexivity.
  - intros k [m n]. rewrite G. cbn [fst snd].
    destruct (bound h m), (bound h n); cbn [andb]; rewrite ?stored_self, ?orb_true_r; cbn [andb];
      try reflexivity; match goal with |- _ = if ?c then _ else _ => destruct c end; reflexivity.
Qed.

Lemma removed1_all k : In k removed1.
Proof. destruct k; cbn; tauto. Qed.
Lemma removed2_all k : In k removed2.
Proof. destruct k; cbn; tauto. Qed.
Lemma removed1_nd : NoDup removed1.
Proof. repeat constructor; cbn; intuition discriminate. Qed.
Lemma removed2_nd : NoDup removed2.
Proof. repeat constructor; cbn; intuition discriminate. Qed.

Lemma fold_put1 f ks : NoDup ks -> forall o,
  let o' := fold_left (fun o k => put1 o k (f (o_map1 o k))) ks o in
  o_ids o' = o_ids o /\ o_map2 o' = o_map2 o /\
  forall k, o_map1 o' k = if in_dec opt1_eq_dec k ks then f (o_map1 o k) else o_map1 o k.
Proof.
  induction 1 as [|k ks Hn ND IH]; intros o; cbv zeta.
  - cbn. auto.
  - cbn [fold_left]. specialize (IH (put1 o k (f (o_map1 o k)))). cbv zeta in IH.
    destruct IH as (A & B & C). split; [exact A|]. split; [exact B|].
    intros k'. rewrite C. unfold put1. cbn [o_map1].
    destruct (opt1_eq_dec k' k) as [->|N].
    + destruct (in_dec opt1_eq_dec k ks); [contradiction|].
      destruct (in_dec opt1_eq_dec k (k :: ks)) as [|X]; [reflexivity|]. exfalso. apply X. left. reflexivity.
    + destruct (in_dec opt1_eq_dec k' ks), (in_dec opt1_eq_dec k' (k :: ks)) as [X|X]; try reflexivity.
      * exfalso. apply X. right. assumption.
      * exfalso. destruct X; [congruence|contradiction].
Qed.
Lemma fold_put2 f ks : NoDup ks -> forall o,
  let o' := fold_left (fun o k => put2 o k (f (o_map2 o k))) ks o in
  o_ids o' = o_ids o /\ o_map1 o' = o_map1 o /\
  forall k, o_map2 o' k = if in_dec opt2_eq_dec k ks then f (o_map2 o k) else o_map2 o k.
Proof.
  induction 1 as [|k ks Hn ND IH]; intros o; cbv zeta.
  - cbn. auto.
  - cbn [fold_left]. specialize (IH (put2 o k (f (o_map2 o k)))). cbv zeta in IH.
    destruct IH as (A & B & C). split; [exact A|]. split; [exact B|].
    intros k'. rewrite C. unfold put2. cbn [o_map2].
    destruct (opt2_eq_dec k' k) as [->|N].
    + destruct (in_dec opt2_eq_dec k ks); [contradiction|].
      destruct (in_dec opt2_eq_dec k (k :: ks)) as [|X]; [reflexivity|]. exfalso. apply X. left. reflexivity.
    + destruct (in_dec opt2_eq_dec k' ks), (in_dec opt2_eq_dec k' (k :: ks)) as [X|X]; try reflexivity.
      * exfalso. apply X. right. assumption.
      * exfalso. destruct X; [congruence|contradiction].
Qed.

Lemma oinv_remove h o ids : oinv h o -> StronglySorted Z.lt ids ->
  oinv (RemoveGrids ids :: h) (remove_grids o ids).
Proof.
  intros [A B C D E F G] S. unfold remove_grids. cbv zeta.
  match goal with |- context [fold_left ?f removed1 o] => set (o1 := fold_left f removed1 o) end.
  match goal with |- context [fold_left ?f removed2 o1] => set (o2 := fold_left f removed2 o1) end.
  destruct (fold_put1 (map_erase_if_key (fun g => set_contains Z.ltb ids g)) removed1 removed1_nd o)
    as (A1 & B1 & C1). fold o1 in A1, B1, C1.
  destruct (fold_put2 (map_erase_if_key
     (fun p => set_contains Z.ltb ids (fst p) || set_contains Z.ltb ids (snd p))) removed2 removed2_nd o1)
    as (A2 & B2 & C2). fold o2 in A2, B2, C2.
  assert (M1 : forall k, o_map1 o2 k = map_erase_if_key (fun g => set_contains Z.ltb ids g) (o_map1 o k)).
  { intros k. rewrite B2, C1. destruct (in_dec opt1_eq_dec k removed1) as [|X]; [reflexivity|].
    exfalso. apply X, removed1_all. }
  assert (M2 : forall k, o_map2 o2 k = map_erase_if_key
     (fun p => set_contains Z.ltb ids (fst p) || set_contains Z.ltb ids (snd p)) (o_map2 o k)).
  { intros k. rewrite C2, B1. destruct (in_dec opt2_eq_dec k removed2) as [|X]; [reflexivity|].
    exfalso. apply X, removed2_all. }
  split; cbn [o_ids o_map1 o_map2 bound value1 value2].
  - rewrite A2, A1. apply (sok_erase_if Z.ltb), A.
  - intros g. rewrite A2, A1, In_set_erase_if, B, andb_true_iff, negb_true_iff.
    rewrite (contains_zin ids g S). tauto.
  - intros g. rewrite andb_true_iff. intros [_ H]. auto.
  - intros k. rewrite M1. apply (mok_erase_if_key Z.ltb zltb_swo zEQ), D.
  - intros k. rewrite M2. apply (mok_erase_if_key pair_less pair_swo pEQ), E.
  - intros k g. rewrite M1, (mget_erase_if_key Z.ltb zltb_swo zEQ _ _ _ (D k)), F.
    rewrite (contains_zin ids g S). destruct (zin g ids); reflexivity.
  - intros k [m n]. rewrite M2, (mget_erase_if_key pair_less pair_swo pEQ _ _ _ (E k)), G. cbn [fst snd].
    rewrite !(contains_zin ids _ S). destruct (zin m ids), (zin n ids), (bound h m), (bound h n); reflexivity.
Qed.

Lemma oval_neq v d : oval_eqb v d = false -> stored d v = Some v.
Proof. unfold stored. intros ->. reflexivity. Qed.
Lemma oval_eq v d : oval_eqb v d = true -> stored d v = None.
Proof. unfold stored. intros ->. reflexivity. Qed.

(** Setting an option of one grid. *)
Lemma set_option1_ok ids m arg v d (b : Z -> bool) (old : Z -> oval) :
  mok Z.ltb m -> (forall g, In g ids <-> b g = true) -> (forall g, b g = true -> 0 <= g) ->
  (arg = ALL_GRIDS \/ b arg = true) ->
  (forall g, mget Z.ltb m g = if b g then stored d (old g) else None) ->
  let m' := set_option1 ids m arg v d in
  mok Z.ltb m' /\
  forall g, mget Z.ltb m' g = if b g then stored d (if covers arg g then v else old g) else None.
Proof.
  intros G Hi Hn Ha Hm. cbv zeta. unfold set_option1, covers.
  destruct (Z.eqb_spec arg ALL_GRIDS) as [Ea|Na]; destruct (oval_eqb v d) eqn:Ev; cbn [negb orb].
  - split; [apply mok_empty|]. intros g. rewrite mget_empty, (oval_eq v d Ev). destruct (b g); reflexivity.
  - split; [apply (mok_insert_all Z.ltb zltb_swo), G|]. intros g.
    destruct (mget_insert_all Z.ltb zltb_swo zEQ v ids g m G) as [H1 H2].
    destruct (b g) eqn:Eb.
    + rewrite H1 by (apply Hi, Eb). rewrite (oval_neq v d Ev). reflexivity.
    + rewrite H2, Hm, Eb by (rewrite Hi, Eb; discriminate). reflexivity.
  - split; [apply (mok_erase Z.ltb zltb_swo), G|]. intros g.
    rewrite (mget_erase Z.ltb zltb_swo m arg g G), Hm, zkq, (Z.eqb_sym g arg).
    destruct (Z.eqb_spec arg g) as [->|]; [|reflexivity]. rewrite (oval_eq v d Ev).
    destruct (b g); reflexivity.
  - split; [apply (mok_insert Z.ltb zltb_swo), G|]. intros g.
    rewrite (mget_insert Z.ltb zltb_swo m arg v g G), Hm, zkq, (Z.eqb_sym g arg).
    destruct (Z.eqb_spec arg g) as [->|]; [|reflexivity]. rewrite (oval_neq v d Ev).
    destruct Ha as [X|X]; [contradiction|rewrite X; reflexivity].
Qed.

Lemma fold_left_map {A B C} (f : C -> B -> C) (g : A -> B) l : forall c,
  fold_left (fun c a => f c (g a)) l c = fold_left f (map g l) c.
Proof. induction l as [|a l IH]; cbn; intros c; [reflexivity|apply IH]. Qed.
Lemma fold_left_flat {A B C} (f : C -> B -> C) (g : A -> list B) l : forall c,
  fold_left (fun c a => fold_left f (g a) c) l c = fold_left f (flat_map g l) c.
Proof. induction l as [|a l IH]; cbn; intros c; [reflexivity|]. rewrite fold_left_app. apply IH. Qed.
Lemma fold_left_ext {A C} (f g : C -> A -> C) l : (forall c a, f c a = g c a) -> forall c,
  fold_left f l c = fold_left g l c.
Proof. intros H. induction l as [|a l IH]; cbn; intros c; [reflexivity|]. rewrite H. apply IH. Qed.

(** The pairs designated by an argument. *)
Definition targets (ids : list Z) (p : Z * Z) : list (Z * Z) :=
  if Z.eqb (fst p) ALL_GRIDS && Z.eqb (snd p) ALL_GRIDS then
    flat_map (fun i => map (fun j => (i, j)) ids) ids
  else if Z.eqb (fst p) ALL_GRIDS then map (fun i => (i, snd p)) ids
  else if Z.eqb (snd p) ALL_GRIDS then map (fun j => (fst p, j)) ids
  else [p].

Lemma set_option2_targets ids m p v d :
  set_option2 ids m p v d =
  if negb (oval_eqb v d) then
    fold_left (fun m q => fst (map_insert pair_less m q v)) (targets ids p) m
  else if Z.eqb (fst p) ALL_GRIDS && Z.eqb (snd p) ALL_GRIDS then map_empty
  else fold_left (fun m q => map_erase pair_less m q) (targets ids p) m.
Proof.
  unfold set_option2, targets. cbv zeta.
  destruct (Z.eqb (fst p) ALL_GRIDS), (Z.eqb (snd p) ALL_GRIDS), (negb (oval_eqb v d)); cbn [andb];
    try reflexivity.
  1:{ rewrite <- fold_left_flat. apply fold_left_ext. intros c i.
      rewrite <- fold_left_map. reflexivity. }
  all: rewrite <- fold_left_map; reflexivity.
Qed.

Lemma targets_spec ids p (b : Z -> bool) :
  (forall g, In g ids <-> b g = true) -> (forall g, b g = true -> 0 <= g) ->
  (fst p = ALL_GRIDS \/ b (fst p) = true) -> (snd p = ALL_GRIDS \/ b (snd p) = true) ->
  forall q, In q (targets ids p) <-> b (fst q) = true /\ b (snd q) = true /\ covers2 p q = true.
Proof.
  intros Hi Hn H1 H2 [m n]. unfold targets, covers2, covers. destruct p as [pm pn]. cbn [fst snd] in *.
  unfold ALL_GRIDS in *.
  destruct (Z.eqb_spec pm (-1)) as [E1|N1]; destruct (Z.eqb_spec pn (-1)) as [E2|N2]; cbn [andb orb].
  - rewrite in_flat_map. split.
    + intros (i & Hi' & Hq). apply in_map_iff in Hq. destruct Hq as (j & [= <- <-] & Hj).
      rewrite <- !Hi. auto.
    + intros (A & B & _). exists m. split; [apply Hi, A|]. apply in_map_iff. exists n. split; [reflexivity|apply Hi, B].
  - rewrite in_map_iff. split.
    + intros (i & [= <- <-] & Hj). rewrite Z.eqb_refl, <- Hi. intuition.
    + intros (A & B & E). apply Z.eqb_eq in E. subst. exists m. split; [reflexivity|apply Hi, A].
  - rewrite in_map_iff. split.
    + intros (i & [= <- <-] & Hj). rewrite Z.eqb_refl, <- (Hi i). intuition.
    + intros (A & B & E). rewrite andb_true_r in E. apply Z.eqb_eq in E. subst. exists n. split; [reflexivity|apply Hi, B].
  - cbn. split.
    + intros [[= <- <-]|[]]. rewrite !Z.eqb_refl. intuition.
    + intros (A & B & E). rewrite andb_true_iff, !Z.eqb_eq in E. left. f_equal; apply E.
Qed.

Lemma set_option2_ok ids m arg v d (b : Z -> bool) (old : Z * Z -> oval) :
  mok pair_less m -> (forall g, In g ids <-> b g = true) -> (forall g, b g = true -> 0 <= g) ->
  (fst arg = ALL_GRIDS \/ b (fst arg) = true) -> (snd arg = ALL_GRIDS \/ b (snd arg) = true) ->
  (forall p, mget pair_less m p = if b (fst p) && b (snd p) then stored d (old p) else None) ->
  let m' := set_option2 ids m arg v d in
  mok pair_less m' /\
  forall p, mget pair_less m' p =
    if b (fst p) && b (snd p) then stored d (if covers2 arg p then v else old p) else None.
Proof.
  intros G Hi Hn Ha Hb Hm. cbv zeta. rewrite set_option2_targets.
  pose proof (targets_spec ids arg b Hi Hn Ha Hb) as T.
  destruct (oval_eqb v d) eqn:Ev; cbn [negb].
  - destruct (Z.eqb (fst arg) ALL_GRIDS && Z.eqb (snd arg) ALL_GRIDS) eqn:Eall.
    + split; [apply mok_empty|]. intros p. rewrite mget_empty. unfold covers2, covers.
      apply andb_true_iff in Eall. destruct Eall as [-> ->]. cbn [orb andb]. rewrite (oval_eq v d Ev).
      destruct (b (fst p) && b (snd p)); reflexivity.
    + split; [apply (mok_erase_all pair_less pair_swo), G|]. intros p.
      destruct (mget_erase_all pair_less pair_swo pEQ (targets ids arg) p m G) as [H1 H2].
      destruct (covers2 arg p) eqn:Ec.
      * destruct (b (fst p)) eqn:B1, (b (snd p)) eqn:B2; cbn [andb].
        1: rewrite H1, (oval_eq v d Ev); [reflexivity|apply T; auto].
        all: rewrite H2, Hm, B1, B2; [reflexivity|rewrite T; intuition congruence].
      * rewrite H2, Hm; [reflexivity|]. rewrite T. intuition congruence.
  - split; [apply (mok_insert_all pair_less pair_swo), G|]. intros p.
    destruct (mget_insert_all pair_less pair_swo pEQ v (targets ids arg) p m G) as [H1 H2].
    destruct (covers2 arg p) eqn:Ec.
    + destruct (b (fst p)) eqn:B1, (b (snd p)) eqn:B2; cbn [andb].
      1: rewrite H1, (oval_neq v d Ev); [reflexivity|apply T; auto].
      all: rewrite H2, Hm, B1, B2; [reflexivity|rewrite T; intuition congruence].
    + rewrite H2, Hm; [reflexivity|]. rewrite T. intuition congruence.
Qed.

Lemma oinv_put1 h o k arg v op : oinv h o -> designates h arg ->
  (forall g, bound (op :: h) g = bound h g) ->
  (forall k' g, value1 k' g (op :: h) = if opt1_eq_dec k k' then if covers arg g then v else value1 k' g h else value1 k' g h) ->
  (forall k' p, value2 k' p (op :: h) = value2 k' p h) ->
  oinv (op :: h) (put1 o k (set_option1 (o_ids o) (o_map1 o k) arg v (default1 k))).
Proof.
  intros [A B C D E F G] Hd Hb H1 H2.
  destruct (set_option1_ok (o_ids o) (o_map1 o k) arg v (default1 k) (bound h) (fun g => value1 k g h))
    as [P Q]; auto.
  split; unfold put1; cbn [o_ids o_map1 o_map2]; try assumption.
  - intros g. rewrite Hb. apply B.
  - intros g. rewrite Hb. apply C.
  - intros k'. destruct (opt1_eq_dec k' k) as [->|]; auto.
  - intros k' g. rewrite Hb, H1. destruct (opt1_eq_dec k' k) as [->|N].
    + rewrite Q. destruct (opt1_eq_dec k k); [reflexivity|congruence].
    + destruct (opt1_eq_dec k k'); [congruence|]. apply F.
  - intros k' p. rewrite !Hb, H2. apply G.
Qed.
Lemma oinv_put2 h o k arg v op : oinv h o -> designates h (fst arg) -> designates h (snd arg) ->
  (forall g, bound (op :: h) g = bound h g) ->
  (forall k' p, value2 k' p (op :: h) = if opt2_eq_dec k k' then if covers2 arg p then v else value2 k' p h else value2 k' p h) ->
  (forall k' g, value1 k' g (op :: h) = value1 k' g h) ->
  oinv (op :: h) (put2 o k (set_option2 (o_ids o) (o_map2 o k) arg v (default2 k))).
Proof.
  intros [A B C D E F G] Hd Hd' Hb H1 H2.
  destruct (set_option2_ok (o_ids o) (o_map2 o k) arg v (default2 k) (bound h) (fun p => value2 k p h))
    as [P Q]; auto.
  split; unfold put2; cbn [o_ids o_map1 o_map2]; try assumption.
  - intros g. rewrite Hb. apply B.
  - intros g. rewrite Hb. apply C.
  - intros k'. destruct (opt2_eq_dec k' k) as [->|]; auto.
  - intros k' g. rewrite Hb, H2. apply F.
  - intros k' p. rewrite !Hb, H1. destruct (opt2_eq_dec k' k) as [->|N].
    + rewrite Q. destruct (opt2_eq_dec k k); [reflexivity|congruence].
    + destruct (opt2_eq_dec k k'); [congruence|]. apply G.
Qed.

Lemma reset1_default k : reset_args1 k = (default1 k, default1 k).
Proof. destruct k; reflexivity. Qed.
Lemma reset2_default k : reset_args2 k = (default2 k, default2 k).
Proof. destruct k; reflexivity. Qed.
Lemma set1_default k : set_default1 k = default1 k.
Proof. destruct k; reflexivity. Qed.
Lemma set2_default k : set_default2 k = default2 k.
Proof. destruct k; reflexivity. Qed.
Lemma get1_default k : get_default1 k = default1 k.
Proof. destruct k; reflexivity. Qed.
Lemma get2_default k : get_default2 k = default2 k.
Proof. destruct k; reflexivity. Qed.

Lemma oinv_step h o op : oinv h o -> legal h op -> oinv (op :: h) (opt_step o op).
Proof.
  intros G L. destruct op as [ids|ids|k arg v|k arg v|k arg|k arg]; cbn [opt_step legal] in *.
  - apply oinv_add; assumption.
  - apply oinv_remove; assumption.
  - change (set_default1 k) with (default1 k). apply oinv_put1; auto.
  - change (set_default2 k) with (default2 k). destruct L. apply oinv_put2; auto.
  - rewrite reset1_default. cbn [fst snd]. apply oinv_put1; auto.
    intros k' g. cbn [value1]. destruct (opt1_eq_dec k k'); [subst|]; reflexivity.
  - rewrite reset2_default. destruct L. cbn [fst snd]. apply oinv_put2; auto.
    intros k' g. cbn [value2]. destruct (opt2_eq_dec k k'); [subst|]; reflexivity.
Qed.

Lemma oinv_run h : legal_history (rev h) -> oinv (rev h) (opt_run h).
Proof.
  unfold opt_run. induction h as [|op h IH] using rev_ind; intros L; [apply oinv_init|].
  rewrite rev_app_distr in *. cbn [rev app] in *. rewrite fold_left_app. cbn [fold_left].
  destruct L. apply oinv_step; auto.
Qed.

Lemma find_get_z (m : smap Z oval) g d : mok Z.ltb m ->
  get_option1 m g d = match mget Z.ltb m g with Some v => v | None => d end.
Proof.
  intros G. unfold get_option1. pose proof (map_find_spec (fun _ => True) Z.ltb zltb_swo m g G I) as F.
  unfold mget. destruct (mlookup Z.ltb (m_entries m) g) as [e|]; cbn [option_map].
  - destruct F as [-> _]. reflexivity.
  - destruct F as [F _]. rewrite F.
    replace (nth_error (m_entries m) (length (m_entries m))) with (@None (Z * oval)); [reflexivity|].
    symmetry. apply nth_error_None. lia.
Qed.
Lemma find_get_p (m : smap (Z * Z) oval) g d : mok pair_less m ->
  get_option2 m g d = match mget pair_less m g with Some v => v | None => d end.
Proof.
  intros G. unfold get_option2. pose proof (map_find_spec (fun _ => True) pair_less pair_swo m g G I) as F.
  unfold mget. destruct (mlookup pair_less (m_entries m) g) as [e|]; cbn [option_map].
  - destruct F as [-> _]. reflexivity.
  - destruct F as [F _]. rewrite F.
    replace (nth_error (m_entries m) (length (m_entries m))) with (@None (Z * Z * oval)); [reflexivity|].
    symmetry. apply nth_error_None. lia.
Qed.

Lemma options_correct h : legal_history (rev h) ->
  (forall k g, bound (rev h) g = true -> option1 (opt_run h) k g = value1 k g (rev h)) /\
  (forall k p, bound (rev h) (fst p) = true -> bound (rev h) (snd p) = true ->
     option2 (opt_run h) k p = value2 k p (rev h)).
Proof.
  intros L. destruct (oinv_run h L) as [A B C D E F G]. split.
  - intros k g Hg. unfold option1. rewrite (find_get_z _ g _ (D k)), F, Hg. unfold stored.
    destruct (oval_eqb_spec (value1 k g (rev h)) (default1 k)) as [->|]; [apply get1_default|reflexivity].
  - intros k p H1 H2. unfold option2. rewrite (find_get_p _ p _ (E k)), G, H1, H2. unfold stored. cbn [andb].
    destruct (oval_eqb_spec (value2 k p (rev h)) (default2 k)) as [->|]; [apply get2_default|reflexivity].
Qed.
