From Coq Require Import List ZArith Bool Arith Lia Sorted.
From Verif Require Import ContModel ContSpec ContProof.
Import ListNotations.

Lemma Forall2_nth {A B} (R : A -> B -> Prop) la lb : Forall2 R la lb ->
  forall i a b, nth_error la i = Some a -> nth_error lb i = Some b -> R a b.
Proof.
  induction 1 as [|x y la lb H _ IH]; intros [|i] a b Ha Hb; cbn in *; try discriminate.
  - congruence.
  - eauto.
Qed.

Section MapOrder.
Context {K V : Type} (D : K -> Prop) (lt : K -> K -> bool) (O : swo_on D lt).

Definition aligned (k : K) (e : K * V) : Prop := D (fst e) /\ eqv lt k (fst e) = true.

Record mgood (m : smap K V) : Prop := {
  mg_keys : good D lt (m_keys m);
  mg_al : Forall2 aligned (m_keys m) (m_entries m) }.

Definition mlookup (es : list (K * V)) (k : K) : option (K * V) :=
  find (fun e => eqv lt k (fst e)) es.

Inductive mplace (m : smap K V) (k : K) : Prop :=
| mp_absent k1 k2 e1 e2 :
    m = mkM (k1 ++ k2) (e1 ++ e2) -> Forall2 aligned k1 e1 -> Forall2 aligned k2 e2 ->
    (forall x, In x k1 -> lt x k = true) -> (forall x, In x k2 -> lt k x = true) ->
    (forall e, In e e1 -> lt (fst e) k = true) -> (forall e, In e e2 -> lt k (fst e) = true) ->
    set_lower lt (k1 ++ k2) k = length k1 -> length e1 = length k1 -> mplace m k
| mp_present k1 x k2 e1 e e2 :
    m = mkM (k1 ++ x :: k2) (e1 ++ e :: e2) ->
    Forall2 aligned k1 e1 -> aligned x e -> Forall2 aligned k2 e2 ->
    (forall y, In y k1 -> lt y k = true) -> eqv lt k x = true ->
    (forall y, In y k2 -> lt k y = true) ->
    (forall y, In y e1 -> lt (fst y) k = true) -> eqv lt k (fst e) = true ->
    (forall y, In y e2 -> lt k (fst y) = true) ->
    set_lower lt (k1 ++ x :: k2) k = length k1 -> length e1 = length k1 -> mplace m k.

Lemma al_lt k1 e1 k : Forall2 aligned k1 e1 -> Forall D k1 -> D k ->
  (forall x, In x k1 -> lt x k = true) -> forall e, In e e1 -> lt (fst e) k = true.
Proof.
  induction 1 as [|x e k1 e1 [He E] _ IH]; intros HD Hk A y Hy; [contradiction|].
  inversion HD; subst. destruct Hy as [<-|Hy].
  - apply (lt_eqv_l D lt O _ x); auto; [rewrite eqv_sym; exact E|apply A; left; reflexivity].
  - apply IH; auto. intros z Hz. apply A. right. exact Hz.
Qed.

Lemma al_gt k1 e1 k : Forall2 aligned k1 e1 -> Forall D k1 -> D k ->
  (forall x, In x k1 -> lt k x = true) -> forall e, In e e1 -> lt k (fst e) = true.
Proof.
  induction 1 as [|x e k1 e1 [He E] _ IH]; intros HD Hk A y Hy; [contradiction|].
  inversion HD; subst. destruct Hy as [<-|Hy].
  - apply (lt_eqv_r D lt O _ x); auto. apply A. left. reflexivity.
  - apply IH; auto. intros z Hz. apply A. right. exact Hz.
Qed.

Lemma mplaced m k : mgood m -> D k -> mplace m k.
Proof.
  intros [[Hs HD] Hal] Hk. destruct m as [ks es]. cbn in *.
  destruct (placed D lt O ks k Hs HD Hk) as [k1 k2 -> A B|k1 x k2 -> A E B].
  - apply Forall2_app_inv_l in Hal. destruct Hal as (e1 & e2 & H1 & H2 & ->).
    pose proof (proj1 (Forall_app _ _ _) HD) as [D1 D2].
    apply (mp_absent _ _ k1 k2 e1 e2); auto.
    + eapply al_lt; eauto.
    + eapply al_gt; eauto.
    + apply (lower_absent D lt O); auto.
    + symmetry. eapply Forall2_len; eauto.
  - apply Forall2_app_inv_l in Hal. destruct Hal as (e1 & e2 & H1 & H2 & ->).
    pose proof (proj1 (Forall_app _ _ _) HD) as [D1 D2].
    inversion H2 as [|? e ? e2' Hx H2']; subst. inversion D2; subst.
    apply (mp_present _ _ k1 x k2 e1 e e2'); auto.
    + eapply al_lt; eauto.
    + destruct Hx as [He Ex]. apply (eqv_trans D lt O k x (fst e)); auto.
    + eapply al_gt; eauto.
    + apply (lower_present D lt O); auto.
    + symmetry. eapply Forall2_len; eauto.
Qed.

Lemma mlookup_absent e1 e2 k : (forall e, In e e1 -> lt (fst e) k = true) ->
  (forall e, In e e2 -> lt k (fst e) = true) -> mlookup (e1 ++ e2) k = None.
Proof.
  intros A B. apply find_none_all, Forall_forall. intros x Hx. apply in_app_iff in Hx.
  destruct Hx; [apply gt_not_eqv|apply lt_not_eqv]; auto.
Qed.

Lemma mlookup_present e1 e e2 k : (forall y, In y e1 -> lt (fst y) k = true) ->
  eqv lt k (fst e) = true -> mlookup (e1 ++ e :: e2) k = Some e.
Proof.
  intros A E. unfold mlookup. rewrite find_app, find_none_all.
  - cbn. rewrite E. reflexivity.
  - apply Forall_forall. intros y Hy. apply gt_not_eqv; auto.
Qed.

Lemma al_D ks es : Forall2 aligned ks es -> Forall (fun e => D (fst e)) es.
Proof. induction 1 as [|x e ks es [He _] _ IH]; constructor; auto. Qed.

Lemma mlookup_eqv es x k : Forall (fun e => D (fst e)) es -> D x -> D k -> eqv lt x k = true ->
  mlookup es x = mlookup es k.
Proof.
  intros HD Hx Hk E. unfold mlookup. induction HD as [|y s Hy _ IH]; cbn; [reflexivity|].
  rewrite (eqv_swap D lt O x k (fst y)) by assumption. rewrite IH. reflexivity.
Qed.

(** The four shapes a single-key update can take. *)
Lemma do_insert k1 k2 e1 e2 k v : mgood (mkM (k1 ++ k2) (e1 ++ e2)) -> D k ->
  Forall2 aligned k1 e1 -> Forall2 aligned k2 e2 ->
  (forall x, In x k1 -> lt x k = true) -> (forall x, In x k2 -> lt k x = true) ->
  (forall e, In e e1 -> lt (fst e) k = true) -> (forall e, In e e2 -> lt k (fst e) = true) ->
  mgood (mkM (k1 ++ k :: k2) (e1 ++ (k, v) :: e2)) /\
  forall x, D x -> mlookup (e1 ++ (k, v) :: e2) x =
                   if eqv lt x k then Some (k, v) else mlookup (e1 ++ e2) x.
Proof.
  intros [[Hs HD] Hal] Hk F1 F2 A B A' B'. cbn in *.
  apply increasing_app_inv in Hs. destruct Hs as (I1 & I2 & _).
  pose proof (proj1 (Forall_app _ _ _) HD) as [D1 D2].
  assert (Dk : eqv lt k k = true) by (apply (eqv_refl D lt O); assumption).
  split.
  - split; cbn; [split|].
    + apply increasing_app; [exact I1| |].
      * constructor; [exact I2|]. apply Forall_forall. exact B.
      * intros a b Ha [<-|Hb]; auto. apply (swo_trans _ _ O a k b); auto;
          [apply (In_D D k1)|apply (In_D D k2)]; auto.
    + apply Forall_app. split; [exact D1|]. constructor; assumption.
    + apply Forall2_app; [exact F1|]. constructor; [|exact F2]. split; assumption.
  - intros x Hx. destruct (eqv lt x k) eqn:Ex.
    + apply mlookup_present; [|exact Ex]. intros y Hy.
      apply (lt_eqv_r D lt O (fst y) k x); auto.
      * apply al_D in F1. rewrite Forall_forall in F1. auto.
      * rewrite eqv_sym. exact Ex.
    + unfold mlookup. rewrite !find_app. cbn. rewrite Ex. reflexivity.
Qed.

Lemma do_replace k1 y k2 e1 e e2 k w : mgood (mkM (k1 ++ y :: k2) (e1 ++ e :: e2)) -> D k ->
  Forall2 aligned k1 e1 -> aligned y e -> Forall2 aligned k2 e2 -> eqv lt k y = true ->
  (forall y, In y e1 -> lt (fst y) k = true) -> eqv lt k (fst e) = true ->
  D (fst w) -> eqv lt k (fst w) = true ->
  mgood (mkM (k1 ++ y :: k2) (e1 ++ w :: e2)) /\
  forall x, D x -> mlookup (e1 ++ w :: e2) x =
                   if eqv lt x k then Some w else mlookup (e1 ++ e :: e2) x.
Proof.
  intros [[Hs HD] Hal] Hk F1 [De Ey] F2 Ek A Ee Dw Ew. cbn in *.
  assert (Dy : D y) by (apply (In_D D (k1 ++ y :: k2)); [exact HD|apply in_or_app; cbn; auto]).
  split.
  - split; cbn; [split; assumption|]. apply Forall2_app; [exact F1|].
    constructor; [|exact F2]. split; [exact Dw|].
    apply (eqv_trans D lt O y k (fst w)); auto. rewrite eqv_sym. exact Ek.
  - intros x Hx. destruct (eqv lt x k) eqn:Ex.
    + apply mlookup_present.
      * intros z Hz. apply (lt_eqv_r D lt O (fst z) k x); auto.
        -- apply al_D in F1. rewrite Forall_forall in F1. auto.
        -- rewrite eqv_sym. exact Ex.
      * apply (eqv_trans D lt O x k (fst w)); auto.
    + unfold mlookup. rewrite !find_app. cbn.
      assert (N : forall z, D z -> eqv lt k z = true -> eqv lt x z = false).
      { intros z Hz Ez. destruct (eqv lt x z) eqn:Exz; [|reflexivity].
        rewrite eqv_sym in Ez. rewrite (eqv_trans D lt O x z k) in Ex; auto. }
      rewrite !N by assumption. reflexivity.
Qed.

Lemma do_remove k1 y k2 e1 e e2 k : mgood (mkM (k1 ++ y :: k2) (e1 ++ e :: e2)) -> D k ->
  Forall2 aligned k1 e1 -> aligned y e -> Forall2 aligned k2 e2 -> eqv lt k (fst e) = true ->
  (forall y, In y e1 -> lt (fst y) k = true) -> (forall y, In y e2 -> lt k (fst y) = true) ->
  mgood (mkM (k1 ++ k2) (e1 ++ e2)) /\
  forall x, D x -> mlookup (e1 ++ e2) x =
                   if eqv lt x k then None else mlookup (e1 ++ e :: e2) x.
Proof.
  intros [G Hal] Hk F1 [De Ey] F2 Ee A B. cbn in *. split.
  - split; cbn; [apply (good_mid _ _ _ _ _ G)|]. apply Forall2_app; assumption.
  - intros x Hx. destruct (eqv lt x k) eqn:Ex.
    + rewrite (mlookup_eqv (e1 ++ e2) x k); auto.
      * apply mlookup_absent; assumption.
      * apply Forall_app. split; eapply al_D; eauto.
    + unfold mlookup. rewrite !find_app. cbn.
      destruct (eqv lt x (fst e)) eqn:Exe; [|reflexivity].
      rewrite eqv_sym in Ee. rewrite (eqv_trans D lt O x (fst e) k) in Ex; auto. discriminate.
Qed.

(** Entry count, positions and lookups. *)
Lemma len_eq {A B} (a : list A) (b : list B) n : length a = n -> length b = length a -> length b = n.
Proof. congruence. Qed.

Lemma map_fetch_good m k v : mgood m -> D k ->
  let m' := fst (map_fetch lt m k v) in
  let n := snd (map_fetch lt m k v) in
  mgood m' /\
  (forall x, D x -> mlookup (m_entries m') x = fget_or_put lt (mlookup (m_entries m)) k v x) /\
  nth_error (m_entries m') n = mlookup (m_entries m') k /\
  n = set_lower lt (m_keys m') k.
Proof.
  intros G Hk. destruct (mplaced m k G Hk) as
    [k1 k2 e1 e2 -> F1 F2 A B A' B' L Le|k1 y k2 e1 e e2 -> F1 Fx F2 A E B A' E' B' L Le];
    unfold map_fetch; cbn [m_keys m_entries] in *; rewrite L.
  - assert (Hins : set_insert_hint lt (k1 ++ k2) (length k1) k = k1 ++ k :: k2).
    { unfold set_insert_hint. destruct k2 as [|z k2].
      - rewrite nth_app_end. apply insert_at_app.
      - rewrite nth_app_mid, B by (left; reflexivity). apply insert_at_app. }
    assert (Hc : forall T (a : T) b, match nth_error (k1 ++ k2) (length k1) with
                 | Some x => if lt k x then a else b | None => a end = a).
    { intros T a b. destruct k2 as [|z k2].
      - rewrite nth_app_end. reflexivity.
      - rewrite nth_app_mid, B by (left; reflexivity). reflexivity. }
    rewrite Hc, Hins. cbn [fst snd m_entries m_keys].
    rewrite <- Le, insert_at_app.
    destruct (do_insert k1 k2 e1 e2 k v G Hk F1 F2 A B A' B') as [G' Lk].
    split; [exact G'|]. split; [|split].
    + intros x Hx. rewrite Lk by assumption. unfold fget_or_put.
      destruct (eqv lt x k) eqn:Ex; [|reflexivity].
      rewrite (mlookup_eqv (e1 ++ e2) x k); auto.
      * rewrite mlookup_absent by assumption. reflexivity.
      * apply (al_D (k1 ++ k2)), G.
    + rewrite nth_app_mid, Lk by assumption. rewrite (eqv_refl D lt O) by assumption. reflexivity.
    + rewrite Le. symmetry. apply (lower_present D lt O); auto.
      * apply G'.
      * apply (eqv_refl D lt O). assumption.
  - rewrite nth_app_mid. pose proof E as E2. apply eqv_iff in E2. destruct E2 as [-> _].
    cbn [fst snd m_entries m_keys]. split; [exact G|]. split; [|split].
    + intros x Hx. unfold fget_or_put. destruct (eqv lt x k) eqn:Ex; [|reflexivity].
      rewrite (mlookup_eqv _ x k) by (auto; apply (al_D (k1 ++ y :: k2)), G).
      rewrite (mlookup_present e1 e e2 k A' E'). reflexivity.
    + rewrite <- Le, nth_app_mid. symmetry. apply mlookup_present; assumption.
    + symmetry. exact L.
Qed.

Lemma map_insert_good m k v : mgood m -> D k ->
  let m' := fst (map_insert lt m k v) in
  let n := snd (map_insert lt m k v) in
  mgood m' /\
  (forall x, D x -> mlookup (m_entries m') x = fput lt (mlookup (m_entries m)) k v x) /\
  nth_error (m_entries m') n = Some (k, v).
Proof.
  intros G Hk. destruct (mplaced m k G Hk) as
    [k1 k2 e1 e2 -> F1 F2 A B A' B' L Le|k1 y k2 e1 e e2 -> F1 Fx F2 A E B A' E' B' L Le];
    unfold map_insert, map_insert_hint; cbn [m_keys m_entries] in *; rewrite L.
  - assert (Hins : set_insert_hint lt (k1 ++ k2) (length k1) k = k1 ++ k :: k2).
    { unfold set_insert_hint. destruct k2 as [|z k2].
      - rewrite nth_app_end. apply insert_at_app.
      - rewrite nth_app_mid, B by (left; reflexivity). apply insert_at_app. }
    assert (Hc : forall T (a : T) b, match nth_error (k1 ++ k2) (length k1) with
                 | Some x => if lt k x then a else b | None => a end = a).
    { intros T a b. destruct k2 as [|z k2].
      - rewrite nth_app_end. reflexivity.
      - rewrite nth_app_mid, B by (left; reflexivity). reflexivity. }
    rewrite Hc, Hins. cbn [fst snd m_entries m_keys].
    rewrite <- Le, insert_at_app.
    destruct (do_insert k1 k2 e1 e2 k v G Hk F1 F2 A B A' B') as [G' Lk].
    split; [exact G'|]. split; [exact Lk|]. apply nth_app_mid.
  - rewrite nth_app_mid. pose proof E as E2. apply eqv_iff in E2. destruct E2 as [-> _].
    cbn [fst snd m_entries m_keys]. rewrite <- Le, replace_at_app.
    destruct (do_replace k1 y k2 e1 e e2 k (k, v) G Hk F1 Fx F2 E A' E' Hk) as [G' Lk].
    { apply (eqv_refl D lt O); assumption. }
    split; [exact G'|]. split; [exact Lk|]. apply nth_app_mid.
Qed.

Lemma map_write_good m k w : mgood m -> D k -> mlookup (m_entries m) k <> None ->
  let m' := map_write m (set_lower lt (m_keys m) k) w in
  mgood m' /\
  forall x, D x -> mlookup (m_entries m') x = fset_value lt (mlookup (m_entries m)) k w x.
Proof.
  intros G Hk P. destruct (mplaced m k G Hk) as
    [k1 k2 e1 e2 -> F1 F2 A B A' B' L Le|k1 y k2 e1 e e2 -> F1 Fx F2 A E B A' E' B' L Le];
    unfold map_write; cbn [m_keys m_entries] in *.
  - rewrite mlookup_absent in P by assumption. congruence.
  - rewrite L, <- Le, nth_app_mid. destruct e as [ke ve]. cbn [m_keys m_entries].
    rewrite replace_at_app.
    destruct (do_replace k1 y k2 e1 (ke, ve) e2 k (ke, w) G Hk F1 Fx F2 E A' E') as [G' Lk].
    { apply Fx. } { exact E'. }
    split; [exact G'|]. intros x Hx. cbn [m_entries]. rewrite Lk by assumption. unfold fset_value.
    destruct (eqv lt x k) eqn:Ex; [|reflexivity].
    rewrite (mlookup_eqv _ x k) by (auto; apply (al_D (k1 ++ y :: k2)), G).
    rewrite (mlookup_present e1 (ke, ve) e2 k A' E'). reflexivity.
Qed.

Lemma map_find_spec m k : mgood m -> D k ->
  match mlookup (m_entries m) k with
  | Some e => nth_error (m_entries m) (map_find lt m k) = Some e /\
              map_contains lt m k = true /\ map_at lt m k = Some (snd e)
  | None => map_find lt m k = length (m_entries m) /\ map_contains lt m k = false
  end.
Proof.
  intros G Hk. pose proof (mg_keys m G) as GK. pose proof (mg_al m G) as GA.
  unfold map_find, map_contains, map_at, set_find, set_contains.
  destruct (mplaced m k G Hk) as
    [k1 k2 e1 e2 -> F1 F2 A B A' B' L Le|k1 y k2 e1 e e2 -> F1 Fx F2 A E B A' E' B' L Le];
    cbn [m_keys m_entries] in *; rewrite L.
  - rewrite mlookup_absent by assumption. pose proof (Forall2_len _ _ _ GA) as LL.
    destruct k2 as [|z k2].
    + rewrite nth_app_end. split; [|reflexivity]. rewrite <- LL, app_nil_r. reflexivity.
    + rewrite nth_app_mid, B by (left; reflexivity). auto.
  - rewrite (mlookup_present e1 e e2 k A' E'). rewrite nth_app_mid.
    pose proof E as E2. apply eqv_iff in E2. destruct E2 as [-> _].
    rewrite <- Le, nth_app_mid. auto.
Qed.

Lemma map_erase_good m k : mgood m -> D k ->
  mgood (map_erase lt m k) /\
  forall x, D x -> mlookup (m_entries (map_erase lt m k)) x =
                   fremove lt (mlookup (m_entries m)) k x.
Proof.
  intros G Hk. unfold map_erase. destruct (mplaced m k G Hk) as
    [k1 k2 e1 e2 -> F1 F2 A B A' B' L Le|k1 y k2 e1 e e2 -> F1 Fx F2 A E B A' E' B' L Le];
    cbn [m_keys m_entries] in *; rewrite L.
  - assert (Hc : forall T (a : T) b, match nth_error (k1 ++ k2) (length k1) with
                 | Some x => if negb (lt k x) then a else b | None => b end = b).
    { intros T a b. destruct k2 as [|z k2].
      - rewrite nth_app_end. reflexivity.
      - rewrite nth_app_mid, B by (left; reflexivity). reflexivity. }
    rewrite Hc. split; [exact G|]. intros x Hx. unfold fremove. cbn [m_entries].
    destruct (eqv lt x k) eqn:Ex; [|reflexivity].
    rewrite (mlookup_eqv _ x k) by (auto; apply (al_D (k1 ++ k2)), G).
    apply mlookup_absent; assumption.
  - rewrite nth_app_mid. pose proof E as E2. apply eqv_iff in E2. destruct E2 as [-> _].
    cbn [negb]. unfold set_erase_at. rewrite erase_at_app, <- Le, erase_at_app.
    apply (do_remove k1 y k2 e1 e e2 k); assumption.
Qed.

Lemma map_erase_found_good m k : mgood m -> D k ->
  let m' := if Nat.eqb (map_find lt m k) (length (m_entries m)) then m
            else map_erase_at m (map_find lt m k) in
  mgood m' /\
  forall x, D x -> mlookup (m_entries m') x = fremove lt (mlookup (m_entries m)) k x.
Proof.
  intros G Hk. pose proof (mg_al m G) as GA. unfold map_find, set_find.
  destruct (mplaced m k G Hk) as
    [k1 k2 e1 e2 -> F1 F2 A B A' B' L Le|k1 y k2 e1 e e2 -> F1 Fx F2 A E B A' E' B' L Le];
    cbn [m_keys m_entries] in *; rewrite L.
  - pose proof (Forall2_len _ _ _ GA) as LL.
    assert (Hc : match nth_error (k1 ++ k2) (length k1) with
                 | Some x => if lt k x then length (k1 ++ k2) else length k1
                 | None => length k1 end = length (e1 ++ e2)).
    { rewrite <- LL. destruct k2 as [|z k2].
      - rewrite nth_app_end, app_nil_r. reflexivity.
      - rewrite nth_app_mid, B by (left; reflexivity). reflexivity. }
    rewrite Hc, Nat.eqb_refl. split; [exact G|]. intros x Hx. unfold fremove. cbn [m_entries].
    destruct (eqv lt x k) eqn:Ex; [|reflexivity].
    rewrite (mlookup_eqv _ x k) by (auto; apply (al_D (k1 ++ k2)), G).
    apply mlookup_absent; assumption.
  - rewrite nth_app_mid. pose proof E as E2. apply eqv_iff in E2. destruct E2 as [-> _].
    destruct (Nat.eqb_spec (length k1) (length (e1 ++ e :: e2))) as [X|_].
    + rewrite app_length in X. cbn in X. lia.
    + unfold map_erase_at, set_erase_at. cbn [m_keys m_entries].
      rewrite erase_at_app, <- Le, erase_at_app.
      apply (do_remove k1 y k2 e1 e e2 k); assumption.
Qed.

(** Conditional erasure. *)
Fixpoint keep2 {A B} (p : A -> B -> bool) (a : list A) (b : list B) : list A * list B :=
  match a, b with
  | x :: a', y :: b' => let r := keep2 p a' b' in
                        if p x y then r else (x :: fst r, y :: snd r)
  | _, _ => ([], [])
  end.

Lemma erase_if_loop2 (p : K * V -> bool) : forall fuel k1 k2 e1 e2,
  length e1 = length k1 -> length e2 = length k2 -> (length e2 <= fuel)%nat ->
  map_erase_if_loop fuel p (mkM (k1 ++ k2) (e1 ++ e2)) (length e1) =
  let r := keep2 (fun _ e => p e) k2 e2 in mkM (k1 ++ fst r) (e1 ++ snd r).
Proof.
  induction fuel as [|f IH]; intros k1 k2 e1 e2 L1 L2 Hf.
  - destruct e2; [|cbn in Hf; lia]. destruct k2; [|discriminate]. reflexivity.
  - destruct e2 as [|e e2], k2 as [|k k2]; try discriminate; cbn [map_erase_if_loop m_entries].
    + rewrite nth_app_end. reflexivity.
    + cbn in Hf, L2. rewrite nth_app_mid. cbn [keep2]. destruct (p e).
      * unfold map_erase_at, set_erase_at. cbn [m_keys m_entries].
        rewrite L1 at 1. rewrite !erase_at_app. apply IH; lia.
      * change (e1 ++ e :: e2) with (e1 ++ [e] ++ e2).
        change (k1 ++ k :: k2) with (k1 ++ [k] ++ k2). rewrite !app_assoc.
        replace (S (length e1)) with (length (e1 ++ [e])) by (rewrite app_length; cbn; lia).
        rewrite IH by (rewrite ?app_length; cbn; lia). cbn. rewrite <- !app_assoc. reflexivity.
Qed.

Lemma erase_if_key_loop2 (p : K -> bool) : forall fuel k1 k2 e1 e2,
  length e1 = length k1 -> length e2 = length k2 -> (length k2 <= fuel)%nat ->
  @map_erase_if_key_loop K V fuel p (mkM (k1 ++ k2) (e1 ++ e2)) (length k1) =
  let r := keep2 (fun k _ => p k) k2 e2 in mkM (k1 ++ fst r) (e1 ++ snd r).
Proof.
  induction fuel as [|f IH]; intros k1 k2 e1 e2 L1 L2 Hf.
  - destruct k2; [|cbn in Hf; lia]. destruct e2; [|discriminate]. reflexivity.
  - destruct e2 as [|e e2], k2 as [|k k2]; try discriminate; cbn [map_erase_if_key_loop m_keys].
    + rewrite nth_app_end. reflexivity.
    + cbn in Hf, L2. rewrite nth_app_mid. cbn [keep2]. destruct (p k).
      * unfold map_erase_at, set_erase_at. cbn [m_keys m_entries].
        rewrite <- L1 at 2. rewrite !erase_at_app. apply IH; lia.
      * change (e1 ++ e :: e2) with (e1 ++ [e] ++ e2).
        change (k1 ++ k :: k2) with (k1 ++ [k] ++ k2). rewrite !app_assoc.
        replace (S (length k1)) with (length (k1 ++ [k])) by (rewrite app_length; cbn; lia).
        rewrite IH by (rewrite ?app_length; cbn; lia). cbn. rewrite <- !app_assoc. reflexivity.
Qed.

Lemma keep2_good (p : K -> K * V -> bool) (q : K * V -> bool) ks es :
  good D lt ks -> Forall2 aligned ks es -> (forall k e, D k -> aligned k e -> p k e = q e) ->
  let r := keep2 p ks es in
  good D lt (fst r) /\ Forall2 aligned (fst r) (snd r) /\
  snd r = filter (fun e => negb (q e)) es /\ (forall x, In x (fst r) -> In x ks).
Proof.
  intros G H Hp. induction H as [|k e ks es Ha H IH]; cbn.
  - split; [split; constructor|]. auto.
  - destruct G as [Gi Gd]. inversion Gi as [|? ? Gi' Hf]; subst. inversion Gd; subst.
    destruct IH as (G' & A' & E' & I'); [split; assumption|].
    rewrite (Hp k e) by assumption. destruct (q e); cbn.
    + split; [exact G'|]. split; [exact A'|]. split; [exact E'|]. auto.
    + split; [|split; [constructor; assumption|split; [f_equal; exact E'|]]].
      * destruct G' as [G1 G2]. split; constructor; auto.
        rewrite Forall_forall in *. auto.
      * intros x [<-|Hx]; auto.
Qed.

Lemma mlookup_filter m (q : K * V -> bool) k : mgood m -> D k ->
  mlookup (filter (fun e => negb (q e)) (m_entries m)) k = fkeep q (mlookup (m_entries m)) k.
Proof.
  intros G Hk. unfold fkeep. destruct (mplaced m k G Hk) as
    [k1 k2 e1 e2 -> F1 F2 A B A' B' L Le|k1 y k2 e1 e e2 -> F1 Fx F2 A E B A' E' B' L Le];
    cbn [m_entries]; rewrite filter_app.
  - rewrite (mlookup_absent e1 e2 k A' B'). apply mlookup_absent.
    + intros x Hx. apply filter_In in Hx. apply A', Hx.
    + intros x Hx. apply filter_In in Hx. apply B', Hx.
  - rewrite (mlookup_present e1 e e2 k A' E'). cbn. destruct (q e); cbn.
    + apply mlookup_absent.
      * intros x Hx. apply filter_In in Hx. apply A', Hx.
      * intros x Hx. apply filter_In in Hx. apply B', Hx.
    + apply mlookup_present; [|exact E']. intros x Hx. apply filter_In in Hx. apply A', Hx.
Qed.

Lemma map_erase_if_good m p : mgood m ->
  mgood (map_erase_if p m) /\
  forall x, D x -> mlookup (m_entries (map_erase_if p m)) x = fkeep p (mlookup (m_entries m)) x.
Proof.
  intros G. destruct m as [ks es]. unfold map_erase_if. cbn [m_entries].
  pose proof (Forall2_len _ _ _ (mg_al _ G)) as LL. cbn in LL.
  pose proof (erase_if_loop2 p (length es) [] ks [] es eq_refl (eq_sym LL) (le_n _)) as E.
  cbn [app length] in E. rewrite E. cbv zeta.
  destruct (keep2_good (fun _ e => p e) p ks es (mg_keys _ G) (mg_al _ G)) as (G' & A' & E' & _).
  { auto. }
  split; [split; assumption|]. intros x Hx. cbn [m_entries]. rewrite E'.
  apply (mlookup_filter (mkM ks es) p x G Hx).
Qed.

Lemma map_erase_if_key_good m p : mgood m ->
  (forall a b, eqv lt a b = true -> p a = p b) ->
  mgood (map_erase_if_key p m) /\
  forall x, D x -> mlookup (m_entries (map_erase_if_key p m)) x =
                   fkeep (fun e => p (fst e)) (mlookup (m_entries m)) x.
Proof.
  intros G Hp. destruct m as [ks es]. unfold map_erase_if_key. cbn [m_keys].
  pose proof (Forall2_len _ _ _ (mg_al _ G)) as LL. cbn in LL.
  pose proof (erase_if_key_loop2 p (length ks) [] ks [] es eq_refl (eq_sym LL) (le_n _)) as E.
  cbn [app length] in E. rewrite E. cbv zeta.
  destruct (keep2_good (fun k _ => p k) (fun e => p (fst e)) ks es (mg_keys _ G) (mg_al _ G))
    as (G' & A' & E' & _).
  { intros k e _ [_ Ha]. apply Hp, Ha. }
  split; [split; assumption|]. intros x Hx. cbn [m_entries]. rewrite E'.
  apply (mlookup_filter (mkM ks es) (fun e => p (fst e)) x G Hx).
Qed.

Definition map_op_in (o : map_op K V) : Prop :=
  match o with
  | MInsert k _ | MInsertHint k _ | MFetch k _ | MFetchSet k _ _ | MAtSet k _
  | MErase k | MEraseFound k => D k
  | MEraseIf _ | MEraseIfKey _ | MClear => True
  end.

Lemma map_step_good m f o : mgood m -> map_op_in o -> map_op_ok lt o ->
  (forall x, D x -> mlookup (m_entries m) x = f x) ->
  mgood (map_step lt m o) /\
  forall x, D x -> mlookup (m_entries (map_step lt m o)) x = fmap_step lt f o x.
Proof.
  intros G Ho Hok Hf. destruct o as [k v|k v|k v|k v w|k w|k|k|p|p|]; cbn [map_op_in map_op_ok] in *.
  - destruct (map_insert_good m k v G Ho) as (G' & L & _). split; [exact G'|].
    intros x Hx. cbn [map_step fmap_step]. rewrite L by assumption. unfold fput.
    rewrite Hf by assumption. reflexivity.
  - destruct (map_insert_good m k v G Ho) as (G' & L & _). split; [exact G'|].
    intros x Hx. unfold map_insert in L. cbn [map_step fmap_step].
    rewrite L by assumption. unfold fput. rewrite Hf by assumption. reflexivity.
  - destruct (map_fetch_good m k v G Ho) as (G' & L & _). split; [exact G'|].
    intros x Hx. cbn [map_step fmap_step]. rewrite L by assumption. unfold fget_or_put.
    rewrite Hf by assumption. reflexivity.
  - destruct (map_fetch_good m k v G Ho) as (G' & L & Hn & Hl). cbn [map_step fmap_step].
    rewrite Hl.
    destruct (map_write_good (fst (map_fetch lt m k v)) k w G' Ho) as (G2 & L2).
    { rewrite L by assumption. unfold fget_or_put. rewrite (eqv_refl D lt O) by assumption.
      destruct (mlookup (m_entries m) k); discriminate. }
    split; [exact G2|]. intros x Hx. rewrite L2 by assumption. unfold fset_value.
    rewrite L by assumption. unfold fget_or_put. rewrite Hf by assumption. reflexivity.
  - cbn [map_step fmap_step]. pose proof (map_find_spec m k G Ho) as F.
    destruct (mlookup (m_entries m) k) as [e|] eqn:E.
    + destruct F as (_ & -> & _).
      destruct (map_write_good m k w G Ho) as (G2 & L2); [congruence|].
      split; [exact G2|]. intros x Hx. rewrite L2 by assumption. unfold fset_value.
      rewrite Hf by assumption. reflexivity.
    + destruct F as (_ & ->). split; [exact G|]. intros x Hx. unfold fset_value.
      rewrite <- Hf by assumption. destruct (eqv lt x k) eqn:Ex; [|reflexivity].
      rewrite (mlookup_eqv _ x k); auto.
      * rewrite E. reflexivity.
      * apply (al_D (m_keys m)), G.
  - destruct (map_erase_good m k G Ho) as (G' & L). split; [exact G'|].
    intros x Hx. cbn [map_step fmap_step]. rewrite L by assumption. unfold fremove.
    rewrite Hf by assumption. reflexivity.
  - destruct (map_erase_found_good m k G Ho) as (G' & L). split; [exact G'|].
    intros x Hx. cbn [map_step fmap_step]. rewrite L by assumption. unfold fremove.
    rewrite Hf by assumption. reflexivity.
  - destruct (map_erase_if_good m p G) as (G' & L). split; [exact G'|].
    intros x Hx. cbn [map_step fmap_step]. rewrite L by assumption. unfold fkeep.
    rewrite Hf by assumption. reflexivity.
  - destruct (map_erase_if_key_good m p G Hok) as (G' & L). split; [exact G'|].
    intros x Hx. cbn [map_step fmap_step]. rewrite L by assumption. unfold fkeep.
    rewrite Hf by assumption. reflexivity.
  - cbn. split; [split; [split; constructor|constructor]|]. reflexivity.
Qed.

Lemma map_run_good_gen ops : forall m f, mgood m -> Forall map_op_in ops ->
  Forall (map_op_ok lt) ops -> (forall x, D x -> mlookup (m_entries m) x = f x) ->
  mgood (fold_left (map_step lt) ops m) /\
  forall x, D x -> mlookup (m_entries (fold_left (map_step lt) ops m)) x =
                   fold_left (fmap_step lt) ops f x.
Proof.
  induction ops as [|o ops IH]; intros m f G H1 H2 Hf; cbn; [auto|].
  inversion H1; subst. inversion H2; subst.
  destruct (map_step_good m f o G) as [G' L]; auto.
Qed.

Lemma mlookup_In m e : mgood m -> (In e (m_entries m) <-> (D (fst e) /\ mlookup (m_entries m) (fst e) = Some e)).
Proof.
  intros G. split.
  - intros He. pose proof (al_D _ _ (mg_al m G)) as HD.
    assert (De : D (fst e)) by (rewrite Forall_forall in HD; auto). split; [exact De|].
    destruct (mplaced m (fst e) G De) as
      [k1 k2 e1 e2 -> F1 F2 A B A' B' L Le|k1 y k2 e1 e0 e2 -> F1 Fx F2 A E B A' E' B' L Le];
      cbn [m_entries] in *.
    + exfalso. apply in_app_iff in He. destruct He as [He|He].
      * apply A' in He. rewrite (swo_irrefl _ _ O (fst e) De) in He. discriminate.
      * apply B' in He. rewrite (swo_irrefl _ _ O (fst e) De) in He. discriminate.
    + rewrite (mlookup_present e1 e0 e2 (fst e) A' E'). f_equal.
      apply in_app_iff in He. destruct He as [He|[He|He]]; [|exact He|].
      * apply A' in He. rewrite (swo_irrefl _ _ O (fst e) De) in He. discriminate.
      * apply B' in He. rewrite (swo_irrefl _ _ O (fst e) De) in He. discriminate.
  - intros [_ H]. apply find_some in H. apply H.
Qed.

End MapOrder.

(** Everything observable about a map after a history. *)
Lemma map_run_correct {K V} (lt : K -> K -> bool) : swo lt ->
  forall ops : list (map_op K V), Forall (map_op_ok lt) ops ->
  let m := map_run lt ops in
  let f := fmap_run lt ops in
  (forall k, match f k with
             | Some e => map_contains lt m k = true /\
                         nth_error (m_entries m) (map_find lt m k) = Some e /\
                         map_at lt m k = Some (snd e)
             | None => map_contains lt m k = false /\ map_find lt m k = length (m_entries m)
             end) /\
  (forall e, In e (m_entries m) <-> f (fst e) = Some e) /\
  length (m_keys m) = length (m_entries m) /\
  (forall i k e, nth_error (m_keys m) i = Some k -> nth_error (m_entries m) i = Some e ->
     eqv lt k (fst e) = true) /\
  (forall i j k k', (i < j)%nat -> nth_error (m_keys m) i = Some k ->
     nth_error (m_keys m) j = Some k' -> lt k k' = true).
Proof.
  intros O ops Hok m f. set (D := fun _ : K => True) in *.
  assert (Dv : forall v, D v) by (cbv; auto).
  destruct (map_run_good_gen D lt O ops map_empty (fun _ => None)) as [G L].
  { split; [split; constructor|constructor]. }
  { apply Forall_forall. intros [] _; cbv; auto. }
  { exact Hok. }
  { reflexivity. }
  change (fold_left (map_step lt) ops map_empty) with m in G, L.
  change (fold_left (fmap_step lt) ops (fun _ => None)) with f in L.
  split; [|split; [|split; [|split]]].
  - intros k. pose proof (map_find_spec D lt O m k G (Dv k)) as F. rewrite L in F by auto.
    destruct (f k) as [e|]; tauto.
  - intros e. rewrite (mlookup_In D lt O m e G), L by auto. split; [tauto|]. intros H. split; auto.
  - eapply Forall2_len, G.
  - intros i k e Hk He. pose proof (mg_al D lt m G) as F.
    eapply (Forall2_nth _ _ _ F); eauto.
  - intros i j x y Hij Hi Hj.
    apply nth_error_split in Hi. destruct Hi as (l1 & l2 & E & Hl).
    rewrite E in Hj. change (l1 ++ x :: l2) with (l1 ++ [x] ++ l2) in Hj.
    rewrite app_assoc, nth_error_app2 in Hj by (rewrite app_length; cbn; lia).
    destruct G as [[Gi _] _]. rewrite E in Gi. apply increasing_app_inv in Gi.
    destruct Gi as (_ & Gi & _). inversion Gi as [|? ? _ Hf]; subst.
    rewrite Forall_forall in Hf. apply Hf. eapply nth_error_In. exact Hj.
Qed.

(** Insert and Fetch return a reference to the entry of their key. *)
Lemma map_returns {K V} (lt : K -> K -> bool) : swo lt ->
  forall (ops : list (map_op K V)) k v, Forall (map_op_ok lt) ops ->
  let m := map_run lt ops in
  let '(mi, ni) := map_insert lt m k v in
  let '(mf, nf) := map_fetch lt m k v in
  nth_error (m_entries mi) ni = Some (k, v) /\
  nth_error (m_entries mf) nf =
    match fmap_run lt ops k with Some e => Some e | None => Some (k, v) end.
Proof.
  intros O ops k v Hok m. set (D := fun _ : K => True) in *.
  assert (Dv : forall v, D v) by (cbv; auto).
  destruct (map_run_good_gen D lt O ops map_empty (fun _ => None)) as [G L].
  { split; [split; constructor|constructor]. }
  { apply Forall_forall. intros [] _; cbv; auto. }
  { exact Hok. }
  { reflexivity. }
  change (fold_left (map_step lt) ops map_empty) with m in G, L.
  pose proof (map_insert_good D lt O m k v G (Dv k)) as (_ & _ & Hi).
  pose proof (map_fetch_good D lt O m k v G (Dv k)) as (_ & Lf & Hf & _).
  destruct (map_insert lt m k v) as [mi ni]. destruct (map_fetch lt m k v) as [mf nf].
  cbn in *. split; [exact Hi|]. rewrite Hf, Lf by auto. unfold fget_or_put.
  rewrite (eqv_refl D lt O) by auto. rewrite L by auto. reflexivity.
Qed.
