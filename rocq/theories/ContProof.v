From Coq Require Import List ZArith Bool Arith Lia Sorted.
From Verif Require Import ContModel ContSpec.
Import ListNotations.

(** * List helpers *)

Lemma insert_at_app {V} (a b : list V) v : insert_at (a ++ b) (length a) v = a ++ v :: b.
Proof.
  unfold insert_at. rewrite firstn_app, skipn_app, Nat.sub_diag, firstn_all, skipn_all. cbn.
  rewrite app_nil_r. reflexivity.
Qed.

Lemma erase_at_app {V} (a b : list V) x : erase_at (a ++ x :: b) (length a) = a ++ b.
Proof.
  unfold erase_at. rewrite firstn_app, Nat.sub_diag, firstn_all, firstn_O, app_nil_r.
  f_equal. change (a ++ x :: b) with (a ++ [x] ++ b). rewrite app_assoc.
  replace (S (length a)) with (length (a ++ [x])) by (rewrite app_length; cbn; lia).
  rewrite skipn_app, Nat.sub_diag, skipn_all. reflexivity.
Qed.

Lemma replace_at_app {V} (a b : list V) x y : replace_at (a ++ x :: b) (length a) y = a ++ y :: b.
Proof.
  unfold replace_at. rewrite firstn_app, skipn_app, Nat.sub_diag, firstn_all, skipn_all. cbn.
  rewrite app_nil_r. reflexivity.
Qed.

Lemma nth_app_mid {V} (a b : list V) x : nth_error (a ++ x :: b) (length a) = Some x.
Proof. rewrite nth_error_app2 by lia. rewrite Nat.sub_diag. reflexivity. Qed.

Lemma nth_app_end {V} (a : list V) : nth_error (a ++ []) (length a) = None.
Proof. rewrite app_nil_r. apply nth_error_None. lia. Qed.

Lemma find_app {V} (p : V -> bool) a b :
  find p (a ++ b) = match find p a with Some x => Some x | None => find p b end.
Proof. induction a as [|x a IH]; cbn; [reflexivity|]. destruct (p x); auto. Qed.

Lemma find_none_all {V} (p : V -> bool) l : Forall (fun x => p x = false) l -> find p l = None.
Proof. induction 1 as [|x l Hx _ IH]; cbn; [reflexivity|]. rewrite Hx. exact IH. Qed.

Lemma Forall2_len {A B} (R : A -> B -> Prop) l1 l2 : Forall2 R l1 l2 -> length l1 = length l2.
Proof. induction 1; cbn; congruence. Qed.

(** * Bisection *)

Lemma bisect_split {V} (p : V -> bool) s1 s2 :
  Forall (fun x => p x = true) s1 -> Forall (fun x => p x = false) s2 ->
  forall fuel first len, (len < fuel)%nat -> (first <= length s1 <= first + len)%nat ->
    (first + len <= length (s1 ++ s2))%nat ->
    bisect fuel (s1 ++ s2) p first len = length s1.
Proof.
  intros H1 H2. rewrite Forall_forall in H1, H2.
  induction fuel as [|f IH]; intros first len Hf Hb Hl; [lia|].
  cbn [bisect]. destruct (Nat.eqb_spec len 0) as [E|E]; [lia|].
  assert (Hh : (len / 2 < len)%nat) by (apply Nat.div_lt; lia).
  destruct (nth_error (s1 ++ s2) (first + len / 2)) as [x|] eqn:En.
  - destruct (Nat.lt_ge_cases (first + len / 2) (length s1)) as [L|L].
    + rewrite nth_error_app1 in En by assumption.
      rewrite (H1 x) by (eapply nth_error_In; eauto).
      apply IH; lia.
    + rewrite nth_error_app2 in En by assumption.
      rewrite (H2 x) by (eapply nth_error_In; eauto).
      apply IH; lia.
  - apply nth_error_None in En. lia.
Qed.

Lemma partition_point_split {V} (p : V -> bool) s1 s2 :
  Forall (fun x => p x = true) s1 -> Forall (fun x => p x = false) s2 ->
  partition_point (s1 ++ s2) p = length s1.
Proof.
  intros H1 H2. apply bisect_split; auto; rewrite ?app_length; lia.
Qed.

(** Whatever the test, the bisection ends at the end of the list or at an
    element failing the test. *)
Lemma bisect_stop {V} (p : V -> bool) (s : list V) : forall fuel first len,
  (len < fuel)%nat -> (first + len <= length s)%nat ->
  (forall x, nth_error s (first + len) = Some x -> p x = false) ->
  (bisect fuel s p first len <= length s)%nat /\
  forall x, nth_error s (bisect fuel s p first len) = Some x -> p x = false.
Proof.
  induction fuel as [|f IH]; intros first len Hf Hl Hp; [lia|].
  cbn [bisect]. destruct (Nat.eqb_spec len 0) as [E|E].
  - subst len. rewrite Nat.add_0_r in *. split; [lia|exact Hp].
  - assert (Hh : (len / 2 < len)%nat) by (apply Nat.div_lt; lia).
    destruct (nth_error s (first + len / 2)) as [x|] eqn:En.
    + destruct (p x) eqn:Ep.
      * apply IH; [lia|lia|].
        intros y Hy. apply Hp. rewrite <- Hy. f_equal. lia.
      * apply IH; [lia|lia|]. intros y Hy. rewrite En in Hy. injection Hy as <-. exact Ep.
    + apply nth_error_None in En. lia.
Qed.

Lemma partition_point_stop {V} (p : V -> bool) (s : list V) :
  (partition_point s p <= length s)%nat /\
  forall x, nth_error s (partition_point s p) = Some x -> p x = false.
Proof.
  apply bisect_stop; [lia|lia|]. intros x Hx.
  assert (nth_error s (0 + length s) = None) by (apply nth_error_None; lia). congruence.
Qed.

(** * Strict weak orders *)

Section Order.
Context {V : Type} (D : V -> Prop) (lt : V -> V -> bool) (O : swo_on D lt).

Lemma eqv_iff a b : eqv lt a b = true <-> lt a b = false /\ lt b a = false.
Proof. unfold eqv. rewrite andb_true_iff, !negb_true_iff. tauto. Qed.

Lemma eqv_sym a b : eqv lt a b = eqv lt b a.
Proof. unfold eqv. apply andb_comm. Qed.

Lemma eqv_refl a : D a -> eqv lt a a = true.
Proof. intros H. apply eqv_iff. split; apply (swo_irrefl _ _ O a H). Qed.

Lemma lt_asym a b : D a -> D b -> lt a b = true -> lt b a = false.
Proof.
  intros Ha Hb H. destruct (lt b a) eqn:E; [|reflexivity].
  pose proof (swo_trans _ _ O a b a Ha Hb Ha H E) as C.
  rewrite (swo_irrefl _ _ O a Ha) in C. discriminate.
Qed.

Lemma eqv_trans a b c : D a -> D b -> D c ->
  eqv lt a b = true -> eqv lt b c = true -> eqv lt a c = true.
Proof.
  rewrite !eqv_iff. intros Ha Hb Hc [? ?] [? ?].
  apply (swo_incomp _ _ O a b c); assumption.
Qed.

Lemma lt_eqv_r a b c : D a -> D b -> D c -> lt a b = true -> eqv lt b c = true -> lt a c = true.
Proof.
  intros Ha Hb Hc H E. destruct (lt a c) eqn:F; [reflexivity|].
  destruct (lt c a) eqn:G.
  - apply eqv_iff in E. pose proof (swo_trans _ _ O c a b Hc Ha Hb G H). destruct E. congruence.
  - assert (eqv lt a c = true) by (apply eqv_iff; auto).
    rewrite eqv_sym in E. assert (eqv lt a b = true) by (apply (eqv_trans a c b); assumption).
    apply eqv_iff in H1. destruct H1. congruence.
Qed.

Lemma lt_eqv_l a b c : D a -> D b -> D c -> eqv lt a b = true -> lt b c = true -> lt a c = true.
Proof.
  intros Ha Hb Hc E H. destruct (lt a c) eqn:F; [reflexivity|].
  destruct (lt c a) eqn:G.
  - apply eqv_iff in E. pose proof (swo_trans _ _ O b c a Hb Hc Ha H G). destruct E. congruence.
  - assert (Q : eqv lt a c = true) by (apply eqv_iff; auto).
    rewrite eqv_sym in E.
    assert (E' : eqv lt b c = true) by (apply (eqv_trans b a c); assumption).
    apply eqv_iff in E'. destruct E'. congruence.
Qed.

Lemma lt_not_eqv a b : lt a b = true -> eqv lt a b = false.
Proof. intros H. unfold eqv. rewrite H. reflexivity. Qed.
Lemma gt_not_eqv a b : lt b a = true -> eqv lt a b = false.
Proof. intros H. rewrite eqv_sym. apply lt_not_eqv, H. Qed.

Definition increasing (s : list V) : Prop := StronglySorted (fun a b => lt a b = true) s.

Lemma increasing_app_inv a b : increasing (a ++ b) ->
  increasing a /\ increasing b /\ forall x y, In x a -> In y b -> lt x y = true.
Proof.
  induction a as [|x a IH]; cbn; intros H.
  - split; [constructor|]. split; [exact H|]. intros x y [].
  - inversion H as [|? ? Hs Hf]; subst. destruct (IH Hs) as (A & B & C).
    rewrite Forall_forall in Hf. split; [|split; [exact B|]].
    + constructor; [exact A|]. apply Forall_forall. intros y Hy. apply Hf, in_or_app. auto.
    + intros u y [<-|Hu] Hy; [apply Hf, in_or_app; auto|apply C; auto].
Qed.

Lemma increasing_app a b : increasing a -> increasing b ->
  (forall x y, In x a -> In y b -> lt x y = true) -> increasing (a ++ b).
Proof.
  induction a as [|x a IH]; cbn; intros Ha Hb Hc; [exact Hb|].
  inversion Ha as [|? ? Hs Hf]; subst. constructor.
  - apply IH; auto.
  - apply Forall_app. split; [exact Hf|]. apply Forall_forall. intros y Hy. apply Hc; auto.
Qed.

(** Position of [v] in a sorted list. *)
Inductive place (s : list V) (v : V) : Prop :=
| place_absent s1 s2 :
    s = s1 ++ s2 -> (forall x, In x s1 -> lt x v = true) -> (forall x, In x s2 -> lt v x = true) ->
    place s v
| place_present s1 x s2 :
    s = s1 ++ x :: s2 -> (forall y, In y s1 -> lt y v = true) -> eqv lt v x = true ->
    (forall y, In y s2 -> lt v y = true) -> place s v.

Lemma placed s v : increasing s -> Forall D s -> D v -> place s v.
Proof.
  induction s as [|x s IH]; intros Hs HD Hv.
  - apply (place_absent [] v [] []); [reflexivity| |]; intros x [].
  - inversion Hs as [|? ? Hs' Hf]; subst. inversion HD as [|? ? Hx HD']; subst.
    rewrite Forall_forall in Hf, HD'.
    destruct (lt x v) eqn:E1.
    + destruct (IH Hs' (proj2 (Forall_forall _ _) HD') Hv) as [s1 s2 -> A B|s1 y s2 -> A B C].
      * apply (place_absent _ v (x :: s1) s2); [reflexivity| |exact B].
        intros z [<-|Hz]; auto.
      * apply (place_present _ v (x :: s1) y s2); [reflexivity| |exact B|exact C].
        intros z [<-|Hz]; auto.
    + destruct (lt v x) eqn:E2.
      * apply (place_absent _ v [] (x :: s)); [reflexivity| |].
        -- intros z [].
        -- intros z [<-|Hz]; [exact E2|]. apply (swo_trans _ _ O v x z); auto.
      * apply (place_present _ v [] x s); [reflexivity| | |].
        -- intros z [].
        -- apply eqv_iff; auto.
        -- intros z Hz. apply (lt_eqv_l v x z); auto. apply eqv_iff; auto.
Qed.

Lemma lower_absent s1 s2 v : Forall D (s1 ++ s2) -> D v ->
  (forall x, In x s1 -> lt x v = true) -> (forall x, In x s2 -> lt v x = true) ->
  set_lower lt (s1 ++ s2) v = length s1.
Proof.
  intros HD Hv A B. apply Forall_app in HD. destruct HD as [D1 D2].
  rewrite Forall_forall in D1, D2.
  apply partition_point_split; apply Forall_forall; intros x Hx; [auto|].
  apply lt_asym; auto.
Qed.

Lemma lower_present s1 x s2 v : Forall D (s1 ++ x :: s2) -> D v ->
  (forall y, In y s1 -> lt y v = true) -> eqv lt v x = true ->
  (forall y, In y s2 -> lt v y = true) ->
  set_lower lt (s1 ++ x :: s2) v = length s1.
Proof.
  intros HD Hv A E B. apply Forall_app in HD. destruct HD as [D1 D2].
  rewrite Forall_forall in D1, D2.
  apply partition_point_split; apply Forall_forall; intros y Hy; [auto|].
  destruct Hy as [<-|Hy].
  - apply eqv_iff in E. apply E.
  - apply lt_asym; [exact Hv| |auto]. apply D2. right. exact Hy.
Qed.

Lemma upper_absent s1 s2 v : Forall D (s1 ++ s2) -> D v ->
  (forall x, In x s1 -> lt x v = true) -> (forall x, In x s2 -> lt v x = true) ->
  set_upper lt (s1 ++ s2) v = length s1.
Proof.
  intros HD Hv A B. apply Forall_app in HD. destruct HD as [D1 D2].
  rewrite Forall_forall in D1, D2.
  apply partition_point_split; apply Forall_forall; intros x Hx.
  - rewrite (lt_asym x v); auto.
  - rewrite B; auto.
Qed.

Lemma upper_present s1 x s2 v : Forall D (s1 ++ x :: s2) -> D v ->
  (forall y, In y s1 -> lt y v = true) -> eqv lt v x = true ->
  (forall y, In y s2 -> lt v y = true) ->
  set_upper lt (s1 ++ x :: s2) v = S (length s1).
Proof.
  intros HD Hv A E B. apply Forall_app in HD. destruct HD as [D1 D2].
  rewrite Forall_forall in D1, D2.
  change (s1 ++ x :: s2) with (s1 ++ [x] ++ s2). rewrite app_assoc.
  replace (S (length s1)) with (length (s1 ++ [x])) by (rewrite app_length; cbn; lia).
  apply partition_point_split; apply Forall_forall; intros y Hy.
  - apply in_app_iff in Hy. destruct Hy as [Hy|[<-|[]]].
    + rewrite (lt_asym y v); auto.
    + apply eqv_iff in E. destruct E as [-> _]. reflexivity.
  - rewrite B; auto.
Qed.

(** The stored representative of [v]. *)
Definition lookup (s : list V) (v : V) : option V := find (fun x => eqv lt v x) s.

Lemma lookup_absent s1 s2 v :
  (forall x, In x s1 -> lt x v = true) -> (forall x, In x s2 -> lt v x = true) ->
  lookup (s1 ++ s2) v = None.
Proof.
  intros A B. apply find_none_all, Forall_forall. intros x Hx. apply in_app_iff in Hx.
  destruct Hx; [apply gt_not_eqv|apply lt_not_eqv]; auto.
Qed.

Lemma lookup_present s1 x s2 v :
  (forall y, In y s1 -> lt y v = true) -> eqv lt v x = true ->
  lookup (s1 ++ x :: s2) v = Some x.
Proof.
  intros A E. unfold lookup. rewrite find_app, find_none_all.
  - cbn. rewrite E. reflexivity.
  - apply Forall_forall. intros y Hy. apply gt_not_eqv; auto.
Qed.

Lemma lookup_In s x : increasing s -> Forall D s -> In x s -> lookup s x = Some x.
Proof.
  intros Hs HD Hx. apply in_split in Hx. destruct Hx as (s1 & s2 & ->).
  apply increasing_app_inv in Hs. destruct Hs as (_ & _ & H).
  apply lookup_present.
  - intros y Hy. apply H; cbn; auto.
  - apply eqv_refl. rewrite Forall_forall in HD. apply HD, in_or_app. cbn. auto.
Qed.

Lemma lookup_some_In s v x : lookup s v = Some x -> In x s.
Proof. intros H. apply find_some in H. apply H. Qed.

Record good (s : list V) : Prop := { g_inc : increasing s; g_D : Forall D s }.

Lemma eqv_swap x v y : D x -> D v -> D y -> eqv lt x v = true -> eqv lt x y = eqv lt v y.
Proof.
  intros Hx Hv Hy E. destruct (eqv lt v y) eqn:F.
  - apply (eqv_trans x v y); auto.
  - destruct (eqv lt x y) eqn:G; [|reflexivity].
    rewrite eqv_sym in E. rewrite (eqv_trans v x y) in F; auto.
Qed.

Lemma lookup_eqv s x v : Forall D s -> D x -> D v -> eqv lt x v = true ->
  lookup s x = lookup s v.
Proof.
  intros HD Hx Hv E. unfold lookup. induction HD as [|y s Hy _ IH]; cbn; [reflexivity|].
  rewrite (eqv_swap x v y) by assumption. rewrite IH. reflexivity.
Qed.

Lemma In_D s x : Forall D s -> In x s -> D x.
Proof. intros H. rewrite Forall_forall in H. auto. Qed.

(** Insertion. *)
Lemma set_insert_good s v : good s -> D v ->
  good (set_insert lt s v) /\
  forall x, D x -> lookup (set_insert lt s v) x = fadd lt (lookup s) v x.
Proof.
  intros [Hs HD] Hv. unfold set_insert, set_insert_hint.
  destruct (placed s v Hs HD Hv) as [s1 s2 -> A B|s1 y s2 -> A E B].
  - rewrite lower_absent by assumption.
    assert (Hc : match nth_error (s1 ++ s2) (length s1) with
                 | Some x => if lt v x then insert_at (s1 ++ s2) (length s1) v else s1 ++ s2
                 | None => insert_at (s1 ++ s2) (length s1) v end = s1 ++ v :: s2).
    { destruct s2 as [|z s2].
      - rewrite nth_app_end, insert_at_app. reflexivity.
      - rewrite nth_app_mid, B, insert_at_app by (left; reflexivity). reflexivity. }
    rewrite Hc. clear Hc.
    destruct (increasing_app_inv _ _ Hs) as (I1 & I2 & I12).
    pose proof (proj1 (Forall_app _ _ _) HD) as [D1 D2].
    split.
    + split.
      * apply increasing_app; [exact I1| |].
        -- constructor; [exact I2|]. apply Forall_forall. exact B.
        -- intros a b Ha [<-|Hb]; auto.
      * apply Forall_app. split; [exact D1|]. constructor; assumption.
    + intros x Hx. unfold fadd. destruct (eqv lt x v) eqn:Ex.
      * rewrite (lookup_eqv (s1 ++ s2) x v HD Hx Hv Ex).
        rewrite (lookup_absent s1 s2 v A B).
        apply lookup_present; [|exact Ex].
        intros y Hy. apply (lt_eqv_r y v x); auto; [apply (In_D s1); assumption|].
        rewrite eqv_sym. exact Ex.
      * unfold lookup. rewrite !find_app. cbn. rewrite Ex. reflexivity.
  - rewrite lower_present by assumption.
    rewrite nth_app_mid. pose proof E as E'. apply eqv_iff in E'. destruct E' as [-> _].
    split; [split; assumption|].
    intros x Hx. unfold fadd. destruct (eqv lt x v) eqn:Ex; [|reflexivity].
    rewrite (lookup_eqv _ x v HD Hx Hv Ex). rewrite lookup_present by assumption. reflexivity.
Qed.

Lemma good_mid s1 x s2 : good (s1 ++ x :: s2) -> good (s1 ++ s2).
Proof.
  intros [Hs HD]. apply increasing_app_inv in Hs. destruct Hs as (I1 & I2 & I12).
  apply Forall_app in HD. destruct HD as [D1 D2]. inversion I2; subst. inversion D2; subst.
  split.
  - apply increasing_app; auto. intros a b Ha Hb. apply I12; cbn; auto.
  - apply Forall_app; auto.
Qed.

Lemma erase_mid s1 y s2 v : good (s1 ++ y :: s2) -> D v -> eqv lt v y = true ->
  (forall x, In x s1 -> lt x v = true) -> (forall x, In x s2 -> lt v x = true) ->
  forall x, D x -> lookup (s1 ++ s2) x = fdel lt (lookup (s1 ++ y :: s2)) v x.
Proof.
  intros G Hv E A B x Hx. unfold fdel. destruct (good_mid _ _ _ G) as [G1 G2].
  destruct (eqv lt x v) eqn:Ex.
  - rewrite (lookup_eqv _ x v G2 Hx Hv Ex). apply lookup_absent; assumption.
  - unfold lookup. rewrite !find_app. cbn.
    destruct (eqv lt x y) eqn:Exy; [|reflexivity].
    assert (D y) by (apply (In_D (s1 ++ y :: s2)); [apply G|apply in_or_app; cbn; auto]).
    rewrite eqv_sym in E. rewrite (eqv_trans x y v) in Ex; auto. discriminate.
Qed.

Lemma set_erase_good s v : good s -> D v ->
  good (set_erase lt s v) /\
  forall x, D x -> lookup (set_erase lt s v) x = fdel lt (lookup s) v x.
Proof.
  intros [Hs HD] Hv. unfold set_erase.
  destruct (placed s v Hs HD Hv) as [s1 s2 -> A B|s1 y s2 -> A E B].
  - rewrite lower_absent by assumption.
    assert (Hc : match nth_error (s1 ++ s2) (length s1) with
                 | Some x => if negb (lt v x) then erase_at (s1 ++ s2) (length s1) else s1 ++ s2
                 | None => s1 ++ s2 end = s1 ++ s2).
    { destruct s2 as [|z s2].
      - rewrite nth_app_end. reflexivity.
      - rewrite nth_app_mid, B by (left; reflexivity). reflexivity. }
    rewrite Hc. split; [split; assumption|]. intros x Hx. unfold fdel.
    destruct (eqv lt x v) eqn:Ex; [|reflexivity].
    rewrite (lookup_eqv _ x v HD Hx Hv Ex). apply lookup_absent; assumption.
  - rewrite lower_present by assumption.
    rewrite nth_app_mid. pose proof E as E'. apply eqv_iff in E'. destruct E' as [-> _]. cbn.
    rewrite erase_at_app.
    assert (G : good (s1 ++ y :: s2)) by (split; assumption).
    split; [apply (good_mid _ _ _ G)|]. apply erase_mid; assumption.
Qed.

(** Find. *)
Lemma set_find_spec s v : good s -> D v ->
  match lookup s v with
  | Some x => exists s1 s2, s = s1 ++ x :: s2 /\ set_find lt s v = length s1 /\
                (forall y, In y s1 -> lt y v = true) /\ eqv lt v x = true /\
                (forall y, In y s2 -> lt v y = true)
  | None => set_find lt s v = length s
  end.
Proof.
  intros [Hs HD] Hv. unfold set_find.
  destruct (placed s v Hs HD Hv) as [s1 s2 -> A B|s1 y s2 -> A E B].
  - rewrite lookup_absent by assumption. rewrite lower_absent by assumption.
    destruct s2 as [|z s2].
    + rewrite nth_app_end, app_nil_r. reflexivity.
    + rewrite nth_app_mid, B by (left; reflexivity). reflexivity.
  - rewrite (lookup_present s1 y s2 v A E). rewrite lower_present by assumption.
    rewrite nth_app_mid. exists s1, s2. pose proof E as E'. apply eqv_iff in E'.
    destruct E' as [-> _]. auto.
Qed.

Lemma set_contains_spec s v : good s -> D v ->
  set_contains lt s v = match lookup s v with Some _ => true | None => false end.
Proof.
  intros [Hs HD] Hv. unfold set_contains.
  destruct (placed s v Hs HD Hv) as [s1 s2 -> A B|s1 y s2 -> A E B].
  - rewrite lookup_absent by assumption. rewrite lower_absent by assumption.
    destruct s2 as [|z s2].
    + rewrite nth_app_end. reflexivity.
    + rewrite nth_app_mid, B by (left; reflexivity). reflexivity.
  - rewrite (lookup_present s1 y s2 v A E). rewrite lower_present by assumption.
    rewrite nth_app_mid. apply eqv_iff in E. destruct E as [-> _]. reflexivity.
Qed.

Lemma set_erase_found_good s v : good s -> D v ->
  let s' := if Nat.eqb (set_find lt s v) (length s) then s
            else set_erase_at s (set_find lt s v) in
  good s' /\ forall x, D x -> lookup s' x = fdel lt (lookup s) v x.
Proof.
  intros G Hv. pose proof (set_find_spec s v G Hv) as F.
  destruct (lookup s v) as [y|] eqn:L.
  - destruct F as (s1 & s2 & -> & F & A & E & B). rewrite F. cbv zeta.
    destruct (Nat.eqb_spec (length s1) (length (s1 ++ y :: s2))) as [X|_].
    + rewrite app_length in X. cbn in X. lia.
    + unfold set_erase_at. rewrite erase_at_app. split; [apply (good_mid _ _ _ G)|].
      apply erase_mid; assumption.
  - rewrite F, Nat.eqb_refl. cbv zeta. split; [exact G|]. intros x Hx. unfold fdel.
    destruct (eqv lt x v) eqn:Ex; [|reflexivity].
    rewrite (lookup_eqv s x v); auto. apply G.
Qed.

Lemma good_filter s (p : V -> bool) : good s -> good (filter p s).
Proof.
  intros [Hs HD]. split.
  - induction Hs as [|x s Hs IH Hf]; cbn; [constructor|].
    inversion HD; subst. destruct (p x); [|apply IH; assumption].
    constructor; [apply IH; assumption|]. rewrite Forall_forall in *.
    intros y Hy. apply filter_In in Hy. apply Hf, Hy.
  - rewrite Forall_forall in *. intros y Hy. apply filter_In in Hy. apply HD, Hy.
Qed.

Lemma lookup_filter s (p : V -> bool) v : good s -> D v ->
  lookup (filter (fun x => negb (p x)) s) v =
  match lookup s v with Some y => if p y then None else Some y | None => None end.
Proof.
  intros [Hs HD] Hv. destruct (placed s v Hs HD Hv) as [s1 s2 -> A B|s1 y s2 -> A E B].
  - rewrite (lookup_absent s1 s2 v A B). rewrite filter_app. apply lookup_absent.
    + intros x Hx. apply filter_In in Hx. apply A, Hx.
    + intros x Hx. apply filter_In in Hx. apply B, Hx.
  - rewrite (lookup_present s1 y s2 v A E). rewrite filter_app. cbn.
    destruct (p y); cbn.
    + apply lookup_absent.
      * intros x Hx. apply filter_In in Hx. apply A, Hx.
      * intros x Hx. apply filter_In in Hx. apply B, Hx.
    + apply lookup_present; [|exact E]. intros x Hx. apply filter_In in Hx. apply A, Hx.
Qed.

End Order.

Lemma erase_if_loop_filter {E} (p : E -> bool) : forall fuel s1 s2, (length s2 <= fuel)%nat ->
  erase_if_loop fuel p (s1 ++ s2) (length s1) = s1 ++ filter (fun x => negb (p x)) s2.
Proof.
  induction fuel as [|f IH]; intros s1 s2 Hf.
  - destruct s2; [|cbn in Hf; lia]. reflexivity.
  - destruct s2 as [|x s2]; cbn [erase_if_loop].
    + rewrite nth_app_end. reflexivity.
    + cbn in Hf. rewrite nth_app_mid. cbn [filter]. destruct (p x); cbn [negb].
      * rewrite erase_at_app. apply IH. lia.
      * change (s1 ++ x :: s2) with (s1 ++ [x] ++ s2). rewrite app_assoc.
        replace (S (length s1)) with (length (s1 ++ [x])) by (rewrite app_length; cbn; lia).
        rewrite IH by lia. rewrite <- app_assoc. reflexivity.
Qed.

Lemma set_erase_if_filter {V} (p : V -> bool) s :
  set_erase_if p s = filter (fun x => negb (p x)) s.
Proof. apply (erase_if_loop_filter p (length s) [] s). lia. Qed.

(** * Histories of set operations *)

Definition set_op_in {V} (D : V -> Prop) (o : set_op V) : Prop :=
  match o with
  | SInsert v | SInsertHint v | SErase v | SEraseFound v => D v
  | SAssign vs => Forall D vs
  | SEraseIf _ | SClear => True
  end.

Section SetHistory.
Context {V : Type} (D : V -> Prop) (lt : V -> V -> bool) (O : swo_on D lt).

Lemma fadd_ext m1 m2 v : (forall x, D x -> m1 x = m2 x) ->
  forall x, D x -> fadd lt m1 v x = fadd lt m2 v x.
Proof. intros H x Hx. unfold fadd. rewrite H by assumption. reflexivity. Qed.

Lemma set_assign_good vs : forall s m, good D lt s -> Forall D vs ->
  (forall x, D x -> lookup lt s x = m x) ->
  good D lt (fold_left (set_insert lt) vs s) /\
  forall x, D x -> lookup lt (fold_left (set_insert lt) vs s) x = fold_left (fadd lt) vs m x.
Proof.
  induction vs as [|v vs IH]; intros s m G HD Hm; cbn; [auto|].
  inversion HD; subst. destruct (set_insert_good D lt O s v G) as [G' L]; [assumption|].
  apply IH; [exact G'|assumption|].
  intros x Hx. rewrite L by assumption. apply fadd_ext; assumption.
Qed.

Lemma set_step_good s m o : good D lt s -> set_op_in D o ->
  (forall x, D x -> lookup lt s x = m x) ->
  good D lt (set_step lt s o) /\
  forall x, D x -> lookup lt (set_step lt s o) x = fset_step lt m o x.
Proof.
  intros G Ho Hm. destruct o as [v|v|v|v|p|vs|]; cbn [set_step fset_step set_op_in] in *.
  - destruct (set_insert_good D lt O s v G Ho) as [G' L]. split; [exact G'|].
    intros x Hx. rewrite L by assumption. apply fadd_ext; assumption.
  - destruct (set_insert_good D lt O s v G Ho) as [G' L]. split; [exact G'|].
    intros x Hx. unfold set_insert in L. rewrite L by assumption. apply fadd_ext; assumption.
  - destruct (set_erase_good D lt O s v G Ho) as [G' L]. split; [exact G'|].
    intros x Hx. rewrite L by assumption. unfold fdel. rewrite Hm by assumption. reflexivity.
  - destruct (set_erase_found_good D lt O s v G Ho) as [G' L]. split; [exact G'|].
    intros x Hx. rewrite L by assumption. unfold fdel. rewrite Hm by assumption. reflexivity.
  - rewrite set_erase_if_filter. split; [apply good_filter; assumption|].
    intros x Hx. rewrite (lookup_filter D lt O) by assumption. unfold ffilter.
    rewrite Hm by assumption. reflexivity.
  - apply set_assign_good; [split; constructor|assumption|]. reflexivity.
  - split; [split; constructor|]. reflexivity.
Qed.

Lemma set_run_good_gen ops : forall s m, good D lt s -> Forall (set_op_in D) ops ->
  (forall x, D x -> lookup lt s x = m x) ->
  good D lt (fold_left (set_step lt) ops s) /\
  forall x, D x -> lookup lt (fold_left (set_step lt) ops s) x = fold_left (fset_step lt) ops m x.
Proof.
  induction ops as [|o ops IH]; intros s m G Ho Hm; cbn; [auto|].
  inversion Ho; subst. destruct (set_step_good s m o G) as [G' L]; [assumption|assumption|].
  apply IH; assumption.
Qed.

Lemma set_run_good ops : Forall (set_op_in D) ops ->
  good D lt (set_run lt ops) /\
  forall x, D x -> lookup lt (set_run lt ops) x = fset_run lt ops x.
Proof.
  intros H. apply set_run_good_gen; [split; constructor|assumption|reflexivity].
Qed.

End SetHistory.

(** Everything observable about a set after a history. *)
Lemma set_run_correct {V} (lt : V -> V -> bool) : swo lt -> forall ops,
  let s := set_run lt ops in
  let m := fset_run lt ops in
  (forall v, set_contains lt s v = match m v with Some _ => true | None => false end) /\
  (forall v, match m v with
             | Some x => nth_error s (set_find lt s v) = Some x
             | None => set_find lt s v = length s
             end) /\
  (forall i j x y, (i < j)%nat -> nth_error s i = Some x -> nth_error s j = Some y ->
     lt x y = true) /\
  (forall x, In x s <-> m x = Some x) /\
  (forall v x, m v = Some x -> In x s) /\
  (forall v, (set_lower lt s v <= length s)%nat /\
     forall i x, nth_error s i = Some x -> (lt x v = true <-> (i < set_lower lt s v)%nat)) /\
  (forall v, (set_upper lt s v <= length s)%nat /\
     forall i x, nth_error s i = Some x -> (lt v x = true <-> (set_upper lt s v <= i)%nat)).
Proof.
  intros O ops s m. set (D := fun _ : V => True) in *.
  assert (DA : forall l : list V, Forall D l) by (intros l; apply Forall_forall; cbv; auto).
  destruct (set_run_good D lt O ops) as [G L].
  { apply Forall_forall. intros [| | | | | |] _; cbv; auto. }
  fold s in G, L. change (fset_run lt ops) with m in L.
  assert (Dv : forall v, D v) by (cbv; auto).
  split; [|split; [|split; [|split; [|split; [|split]]]]].
  - intros v. rewrite (set_contains_spec D lt O s v G (Dv v)), L by auto. reflexivity.
  - intros v. pose proof (set_find_spec D lt O s v G (Dv v)) as F. rewrite L in F by auto.
    destruct (m v) as [x|]; [|exact F]. destruct F as (s1 & s2 & E & F & _).
    rewrite F, E. apply nth_app_mid.
  - intros i j x y Hij Hi Hj.
    apply nth_error_split in Hi. destruct Hi as (l1 & l2 & E & Hl).
    rewrite E in Hj. change (l1 ++ x :: l2) with (l1 ++ [x] ++ l2) in Hj.
    rewrite app_assoc, nth_error_app2 in Hj by (rewrite app_length; cbn; lia).
    destruct G as [Gi _]. rewrite E in Gi. apply increasing_app_inv in Gi.
    destruct Gi as (_ & Gi & _). inversion Gi as [|? ? _ Hf]; subst.
    rewrite Forall_forall in Hf. apply Hf. eapply nth_error_In. exact Hj.
  - intros x. rewrite <- L by auto. split; intros H.
    + apply (lookup_In D lt O); [apply G|apply DA|exact H].
    + eapply lookup_some_In. exact H.
  - intros v x H. rewrite <- L in H by auto. eapply lookup_some_In. exact H.
  - intros v. destruct G as [Gi Gd]. destruct (placed D lt O s v Gi Gd (Dv v))
      as [s1 s2 E A B|s1 y s2 E A Ey B]; rewrite E in *.
    + rewrite (lower_absent D lt O) by auto. rewrite app_length. split; [lia|].
      intros i x Hi. destruct (Nat.lt_ge_cases i (length s1)) as [Li|Li].
      * rewrite nth_error_app1 in Hi by assumption. split; auto. intros _. apply A.
        eapply nth_error_In; eauto.
      * rewrite nth_error_app2 in Hi by assumption. apply nth_error_In in Hi.
        rewrite (lt_asym D lt O v x) by auto. split; [discriminate|lia].
    + rewrite (lower_present D lt O) by auto. rewrite app_length. split; [lia|].
      intros i x Hi. destruct (Nat.lt_ge_cases i (length s1)) as [Li|Li].
      * rewrite nth_error_app1 in Hi by assumption. split; auto. intros _. apply A.
        eapply nth_error_In; eauto.
      * rewrite nth_error_app2 in Hi by assumption. apply nth_error_In in Hi.
        assert (lt x v = false).
        { destruct Hi as [<-|Hi]; [apply eqv_iff in Ey; apply Ey|].
          apply (lt_asym D lt O v x); auto. }
        rewrite H. split; [discriminate|lia].
  - intros v. destruct G as [Gi Gd]. destruct (placed D lt O s v Gi Gd (Dv v))
      as [s1 s2 E A B|s1 y s2 E A Ey B]; rewrite E in *.
    + rewrite (upper_absent D lt O) by auto. rewrite app_length. split; [lia|].
      intros i x Hi. destruct (Nat.lt_ge_cases i (length s1)) as [Li|Li].
      * rewrite nth_error_app1 in Hi by assumption. apply nth_error_In in Hi.
        rewrite (lt_asym D lt O x v) by auto. split; [discriminate|lia].
      * rewrite nth_error_app2 in Hi by assumption. split; auto. intros _. apply B.
        eapply nth_error_In; eauto.
    + rewrite (upper_present D lt O) by auto. rewrite app_length. cbn. split; [lia|].
      intros i x Hi. destruct (Nat.lt_ge_cases i (S (length s1))) as [Li|Li].
      * assert (lt v x = false).
        { destruct (Nat.eq_dec i (length s1)) as [->|Ne].
          - rewrite nth_app_mid in Hi. injection Hi as <-. apply eqv_iff in Ey. apply Ey.
          - rewrite nth_error_app1 in Hi by lia. apply (lt_asym D lt O x v); auto.
            apply A. eapply nth_error_In; eauto. }
        rewrite H. split; [discriminate|lia].
      * change (s1 ++ y :: s2) with (s1 ++ [y] ++ s2) in Hi.
        rewrite app_assoc, nth_error_app2 in Hi by (rewrite app_length; cbn; lia).
        split; auto. intros _. apply B. eapply nth_error_In; eauto.
Qed.

(** * Tuple order *)

Lemma lex_less_irrefl a : lex_less a a = false.
Proof.
  induction a as [|x a IH]; cbn; [reflexivity|].
  destruct a; rewrite Z.ltb_irrefl; [reflexivity|]. rewrite Z.eqb_refl, IH. reflexivity.
Qed.

Lemma lex_less_trans : forall a b c, length a = length b -> length b = length c ->
  lex_less a b = true -> lex_less b c = true -> lex_less a c = true.
Proof.
  induction a as [|x a IH]; intros [|y b] [|z c] H1 H2 A B; cbn in *; try discriminate.
  destruct a as [|x' a], b as [|y' b], c as [|z' c]; try discriminate.
  - apply Z.ltb_lt in A. apply Z.ltb_lt in B. apply Z.ltb_lt. lia.
  - rewrite orb_true_iff, andb_true_iff, Z.ltb_lt, Z.eqb_eq in *.
    destruct A as [A|[A A']], B as [B|[B B']]; try (left; lia).
    right. split; [congruence|]. apply (IH (y' :: b) (z' :: c)); auto.
Qed.

Lemma lex_less_total : forall a b, length a = length b ->
  lex_less a b = false -> lex_less b a = false -> a = b.
Proof.
  induction a as [|x a IH]; intros [|y b] H A B; cbn in *; try discriminate; [reflexivity|].
  destruct a as [|x' a], b as [|y' b]; try discriminate.
  - apply Z.ltb_ge in A. apply Z.ltb_ge in B. f_equal. lia.
  - rewrite orb_false_iff, andb_false_iff, Z.ltb_ge, Z.eqb_neq in *.
    assert (x = y) by lia. subst y. f_equal. apply IH; [auto| |].
    + destruct A as [_ [A|A]]; [congruence|exact A].
    + destruct B as [_ [B|B]]; [congruence|exact B].
Qed.

(** A relation that is irreflexive, transitive and total is a strict weak order. *)
Lemma total_swo {V} (D : V -> Prop) (lt : V -> V -> bool) :
  (forall a, D a -> lt a a = false) ->
  (forall a b c, D a -> D b -> D c -> lt a b = true -> lt b c = true -> lt a c = true) ->
  (forall a b, D a -> D b -> lt a b = false -> lt b a = false -> a = b) ->
  swo_on D lt.
Proof.
  intros H1 H2 H3. split; [exact H1|exact H2|].
  intros a b c Ha Hb Hc A B C E. rewrite (H3 a b Ha Hb A B). auto.
Qed.

Definition strict_total_on {V} (D : V -> Prop) (lt : V -> V -> bool) : Prop :=
  (forall a, D a -> lt a a = false) /\
  (forall a b c, D a -> D b -> D c -> lt a b = true -> lt b c = true -> lt a c = true) /\
  (forall a b, D a -> D b -> lt a b = true \/ lt b a = true \/ a = b).

Lemma lex_strict_total n : strict_total_on (fun t => length t = n) elem_less_r.
Proof.
  split; [|split].
  - intros a _. apply lex_less_irrefl.
  - intros a b c Ha Hb Hc. apply lex_less_trans; congruence.
  - intros a b Ha Hb. unfold elem_less_r. destruct (lex_less a b) eqn:A; [auto|].
    destruct (lex_less b a) eqn:B; [auto|]. right. right. apply lex_less_total; congruence.
Qed.

Lemma rlex_strict_total n : strict_total_on (fun t => length t = n) elem_less_c.
Proof.
  unfold elem_less_c. split; [|split].
  - intros a _. apply lex_less_irrefl.
  - intros a b c Ha Hb Hc. apply lex_less_trans; rewrite !rev_length; congruence.
  - intros a b Ha Hb. destruct (lex_less (rev a) (rev b)) eqn:A; [auto|].
    destruct (lex_less (rev b) (rev a)) eqn:B; [auto|]. right. right.
    rewrite <- (rev_involutive a), <- (rev_involutive b). f_equal.
    apply lex_less_total; rewrite ?rev_length; congruence.
Qed.

(** * Next available ID *)

Lemma next_id_loop_spec : forall ids prev, StronglySorted Z.lt ids ->
  (forall x, In x ids -> prev < x)%Z ->
  let r := next_id_loop prev ids in
  (prev <= r)%Z /\ ~ In (r + 1)%Z ids /\ (forall x, prev < x <= r -> In x ids)%Z.
Proof.
  induction ids as [|x ids IH]; intros prev Hs Hp; cbn.
  - split; [lia|]. split; [tauto|]. lia.
  - inversion Hs as [|? ? Hs' Hf]; subst. rewrite Forall_forall in Hf.
    pose proof (Hp x (or_introl eq_refl)) as Hx.
    rewrite Z.gtb_ltb. destruct (Z.ltb_spec 1 (x - prev)) as [L|L].
    + split; [lia|]. split; [|lia].
      intros [E|E]; [lia|]. apply Hf in E. lia.
    + destruct (IH x Hs' Hf) as (A & B & C). split; [lia|]. split.
      * intros [E|E]; [lia|]. contradiction.
      * intros y Hy. destruct (Z.eq_dec y x) as [->|]; [auto|]. right. apply C. lia.
Qed.

Lemma next_available_id_spec ids : StronglySorted Z.lt ids -> (forall x, In x ids -> 0 <= x)%Z ->
  (0 <= next_available_id ids)%Z /\ ~ In (next_available_id ids) ids /\
  forall x, (0 <= x < next_available_id ids)%Z -> In x ids.
Proof.
  intros Hs Hp. unfold next_available_id.
  destruct (next_id_loop_spec ids (-1)%Z Hs) as (A & B & C).
  { intros x Hx. apply Hp in Hx. lia. }
  split; [lia|]. split; [exact B|]. intros x Hx. apply C. lia.
Qed.

Lemma zltb_swo : swo Z.ltb.
Proof.
  apply total_swo.
  - intros a _. apply Z.ltb_irrefl.
  - intros a b c _ _ _. rewrite !Z.ltb_lt. lia.
  - intros a b _ _. rewrite !Z.ltb_ge. lia.
Qed.

Lemma increasing_Zlt s : increasing Z.ltb s -> StronglySorted Z.lt s.
Proof.
  induction 1 as [|x s _ IH Hf]; constructor; [exact IH|].
  rewrite Forall_forall in *. intros y Hy. apply Z.ltb_lt. auto.
Qed.

(** The set of IDs after any history that only ever stores non-negative IDs. *)
Definition ids_nonneg (o : set_op Z) : Prop :=
  match o with
  | SInsert v | SInsertHint v => (0 <= v)%Z
  | SAssign vs => Forall (fun v => 0 <= v)%Z vs
  | _ => True
  end.

Lemma set_insert_In {V} (lt : V -> V -> bool) s v x : In x (set_insert lt s v) -> x = v \/ In x s.
Proof.
  assert (I : forall n, In x (insert_at s n v) -> x = v \/ In x s).
  { intros n. unfold insert_at. rewrite in_app_iff. cbn. intros [H|[H|H]].
    - right. rewrite <- (firstn_skipn n s). apply in_or_app. auto.
    - auto.
    - right. rewrite <- (firstn_skipn n s). apply in_or_app. auto. }
  unfold set_insert, set_insert_hint. destruct (nth_error _ _) as [y|]; [|apply I].
  destruct (lt v y); [apply I|auto].
Qed.

Lemma erase_at_In {V} (s : list V) n x : In x (erase_at s n) -> In x s.
Proof.
  unfold erase_at. rewrite in_app_iff. intros [H|H].
  - rewrite <- (firstn_skipn n s). apply in_or_app. auto.
  - rewrite <- (firstn_skipn (S n) s). apply in_or_app. auto.
Qed.

Lemma set_assign_In {V} (lt : V -> V -> bool) vs : forall s x,
  In x (fold_left (set_insert lt) vs s) -> In x vs \/ In x s.
Proof.
  induction vs as [|v vs IH]; cbn; intros s x H; [auto|].
  apply IH in H. destruct H as [H|H]; [auto|]. apply set_insert_In in H. destruct H; auto.
Qed.

Lemma ids_run_nonneg ops : forall s, Forall ids_nonneg ops -> (forall x, In x s -> 0 <= x)%Z ->
  forall x, In x (fold_left (set_step Z.ltb) ops s) -> (0 <= x)%Z.
Proof.
  induction ops as [|o ops IH]; intros s Ho Hs x; cbn; [apply Hs|].
  inversion Ho as [|? ? H1 H2]; subst. apply IH; [exact H2|].
  intros y Hy. destruct o as [v|v|v|v|p|vs|]; cbn in *.
  - apply set_insert_In in Hy. destruct Hy; subst; auto.
  - apply (set_insert_In Z.ltb) in Hy. destruct Hy; subst; auto.
  - unfold set_erase in Hy. destruct (nth_error _ _); [|auto].
    destruct (negb _); [apply erase_at_In in Hy|]; auto.
  - destruct (Nat.eqb _ _); [auto|]. apply erase_at_In in Hy. auto.
  - rewrite set_erase_if_filter in Hy. apply filter_In in Hy. apply Hs, Hy.
  - apply set_assign_In in Hy. rewrite Forall_forall in H1. destruct Hy as [Hy|[]]. auto.
  - contradiction.
Qed.

Lemma next_id_history ops : Forall ids_nonneg ops ->
  let ids := set_run Z.ltb ops in
  let id := next_available_id ids in
  (0 <= id)%Z /\ set_contains Z.ltb ids id = false /\
  forall x, (0 <= x < id)%Z -> set_contains Z.ltb ids x = true.
Proof.
  intros Ho ids id. pose proof (set_run_correct Z.ltb zltb_swo ops) as H. cbv zeta in H.
  fold ids in H. destruct H as (Hc & _ & _ & Hin & Hmem & _).
  destruct (set_run_good (fun _ : Z => True) Z.ltb zltb_swo ops) as [[Gi _] _].
  { apply Forall_forall. intros [| | | | | |] _; cbn; auto. apply Forall_forall. auto. }
  fold ids in Gi.
  destruct (next_available_id_spec ids (increasing_Zlt _ Gi)) as (A & B & C).
  { apply (ids_run_nonneg ops []); [exact Ho|intros x []]. }
  split; [exact A|]. split.
  - rewrite Hc. destruct (fset_run Z.ltb ops id) as [y|] eqn:E; [|reflexivity].
    exfalso. apply B. fold id. pose proof (Hmem _ _ E) as Hy.
    destruct (set_run_good (fun _ : Z => True) Z.ltb zltb_swo ops) as [_ L].
    { apply Forall_forall. intros [| | | | | |] _; cbn; auto. apply Forall_forall. auto. }
    fold ids in L. rewrite <- L in E by auto. apply find_some in E. destruct E as [_ E].
    unfold eqv in E. rewrite andb_true_iff, !negb_true_iff, !Z.ltb_ge in E.
    replace id with y by lia. exact Hy.
  - intros x Hx. apply C in Hx. apply Hin in Hx. rewrite Hc, Hx. reflexivity.
Qed.

(** Index tuples with a fixed number of components, as a type of their own. *)
Definition tuples (n : nat) : Type := { t : list Z | length t = n }.

Lemma strict_total_swo n (lt : list Z -> list Z -> bool) :
  strict_total_on (fun t => length t = n) lt ->
  swo (fun a b : tuples n => lt (proj1_sig a) (proj1_sig b)).
Proof.
  intros (H1 & H2 & H3). split.
  - intros [a Ha] _. cbn. apply H1, Ha.
  - intros [a Ha] [b Hb] [c Hc] _ _ _. cbn. apply H2; assumption.
  - intros [a Ha] [b Hb] [c Hc] _ _ _. cbn. intros A B C E.
    destruct (H3 a b Ha Hb) as [X|[X|X]]; try congruence. subst. auto.
Qed.

Lemma tuple_orders n :
  (strict_total_on (fun t => length t = n) elem_less_r /\
   swo (fun a b : tuples n => elem_less_r (proj1_sig a) (proj1_sig b))) /\
  (strict_total_on (fun t => length t = n) elem_less_c /\
   swo (fun a b : tuples n => elem_less_c (proj1_sig a) (proj1_sig b))).
Proof.
  split; (split; [|apply strict_total_swo]);
    first [apply lex_strict_total | apply rlex_strict_total].
Qed.

(** The first differing component (from the front, from the back) decides. *)
Lemma lex_less_first : forall p x y a b, length a = length b -> (x < y)%Z ->
  lex_less (p ++ x :: a) (p ++ y :: b) = true.
Proof.
  induction p as [|z p IH]; intros x y a b L H; cbn.
  - destruct a; apply Z.ltb_lt in H; rewrite H; reflexivity.
  - rewrite IH by assumption. rewrite Z.eqb_refl.
    destruct (p ++ x :: a) eqn:E; [destruct p; discriminate|]. apply orb_true_r.
Qed.

Lemma elem_less_decides p x y a b : length a = length b -> (x < y)%Z ->
  elem_less_r (p ++ x :: a) (p ++ y :: b) = true /\
  elem_less_c (a ++ x :: p) (b ++ y :: p) = true.
Proof.
  intros L H. split; [apply lex_less_first; assumption|]. unfold elem_less_c.
  rewrite !rev_app_distr. cbn. rewrite <- !app_assoc. cbn.
  apply lex_less_first; [rewrite !rev_length; exact L|exact H].
Qed.
