From Coq Require Import List ZArith Bool Arith Lia.
From Verif Require Import TupleModel RangeModel CartModel Base DecompModel ContModel ContSpec ContProof MapProof
  PoolModel PoolSpec.
Import ListNotations.
Local Open Scope nat_scope.

Lemma all2_eq {A} (f : A -> A -> bool) : (forall x y, f x y = true <-> x = y) ->
  forall a b, all2 f a b = true <-> a = b.
Proof.
  intros H. induction a as [|x a IH]; intros [|y b]; cbn; try (split; [discriminate|congruence]).
  - tauto.
  - rewrite andb_true_iff, H, IH. split; [intros [-> ->]; reflexivity|].
    intros E. injection E. auto.
Qed.

Lemma reqb_iff a b : reqb a b = true <-> a = b.
Proof.
  unfold reqb. rewrite andb_true_iff, !teqb_eq. destruct a, b; cbn. split.
  - intros [-> ->]. reflexivity.
  - intros E. injection E. auto.
Qed.

Lemma cart_eqb_iff a b : cart_eqb a b = true <-> a = b.
Proof.
  unfold cart_eqb. rewrite !andb_true_iff, Nat.eqb_eq, reqb_iff, tbeqb_eq.
  destruct a as [n r p s], b as [n' r' p' s']; cbn. split.
  - intros [[[-> ->] ->] H]. destruct s, s'; try discriminate; reflexivity.
  - intros E. injection E as -> -> -> ->. destruct s'; auto.
Qed.

Lemma p_matches_iff d p : p_matches d p = true <->
  d_local (p_desc p) = d_local d /\ d_ext (p_desc p) = d_ext d /\ d_nsub (p_desc p) = d_nsub d.
Proof.
  unfold p_matches. rewrite !andb_true_iff, !(all2_eq reqb reqb_iff), (all2_eq Z.eqb Z.eqb_eq).
  tauto.
Qed.

Lemma p_matches_desc d p : d_cart (p_desc p) = d_cart d -> (p_matches d p = true <-> p_desc p = d).
Proof.
  intros E. rewrite p_matches_iff. destruct (p_desc p), d; cbn in *. split.
  - intros (-> & -> & ->). congruence.
  - intros X. injection X as -> -> -> ->. auto.
Qed.

Lemma desc_eqb_iff a b : desc_eqb a b = true <-> a = b.
Proof.
  unfold desc_eqb.
  rewrite !andb_true_iff, !(all2_eq reqb reqb_iff), (all2_eq Z.eqb Z.eqb_eq), cart_eqb_iff.
  destruct a, b; cbn. split.
  - intros [[[-> ->] ->] ->]. reflexivity.
  - intros X. injection X as -> -> -> ->. auto.
Qed.

Lemma tany_false f : tany f = false <-> f 0 = false /\ f 1 = false /\ f 2 = false.
Proof. unfold tany. rewrite !orb_false_iff. tauto. Qed.

(** Descriptions neither of which is less than the other are equal. *)
Lemma cart_less_eq a b : cart_less a b = false -> cart_less b a = false -> a = b.
Proof.
  unfold cart_less. rewrite !orb_false_iff, !tany_false, !Nat.ltb_ge, !Z.ltb_ge.
  destruct a as [n [[b0 b1 b2] [e0 e1 e2]] [p0 p1 p2] s],
    b as [n' [[b0' b1' b2'] [e0' e1' e2']] [p0' p1' p2'] s']; cbn. intros H1 H2.
  assert (B : forall x y : bool, (bool_num x <= bool_num y)%Z -> (bool_num y <= bool_num x)%Z -> x = y).
  { intros [] []; cbn; auto; lia. }
  assert (n = n') by lia. assert (b0 = b0') by lia. assert (b1 = b1') by lia.
  assert (b2 = b2') by lia. assert (e0 = e0') by lia. assert (e1 = e1') by lia.
  assert (e2 = e2') by lia.
  assert (p0 = p0') by (apply B; lia). assert (p1 = p1') by (apply B; lia).
  assert (p2 = p2') by (apply B; lia).
  assert (s = s') by (destruct s, s'; cbn in *; auto; lia).
  subst. reflexivity.
Qed.

(** * Soundness for any history *)

Definition filed (k : cart) (e : cart * list part) : Prop :=
  fst e = k /\ Forall (fun p => d_cart (p_desc p) = k) (snd e).
Definition pool_ok (pl : pool) : Prop :=
  Forall2 filed (m_keys (pl_map pl)) (m_entries (pl_map pl)).

Lemma Forall2_insert {A B} (R : A -> B -> Prop) la lb n a b : Forall2 R la lb ->
  R a b -> Forall2 R (insert_at la n a) (insert_at lb n b).
Proof.
  intros H Hab. unfold insert_at. revert n.
  induction H as [|x y la lb Hxy H IH]; intros [|n]; cbn; repeat (constructor; auto).
Qed.

Lemma Forall2_erase {A B} (R : A -> B -> Prop) la lb n : Forall2 R la lb ->
  Forall2 R (erase_at la n) (erase_at lb n).
Proof.
  intros H. unfold erase_at. revert n. induction H as [|x y la lb Hxy H IH]; intros n.
  - destruct n; constructor.
  - destruct n as [|n]; [exact H|]. cbn [firstn app]. constructor; [exact Hxy|apply IH].
Qed.

Lemma Forall2_replace {A B} (R : A -> B -> Prop) la lb n b a : Forall2 R la lb ->
  nth_error la n = Some a -> R a b -> Forall2 R la (replace_at lb n b).
Proof.
  intros H. unfold replace_at. revert n. induction H as [|x y la lb Hxy H IH]; intros n Hn Hab.
  - destruct n; constructor.
  - destruct n as [|n]; cbn in *.
    + injection Hn as ->. constructor; auto.
    + constructor; [exact Hxy|]. apply IH; auto.
Qed.

Lemma Forall2_nth_r {A B} (R : A -> B -> Prop) la lb n b : Forall2 R la lb ->
  nth_error lb n = Some b -> exists a, nth_error la n = Some a /\ R a b.
Proof.
  intros H. revert n. induction H as [|x y la lb Hxy H IH]; intros n Hn.
  - destruct n; discriminate.
  - destruct n as [|n]; cbn in *; [|auto]. injection Hn as ->. eauto.
Qed.

Lemma Forall2_nth_l {A B} (R : A -> B -> Prop) la lb n a : Forall2 R la lb ->
  nth_error la n = Some a -> exists b, nth_error lb n = Some b /\ R a b.
Proof.
  intros H. revert n. induction H as [|x y la lb Hxy H IH]; intros n Hn.
  - destruct n; discriminate.
  - destruct n as [|n]; cbn in *; [|auto]. injection Hn as ->. eauto.
Qed.

Lemma nth_insert_here {A} (l : list A) n v : n <= length l -> nth_error (insert_at l n v) n = Some v.
Proof.
  intros Hn. unfold insert_at. rewrite nth_error_app2 by (rewrite firstn_length; lia).
  rewrite firstn_length, Nat.min_l, Nat.sub_diag by assumption. reflexivity.
Qed.

Lemma fetch_filed (m : smap cart (list part)) c :
  Forall2 filed (m_keys m) (m_entries m) ->
  let m' := fst (map_fetch cart_less m c []) in
  let n := snd (map_fetch cart_less m c []) in
  Forall2 filed (m_keys m') (m_entries m') /\ nth_error (m_keys m') n = Some c.
Proof.
  intros H. unfold map_fetch. remember (set_lower cart_less (m_keys m) c) as n eqn:En.
  destruct (partition_point_stop (fun x => cart_less x c) (m_keys m)) as [Hn Hs].
  unfold set_lower in En. rewrite <- En in Hn, Hs.
  assert (Ins : Forall2 filed (insert_at (m_keys m) n c) (insert_at (m_entries m) n (c, []))).
  { apply Forall2_insert; auto. split; cbn; auto. }
  unfold set_insert_hint. destruct (nth_error (m_keys m) n) as [x|] eqn:Ex.
  - destruct (cart_less c x) eqn:El; cbn [fst snd m_keys m_entries].
    + split; [exact Ins|]. apply nth_insert_here, Hn.
    + split; [exact H|]. rewrite Ex. f_equal. symmetry. apply cart_less_eq; auto.
  - cbn [fst snd m_keys m_entries]. split; [exact Ins|]. apply nth_insert_here, Hn.
Qed.

Lemma map_write_filed (m : smap cart (list part)) n k l :
  Forall2 filed (m_keys m) (m_entries m) -> nth_error (m_keys m) n = Some k ->
  Forall (fun p => d_cart (p_desc p) = k) l ->
  Forall2 filed (m_keys (map_write m n l)) (m_entries (map_write m n l)).
Proof.
  intros H Hk Hl. destruct (Forall2_nth_l _ _ _ _ _ H Hk) as ([k' l'] & E & [E1 E2]). cbn in *.
  unfold map_write. rewrite E. cbn.
  apply (Forall2_replace _ _ _ _ _ k H Hk). split; cbn; congruence.
Qed.

Lemma put_matching_all (P : part -> Prop) p l : P p -> Forall P l -> Forall P (put_matching p l).
Proof.
  intros Hp. induction 1 as [|q l Hq Hl IH]; cbn; [auto|]. destruct (p_matches _ q); auto.
Qed.
Lemma drop_matching_all (P : part -> Prop) d l : Forall P l -> Forall P (drop_matching d l).
Proof. induction 1 as [|q l Hq Hl IH]; cbn; [auto|]. destruct (p_matches d q); auto. Qed.

Lemma pool_insert_ok pl p : pool_ok pl -> pool_ok (pool_insert pl p).
Proof.
  intros H. unfold pool_insert. pose proof (fetch_filed (pl_map pl) (d_cart (p_desc p)) H) as F.
  destruct (map_fetch _ _ _ _) as [m n]. cbv zeta in F. cbn [fst snd] in F. destruct F as [F1 F2].
  destruct (nth_error (m_entries m) n) as [[k l]|] eqn:E; [|exact H].
  unfold pool_ok. cbn [pl_map]. eapply map_write_filed; eauto.
  destruct (Forall2_nth_r _ _ _ _ _ F1 E) as (k' & Hk' & [_ Hl]). cbn in Hl.
  assert (k' = d_cart (p_desc p)) by congruence. subst. apply put_matching_all; auto.
Qed.

Lemma pool_fetch_ok pl d : pool_ok pl ->
  exists pl' p, pool_fetch pl d = Some (pl', p) /\ pool_ok pl' /\ p_desc p = d.
Proof.
  intros H. unfold pool_fetch. pose proof (fetch_filed (pl_map pl) (d_cart d) H) as F.
  destruct (map_fetch _ _ _ _) as [m n]. cbv zeta in F. cbn [fst snd] in F. destruct F as [F1 F2].
  destruct (Forall2_nth_l _ _ _ _ _ F1 F2) as ([k l] & E & [E1 E2]). cbn in E1, E2. subst k.
  rewrite E. destruct (find (p_matches d) l) as [p|] eqn:Ef.
  - exists (mkPool m (pl_next pl)), p. split; [reflexivity|]. split; [exact F1|].
    apply find_some in Ef. destruct Ef as [Hp Em]. rewrite Forall_forall in E2.
    apply p_matches_desc; auto.
  - eexists. eexists. split; [reflexivity|]. split; [|reflexivity].
    unfold pool_ok. cbn [pl_map]. eapply map_write_filed; eauto. apply Forall_app. split; auto.
Qed.

Lemma pool_erase_ok pl d : pool_ok pl -> pool_ok (pool_erase pl d).
Proof.
  intros H. unfold pool_erase. set (n := map_find _ _ _).
  destruct (nth_error (m_entries (pl_map pl)) n) as [[k l]|] eqn:E; [|exact H].
  destruct (Forall2_nth_r _ _ _ _ _ H E) as (k' & Hk' & [E1 E2]). cbn in E1, E2. subst k'.
  pose proof (map_write_filed (pl_map pl) n k (drop_matching d l) H Hk'
                (drop_matching_all _ d l E2)) as W.
  unfold pool_ok. cbn [pl_map]. destruct (drop_matching d l); [|exact W].
  cbn. unfold set_erase_at. apply Forall2_erase, W.
Qed.

Lemma pool_step_ok o pl : pool_ok pl -> exists pl', pool_step (Some pl) o = Some pl' /\ pool_ok pl'.
Proof.
  intros H. destruct o as [p|d|d]; cbn.
  - eexists. split; [reflexivity|]. apply pool_insert_ok, H.
  - destruct (pool_fetch_ok pl d H) as (pl' & p & -> & K & _). exists pl'. auto.
  - eexists. split; [reflexivity|]. apply pool_erase_ok, H.
Qed.

Lemma pool_run_ok ops : forall pl, pool_ok pl ->
  exists pl', fold_left pool_step ops (Some pl) = Some pl' /\ pool_ok pl'.
Proof.
  induction ops as [|o ops IH]; intros pl H; cbn [fold_left]; [eauto|].
  destruct (pool_step_ok o pl H) as (pl1 & -> & H1). apply IH, H1.
Qed.

Lemma pool_sound first ops d : exists pl pl' p, pool_run first ops = Some pl /\
  pool_fetch pl d = Some (pl', p) /\ p_desc p = d.
Proof.
  destruct (pool_run_ok ops (pool_empty first)) as (pl & E & H); [constructor|].
  destruct (pool_fetch_ok pl d H) as (pl' & p & E' & _ & K). exists pl, pl', p. auto.
Qed.

(** * Completeness where the comparison is an order *)

Section Chain.
Context (D : cart -> Prop) (O : swo_on D cart_less).

Lemma ceqv a b : eqv cart_less a b = true -> a = b.
Proof. rewrite eqv_iff. intros [A B]. apply cart_less_eq; assumption. Qed.

Lemma ceqv_refl a : D a -> eqv cart_less a a = true.
Proof. apply (eqv_refl D cart_less O). Qed.

Definition tidy (l : list part) : Prop := NoDup (map p_desc l).

Record pinv (pl : pool) : Prop := {
  pi_good : mgood D cart_less (pl_map pl);
  pi_ok : pool_ok pl;
  pi_tidy : forall e, In e (m_entries (pl_map pl)) -> tidy (snd e) }.

Definition filed_id (pl : pool) (d : desc) : option nat :=
  match mlookup cart_less (m_entries (pl_map pl)) (d_cart d) with
  | Some (_, l) => option_map p_id (find (p_matches d) l)
  | None => None
  end.

Lemma entry_filed pl e : pool_ok pl -> In e (m_entries (pl_map pl)) ->
  Forall (fun p => d_cart (p_desc p) = fst e) (snd e).
Proof.
  intros H He. apply In_nth_error in He. destruct He as [n Hn].
  destruct (Forall2_nth_r _ _ _ _ _ H Hn) as (k & _ & [E1 E2]). rewrite E1. exact E2.
Qed.

Lemma mlookup_cart (es : list (cart * list part)) c e : mlookup cart_less es c = Some e ->
  In e es /\ fst e = c.
Proof.
  intros H. apply find_some in H. destruct H as [A B]. split; [exact A|].
  symmetry. apply ceqv, B.
Qed.

Lemma find_put d p l : Forall (fun q => d_cart (p_desc q) = d_cart (p_desc p)) l ->
  d_cart d = d_cart (p_desc p) ->
  find (p_matches d) (put_matching p l) =
  if desc_eqb d (p_desc p) then Some p else find (p_matches d) l.
Proof.
  intros Hl Hd. induction Hl as [|q l Hq Hl IH]; cbn.
  - destruct (desc_eqb d (p_desc p)) eqn:E.
    + apply desc_eqb_iff in E. assert (p_matches d p = true) as -> by (apply p_matches_desc; auto).
      reflexivity.
    + destruct (p_matches d p) eqn:M; [|reflexivity].
      apply p_matches_desc in M; [|auto]. subst d.
      assert (desc_eqb (p_desc p) (p_desc p) = true) by (apply desc_eqb_iff; auto). congruence.
  - destruct (p_matches (p_desc p) q) eqn:M; cbn.
    + apply p_matches_desc in M; [|auto].
      destruct (desc_eqb d (p_desc p)) eqn:E.
      * apply desc_eqb_iff in E. assert (p_matches d p = true) as -> by (apply p_matches_desc; auto).
        reflexivity.
      * assert (N : d <> p_desc p).
        { intros X. apply (proj2 (desc_eqb_iff _ _)) in X. congruence. }
        assert (p_matches d p = false) as ->.
        { destruct (p_matches d p) eqn:X; [|reflexivity].
          apply p_matches_desc in X; [|auto]. congruence. }
        assert (p_matches d q = false) as ->.
        { destruct (p_matches d q) eqn:X; [|reflexivity].
          apply p_matches_desc in X; [|congruence]. congruence. }
        reflexivity.
    + destruct (p_matches d q) eqn:X; [|exact IH].
      apply p_matches_desc in X; [|congruence].
      destruct (desc_eqb d (p_desc p)) eqn:E; [|reflexivity].
      apply desc_eqb_iff in E. subst d.
      assert (p_matches (p_desc p) q = true) by (apply p_matches_desc; congruence). congruence.
Qed.

Lemma tidy_put p l : Forall (fun q => d_cart (p_desc q) = d_cart (p_desc p)) l -> tidy l ->
  tidy (put_matching p l).
Proof.
  unfold tidy. intros Hl. induction Hl as [|q l Hq Hl IH]; cbn; intros T.
  - constructor; [tauto|constructor].
  - inversion T as [|? ? N T']; subst. destruct (p_matches (p_desc p) q) eqn:M; cbn.
    + apply p_matches_desc in M; [|auto]. rewrite <- M. constructor; assumption.
    + constructor; [|apply IH, T'].
      assert (Ne : p_desc q <> p_desc p).
      { intros X. apply (proj2 (p_matches_desc (p_desc p) q Hq)) in X. congruence. }
      intros H. apply N. clear - H Ne. induction l as [|z l IH]; cbn in *.
      * destruct H as [H|[]]. congruence.
      * destruct (p_matches (p_desc p) z); cbn in *.
        -- destruct H as [H|H]; [congruence|auto].
        -- destruct H as [H|H]; auto.
Qed.

Lemma find_drop d' d l : Forall (fun q => d_cart (p_desc q) = d_cart d) l -> tidy l ->
  d_cart d' = d_cart d ->
  find (p_matches d') (drop_matching d l) =
  if desc_eqb d' d then None else find (p_matches d') l.
Proof.
  intros Hl T Hd. induction Hl as [|q l Hq Hl IH]; cbn.
  - destruct (desc_eqb d' d); reflexivity.
  - inversion T as [|? ? N T']; subst. destruct (p_matches d q) eqn:M.
    + apply p_matches_desc in M; [|auto]. destruct (desc_eqb d' d) eqn:E.
      * apply desc_eqb_iff in E. subst d'. apply find_none_all, Forall_forall.
        intros z Hz. destruct (p_matches d z) eqn:X; [|reflexivity].
        rewrite Forall_forall in Hl. apply p_matches_desc in X; [|auto].
        exfalso. apply N. rewrite M, <- X. apply in_map, Hz.
      * destruct (p_matches d' q) eqn:X; [|reflexivity].
        apply p_matches_desc in X; [|congruence].
        assert (desc_eqb d' d = true) by (apply desc_eqb_iff; congruence). congruence.
    + cbn. destruct (p_matches d' q) eqn:X; [|apply IH, T'].
      apply p_matches_desc in X; [|congruence].
      destruct (desc_eqb d' d) eqn:E; [|reflexivity].
      apply desc_eqb_iff in E. subst d'.
      assert (p_matches d q = true) by (apply p_matches_desc; auto). congruence.
Qed.

Lemma tidy_drop d l : tidy l -> tidy (drop_matching d l).
Proof.
  unfold tidy. induction l as [|q l IH]; cbn; intros T; [constructor|].
  inversion T as [|? ? N T']; subst. destruct (p_matches d q); [exact T'|].
  cbn. constructor; [|apply IH, T'].
  intros H. apply N. clear - H. induction l as [|z l IH]; cbn in *; [contradiction|].
  destruct (p_matches d z); cbn in *; [auto|]. destruct H as [H|H]; auto.
Qed.

(** Changing the list filed under one Cartesian description. *)
Lemma entry_D m (e : cart * list part) : mgood D cart_less m -> In e (m_entries m) -> D (fst e).
Proof.
  intros G He. pose proof (al_D D cart_less _ _ (mg_al _ _ _ G)) as H.
  rewrite Forall_forall in H. apply H, He.
Qed.

Lemma write_inv pl c l n' : pinv pl -> D c -> (exists k0, mlookup cart_less (m_entries (pl_map pl)) c = Some k0) ->
  tidy l ->
  let m' := map_write (pl_map pl) (set_lower cart_less (m_keys (pl_map pl)) c) l in
  Forall (fun p => d_cart (p_desc p) = c) l ->
  pinv (mkPool m' n') /\
  forall x, D x -> mlookup cart_less (m_entries m') x =
                   if eqv cart_less x c then Some (c, l)
                   else mlookup cart_less (m_entries (pl_map pl)) x.
Proof.
  intros P Hc [k0 Hk0] T m' Hl. pose proof (pi_good pl P) as G.
  destruct (map_write_good D cart_less O (pl_map pl) c l G Hc) as [G' L]; [congruence|].
  fold m' in G', L.
  assert (Lk : forall x, D x -> mlookup cart_less (m_entries m') x =
                   if eqv cart_less x c then Some (c, l)
                   else mlookup cart_less (m_entries (pl_map pl)) x).
  { intros x Hx. rewrite L by assumption. unfold fset_value.
    destruct (eqv cart_less x c) eqn:E; [|reflexivity]. apply ceqv in E. subst x. rewrite Hk0.
    destruct k0 as [k0 l0]. apply mlookup_cart in Hk0. destruct Hk0 as [_ Hk0]. cbn in Hk0.
    subst k0. reflexivity. }
  split; [|exact Lk]. split; cbn.
  - exact G'.
  - unfold pool_ok. cbn.
    destruct (mplaced D cart_less O (pl_map pl) c G Hc) as
      [k1 k2 e1 e2 E F1 F2 A B A' B' Lw Le|k1 y k2 e1 e e2 E F1 Fx F2 A Ey B A' E' B' Lw Le].
    + rewrite E in Hk0. cbn [m_entries] in Hk0. rewrite mlookup_absent in Hk0 by assumption.
      discriminate.
    + apply ceqv in Ey. subst y. unfold m'. apply (map_write_filed _ _ c); auto.
      * apply P.
      * rewrite E. cbn [m_keys]. rewrite Lw. apply nth_app_mid.
  - intros e He. apply (mlookup_In D cart_less O m' e G') in He. destruct He as [De He].
    rewrite Lk in He by assumption. destruct (eqv cart_less (fst e) c).
    + injection He as <-. exact T.
    + apply find_some in He. apply (pi_tidy pl P), He.
Qed.

Lemma fetch_inv pl c n' : pinv pl -> D c ->
  let m' := fst (map_fetch cart_less (pl_map pl) c []) in
  let n := snd (map_fetch cart_less (pl_map pl) c []) in
  pinv (mkPool m' n') /\ n = set_lower cart_less (m_keys m') c /\
  (exists l, nth_error (m_entries m') n = Some (c, l) /\ mlookup cart_less (m_entries m') c = Some (c, l) /\
     l = match mlookup cart_less (m_entries (pl_map pl)) c with Some (_, l) => l | None => [] end) /\
  (forall x, D x -> eqv cart_less x c = false -> mlookup cart_less (m_entries m') x =
                   mlookup cart_less (m_entries (pl_map pl)) x).
Proof.
  intros P Hc m' n. pose proof (pi_good pl P) as G.
  destruct (map_fetch_good D cart_less O (pl_map pl) c [] G Hc) as (G' & L & Hn & Hlow).
  fold m' n in G', L, Hn, Hlow.
  assert (Lc : exists l, mlookup cart_less (m_entries m') c = Some (c, l) /\
    l = match mlookup cart_less (m_entries (pl_map pl)) c with Some (_, l) => l | None => [] end).
  { rewrite L by assumption. unfold fget_or_put. rewrite ceqv_refl by assumption.
    destruct (mlookup cart_less (m_entries (pl_map pl)) c) as [[k l]|] eqn:E; [|eauto].
    apply mlookup_cart in E. destruct E as [_ E]. cbn in E. subst k. eauto. }
  destruct Lc as (l & Lc & El).
  split; [|split; [exact Hlow|split]].
  - split; cbn; [exact G'| |].
    + apply (fetch_filed (pl_map pl) c (pi_ok pl P)).
    + intros e He. apply (mlookup_In D cart_less O m' e G') in He. destruct He as [De He].
      rewrite L in He by assumption. unfold fget_or_put in He.
      destruct (eqv cart_less (fst e) c).
      * destruct (mlookup cart_less (m_entries (pl_map pl)) (fst e)) as [e'|] eqn:E'.
        -- injection He as <-. apply mlookup_cart in E'. apply (pi_tidy pl P), E'.
        -- injection He as <-. constructor.
      * apply find_some in He. apply (pi_tidy pl P), He.
  - exists l. rewrite Hn. auto.
  - intros x Hx Ex. rewrite L by assumption. unfold fget_or_put. rewrite Ex. reflexivity.
Qed.

Lemma eqv_cart_dec x c : D x -> D c -> eqv cart_less x c = cart_eqb x c.
Proof.
  intros Hx Hc. destruct (eqv cart_less x c) eqn:E.
  - apply ceqv in E. subst. symmetry. apply cart_eqb_iff. reflexivity.
  - destruct (cart_eqb x c) eqn:F; [|reflexivity]. apply cart_eqb_iff in F. subst.
    rewrite ceqv_refl in E by assumption. discriminate.
Qed.

Lemma desc_cart_ne a b : d_cart a <> d_cart b -> desc_eqb a b = false.
Proof.
  intros H. destruct (desc_eqb a b) eqn:E; [|reflexivity]. apply desc_eqb_iff in E. congruence.
Qed.

Lemma insert_inv pl p : pinv pl -> D (d_cart (p_desc p)) ->
  pinv (pool_insert pl p) /\ pl_next (pool_insert pl p) = pl_next pl /\
  forall d, D (d_cart d) -> filed_id (pool_insert pl p) d =
    if desc_eqb d (p_desc p) then Some (p_id p) else filed_id pl d.
Proof.
  intros P Hc. set (c := d_cart (p_desc p)) in *. unfold pool_insert. fold c.
  pose proof (fetch_inv pl c (pl_next pl) P Hc) as F.
  destruct (map_fetch cart_less (pl_map pl) c []) as [m n]. cbv zeta in F. cbn [fst snd] in F.
  destruct F as (P' & Hn & (l & Hl & Hlk & El) & Hoth). rewrite Hl.
  assert (Fl : Forall (fun q => d_cart (p_desc q) = c) l).
  { apply (entry_filed (mkPool m (pl_next pl)) (c, l) (pi_ok _ P')). cbn. eapply nth_error_In; eauto. }
  assert (Tl : tidy l).
  { apply (pi_tidy _ P' (c, l)). cbn. eapply nth_error_In; eauto. }
  rewrite Hn.
  destruct (write_inv (mkPool m (pl_next pl)) c (put_matching p l) (pl_next pl) P' Hc) as [PW LW].
  { cbn. eauto. }
  { apply tidy_put; assumption. }
  { apply put_matching_all; auto. }
  cbn [pl_map] in PW, LW. split; [exact PW|]. split; [reflexivity|].
  intros d Hd. unfold filed_id. cbn [pl_map]. rewrite LW by assumption.
  rewrite (eqv_cart_dec (d_cart d) c Hd Hc).
  destruct (cart_eqb (d_cart d) c) eqn:Ec.
  - apply cart_eqb_iff in Ec. rewrite find_put by assumption.
    rewrite Ec, El. destruct (desc_eqb d (p_desc p)); [reflexivity|].
    destruct (mlookup cart_less (m_entries (pl_map pl)) c) as [[k l']|]; reflexivity.
  - rewrite desc_cart_ne by (fold c; intros X; apply cart_eqb_iff in X; congruence).
    rewrite Hoth; [reflexivity|assumption|]. rewrite (eqv_cart_dec (d_cart d) c Hd Hc). exact Ec.
Qed.

Lemma fetch_spec pl d : pinv pl -> D (d_cart d) ->
  exists pl' p, pool_fetch pl d = Some (pl', p) /\ pinv pl' /\
    match filed_id pl d with
    | Some i => p_id p = i /\ pl_next pl' = pl_next pl /\
                forall d', D (d_cart d') -> filed_id pl' d' = filed_id pl d'
    | None => p_id p = pl_next pl /\ pl_next pl' = S (pl_next pl) /\
              forall d', D (d_cart d') -> filed_id pl' d' =
                if desc_eqb d' d then Some (pl_next pl) else filed_id pl d'
    end.
Proof.
  intros P Hc. set (c := d_cart d) in *. unfold pool_fetch. fold c.
  pose proof (fetch_inv pl c (pl_next pl) P Hc) as F.
  destruct (map_fetch cart_less (pl_map pl) c []) as [m n]. cbv zeta in F. cbn [fst snd] in F.
  destruct F as (P' & Hn & (l & Hl & Hlk & El) & Hoth). rewrite Hl.
  assert (Fl : Forall (fun q => d_cart (p_desc q) = c) l).
  { apply (entry_filed (mkPool m (pl_next pl)) (c, l) (pi_ok _ P')). cbn. eapply nth_error_In; eauto. }
  assert (Tl : tidy l).
  { apply (pi_tidy _ P' (c, l)). cbn. eapply nth_error_In; eauto. }
  assert (Fid : filed_id pl d = option_map p_id (find (p_matches d) l)).
  { unfold filed_id. fold c. rewrite El.
    destruct (mlookup cart_less (m_entries (pl_map pl)) c) as [[k l']|]; reflexivity. }
  rewrite Fid. destruct (find (p_matches d) l) as [p|] eqn:Ef; cbn [option_map].
  - exists (mkPool m (pl_next pl)), p. split; [reflexivity|]. split; [exact P'|].
    split; [reflexivity|]. split; [reflexivity|]. intros d' Hd'. unfold filed_id. cbn [pl_map].
    destruct (cart_eqb (d_cart d') c) eqn:Ec.
    + apply cart_eqb_iff in Ec. rewrite Ec, Hlk, El.
      destruct (mlookup cart_less (m_entries (pl_map pl)) c) as [[k l']|]; reflexivity.
    + rewrite Hoth; auto. rewrite (eqv_cart_dec (d_cart d') c Hd' Hc). exact Ec.
  - rewrite Hn. set (p := mkP (pl_next pl) d).
    destruct (write_inv (mkPool m (pl_next pl)) c (l ++ [p]) (S (pl_next pl)) P' Hc) as [PW LW].
    { cbn. eauto. }
    { unfold tidy. rewrite map_app. cbn. apply NoDup_app_intro.
      - exact Tl.
      - constructor; [tauto|constructor].
      - intros x Hx [<-|[]]. apply in_map_iff in Hx. destruct Hx as (q & Eq & Hq).
        apply (find_none _ _ Ef) in Hq as M. rewrite Forall_forall in Fl.
        rewrite (proj2 (p_matches_desc d q (Fl q Hq)) Eq) in M. discriminate. }
    { apply Forall_app. split; [exact Fl|]. constructor; [reflexivity|constructor]. }
    cbn [pl_map] in PW, LW.
    eexists. eexists. split; [reflexivity|]. split; [exact PW|]. split; [reflexivity|].
    split; [reflexivity|]. intros d' Hd'. unfold filed_id. cbn [pl_map]. rewrite LW by assumption.
    rewrite (eqv_cart_dec (d_cart d') c Hd' Hc).
    destruct (cart_eqb (d_cart d') c) eqn:Ec.
    + apply cart_eqb_iff in Ec. rewrite find_app. cbn [find].
      assert (Mp : p_matches d' p = desc_eqb d' d).
      { destruct (desc_eqb d' d) eqn:E.
        - apply desc_eqb_iff in E. subst d'. apply p_matches_desc; reflexivity.
        - destruct (p_matches d' p) eqn:X; [|reflexivity].
          apply p_matches_desc in X; [|symmetry; exact Ec]. cbn in X. subst d'.
          rewrite (proj2 (desc_eqb_iff d d) eq_refl) in E. discriminate. }
      rewrite Mp, Ec, El. rewrite <- El.
      destruct (desc_eqb d' d) eqn:E.
      * apply desc_eqb_iff in E. subst d'. rewrite Ef. reflexivity.
      * rewrite El. destruct (mlookup cart_less (m_entries (pl_map pl)) c) as [[k l']|]; cbn.
        -- destruct (find (p_matches d') l'); reflexivity.
        -- reflexivity.
    + rewrite desc_cart_ne by (fold c; intros X; apply cart_eqb_iff in X; congruence).
      rewrite Hoth; [reflexivity|assumption|]. rewrite (eqv_cart_dec (d_cart d') c Hd' Hc). exact Ec.
Qed.

Lemma erase_inv pl d : pinv pl -> D (d_cart d) ->
  pinv (pool_erase pl d) /\ pl_next (pool_erase pl d) = pl_next pl /\
  forall d', D (d_cart d') -> filed_id (pool_erase pl d) d' =
    if desc_eqb d' d then None else filed_id pl d'.
Proof.
  intros P Hc. set (c := d_cart d) in *. unfold pool_erase. fold c.
  pose proof (pi_good pl P) as G.
  pose proof (map_find_spec D cart_less O (pl_map pl) c G Hc) as F.
  destruct (mlookup cart_less (m_entries (pl_map pl)) c) as [[k l]|] eqn:E.
  2: { destruct F as [F _]. rewrite F.
       assert (nth_error (m_entries (pl_map pl)) (length (m_entries (pl_map pl))) = None) as ->
         by (apply nth_error_None; lia).
       split; [exact P|]. split; [reflexivity|]. intros d' Hd'.
       destruct (desc_eqb d' d) eqn:Ed; [|reflexivity]. apply desc_eqb_iff in Ed. subst d'.
       unfold filed_id. fold c. rewrite E. reflexivity. }
  destruct F as (F & _). rewrite F.
  pose proof (mlookup_cart _ _ _ E) as [Hin Hk]. cbn in Hk. subst k.
  assert (Fl : Forall (fun q => d_cart (p_desc q) = c) l)
    by (apply (entry_filed pl (c, l) (pi_ok _ P) Hin)).
  assert (Tl : tidy l) by (apply (pi_tidy _ P (c, l) Hin)).
  assert (Low : map_find cart_less (pl_map pl) c = set_lower cart_less (m_keys (pl_map pl)) c).
  { unfold map_find, set_find.
    destruct (nth_error (m_keys (pl_map pl)) (set_lower cart_less (m_keys (pl_map pl)) c)) as [x|] eqn:Ex;
      [|reflexivity].
    destruct (cart_less c x) eqn:El; [|reflexivity]. exfalso.
    unfold map_find, set_find in F. rewrite Ex, El in F.
    rewrite (Forall2_len _ _ _ (mg_al _ _ _ G)) in F.
    assert (nth_error (m_entries (pl_map pl)) (length (m_entries (pl_map pl))) = None)
      by (apply nth_error_None; lia). congruence. }
  rewrite Low.
  destruct (write_inv pl c (drop_matching d l) (pl_next pl) P Hc) as [PW LW].
  { eauto. } { apply tidy_drop, Tl. } { apply drop_matching_all, Fl. }
  set (m' := map_write (pl_map pl) (set_lower cart_less (m_keys (pl_map pl)) c) (drop_matching d l)) in *.
  assert (Res : forall d', D (d_cart d') ->
    match mlookup cart_less (m_entries m') (d_cart d') with
    | Some (_, l') => option_map p_id (find (p_matches d') l') | None => None end =
    if desc_eqb d' d then None else filed_id pl d').
  { intros d' Hd'. rewrite LW by assumption. rewrite (eqv_cart_dec (d_cart d') c Hd' Hc).
    unfold filed_id. destruct (cart_eqb (d_cart d') c) eqn:Ec.
    - apply cart_eqb_iff in Ec. rewrite find_drop by assumption. rewrite Ec, E.
      destruct (desc_eqb d' d); reflexivity.
    - rewrite desc_cart_ne by (fold c; intros X; apply cart_eqb_iff in X; congruence). reflexivity. }
  destruct (drop_matching d l) as [|q r] eqn:Ed.
  - (* list became empty: the key is removed *)
    pose proof (pi_good _ PW) as GW. cbn [pl_map] in GW.
    destruct (map_erase_found_good D cart_less O m' c GW Hc) as [GE LE].
    assert (Fm : map_find cart_less m' c = set_lower cart_less (m_keys (pl_map pl)) c /\
                 Nat.eqb (map_find cart_less m' c) (length (m_entries m')) = false).
    { assert (Km : m_keys m' = m_keys (pl_map pl)).
      { unfold m', map_write. rewrite <- Low, F. reflexivity. }
      pose proof (map_find_spec D cart_less O m' c GW Hc) as F'.
      rewrite LW, ceqv_refl in F' by assumption. destruct F' as (F' & _).
      split; [unfold map_find in *; rewrite Km, Low; reflexivity|].
      apply Nat.eqb_neq. intros X. rewrite X in F'.
      assert (nth_error (m_entries m') (length (m_entries m')) = None)
        by (apply nth_error_None; lia). congruence. }
    destruct Fm as [Fm1 Fm2]. rewrite Fm2, Fm1 in GE, LE.
    set (n := set_lower cart_less (m_keys (pl_map pl)) c) in *.
    split; [|split; [reflexivity|]].
    + split; cbn [pl_map].
      * exact GE.
      * unfold pool_ok, map_erase_at, set_erase_at. cbn. apply Forall2_erase. apply PW.
      * intros e He. cbn in He. apply erase_at_In in He. apply (pi_tidy _ PW), He.
    + intros d' Hd'. rewrite <- (Res d' Hd'). unfold filed_id. cbn [pl_map].
      rewrite LE by assumption. unfold fremove.
      rewrite (eqv_cart_dec (d_cart d') c Hd' Hc).
      destruct (cart_eqb (d_cart d') c) eqn:Ec; [|reflexivity].
      apply cart_eqb_iff in Ec. rewrite Ec, LW, ceqv_refl by assumption. reflexivity.
  - split; [exact PW|]. split; [reflexivity|]. intros d' Hd'. rewrite <- (Res d' Hd'). reflexivity.
Qed.

Lemma pool_run_spec ops : Forall (pool_op_in D) ops -> forall pl f n, pinv pl ->
  pl_next pl = n -> (forall d, D (d_cart d) -> filed_id pl d = f d) ->
  exists pl', fold_left pool_step ops (Some pl) = Some pl' /\ pinv pl' /\
    pl_next pl' = snd (fold_left fpool_step ops (f, n)) /\
    forall d, D (d_cart d) -> filed_id pl' d = fst (fold_left fpool_step ops (f, n)) d.
Proof.
  induction 1 as [|o ops Ho Hops IH]; intros pl f n P Hn Hf; cbn [fold_left].
  - exists pl. auto.
  - destruct o as [p|d|d]; cbn [pool_op_in] in Ho; cbn [pool_step fpool_step].
    + destruct (insert_inv pl p P Ho) as (P' & N' & F'). apply IH; [exact P'|congruence|].
      intros d Hd. rewrite F' by assumption. rewrite Hf by assumption. reflexivity.
    + destruct (fetch_spec pl d P Ho) as (pl' & p & -> & P' & F'). cbn [option_map fst].
      rewrite <- (Hf d Ho). destruct (filed_id pl d) as [i|].
      * destruct F' as (_ & N' & F'). apply IH; [exact P'|congruence|].
        intros d' Hd'. rewrite F' by assumption. apply Hf, Hd'.
      * destruct F' as (_ & N' & F'). apply IH; [exact P'|congruence|].
        intros d' Hd'. rewrite F' by assumption. rewrite Hn, Hf by assumption. reflexivity.
    + destruct (erase_inv pl d P Ho) as (P' & N' & F'). apply IH; [exact P'|congruence|].
      intros d' Hd'. rewrite F' by assumption. rewrite Hf by assumption. reflexivity.
Qed.

Lemma pool_chain first ops d : Forall (pool_op_in D) ops -> D (d_cart d) ->
  exists pl pl' p, pool_run first ops = Some pl /\ pool_fetch pl d = Some (pl', p) /\
    p_desc p = d /\
    p_id p = match fst (fpool_run first ops) d with
             | Some i => i
             | None => snd (fpool_run first ops)
             end.
Proof.
  intros Ho Hd.
  destruct (pool_run_spec ops Ho (pool_empty first) (fun _ => None) first) as (pl & E & P & N & F).
  { split; cbn; [split; [split; constructor|constructor]|constructor|intros e []]. }
  { reflexivity. }
  { reflexivity. }
  destruct (fetch_spec pl d P Hd) as (pl' & p & E' & P' & F').
  exists pl, pl', p. split; [exact E|]. split; [exact E'|]. split.
  - destruct (pool_fetch_ok pl d (pi_ok pl P)) as (pl2 & p2 & E2 & _ & K).
    rewrite E' in E2. injection E2 as _ <-. exact K.
  - unfold fpool_run. rewrite <- F by assumption. rewrite <- N.
    destruct (filed_id pl d); apply F'.
Qed.

End Chain.

(** Descriptions that only grow together form a chain. *)
Definition cart_le (a b : cart) : Prop :=
  c_nd a = c_nd b /\ c_per a = c_per b /\ c_stor a = c_stor b /\
  forall d, d < 3 -> (tget (rb (c_range a)) d <= tget (rb (c_range b)) d)%Z /\
                     (tget (re (c_range a)) d <= tget (re (c_range b)) d)%Z.

Lemma cart_le_less a b : cart_le a b -> cart_less b a = false.
Proof.
  intros (En & Ep & Es & H). unfold cart_less.
  rewrite !orb_false_iff, !tany_false, !Nat.ltb_ge, !Z.ltb_ge, En, Ep, Es.
  pose proof (H 0 ltac:(lia)). pose proof (H 1 ltac:(lia)). pose proof (H 2 ltac:(lia)).
  repeat split; try lia; intuition.
Qed.

Lemma chain_swo (D : cart -> Prop) : (forall a b, D a -> D b -> cart_le a b \/ cart_le b a) ->
  swo_on D cart_less.
Proof.
  intros T.
  assert (Le : forall a b, D a -> D b -> cart_less a b = true -> cart_le a b).
  { intros a b Ha Hb H. destruct (T a b Ha Hb) as [L|L]; [exact L|].
    apply cart_le_less in L. congruence. }
  apply total_swo.
  - intros a Ha. destruct (T a a Ha Ha) as [L|L]; apply cart_le_less; exact L.
  - intros a b c Ha Hb Hc A B.
    destruct (cart_less a c) eqn:E; [reflexivity|]. exfalso.
    pose proof (Le a b Ha Hb A) as L1. pose proof (Le b c Hb Hc B) as L2.
    assert (L3 : cart_le a c).
    { destruct L1 as (a1 & a2 & a3 & a4), L2 as (b1 & b2 & b3 & b4).
      split; [congruence|]. split; [congruence|]. split; [congruence|]. intros d Hd.
      specialize (a4 d Hd). specialize (b4 d Hd). lia. }
    pose proof (cart_le_less _ _ L3) as G. pose proof (cart_less_eq a c E G) as X. subst c.
    pose proof (cart_le_less _ _ L2). congruence.
  - intros a b _ _. apply cart_less_eq.
Qed.

Lemma pool_chain_le (D : cart -> Prop) first ops d :
  (forall a b, D a -> D b -> cart_le a b \/ cart_le b a) ->
  Forall (pool_op_in D) ops -> D (d_cart d) ->
  exists pl pl' p, pool_run first ops = Some pl /\ pool_fetch pl d = Some (pl', p) /\
    p_desc p = d /\
    p_id p = match fst (fpool_run first ops) d with
             | Some i => i
             | None => snd (fpool_run first ops)
             end.
Proof. intros T. apply pool_chain, chain_swo, T. Qed.

Lemma pool_forgets : exists first p d pl pl' q,
  p_id p < first /\ p_desc p <> d /\
  d_cart d = DecompModel.cart_include_exterior (d_cart (p_desc p)) /\
  pool_run first [PInsert p; PFetch d] = Some pl /\
  pool_fetch pl (p_desc p) = Some (pl', q) /\ p_id q <> p_id p.
Proof.
  set (c := mkC 1 (mkR (T3 0 0 0) (T3 10 1 1))%Z (T3 false false false) UNIQUE).
  set (e := DecompModel.cart_include_exterior c).
  exists 1, (mkP 0 (mkD c [c_range c] [c_range c] [1%Z])), (mkD e [c_range e] [c_range e] [1%Z]).
  eexists. eexists. eexists. split; [cbn; lia|]. split; [discriminate|]. split; [reflexivity|].
  split; [vm_compute; reflexivity|]. split; [vm_compute; reflexivity|]. discriminate.
Qed.
