From Coq Require Import List ZArith Bool Arith Lia Sorted Relations.
From Verif Require Import ArrayModel ArrayProof ContModel ContSpec ContProof MapProof UFModel UFSpec.
Import ListNotations.
Local Open Scope nat_scope.

(** * Forests *)

Inductive root (par : list nat) : nat -> nat -> Prop :=
| root_here i : nth_error par i = Some i -> root par i i
| root_up i p r : nth_error par i = Some p -> p <> i -> root par p r -> root par i r.

Lemma root_fun par i r s : root par i r -> root par i s -> r = s.
Proof.
  intros H. revert s. induction H as [i Hi|i p r Hi Hn H IH]; intros s Hs; inversion Hs; subst;
    try congruence.
  assert (p0 = p) by congruence. subst. auto.
Qed.

Lemma root_root par i r : root par i r -> root par r r.
Proof. induction 1; [constructor; assumption|assumption]. Qed.

Lemma root_fix par i r : root par i r -> nth_error par r = Some r.
Proof. induction 1; assumption. Qed.

Definition rk (rank : list nat) (i : nat) : nat := nth i rank 0.

Record forest (par rank : list nat) : Prop := {
  fo_len : length rank = length par;
  fo_in : forall i p, nth_error par i = Some p -> p < length par;
  fo_rank : forall i p, nth_error par i = Some p -> p <> i -> rk rank i < rk rank p }.

(** Number of indices of greater rank: decreases towards the root. *)
Definition above (rank : list nat) (i : nat) : nat :=
  length (filter (fun k => rk rank i <? k) rank).

Lemma filter_len_le {A} (p q : A -> bool) l : (forall x, p x = true -> q x = true) ->
  length (filter p l) <= length (filter q l).
Proof.
  intros H. induction l as [|x l IH]; cbn; [lia|].
  destruct (p x) eqn:E; [rewrite (H x E); cbn; lia|]. destruct (q x); cbn; lia.
Qed.

Lemma filter_len_lt {A} (p q : A -> bool) l y : (forall x, p x = true -> q x = true) ->
  In y l -> p y = false -> q y = true -> length (filter p l) < length (filter q l).
Proof.
  intros H. induction l as [|x l IH]; cbn; intros Hy Hp Hq; [contradiction|].
  destruct Hy as [->|Hy].
  - rewrite Hp, Hq. cbn. pose proof (filter_len_le p q l H). lia.
  - specialize (IH Hy Hp Hq). destruct (p x) eqn:E; [rewrite (H x E); cbn; lia|].
    destruct (q x); cbn; lia.
Qed.

Lemma above_lt rank i p : p < length rank -> rk rank i < rk rank p -> above rank p < above rank i.
Proof.
  intros Hp H. unfold above. apply (filter_len_lt _ _ _ (rk rank p)).
  - intros x. rewrite !Nat.ltb_lt. lia.
  - apply nth_In. exact Hp.
  - apply Nat.ltb_irrefl.
  - apply Nat.ltb_lt. exact H.
Qed.

Lemma above_le rank i : above rank i <= length rank.
Proof. unfold above. induction rank as [|x l IH] in i |- *; cbn; [lia|].
  assert (forall q (l : list nat), length (filter q l) <= length l).
  { clear. intros q l. induction l as [|x l IH]; cbn; [lia|]. destruct (q x); cbn; lia. }
  match goal with |- length (if ?b then _ else _) <= _ => destruct b end; cbn;
    [apply le_n_S|apply le_S]; apply H.
Qed.

Lemma root_total par rank : forest par rank -> forall i, i < length par -> exists r, root par i r.
Proof.
  intros F i. remember (above rank i) as m eqn:E. revert i E.
  induction m as [m IH] using lt_wf_ind. intros i -> Hi.
  destruct (nth_error par i) as [p|] eqn:Ep; [|apply nth_error_None in Ep; lia].
  destruct (Nat.eq_dec p i) as [->|Hn].
  - exists i. constructor. exact Ep.
  - pose proof (fo_in _ _ F i p Ep) as Hp.
    destruct (IH (above rank p)) with (i := p) as [r Hr]; auto.
    + apply above_lt; [rewrite (fo_len _ _ F); exact Hp|]. apply (fo_rank _ _ F); auto.
    + exists r. eapply root_up; eauto.
Qed.

Lemma root_lt par rank i r : forest par rank -> root par i r -> r < length par.
Proof.
  intros F H. apply root_fix in H. apply nth_error_Some. congruence.
Qed.

Lemma root_rank par rank i r : forest par rank -> root par i r ->
  r = i \/ rk rank i < rk rank r.
Proof.
  intros F H. induction H as [i Hi|i p r Hi Hn H IH]; [auto|].
  right. pose proof (fo_rank _ _ F i p Hi Hn). destruct IH as [->|]; lia.
Qed.

Lemma nth_error_upd {A} (l l' : list A) n v :
  vset l n v = Some l' -> length l' = length l /\ n < length l /\
    forall i, nth_error l' i = if Nat.eqb i n then Some v else nth_error l i.
Proof.
  revert l n. induction l as [|x l IH] in l' |- *; intros n H; cbn in H; [destruct n; discriminate|].
  destruct n as [|n].
  - injection H as <-. cbn. split; [reflexivity|]. split; [lia|]. intros [|i]; reflexivity.
  - destruct (vset l n v) as [l2|] eqn:E; [|discriminate]. injection H as <-.
    destruct (IH l2 n E) as (L & B & N). cbn. split; [lia|]. split; [lia|].
    intros [|i]; [reflexivity|]. cbn. apply N.
Qed.

Lemma vset_ok {A} (l : list A) n v : n < length l -> exists l', vset l n v = Some l'.
Proof.
  revert n. induction l as [|x l IH]; intros n H; cbn in *; [lia|].
  destruct n as [|n]; [eauto|]. destruct (IH n) as [l' ->]; [lia|]. cbn. eauto.
Qed.

(** Path compression of one element keeps all roots. *)
Lemma compress par par' i r : root par i r -> r <> i ->
  (forall j, nth_error par' j = if Nat.eqb j i then Some r else nth_error par j) ->
  forall j s, root par j s -> root par' j s.
Proof.
  intros Hr Hn N j s H. pose proof (root_fix _ _ _ Hr) as Rr.
  induction H as [j Hj|j p s Hj Hp H IH].
  - destruct (Nat.eq_dec j i) as [->|E].
    + exfalso. inversion Hr; subst; congruence.
    + constructor. rewrite N. apply Nat.eqb_neq in E. rewrite E. exact Hj.
  - destruct (Nat.eq_dec j i) as [->|E].
    + assert (s = r) by (apply (root_fun par i); [eapply root_up; eauto|exact Hr]). subst s.
      apply (root_up _ _ r); [rewrite N, Nat.eqb_refl; reflexivity|exact Hn|].
      constructor. rewrite N. apply Nat.eqb_neq in Hn. rewrite Hn. exact Rr.
    + apply (root_up _ _ p); [|exact Hp|exact IH].
      rewrite N. apply Nat.eqb_neq in E. rewrite E. exact Hj.
Qed.

Lemma find_idx_spec rank : forall fuel par i, forest par rank -> i < length par ->
  above rank i < fuel ->
  exists par' r, find_idx fuel par i = Some (par', r) /\ root par i r /\ forest par' rank /\
    length par' = length par /\ (forall j s, root par j s -> root par' j s) /\
    nth_error par' i = Some r /\
    (forall j, nth_error par j = Some j -> nth_error par' j = Some j) /\
    (forall j p, nth_error par j = Some p -> root par j p -> nth_error par' j = Some p).
Proof.
  induction fuel as [|f IH]; intros par i F Hi Hf; [lia|]. cbn [find_idx].
  destruct (nth_error par i) as [p|] eqn:Ep; [|apply nth_error_None in Ep; lia].
  destruct (Nat.eqb_spec p i) as [->|Hn].
  - exists par, i. repeat (split; [first [reflexivity|assumption|constructor; assumption|auto]|]).
    auto.
  - pose proof (fo_in _ _ F i p Ep) as Hp. pose proof (fo_rank _ _ F i p Ep Hn) as Hrk.
    destruct (IH par p F Hp) as (par' & r & -> & Hr & F' & L & Hroots & Hpr & Hfix & Hflat).
    { pose proof (above_lt rank i p). rewrite (fo_len _ _ F) in H. specialize (H Hp Hrk). lia. }
    destruct (vset_ok par' i r) as [par'' E]; [lia|]. rewrite E.
    destruct (nth_error_upd _ _ _ _ E) as (L2 & _ & N).
    assert (Hir : root par i r) by (eapply root_up; eauto).
    assert (Hri : r <> i).
    { intros ->. destruct (root_rank _ _ _ _ F Hr) as [X|X]; [congruence|lia]. }
    assert (Hr' : root par' i r) by (apply Hroots; exact Hir).
    exists par'', r. split; [reflexivity|]. split; [exact Hir|].
    pose proof (root_lt _ _ _ _ F Hr) as Hrl.
    split; [|split; [lia|split; [|split; [|split]]]].
    + split.
      * rewrite L2. apply (fo_len _ _ F').
      * intros j q Hj. rewrite N in Hj. destruct (Nat.eqb_spec j i) as [->|].
        -- injection Hj as <-. lia.
        -- apply (fo_in _ _ F') in Hj. lia.
      * intros j q Hj Hq. rewrite N in Hj. destruct (Nat.eqb_spec j i) as [->|].
        -- injection Hj as <-. destruct (root_rank _ _ _ _ F Hir); [congruence|assumption].
        -- apply (fo_rank _ _ F' j q); assumption.
    + intros j s Hj. apply (compress par' par'' i r Hr' Hri N). apply Hroots, Hj.
    + rewrite N, Nat.eqb_refl. reflexivity.
    + intros j Hj. rewrite N. destruct (Nat.eqb_spec j i) as [->|]; [congruence|auto].
    + intros j q Hj Hq. rewrite N. destruct (Nat.eqb_spec j i) as [->|].
      * f_equal. apply (root_fun par i); assumption.
      * apply Hflat; assumption.
Qed.

Lemma find_spec par rank i : forest par rank -> i < length par ->
  exists par' r, find_ par i = Some (par', r) /\ root par i r /\ forest par' rank /\
    length par' = length par /\ (forall j s, root par j s -> root par' j s) /\
    nth_error par' i = Some r /\
    (forall j, nth_error par j = Some j -> nth_error par' j = Some j) /\
    (forall j p, nth_error par j = Some p -> root par j p -> nth_error par' j = Some p).
Proof.
  intros F Hi. apply find_idx_spec; auto. pose proof (above_le rank i).
  rewrite (fo_len _ _ F) in H. lia.
Qed.

Definition same (par : list nat) (i j : nat) : Prop := exists r, root par i r /\ root par j r.

Lemma same_transfer par par' (f : nat -> nat) (n : nat) : (forall i j, f i = f j -> i = j) ->
  (forall i, i < n -> exists r, root par i r) ->
  (forall i r, root par i r -> root par' (f i) (f r)) ->
  forall i j, i < n -> j < n -> (same par i j <-> same par' (f i) (f j)).
Proof.
  intros Hf T H i j Hi Hj. destruct (T i Hi) as [r Hr]. destruct (T j Hj) as [s Hs]. split.
  - intros (q & A & B). exists (f q). auto.
  - intros (q & A & B). pose proof (root_fun _ _ _ _ A (H _ _ Hr)).
    pose proof (root_fun _ _ _ _ B (H _ _ Hs)). assert (r = s) by (apply Hf; congruence). subst.
    exists s. auto.
Qed.

(** Linking two roots. *)
Lemma link_roots par par' a b : nth_error par a = Some a -> nth_error par b = Some b -> a <> b ->
  (forall j, nth_error par' j = if Nat.eqb j a then Some b else nth_error par j) ->
  forall i r, root par i r -> root par' i (if Nat.eqb r a then b else r).
Proof.
  intros Ha Hb Hn N i r H. induction H as [i Hi|i p r Hi Hp H IH].
  - destruct (Nat.eqb_spec i a) as [->|E].
    + apply (root_up _ _ b); [rewrite N, Nat.eqb_refl; reflexivity|congruence|].
      constructor. rewrite N. assert (Nat.eqb b a = false) as -> by (apply Nat.eqb_neq; congruence).
      exact Hb.
    + constructor. rewrite N. apply Nat.eqb_neq in E. rewrite E. exact Hi.
  - apply (root_up _ _ p); [|exact Hp|exact IH]. rewrite N.
    destruct (Nat.eqb_spec i a) as [->|E]; [congruence|exact Hi].
Qed.

(** * The generated equivalence *)

Lemma inserted_snoc ops o x : inserted (ops ++ [o]) x <-> inserted ops x \/ o = UInsert x.
Proof. unfold inserted. rewrite in_app_iff. cbn. tauto. Qed.

Lemma app_snoc_inv {A} (l1 l2 : list A) x l o : l1 ++ x :: l2 = l ++ [o] ->
  (l2 = [] /\ l1 = l /\ x = o) \/ (exists l2', l2 = l2' ++ [o] /\ l = l1 ++ x :: l2').
Proof.
  destruct l2 as [|y l2] using rev_ind; intros H.
  - left. apply app_inj_tail in H. tauto.
  - right. change (x :: l2 ++ [y]) with ((x :: l2) ++ [y]) in H. rewrite app_assoc in H.
    apply app_inj_tail in H. destruct H as [<- ->]. eauto.
Qed.

Lemma linked_snoc ops o x y : linked (ops ++ [o]) x y <->
  linked ops x y \/ (o = UUnion x y /\ inserted ops x /\ inserted ops y).
Proof.
  split.
  - intros (l1 & l2 & E & A & B). symmetry in E. apply app_snoc_inv in E.
    destruct E as [(-> & -> & <-)|(l2' & -> & ->)].
    + right. auto.
    + left. exists l1, l2'. auto.
  - intros [(l1 & l2 & -> & A & B)|(-> & A & B)].
    + exists l1, (l2 ++ [o]). rewrite <- app_assoc. auto.
    + exists ops, []. auto.
Qed.

Lemma linked_inserted ops x y : linked ops x y -> inserted ops x /\ inserted ops y.
Proof.
  intros (l1 & l2 & -> & A & B). unfold inserted in *. split; apply in_or_app; auto.
Qed.

Lemma clos_mono (R S : Z -> Z -> Prop) : (forall x y, R x y -> S x y) ->
  forall x y, clos_refl_sym_trans Z R x y -> clos_refl_sym_trans Z S x y.
Proof.
  intros H x y C. induction C as [x y C|x|x y C IH|x y z C1 IH1 C2 IH2].
  - apply rst_step, H, C.
  - apply rst_refl.
  - apply rst_sym, IH.
  - eapply rst_trans; eauto.
Qed.

Lemma connected_snoc_same ops o : (forall a b, o = UUnion a b -> inserted ops a -> ~ inserted ops b) ->
  forall x y, connected (ops ++ [o]) x y <-> connected ops x y.
Proof.
  intros H x y. unfold connected. split; apply clos_mono; intros u v; rewrite linked_snoc.
  - intros [L|(-> & A & B)]; [exact L|]. exfalso. eapply H; eauto.
  - auto.
Qed.

Lemma connected_add ops a b : inserted ops a -> inserted ops b -> forall x y,
  connected (ops ++ [UUnion a b]) x y <->
  connected ops x y \/ (connected ops x a /\ connected ops b y) \/
  (connected ops x b /\ connected ops a y).
Proof.
  intros Ha Hb x y. unfold connected. split.
  - intros C. induction C as [x y C|x|x y C IH|x y z C1 IH1 C2 IH2].
    + apply linked_snoc in C. destruct C as [L|(E & _ & _)].
      * left. apply rst_step, L.
      * injection E as <- <-. right. left. split; apply rst_refl.
    + left. apply rst_refl.
    + destruct IH as [I|[[I J]|[I J]]].
      * left. apply rst_sym, I.
      * right. right. split; apply rst_sym; assumption.
      * right. left. split; apply rst_sym; assumption.
    + destruct IH1 as [I|[[I J]|[I J]]], IH2 as [I2|[[I2 J2]|[I2 J2]]].
      * left. eapply rst_trans; eauto.
      * right. left. split; [eapply rst_trans; eauto|exact J2].
      * right. right. split; [eapply rst_trans; eauto|exact J2].
      * right. left. split; [exact I|eapply rst_trans; eauto].
      * right. left. split; [exact I|exact J2].
      * left. eapply rst_trans; eauto.
      * right. right. split; [exact I|eapply rst_trans; eauto].
      * left. eapply rst_trans; eauto.
      * right. right. split; [exact I|exact J2].
  - assert (M : forall u v, clos_refl_sym_trans Z (linked ops) u v ->
                            clos_refl_sym_trans Z (linked (ops ++ [UUnion a b])) u v).
    { apply clos_mono. intros u v. rewrite linked_snoc. auto. }
    assert (S : clos_refl_sym_trans Z (linked (ops ++ [UUnion a b])) a b).
    { apply rst_step, linked_snoc. auto. }
    intros [C|[[C1 C2]|[C1 C2]]].
    + auto.
    + eapply rst_trans; [apply M, C1|]. eapply rst_trans; [exact S|apply M, C2].
    + eapply rst_trans; [apply M, C1|]. eapply rst_trans; [apply rst_sym, S|apply M, C2].
Qed.

Lemma connected_inserted ops x y : connected ops x y -> x = y \/ (inserted ops x /\ inserted ops y).
Proof.
  intros C. induction C as [x y C|x|x y C IH|x y z C1 IH1 C2 IH2].
  - right. apply linked_inserted, C.
  - auto.
  - destruct IH as [->|[A B]]; auto.
  - destruct IH1 as [->|[A B]]; [exact IH2|]. destruct IH2 as [<-|[A' B']]; auto.
Qed.

(** * The invariant *)

Definition anyZ : Z -> Prop := fun _ => True.

Record uinv (u : uf) (ops : list uf_op) : Prop := {
  ui_good : good anyZ Z.ltb (uf_el u);
  ui_len : length (uf_par u) = length (uf_el u);
  ui_forest : forest (uf_par u) (uf_rank u);
  ui_mem : forall x, In x (uf_el u) <-> inserted ops x;
  ui_same : forall i j x y, nth_error (uf_el u) i = Some x -> nth_error (uf_el u) j = Some y ->
    (same (uf_par u) i j <-> connected ops x y) }.

Lemma zfind_in s x : good anyZ Z.ltb s -> In x s ->
  nth_error s (set_find Z.ltb s x) = Some x /\ set_find Z.ltb s x < length s.
Proof.
  intros G H. pose proof (set_find_spec anyZ Z.ltb zltb_swo s x G I) as F.
  rewrite (lookup_In anyZ Z.ltb zltb_swo s x (g_inc _ _ _ G) (g_D _ _ _ G) H) in F.
  destruct F as (s1 & s2 & -> & -> & _). rewrite nth_app_mid, app_length. cbn. split; [auto|lia].
Qed.

Lemma zfind_out s x : good anyZ Z.ltb s -> ~ In x s -> set_find Z.ltb s x = length s.
Proof.
  intros G H. pose proof (set_find_spec anyZ Z.ltb zltb_swo s x G I) as F.
  destruct (lookup Z.ltb s x) as [y|] eqn:E; [|exact F].
  exfalso. apply find_some in E. destruct E as [Hy E].
  unfold eqv in E. rewrite andb_true_iff, !negb_true_iff, !Z.ltb_ge in E.
  assert (y = x) by lia. congruence.
Qed.

Lemma nth_distinct s i j (x : Z) : good anyZ Z.ltb s -> nth_error s i = Some x ->
  nth_error s j = Some x -> i = j.
Proof.
  intros [Gi _] Hi Hj. apply increasing_Zlt in Gi.
  assert (ND : NoDup s).
  { clear Hi Hj. induction Gi as [|y s _ IH Hf]; constructor; [|exact IH].
    rewrite Forall_forall in Hf. intros H. apply Hf in H. lia. }
  apply (NoDup_nth_error s); [exact ND| |congruence].
  apply nth_error_Some. congruence.
Qed.

Lemma empty_inv : uinv uf_empty [].
Proof.
  split.
  - split; constructor.
  - reflexivity.
  - split; cbn; [reflexivity| |]; intros [|i] p H; discriminate.
  - intros x. cbn. unfold inserted. tauto.
  - intros [|i] j x y H; discriminate.
Qed.

(** Changing only the parents, keeping all roots. *)
Lemma reparent_inv u ops par' rank' : uinv u ops -> forest par' rank' ->
  length par' = length (uf_par u) ->
  (forall j s, root (uf_par u) j s -> root par' j s) ->
  uinv (mkUF (uf_el u) par' rank') ops.
Proof.
  intros U F L H. split; cbn.
  - apply U.
  - rewrite L. apply U.
  - exact F.
  - apply U.
  - intros i j x y Hi Hj. rewrite <- (ui_same u ops U i j x y Hi Hj).
    pose proof (same_transfer (uf_par u) par' (fun i => i) (length (uf_par u))) as T.
    symmetry. apply T; auto.
    + apply (root_total _ _ (ui_forest u ops U)).
    + rewrite (ui_len u ops U). apply nth_error_Some. congruence.
    + rewrite (ui_len u ops U). apply nth_error_Some. congruence.
Qed.

Lemma uf_find_spec u ops x : uinv u ops -> inserted ops x ->
  exists i u' r z, nth_error (uf_el u) i = Some x /\ uf_find u x = Some (u', z) /\
    root (uf_par u) i r /\ nth_error (uf_el u) r = Some z /\ uinv u' ops /\
    uf_el u' = uf_el u /\ uf_rank u' = uf_rank u /\
    (forall j s, root (uf_par u) j s -> root (uf_par u') j s).
Proof.
  intros U Hx. apply (ui_mem u ops U) in Hx.
  destruct (zfind_in (uf_el u) x (ui_good u ops U) Hx) as [Hn Hl].
  unfold uf_find. set (i := set_find Z.ltb (uf_el u) x) in *.
  destruct (Nat.eqb_spec i (length (uf_el u))) as [E|_]; [lia|].
  destruct (find_spec (uf_par u) (uf_rank u) i (ui_forest u ops U)) as
    (par' & r & -> & Hr & F' & L & Hroots & _); [rewrite (ui_len u ops U); exact Hl|].
  pose proof (root_lt _ _ _ _ (ui_forest u ops U) Hr) as Hrl. rewrite (ui_len u ops U) in Hrl.
  destruct (nth_error (uf_el u) r) as [z|] eqn:Ez; [|apply nth_error_None in Ez; lia].
  exists i, (mkUF (uf_el u) par' (uf_rank u)), r, z.
  split; [exact Hn|]. split; [reflexivity|]. split; [exact Hr|]. split; [exact Ez|].
  split; [apply reparent_inv; auto|]. auto.
Qed.

Lemma uf_find_absent u ops x : uinv u ops -> ~ inserted ops x -> uf_find u x = Some (u, (-1)%Z).
Proof.
  intros U Hx. unfold uf_find. rewrite zfind_out.
  - rewrite Nat.eqb_refl. reflexivity.
  - apply U.
  - intros H. apply Hx. apply (ui_mem u ops U). exact H.
Qed.

(** Insertion. *)
Lemma nth_insert_at {A} (l : list A) n v i : n <= length l ->
  nth_error (insert_at l n v) i =
  if i <? n then nth_error l i else if i =? n then Some v else nth_error l (i - 1).
Proof.
  intros Hn. unfold insert_at.
  destruct (Nat.ltb_spec i n) as [L|L].
  - rewrite nth_error_app1 by (rewrite firstn_length; lia).
    rewrite <- (firstn_skipn n l) at 2. rewrite nth_error_app1 by (rewrite firstn_length; lia).
    reflexivity.
  - rewrite nth_error_app2 by (rewrite firstn_length; lia).
    rewrite firstn_length, Nat.min_l by assumption.
    destruct (Nat.eqb_spec i n) as [->|E].
    + rewrite Nat.sub_diag. reflexivity.
    + destruct (i - n) as [|k] eqn:Ek; [lia|]. cbn.
      rewrite <- (firstn_skipn n l) at 2. rewrite nth_error_app2 by (rewrite firstn_length; lia).
      rewrite firstn_length, Nat.min_l by assumption. f_equal. lia.
Qed.

Lemma insert_at_len {A} (l : list A) n v : n <= length l -> length (insert_at l n v) = S (length l).
Proof.
  intros H. unfold insert_at. rewrite app_length. cbn.
  rewrite firstn_length, skipn_length. lia.
Qed.

Definition shift (n i : nat) : nat := if Nat.leb n i then S i else i.

Lemma shift_inj n i j : shift n i = shift n j -> i = j.
Proof. unfold shift. destruct (Nat.leb_spec n i), (Nat.leb_spec n j); lia. Qed.

Lemma shift_ne n i : shift n i <> n.
Proof. unfold shift. destruct (Nat.leb_spec n i); lia. Qed.

Lemma nth_shift {A} (l : list A) n v i : n <= length l ->
  nth_error (insert_at l n v) (shift n i) = nth_error l i.
Proof.
  intros H. rewrite nth_insert_at by assumption. unfold shift.
  destruct (Nat.leb_spec n i).
  - destruct (Nat.ltb_spec (S i) n); [lia|]. destruct (Nat.eqb_spec (S i) n); [lia|].
    f_equal. lia.
  - destruct (Nat.ltb_spec i n); [reflexivity|lia].
Qed.

Lemma nth_here {A} (l : list A) n v : n <= length l -> nth_error (insert_at l n v) n = Some v.
Proof. intros H. rewrite nth_insert_at, Nat.ltb_irrefl, Nat.eqb_refl by assumption. reflexivity. Qed.

Lemma unshift n i : i <> n -> exists j, i = shift n j.
Proof.
  intros H. destruct (Nat.lt_ge_cases i n).
  - exists i. unfold shift. destruct (Nat.leb_spec n i); lia.
  - exists (i - 1). unfold shift. destruct (Nat.leb_spec n (i - 1)); lia.
Qed.

Lemma map_shift par n : map (fun p => if Nat.leb n p then S p else p) par = map (shift n) par.
Proof. reflexivity. Qed.

Lemma uf_insert_inv u ops x : uinv u ops -> uinv (uf_insert u x) (ops ++ [UInsert x]).
Proof.
  intros U. destruct (In_dec Z.eq_dec x (uf_el u)) as [Hin|Hout].
  - (* already present *)
    assert (E : uf_insert u x = u).
    { unfold uf_insert. pose proof (ui_good u ops U) as G.
      destruct (placed anyZ Z.ltb zltb_swo (uf_el u) x (g_inc _ _ _ G) (g_D _ _ _ G) I)
        as [s1 s2 Es A B|s1 y s2 Es A Ey B].
      - exfalso. rewrite Es in Hin. apply in_app_iff in Hin.
        destruct Hin as [H|H]; [apply A in H|apply B in H]; rewrite Z.ltb_irrefl in H; discriminate.
      - pose proof (g_D _ _ _ G) as GD. rewrite Es in *.
        rewrite (lower_present anyZ Z.ltb zltb_swo) by (auto; exact I).
        rewrite nth_app_mid.
        unfold eqv in Ey. rewrite andb_true_iff, !negb_true_iff, !Z.ltb_ge in Ey.
        rewrite Z.gtb_ltb. destruct (Z.ltb_spec x y); [lia|reflexivity]. }
    rewrite E. split.
    + apply U.
    + apply U.
    + apply U.
    + intros y. rewrite inserted_snoc, (ui_mem u ops U). split; [tauto|].
      intros [H|H]; [exact H|]. injection H as <-. apply (ui_mem u ops U), Hin.
    + intros i j a b Hi Hj. rewrite connected_snoc_same by discriminate.
      apply (ui_same u ops U); assumption.
  - pose proof (ui_good u ops U) as G.
    destruct (set_insert_good anyZ Z.ltb zltb_swo (uf_el u) x G I) as [G' _].
    unfold uf_insert. unfold set_insert in G'.
    set (n := set_lower Z.ltb (uf_el u) x) in *.
    assert (Hn : n <= length (uf_el u)) by (apply partition_point_stop).
    assert (Hins : set_insert_hint Z.ltb (uf_el u) n x = insert_at (uf_el u) n x /\
      forall T (a b : T), match nth_error (uf_el u) n with
        | Some y => if Z.gtb y x then a else b | None => a end = a).
    { unfold set_insert_hint. destruct (nth_error (uf_el u) n) as [y|] eqn:Ey; [|auto].
      assert (Hy : Z.ltb x y = true).
      { apply Z.ltb_lt. assert (y <> x) by (intros ->; apply Hout; eapply nth_error_In; eauto).
        destruct (partition_point_stop (fun z => Z.ltb z x) (uf_el u)) as [_ P].
        apply P in Ey. apply Z.ltb_ge in Ey. lia. }
      rewrite Z.gtb_ltb, Hy. auto. }
    destruct Hins as [Hins Hc]. rewrite Hc. clear Hc. rewrite Hins in *.
    pose proof (ui_forest u ops U) as F. pose proof (ui_len u ops U) as L.
    assert (Hnp : n <= length (map (shift n) (uf_par u))) by (rewrite map_length; lia).
    assert (Hnr : n <= length (uf_rank u)) by (rewrite (fo_len _ _ F); lia).
    set (par' := insert_at (map (fun p => if n <=? p then S p else p) (uf_par u)) n n).
    change (map (fun p => if n <=? p then S p else p) (uf_par u)) with (map (shift n) (uf_par u))
      in par'.
    assert (Psh : forall i p, nth_error (uf_par u) i = Some p ->
                              nth_error par' (shift n i) = Some (shift n p)).
    { intros i p H. unfold par'. rewrite nth_shift by assumption. apply map_nth_error, H. }
    assert (Pn : nth_error par' n = Some n) by (apply nth_here; assumption).
    assert (Pinv : forall i p, nth_error par' i = Some p ->
      (i = n /\ p = n) \/ exists j q, i = shift n j /\ p = shift n q /\
                                       nth_error (uf_par u) j = Some q).
    { intros i p H. destruct (Nat.eq_dec i n) as [->|Ne]; [left; split; congruence|].
      right. destruct (unshift n i Ne) as [j ->]. unfold par' in H.
      rewrite nth_shift in H by assumption.
      destruct (nth_error (uf_par u) j) as [q|] eqn:Eq.
      - rewrite (map_nth_error _ _ _ Eq) in H. injection H as <-. eauto.
      - apply nth_error_None in Eq. assert (nth_error (map (shift n) (uf_par u)) j = None)
          by (apply nth_error_None; rewrite map_length; exact Eq). congruence. }
    assert (Rk : forall i, rk (insert_at (uf_rank u) n 0) (shift n i) = rk (uf_rank u) i).
    { intros i. unfold rk.
      destruct (nth_error (uf_rank u) i) as [k|] eqn:Ek.
      - rewrite (nth_error_nth _ _ 0 Ek). apply nth_error_nth. rewrite nth_shift; assumption.
      - pose proof Ek as Ek2. apply nth_error_None in Ek2. rewrite (nth_overflow _ _ Ek2).
        apply nth_overflow. apply nth_error_None. rewrite nth_shift; assumption. }
    assert (Rt : forall i r, root (uf_par u) i r -> root par' (shift n i) (shift n r)).
    { intros i r H. induction H as [i Hi|i p r Hi Hp H IH].
      - constructor. apply Psh, Hi.
      - apply (root_up _ _ (shift n p)); [apply Psh, Hi| |exact IH].
        intros E. apply shift_inj in E. congruence. }
    assert (Lp : length par' = S (length (uf_el u))).
    { unfold par'. rewrite insert_at_len by assumption. rewrite map_length, L. reflexivity. }
    split; cbn [uf_el uf_par uf_rank].
    + exact G'.
    + rewrite insert_at_len by assumption. exact Lp.
    + split.
      * rewrite insert_at_len by assumption. rewrite Lp, (fo_len _ _ F). congruence.
      * intros i p H. apply Pinv in H. rewrite Lp.
        destruct H as [[-> ->]|(j & q & -> & -> & H)]; [lia|].
        apply (fo_in _ _ F) in H. unfold shift. destruct (n <=? q); lia.
      * intros i p H Hpi. apply Pinv in H.
        destruct H as [[-> ->]|(j & q & -> & -> & H)]; [congruence|].
        rewrite !Rk. apply (fo_rank _ _ F); [exact H|]. intros ->. congruence.
    + intros y. rewrite inserted_snoc. rewrite <- (ui_mem u ops U).
      unfold insert_at. rewrite in_app_iff. cbn.
      pose proof (in_app_iff (firstn n (uf_el u)) (skipn n (uf_el u)) y) as SP.
      rewrite firstn_skipn in SP. rewrite SP.
      split; [intros [H|[->|H]]; auto|]. intros [[H|H]|H]; auto. injection H as ->. auto.
    + intros i j a b Hi Hj. rewrite connected_snoc_same by discriminate.
      assert (Sn : forall k, same par' (shift n k) n -> nth_error (uf_el u) k <> None -> False).
      { intros k (r & A & B) Hk.
        assert (Hkl : k < length (uf_par u)) by (rewrite L; apply nth_error_Some, Hk).
        destruct (root_total _ _ F k Hkl) as [s Hs]. apply Rt in Hs.
        pose proof (root_fun _ _ _ _ A Hs). subst r.
        assert (root par' n n) by (constructor; exact Pn).
        pose proof (root_fun _ _ _ _ B H). apply shift_ne in H0. exact H0. }
      assert (Nx : forall y, In y (uf_el u) -> ~ connected ops y x).
      { intros y Hy C. apply connected_inserted in C. destruct C as [->|[_ C]]; [contradiction|].
        apply Hout, (ui_mem u ops U), C. }
      destruct (Nat.eq_dec i n) as [->|Ni], (Nat.eq_dec j n) as [->|Nj].
      * rewrite nth_here in Hi, Hj by assumption. injection Hi as <-. injection Hj as <-.
        split; [intros _; apply rst_refl|]. intros _. exists n. split; constructor; exact Pn.
      * destruct (unshift n j Nj) as [j' ->]. rewrite nth_shift in Hj by assumption.
        rewrite nth_here in Hi by assumption. injection Hi as <-. split.
        -- intros (r & A & B). exfalso. apply (Sn j'); [exists r; auto|congruence].
        -- intros C. exfalso. apply (Nx b); [eapply nth_error_In; eauto|]. apply rst_sym, C.
      * destruct (unshift n i Ni) as [i' ->]. rewrite nth_shift in Hi by assumption.
        rewrite nth_here in Hj by assumption. injection Hj as <-. split.
        -- intros S. exfalso. apply (Sn i'); [exact S|congruence].
        -- intros C. exfalso. apply (Nx a); [eapply nth_error_In; eauto|]. exact C.
      * destruct (unshift n i Ni) as [i' ->], (unshift n j Nj) as [j' ->].
        rewrite nth_shift in Hi, Hj by assumption.
        rewrite <- (ui_same u ops U i' j' a b Hi Hj). symmetry.
        apply (same_transfer (uf_par u) par' (shift n) (length (uf_par u))).
        -- apply shift_inj.
        -- apply (root_total _ _ F).
        -- exact Rt.
        -- rewrite L. apply nth_error_Some. congruence.
        -- rewrite L. apply nth_error_Some. congruence.
Qed.

(** Union. *)
Lemma same_link par par' a b : nth_error par a = Some a -> nth_error par b = Some b -> a <> b ->
  (forall j, nth_error par' j = if Nat.eqb j a then Some b else nth_error par j) ->
  forall i j ri rj, root par i ri -> root par j rj ->
  (same par' i j <-> (ri = rj \/ (ri = a /\ rj = b) \/ (ri = b /\ rj = a))).
Proof.
  intros Ha Hb Hn N i j ri rj Hi Hj.
  pose proof (link_roots par par' a b Ha Hb Hn N) as H.
  pose proof (H _ _ Hi) as Hi'. pose proof (H _ _ Hj) as Hj'. split.
  - intros (r & A & B). pose proof (root_fun _ _ _ _ A Hi'). pose proof (root_fun _ _ _ _ B Hj').
    destruct (Nat.eqb_spec ri a), (Nat.eqb_spec rj a);
      first [left; congruence|right; left; split; congruence|right; right; split; congruence].
  - intros E. exists (if Nat.eqb ri a then b else ri). split; [exact Hi'|].
    destruct E as [->|[[-> ->]|[-> ->]]]; [exact Hj'| |].
    + rewrite Nat.eqb_refl. assert (Nat.eqb b a = false) as X by (apply Nat.eqb_neq; congruence).
      rewrite X in Hj'. exact Hj'.
    + rewrite Nat.eqb_refl in Hj'.
      assert (Nat.eqb b a = false) as X by (apply Nat.eqb_neq; congruence).
      rewrite X. exact Hj'.
Qed.

Lemma same_iff par i j ri rj : root par i ri -> root par j rj -> (same par i j <-> ri = rj).
Proof.
  intros Hi Hj. split.
  - intros (r & A & B). rewrite (root_fun _ _ _ _ Hi A), (root_fun _ _ _ _ Hj B). reflexivity.
  - intros ->. exists rj. auto.
Qed.

(** Joining the trees of [x] and [y] by making root [a] a child of root [b]. *)
Lemma link_inv u ops x y ix iy a b par' rank' : uinv u ops ->
  nth_error (uf_el u) ix = Some x -> nth_error (uf_el u) iy = Some y ->
  ((root (uf_par u) ix a /\ root (uf_par u) iy b) \/
   (root (uf_par u) ix b /\ root (uf_par u) iy a)) -> a <> b ->
  (forall j, nth_error par' j = if Nat.eqb j a then Some b else nth_error (uf_par u) j) ->
  length par' = length (uf_par u) -> forest par' rank' ->
  uinv (mkUF (uf_el u) par' rank') (ops ++ [UUnion x y]).
Proof.
  intros U Hx Hy Hab Hn N L F.
  assert (Ix : inserted ops x) by (apply (ui_mem u ops U); eapply nth_error_In; eauto).
  assert (Iy : inserted ops y) by (apply (ui_mem u ops U); eapply nth_error_In; eauto).
  assert (Ra : nth_error (uf_par u) a = Some a)
    by (destruct Hab as [[H _]|[_ H]]; eapply root_fix; eauto).
  assert (Rb : nth_error (uf_par u) b = Some b)
    by (destruct Hab as [[_ H]|[H _]]; eapply root_fix; eauto).
  split; cbn.
  - apply U.
  - rewrite L. apply U.
  - exact F.
  - intros z. rewrite inserted_snoc, (ui_mem u ops U). split; [auto|].
    intros [H|H]; [exact H|discriminate].
  - intros i j p q Hi Hj.
    assert (Li : i < length (uf_par u)) by (rewrite (ui_len u ops U); apply nth_error_Some; congruence).
    assert (Lj : j < length (uf_par u)) by (rewrite (ui_len u ops U); apply nth_error_Some; congruence).
    destruct (root_total _ _ (ui_forest u ops U) i Li) as [ri Hri].
    destruct (root_total _ _ (ui_forest u ops U) j Lj) as [rj Hrj].
    rewrite (same_link _ par' a b Ra Rb Hn N i j ri rj Hri Hrj).
    rewrite connected_add by assumption.
    rewrite <- (ui_same u ops U i j p q Hi Hj), (same_iff _ _ _ _ _ Hri Hrj).
    rewrite <- (ui_same u ops U i ix p x Hi Hx), <- (ui_same u ops U iy j y q Hy Hj).
    rewrite <- (ui_same u ops U i iy p y Hi Hy), <- (ui_same u ops U ix j x q Hx Hj).
    destruct Hab as [[Hax Hby]|[Hbx Hay]].
    + rewrite (same_iff _ _ _ _ _ Hri Hax), (same_iff _ _ _ _ _ Hby Hrj),
        (same_iff _ _ _ _ _ Hri Hby), (same_iff _ _ _ _ _ Hax Hrj).
      split; intros [E|[[E1 E2]|[E1 E2]]]; auto.
    + rewrite (same_iff _ _ _ _ _ Hri Hbx), (same_iff _ _ _ _ _ Hay Hrj),
        (same_iff _ _ _ _ _ Hri Hay), (same_iff _ _ _ _ _ Hbx Hrj).
      split; intros [E|[[E1 E2]|[E1 E2]]]; auto.
Qed.

Lemma noop_inv u ops x y : uinv u ops -> ~ (inserted ops x /\ inserted ops y) ->
  uinv u (ops ++ [UUnion x y]).
Proof.
  intros U H. split; try apply U.
  - intros z. rewrite inserted_snoc, (ui_mem u ops U). split; [auto|].
    intros [K|K]; [exact K|discriminate].
  - intros i j p q Hi Hj. rewrite connected_snoc_same; [apply (ui_same u ops U); assumption|].
    intros a b E A B. injection E as <- <-. tauto.
Qed.

Lemma rk_upd rank rank' a k : vset rank a k = Some rank' ->
  forall i, rk rank' i = if Nat.eqb i a then k else rk rank i.
Proof.
  intros E i. destruct (nth_error_upd _ _ _ _ E) as (L & B & N). unfold rk.
  destruct (Nat.eqb_spec i a) as [->|Ne].
  - apply nth_error_nth. rewrite N, Nat.eqb_refl. reflexivity.
  - destruct (nth_error rank i) as [v|] eqn:Ev.
    + rewrite (nth_error_nth _ _ 0 Ev). apply nth_error_nth. rewrite N.
      apply Nat.eqb_neq in Ne. rewrite Ne. exact Ev.
    + pose proof Ev as Ev2. apply nth_error_None in Ev2. rewrite (nth_overflow _ _ Ev2).
      apply nth_overflow. lia.
Qed.

(** Linking root [a] below root [b] keeps the ranks consistent, provided the
    rank of [b] ends up greater. *)
Lemma link_forest par rank par' rank' a b : forest par rank ->
  nth_error par a = Some a -> nth_error par b = Some b -> a <> b ->
  (forall j, nth_error par' j = if Nat.eqb j a then Some b else nth_error par j) ->
  length par' = length par -> length rank' = length rank ->
  (forall i, i <> b -> rk rank' i = rk rank i) -> rk rank b <= rk rank' b ->
  rk rank a < rk rank' b -> forest par' rank'.
Proof.
  intros F Ha Hb Hn N L Lr R1 R2 R3. split.
  - rewrite Lr, L. apply F.
  - intros i p Hi. rewrite N in Hi. rewrite L. destruct (Nat.eqb_spec i a) as [->|].
    + injection Hi as <-. apply nth_error_Some. congruence.
    + apply (fo_in _ _ F) in Hi. exact Hi.
  - intros i p Hi Hp. rewrite N in Hi. destruct (Nat.eqb_spec i a) as [->|].
    + injection Hi as <-. rewrite (R1 a Hn). exact R3.
    + pose proof (fo_rank _ _ F i p Hi Hp) as K. rewrite (R1 i).
      * destruct (Nat.eq_dec p b) as [->|]; [lia|]. rewrite (R1 p) by assumption. exact K.
      * intros ->. congruence.
Qed.

Lemma uf_union_spec u ops x y : uinv u ops ->
  exists u' r, uf_union u x y = Some (u', r) /\ uinv u' (ops ++ [UUnion x y]) /\
    (inserted ops x -> inserted ops y ->
     forall i, nth_error (uf_el u') i = Some x ->
       exists k, root (uf_par u') i k /\ nth_error (uf_el u') k = Some r) /\
    (inserted ops x -> ~ inserted ops y -> uf_find u x = Some (u', r)) /\
    (~ inserted ops x -> inserted ops y -> uf_find u y = Some (u', r)) /\
    (~ inserted ops x -> ~ inserted ops y -> r = (-1)%Z).
Proof.
  intros U. unfold uf_union.
  assert (Dec : forall z, inserted ops z \/ ~ inserted ops z).
  { intros z. rewrite <- (ui_mem u ops U). destruct (In_dec Z.eq_dec z (uf_el u)); auto. }
  destruct (Dec x) as [Ix|Nx], (Dec y) as [Iy|Ny].
  - destruct (zfind_in (uf_el u) x (ui_good u ops U)) as [Hx Lx]; [apply (ui_mem u ops U), Ix|].
    destruct (zfind_in (uf_el u) y (ui_good u ops U)) as [Hy Ly]; [apply (ui_mem u ops U), Iy|].
    set (ix := set_find Z.ltb (uf_el u) x) in *. set (iy := set_find Z.ltb (uf_el u) y) in *.
    destruct (Nat.eqb_spec ix (length (uf_el u))) as [E|_]; [lia|].
    destruct (Nat.eqb_spec iy (length (uf_el u))) as [E|_]; [lia|].
    pose proof (ui_len u ops U) as L.
    destruct (find_spec (uf_par u) (uf_rank u) ix (ui_forest u ops U)) as
      (par1 & ra & -> & Hra & F1 & L1 & R1 & _); [lia|].
    destruct (find_spec par1 (uf_rank u) iy F1) as
      (par2 & rb & -> & Hrb & F2 & L2 & R2 & _); [lia|].
    pose proof (R2 _ _ (R1 _ _ Hra)) as Ha2. pose proof (R2 _ _ Hrb) as Hb2.
    assert (U2 : uinv (mkUF (uf_el u) par2 (uf_rank u)) ops).
    { apply reparent_inv; auto. congruence. }
    pose proof (root_lt _ _ _ _ F2 Ha2) as Lra. pose proof (root_lt _ _ _ _ F2 Hb2) as Lrb.
    rewrite L2, L1, L in Lra, Lrb.
    destruct (nth_error (uf_el u) ra) as [za|] eqn:Za; [|apply nth_error_None in Za; lia].
    destruct (nth_error (uf_el u) rb) as [zb|] eqn:Zb; [|apply nth_error_None in Zb; lia].
    pose proof (root_fix _ _ _ Ha2) as Fa. pose proof (root_fix _ _ _ Hb2) as Fb.
    assert (Vac : ~ inserted ops x -> False) by auto.
    assert (Vacy : ~ inserted ops y -> False) by auto.
    assert (Idx : forall i, nth_error (uf_el u) i = Some x -> i = ix).
    { intros i Hi. apply (nth_distinct (uf_el u) i ix x); auto. apply U. }
    destruct (Nat.eqb_spec ra rb) as [E|Ne].
    + subst rb. assert (zb = za) by congruence. subst zb.
      exists (mkUF (uf_el u) par2 (uf_rank u)), za.
      split; [reflexivity|]. split.
      * assert (C : connected ops x y).
        { apply (ui_same _ _ U2 ix iy); auto. exists ra. auto. }
        split; try apply U2.
        -- intros z. rewrite inserted_snoc, (ui_mem u ops U). cbn. split; [auto|].
           intros [K|K]; [exact K|discriminate].
        -- intros i j p q Hi Hj. rewrite connected_add by assumption.
           rewrite (ui_same _ _ U2 i j p q Hi Hj). split; [auto|].
           intros [K|[[K1 K2]|[K1 K2]]]; [exact K| |].
           ++ eapply rst_trans; [exact K1|]. eapply rst_trans; [exact C|exact K2].
           ++ eapply rst_trans; [exact K1|]. eapply rst_trans; [apply rst_sym, C|exact K2].
      * split; [|split; [|split]]; try (intros; exfalso; tauto).
        intros _ _ i Hi. cbn in Hi. rewrite (Idx i Hi). exists ra. auto.
    + pose proof (fo_len _ _ F2) as LR. rewrite L2, L1, L in LR.
      destruct (nth_error (uf_rank u) ra) as [ka|] eqn:Ka; [|apply nth_error_None in Ka; lia].
      destruct (nth_error (uf_rank u) rb) as [kb|] eqn:Kb; [|apply nth_error_None in Kb; lia].
      assert (Rka : rk (uf_rank u) ra = ka) by (apply nth_error_nth, Ka).
      assert (Rkb : rk (uf_rank u) rb = kb) by (apply nth_error_nth, Kb).
      destruct (Nat.ltb_spec ka kb) as [Lt|Ge]; [|destruct (Nat.ltb_spec kb ka) as [Gt|Eq]].
      * destruct (vset_ok par2 ra rb) as [par3 E3]; [lia|]. rewrite E3.
        destruct (nth_error_upd _ _ _ _ E3) as (L3 & _ & N3).
        exists (mkUF (uf_el u) par3 (uf_rank u)), zb. split; [reflexivity|]. split.
        -- apply (link_inv (mkUF (uf_el u) par2 (uf_rank u)) ops x y ix iy ra rb); cbn; auto.
           apply (link_forest par2 (uf_rank u) par3 (uf_rank u) ra rb); auto. lia.
        -- split; [|split; [|split]]; try (intros; exfalso; tauto).
           intros _ _ i Hi. cbn in Hi. rewrite (Idx i Hi). exists rb. split; [|exact Zb].
           pose proof (link_roots par2 par3 ra rb Fa Fb Ne N3 ix ra Ha2) as K.
           rewrite Nat.eqb_refl in K. exact K.
      * destruct (vset_ok par2 rb ra) as [par3 E3]; [lia|]. rewrite E3.
        destruct (nth_error_upd _ _ _ _ E3) as (L3 & _ & N3).
        exists (mkUF (uf_el u) par3 (uf_rank u)), za. split; [reflexivity|]. split.
        -- apply (link_inv (mkUF (uf_el u) par2 (uf_rank u)) ops x y ix iy rb ra); cbn; auto.
           apply (link_forest par2 (uf_rank u) par3 (uf_rank u) rb ra); auto. lia.
        -- split; [|split; [|split]]; try (intros; exfalso; tauto).
           intros _ _ i Hi. cbn in Hi. rewrite (Idx i Hi). exists ra. split; [|exact Za].
           pose proof (link_roots par2 par3 rb ra Fb Fa (not_eq_sym Ne) N3 ix ra Ha2) as K.
           apply Nat.eqb_neq in Ne. rewrite Ne in K. exact K.
      * destruct (vset_ok par2 rb ra) as [par3 E3]; [lia|]. rewrite E3.
        destruct (nth_error_upd _ _ _ _ E3) as (L3 & _ & N3).
        destruct (vset_ok (uf_rank u) ra (S ka)) as [rank3 E4]; [lia|]. rewrite E4.
        destruct (nth_error_upd _ _ _ _ E4) as (L4 & _ & _).
        pose proof (rk_upd _ _ _ _ E4) as R4.
        exists (mkUF (uf_el u) par3 rank3), za. split; [reflexivity|]. split.
        -- apply (link_inv (mkUF (uf_el u) par2 (uf_rank u)) ops x y ix iy rb ra); cbn; auto.
           apply (link_forest par2 (uf_rank u) par3 rank3 rb ra); auto.
           ++ intros i Hi. rewrite R4. apply Nat.eqb_neq in Hi. rewrite Hi. reflexivity.
           ++ rewrite R4, Nat.eqb_refl. lia.
           ++ rewrite R4, Nat.eqb_refl. lia.
        -- split; [|split; [|split]]; try (intros; exfalso; tauto).
           intros _ _ i Hi. cbn in Hi. rewrite (Idx i Hi). exists ra. split; [|exact Za].
           pose proof (link_roots par2 par3 rb ra Fb Fa (not_eq_sym Ne) N3 ix ra Ha2) as K.
           apply Nat.eqb_neq in Ne. rewrite Ne in K. exact K.
  - destruct (zfind_in (uf_el u) x (ui_good u ops U)) as [Hx Lx]; [apply (ui_mem u ops U), Ix|].
    rewrite (zfind_out (uf_el u) y (ui_good u ops U)) by (rewrite (ui_mem u ops U); exact Ny).
    rewrite Nat.eqb_refl.
    destruct (Nat.eqb_spec (set_find Z.ltb (uf_el u) x) (length (uf_el u))) as [E|_]; [lia|].
    destruct (uf_find_spec u ops x U Ix) as (i & u' & r & z & _ & E & _ & _ & U' & _).
    exists u', z. split; [exact E|]. split; [apply noop_inv; tauto|].
    split; [tauto|]. split; [auto|]. tauto.
  - destruct (zfind_in (uf_el u) y (ui_good u ops U)) as [Hy Ly]; [apply (ui_mem u ops U), Iy|].
    rewrite (zfind_out (uf_el u) x (ui_good u ops U)) by (rewrite (ui_mem u ops U); exact Nx).
    rewrite Nat.eqb_refl.
    destruct (Nat.eqb_spec (set_find Z.ltb (uf_el u) y) (length (uf_el u))) as [E|_]; [lia|].
    destruct (uf_find_spec u ops y U Iy) as (i & u' & r & z & _ & E & _ & _ & U' & _).
    exists u', z. split; [exact E|]. split; [apply noop_inv; tauto|].
    split; [tauto|]. split; [tauto|]. split; [auto|]. tauto.
  - rewrite (zfind_out (uf_el u) x (ui_good u ops U)) by (rewrite (ui_mem u ops U); exact Nx).
    rewrite (zfind_out (uf_el u) y (ui_good u ops U)) by (rewrite (ui_mem u ops U); exact Ny).
    rewrite Nat.eqb_refl. exists u, (-1)%Z. split; [reflexivity|].
    split; [apply noop_inv; tauto|]. split; [tauto|]. split; [tauto|]. split; [tauto|auto].
Qed.

(** * Relabelling *)

Definition anyN : nat -> Prop := fun _ => True.

Lemma nltb_swo : swo_on anyN Nat.ltb.
Proof.
  apply total_swo.
  - intros a _. apply Nat.ltb_irrefl.
  - intros a b c _ _ _. rewrite !Nat.ltb_lt. lia.
  - intros a b _ _. rewrite !Nat.ltb_ge. lia.
Qed.

Lemma neqv a b : eqv Nat.ltb a b = Nat.eqb a b.
Proof.
  unfold eqv. destruct (Nat.eqb_spec a b) as [->|N].
  - rewrite Nat.ltb_irrefl. reflexivity.
  - destruct (Nat.ltb_spec a b), (Nat.ltb_spec b a); auto; lia.
Qed.

(** Elements of the tree of root [r] that are smaller than it. *)
Definition smaller (par : list nat) (el : list Z) (r i : nat) : Prop :=
  root par i r /\ exists x y, nth_error el i = Some x /\ nth_error el r = Some y /\ (x < y)%Z.

Definition chosen (par : list nat) (el : list Z) (k r q : nat) : Prop :=
  (q = r /\ forall i, i < k -> ~ smaller par el r i) \/
  (q < k /\ smaller par el r q /\ forall i, q < i < k -> ~ smaller par el r i).

Record loop1 (par0 rank : list nat) (el : list Z) (k : nat) (par : list nat) (m : smap nat nat)
    : Prop := {
  l1_forest : forest par rank;
  l1_len : length par = length par0;
  l1_roots : forall j s, root par0 j s -> root par j s;
  l1_flat : forall i, i < k -> exists r, nth_error par i = Some r /\ root par0 i r;
  l1_map : mgood anyN Nat.ltb m;
  l1_entry : forall r e, mlookup Nat.ltb (m_entries m) r = Some e ->
    fst e = r /\ root par0 r r /\ chosen par0 el k r (snd e);
  l1_has : forall i r, i < k -> root par0 i r -> mlookup Nat.ltb (m_entries m) r <> None }.

Lemma chosen_next par el k r q : chosen par el k r q -> ~ smaller par el r k ->
  chosen par el (S k) r q.
Proof.
  intros [[-> H]|(A & B & H)] N.
  - left. split; [reflexivity|]. intros i Hi. destruct (Nat.eq_dec i k) as [->|]; [exact N|].
    apply H. lia.
  - right. split; [lia|]. split; [exact B|]. intros i Hi.
    destruct (Nat.eq_dec i k) as [->|]; [exact N|]. apply H. lia.
Qed.

Lemma mlookup_key (es : list (nat * nat)) r e : mlookup Nat.ltb es r = Some e -> fst e = r.
Proof.
  intros H. apply find_some in H. destruct H as [_ H]. rewrite neqv in H.
  apply Nat.eqb_eq in H. congruence.
Qed.

Lemma relabel_step1_spec par0 rank el k par m : forest par0 rank -> length par0 = length el ->
  k < length el -> loop1 par0 rank el k par m ->
  exists par' m', relabel_step1 el (Some (par, m)) k = Some (par', m') /\
    loop1 par0 rank el (S k) par' m'.
Proof.
  intros F0 L0 Hk P. unfold relabel_step1.
  destruct (find_spec par rank k (l1_forest _ _ _ _ _ _ P)) as
    (par' & r & -> & Hr & F' & L' & Hroots & Hk' & _ & Hflat).
  { rewrite (l1_len _ _ _ _ _ _ P). lia. }
  assert (Hr0 : root par0 k r).
  { destruct (root_total _ _ F0 k) as [s Hs]; [lia|].
    rewrite (root_fun _ _ _ _ Hr (l1_roots _ _ _ _ _ _ P _ _ Hs)). exact Hs. }
  pose proof (root_lt _ _ _ _ F0 Hr0) as Hrl. rewrite L0 in Hrl.
  pose proof (map_fetch_good anyN Nat.ltb nltb_swo m r r (l1_map _ _ _ _ _ _ P) I) as MF.
  destruct (map_fetch Nat.ltb m r r) as [m' n] eqn:EF. cbv zeta in MF. cbn [fst snd] in MF.
  destruct MF as (G' & Lk & Hn & Hlow).
  destruct (nth_error el k) as [x|] eqn:Ex; [|apply nth_error_None in Ex; lia].
  destruct (nth_error el r) as [y|] eqn:Ey; [|apply nth_error_None in Ey; lia].
  assert (Sm : smaller par0 el r k <-> (x < y)%Z).
  { split.
    - intros (_ & x' & y' & A & B & C). congruence.
    - intros C. split; [exact Hr0|]. exists x, y. auto. }
  assert (Other : forall s, s <> r -> ~ smaller par0 el s k).
  { intros s Hs [A _]. apply Hs. apply (root_fun par0 k); assumption. }
  assert (Ent : forall s e, mlookup Nat.ltb (m_entries m') s = Some e ->
    fst e = s /\ root par0 s s /\ chosen par0 el k s (snd e)).
  { intros s e He. rewrite Lk in He by exact I. unfold fget_or_put in He. rewrite neqv in He.
    destruct (Nat.eqb_spec s r) as [->|Ne]; [|apply (l1_entry _ _ _ _ _ _ P), He].
    destruct (mlookup Nat.ltb (m_entries m) r) as [e'|] eqn:E'.
    - injection He as <-. apply (l1_entry _ _ _ _ _ _ P), E'.
    - injection He as <-. cbn. split; [reflexivity|]. split; [eapply root_root; eauto|].
      left. split; [reflexivity|]. intros i Hi [Hri _].
      apply (l1_has _ _ _ _ _ _ P i r Hi Hri). exact E'. }
  assert (Has : mlookup Nat.ltb (m_entries m') r <> None).
  { rewrite Lk by exact I. unfold fget_or_put. rewrite neqv, Nat.eqb_refl.
    destruct (mlookup Nat.ltb (m_entries m) r); discriminate. }
  assert (Has' : forall i s, i < S k -> root par0 i s -> mlookup Nat.ltb (m_entries m') s <> None).
  { intros i s Hi Hs. destruct (Nat.eq_dec i k) as [->|].
    - rewrite (root_fun _ _ _ _ Hs Hr0). exact Has.
    - rewrite Lk by exact I. unfold fget_or_put. rewrite neqv.
      assert (Z : mlookup Nat.ltb (m_entries m) s <> None)
        by (apply (l1_has _ _ _ _ _ _ P i); [lia|exact Hs]).
      destruct (mlookup Nat.ltb (m_entries m) s); [|congruence].
      destruct (Nat.eqb s r); discriminate. }
  assert (Flat : forall i, i < S k -> exists r0, nth_error par' i = Some r0 /\ root par0 i r0).
  { intros i Hi. destruct (Nat.eq_dec i k) as [->|]; [eauto|].
    destruct (l1_flat _ _ _ _ _ _ P i) as (s & Hs & Rs); [lia|].
    exists s. split; [|exact Rs]. apply Hflat; [exact Hs|].
    apply (l1_roots _ _ _ _ _ _ P), Rs. }
  destruct (Z.ltb_spec x y) as [Lt|Ge].
  - pose proof (map_write_good anyN Nat.ltb nltb_swo m' r k G' I Has) as [G2 L2].
    rewrite <- Hlow in G2, L2.
    exists par', (map_write m' n k). split; [reflexivity|]. split; auto.
    + rewrite L'. apply P.
    + intros j s Hj. apply Hroots, P, Hj.
    + intros s e He. rewrite L2 in He by exact I. unfold fset_value in He. rewrite neqv in He.
      destruct (Nat.eqb_spec s r) as [->|Ne].
      * destruct (mlookup Nat.ltb (m_entries m') r) as [[k' v']|] eqn:E'; [|discriminate].
        injection He as <-. cbn. apply mlookup_key in E'. cbn in E'.
        split; [exact E'|]. split; [eapply root_root; eauto|].
        right. split; [lia|]. split; [apply Sm, Lt|]. intros i Hi. lia.
      * destruct (Ent s e He) as (A & B & C). split; [exact A|]. split; [exact B|].
        apply chosen_next; auto.
    + intros i s Hi Hs. rewrite L2 by exact I. unfold fset_value. rewrite neqv.
      pose proof (Has' i s Hi Hs) as Z.
      destruct (mlookup Nat.ltb (m_entries m') s) as [[k' v']|] eqn:E'; [|congruence].
      destruct (Nat.eqb s r); discriminate.
  - exists par', m'. split; [reflexivity|]. split; auto.
    + rewrite L'. apply P.
    + intros j s Hj. apply Hroots, P, Hj.
    + intros s e He. destruct (Ent s e He) as (A & B & C). split; [exact A|]. split; [exact B|].
      apply chosen_next; [exact C|]. destruct (Nat.eq_dec s r) as [->|Ne]; [|auto].
      rewrite Sm. lia.
Qed.

Lemma relabel_loop1 par0 rank el : forest par0 rank -> length par0 = length el ->
  forall n k par m, k + n = length el -> loop1 par0 rank el k par m ->
  exists par' m', fold_left (relabel_step1 el) (seq k n) (Some (par, m)) = Some (par', m') /\
    loop1 par0 rank el (length el) par' m'.
Proof.
  intros F0 L0. induction n as [|n IH]; intros k par m Hk P; cbn [seq fold_left].
  - exists par, m. split; [reflexivity|]. replace (length el) with k by lia. exact P.
  - destruct (relabel_step1_spec par0 rank el k par m F0 L0) as (par' & m' & E & P'); [lia|exact P|].
    rewrite E. apply IH; [lia|exact P'].
Qed.

(** Second loop: after [k] steps. *)
Record loop2 (par0 par1 rank : list nat) (m : smap nat nat) (k : nat) (par rnk : list nat) : Prop := {
  l2_len : length par = length par1;
  l2_rlen : length rnk = length rank;
  l2_done : forall i r q, i < k -> nth_error par1 i = Some r ->
    map_at Nat.ltb m r = Some q ->
    nth_error par i = Some q /\ nth_error rnk i = Some (if Nat.eqb q i then 1 else 0);
  l2_rest : forall i, k <= i -> nth_error par i = nth_error par1 i }.

Lemma relabel_loop2 par0 par1 rank m N : length par1 = N -> length rank = N ->
  (forall i, i < N -> exists r q, nth_error par1 i = Some r /\ map_at Nat.ltb m r = Some q) ->
  forall n k par rnk, k + n = N -> loop2 par0 par1 rank m k par rnk ->
  exists par' rnk', fold_left (relabel_step2 m) (seq k n) (Some (par, rnk)) = Some (par', rnk') /\
    loop2 par0 par1 rank m N par' rnk'.
Proof.
  intros Lp Lr H. induction n as [|n IH]; intros k par rnk Hk P; cbn [seq fold_left].
  - exists par, rnk. split; [reflexivity|]. replace N with k by lia. exact P.
  - destruct (H k) as (r & q & Hr & Hq); [lia|].
    assert (E : exists par' rnk', relabel_step2 m (Some (par, rnk)) k = Some (par', rnk') /\
              loop2 par0 par1 rank m (S k) par' rnk').
    { unfold relabel_step2. rewrite (l2_rest _ _ _ _ _ _ _ P) by lia. rewrite Hr, Hq.
      destruct (vset_ok par k q) as [par' E1]; [rewrite (l2_len _ _ _ _ _ _ _ P); lia|].
      destruct (vset_ok rnk k (if Nat.eqb q k then 1 else 0)) as [rnk' E2];
        [rewrite (l2_rlen _ _ _ _ _ _ _ P); lia|].
      rewrite E1, E2. exists par', rnk'. split; [reflexivity|].
      destruct (nth_error_upd _ _ _ _ E1) as (A1 & _ & N1).
      destruct (nth_error_upd _ _ _ _ E2) as (A2 & _ & N2). split.
      - rewrite A1. apply P.
      - rewrite A2. apply P.
      - intros i r' q' Hi Hr' Hq'. rewrite N1, N2. destruct (Nat.eqb_spec i k) as [->|].
        + rewrite Hr in Hr'. injection Hr' as <-. rewrite Hq in Hq'. injection Hq' as <-. auto.
        + eapply (l2_done _ _ _ _ _ _ _ P); eauto. lia.
      - intros i Hi. rewrite N1. destruct (Nat.eqb_spec i k); [lia|]. apply P. lia. }
    destruct E as (par' & rnk' & -> & P'). apply IH; [lia|exact P'].
Qed.

Lemma uf_relabel_spec u ops : uinv u ops ->
  exists u', uf_relabel u = Some u' /\ uinv u' (ops ++ [URelabel]) /\ uf_el u' = uf_el u /\
    forall i r, root (uf_par u) i r ->
      exists q, root (uf_par u') i q /\ root (uf_par u) q r /\
        chosen (uf_par u) (uf_el u) (length (uf_el u)) r q.
Proof.
  intros U. pose proof (ui_forest u ops U) as F. pose proof (ui_len u ops U) as L.
  unfold uf_relabel.
  destruct (relabel_loop1 (uf_par u) (uf_rank u) (uf_el u) F L (length (uf_el u)) 0
              (uf_par u) map_empty) as (par1 & m & E1 & P1).
  { reflexivity. }
  { split; auto; try (intros; lia).
    - split; [split; constructor|constructor].
    - intros r e He. discriminate. }
  rewrite E1.
  assert (At : forall i, i < length (uf_el u) -> exists r q, nth_error par1 i = Some r /\
    root (uf_par u) i r /\ map_at Nat.ltb m r = Some q /\ root (uf_par u) q r /\
    chosen (uf_par u) (uf_el u) (length (uf_el u)) r q).
  { intros i Hi. destruct (l1_flat _ _ _ _ _ _ P1 i Hi) as (r & Hr & Rr).
    pose proof (l1_has _ _ _ _ _ _ P1 i r Hi Rr) as H.
    pose proof (map_find_spec anyN Nat.ltb nltb_swo m r (l1_map _ _ _ _ _ _ P1) I) as MF.
    destruct (mlookup Nat.ltb (m_entries m) r) as [e|] eqn:Ee; [|congruence].
    destruct MF as (_ & _ & Hat). destruct (l1_entry _ _ _ _ _ _ P1 r e Ee) as (A & B & C).
    exists r, (snd e). split; [exact Hr|]. split; [exact Rr|]. split; [exact Hat|]. split; [|exact C].
    destruct C as [[-> _]|(_ & [C _] & _)]; assumption. }
  destruct (relabel_loop2 (uf_par u) par1 (uf_rank u) m (length (uf_el u))) with
    (n := length (uf_el u)) (k := 0) (par := par1) (rnk := uf_rank u) as (par2 & rnk2 & E2 & P2).
  { rewrite (l1_len _ _ _ _ _ _ P1). exact L. }
  { rewrite (fo_len _ _ F). exact L. }
  { intros i Hi. destruct (At i Hi) as (r & q & A & _ & B & _). eauto. }
  { reflexivity. }
  { split; auto. intros; lia. }
  rewrite E2. exists (mkUF (uf_el u) par2 rnk2). split; [reflexivity|].
  assert (Par2 : forall i, i < length (uf_el u) -> exists r q, root (uf_par u) i r /\
    map_at Nat.ltb m r = Some q /\ root (uf_par u) q r /\
    chosen (uf_par u) (uf_el u) (length (uf_el u)) r q /\ q < length (uf_el u) /\
    nth_error par2 i = Some q /\ nth_error par2 q = Some q /\
    nth_error rnk2 i = Some (if Nat.eqb q i then 1 else 0)).
  { intros i Hi. destruct (At i Hi) as (r & q & A & B & C & D & E).
    destruct (l2_done _ _ _ _ _ _ _ P2 i r q Hi A C) as [X Y].
    assert (Hq : q < length (uf_el u)).
    { rewrite <- L. inversion D; subst; apply nth_error_Some; congruence. }
    destruct (At q Hq) as (r' & q' & A' & B' & C' & D' & E').
    assert (r' = r) by (apply (root_fun (uf_par u) q); assumption). subst r'.
    assert (q' = q) by congruence. subst q'.
    destruct (l2_done _ _ _ _ _ _ _ P2 q r q Hq A' C') as [X' _].
    exists r, q. auto 10. }
  assert (L2 : length par2 = length (uf_el u)).
  { rewrite (l2_len _ _ _ _ _ _ _ P2), (l1_len _ _ _ _ _ _ P1). exact L. }
  assert (R2 : forall i r, root (uf_par u) i r -> exists q, root par2 i q /\
    root (uf_par u) q r /\ chosen (uf_par u) (uf_el u) (length (uf_el u)) r q /\
    map_at Nat.ltb m r = Some q).
  { intros i r Hir. assert (Hi : i < length (uf_el u)).
    { rewrite <- L. inversion Hir; subst; apply nth_error_Some; congruence. }
    destruct (Par2 i Hi) as (r' & q & A & B & C & D & E & X & Y & _).
    assert (r' = r) by (apply (root_fun (uf_par u) i); assumption). subst r'.
    exists q. split; [|auto]. destruct (Nat.eq_dec q i) as [->|Ne].
    - constructor. exact X.
    - apply (root_up _ _ q); [exact X|exact Ne|constructor; exact Y]. }
  split; [|split; [reflexivity|]].
  - split; cbn.
    + apply U.
    + exact L2.
    + split.
      * rewrite L2, (l2_rlen _ _ _ _ _ _ _ P2), (fo_len _ _ F). exact L.
      * intros i p Hi. assert (Hl : i < length (uf_el u)) by (rewrite <- L2; apply nth_error_Some; congruence).
        destruct (Par2 i Hl) as (r & q & A & B & C & D & E & X & _). rewrite L2. congruence.
      * intros i p Hi Hp. assert (Hl : i < length (uf_el u)) by (rewrite <- L2; apply nth_error_Some; congruence).
        destruct (Par2 i Hl) as (r & q & A & B & C & D & E & X & Y & Z).
        assert (q = p) by congruence. subst q.
        destruct (Par2 p E) as (r' & q' & _ & _ & _ & _ & _ & X' & _ & Z').
        assert (q' = p) by congruence. subst q'.
        unfold rk. rewrite (nth_error_nth _ _ 0 Z), (nth_error_nth _ _ 0 Z').
        rewrite Nat.eqb_refl. apply Nat.eqb_neq in Hp. rewrite Hp. lia.
    + intros x. rewrite inserted_snoc, (ui_mem u ops U). split; [auto|].
      intros [K|K]; [exact K|discriminate].
    + intros i j x y Hi Hj. rewrite connected_snoc_same by discriminate.
      rewrite <- (ui_same u ops U i j x y Hi Hj).
      assert (Li : i < length (uf_par u)) by (rewrite L; apply nth_error_Some; congruence).
      assert (Lj : j < length (uf_par u)) by (rewrite L; apply nth_error_Some; congruence).
      destruct (root_total _ _ F i Li) as [ri Hri]. destruct (root_total _ _ F j Lj) as [rj Hrj].
      destruct (R2 i ri Hri) as (qi & A & B & _ & M). destruct (R2 j rj Hrj) as (qj & A' & B' & _ & M').
      rewrite (same_iff _ _ _ _ _ A A'), (same_iff _ _ _ _ _ Hri Hrj). split.
      * intros ->. apply (root_fun (uf_par u) qj); assumption.
      * intros ->. congruence.
  - intros i r Hir. destruct (R2 i r Hir) as (q & A & B & C & _). exists q. auto.
Qed.

(** * Histories *)

Lemma uf_step_inv u ops o : uinv u ops -> exists u', uf_step u o = Some u' /\ uinv u' (ops ++ [o]).
Proof.
  intros U. destruct o as [x|a b|x|]; cbn [uf_step].
  - exists (uf_insert u x). split; [reflexivity|]. apply uf_insert_inv, U.
  - destruct (uf_union_spec u ops a b U) as (u' & r & -> & U' & _). exists u'. auto.
  - assert (X : exists u', option_map fst (uf_find u x) = Some u' /\ uinv u' ops).
    { destruct (In_dec Z.eq_dec x (uf_el u)) as [H|H].
      - apply (ui_mem u ops U) in H.
        destruct (uf_find_spec u ops x U H) as (i & u' & r & z & _ & -> & _ & _ & U' & _).
        exists u'. auto.
      - rewrite (uf_find_absent u ops x U) by (rewrite <- (ui_mem u ops U); exact H).
        exists u. auto. }
    destruct X as (u' & E & U'). exists u'. split; [exact E|]. split; try apply U'.
    + intros y. rewrite inserted_snoc, (ui_mem u' ops U'). split; [auto|].
      intros [K|K]; [exact K|discriminate].
    + intros i j p q Hi Hj. rewrite connected_snoc_same by discriminate.
      apply (ui_same u' ops U'); assumption.
  - destruct (uf_relabel_spec u ops U) as (u' & -> & U' & _). exists u'. auto.
Qed.

Lemma uf_run_inv_gen ops : forall u done, uinv u done ->
  exists u', uf_run_from u ops = Some u' /\ uinv u' (done ++ ops).
Proof.
  induction ops as [|o ops IH]; intros u done U; cbn.
  - exists u. rewrite app_nil_r. auto.
  - destruct (uf_step_inv u done o U) as (u1 & -> & U1).
    destruct (IH u1 _ U1) as (u' & E & U'). exists u'. split; [exact E|].
    rewrite <- app_assoc in U'. exact U'.
Qed.

Lemma uf_run_inv ops : exists u, uf_run ops = Some u /\ uinv u ops.
Proof. apply (uf_run_inv_gen ops uf_empty [] empty_inv). Qed.

Lemma find_result u ops x u' z : uinv u ops -> inserted ops x -> uf_find u x = Some (u', z) ->
  exists i r, nth_error (uf_el u) i = Some x /\ root (uf_par u) i r /\
    nth_error (uf_el u) r = Some z.
Proof.
  intros U Hx E. destruct (uf_find_spec u ops x U Hx) as (i & u2 & r & z2 & A & B & C & D & _).
  assert (z2 = z) by congruence. subst. exists i, r. auto.
Qed.

Lemma union_find_correct ops : exists u, uf_run ops = Some u /\
  (forall x, In x (uf_el u) <-> inserted ops x) /\
  (forall x, ~ inserted ops x -> uf_find u x = Some (u, (-1)%Z)) /\
  (forall x, inserted ops x -> exists u' z, uf_find u x = Some (u', z) /\
     inserted ops z /\ connected ops x z) /\
  (forall x y u1 z1 u2 z2, inserted ops x -> inserted ops y ->
     uf_find u x = Some (u1, z1) -> uf_find u y = Some (u2, z2) ->
     (z1 = z2 <-> connected ops x y)).
Proof.
  destruct (uf_run_inv ops) as (u & E & U). exists u. split; [exact E|].
  split; [apply U|]. split; [intros x; apply (uf_find_absent u ops x U)|]. split.
  - intros x Hx. destruct (uf_find_spec u ops x U Hx) as (i & u' & r & z & A & B & C & D & _).
    exists u', z. split; [exact B|]. split.
    + apply (ui_mem u ops U). eapply nth_error_In; eauto.
    + apply (ui_same u ops U i r x z A D). exists r. split; [exact C|eapply root_root; eauto].
  - intros x y u1 z1 u2 z2 Hx Hy Ex Ey.
    destruct (find_result u ops x u1 z1 U Hx Ex) as (i & r & A & B & C).
    destruct (find_result u ops y u2 z2 U Hy Ey) as (j & s & A' & B' & C').
    rewrite <- (ui_same u ops U i j x y A A'), (same_iff _ _ _ _ _ B B'). split.
    + intros ->. apply (nth_distinct (uf_el u) r s z2); auto. apply U.
    + intros ->. congruence.
Qed.

(** Union returns the representative of the merged class. *)
Lemma uf_run_from_app ops o : forall u, uf_run_from u (ops ++ [o]) =
  match uf_run_from u ops with Some u' => uf_step u' o | None => None end.
Proof.
  induction ops as [|p ops IH]; intros u; cbn.
  - destruct (uf_step u o); reflexivity.
  - destruct (uf_step u p); [apply IH|reflexivity].
Qed.

Lemma union_returns ops x y : inserted ops x -> inserted ops y ->
  exists u u' r, uf_run ops = Some u /\ uf_union u x y = Some (u', r) /\
    uf_run (ops ++ [UUnion x y]) = Some u' /\
    (exists u1, uf_find u' x = Some (u1, r)) /\ (exists u2, uf_find u' y = Some (u2, r)).
Proof.
  intros Hx Hy. destruct (uf_run_inv ops) as (u & E & U).
  destruct (uf_union_spec u ops x y U) as (u' & r & E' & U' & H & _).
  exists u, u', r. split; [exact E|]. split; [exact E'|]. split.
  - unfold uf_run in *. rewrite uf_run_from_app, E. cbn. rewrite E'. reflexivity.
  - assert (Hx' : inserted (ops ++ [UUnion x y]) x) by (apply inserted_snoc; auto).
    assert (Hy' : inserted (ops ++ [UUnion x y]) y) by (apply inserted_snoc; auto).
    destruct (uf_find_spec u' _ x U' Hx') as (i & u1 & k & z & A & B & C & D & _).
    destruct (H Hx Hy i A) as (k' & C' & D').
    assert (k' = k) by (apply (root_fun (uf_par u') i); assumption). subst k'.
    assert (z = r) by congruence. subst z. split; [eauto|].
    destruct (uf_find_spec u' _ y U' Hy') as (j & u2 & s & w & A2 & B2 & C2 & D2 & _).
    assert (S : same (uf_par u') i j).
    { apply (ui_same u' _ U' i j x y A A2). apply rst_step, linked_snoc. auto. }
    apply (same_iff _ _ _ _ _ C C2) in S. subst s. exists u2. rewrite B2. congruence.
Qed.

(** The representative relabelling chooses: the greatest element of the class
    below the old representative, or the old representative if there is none. *)
Lemma relabel_rep ops u x u1 r u' u2 m : uf_run ops = Some u -> inserted ops x ->
  uf_find u x = Some (u1, r) -> uf_relabel u = Some u' -> uf_find u' x = Some (u2, m) ->
  connected ops x m /\
  ((forall y, connected ops x y -> (r <= y)%Z) -> m = r) /\
  (forall y, connected ops x y -> (y < r)%Z -> (m < r)%Z /\ (y <= m)%Z).
Proof.
  intros E Hx Ex Er Em. destruct (uf_run_inv ops) as (u0 & E0 & U).
  assert (u0 = u) by congruence. subst u0.
  destruct (uf_relabel_spec u ops U) as (u0 & E1 & U' & El & H).
  assert (u0 = u') by congruence. subst u0.
  destruct (find_result u ops x u1 r U Hx Ex) as (i & k & A & B & C).
  assert (Hx' : inserted (ops ++ [URelabel]) x) by (apply inserted_snoc; auto).
  destruct (find_result u' _ x u2 m U' Hx' Em) as (i' & q & A' & B' & C').
  rewrite El in A', C'.
  assert (i' = i) by (apply (nth_distinct (uf_el u) i' i x); auto; apply U). subst i'.
  destruct (H i k B) as (q' & Bq & Rq & Ch).
  assert (q' = q) by (apply (root_fun (uf_par u') i); assumption). subst q'.
  assert (Cm : connected ops x m).
  { apply (ui_same u ops U i q x m A C'). exists k. auto. }
  assert (Pos : forall y, connected ops x y -> exists j, nth_error (uf_el u) j = Some y /\
                                                      root (uf_par u) j k).
  { intros y Cy.
    assert (Iy : inserted ops y).
    { pose proof Cy as Cy'. apply connected_inserted in Cy'. destruct Cy' as [<-|[_ ?]]; assumption. }
    apply (ui_mem u ops U) in Iy. apply In_nth_error in Iy. destruct Iy as [j Hj].
    exists j. split; [exact Hj|].
    apply (ui_same u ops U i j x y A Hj) in Cy. destruct Cy as (s & S1 & S2).
    rewrite (root_fun _ _ _ _ B S1). exact S2. }
  split; [exact Cm|]. split.
  - intros Hmin. destruct Ch as [[-> _]|(_ & [_ (a & b & Ha & Hb & Lt)] & _)]; [congruence|].
    assert (a = m) by congruence. assert (b = r) by congruence. subst.
    apply Hmin in Cm. lia.
  - intros y Cy Ly. destruct (Pos y Cy) as (j & Hj & Rj).
    assert (Sj : smaller (uf_par u) (uf_el u) k j).
    { split; [exact Rj|]. exists y, r. auto. }
    assert (Lj : j < length (uf_el u)) by (apply nth_error_Some; congruence).
    destruct Ch as [[_ N]|(Hq & [_ (a & b & Ha & Hb & Lt)] & N)].
    + exfalso. apply (N j Lj Sj).
    + assert (a = m) by congruence. assert (b = r) by congruence. subst. split; [exact Lt|].
      destruct (Nat.lt_trichotomy q j) as [Q|[Q|Q]].
      * exfalso. apply (N j); [lia|exact Sj].
      * subst q. assert (y = m) by congruence. lia.
      * (* earlier index, smaller element *)
        pose proof (ui_good u ops U) as [Gi _]. apply increasing_Zlt in Gi.
        assert (forall s a b, StronglySorted Z.lt s -> a < b -> forall v w,
          nth_error s a = Some v -> nth_error s b = Some w -> (v < w)%Z) as Sorted_lt.
        { clear. intros s a b Hs. revert a b. induction Hs as [|z s _ IH Hf]; intros a b Hab v w Hv Hw.
          - destruct a; discriminate.
          - rewrite Forall_forall in Hf. destruct b as [|b]; [lia|]. cbn in Hw.
            destruct a as [|a]; cbn in Hv.
            + injection Hv as <-. apply Hf. eapply nth_error_In; eauto.
            + apply (IH a b); auto. lia. }
        pose proof (Sorted_lt (uf_el u) j q Gi Q y m Hj Ha). lia.
Qed.

(** * Relabelling does not give the smallest element *)
Lemma relabel_not_smallest : exists ops x y u u1 m, uf_run (ops ++ [URelabel]) = Some u /\
  inserted ops x /\ uf_find u x = Some (u1, m) /\ connected ops x y /\ (y < m)%Z.
Proof.
  exists [UInsert 1; UInsert 3; UUnion 3 1; UInsert 2; UUnion 2 1]%Z, 3%Z, 1%Z.
  eexists. eexists. exists 2%Z. split; [vm_compute; reflexivity|]. split; [cbn; auto|].
  split; [vm_compute; reflexivity|]. split; [|lia].
  apply rst_step. exists [UInsert 1; UInsert 3]%Z, [UInsert 2; UUnion 2 1]%Z.
  split; [reflexivity|]. split; cbn; auto.
Qed.
