(** Proofs about serialized sections and broadcasts from an unnamed source. *)
From Coq Require Import List Arith Bool Lia.
From Verif Require Import Base FRefModel ProtoModel ProtoSpec ProtoProof HandProof.
Import ListNotations.
Local Open Scope nat_scope.
Local Arguments Nat.ltb : simpl never.
Local Arguments Nat.leb : simpl never.
Local Arguments Nat.eqb : simpl never.
Local Arguments Nat.sub : simpl never.
Local Arguments Nat.mul : simpl never.

(** A measure that every step increases bounds the length of all runs. *)
Lemma run_bound {S L} (step : S -> L -> option S) (P : S -> Prop) (mu : S -> nat) (b : nat) :
  (forall s l s', P s -> step s l = Some s' -> P s' /\ mu s < mu s') ->
  (forall s, P s -> mu s <= b) ->
  forall ls s s', P s -> run step s ls = Some s' -> length ls <= b - mu s.
Proof.
  intros Hs Hb ls. induction ls as [|l ls IH]; intros s s' Ps E; cbn in *; [lia|].
  destruct (step s l) as [s1|] eqn:E1; [|discriminate].
  destruct (Hs s l s1 Ps E1) as [P1 M]. specialize (IH s1 s' P1 E). pose proof (Hb s1 P1). lia.
Qed.

(** * Serialize *)

Definition zphn (p : zphase) : nat := match p with ZBefore => 0 | ZInside => 1 | ZAfter => 2 end.

Record zinv (n : nat) (s : zst) : Prop := {
  zi_use : forall r, z_out s r <= z_in s r <= S (z_out s r);
  zi_n : forall r, r < n -> z_in s r <= n;
  zi_before : forall r, r < n -> z_ph s r = ZBefore -> z_in s r <= r;
  zi_inside : forall r, r < n -> z_ph s r = ZInside -> z_in s r = r /\ z_out s r = r;
  zi_after : forall r, r < n -> z_ph s r = ZAfter -> r <= z_out s r;
  zi_bar : forall r q, r < n -> q < n -> z_out s r <= z_in s q;
  zi_log : exists a b, a <= n /\ (b = true -> a < n) /\
    (forall r, r < n -> z_ph s r = if Nat.ltb r a then ZAfter
                                  else if Nat.eqb r a && b then ZInside else ZBefore) /\
    z_log s = (if b then [ZB a] else []) ++ rev (serial a) }.

Lemma zinv0 n : zinv n zst0.
Proof.
  split; cbn; unfold zero; intros; try lia; try discriminate.
  exists 0, false. repeat split; try lia; try discriminate.
  intros r _. destruct (Nat.ltb_spec r 0); [lia|]. now rewrite andb_false_r.
Qed.

Lemma serial_S a : rev (serial (S a)) = ZE a :: ZB a :: rev (serial a).
Proof.
  unfold serial. rewrite seq_S. rewrite flat_map_app, rev_app_distr. reflexivity.
Qed.

Lemma zinv_step n s l s' : zinv n s -> zstep n s l = Some s' -> zinv n s'.
Proof.
  intros [I1 I2 I3 I4 I5 I6 (a & b & La & Lb & Lp & Ll)].
  destruct s as [ph en out log]. cbn in *.
  destruct l as [r|r|r|r]; cbn; intros E;
    match type of E with (if ?c then _ else _) = _ => destruct c eqn:C; [|discriminate] end;
    injection E as <-.
  - (* ZEnter *)
    apply andb_prop in C. destruct C as [C1 C2]. bsplit.
    assert (Lt : out r < n) by (destruct (ph r); bsplit; try discriminate; lia).
    split; cbn; auto.
    + intros q. specialize (I1 q). incs; lia.
    + intros q Hq. specialize (I2 q Hq). incs; lia.
    + intros q Hq Hp. specialize (I3 q Hq Hp). incs; [|lia]. rewrite Hp in C2. bsplit. lia.
    + intros q Hq Hp. specialize (I4 q Hq Hp). incs; [|lia]. rewrite Hp in C2. discriminate.
    + intros q x Hq Hx. specialize (I6 q x Hq Hx). pose proof (inc_ge en r x). lia.
    + exists a, b. auto.
  - (* ZLeave *)
    apply andb_prop in C. destruct C as [C1 C2]. bsplit. rewrite forallb_forall in C2.
    assert (Bar : forall q, q < n -> en r <= en q).
    { intros q Hq. apply Nat.leb_le, C2, in_seq. lia. }
    split; cbn; auto.
    + intros q. specialize (I1 q). incs; lia.
    + intros q Hq Hp. specialize (I4 q Hq Hp). incs; lia.
    + intros q Hq Hp. specialize (I5 q Hq Hp). pose proof (inc_ge out r q). lia.
    + intros q x Hq Hx. specialize (I6 q x Hq Hx). specialize (Bar x Hx). pose proof (I1 r). incs; lia.
    + exists a, b. auto.
  - (* ZCall *)
    apply andb_prop in C. destruct C as [C1 C2]. bsplit.
    assert (Pr : ph r = ZBefore) by (destruct (ph r); congruence).
    assert (Ar : r = a /\ b = false).
    { pose proof (Lp r H) as P. rewrite Pr in P.
      destruct (Nat.ltb_spec r a); [discriminate|].
      destruct (Nat.eq_dec r a) as [->|Ne].
      - rewrite Nat.eqb_refl in P. destruct b; [discriminate|auto].
      - exfalso. assert (Ha : a < n) by lia. pose proof (Lp a Ha) as Pa.
        destruct (Nat.ltb_spec a a); [lia|]. rewrite Nat.eqb_refl in Pa.
        pose proof (I6 r a H Ha). pose proof (I1 a).
        destruct b; cbn in Pa; [destruct (I4 a Ha Pa)|pose proof (I3 a Ha Pa)]; lia. }
    destruct Ar as [-> ->].
    split; cbn; auto.
    + intros q Hq. rewrite upd_eq. destruct (Nat.eqb_spec q a); [discriminate|auto].
    + intros q Hq. rewrite upd_eq. destruct (Nat.eqb_spec q a) as [->|]; [intros _; lia|auto].
    + intros q Hq. rewrite upd_eq. destruct (Nat.eqb_spec q a); [discriminate|auto].
    + exists a, true. split; [exact La|]. split; [auto|]. split.
      * intros q Hq. rewrite upd_eq, (Lp q Hq).
        destruct (Nat.eqb_spec q a) as [->|]; cbn; [|reflexivity].
        destruct (Nat.ltb_spec a a); [lia|reflexivity].
      * now rewrite Ll.
  - (* ZReturn *)
    apply andb_prop in C. destruct C as [C1 C2]. bsplit.
    assert (Pr : ph r = ZInside) by (destruct (ph r); congruence).
    assert (Ar : r = a /\ b = true).
    { pose proof (Lp r C1) as P. rewrite Pr in P.
      destruct (Nat.ltb r a); [discriminate|].
      destruct (Nat.eqb_spec r a); [|discriminate]. destruct b; [auto|discriminate]. }
    destruct Ar as [-> ->].
    destruct (I4 a C1 Pr) as [Ia Oa].
    split; cbn; auto.
    + intros q Hq. rewrite upd_eq. destruct (Nat.eqb_spec q a); [discriminate|auto].
    + intros q Hq. rewrite upd_eq. destruct (Nat.eqb_spec q a); [discriminate|auto].
    + intros q Hq. rewrite upd_eq. destruct (Nat.eqb_spec q a) as [->|]; [intros _; lia|auto].
    + exists (S a), false. split; [lia|]. split; [discriminate|]. split.
      * intros q Hq. rewrite upd_eq, (Lp q Hq), andb_false_r.
        destruct (Nat.eqb_spec q a) as [->|]; cbn.
        -- destruct (Nat.ltb_spec a (S a)); [reflexivity|lia].
        -- destruct (Nat.ltb_spec q a), (Nat.ltb_spec q (S a)); try reflexivity; lia.
      * now rewrite serial_S, Ll.
Qed.

Lemma zinv_run n ls s : run (zstep n) zst0 ls = Some s -> zinv n s.
Proof. apply (run_inv (zstep n) (zinv n)); [apply zinv_step|apply zinv0]. Qed.

Theorem serialize_order n ls s : run (zstep n) zst0 ls = Some s ->
  exists rest, rev (z_log s) ++ rest = serial n.
Proof.
  intros R. destruct (zinv_run n ls s R) as [_ _ _ _ _ _ (a & b & La & Lb & _ & ->)].
  rewrite rev_app_distr, rev_involutive.
  assert (Sp : forall m, m <= n -> serial n = serial m ++ flat_map (fun r => [ZB r; ZE r]) (seq m (n - m))).
  { intros m Hm. unfold serial. rewrite <- flat_map_app. f_equal.
    replace n with (m + (n - m)) at 1 by lia. apply seq_app. }
  destruct b.
  - specialize (Lb eq_refl). exists (ZE a :: flat_map (fun r => [ZB r; ZE r]) (seq (S a) (n - S a))).
    rewrite (Sp a La). rewrite <- app_assoc. f_equal.
    replace (n - a) with (S (n - S a)) by lia. reflexivity.
  - exists (flat_map (fun r => [ZB r; ZE r]) (seq a (n - a))). cbn [rev]. rewrite app_nil_r.
    symmetry. apply Sp, La.
Qed.

Lemma min_rank (f : nat -> nat) n : 0 < n -> exists r, r < n /\ forall q, q < n -> f r <= f q.
Proof.
  induction n as [|n IH]; [lia|]. intros _. destruct n as [|n].
  - exists 0. split; [lia|]. intros q Hq. replace q with 0 by lia. lia.
  - destruct IH as (r & Hr & H); [lia|].
    destruct (Nat.le_gt_cases (f r) (f (S n))) as [C|C].
    + exists r. split; [lia|]. intros q Hq. destruct (Nat.eq_dec q (S n)) as [->|]; [lia|]. apply H. lia.
    + exists (S n). split; [lia|]. intros q Hq. destruct (Nat.eq_dec q (S n)) as [->|]; [lia|].
      specialize (H q ltac:(lia)). lia.
Qed.

Theorem serialize_complete n ls s : run (zstep n) zst0 ls = Some s -> stuck (zstep n) s ->
  (forall r, r < n -> z_ph s r = ZAfter /\ z_out s r = n) /\ rev (z_log s) = serial n.
Proof.
  intros R St. pose proof (zinv_run n ls s R) as [I1 I2 I3 I4 I5 I6 (a & b & La & Lb & Lp & Ll)].
  assert (Fin : forall r, r < n -> z_ph s r = ZAfter /\ z_out s r = n).
  { intros r0 Hr0. destruct (min_rank (z_in s) n ltac:(lia)) as (r & Hr & Mn).
    destruct s as [ph en out log]. cbn in *.
    assert (Lv : forall q, q < n -> (forall x, x < n -> en q <= en x) -> out q = en q).
    { intros q Hq Hm. pose proof (St (ZLeave q)) as E. cbn in E. pose proof (I1 q).
      destruct (Nat.ltb_spec q n); [|lia]. destruct (Nat.ltb_spec (out q) (en q)); [|lia]. cbn in E.
      replace (forallb (fun x => Nat.leb (en q) (en x)) (seq 0 n)) with true in E; [discriminate|].
      symmetry. apply forallb_forall. intros x Hx. apply in_seq in Hx. apply Nat.leb_le, Hm. lia. }
    pose proof (Lv r Hr Mn) as Eo.
    assert (Mx : en r = n).
    { pose proof (St (ZEnter r)) as E1. pose proof (St (ZCall r)) as E2. pose proof (St (ZReturn r)) as E3.
      cbn in E1, E2, E3. rewrite Eo, Nat.eqb_refl in E1, E2.
      destruct (Nat.ltb_spec r n); [|lia]. cbn in *. pose proof (I2 r Hr).
      destruct (ph r) eqn:Ep.
      - pose proof (I3 r Hr Ep). destruct (Nat.ltb_spec (en r) r); [discriminate|].
        destruct (Nat.eqb_spec (en r) r); [discriminate|lia].
      - discriminate.
      - destruct (Nat.ltb_spec (en r) n); [discriminate|lia]. }
    assert (All : forall q, q < n -> en q = n).
    { intros q Hq. pose proof (Mn q Hq). pose proof (I2 q Hq). lia. }
    pose proof (Lv r0 Hr0) as O0. rewrite O0; [|intros x Hx; rewrite !All by assumption; lia].
    split; [|auto]. destruct (ph r0) eqn:Ep; [|destruct (I4 r0 Hr0 Ep)|reflexivity].
    - pose proof (I3 r0 Hr0 Ep). rewrite All in * by assumption. lia.
    - rewrite All in * by assumption. lia. }
  split; [exact Fin|].
  assert (a = n /\ b = false) as [-> ->].
  { destruct (Nat.eq_dec a n) as [->|Ne].
    - split; [reflexivity|]. destruct b; [specialize (Lb eq_refl); lia|reflexivity].
    - exfalso. assert (Ha : a < n) by lia. destruct (Fin a Ha) as [P _]. rewrite (Lp a Ha) in P.
      destruct (Nat.ltb_spec a a); [lia|]. destruct (Nat.eqb a a && b); discriminate. }
  rewrite Ll. cbn. apply rev_involutive.
Qed.

Lemma nsum_mul_le f l c : (forall x, In x l -> f x <= c) -> nsum f l <= c * length l.
Proof. intros H. rewrite <- nsum_const. now apply nsum_le. Qed.

Theorem serialize_bound n ls s : run (zstep n) zst0 ls = Some s -> length ls <= n * (2 * n + 2).
Proof.
  intros R.
  pose (mu := fun s : zst => nsum (fun r => z_in s r + z_out s r + zphn (z_ph s r)) (seq 0 n)).
  assert (H : length ls <= n * (2 * n + 2) - mu zst0); [|lia].
  eapply (run_bound (zstep n) (zinv n) mu); [| |apply zinv0|exact R].
  - intros s1 l s2 I E. split; [eapply zinv_step; eauto|].
    destruct s1 as [ph en out log]. unfold mu.
    destruct l as [r|r|r|r]; cbn in E;
    match type of E with (if ?c then _ else _) = _ => destruct c eqn:C; [|discriminate] end;
    injection E as <-; apply andb_prop in C; destruct C as [C1 C2]; bsplit; cbn;
    (apply (nsum_lt _ _ _ r); [apply in_seq; lia| |]); rewrite ?inc_same, ?upd_eq, ?Nat.eqb_refl.
    + lia.
    + intros y _. pose proof (inc_ge en r y). lia.
    + lia.
    + intros y _. pose proof (inc_ge out r y). lia.
    + destruct (ph r); cbn; try discriminate; lia.
    + intros y _. rewrite upd_eq. destruct (Nat.eqb_spec y r) as [->|]; [|lia].
      destruct (ph r); cbn; try discriminate; lia.
    + destruct (ph r); cbn; try discriminate; lia.
    + intros y _. rewrite upd_eq. destruct (Nat.eqb_spec y r) as [->|]; [|lia].
      destruct (ph r); cbn; try discriminate; lia.
  - intros s1 I. unfold mu. rewrite Nat.mul_comm. rewrite <- (seq_length n 0) at 3. apply nsum_mul_le.
    intros x Hx. apply in_seq in Hx. pose proof (zi_n n s1 I x ltac:(lia)). pose proof (zi_use n s1 I x).
    destruct (z_ph s1 x); cbn; lia.
Qed.

(** * Broadcasts *)

Section Any.
Context {A : Type} (n : nat) (src : nat -> bool) (o : nat).
Context (Ho : o < n) (Hsrc : forall r, r < n -> (src r = true <-> r = o)).

Lemma src_o : src o = true.
Proof. now apply Hsrc. Qed.
Lemma src_ne r : r < n -> r <> o -> src r = false.
Proof. intros Hr Ne. destruct (src r) eqn:E; [|reflexivity]. apply Hsrc in E; congruence. Qed.

Section Val.
Context (val0 : nat -> A).

Record binv (s : bst A) : Prop := {
  bi_todo : forall r, r < n -> b_todo s r = bcalls r (src r) \/ b_todo s r = [BBcast] \/ b_todo s r = [];
  bi_end : forall r, r < n -> b_todo s r = [] -> b_val s r = val0 o;
  bi_src : b_val s o = val0 o;
  bi_root : b_todo s 0 = [BBcast] -> b_val s 0 = val0 o;
  bi_bc : match b_bc s with Some x => x = val0 o /\ b_todo s 0 = [] | None => b_todo s 0 <> [] end;
  bi_ch : (b_todo s 0 = [BRecv; BBcast] /\ b_todo s o = [BSend; BBcast] /\ b_chan s = []) \/
          (b_todo s 0 = [BRecv; BBcast] /\ b_todo s o <> [BSend; BBcast] /\ b_chan s = [val0 o]) \/
          (b_todo s 0 <> [BRecv; BBcast] /\ b_todo s o <> [BSend; BBcast] /\ b_chan s = []) }.

Lemma binv0 : binv (bst0 val0 src).
Proof.
  pose proof src_o as So. assert (H0 : 0 < n) by lia.
  split; cbn; auto.
  - intros r _ H. unfold bcalls in H. destruct (Nat.eqb r 0), (src r); discriminate.
  - unfold bcalls. cbn. destruct (src 0) eqn:E; [|discriminate]. apply Hsrc in E; [subst; auto|exact H0].
  - unfold bcalls. destruct (Nat.eqb 0 0), (src 0); discriminate.
  - unfold bcalls. rewrite So. destruct (Nat.eqb_spec o 0) as [->|Ne]; cbn.
    + rewrite So. right. right. repeat split; discriminate.
    + rewrite (src_ne 0 H0) by auto. left. auto.
Qed.

Lemma bcalls_cases r t : r < n -> t = bcalls r (src r) \/ t = [BBcast] \/ t = [] ->
  (t = [] \/ t = [BBcast] \/ (t = [BRecv; BBcast] /\ r = 0 /\ r <> o) \/
   (t = [BSend; BBcast] /\ r <> 0 /\ r = o)).
Proof.
  intros Hr [->|[->| ->]]; auto. unfold bcalls.
  destruct (Nat.eqb_spec r 0) as [->|Ne], (src _) eqn:E; cbn; auto.
  - right. right. left. repeat split. intros C. pose proof src_o as So. rewrite <- C, E in So. discriminate.
  - right. right. right. repeat split; auto. now apply Hsrc in E.
Qed.

Lemma binv_step s r s' : binv s -> bstep n s r = Some s' -> binv s'.
Proof.
  intros [J1 J2 J3 J4 J5 J6] E. destruct s as [val todo ch bc]. cbn in *.
  destruct (Nat.ltb_spec r n) as [Hr|]; [|discriminate].
  assert (H0 : 0 < n) by lia.
  destruct (bcalls_cases r _ Hr (J1 r Hr)) as [Et|[Et|[(Et & -> & Nr)|(Et & Nr & ->)]]]; rewrite Et in E.
  - discriminate.
  - (* broadcast *)
    destruct (Nat.eqb_spec r 0) as [->|Nz].
    + injection E as <-. specialize (J4 Et).
      assert (No : todo o <> [BSend; BBcast] /\ ch = []).
      { destruct J6 as [(C & _)|[(C & _)|(_ & C & D)]]; [congruence|congruence|auto]. }
      destruct No as [No ->].
      split; cbn; auto.
      * intros q Hq. rewrite upd_eq. destruct (Nat.eqb_spec q 0); auto.
      * intros q Hq. rewrite upd_eq. destruct (Nat.eqb_spec q 0) as [->|]; auto.
      * right. right. rewrite !upd_eq. rewrite Nat.eqb_refl. split; [discriminate|]. split; [|reflexivity].
        destruct (Nat.eqb o 0); [discriminate|exact No].
    + destruct bc as [m|]; [|discriminate]. injection E as <-. destruct J5 as [-> J5].
      split; cbn; auto.
      * intros q Hq. rewrite upd_eq. destruct (Nat.eqb_spec q r); auto.
      * intros q Hq. rewrite !upd_eq. destruct (Nat.eqb_spec q r) as [->|]; auto.
      * rewrite upd_eq. destruct (Nat.eqb o r); auto.
      * rewrite !upd_eq. destruct (Nat.eqb_spec 0 r); [congruence|exact J4].
      * rewrite upd_eq. destruct (Nat.eqb_spec 0 r); [congruence|auto].
      * rewrite !upd_eq. destruct (Nat.eqb_spec 0 r); [congruence|].
        destruct (Nat.eqb_spec o r) as [<-|]; [|exact J6].
        destruct J6 as [(_ & C & _)|[(C & _ & D)|(C & _ & D)]]; [congruence| |].
        -- right. left. repeat split; auto. discriminate.
        -- right. right. repeat split; auto. discriminate.
  - (* receive *)
    destruct ch as [|m ch]; [discriminate|]. injection E as <-.
    assert (Em : m = val0 o /\ ch = [] /\ todo o <> [BSend; BBcast]).
    { destruct J6 as [(_ & _ & C)|[(_ & B & C)|(_ & _ & C)]]; try discriminate.
      injection C as -> ->. auto. }
    destruct Em as (-> & -> & No).
    split; cbn; auto.
    + intros q Hq. rewrite upd_eq. destruct (Nat.eqb_spec q 0); auto.
    + intros q Hq. rewrite !upd_eq. destruct (Nat.eqb_spec q 0) as [->|]; [discriminate|auto].
    + rewrite upd_eq. destruct (Nat.eqb_spec o 0); auto.
    + destruct bc; [|discriminate]. destruct J5 as [_ J5]. congruence.
    + right. right. rewrite !upd_eq, Nat.eqb_refl. split; [discriminate|]. split; [|reflexivity].
      destruct (Nat.eqb_spec o 0); [discriminate|exact No].
  - (* send *)
    injection E as <-.
    assert (Em : todo 0 = [BRecv; BBcast] /\ ch = []).
    { destruct J6 as [(B & _ & C)|[(_ & B & C)|(_ & B & C)]]; try congruence. auto. }
    destruct Em as (E0 & ->).
    split; cbn; auto.
    + intros q Hq. rewrite upd_eq. destruct (Nat.eqb_spec q o); auto.
    + intros q Hq. rewrite !upd_eq. destruct (Nat.eqb_spec q o) as [->|]; [discriminate|auto].
    + rewrite upd_eq. destruct (Nat.eqb_spec 0 o); [congruence|exact J4].
    + rewrite upd_eq. destruct (Nat.eqb_spec 0 o); [congruence|exact J5].
    + right. left. rewrite !upd_eq, Nat.eqb_refl. destruct (Nat.eqb_spec 0 o); [congruence|].
      repeat split; auto; try discriminate. now rewrite J3.
Qed.

Theorem broadcast_any ls s : run (bstep n) (bst0 val0 src) ls = Some s ->
  length ls <= 2 * n /\
  (forall r, r < n -> b_todo s r = [] -> b_val s r = val0 o) /\
  (stuck (bstep n) s -> forall r, r < n -> b_todo s r = []).
Proof.
  intros R.
  pose proof (run_inv (bstep n) binv (fun s l s' => binv_step s l s') ls _ s binv0 R) as I.
  split; [|split].
  - pose (mu := fun s : bst A => 2 * n - nsum (fun r => length (b_todo s r)) (seq 0 n)).
    assert (H : length ls <= 2 * n - mu (bst0 val0 src)); [|lia].
    eapply (run_bound (bstep n) binv mu); [| |apply binv0|exact R].
    + intros s1 r s2 I1 E. split; [eapply binv_step; eauto|].
      assert (Le : nsum (fun r => length (b_todo s1 r)) (seq 0 n) <= 2 * n).
      { rewrite <- (seq_length n 0) at 2. apply nsum_mul_le. intros x Hx. apply in_seq in Hx.
        assert (Hx' : x < n) by lia.
        destruct (bcalls_cases x _ Hx' (bi_todo s1 I1 x Hx')) as [->|[->|[(-> & _)|(-> & _)]]]; cbn; lia. }
      assert (Lt : nsum (fun r => length (b_todo s2 r)) (seq 0 n) < nsum (fun r => length (b_todo s1 r)) (seq 0 n)).
      { clear -E. destruct s1 as [val todo ch bc]. cbn in E.
        destruct (Nat.ltb_spec r n) as [Hr|]; [|discriminate].
        assert (X : exists t c, todo r = c :: t /\ b_todo s2 = upd todo r t).
        { destruct (todo r) as [|[] t] eqn:Et; [discriminate| | |].
          - injection E as <-. eauto.
          - destruct ch; [discriminate|]. injection E as <-. eauto.
          - destruct (Nat.eqb r 0); [injection E as <-; eauto|].
            destruct bc; [|discriminate]. injection E as <-. eauto. }
        destruct X as (t & c & Et & ->). cbn.
        apply (nsum_lt _ _ _ r); [apply in_seq; lia| |].
        - rewrite upd_eq, Nat.eqb_refl, Et. cbn. lia.
        - intros y _. rewrite upd_eq. destruct (Nat.eqb_spec y r) as [->|]; [rewrite Et; cbn; lia|lia]. }
      unfold mu. lia.
    + intros s1 _. unfold mu. lia.
  - apply (bi_end s I).
  - intros St. destruct I as [J1 J2 J3 J4 J5 J6]. destruct s as [val todo ch bc]. cbn in *.
    assert (H0 : 0 < n) by lia.
    assert (E0 : todo 0 = []).
    { pose proof (St 0) as S0. cbn in S0. destruct (Nat.ltb_spec 0 n); [|lia].
      destruct (bcalls_cases 0 _ H0 (J1 0 H0)) as [Et|[Et|[(Et & _ & Nr)|(Et & Nr & _)]]]; rewrite Et in *.
      - reflexivity.
      - cbn in S0. discriminate.
      - destruct J6 as [(_ & B & C)|[(_ & _ & C)|(B & _)]]; [|subst; discriminate|congruence].
        exfalso. pose proof (St o) as S1. cbn in S1. destruct (Nat.ltb_spec o n); [|lia].
        rewrite B in S1. discriminate.
      - congruence. }
    intros r Hr. pose proof (St r) as S1. cbn in S1. destruct (Nat.ltb_spec r n); [|lia].
    destruct (bcalls_cases r _ Hr (J1 r Hr)) as [Et|[Et|[(Et & -> & Nr)|(Et & Nr & _)]]]; rewrite Et in *.
    + reflexivity.
    + destruct bc as [m|]; [|congruence]. destruct (Nat.eqb r 0); discriminate.
    + discriminate.
    + discriminate.
Qed.

End Val.

(** ** Strings *)
Context (str0 : nat -> list A).
Notation v := (str0 o).
Notation parts := [MLen (length (str0 o)); MChars (str0 o)].

Definition tform (r : nat) (t : list scall) : Prop :=
  t = [] \/ t = [CBcastChars] \/ t = [CBcastLen; CBcastChars] \/
  (r = 0 /\ r <> o /\ (t = [CRecvLen; CRecvChars; CBcastLen; CBcastChars] \/
                      t = [CRecvChars; CBcastLen; CBcastChars])) \/
  (r <> 0 /\ r = o /\ (t = [CSendLen; CSendChars; CBcastLen; CBcastChars] \/
                      t = [CSendChars; CBcastLen; CBcastChars])).

(** How many of the two parts the source has sent and rank 0 has received. *)
Definition parts_done (t : list scall) : nat := Nat.min 2 (4 - length t).

Local Arguments parts_done : simpl never.

Record tinv (s : tst A) : Prop := {
  ti_form : forall r, r < n -> tform r (t_todo s r);
  ti_end : forall r, r < n -> t_todo s r = [] -> t_str s r = v;
  ti_src : t_str s o = v;
  ti_root : length (t_todo s 0) <= 2 -> t_str s 0 = v;
  ti_len : forall r, r < n -> t_todo s r = [CBcastChars] -> t_len s r = length v;
  ti_len0 : t_todo s 0 = [CRecvChars; CBcastLen; CBcastChars] -> t_len s 0 = length v;
  ti_nb : forall r, r < n -> t_nb s r = 2 - length (t_todo s r);
  ti_bc : t_bc s = firstn (2 - length (t_todo s 0)) parts;
  ti_ch : if Nat.eqb o 0 then t_chan s = []
          else parts_done (t_todo s 0) <= parts_done (t_todo s o) /\
               t_chan s = skipn (parts_done (t_todo s 0)) (firstn (parts_done (t_todo s o)) parts) }.

Lemma scalls_form r : r < n -> tform r (scalls r (src r)).
Proof.
  intros Hr. unfold scalls, tform.
  destruct (Nat.eqb_spec r 0) as [Ez|Ne], (src r) eqn:E; cbn; auto.
  - right. right. right. left. split; [exact Ez|]. split; [|auto].
    intros C. pose proof src_o as So. rewrite <- C, E in So. discriminate.
  - right. right. right. right. apply Hsrc in E; auto.
Qed.

Lemma tinv0 : tinv (tst0 str0 src).
Proof.
  pose proof src_o as So. assert (H0 : 0 < n) by lia.
  assert (L0 : forall r, 2 <= length (scalls r (src r))).
  { intros r. unfold scalls. destruct (Nat.eqb r 0), (src r); cbn; lia. }
  split; cbn; auto.
  - intros r Hr. now apply scalls_form.
  - intros r _ H. specialize (L0 r). rewrite H in L0. cbn in L0. lia.
  - intros H. unfold scalls in H. rewrite Nat.eqb_refl in H. destruct (src 0) eqn:E; cbn in H; [|lia].
    apply Hsrc in E; [subst; auto|exact H0].
  - intros r _ H. specialize (L0 r). rewrite H in L0. cbn in L0. lia.
  - intros H. unfold scalls in H. destruct (Nat.eqb 0 0), (src 0); discriminate.
  - intros r _. pose proof (L0 r) as Lr. unfold zero. lia.
  - pose proof (L0 0) as Lr. replace (2 - length (scalls 0 (src 0))) with 0 by lia. reflexivity.
  - destruct (Nat.eqb_spec o 0) as [|Ne]; [reflexivity|].
    unfold scalls. rewrite So, (src_ne 0 H0) by auto. destruct (Nat.eqb_spec o 0); [congruence|]. cbn. auto.
Qed.

Lemma tinv_step s r s' : tinv s -> tstep n s r = Some s' -> tinv s'.
Proof.
  intros [J1 J2 J3 J4 J5 J6 J7 J8 J9] E. destruct s as [str len todo ch bc nb]. cbn in *.
  destruct (Nat.ltb_spec r n) as [Hr|]; [|discriminate].
  assert (H0 : 0 < n) by lia.
  assert (Nb : forall x, upd nb r (S (nb r)) x = inc nb r x) by reflexivity.
  destruct (J1 r Hr) as [Et|[Et|[Et|[(Ez & Nr & [Et|Et])|(Nr & Ez & [Et|Et])]]]]; rewrite Et in E.
  - discriminate.
  - (* last broadcast *)
    pose proof (J5 r Hr Et) as Lr. pose proof (J7 r Hr) as Nr. rewrite Et in Nr. cbn in Nr.
    destruct (Nat.eqb_spec r 0) as [Ez|Nz].
    + subst r. injection E as <-.
      assert (J4' : str 0 = v) by (apply J4; rewrite Et; cbn; lia).
      clear J4. rename J4' into J4. rewrite Et in *. cbn in *.
      split; cbn; auto.
      * intros q Hq. rewrite upd_eq. destruct (Nat.eqb_spec q 0); [now left|auto].
      * intros q Hq. rewrite upd_eq. destruct (Nat.eqb_spec q 0) as [->|]; auto.
      * intros q Hq. rewrite upd_eq. destruct (Nat.eqb_spec q 0); [discriminate|auto].
      * intros q Hq. specialize (J7 q Hq). rewrite upd_eq; unfold inc, upd.
        match goal with |- context [Nat.eqb q ?x] => destruct (Nat.eqb_spec q x) as [eq1|] end;
        [subst q; rewrite Nr; reflexivity|exact J7].
      * rewrite J8, upd_eq, Nat.eqb_refl, J4. reflexivity.
      * destruct (Nat.eqb_spec o 0) as [|No]; [exact J9|].
        rewrite !upd_eq, Nat.eqb_refl. destruct (Nat.eqb_spec o 0); [congruence|]. exact J9.
    + destruct (nth_error bc (nb r)) as [[k|l]|] eqn:En; try discriminate.
      destruct (Nat.eqb_spec (length l) (len r)); [|discriminate]. injection E as <-.
      assert (El : l = v).
      { rewrite J8, Nr in En. destruct (2 - length (todo 0)) as [|[|m]]; cbn in En; try discriminate.
        destruct m; cbn in En; now injection En as <-. }
      split; cbn; auto.
      * intros q Hq. rewrite upd_eq. destruct (Nat.eqb_spec q r); [now left|auto].
      * intros q Hq. rewrite !upd_eq. destruct (Nat.eqb_spec q r); auto.
      * rewrite upd_eq. destruct (Nat.eqb o r); auto.
      * rewrite !upd_eq. destruct (Nat.eqb_spec 0 r); [congruence|exact J4].
      * intros q Hq. rewrite upd_eq. destruct (Nat.eqb_spec q r); [discriminate|auto].
      * rewrite upd_eq. destruct (Nat.eqb_spec 0 r); [congruence|exact J6].
      * intros q Hq. specialize (J7 q Hq). rewrite upd_eq; unfold inc, upd.
        match goal with |- context [Nat.eqb q ?x] => destruct (Nat.eqb_spec q x) as [eq1|] end;
        [subst q; rewrite Nr; reflexivity|exact J7].
      * rewrite upd_eq. destruct (Nat.eqb_spec 0 r); [congruence|exact J8].
      * rewrite !upd_eq. destruct (Nat.eqb_spec 0 r); [congruence|].
        destruct (Nat.eqb_spec o 0) as [|No]; [exact J9|].
        destruct (Nat.eqb_spec o r) as [Eo|]; [|exact J9]. assert (Eto : todo o = todo r) by congruence. rewrite Eto, Et in J9. exact J9.
  - (* broadcast of the length *)
    pose proof (J7 r Hr) as Nr. rewrite Et in Nr. cbn in Nr.
    destruct (Nat.eqb_spec r 0) as [Ez|Nz].
    + subst r. injection E as <-.
      assert (J4' : str 0 = v) by (apply J4; rewrite Et; cbn; lia).
      clear J4. rename J4' into J4. rewrite Et in *. cbn in *.
      split; cbn; auto.
      * intros q Hq. rewrite upd_eq. destruct (Nat.eqb_spec q 0); [right; now left|auto].
      * intros q Hq. rewrite upd_eq. destruct (Nat.eqb_spec q 0); [discriminate|auto].
      * intros q Hq. rewrite !upd_eq. destruct (Nat.eqb_spec q 0); [now rewrite J4|auto].
      * rewrite upd_eq, Nat.eqb_refl. discriminate.
      * intros q Hq. specialize (J7 q Hq). rewrite upd_eq; unfold inc, upd.
        match goal with |- context [Nat.eqb q ?x] => destruct (Nat.eqb_spec q x) as [eq1|] end;
        [subst q; rewrite Nr; reflexivity|exact J7].
      * rewrite J8, upd_eq, Nat.eqb_refl, J4. reflexivity.
      * destruct (Nat.eqb_spec o 0) as [|No]; [exact J9|].
        rewrite !upd_eq, Nat.eqb_refl. destruct (Nat.eqb_spec o 0); [congruence|]. exact J9.
    + destruct (nth_error bc (nb r)) as [[k|l]|] eqn:En; try discriminate.
      injection E as <-.
      assert (El : k = length v).
      { rewrite J8, Nr in En. destruct (2 - length (todo 0)) as [|m]; cbn in En; try discriminate.
        now injection En as <-. }
      split; cbn; auto.
      * intros q Hq. rewrite upd_eq. destruct (Nat.eqb_spec q r); [right; now left|auto].
      * intros q Hq. rewrite !upd_eq. destruct (Nat.eqb_spec q r); [discriminate|auto].
      * rewrite !upd_eq. destruct (Nat.eqb_spec 0 r); [congruence|exact J4].
      * intros q Hq. rewrite !upd_eq. destruct (Nat.eqb_spec q r); auto.
      * rewrite !upd_eq. destruct (Nat.eqb_spec 0 r); [congruence|exact J6].
      * intros q Hq. specialize (J7 q Hq). rewrite upd_eq; unfold inc, upd.
        match goal with |- context [Nat.eqb q ?x] => destruct (Nat.eqb_spec q x) as [eq1|] end;
        [subst q; rewrite Nr; reflexivity|exact J7].
      * rewrite upd_eq. destruct (Nat.eqb_spec 0 r); [congruence|exact J8].
      * rewrite !upd_eq. destruct (Nat.eqb_spec 0 r); [congruence|].
        destruct (Nat.eqb_spec o 0) as [|No]; [exact J9|].
        destruct (Nat.eqb_spec o r) as [Eo|]; [|exact J9]. assert (Eto : todo o = todo r) by congruence. rewrite Eto, Et in J9. exact J9.
  - (* rank 0 receives the length *)
    subst r. destruct (Nat.eqb_spec o 0) as [|No]; [congruence|]. rewrite Et in *. cbn in *.
    destruct J9 as [_ J9].
    destruct ch as [|[k|l] ch]; try discriminate. injection E as <-.
    assert (El : k = length v /\ ch = skipn 1 (firstn (parts_done (todo o)) parts) /\ 1 <= parts_done (todo o)).
    { destruct (parts_done (todo o)) as [|[|m]] eqn:Ep; cbn in J9; try discriminate; injection J9 as -> ->; auto with arith. }
    destruct El as (-> & Ech & Lp).
    split; cbn; auto.
    + intros q Hq. rewrite upd_eq. destruct (Nat.eqb_spec q 0); [subst; right; right; right; left; auto|auto].
    + intros q Hq. rewrite upd_eq. destruct (Nat.eqb_spec q 0); [discriminate|auto].
    + rewrite upd_eq, Nat.eqb_refl. cbn. lia.
    + intros q Hq. rewrite !upd_eq. destruct (Nat.eqb_spec q 0); [discriminate|auto].
    + intros q Hq. specialize (J7 q Hq). rewrite upd_eq.
      match goal with |- context [Nat.eqb q ?x] => destruct (Nat.eqb_spec q x) as [eq1|] end;
      [rewrite eq1, Et in J7; rewrite eq1; exact J7|exact J7].
    + destruct (Nat.eqb_spec o 0); [congruence|]. rewrite !upd_eq, Nat.eqb_refl.
      destruct (Nat.eqb_spec o 0); [congruence|]. cbn [parts_done length]. split; [exact Lp|exact Ech].
  - (* rank 0 receives the characters *)
    subst r. destruct (Nat.eqb_spec o 0) as [|No]; [congruence|]. rewrite Et in *. cbn in *.
    destruct J9 as [L9 J9].
    destruct ch as [|[k|l] ch]; try discriminate.
    destruct (Nat.eqb_spec (length l) (len 0)); [|discriminate]. injection E as <-.
    assert (El : l = v /\ ch = [] /\ 2 <= parts_done (todo o)).
    { assert (parts_done (todo o) <= 2) by (unfold parts_done; lia).
      destruct (parts_done (todo o)) as [|[|[|m]]] eqn:Ep; cbn in J9; try discriminate; try lia.
      injection J9 as -> ->. auto. }
    destruct El as (-> & -> & Lp).
    split; cbn; auto.
    + intros q Hq. rewrite upd_eq. destruct (Nat.eqb_spec q 0); [subst; right; right; left; auto|auto].
    + intros q Hq. rewrite !upd_eq. destruct (Nat.eqb_spec q 0); [discriminate|auto].
    + rewrite upd_eq. destruct (Nat.eqb_spec o 0); auto.
    + intros q Hq. rewrite !upd_eq. destruct (Nat.eqb_spec q 0); [discriminate|auto].
    + intros q Hq. specialize (J7 q Hq). rewrite upd_eq.
      match goal with |- context [Nat.eqb q ?x] => destruct (Nat.eqb_spec q x) as [eq1|] end;
      [rewrite eq1, Et in J7; rewrite eq1; exact J7|exact J7].
    + destruct (Nat.eqb_spec o 0); [congruence|]. rewrite !upd_eq, Nat.eqb_refl.
      destruct (Nat.eqb_spec o 0); [congruence|]. cbn [parts_done length].
      assert (parts_done (todo o) <= 2) by (unfold parts_done; lia).
      replace (parts_done (todo o)) with 2 by lia. auto.
  - (* the source sends the length *)
    subst r. injection E as <-. destruct (Nat.eqb_spec o 0) as [|No]; [congruence|]. rewrite Et in *. cbn in *.
    destruct J9 as [L9 J9]. change (parts_done [CSendLen; CSendChars; CBcastLen; CBcastChars]) with 0 in *.
    assert (P0 : parts_done (todo 0) = 0) by lia. rewrite P0 in J9. cbn in J9. subst ch.
    split; cbn; auto.
    + intros q Hq. rewrite upd_eq. destruct (Nat.eqb_spec q o); [subst; right; right; right; right; auto|auto].
    + intros q Hq. rewrite upd_eq. destruct (Nat.eqb_spec q o); [discriminate|auto].
    + rewrite upd_eq. destruct (Nat.eqb_spec 0 o); [congruence|exact J4].
    + intros q Hq. rewrite !upd_eq. destruct (Nat.eqb_spec q o); [discriminate|auto].
    + rewrite !upd_eq. destruct (Nat.eqb_spec 0 o); [congruence|exact J6].
    + intros q Hq. specialize (J7 q Hq). rewrite upd_eq.
      match goal with |- context [Nat.eqb q ?x] => destruct (Nat.eqb_spec q x) as [eq1|] end;
      [rewrite eq1, Et in J7; rewrite eq1; exact J7|exact J7].
    + rewrite upd_eq. destruct (Nat.eqb_spec 0 o); [congruence|exact J8].
    + destruct (Nat.eqb_spec o 0); [congruence|]. rewrite !upd_eq, Nat.eqb_refl.
      destruct (Nat.eqb_spec 0 o); [congruence|]. rewrite P0, J3.
      change (parts_done [CSendChars; CBcastLen; CBcastChars]) with 1. cbn. auto.
  - (* the source sends the characters *)
    subst r. injection E as <-. destruct (Nat.eqb_spec o 0) as [|No]; [congruence|]. rewrite Et in *. cbn in *.
    destruct J9 as [L9 J9]. change (parts_done [CSendChars; CBcastLen; CBcastChars]) with 1 in *.
    split; cbn; auto.
    + intros q Hq. rewrite upd_eq. destruct (Nat.eqb_spec q o); [subst; right; right; left; auto|auto].
    + intros q Hq. rewrite upd_eq. destruct (Nat.eqb_spec q o); [discriminate|auto].
    + rewrite upd_eq. destruct (Nat.eqb_spec 0 o); [congruence|exact J4].
    + intros q Hq. rewrite !upd_eq. destruct (Nat.eqb_spec q o); [discriminate|auto].
    + rewrite !upd_eq. destruct (Nat.eqb_spec 0 o); [congruence|exact J6].
    + intros q Hq. specialize (J7 q Hq). rewrite upd_eq.
      match goal with |- context [Nat.eqb q ?x] => destruct (Nat.eqb_spec q x) as [eq1|] end;
      [rewrite eq1, Et in J7; rewrite eq1; exact J7|exact J7].
    + rewrite upd_eq. destruct (Nat.eqb_spec 0 o); [congruence|exact J8].
    + destruct (Nat.eqb_spec o 0); [congruence|]. rewrite !upd_eq, Nat.eqb_refl.
      destruct (Nat.eqb_spec 0 o); [congruence|].
      change (parts_done [CBcastLen; CBcastChars]) with 2. split; [lia|].
      rewrite J9, J3. destruct (parts_done (todo 0)) as [|[|m]]; [reflexivity|reflexivity|lia].
Qed.

Theorem broadcast_string ls s : run (tstep n) (tst0 str0 src) ls = Some s ->
  length ls <= 4 * n /\
  (forall r, r < n -> t_todo s r = [] -> t_str s r = v) /\
  (stuck (tstep n) s -> forall r, r < n -> t_todo s r = []).
Proof.
  intros R.
  pose proof (run_inv (tstep n) tinv (fun s l s' => tinv_step s l s') ls _ s tinv0 R) as I.
  split; [|split].
  - pose (mu := fun s : tst A => 4 * n - nsum (fun r => length (t_todo s r)) (seq 0 n)).
    assert (H : length ls <= 4 * n - mu (tst0 str0 src)); [|lia].
    eapply (run_bound (tstep n) tinv mu); [| |apply tinv0|exact R].
    + intros s1 r s2 I1 E. split; [eapply tinv_step; eauto|].
      assert (Le : nsum (fun r => length (t_todo s1 r)) (seq 0 n) <= 4 * n).
      { rewrite <- (seq_length n 0) at 2. apply nsum_mul_le. intros x Hx. apply in_seq in Hx.
        assert (Hx' : x < n) by lia.
        destruct (ti_form s1 I1 x Hx') as [->|[->|[->|[(_ & _ & [->| ->])|(_ & _ & [->| ->])]]]]; cbn; lia. }
      assert (Lt : nsum (fun r => length (t_todo s2 r)) (seq 0 n) < nsum (fun r => length (t_todo s1 r)) (seq 0 n)).
      { clear -E. destruct s1 as [str len todo ch bc nb]. cbn in E.
        destruct (Nat.ltb_spec r n) as [Hr|]; [|discriminate].
        assert (X : exists t c, todo r = c :: t /\ t_todo s2 = upd todo r t).
        { destruct (todo r) as [|[] t] eqn:Et; try discriminate;
          repeat match type of E with
          | Some _ = Some _ => injection E as <-
          | (match ?c with _ => _ end) = _ => destruct c; try discriminate
          end; eauto. }
        destruct X as (t & c & Et & ->). cbn.
        apply (nsum_lt _ _ _ r); [apply in_seq; lia| |].
        - rewrite upd_eq, Nat.eqb_refl, Et. cbn. lia.
        - intros y _. rewrite upd_eq. destruct (Nat.eqb_spec y r) as [->|]; [rewrite Et; cbn; lia|lia]. }
      unfold mu. lia.
    + intros s1 _. unfold mu. lia.
  - apply (ti_end s I).
  - intros St. destruct I as [J1 J2 J3 J4 J5 J6 J7 J8 J9]. destruct s as [str len todo ch bc nb]. cbn in *.
    assert (H0 : 0 < n) by lia.
    assert (E0 : todo 0 = []).
    { pose proof (St 0) as S0. cbn in S0. destruct (Nat.ltb_spec 0 n); [|lia].
      destruct (J1 0 H0) as [Et|[Et|[Et|[(_ & Nr & Et)|(C & _)]]]]; [exact Et| | | |congruence].
      - rewrite Et in S0. discriminate.
      - rewrite Et in S0. discriminate.
      - exfalso. destruct (Nat.eqb_spec o 0) as [|No]; [congruence|]. destruct J9 as [L9 J9].
        pose proof (St o) as S1. cbn in S1. destruct (Nat.ltb_spec o n); [|lia].
        assert (Po : parts_done (todo o) = 2).
        { destruct (J1 o Ho) as [Eo|[Eo|[Eo|[(_ & C & _)|(_ & _ & [Eo|Eo])]]]].
          - now rewrite Eo.
          - now rewrite Eo.
          - now rewrite Eo.
          - congruence.
          - rewrite Eo in S1. discriminate.
          - rewrite Eo in S1. discriminate. }
        rewrite Po in J9. destruct Et as [Et|Et]; rewrite Et in S0, J9.
        + change (parts_done [CRecvLen; CRecvChars; CBcastLen; CBcastChars]) with 0 in J9.
          cbn in J9. subst ch. discriminate.
        + change (parts_done [CRecvChars; CBcastLen; CBcastChars]) with 1 in J9.
          cbn in J9. subst ch. rewrite (J6 Et), Nat.eqb_refl in S0. discriminate. }
    rewrite E0 in J8. cbn in J8.
    intros r Hr. pose proof (St r) as S1. cbn in S1. destruct (Nat.ltb_spec r n); [|lia].
    pose proof (J7 r Hr) as Nb.
    destruct (J1 r Hr) as [Et|[Et|[Et|[(Ez & Nr & Et)|(Nz & Nr & Et)]]]]; [exact Et| | | |].
    + rewrite Et in S1, Nb. change (nb r = 1) in Nb. change (bc = parts) in J8.
      rewrite Nb, J8 in S1. cbn in S1. rewrite (J5 r Hr Et), Nat.eqb_refl in S1.
      destruct (Nat.eqb r 0); discriminate.
    + rewrite Et in S1, Nb. change (nb r = 0) in Nb. change (bc = parts) in J8.
      rewrite Nb, J8 in S1. cbn in S1. destruct (Nat.eqb r 0); discriminate.
    + subst r. destruct Et as [Et|Et]; congruence.
    + destruct Et as [Et|Et]; rewrite Et in S1; discriminate.
Qed.

End Any.
