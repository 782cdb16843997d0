(** Proofs about connected components. *)
From Coq Require Import List ZArith Bool Arith Lia Relations.
From Verif Require Import TupleModel RangeModel Base RangeProof CartModel CartProof DecompModel DecompProof IndexerModel ArrayModel ArrayProof.
From Verif Require Import ContModel ContSpec ContProof MapProof PairMap UFModel UFSpec UFProof HashModel HashProof.
From Verif Require Import NetModel NetSpec NetProof NetPhase NetTools LiftModel LiftProof NeighSpec NeighProof.
From Verif Require Import HaloModel HaloProof FieldModel FieldSpec FieldProof EdgeProof CompModel CompSpec UFTrack LabelProof.
Import ListNotations.
Local Open Scope Z_scope.

(** Points with labels, and unions of labels: a representative of the labels determines the classes. *)
Lemma quotient {A} (D : A -> Prop) (f : A -> Z) (R : A -> A -> Prop) ps :
  (forall a b, In (a, b) ps -> exists x y, D x /\ D y /\ a = f x /\ b = f y /\ R x y) ->
  (forall x y, D x -> D y -> f x = f y -> clos_refl_sym_trans _ R x y) ->
  (forall x y, R x y -> D x /\ D y /\ linked_by ps (f x) (f y)) ->
  forall x y, D x -> D y -> (linked_by ps (f x) (f y) <-> clos_refl_sym_trans _ R x y).
Proof.
  intros H1 H2 H3 x y Dx Dy. split.
  - intros C.
    assert (G : forall a b, linked_by ps a b -> a = b \/ exists x y, D x /\ D y /\ a = f x /\ b = f y /\ clos_refl_sym_trans _ R x y).
    { intros a b H. induction H as [a b H|a|a b _ IH|a b c0 _ IH1 _ IH2].
      - right. destruct (H1 a b H) as (p & q & Dp & Dq & -> & -> & Rpq). exists p, q. split; [exact Dp|]. split; [exact Dq|]. split; [reflexivity|]. split; [reflexivity|]. apply rst_step, Rpq.
      - auto.
      - destruct IH as [->|(p & q & Dp & Dq & -> & -> & Rpq)]; [auto|]. right. exists q, p. split; [exact Dq|]. split; [exact Dp|]. split; [reflexivity|]. split; [reflexivity|]. apply rst_sym, Rpq.
      - destruct IH1 as [->|(p & q & Dp & Dq & -> & -> & Rpq)]; [exact IH2|].
        destruct IH2 as [<-|(p' & q' & Dp' & Dq' & E1 & -> & Rpq')]; [right; exists p, q; auto|].
        right. exists p, q'. split; [exact Dp|]. split; [exact Dq'|]. split; [reflexivity|]. split; [reflexivity|].
        eapply rst_trans; [exact Rpq|]. eapply rst_trans; [|exact Rpq']. apply H2; auto. }
    destruct (G _ _ C) as [E|(p & q & Dp & Dq & E1 & E2 & Rpq)]; [apply H2; auto|].
    eapply rst_trans; [apply H2; [exact Dx|exact Dp|exact E1]|]. eapply rst_trans; [exact Rpq|]. apply H2; auto.
  - intros C. clear Dx Dy. induction C as [x y H|x|x y _ IH|x y z _ IH1 _ IH2].
    + apply H3, H.
    + apply rst_refl.
    + apply rst_sym, IH.
    + eapply rst_trans; eassumption.
Qed.

Lemma sym_closure {A} (R : A -> A -> Prop) : (forall x y, R x y -> R y x) ->
  forall x y, clos_refl_sym_trans _ R x y <-> clos_refl_trans _ R x y.
Proof.
  intros S x y. split; intros C; induction C as [x y H|x|x y _ IH|x y z _ IH1 _ IH2] || (induction C as [x y H|x|x y z _ IH1 _ IH2]).
  all: try (constructor; assumption); try apply rt_refl; try apply rst_refl.
  - clear -S IH. induction IH as [x y H|x|x y z _ IH1 _ IH2]; [apply rt_step, S, H|apply rt_refl|eapply rt_trans; eassumption].
  - eapply rt_trans; eassumption.
  - eapply rst_trans; eassumption.
Qed.

(** ** Lists of flags *)

Lemma array_max_spec l : l <> [] -> exists M, array_max l = Some M /\ forall x, In x l -> x <= M.
Proof.
  destruct l as [|x l]; [congruence|]. intros _. exists (fold_left Z.max l x). split; [reflexivity|].
  assert (G : forall l a, a <= fold_left Z.max l a /\ forall x, In x l -> x <= fold_left Z.max l a).
  { clear. induction l as [|y l IH]; intros a; cbn [fold_left]; [split; [lia|intros x []]|].
    destruct (IH (Z.max a y)) as [A B]. split; [lia|]. intros x [<-|H]; [lia|auto]. }
  destruct (G l x) as [A B]. intros y [<-|H]; auto.
Qed.

Lemma vread_map {A B} (g : A -> B) l i : vread (map g l) i = option_map g (vread l i).
Proof. unfold vread. destruct (i <? 0); [reflexivity|]. apply nth_error_map. Qed.

Lemma vread_in {A} (l : list A) i x : vread l i = Some x -> In x l.
Proof. unfold vread. destruct (i <? 0); [discriminate|]. apply nth_error_In. Qed.

(** One flag for each value of [P]. *)
Definition flags (k : nat) (P : Z -> Prop) (l : list Z) : Prop :=
  length l = k /\ forall i, 0 <= i < Z.of_nat k -> exists x, vread l i = Some x /\ (x = 0 \/ x = 1) /\ (x <> 0 <-> P i).

Lemma flags_repeat k : flags k (fun _ => False) (repeat 0 k).
Proof.
  split; [apply repeat_length|]. intros i Hi. exists 0. split; [|split; [auto|split; [congruence|intros []]]].
  unfold vread. destruct (Z.ltb_spec i 0); [lia|]. apply nth_error_repeat. lia.
Qed.

Lemma flags_ext k P Q l : (forall i, 0 <= i < Z.of_nat k -> (P i <-> Q i)) -> flags k P l -> flags k Q l.
Proof.
  intros H [A B]. split; [exact A|]. intros i Hi. destruct (B i Hi) as (x & R & X & Y). exists x. split; [exact R|]. split; [exact X|]. rewrite Y. apply H, Hi.
Qed.

Lemma flags_write k P l i : flags k P l -> 0 <= i < Z.of_nat k ->
  exists l', vwrite l i 1 = Some l' /\ flags k (fun j => j = i \/ P j) l'.
Proof.
  intros [A B] Hi. destruct (vwrite_spec l i 1 ltac:(lia)) as (l' & W & Le & R). exists l'. split; [exact W|]. split; [congruence|].
  intros j Hj. rewrite R by lia. destruct (Z.eqb_spec j i) as [->|Ne].
  - exists 1. split; [reflexivity|]. split; [auto|]. split; [auto|lia].
  - destruct (B j Hj) as (x & X1 & X2 & X3). exists x. split; [exact X1|]. split; [exact X2|]. rewrite X3. tauto.
Qed.

Lemma flags_zip k P Q l l' (g : Z * Z -> Z) : (forall a b, (a = 0 \/ a = 1) -> (b = 0 \/ b = 1) -> (g (a, b) = 0 \/ g (a, b) = 1) /\ (g (a, b) <> 0 <-> a <> 0 \/ b <> 0)) ->
  flags k P l -> flags k Q l' -> flags k (fun i => P i \/ Q i) (map g (combine l l')).
Proof.
  intros G [A B] [A' B']. split; [rewrite map_length, combine_length; lia|]. intros i Hi.
  destruct (B i Hi) as (x & X1 & X2 & X3). destruct (B' i Hi) as (y & Y1 & Y2 & Y3). exists (g (x, y)).
  destruct (G x y X2 Y2) as [G1 G2]. split; [|split; [exact G1|rewrite G2; tauto]].
  rewrite vread_map. replace (vread (combine l l') i) with (Some (x, y)); [reflexivity|].
  unfold vread in *. destruct (Z.ltb_spec i 0); [discriminate|]. clear -X1 Y1. revert l l' X1 Y1.
  induction (Z.to_nat i) as [|j IH]; intros [|a l] [|b l'] X Y; cbn in *; try discriminate; [congruence|]. apply IH; assumption.
Qed.

Lemma or_flags_ok k P Q l l' : flags k P l -> flags k Q l' -> flags k (fun i => P i \/ Q i) (or_flags l l').
Proof. apply flags_zip. intros a b [->| ->] [->| ->]; cbn; lia. Qed.

Lemma max_flags_ok k P Q l l' : flags k P l -> flags k Q l' -> flags k (fun i => P i \/ Q i) (max_flags l l').
Proof. apply flags_zip. intros a b [->| ->] [->| ->]; cbn; lia. Qed.

(** Reduction over the ranks. *)
Lemma flags_reduce k op (P : nat -> Z -> Prop) (f : nat -> list Z) n : (1 <= n)%nat ->
  (forall P Q l l', flags k P l -> flags k Q l' -> flags k (fun i => P i \/ Q i) (op l l')) ->
  (forall r, (r < n)%nat -> flags k (P r) (f r)) ->
  match map f (seq 0 n) with [] => False | x :: xs => flags k (fun i => exists r, (r < n)%nat /\ P r i) (fold_left op xs x) end.
Proof.
  intros Hn O H. destruct n as [|n]; [lia|]. cbn [seq map].
  assert (G : forall j a (Q : Z -> Prop) x, (a + j <= S n)%nat -> flags k Q x ->
    flags k (fun i => Q i \/ exists r, (a <= r < a + j)%nat /\ P r i) (fold_left op (map f (seq a j)) x)).
  { induction j as [|j IH]; intros a Q x Ha Hx; cbn [seq map fold_left].
    - apply (flags_ext k Q); [|exact Hx]. intros i _. split; [auto|]. intros [X|(r & Hr & _)]; [exact X|lia].
    - pose proof (IH (S a) (fun i => Q i \/ P a i) (op x (f a)) ltac:(lia) (O _ _ _ _ Hx (H a ltac:(lia)))) as Y.
      eapply flags_ext; [|exact Y]. intros i _. cbv beta. split.
      + intros [[X|X]|(r & Hr & X)]; [auto|right; exists a; split; [lia|exact X]|right; exists r; split; [lia|exact X]].
      + intros [X|(r & Hr & X)]; [auto|]. destruct (Nat.eq_dec r a) as [->|Ne]; [auto|]. right. exists r. split; [lia|exact X]. }
  eapply flags_ext; [|apply (G n 1%nat (P 0%nat) (f 0%nat)); [lia|apply H; lia]].
  intros i _. cbv beta. split.
  - intros [X|(r & Hr & X)]; [exists 0%nat; split; [lia|exact X]|exists r; split; [lia|exact X]].
  - intros (r & Hr & X). destruct r as [|r]; [auto|]. right. exists (S r). split; [lia|exact X].
Qed.

(** The numbers of the labels that exist. *)
Lemma contiguous_ok k P l : flags k P l ->
  let t := fst (contiguous l) in let num := snd (contiguous l) in
  exists g, (forall i, 0 <= i < Z.of_nat k -> P i -> vread t i = Some (Some (g i)) /\ 0 <= g i < num) /\
    (forall i j, 0 <= i < Z.of_nat k -> 0 <= j < Z.of_nat k -> P i -> P j -> g i = g j -> i = j) /\
    (forall x, 0 <= x < num -> exists i, 0 <= i < Z.of_nat k /\ P i /\ g i = x).
Proof.
  intros Fl t num.
  set (cnt := fun i => Z.of_nat (length (filter (fun x => negb (x =? 0)) (firstn (Z.to_nat i) l)))).
  assert (G : forall l0, fst (contiguous l0) = map (fun i => if nth i l0 0 =? 0 then None else Some (Z.of_nat (length (filter (fun x => negb (x =? 0)) (firstn i l0))))) (seq 0 (length l0)) /\
    snd (contiguous l0) = Z.of_nat (length (filter (fun x => negb (x =? 0)) l0))).
  { clear. induction l0 as [|x l0 IH] using rev_ind; [split; reflexivity|].
    unfold contiguous in *. rewrite fold_left_app. cbn [fold_left]. destruct IH as [I1 I2].
    destruct (fold_left _ l0 ([], 0)) as [a b]. cbn [fst snd] in *. rewrite app_length. cbn [length]. rewrite Nat.add_1_r, seq_S, map_app, filter_app, app_length. cbn [map Nat.add].
    rewrite app_nth2, Nat.sub_diag by lia. cbn [nth filter length].
    assert (Eq : map (fun i => if nth i (l0 ++ [x]) 0 =? 0 then None else Some (Z.of_nat (length (filter (fun x => negb (x =? 0)) (firstn i (l0 ++ [x])))))) (seq 0 (length l0)) = a).
    { rewrite I1. apply map_ext_in. intros i Hi. apply in_seq in Hi. rewrite app_nth1 by lia. rewrite firstn_app.
      replace (i - length l0)%nat with 0%nat by lia. cbn [firstn]. rewrite app_nil_r. reflexivity. }
    rewrite Eq. rewrite firstn_app, Nat.sub_diag, firstn_all. cbn [firstn]. rewrite app_nil_r. destruct (x =? 0); cbn [fst snd negb length]; (split; [congruence || (rewrite I2; reflexivity)|rewrite I2; lia]). }
  destruct (G l) as [G1 G2]. destruct Fl as [Le Fl].
  assert (Pn : forall i, 0 <= i < Z.of_nat k -> (P i <-> nth (Z.to_nat i) l 0 <> 0)).
  { intros i Hi. destruct (Fl i Hi) as (x & X1 & _ & X3). rewrite <- X3. unfold vread in X1. destruct (Z.ltb_spec i 0); [lia|].
    rewrite (nth_error_nth _ _ 0 X1). tauto. }
  assert (Mono : forall a b, (a < b)%nat -> (a < length l)%nat -> nth a l 0 <> 0 ->
    (length (filter (fun x => negb (x =? 0)%Z) (firstn a l)) < length (filter (fun x => negb (x =? 0)%Z) (firstn b l)))%nat).
  { clear. induction l as [|x l IH]; intros a b Hab Ha Hx; cbn [length] in Ha; [lia|]. destruct b as [|b]; [lia|]. destruct a as [|a].
    - cbn [firstn nth filter] in *. destruct (Z.eqb_spec x 0); [lia|]. cbn [negb length]. lia.
    - cbn [nth] in Hx. specialize (IH a b ltac:(lia) ltac:(lia) Hx). cbn [firstn filter]. destruct (negb (x =? 0)); cbn [length]; lia. }
  exists cnt. split; [|split].
  - intros i Hi Pi. apply (Pn i Hi) in Pi. split.
    + unfold t. rewrite G1. unfold vread. destruct (Z.ltb_spec i 0); [lia|]. rewrite nth_error_map.
      rewrite (nth_error_nth' _ 0%nat) by (rewrite seq_length; lia). rewrite seq_nth by lia. cbn [option_map Nat.add].
      destruct (Z.eqb_spec (nth (Z.to_nat i) l 0) 0); [contradiction|reflexivity].
    + unfold num. rewrite G2. unfold cnt. pose proof (Mono (Z.to_nat i) (length l) ltac:(lia) ltac:(lia) Pi) as M. rewrite firstn_all in M. lia.
  - intros i j Hi Hj Pi Pj Q. apply (Pn i Hi) in Pi. apply (Pn j Hj) in Pj. unfold cnt in Q.
    destruct (lt_eq_lt_dec (Z.to_nat i) (Z.to_nat j)) as [[X|X]|X]; [|lia|].
    + pose proof (Mono _ _ X ltac:(lia) Pi). lia.
    + pose proof (Mono _ _ X ltac:(lia) Pj). lia.
  - intros x Hx. unfold num in Hx. rewrite G2 in Hx.
    assert (S : forall (l : list Z) y, (y < length (filter (fun x => negb (x =? 0)%Z) l))%nat -> exists i, (i < length l)%nat /\ nth i l 0 <> 0 /\
      length (filter (fun x => negb (x =? 0)) (firstn i l)) = y).
    { clear. induction l as [|a l IH]; intros y Hy; cbn [filter length] in Hy; [lia|]. destruct (Z.eqb_spec a 0) as [->|Na]; cbn [negb length] in Hy.
      - destruct (IH y Hy) as (i & I1 & I2 & I3). exists (S i). cbn [length nth firstn filter Z.eqb negb]. split; [lia|]. auto.
      - destruct y as [|y].
        + exists 0%nat. cbn. split; [lia|]. auto.
        + destruct (IH y ltac:(lia)) as (i & I1 & I2 & I3). exists (S i). cbn [length nth firstn filter]. split; [lia|]. split; [exact I2|].
          destruct (Z.eqb_spec a 0); [contradiction|]. cbn [negb length]. lia. }
    destruct (S l (Z.to_nat x) ltac:(lia)) as (i & I1 & I2 & I3). exists (Z.of_nat i).
    split; [lia|]. split; [apply Pn; [lia|]; rewrite Nat2Z.id; exact I2|]. unfold cnt. rewrite Nat2Z.id. lia.
Qed.

Lemma prog_start {A B} n (prog : list (phase A B)) S S1 S' : (forall r, (r < n)%nat -> S r = S1 r) -> prog_ok n prog S1 S' -> prog_ok n prog S S'.
Proof. intros H G. apply (prog_ok_app n [] prog). exists S1. split; [exact H|exact G]. Qed.

Lemma ofoldl_all {A B} (f : B -> A -> option B) (Inv : list A -> B -> Prop) (Q : A -> Prop) :
  (forall done a s, Q a -> Inv done s -> exists s', f s a = Some s' /\ Inv (done ++ [a]) s') ->
  forall todo done s, (forall a, In a todo -> Q a) -> Inv done s -> exists s', ofoldl f todo s = Some s' /\ Inv (done ++ todo) s'.
Proof.
  intros ST. induction todo as [|a todo IH]; intros done s Hq Hi; cbn [ofoldl]; [exists s; rewrite app_nil_r; auto|].
  destruct (ST done a s (Hq a ltac:(left; reflexivity)) Hi) as (s1 & E & I1). rewrite E.
  destruct (IH (done ++ [a]) s1) as (s2 & E2 & I2); [intros b Hb; apply Hq; right; exact Hb|exact I1|]. exists s2. split; [exact E2|]. rewrite <- app_assoc in I2. exact I2.
Qed.

Section Comp.
Variables (c : cart) (n : nat) (L E : nat -> range) (N : nat -> list nat) (H : nat -> hmap).
Hypothesis P : partitioned c n L E N H.
Hypothesis Cov : covered c n L E N.

Lemma L_E r : (r < n)%nat -> pt_subset (L r) (E r).
Proof. intros Hr. pose proof P as (D & _ & X & _). apply (extended_sub c n L _ r D Hr (X r Hr)). Qed.

Lemma E_owner r p : (r < n)%nat -> pt_in (E r) p -> exists q, (q < n)%nat /\ pt_in (L q) (wrap c p) /\ (q = r \/ In q (N r)).
Proof.
  intros Hr Hp. pose proof P as (D & SO & _). pose proof D as (_ & _ & Hok & _).
  destruct (Cov r p Hr Hp) as (q & u & Hq & Hu & I & O). exists q. split; [exact Hq|]. split; [|exact O].
  rewrite (wrap_in c Hok SO p u I); [exact Hu|]. apply (L_sub c n L D q Hq u Hu).
Qed.

Lemma E_wrap r p : (r < n)%nat -> pt_in (E r) p -> pt_in (c_range c) (wrap c p).
Proof. intros Hr Hp. pose proof P as (D & _). destruct (E_owner r p Hr Hp) as (q & Hq & Hu & _). apply (L_sub c n L D q Hq _ Hu). Qed.

Lemma all_reads {V} (G : nat -> list V) g r : agrees c n L E N G g -> (r < n)%nat -> reads (E r) (G r) (fun p => g (wrap c p)).
Proof.
  intros [A B] Hr. split; [apply A, Hr|]. intros p Hp. pose proof P as (D & SO & _). pose proof D as (_ & _ & Hok & _).
  destruct (E_owner r p Hr Hp) as (q & Hq & Hu & O). apply (B r p q (wrap c p) Hr Hq Hp Hu (wrap_image c Hok p) O).
Qed.

Lemma L_wrap r p : (r < n)%nat -> pt_in (L r) p -> wrap c p = p.
Proof. intros Hr Hp. pose proof P as (D & SO & _). pose proof D as (_ & _ & Hok & _). apply (wrap_id c Hok SO), (L_sub c n L D r Hr p Hp). Qed.

Lemma adjacent_sym (mm : tup Z -> bool) u v : adjacent c mm u v -> adjacent c mm v u.
Proof. intros (A & B & C & Q). split; [exact B|]. split; [exact A|]. split; [apply near_sym, C|auto]. Qed.

Variables (F : nat -> list bool) (m : tup Z -> bool).
Hypothesis Hm : agrees c n L E N F m.
Let nd := c_nd c.

Lemma L_dim0 r p : (r < n)%nat -> pt_in (L r) p -> forall d, (nd <= d < 3)%nat -> tget p d = 0.
Proof.
  intros Hr Hp d Hd. pose proof (proj1 (pt_in_tget _ _) Hp d ltac:(lia)) as B.
  destruct (L_dims c n L E N H P r Hr d ltac:(lia)) as (_ & _ & _ & X). destruct (X ltac:(unfold nd in *; lia)). lia.
Qed.

Lemma L_apart_near r p q : (r < n)%nat -> pt_in (L r) p -> apart nd 1 p q -> near c p (wrap c q).
Proof.
  intros Hr Hp A. pose proof P as (D & _). pose proof D as (_ & _ & Hok & _). exists q. split; [apply is_image_sym, wrap_image, Hok|].
  intros d Hd. specialize (A d Hd). destruct (Nat.ltb d nd); lia.
Qed.

(** Phase one: components of each rank's points. *)
Definition num r := match local_components nd (L r) (E r) (F r) with Some (x, _) => x | None => 0 end.
Definition dat r := match local_components nd (L r) (E r) (F r) with Some (_, d) => d | None => [] end.
Definition lf r p := match fread (E r) (dat r) p with Some v => v | None => 0 end.

Lemma local_at r : (r < n)%nat -> local_components nd (L r) (E r) (F r) = Some (num r, dat r) /\ reads (E r) (dat r) (lf r) /\
  (forall p, pt_in (L r) p -> 0 <= lf r p < num r) /\
  (forall p q, pt_in (L r) p -> pt_in (L r) q -> (lf r p = lf r q <-> lconn nd (L r) m p q)).
Proof.
  intros Hr. destruct (local_components_ok nd (L r) (E r) (F r) m) as (x & d & f & Q & R & B & S).
  - apply L_E, Hr.
  - intros d Hd. destruct (L_dims c n L E N H P r Hr d ltac:(lia)) as (_ & _ & _ & X). apply X. unfold nd in *; lia.
  - intros p Hp. rewrite (reads_fread _ _ _ p (all_reads F m r Hm Hr) (L_E r Hr p Hp)), (L_wrap r p Hr Hp). reflexivity.
  - assert (Ef : forall p, pt_in (E r) p -> f p = lf r p).
    { intros p Hp. unfold lf, dat. rewrite Q. rewrite (reads_fread _ _ _ p R Hp). reflexivity. }
    unfold num, dat. rewrite Q. split; [reflexivity|]. split; [apply (reads_ext _ _ _ _ R Ef)|]. split.
    + intros p Hp. rewrite <- Ef by (apply L_E; auto). apply B, Hp.
    + intros p q Hp Hq. rewrite <- !Ef by (apply L_E; auto). apply S; auto.
Qed.

Definition before r := fold_left Z.add (map num (seq 0 r)) 0.
Lemma before_S r : before (S r) = before r + num r.
Proof. unfold before. rewrite seq_S, map_app, fold_left_app. reflexivity. Qed.

Lemma num_pos r : (r < n)%nat -> 0 < num r.
Proof.
  intros Hr. pose proof P as ((_ & _ & _ & _ & _ & _ & NE) & _). destruct (local_at r Hr) as (_ & _ & B & _).
  specialize (B _ (clamp_in (L r) (rb (L r)) (NE r Hr))). lia.
Qed.

Lemma before_mono r q : (r < q)%nat -> (q <= n)%nat -> before r + num r <= before q.
Proof.
  intros Hrq. induction Hrq as [|q Hrq IH]; intros Hq; rewrite before_S; [lia|]. pose proof (num_pos q ltac:(lia)). specialize (IH ltac:(lia)). lia.
Qed.
Lemma before_nonneg r : (r <= n)%nat -> 0 <= before r.
Proof. induction r as [|r IH]; intros Hr; [cbn; lia|]. rewrite before_S. pose proof (num_pos r ltac:(lia)). specialize (IH ltac:(lia)). lia. Qed.

(** The label of a point of the domain. *)
Definition lab u := lf (ownerf n L u) u + before (ownerf n L u).

Lemma lab_L r p : (r < n)%nat -> pt_in (L r) p -> lab p = lf r p + before r.
Proof. intros Hr Hp. pose proof P as (D & _). unfold lab. rewrite (ownerf_spec c n L D p r Hr Hp). reflexivity. Qed.

Lemma lab_nonneg u : pt_in (c_range c) u -> 0 <= lab u.
Proof.
  intros Hu. pose proof P as (D & _). destruct (L_owner c n L D u Hu) as (r & Hr & Hp). rewrite (lab_L r u Hr Hp).
  destruct (local_at r Hr) as (_ & _ & B & _). specialize (B u Hp). pose proof (before_nonneg r ltac:(lia)). lia.
Qed.

Lemma lconn_component r p q : (r < n)%nat -> lconn nd (L r) m p q -> clos_refl_sym_trans _ (adjacent c m) p q.
Proof.
  intros Hr. pose proof P as (D & _). induction 1 as [x y (Hx & Hy & A & M)|x|x y _ IH|x y z _ IH1 _ IH2].
  - apply rst_step. split; [apply (L_sub c n L D r Hr x Hx)|]. split; [apply (L_sub c n L D r Hr y Hy)|]. split; [|exact M].
    rewrite <- (L_wrap r y Hr Hy). apply (L_apart_near r); auto.
  - apply rst_refl.
  - apply rst_sym, IH.
  - eapply rst_trans; eassumption.
Qed.

Lemma lab_same u v : pt_in (c_range c) u -> pt_in (c_range c) v -> lab u = lab v -> clos_refl_sym_trans _ (adjacent c m) u v.
Proof.
  intros Hu Hv Q. pose proof P as (D & _). destruct (L_owner c n L D u Hu) as (r & Hr & Hp). destruct (L_owner c n L D v Hv) as (s & Hs & Hq).
  rewrite (lab_L r u Hr Hp), (lab_L s v Hs Hq) in Q.
  destruct (local_at r Hr) as (_ & _ & B & C). destruct (local_at s Hs) as (_ & _ & B' & _). specialize (B u Hp). specialize (B' v Hq).
  destruct (lt_eq_lt_dec r s) as [[X|X]|X].
  - pose proof (before_mono r s X ltac:(lia)). lia.
  - subst s. apply (lconn_component r); [exact Hr|]. apply C; auto. lia.
  - pose proof (before_mono s r X ltac:(lia)). lia.
Qed.

(** Phase two: labels different on all ranks. *)
Definition off r := ofoldl (offset_point (E r) (before r)) (RangeModel.foreach_col (L r)) (uf_empty, dat r).
Definition dat2 r := match off r with Some x => snd x | None => [] end.
Definition xs r := map lab (RangeModel.foreach_col (L r)).
Definition sets r := fold_left uf_insert (xs r) uf_empty.

Lemma off_ok r : (r < n)%nat -> off r = Some (sets r, dat2 r) /\ Z.of_nat (length (dat2 r)) = rcount (E r) /\
  forall p, pt_in (L r) p -> vread (dat2 r) (rindex ColMajor (E r) p) = Some (lab p).
Proof.
  intros Hr. destruct (local_at r Hr) as (_ & R & _).
  destruct (point_loop (E r) (offset_point (E r) (before r)) (fun done u => u = fold_left uf_insert (map lab done) uf_empty) (lf r) lab (RangeModel.foreach_col (L r)))
    with (todo := RangeModel.foreach_col (L r)) (done := @nil (tup Z)) (a := uf_empty) (lab := dat r) (g := lf r) as (a' & lab' & E5 & A5 & R5); auto.
  - intros done p a l g Hp -> Rg Gp. apply foreach_col_In in Hp. pose proof (L_E r Hr p Hp) as He. unfold offset_point. cbn [fst snd].
    rewrite (reads_fread _ _ _ p Rg He), Gp. rewrite <- (lab_L r p Hr Hp).
    destruct (reads_fwrite (E r) l g p (lab p) Rg He) as (l' & W & R'). rewrite W. eexists _, l'. split; [reflexivity|]. split; [|exact R'].
    rewrite map_app, fold_left_app. reflexivity.
  - apply foreach_col_NoDup.
  - cbn [app] in A5. unfold dat2, off, sets, xs. rewrite E5. cbn [snd]. rewrite <- A5. split; [reflexivity|]. destruct R5 as [R5 R6]. split; [exact R5|].
    intros p Hp. rewrite R6 by (apply L_E; auto). rewrite (proj2 (inb_spec _ _)) by (apply foreach_col_In, Hp). reflexivity.
Qed.

(** Phase three: unions across the boundaries of local ranges. *)
Section Unions.
Variable dat3 : nat -> list Z.
Hypothesis H3 : agrees c n L E N dat3 lab.
Definition uni r := ofoldl (union_point nd (L r) (E r) (F r) (dat3 r)) (RangeModel.foreach_col (L r)) [].
Definition us r := match uni r with Some x => x | None => [] end.

Definition border r (p q : tup Z) : Prop := pt_in (L r) p /\ pt_in (E r) q /\ ~ pt_in (L r) q /\ apart nd 1 p q /\ m p = m (wrap c q).
Definition uninv r (done : list (tup Z * tup Z)) (s : list (Z * Z)) : Prop :=
  sok pair_less s /\ (forall a b, In (a, b) s <-> exists p q, In (p, q) done /\ border r p q /\ a = lab p /\ b = lab (wrap c q)).

Lemma union_neighbor_ok r done s p q : (r < n)%nat -> pt_in (L r) p -> pt_in (E r) q -> apart nd 1 p q -> uninv r done s ->
  exists s', union_neighbor (L r) (E r) (F r) (dat3 r) (m p) (lab p) s q = Some s' /\ uninv r (done ++ [(p, q)]) s'.
Proof.
  intros Hr Hp Hq A [K1 K2]. unfold union_neighbor.
  assert (Skip : ~ border r p q -> uninv r (done ++ [(p, q)]) s).
  { intros Nb. split; [exact K1|]. intros a b. rewrite K2. split; intros (p' & q' & I & B & X & Y); exists p', q'; (split; [|split; [exact B|auto]]).
    - apply in_or_app. auto.
    - apply in_app_or in I. destruct I as [I|[I|[]]]; [exact I|]. injection I as <- <-. contradiction. }
  destruct (rcontains (L r) q) eqn:C.
  - exists s. split; [reflexivity|]. apply Skip. intros (_ & _ & X & _). apply X, rcontains_spec, C.
  - assert (Nq : ~ pt_in (L r) q) by (intros X; apply rcontains_spec in X; congruence).
    rewrite (reads_fread _ _ _ q (all_reads F m r Hm Hr) Hq). destruct (Bool.eqb (m (wrap c q)) (m p)) eqn:V.
    + apply eqb_prop in V. rewrite (reads_fread _ _ _ q (all_reads dat3 lab r H3 Hr) Hq). eexists. split; [reflexivity|].
      split; [apply (sok_insert pair_less pair_swo), K1|]. intros a b. rewrite (PairMap.In_set_insert pair_less pair_swo pEQ) by exact K1. rewrite K2. split.
      * intros [X|(p' & q' & I & B & X & Y)].
        -- injection X as -> ->. exists p, q. split; [apply in_or_app; right; left; reflexivity|]. split; [|auto]. split; [exact Hp|]. split; [exact Hq|]. split; [exact Nq|]. auto.
        -- exists p', q'. split; [apply in_or_app; auto|]. auto.
      * intros (p' & q' & I & B & X & Y). apply in_app_or in I. destruct I as [I|[I|[]]].
        -- right. exists p', q'. auto.
        -- injection I as <- <-. left. congruence.
    + exists s. split; [reflexivity|]. apply Skip. intros (_ & _ & _ & _ & X). rewrite <- X, eqb_reflx in V. discriminate.
Qed.

Lemma uni_ok r : (r < n)%nat -> uni r = Some (us r) /\
  forall a b, In (a, b) (us r) <-> exists p q, border r p q /\ a = lab p /\ b = lab (wrap c q).
Proof.
  intros Hr.
  set (pairs := fun p => map (fun q => (p, q)) (RangeModel.foreach_col (intersect_ranges (neighbor_range nd p) (E r)))).
  assert (Ne : forall p q, pt_in (L r) p -> (pt_in (intersect_ranges (neighbor_range nd p) (E r)) q <-> apart nd 1 p q /\ pt_in (E r) q)).
  { intros p q Hp. rewrite intersect_spec, neighbor_range_In by (apply (L_dim0 r); auto). tauto. }
  destruct (ofoldl_all (union_point nd (L r) (E r) (F r) (dat3 r)) (fun done s => uninv r (flat_map pairs done) s) (fun p => pt_in (L r) p))
    with (todo := RangeModel.foreach_col (L r)) (done := @nil (tup Z)) (s := @nil (Z * Z)) as (s & E1 & K1 & K2).
  - intros done p s Hp HI. unfold union_point. pose proof (L_E r Hr p Hp) as He.
    rewrite (reads_fread _ _ _ p (all_reads F m r Hm Hr) He), (reads_fread _ _ _ p (all_reads dat3 lab r H3 Hr) He), (L_wrap r p Hr Hp).
    destruct (ofoldl_all (union_neighbor (L r) (E r) (F r) (dat3 r) (m p) (lab p)) (fun dn s => uninv r (flat_map pairs done ++ map (fun q => (p, q)) dn) s)
      (fun q => apart nd 1 p q /\ pt_in (E r) q)) with (todo := RangeModel.foreach_col (intersect_ranges (neighbor_range nd p) (E r))) (done := @nil (tup Z)) (s := s)
      as (s' & Es & Hs).
    + intros dn q s0 [Aq Eq] H0. destruct (union_neighbor_ok r _ s0 p q Hr Hp Eq Aq H0) as (s' & Es & Hs). exists s'. split; [exact Es|].
      rewrite map_app. cbn [map]. rewrite app_assoc. exact Hs.
    + intros q Hq. apply foreach_col_In in Hq. apply Ne; auto.
    + cbn [map]. rewrite app_nil_r. exact HI.
    + exists s'. split; [exact Es|]. rewrite flat_map_app. cbn [flat_map app] in *. rewrite app_nil_r. exact Hs.
  - intros p. apply foreach_col_In.
  - split; [apply sok_nil|]. intros a b. split; [intros []|intros (p & q & [] & _)].
  - unfold us, uni. rewrite E1. split; [reflexivity|]. intros a b. rewrite K2. cbn [app]. split.
    + intros (p & q & _ & B & X & Y). exists p, q. auto.
    + intros (p & q & B & X & Y). exists p, q. split; [|auto]. apply in_flat_map. destruct B as (Hp & Hq & _ & A & _). exists p. split; [apply foreach_col_In, Hp|].
      unfold pairs. apply in_map, foreach_col_In, Ne; auto.
Qed.

Definition ps := flat_map us (seq 0 n).
Definition glab u := repf ps (lab u).

Lemma ps_In a b : In (a, b) ps <-> exists r p q, (r < n)%nat /\ border r p q /\ a = lab p /\ b = lab (wrap c q).
Proof.
  unfold ps. rewrite in_flat_map. split.
  - intros (r & Hr & I). apply in_seq in Hr. apply uni_ok in I; [|lia]. destruct I as (p & q & B). exists r, p, q. split; [lia|exact B].
  - intros (r & p & q & Hr & B). exists r. split; [apply in_seq; lia|]. apply uni_ok; [exact Hr|]. eauto.
Qed.

Lemma ends_ps x : In x (ends ps) -> exists u, pt_in (c_range c) u /\ x = lab u.
Proof.
  intros I. unfold ends in I. apply in_flat_map in I. destruct I as ([a b] & I & X). apply ps_In in I. destruct I as (r & p & q & Hr & (Hp & Hq & _) & -> & ->).
  pose proof P as (D & _). cbn in X. destruct X as [<-|[<-|[]]]; [exists p; split; [apply (L_sub c n L D r Hr p Hp)|reflexivity]|].
  exists (wrap c q). split; [apply (E_wrap r); auto|reflexivity].
Qed.

Lemma xs_In r x : (r < n)%nat -> In x (xs r) -> exists u, pt_in (c_range c) u /\ x = lab u.
Proof.
  intros Hr I. pose proof P as (D & _). unfold xs in I. apply in_map_iff in I. destruct I as (u & <- & I). apply foreach_col_In in I.
  exists u. split; [apply (L_sub c n L D r Hr u I)|reflexivity].
Qed.

Lemma linked_iff u v : pt_in (c_range c) u -> pt_in (c_range c) v -> (linked_by ps (lab u) (lab v) <-> same_component c m u v).
Proof.
  intros Hu Hv. pose proof P as (D & SO & _). pose proof D as (_ & _ & Hok & _). unfold same_component. rewrite <- (sym_closure _ (adjacent_sym m)).
  apply (quotient (pt_in (c_range c)) lab (adjacent c m)); auto using lab_same.
  - intros a b I. apply ps_In in I. destruct I as (r & p & q & Hr & (Hp & Hq & Nq & A & M) & -> & ->).
    assert (X : adjacent c m p (wrap c q)).
    { split; [apply (L_sub c n L D r Hr p Hp)|]. split; [apply (E_wrap r); auto|]. split; [apply (L_apart_near r); auto|exact M]. }
    exists p, (wrap c q). pose proof X as (X1 & X2 & _). auto.
  - intros x y (Hx & Hy & (q & I & A) & M). split; [exact Hx|]. split; [exact Hy|].
    destruct (L_owner c n L D x Hx) as (r & Hr & Hp).
    assert (Wq : wrap c q = y) by (apply (wrap_in c Hok SO); [apply is_image_sym, I|exact Hy]).
    assert (Aq : apart nd 1 x q).
    { intros d Hd. destruct (Nat.ltb_spec d nd) as [Y|Y]; [apply A, Hd|]. rewrite (L_dim0 r x Hr Hp d) by lia.
      destruct (I d Hd) as [_ I2]. destruct (C_dim0 c n L E N H P d Hd Y) as (B1 & B2 & B3). rewrite (I2 B3).
      pose proof (proj1 (pt_in_tget _ _) Hy d Hd). lia. }
    assert (Eq : pt_in (E r) q).
    { apply (in_E_iff c n L E N H P r x q Hr); [apply (L_in_ext c n L E N H P r Hr), Hp|exact Aq|]. rewrite Wq. exact Hy. }
    destruct (rcontains (L r) q) eqn:Cq.
    + apply rcontains_spec in Cq. assert (q = y) by (rewrite <- Wq; symmetry; apply (L_wrap r); auto). subst q.
      assert (lab x = lab y) as ->; [|apply rst_refl].
      rewrite (lab_L r x Hr Hp), (lab_L r y Hr Cq). f_equal. destruct (local_at r Hr) as (_ & _ & _ & C). apply C; auto.
      apply rst_step. split; [exact Hp|]. split; [exact Cq|]. split; [exact Aq|exact M].
    + apply rst_step, ps_In. exists r, x, q. split; [exact Hr|]. split; [|rewrite Wq; auto].
      split; [exact Hp|]. split; [exact Eq|]. split; [intros X; apply rcontains_spec in X; congruence|]. rewrite Wq. auto.
Qed.

Lemma L_xs r p : (r < n)%nat -> pt_in (L r) p -> In (lab p) (xs r).
Proof. intros Hr Hp. unfold xs. apply in_map, foreach_col_In, Hp. Qed.

Lemma glab_iff u v : pt_in (c_range c) u -> pt_in (c_range c) v -> (glab u = glab v <-> same_component c m u v).
Proof.
  intros Hu Hv. rewrite <- linked_iff by assumption. unfold glab.
  destruct (repf_ok [lab u; lab v] ps) as (x1 & x2 & x3 & _ & _ & _ & _ & G & _).
  apply G; left; [left; reflexivity|right; left; reflexivity].
Qed.

Lemma glab_nonneg u : pt_in (c_range c) u -> 0 <= glab u.
Proof.
  intros Hu. pose proof P as (D & _). unfold glab.
  destruct (repf_ok [lab u] ps) as (x1 & x2 & x3 & _ & _ & _ & _ & _ & G).
  destruct (G (lab u)) as [[<-|[]]|I]; [left; left; reflexivity|apply lab_nonneg, Hu|].
  destruct (ends_ps _ I) as (v & Hv & ->). apply lab_nonneg, Hv.
Qed.

(** Phase four: the representative labels. *)
Definition roots r := comp_roots (L r) (E r) (KS (H r) (F r) (dat3 r) (num r) (before r) (sets r) ps 0 [] 0).
Definition u4 r := match roots r with Some s => k_sets s | None => uf_empty end.
Definition dat4 r := match roots r with Some s => k_lab s | None => [] end.

Lemma roots_ok r : (r < n)%nat -> roots r = Some (KS (H r) (F r) (dat4 r) (num r) (before r) (u4 r) ps 0 [] 0) /\
  Z.of_nat (length (dat4 r)) = rcount (E r) /\ forall p, pt_in (L r) p -> vread (dat4 r) (rindex ColMajor (E r) p) = Some (glab p).
Proof.
  intros Hr. destruct (repf_ok (xs r) ps) as (u & u' & Inv & E1 & E2 & I0 & Fi & _).
  destruct (point_loop (E r) (root_point (E r)) (fun _ v => Inv v) lab glab (RangeModel.foreach_col (L r)))
    with (todo := RangeModel.foreach_col (L r)) (done := @nil (tup Z)) (a := u') (lab := dat3 r) (g := fun p => lab (wrap c p)) as (a' & lab' & E5 & A5 & R5); auto.
  - intros done p a l g Hp Ia Rg Gp. apply foreach_col_In in Hp. pose proof (L_E r Hr p Hp) as He. unfold root_point. cbn [fst snd].
    rewrite (reads_fread _ _ _ p Rg He), Gp. destruct (Fi a (lab p) Ia (or_introl (L_xs r p Hr Hp))) as (v' & Ef & I'). rewrite Ef. cbn [fst snd].
    destruct (reads_fwrite (E r) l g p (glab p) Rg He) as (l' & W & R'). unfold glab in *. rewrite W. eexists _, l'. split; [reflexivity|]. auto.
  - apply foreach_col_NoDup.
  - apply all_reads; auto.
  - intros p Hp. apply foreach_col_In in Hp. rewrite (L_wrap r p Hr Hp). reflexivity.
  - assert (X : roots r = Some (KS (H r) (F r) lab' (num r) (before r) a' ps 0 [] 0)).
    { unfold roots, comp_roots. cbn [k_sets k_unions k_lab k_map k_mask k_nloc k_before k_max k_exists k_num]. unfold sets. rewrite E1, E2, E5. reflexivity. }
    unfold u4, dat4. rewrite X. cbn [k_sets k_lab]. split; [reflexivity|]. destruct R5 as [R5 R6]. split; [exact R5|].
    intros p Hp. rewrite R6 by (apply L_E; auto). rewrite (proj2 (inb_spec _ _)) by (apply foreach_col_In, Hp). reflexivity.
Qed.
End Unions.

Lemma reads_In {V} e (data : list V) f x : reads e data f -> In x data -> exists p, pt_in e p /\ x = f p.
Proof.
  intros [Le R] I. apply In_nth_error in I. destruct I as [i Hi].
  assert (Hl : (i < length data)%nat) by (apply nth_error_Some; congruence).
  destruct (foreach_nth e i ltac:(lia)) as (p & _ & Hp & X). exists p. split; [exact Hp|].
  specialize (R p Hp). unfold vread in R. destruct (Z.ltb_spec (rindex ColMajor e p) 0); [discriminate|]. rewrite X, Nat2Z.id in R. congruence.
Qed.

Lemma agrees_map {A B} (g : A -> B) (G : nat -> list A) f : agrees c n L E N G f -> agrees c n L E N (fun r => map g (G r)) (fun u => g (f u)).
Proof.
  intros [A1 A2]. split.
  - intros r Hr. destruct (A1 r Hr) as [X Y]. rewrite map_length. split; [exact X|]. intros p Hp. rewrite vread_map, (Y p Hp). reflexivity.
  - intros r p q u Hr Hq Hp Hu I O. rewrite vread_map, (A2 r p q u Hr Hq Hp Hu I O). reflexivity.
Qed.

Lemma firstn_map_seq {A} (f : nat -> A) r : (r <= n)%nat -> firstn r (map f (seq 0 n)) = map f (seq 0 r).
Proof.
  intros Hr. replace n with (r + (n - r))%nat by lia. rewrite seq_app, map_app, firstn_app, map_length, seq_length, Nat.sub_diag.
  rewrite firstn_all2 by (rewrite map_length, seq_length; lia). cbn [firstn]. apply app_nil_r.
Qed.

(** The phases up to the representatives, and the exchange of the result. *)
Lemma flat_map_map {A B D} (f : B -> list D) (g : A -> B) l : flat_map f (map g l) = flat_map (fun a => f (g a)) l.
Proof. induction l as [|a l IH]; cbn; [reflexivity|]. rewrite IH. reflexivity. Qed.

Lemma exch_k (S : nat -> kst) (D1 : nat -> list Z) g : (forall r, (r < n)%nat -> k_map (S r) = H r /\ k_lab (S r) = D1 r) -> holds n L E D1 g ->
  exists D2, prog_ok n (lift k_get k_put [halo_exchange]) S (fun r => k_put (S r) (H r, D2 r)) /\ agrees c n L E N D2 g.
Proof.
  intros HS Hg. pose proof P as (_ & _ & _ & _ & _ & X). destruct (X Z D1 g Hg) as (D2 & X1 & X2). exists D2. split; [|exact X2].
  apply (prog_start n _ S (fun r => k_put (S r) (H r, D1 r))).
  - intros r Hr. destruct (HS r Hr) as [<- <-]. destruct (S r). reflexivity.
  - apply (lift_ok k_get k_put n [halo_exchange] S (fun r => (H r, D1 r)) (fun r => (H r, D2 r))).
    + intros r [a1 a2] Hr. reflexivity.
    + intros r a a' Hr. reflexivity.
    + eexists. split; [exact X1|]. cbn [prog_ok]. reflexivity.
Qed.

Lemma reps_ok : exists dat3 dat5 u, agrees c n L E N dat3 lab /\ agrees c n L E N dat5 (glab dat3) /\
  forall rest S', prog_ok n rest (fun r => KS (H r) (F r) (dat5 r) (num r) (before r) (u r) (ps dat3) 0 [] 0) S' ->
  prog_ok n (([Local (fun r => comp_local nd (L r) (E r)); Coll comp_scan; Local (fun r => comp_offset (L r) (E r))] ++
    lift k_get k_put [halo_exchange] ++
    [Local (fun r => comp_unions nd (L r) (E r)); Coll comp_gather; Local (fun r => comp_roots (L r) (E r))] ++
    lift k_get k_put [halo_exchange] ++ rest) : list (phase kst (list Z))) (fun r => K0 (H r) (F r)) S'.
Proof.
  set (S3 := fun r => KS (H r) (F r) (dat2 r) (num r) (before r) (sets r) [] 0 [] 0).
  destruct (exch_k S3 dat2 lab) as (dat3 & X3 & A3); [intros; split; reflexivity|intros r Hr; apply off_ok, Hr|].
  set (S7 := fun r => KS (H r) (F r) (dat4 dat3 r) (num r) (before r) (u4 dat3 r) (ps dat3) 0 [] 0).
  destruct (exch_k S7 (dat4 dat3) (glab dat3)) as (dat5 & X5 & A5); [intros; split; reflexivity|intros r Hr; apply (roots_ok dat3 A3 r Hr)|].
  exists dat3, dat5, (u4 dat3). split; [exact A3|]. split; [exact A5|]. intros rest S' HR.
  apply prog_ok_app. exists S3. split.
  { exists (fun r => KS (H r) (F r) (dat r) (num r) 0 uf_empty [] 0 [] 0). split.
    - intros r Hr. unfold comp_local. cbn [k_mask K0]. destruct (local_at r Hr) as (-> & _). reflexivity.
    - exists (fun r => KS (H r) (F r) (dat r) (num r) (before r) uf_empty [] 0 [] 0). split.
      + intros r Hr. unfold comp_scan. rewrite nth_map_seq by exact Hr. cbn [k_map k_mask k_lab k_nloc k_before k_sets k_unions k_max k_exists k_num].
        rewrite firstn_map_seq by lia. rewrite map_map. reflexivity.
      + exists S3. split; [|cbn [prog_ok]; reflexivity]. intros r Hr. unfold comp_offset. cbn [k_map k_mask k_lab k_nloc k_before k_sets k_unions k_max k_exists k_num].
        destruct (off_ok r Hr) as (Q & _). unfold off in Q. rewrite Q. reflexivity. }
  apply prog_ok_app. eexists. split; [exact X3|].
  apply prog_ok_app. exists S7. split.
  { exists (fun r => KS (H r) (F r) (dat3 r) (num r) (before r) (sets r) (us dat3 r) 0 [] 0). split.
    - intros r Hr. unfold comp_unions, k_put, S3. cbn [fst snd k_map k_mask k_lab k_nloc k_before k_sets k_unions k_max k_exists k_num].
      destruct (uni_ok dat3 A3 r Hr) as (Q & _). unfold uni in Q. rewrite Q. reflexivity.
    - exists (fun r => KS (H r) (F r) (dat3 r) (num r) (before r) (sets r) (ps dat3) 0 [] 0). split.
      + intros r Hr. unfold comp_gather. rewrite nth_map_seq by exact Hr. cbn [k_map k_mask k_lab k_nloc k_before k_sets k_unions k_max k_exists k_num].
        rewrite flat_map_map. reflexivity.
      + exists S7. split; [|cbn [prog_ok]; reflexivity]. intros r Hr. apply (roots_ok dat3 A3 r Hr). }
  apply prog_ok_app. eexists. split; [exact X5|]. exact HR.
Qed.

Theorem components_ok : exists S' F' lb N', prog_ok n (connected_components nd L E) (fun r => K0 (H r) (F r)) S' /\
  (forall r, (r < n)%nat -> k_map (S' r) = H r /\ k_mask (S' r) = F r /\ k_lab (S' r) = F' r /\ k_num (S' r) = N') /\
  agrees c n L E N F' lb /\
  (forall u v, pt_in (c_range c) u -> pt_in (c_range c) v -> (lb u = lb v <-> same_component c m u v)) /\
  (forall u, pt_in (c_range c) u -> 0 <= lb u < N') /\
  (forall k, 0 <= k < N' -> exists u, pt_in (c_range c) u /\ lb u = k).
Proof.
  pose proof P as (D & SO & _). pose proof D as (_ & Hn & Hok & _ & _ & _ & NE).
  destruct reps_ok as (dat3 & dat5 & u & A3 & A5 & Pre).
  set (gl := glab dat3) in *.
  assert (Rd : forall r, (r < n)%nat -> reads (E r) (dat5 r) (fun p => gl (wrap c p))) by (intros r Hr; apply all_reads; auto).
  set (mx := fun r => match array_max (dat5 r) with Some x => x | None => 0 end).
  assert (Mx : forall r, (r < n)%nat -> array_max (dat5 r) = Some (mx r) /\ forall p, pt_in (L r) p -> gl p <= mx r).
  { intros r Hr. assert (RL : forall p, pt_in (L r) p -> In (gl p) (dat5 r)).
    { intros p Hp. apply (vread_in _ (rindex ColMajor (E r) p)). rewrite <- (L_wrap r p Hr Hp) at 2. apply (Rd r Hr), L_E; auto. }
    destruct (array_max_spec (dat5 r)) as (M & Q & B).
    { intros C. specialize (RL _ (clamp_in (L r) (rb (L r)) (NE r Hr))). rewrite C in RL. contradiction. }
    unfold mx. rewrite Q. split; [reflexivity|]. intros p Hp. apply B, RL, Hp. }
  destruct (array_max_spec (map mx (seq 0 n))) as (M & QM & BM).
  { destruct n; [lia|]. discriminate. }
  assert (GM : forall v, pt_in (c_range c) v -> 0 <= gl v <= M).
  { intros v Hv. split; [apply (glab_nonneg dat3 A3), Hv|]. destruct (L_owner c n L D v Hv) as (r & Hr & Hp).
    destruct (Mx r Hr) as [_ B]. specialize (B v Hp). specialize (BM (mx r)). assert (mx r <= M) by (apply BM, in_map, in_seq; lia). lia. }
  assert (M0 : 0 <= M).
  { pose proof (clamp_in (L 0%nat) (rb (L 0%nat)) (NE 0%nat ltac:(lia))) as Hp. specialize (GM _ (L_sub c n L D 0%nat ltac:(lia) _ Hp)). lia. }
  set (exl := fun r => ofoldl (fun ex p => let! l := fread (E r) (dat5 r) p in vwrite ex l 1) (RangeModel.foreach_col (L r)) (repeat 0 (Z.to_nat (M + 1)))).
  set (ex := fun r => match exl r with Some x => x | None => [] end).
  set (K := Z.to_nat (M + 1)).
  assert (Ex : forall r, (r < n)%nat -> exl r = Some (ex r) /\ flags K (fun i => exists p, pt_in (L r) p /\ gl p = i) (ex r)).
  { intros r Hr. destruct (ofoldl_all (fun ex p => let! l := fread (E r) (dat5 r) p in vwrite ex l 1)
      (fun done s => flags K (fun i => exists p, In p done /\ gl p = i) s) (fun p => pt_in (L r) p)) with
      (todo := RangeModel.foreach_col (L r)) (done := @nil (tup Z)) (s := repeat 0 K) as (s & Q & Fl).
    - intros done p s Hp Fl. rewrite (reads_fread _ _ _ p (Rd r Hr) (L_E r Hr p Hp)), (L_wrap r p Hr Hp).
      pose proof (GM p (L_sub c n L D r Hr p Hp)) as B.
      destruct (flags_write K _ s (gl p) Fl ltac:(unfold K; lia)) as (s' & W & Fl'). rewrite W. exists s'. split; [reflexivity|].
      eapply flags_ext; [|exact Fl']. intros i _. cbv beta. split.
      + intros [->|(q & I & X)]; [exists p; split; [apply in_or_app; right; left; reflexivity|reflexivity]|exists q; split; [apply in_or_app; auto|exact X]].
      + intros (q & I & X). apply in_app_or in I. destruct I as [I|[I|[]]]; [right; exists q; auto|subst q; auto].
    - intros p. apply foreach_col_In.
    - eapply flags_ext; [|apply flags_repeat]. intros i _. cbv beta. split; [intros []|intros (p & [] & _)].
    - unfold ex, exl. fold K. rewrite Q. split; [reflexivity|]. eapply flags_ext; [|exact Fl]. intros i _. cbv beta. cbn [app].
      split; intros (p & X & Y); exists p; (split; [apply foreach_col_In, X|exact Y]). }
  pose proof (flags_reduce K or_flags (fun r i => exists p, pt_in (L r) p /\ gl p = i) ex n Hn (or_flags_ok K) (fun r Hr => proj2 (Ex r Hr))) as FR.
  destruct (map ex (seq 0 n)) as [|x0 xs0] eqn:Eex; [contradiction|]. set (EX := fold_left or_flags xs0 x0) in *.
  destruct (contiguous_ok K _ EX FR) as (g & G1 & G2 & G3). cbv zeta in G1, G3.
  assert (Pex : forall v, pt_in (c_range c) v -> 0 <= gl v < Z.of_nat K /\ exists r, (r < n)%nat /\ exists p, pt_in (L r) p /\ gl p = gl v).
  { intros v Hv. pose proof (GM v Hv). split; [unfold K; lia|]. destruct (L_owner c n L D v Hv) as (r & Hr & Hp). exists r. split; [exact Hr|]. exists v. auto. }
  exists (fun r => KS (H r) (F r) (map g (dat5 r)) (num r) (before r) (u r) (ps dat3) M EX (snd (contiguous EX))),
    (fun r => map g (dat5 r)), (fun v => g (gl v)), (snd (contiguous EX)).
  split; [|split; [|split; [|split; [|split]]]].
  - unfold connected_components. apply Pre.
    exists (fun r => KS (H r) (F r) (dat5 r) (num r) (before r) (u r) (ps dat3) (mx r) [] 0). split.
    { intros r Hr. unfold comp_max. cbn [k_map k_mask k_lab k_nloc k_before k_sets k_unions k_max k_exists k_num]. destruct (Mx r Hr) as [-> _]. reflexivity. }
    exists (fun r => KS (H r) (F r) (dat5 r) (num r) (before r) (u r) (ps dat3) M [] 0). split.
    { intros r Hr. unfold comp_allmax. rewrite nth_map_seq by exact Hr. rewrite map_map. cbn [k_map k_mask k_lab k_nloc k_before k_sets k_unions k_max k_exists k_num].
      change (map (fun r => mx r) (seq 0 n)) with (map mx (seq 0 n)). rewrite QM. reflexivity. }
    exists (fun r => KS (H r) (F r) (dat5 r) (num r) (before r) (u r) (ps dat3) M (ex r) 0). split.
    { intros r Hr. unfold comp_exists. cbn [k_map k_mask k_lab k_nloc k_before k_sets k_unions k_max k_exists k_num]. destruct (Z.ltb_spec (M + 1) 0); [lia|].
      destruct (Ex r Hr) as [Q _]. unfold exl in Q. rewrite Q. reflexivity. }
    exists (fun r => KS (H r) (F r) (dat5 r) (num r) (before r) (u r) (ps dat3) M EX 0). split.
    { intros r Hr. unfold comp_allor. rewrite nth_map_seq by exact Hr. rewrite map_map. cbn [k_map k_mask k_lab k_nloc k_before k_sets k_unions k_max k_exists k_num].
      change (map (fun r => ex r) (seq 0 n)) with (map ex (seq 0 n)). rewrite Eex. reflexivity. }
    eexists. split; [|cbn [prog_ok]; reflexivity]. intros r Hr. unfold comp_final. cbn [k_map k_mask k_lab k_nloc k_before k_sets k_unions k_max k_exists k_num].
    rewrite (omap_map _ g); [reflexivity|]. intros x Hx. destruct (reads_In _ _ _ x (Rd r Hr) Hx) as (p & Hp & ->).
    destruct (Pex (wrap c p) (E_wrap r p Hr Hp)) as [B X]. destruct (G1 _ B X) as [-> _]. reflexivity.
  - intros r Hr. cbn. auto.
  - apply (agrees_map g dat5 gl A5).
  - intros v w Hv Hw. rewrite <- (glab_iff dat3 A3 v w Hv Hw). fold gl. destruct (Pex v Hv) as [B1 X1]. destruct (Pex w Hw) as [B2 X2]. split; [|congruence].
    apply G2; auto.
  - intros v Hv. destruct (Pex v Hv) as [B1 X1]. apply (G1 _ B1 X1).
  - intros k Hk. destruct (G3 k Hk) as (i & Hi & (r & Hr & p & Hp & X) & Y). exists p. split; [apply (L_sub c n L D r Hr p Hp)|]. rewrite X. exact Y.
Qed.
End Comp.
