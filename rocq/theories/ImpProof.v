(** Proofs about importing donors and receivers of files. *)
From Coq Require Import List ZArith Bool Lia.
From Verif Require Import TupleModel RangeModel Base ContModel HashModel HashProof ProtoModel ProtoSpec NetModel NetSpec NetProof NetTools XinModel MatModel DistModel ImpModel ImpSpec.
Import ListNotations.
Local Open Scope Z_scope.

(** ** Arrays *)
Lemma set_at_cons {A} (a : A) l k x : set_at (a :: l) (S k) x = let! t := set_at l k x in Some (a :: t).
Proof. unfold set_at. cbn [length]. change (S k <? S (length l))%nat with (k <? length l)%nat. destruct (k <? length l)%nat; reflexivity. Qed.
Lemma set_at_seq {B} (h : nat -> B) (x : B) k : forall m s, (k < m)%nat ->
  set_at (map h (seq s m)) k x = Some (map (fun i => if Nat.eqb i (s + k) then x else h i) (seq s m)).
Proof.
  induction k as [|k IH]; intros [|m] s Hk; try lia; cbn [seq map].
  - unfold set_at. cbn [length Nat.ltb Nat.leb firstn skipn app]. rewrite Nat.add_0_r, Nat.eqb_refl. do 2 f_equal.
    apply map_ext_in. intros i Hi. apply in_seq in Hi. destruct (Nat.eqb_spec i s); [lia|reflexivity].
  - rewrite set_at_cons, IH by lia. destruct (Nat.eqb_spec s (s + S k)); [lia|]. do 2 f_equal. apply map_ext. intros i. now replace (s + S k)%nat with (S s + k)%nat by lia.
Qed.
Lemma bump_seq (h : nat -> Z) k m : (k < m)%nat -> bump (map h (seq 0 m)) k = Some (map (fun i => h i + if Nat.eqb k i then 1 else 0) (seq 0 m)).
Proof.
  intros Hk. unfold bump. rewrite nth_map_seq by exact Hk. rewrite set_at_seq by exact Hk. f_equal. apply map_ext. intros i. cbn [Nat.add].
  rewrite (Nat.eqb_sym k i). destruct (Nat.eqb_spec i k) as [->|]; lia.
Qed.

Lemma position_In x l : In x l -> exists k, position x l = Some k.
Proof.
  induction l as [|y l IH]; intros H; [contradiction|]. cbn [position]. destruct (Z.eqb_spec y x); [eauto|]. destruct H as [H|H]; [contradiction|].
  destruct (IH H) as [k E]. rewrite E. eauto.
Qed.
Lemma pos_write {B} (h : Z -> B) (y : B) x l : NoDup l -> forall k, position x l = Some k ->
  nth_error (map h l) k = Some (h x) /\ set_at (map h l) k y = Some (map (fun z => if z =? x then y else h z) l).
Proof.
  intros N. induction N as [|z l I N IH]; intros k E; [discriminate|]. cbn [position] in E. destruct (Z.eqb_spec z x) as [->|NE].
  - injection E as <-. split; [reflexivity|]. unfold set_at. cbn [map length Nat.ltb Nat.leb firstn skipn app]. rewrite Z.eqb_refl. do 2 f_equal.
    apply map_ext_in. intros w Hw. destruct (Z.eqb_spec w x) as [->|]; [contradiction|reflexivity].
  - destruct (position x l) as [k'|]; [|discriminate]. injection E as <-. destruct (IH k' eq_refl) as [E1 E2]. split; [exact E1|].
    cbn [map]. rewrite set_at_cons, E2. destruct (Z.eqb_spec z x); [contradiction|reflexivity].
Qed.

Lemma to_grid_app {A} j (l k : list (A * place)) : to_grid j (l ++ k) = to_grid j l ++ to_grid j k.
Proof. apply filter_app. Qed.
Lemma to_grid_one {A} j (v : A * place) : to_grid j [v] = if gid v =? j then [v] else [].
Proof. reflexivity. Qed.

(** ** Donors *)
Definition maxof (ds : list dval) : Z := fold_left (fun m v => fold_left Z.max (sizes_of v) m) ds 1.
Lemma maxof_app l v : maxof (l ++ [v]) = fold_left Z.max (sizes_of v) (maxof l).
Proof. unfold maxof. now rewrite fold_left_app. Qed.
Lemma maxof_ok ds : largest (maxof ds) ds.
Proof.
  induction ds as [|v ds [A B]] using rev_ind.
  - split; [intros v d []|now left].
  - rewrite maxof_app. unfold sizes_of, cell_size, extents. cbn [seq map fold_left rb re]. set (M := maxof ds) in *.
    set (s0 := tget (e_end (fst v)) 0 - tget (e_begin (fst v)) 0). set (s1 := tget (e_end (fst v)) 1 - tget (e_begin (fst v)) 1).
    set (s2 := tget (e_end (fst v)) 2 - tget (e_begin (fst v)) 2). split.
    + intros w d Hw Hd. apply in_app_or in Hw as [Hw|[<-|[]]].
      * specialize (A w d Hw Hd). lia.
      * assert (X : d = 0%nat \/ d = 1%nat \/ d = 2%nat) by lia. destruct X as [->|[->| ->]]; unfold s0, s1, s2; lia.
    + assert (X : Z.max (Z.max (Z.max M s0) s1) s2 = M \/ Z.max (Z.max (Z.max M s0) s1) s2 = s0 \/ Z.max (Z.max (Z.max M s0) s1) s2 = s1 \/ Z.max (Z.max (Z.max M s0) s1) s2 = s2) by lia.
      destruct X as [X|[X|[X|X]]]; rewrite X.
      * destruct B as [B|(w & d & Hw & Hd & E)]; [now left|]. right. exists w, d. split; [apply in_or_app; now left|auto].
      * right. exists v, 0%nat. split; [apply in_or_app; right; now left|]. split; [lia|reflexivity].
      * right. exists v, 1%nat. split; [apply in_or_app; right; now left|]. split; [lia|reflexivity].
      * right. exists v, 2%nat. split; [apply in_or_app; right; now left|]. split; [lia|reflexivity].
Qed.

Definition whole (v : dval) : Prop := forall d, (d < 3)%nat ->
  1 <= tget (e_end (fst v)) d - tget (e_begin (fst v)) d /\ Z.of_nat (length (tget (e_coefs (fst v)) d)) = tget (e_end (fst v)) d - tget (e_begin (fst v)) d.

Lemma skipn_repeat {A} (x : A) : forall a b, skipn a (repeat x b) = repeat x (b - a).
Proof. induction a as [|a IH]; intros [|b]; cbn; auto. Qed.
Lemma over_blank nd max d size l : 1 <= size <= max -> Z.of_nat (length l) = size -> over_coefs size l (blank_coefs nd max d) = Some (filled max l).
Proof.
  intros H E. unfold over_coefs, filled. assert (LB : Z.of_nat (length (blank_coefs nd max d)) = max).
  { unfold blank_coefs. destruct (d <? nd)%nat; cbn [length]; rewrite repeat_length; lia. }
  rewrite LB, E. destruct (Z.ltb_spec size size); [lia|]. destruct (Z.ltb_spec max size); [lia|]. cbn [orb]. f_equal. f_equal.
  - rewrite firstn_all2 by lia. reflexivity.
  - unfold blank_coefs. destruct (d <? nd)%nat.
    + rewrite skipn_repeat. f_equal. lia.
    + replace (Z.to_nat size) with (S (Z.to_nat (size - 1))) by lia. cbn [skipn]. rewrite skipn_repeat. f_equal. lia.
Qed.
Lemma over_ok nd max v g p : whole v -> (forall d, (d < 3)%nat -> tget (e_end (fst v)) d - tget (e_begin (fst v)) d <= max) -> g = gid v ->
  over v (fst (blank nd max), (g, p)) = Some (stored max v).
Proof.
  intros W M ->. unfold over, cell_size, extents. cbn [fst snd rb re e_coefs blank].
  rewrite !tget_tmake by lia.
  rewrite (over_blank nd max 0), (over_blank nd max 1), (over_blank nd max 2) by (try apply W; try (split; [apply W|apply M]); lia).
  unfold stored. cbn [tget]. f_equal. f_equal. unfold gid. now rewrite <- surjective_pairing.
Qed.

Lemma count_donors dests ds : NoDup dests -> (forall v, In v ds -> In (gid v) dests) -> forall done,
  ofoldl (count_donor dests) ds (map (fun j => (Z.of_nat (length (to_grid j done)), maxof (to_grid j done))) dests)
  = Some (map (fun j => (Z.of_nat (length (to_grid j (done ++ ds))), maxof (to_grid j (done ++ ds)))) dests).
Proof.
  intros N. induction ds as [|v ds IH]; intros HI done; [now rewrite app_nil_r|]. cbn [ofoldl].
  destruct (position_In (gid v) dests (HI v ltac:(now left))) as [k E]. 
  set (h := fun j => (Z.of_nat (length (to_grid j done)), maxof (to_grid j done))).
  destruct (pos_write h (fst (h (gid v)) + 1, fold_left Z.max (sizes_of v) (snd (h (gid v)))) _ _ N k E) as [E1 E2].
  assert (X : count_donor dests (map h dests) v = Some (map (fun z => if z =? gid v then (fst (h (gid v)) + 1, fold_left Z.max (sizes_of v) (snd (h (gid v)))) else h z) dests)).
  { unfold count_donor. rewrite E, E1. exact E2. }
  rewrite X. replace (done ++ v :: ds) with ((done ++ [v]) ++ ds) by (rewrite <- app_assoc; reflexivity).
  rewrite <- IH by (intros; apply HI; now right). f_equal. apply map_ext. intros j. rewrite to_grid_app, to_grid_one, (Z.eqb_sym j). destruct (Z.eqb_spec (gid v) j) as [->|].
  - rewrite app_length, maxof_app. cbn [length]. unfold h. cbn [fst snd]. f_equal. lia.
  - rewrite app_nil_r. reflexivity.
Qed.

Section Fill.
Context {A : Type} (dests : list Z) (N : NoDup dests).
Context (fill : list (nat * list (A * place)) -> A * place -> option (list (nat * list (A * place)))).
Context (all : list (A * place)) (bl : Z -> A * place) (st : Z -> A * place -> A * place).
Hypothesis HI : forall v, In v all -> In (gid v) dests.
Hypothesis HF : forall v a k c l l', In v all -> position (gid v) dests = Some k -> nth_error a k = Some (c, l) -> nth_error l c = Some (bl (gid v)) ->
  set_at l c (st (gid v) v) = Some l' -> fill a v = set_at a k (S c, l').

Definition half (done : list (A * place)) (j : Z) : nat * list (A * place) :=
  (length (to_grid j done), map (st j) (to_grid j done) ++ repeat (bl j) (length (to_grid j all) - length (to_grid j done))).
Lemma fill_all : forall rest done, all = done ++ rest -> ofoldl fill rest (map (half done) dests) = Some (map (half all) dests).
Proof.
  induction rest as [|v rest IH]; intros done E; [rewrite app_nil_r in E; subst; reflexivity|]. cbn [ofoldl].
  assert (Iv : In v all) by (rewrite E; apply in_or_app; right; now left).
  destruct (position_In (gid v) dests (HI v Iv)) as [k P]. set (x := gid v) in *.
  assert (T : to_grid x all = to_grid x done ++ v :: to_grid x rest).
  { rewrite E, to_grid_app. f_equal. unfold to_grid. cbn [filter]. fold x. now rewrite Z.eqb_refl. }
  set (c := length (to_grid x done)). set (m := length (to_grid x rest)).
  assert (Sub : (length (to_grid x all) - c = S m)%nat) by (rewrite T, app_length; cbn [length]; unfold c, m; lia).
  assert (HL : snd (half done x) = map (st x) (to_grid x done) ++ bl x :: repeat (bl x) m) by (unfold half; cbn [snd]; fold c; rewrite Sub; reflexivity).
  set (l' := map (st x) (to_grid x done) ++ st x v :: repeat (bl x) m).
  assert (LC : length (map (st x) (to_grid x done)) = c) by (rewrite map_length; reflexivity).
  destruct (pos_write (half done) (S c, l') x dests N k P) as [E1 E2].
  rewrite (HF v (map (half done) dests) k c (snd (half done x)) l' Iv P).
  - rewrite E2. rewrite <- (IH (done ++ [v])) by (rewrite <- app_assoc; exact E). f_equal. apply map_ext. intros j. unfold half at 2. rewrite to_grid_app, to_grid_one. fold x.
    rewrite (Z.eqb_sym j). destruct (Z.eqb_spec x j) as [<-|].
    + rewrite app_length. cbn [length]. fold c. replace (length (to_grid x all) - (c + 1))%nat with m by lia. rewrite map_app, <- app_assoc. cbn [map app]. unfold l'. f_equal. lia.
    + rewrite app_nil_r. reflexivity.
  - rewrite E1. unfold half. fold c. reflexivity.
  - rewrite HL. rewrite nth_error_app2, LC, Nat.sub_diag by lia. reflexivity.
  - rewrite HL. unfold set_at. rewrite app_length, LC. cbn [length]. destruct (Nat.ltb_spec c (c + S (length (repeat (bl x) m)))); [|lia].
    rewrite firstn_app, LC, Nat.sub_diag, firstn_all2 by lia. cbn [firstn]. rewrite app_nil_r. unfold l'. do 3 f_equal.
    rewrite skipn_app, LC. rewrite skipn_all2 by lia. replace (S c - c)%nat with 1%nat by lia. reflexivity.
Qed.
End Fill.

Lemma import_donors_ok nd dests ds : NoDup dests -> (forall v, In v ds -> In (gid v) dests) -> (forall v, In v ds -> whole v) ->
  import_donors nd dests ds = Some (map (fun j => (j, ConnM (maxof (to_grid j ds)) (map (stored (maxof (to_grid j ds))) (to_grid j ds)))) dests).
Proof.
  intros N HI HW. unfold import_donors. destruct dests as [|z t] eqn:ED; [reflexivity|]. rewrite <- ED in *. replace (length dests =? 0)%nat with false by (rewrite ED; reflexivity).
  assert (C : ofoldl (count_donor dests) ds (map (fun _ => (0, 1)) dests) = Some (map (fun j => (Z.of_nat (length (to_grid j ds)), maxof (to_grid j ds))) dests))
    by exact (count_donors dests ds N HI []).
  rewrite C. clear C.
  set (M := fun j => maxof (to_grid j ds)).
  set (bl := fun j => (fst (blank nd (M j)), (j, T3 0 0 0)) : dval).
  assert (C : combine dests (map (fun j => (Z.of_nat (length (to_grid j ds)), maxof (to_grid j ds))) dests) = map (fun j => (j, (Z.of_nat (length (to_grid j ds)), M j))) dests) by apply combine_map_r.
  rewrite C. rewrite map_map. cbn [fst snd].
  assert (HF : forall (v : dval) a k c l l', In v ds -> position (gid v) dests = Some k -> nth_error a k = Some (c, l) -> nth_error l c = Some (bl (gid v)) ->
    set_at l c (stored (M (gid v)) v) = Some l' -> fill_donor dests a v = set_at a k (S c, l')).
  { intros v a k c l l' Iv P E1 E2 E3. unfold fill_donor. rewrite P, E1. cbn [fst snd]. rewrite E2. unfold bl. rewrite over_ok; [rewrite E3; reflexivity|now apply HW| |reflexivity].
    intros d Hd. apply (maxof_ok (to_grid (gid v) ds)); [|exact Hd]. apply filter_In. split; [exact Iv|apply Z.eqb_refl]. }
  pose proof (fill_all dests N (fill_donor dests) ds bl (fun j => stored (M j)) HI HF) as F.
  specialize (F ds [] eq_refl).
  match goal with |- context [ofoldl (fill_donor dests) ds ?init] => assert (X : ofoldl (fill_donor dests) ds init = Some (map (half ds bl (fun j => stored (M j)) ds) dests)) end.
  { transitivity (ofoldl (fill_donor dests) ds (map (half ds bl (fun j => stored (M j)) []) dests)); [|exact F]. f_equal. apply map_ext. intros j. unfold half. cbn [to_grid filter length map app].
    rewrite Nat2Z.id, Nat.sub_0_r. reflexivity. }
  rewrite X. clear X F HF.
  f_equal. clear - N. clear N. induction dests as [|j t IH]; [reflexivity|]. cbn [map combine fst snd]. f_equal; [|exact IH]. unfold half, M. cbn [snd]. rewrite Nat.sub_diag. cbn [repeat]. now rewrite app_nil_r.
Qed.

(** ** Receivers *)
Lemma count_receivers srcs rs : NoDup srcs -> (forall v, In v rs -> In (gid v) srcs) -> forall done,
  ofoldl (count_receiver srcs) rs (map (fun j => Z.of_nat (length (to_grid j done))) srcs) = Some (map (fun j => Z.of_nat (length (to_grid j (done ++ rs)))) srcs).
Proof.
  intros N. induction rs as [|v rs IH]; intros HI done; [now rewrite app_nil_r|]. cbn [ofoldl].
  destruct (position_In (gid v) srcs (HI v ltac:(now left))) as [k E]. 
  set (h := fun j => Z.of_nat (length (to_grid j done))).
  destruct (pos_write h (h (gid v) + 1) _ _ N k E) as [E1 E2].
  assert (X : count_receiver srcs (map h srcs) v = Some (map (fun z => if z =? gid v then h (gid v) + 1 else h z) srcs)).
  { unfold count_receiver, bump. rewrite E, E1. exact E2. }
  rewrite X. replace (done ++ v :: rs) with ((done ++ [v]) ++ rs) by (rewrite <- app_assoc; reflexivity).
  rewrite <- IH by (intros; apply HI; now right). f_equal. apply map_ext. intros j. rewrite to_grid_app, to_grid_one, (Z.eqb_sym j). destruct (Z.eqb_spec (gid v) j) as [->|].
  - rewrite app_length. cbn [length]. unfold h. lia.
  - rewrite app_nil_r. reflexivity.
Qed.
Lemma import_receivers_ok srcs rs : NoDup srcs -> (forall v, In v rs -> In (gid v) srcs) -> import_receivers srcs rs = Some (map (fun j => (j, to_grid j rs)) srcs).
Proof.
  intros N HI. unfold import_receivers. destruct srcs as [|z t] eqn:ED; [reflexivity|]. rewrite <- ED in *. replace (length srcs =? 0)%nat with false by (rewrite ED; reflexivity).
  assert (C : ofoldl (count_receiver srcs) rs (map (fun _ => 0) srcs) = Some (map (fun j => Z.of_nat (length (to_grid j rs))) srcs)) by exact (count_receivers srcs rs N HI []).
  rewrite C. clear C.
  set (bl := fun j => (T3 0 0 0, (j, T3 0 0 0)) : rval).
  rewrite (combine_map_r (fun j => Z.of_nat (length (to_grid j rs)))). rewrite map_map. cbn [fst snd].
  assert (HF : forall (v : rval) a k c l l', In v rs -> position (gid v) srcs = Some k -> nth_error a k = Some (c, l) -> nth_error l c = Some (bl (gid v)) ->
    set_at l c v = Some l' -> fill_receiver srcs a v = set_at a k (S c, l')).
  { intros v a k c l l' Iv P E1 E2 E3. unfold fill_receiver. rewrite P, E1. cbn [fst snd]. rewrite E2. unfold bl. cbn [fst snd]. destruct v as [p [j q]]. unfold gid in *. cbn [fst snd] in *.
    match goal with |- (let! l0 := ?y in _) = _ => replace y with (Some l') by (symmetry; exact E3) end. reflexivity. }
  pose proof (fill_all srcs N (fill_receiver srcs) rs bl (fun _ v => v) HI HF) as F.
  specialize (F rs [] eq_refl).
  match goal with |- context [ofoldl (fill_receiver srcs) rs ?init] => assert (X : ofoldl (fill_receiver srcs) rs init = Some (map (half rs bl (fun _ v => v) rs) srcs)) end.
  { transitivity (ofoldl (fill_receiver srcs) rs (map (half rs bl (fun _ v => v) []) srcs)); [|exact F]. f_equal. apply map_ext. intros j. unfold half. cbn [to_grid filter length map app].
    rewrite Nat2Z.id, Nat.sub_0_r. reflexivity. }
  rewrite X. clear X F HF.
  f_equal. clear - N. clear N. induction srcs as [|j t IH]; [reflexivity|]. cbn [map combine fst snd]. f_equal; [|exact IH]. unfold half. cbn [snd]. rewrite Nat.sub_diag, map_id. cbn [repeat]. now rewrite app_nil_r.
Qed.
