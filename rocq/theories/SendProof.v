(** Lemmas about send and recv maps, packing and unpacking. *)
From Coq Require Import List ZArith Bool Lia Permutation.
From Verif Require Import TupleModel RangeModel Base IndexerModel ArrayModel ArrayProof ContModel ContSpec ContProof MapProof OMap.
From Verif Require Import HashModel HashProof NetModel SendModel SendSpec.
Import ListNotations.
Local Open Scope Z_scope.

Local Notation mok := (mok Z.ltb).
Local Notation mget := (mget Z.ltb).

(** ** Loops *)

Lemma ofoldl_split {A B} (f : B -> A -> option B) (Inv : list A -> B -> Prop) l :
  (forall done a todo s, l = done ++ a :: todo -> Inv done s -> exists s', f s a = Some s' /\ Inv (done ++ [a]) s') ->
  forall s0, Inv [] s0 -> exists s', ofoldl f l s0 = Some s' /\ Inv l s'.
Proof.
  intros ST. assert (G : forall todo done s, l = done ++ todo -> Inv done s -> exists s', ofoldl f todo s = Some s' /\ Inv l s').
  { induction todo as [|a todo IH]; intros done s E I; cbn [ofoldl]; [rewrite app_nil_r in E; subst; eauto|].
    destruct (ST done a todo s E I) as (s1 & E1 & I1). rewrite E1. apply (IH (done ++ [a])); [rewrite <- app_assoc; exact E|exact I1]. }
  intros s0 I. apply (G l []); auto.
Qed.

Lemma vread_nth {A} (l : list A) (k : nat) : vread l (Z.of_nat k) = nth_error l k.
Proof. unfold vread. destruct (Z.ltb_spec (Z.of_nat k) 0); [lia|]. rewrite Nat2Z.id. reflexivity. Qed.
Lemma vread_lt {A} (l : list A) i x : vread l i = Some x -> 0 <= i < Z.of_nat (length l).
Proof.
  unfold vread. destruct (Z.ltb_spec i 0); [discriminate|]. intros H1.
  assert (Z.to_nat i < length l)%nat by (apply nth_error_Some; congruence). lia.
Qed.
Lemma vread_ge {A} (l : list A) i : 0 <= i < Z.of_nat (length l) -> exists x, vread l i = Some x.
Proof.
  intros H. unfold vread. destruct (Z.ltb_spec i 0); [lia|].
  destruct (nth_error l (Z.to_nat i)) eqn:E; [eauto|]. apply nth_error_None in E. lia.
Qed.
Lemma vread_In {A} (l : list A) i x : vread l i = Some x -> In x l.
Proof. unfold vread. destruct (i <? 0); [discriminate|]. apply nth_error_In. Qed.
Lemma In_vread {A} (l : list A) x : In x l -> exists i, vread l i = Some x.
Proof. intros H. apply In_nth_error in H as (k & H). exists (Z.of_nat k). rewrite vread_nth. exact H. Qed.
Lemma vread_fmap {A B} (g : A -> B) l i : vread (map g l) i = option_map g (vread l i).
Proof. unfold vread. destruct (i <? 0); [reflexivity|]. apply nth_error_map. Qed.

Lemma ofoldl_index {A S} (g : S -> A -> option S) (l : list A) s :
  ofoldl (fun s io => let! x := vread l io in g s x) (zseq 0 (length l)) s = ofoldl g l s.
Proof.
  assert (G : forall todo done s, l = done ++ todo ->
    ofoldl (fun s io => let! x := vread l io in g s x) (zseq (Z.of_nat (length done)) (length todo)) s = ofoldl g todo s).
  { induction todo as [|a todo IH]; intros done s' E; [reflexivity|]. cbn [length zseq ofoldl].
    rewrite vread_nth. rewrite E at 1. rewrite nth_error_app2, Nat.sub_diag by lia. cbn [nth_error].
    destruct (g s' a) as [s''|]; [|reflexivity]. specialize (IH (done ++ [a]) s''). rewrite app_length in IH. cbn [length] in IH.
    replace (Z.of_nat (length done) + 1) with (Z.of_nat (length done + 1)) by lia. apply IH. rewrite <- app_assoc. exact E. }
  apply (G l [] s). reflexivity.
Qed.

(** ** The maps *)

Lemma zfetch_write (m : smap Z Z) k v0 v : mok m ->
  let x := map_fetch Z.ltb m k v0 in
  mok (map_write (fst x) (snd x) v) /\
  forall q, mget (map_write (fst x) (snd x) v) q = if q =? k then Some v else mget m q.
Proof.
  intros G x. pose proof (mok_fetch Z.ltb zltb_swo m k v0 G) as G1.
  pose proof (mget_fetch Z.ltb zltb_swo zEQ m k v0) as F.
  assert (N : mget (fst x) k <> None).
  { unfold x. rewrite F by exact G. rewrite zkq, Z.eqb_refl. destruct (mget m k); discriminate. }
  unfold x in *. rewrite (fetch_pos Z.ltb zltb_swo m k v0 G). split.
  - apply (mok_write Z.ltb zltb_swo); auto.
  - intros q. rewrite (mget_write Z.ltb zltb_swo zEQ) by auto. rewrite zkq.
    destruct (Z.eqb_spec q k) as [->|E]; [reflexivity|]. rewrite F by exact G. rewrite zkq.
    destruct (Z.eqb_spec q k); [congruence|reflexivity].
Qed.

Lemma zfetch_entry (m : smap Z Z) k v0 : mok m ->
  let x := map_fetch Z.ltb m k v0 in
  exists e, nth_error (m_entries (fst x)) (snd x) = Some e /\ snd e = match mget m k with Some w => w | None => v0 end.
Proof.
  intros G x. destruct (map_fetch_good (fun _ => True) Z.ltb zltb_swo m k v0 G I) as (_ & _ & N & _). fold x in N. rewrite N.
  pose proof (mget_fetch Z.ltb zltb_swo zEQ m k v0 k G) as F. rewrite zkq, Z.eqb_refl in F. unfold OMap.mget at 1 in F. fold x in F.
  destruct (mlookup Z.ltb (m_entries (fst x)) k) as [e|]; cbn [option_map] in F.
  - exists e. split; [reflexivity|]. destruct (mget m k); congruence.
  - destruct (mget m k); discriminate.
Qed.

Definition occ (l : list Z) (q : Z) : Z := Z.of_nat (count_occ Z.eq_dec l q).

Lemma occ_app l1 l2 q : occ (l1 ++ l2) q = occ l1 q + occ l2 q.
Proof. unfold occ. rewrite count_occ_app. lia. Qed.

Lemma counts_good ranks : exists m, ofoldl count_rank ranks map_empty = Some m /\ mok m /\
  forall q, mget m q = if (0 <=? q) && existsb (Z.eqb q) ranks then Some (occ ranks q) else None.
Proof.
  destruct (ofoldl_split count_rank (fun done m => mok m /\
    forall q, mget m q = if (0 <=? q) && existsb (Z.eqb q) done then Some (occ done q) else None) ranks) with (s0 := map_empty (K := Z) (V := Z)) as (m & E & G); [| |eauto].
  - intros done a todo m _ [M G]. unfold count_rank. destruct (Z.leb_spec 0 a) as [H|H].
    + destruct (map_fetch Z.ltb m a 0) as [m' i] eqn:F.
      destruct (zfetch_entry m a 0 M) as (e & E1 & E2). rewrite F in E1. cbn [fst snd] in E1. rewrite E1.
      eexists. split; [reflexivity|]. destruct (zfetch_write m a 0 (snd e + 1) M) as [W1 W2]. rewrite F in W1, W2. cbn [fst snd] in W1, W2.
      split; [exact W1|]. intros q. rewrite W2, existsb_app, occ_app. cbn [existsb]. rewrite orb_false_r.
      destruct (Z.eqb_spec q a) as [->|N].
      * rewrite (proj2 (Z.leb_le 0 a) H), orb_true_r. cbn [andb]. f_equal. rewrite E2, G, (proj2 (Z.leb_le 0 a) H). cbn [andb].
        assert (occ [a] a = 1) by (unfold occ; cbn; destruct (Z.eq_dec a a); [reflexivity|congruence]).
        destruct (existsb (Z.eqb a) done) eqn:X; [lia|]. assert (occ done a = 0); [|lia].
        unfold occ. rewrite (proj1 (count_occ_not_In Z.eq_dec done a)); [reflexivity|]. intros Hi.
        assert (existsb (Z.eqb a) done = true); [apply existsb_exists; exists a; split; [exact Hi|apply Z.eqb_refl]|congruence].
      * rewrite G, orb_false_r. assert (occ [a] q = 0) by (unfold occ; cbn; destruct (Z.eq_dec a q); [congruence|reflexivity]).
        destruct (_ && _); [f_equal; lia|reflexivity].
    + exists m. split; [reflexivity|]. split; [exact M|]. intros q. rewrite G, existsb_app, occ_app. cbn [existsb]. rewrite orb_false_r.
      destruct (Z.leb_spec 0 q); [|reflexivity]. cbn [andb]. destruct (Z.eqb_spec q a); [lia|]. rewrite orb_false_r.
      assert (occ [a] q = 0) by (unfold occ; cbn; destruct (Z.eq_dec a q); [congruence|reflexivity]).
      destruct (existsb _ _); [f_equal; lia|reflexivity].
  - split; [apply mok_empty|]. intros q. rewrite mget_empty. cbn [existsb]. rewrite andb_false_r. reflexivity.
Qed.

Lemma rank_index_good pr (h : Z -> Z) : NoDup pr -> forall i m, mok m ->
  mok (rank_index (map (fun q => (q, h q)) pr) i m) /\
  (forall k q, nth_error pr k = Some q -> mget (rank_index (map (fun q => (q, h q)) pr) i m) q = Some (i + Z.of_nat k)) /\
  (forall q, ~ In q pr -> mget (rank_index (map (fun q => (q, h q)) pr) i m) q = mget m q).
Proof.
  induction 1 as [|a pr Na ND IH]; intros i m M; cbn [map rank_index fst].
  - split; [exact M|]. split; [|reflexivity]. intros [|] ?; discriminate.
  - destruct (IH (i + 1) _ (mok_insert Z.ltb zltb_swo m a i M)) as (A & B & C). split; [exact A|]. split.
    + intros [|k] q Hq; cbn [nth_error] in Hq.
      * injection Hq as <-. rewrite C by exact Na. rewrite (mget_insert Z.ltb zltb_swo m a i a M), zkq, Z.eqb_refl. f_equal. lia.
      * rewrite (B k q Hq). f_equal. lia.
    + intros q Hq. rewrite C by (intros X; apply Hq; right; exact X). rewrite (mget_insert Z.ltb zltb_swo m a i q M), zkq.
      destruct (Z.eqb_spec q a); [subst; exfalso; apply Hq; left; reflexivity|reflexivity].
Qed.

(** The ranks in the map and the position of each. *)
Definition map_of (ranks order : list Z) (m : xmap) (pr : list Z) : Prop :=
  NoDup pr /\ (forall q, In q pr <-> 0 <= q /\ In q ranks) /\
  x_peers m = map (fun q => (q, occ ranks q)) pr /\ x_order m = order /\
  forall i q, vread ranks i = Some q ->
    if 0 <=? q then exists k, vread (x_idx m) i = Some k /\ vread pr k = Some q else vread (x_idx m) i = Some (-1).

Lemma make_map_ok ranks order : exists m pr, make_map ranks order = Some m /\ map_of ranks order m pr.
Proof.
  destruct (counts_good ranks) as (m & E & M & G). unfold make_map. rewrite E.
  assert (HE : m_entries m = map (fun q => (q, occ ranks q)) (m_keys m)).
  { rewrite (mkeys Z.ltb zEQ m M), map_map. rewrite <- map_id at 1. apply map_ext_in. intros [q v] Hq.
    apply (mget_In Z.ltb zltb_swo zEQ) in Hq; [|exact M]. rewrite G in Hq. cbn [fst]. f_equal. destruct (_ && _); congruence. }
  assert (HK : forall q, In q (m_keys m) <-> 0 <= q /\ In q ranks).
  { intros q. rewrite (mkeys_In Z.ltb zltb_swo zEQ m q M), G. destruct (Z.leb_spec 0 q); cbn [andb].
    - destruct (existsb (Z.eqb q) ranks) eqn:X.
      + apply existsb_exists in X as (x & X1 & X2). apply Z.eqb_eq in X2. subst. split; [auto|discriminate].
      + split; [congruence|]. intros [_ Hi]. exfalso. assert (existsb (Z.eqb q) ranks = true); [apply existsb_exists; exists q; split; [exact Hi|apply Z.eqb_refl]|congruence].
    - split; [congruence|lia]. }
  pose proof (mkeys_NoDup Z.ltb zltb_swo m M) as ND.
  destruct (rank_index_good (m_keys m) (occ ranks) ND 0 map_empty (mok_empty Z.ltb)) as (A & B & _). rewrite <- HE in A, B.
  destruct (omap_total (fun rank => if 0 <=? rank then map_at Z.ltb (rank_index (m_entries m) 0 map_empty) rank else Some (-1)) ranks) as (idx & Hidx).
  { intros q Hq. destruct (Z.leb_spec 0 q); [|eauto]. destruct (In_nth_error (m_keys m) q (proj2 (HK q) (conj H Hq))) as (k & Hk).
    exists (0 + Z.of_nat k). apply (mget_at Z.ltb zltb_swo); auto. }
  rewrite Hidx. eexists. exists (m_keys m). split; [reflexivity|]. split; [exact ND|]. split; [exact HK|]. cbn [x_peers x_order x_idx].
  split; [exact HE|]. split; [reflexivity|]. intros i q Hi. pose proof (vread_In _ _ _ Hi) as Hq.
  assert (Hi' : nth_error ranks (Z.to_nat i) = Some q /\ 0 <= i).
  { unfold vread in Hi. destruct (Z.ltb_spec i 0); [discriminate|]. auto. } destruct Hi' as [Hi' Pi].
  pose proof (omap_nth _ _ _ _ _ Hidx Hi') as (b & Hb & Hf). cbn beta in Hf.
  assert (Hv : vread idx i = Some b) by (unfold vread; destruct (Z.ltb_spec i 0); [lia|exact Hb]).
  destruct (Z.leb_spec 0 q) as [Hp|Hp]; [|congruence].
  destruct (In_nth_error (m_keys m) q (proj2 (HK q) (conj Hp Hq))) as (k & Hk). exists (Z.of_nat k). rewrite vread_nth. split; [|exact Hk].
  rewrite Hv. f_equal. pose proof (mget_at Z.ltb zltb_swo _ q _ A (B k q Hk)) as Z1. cbn in Z1. congruence.
Qed.

(** ** Packing *)

Lemma to_int_small x : 0 <= x < 2 ^ 31 -> to_int x = x.
Proof. intros H. unfold to_int. rewrite Z.mod_small; lia. Qed.

(** The positions with rank q. *)
Definition sel (ranks : list Z) (q : Z) (l : list Z) : list Z :=
  filter (fun j => match vread ranks j with Some x => x =? q | None => false end) l.

Lemma sel_app ranks q l1 l2 : sel ranks q (l1 ++ l2) = sel ranks q l1 ++ sel ranks q l2.
Proof. apply filter_app. Qed.
Lemma sel_one ranks q i x : vread ranks i = Some x -> sel ranks q [i] = if x =? q then [i] else [].
Proof. intros H. unfold sel. cbn [filter]. rewrite H. destruct (x =? q); reflexivity. Qed.
Lemma sel_In ranks q l i : In i (sel ranks q l) <-> In i l /\ vread ranks i = Some q.
Proof.
  unfold sel. rewrite filter_In. destruct (vread ranks i) as [x|]; [|split; intros [? ?]; discriminate].
  destruct (Z.eqb_spec x q) as [->|N]; split; intros [A B]; split; auto; congruence.
Qed.

Lemma sel_zseq ranks q : length (sel ranks q (zseq 0 (length ranks))) = count_occ Z.eq_dec ranks q.
Proof.
  assert (G : forall todo done, ranks = done ++ todo ->
    length (sel ranks q (zseq (Z.of_nat (length done)) (length todo))) = count_occ Z.eq_dec todo q).
  { induction todo as [|a todo IH]; intros done E; [reflexivity|]. cbn [length zseq count_occ].
    change (?x :: ?l) with ([x] ++ l). rewrite sel_app.
    assert (Ha : vread ranks (Z.of_nat (length done)) = Some a) by (rewrite vread_nth, E, nth_error_app2, Nat.sub_diag by lia; reflexivity).
    rewrite (sel_one _ _ _ _ Ha). specialize (IH (done ++ [a])). rewrite app_length in IH. cbn [length] in IH.
    replace (Z.of_nat (length done) + 1) with (Z.of_nat (length done + 1)) by lia. rewrite app_length, IH by (rewrite <- app_assoc; exact E).
    destruct (Z.eq_dec a q), (Z.eqb_spec a q); try congruence; reflexivity. }
  apply (G ranks []). reflexivity.
Qed.

Lemma perm_filter_length {A} (p : A -> bool) l l' : Permutation l l' -> length (filter p l) = length (filter p l').
Proof.
  induction 1; cbn [filter]; [reflexivity|destruct (p x); cbn [length]; congruence| |congruence].
  destruct (p x), (p y); reflexivity.
Qed.

Section Order.
Variables (ranks order : list Z) (m : xmap) (pr : list Z).
Hypothesis HO : is_order ranks order.
Hypothesis HM : map_of ranks order m pr.
Hypothesis HS : Z.of_nat (length ranks) <= 2 ^ 31.

Lemma order_pos i : In i order -> 0 <= i < Z.of_nat (length ranks).
Proof. intros H. apply (Permutation_in _ HO), zseq_In in H. lia. Qed.
Lemma order_In i x : vread ranks i = Some x -> In i order.
Proof. intros H. apply vread_lt in H. apply (Permutation_in _ (Permutation_sym HO)), zseq_In. lia. Qed.
Lemma order_NoDup : NoDup order.
Proof. apply (Permutation_NoDup (Permutation_sym HO)), zseq_NoDup. Qed.
Lemma sel_order q : Z.of_nat (length (sel ranks q order)) = occ ranks q.
Proof. unfold occ. rewrite <- sel_zseq. unfold sel. rewrite (perm_filter_length _ _ _ HO). reflexivity. Qed.
Lemma sel_prefix q l1 i l2 : order = l1 ++ i :: l2 -> vread ranks i = Some q -> Z.of_nat (length (sel ranks q l1)) < occ ranks q.
Proof.
  intros E H. rewrite <- sel_order, E. change (i :: l2) with ([i] ++ l2). rewrite !sel_app, !app_length, (sel_one _ _ _ _ H), Z.eqb_refl. cbn [length]. lia.
Qed.
Lemma order_length : length order = length ranks.
Proof. rewrite (Permutation_length HO), zseq_length. reflexivity. Qed.

Lemma nth_inj {A} (l : list A) i j x : NoDup l -> nth_error l i = Some x -> nth_error l j = Some x -> i = j.
Proof. intros ND A1 A2. apply (proj1 (NoDup_nth_error l) ND); [apply nth_error_Some; congruence|congruence]. Qed.
Lemma vread_inj {A} (l : list A) i j x : NoDup l -> vread l i = Some x -> vread l j = Some x -> i = j.
Proof.
  unfold vread. destruct (Z.ltb_spec i 0); [discriminate|]. destruct (Z.ltb_spec j 0); [discriminate|]. intros ND A1 A2.
  pose proof (nth_inj l _ _ x ND A1 A2). lia.
Qed.

(** The position in the order of the values with rank q is kept in the k-th entry. *)
Definition next_ok (done next : list Z) : Prop :=
  length next = length pr /\ forall k q, vread pr k = Some q -> vread next k = Some (Z.of_nat (length (sel ranks q done))).

Lemma next_start : next_ok [] (new_next m).
Proof.
  destruct HM as (_ & _ & HP & _). unfold new_next. rewrite HP, map_map. split; [apply map_length|].
  intros k q H. rewrite vread_fmap, H. reflexivity.
Qed.

Lemma next_step done i q k next : vread ranks i = Some q -> vread pr k = Some q -> next_ok done next ->
  exists next', vwrite next k (Z.of_nat (length (sel ranks q done)) + 1) = Some next' /\ next_ok (done ++ [i]) next'.
Proof.
  intros Hi Hk [L G]. pose proof HM as (ND & _). pose proof (vread_lt _ _ _ Hk) as B. rewrite <- L in B.
  destruct (vwrite_spec next k (Z.of_nat (length (sel ranks q done)) + 1) B) as (next' & W & L' & R). exists next'. split; [exact W|].
  split; [congruence|]. intros k' q' Hk'. rewrite R, sel_app, app_length, (sel_one _ _ _ _ Hi).
  destruct (Z.eqb_spec k' k) as [->|N].
  - assert (q' = q) by congruence. subst. rewrite Z.eqb_refl. cbn [length]. f_equal. lia.
  - destruct (Z.eqb_spec q q') as [->|N']; [exfalso; apply N; eapply vread_inj; eauto|]. rewrite (G _ _ Hk'). cbn [length]. f_equal. lia.
Qed.

Lemma next_skip done i q next : vread ranks i = Some q -> q < 0 -> next_ok done next -> next_ok (done ++ [i]) next.
Proof.
  intros Hi Hq [L G]. split; [exact L|]. intros k q' Hk. rewrite (G _ _ Hk), sel_app, app_length, (sel_one _ _ _ _ Hi).
  pose proof HM as (_ & HK & _). pose proof (proj1 (proj1 (HK q') (vread_In _ _ _ Hk))).
  destruct (Z.eqb_spec q q'); [lia|]. cbn [length]. f_equal. lia.
Qed.

Section Values.
Context {V : Type}.
Variables (cnt : Z) (junk : V).
Hypothesis HC : 0 <= cnt.

Lemma vals_some len (vals : list (list V)) c i : shaped cnt len vals -> 0 <= c < cnt -> 0 <= i < Z.of_nat len ->
  exists v, vals_at vals c i = Some v.
Proof.
  intros [L R] Hc Hi. unfold vals_at. destruct (vread_ge vals c ltac:(lia)) as (row & E). rewrite E.
  apply vread_ge. rewrite (R row (vread_In _ _ _ E)). exact Hi.
Qed.

Lemma buf_index num c c' k k' : 0 <= k < num -> 0 <= k' < num -> c * num + k = c' * num + k' -> c = c' /\ k = k'.
Proof. intros A B E. assert (c = c') by nia. subst. split; [reflexivity|lia]. Qed.

Lemma pack_col (vals : list (list V)) num nb iv (b : list V) : shaped cnt (length ranks) vals -> 0 <= iv < Z.of_nat (length ranks) -> 0 <= nb < num ->
  Z.of_nat (length b) = cnt * num ->
  exists b', ofoldl (fun b c => let! v := vals_at vals c iv in buf_write cnt num b c nb v) (zseq 0 (Z.to_nat cnt)) b = Some b' /\
    length b' = length b /\
    forall c k, 0 <= c < cnt -> 0 <= k < num -> vread b' (c * num + k) = if k =? nb then vals_at vals c iv else vread b (c * num + k).
Proof.
  intros SH Hiv Hnb Hb.
  destruct (ofoldl_split (fun b c => let! v := vals_at vals c iv in buf_write cnt num b c nb v)
    (fun done b' => length b' = length b /\ forall c k, 0 <= c < cnt -> 0 <= k < num ->
       (In c done -> vread b' (c * num + k) = if k =? nb then vals_at vals c iv else vread b (c * num + k)) /\
       (~ In c done -> vread b' (c * num + k) = vread b (c * num + k))) (zseq 0 (Z.to_nat cnt))) with (s0 := b) as (b' & E & L & G).
  - intros done c todo b1 Ez [L1 G1]. assert (Hc : 0 <= c < cnt).
    { assert (In c (zseq 0 (Z.to_nat cnt))) as Hi by (rewrite Ez; apply in_elt). apply zseq_In in Hi. lia. }
    destruct (vals_some _ vals c iv SH Hc Hiv) as (v & Hv). rewrite Hv. unfold buf_write.
    rewrite (proj2 (Z.leb_le _ _) (proj1 Hc)), (proj2 (Z.ltb_lt _ _) (proj2 Hc)), (proj2 (Z.leb_le _ _) (proj1 Hnb)), (proj2 (Z.ltb_lt _ _) (proj2 Hnb)). cbn [andb].
    destruct (vwrite_spec b1 (c * num + nb) v) as (b2 & W & L2 & R2); [rewrite L1, Hb; nia|]. exists b2. split; [exact W|]. split; [congruence|].
    intros c' k Hc' Hk. rewrite R2. destruct (Z.eqb_spec (c' * num + k) (c * num + nb)) as [Eq|Nq].
    + apply buf_index in Eq; [|lia|lia]. destruct Eq as [-> ->]. rewrite Z.eqb_refl. split; [intros _; congruence|]. intros H. exfalso. apply H, in_elt.
    + destruct (G1 c' k Hc' Hk) as [A B]. split.
      * intros H. apply in_app_or in H as [H|[<-|[]]]; [apply A, H|].
        destruct (Z.eqb_spec k nb) as [->|]; [congruence|].
        destruct (in_dec Z.eq_dec c done) as [Hi|Hi]; [rewrite (A Hi); destruct (Z.eqb_spec k nb); [lia|reflexivity]|apply B, Hi].
      * intros H. apply B. intros X. apply H. apply in_or_app. left. exact X.
  - split; [reflexivity|]. intros c k _ _. split; [intros []|reflexivity].
  - exists b'. split; [exact E|]. split; [exact L|]. intros c k Hc Hk. apply G; auto. apply zseq_In. lia.
Qed.

(** The buffer for rank q. *)
Definition buf_ok (vals : list (list V)) (done : list Z) (q : Z) (b : list V) : Prop :=
  Z.of_nat (length b) = cnt * occ ranks q /\
  forall c k i, 0 <= c < cnt -> nth_error (sel ranks q done) k = Some i ->
    vread b (c * occ ranks q + Z.of_nat k) = vals_at vals c i.

Definition bufs_ok (vals : list (list V)) (done : list Z) (bufs : list (list V)) : Prop :=
  length bufs = length pr /\ forall k q, vread pr k = Some q -> exists b, vread bufs k = Some b /\ buf_ok vals done q b.

Lemma occ_nonneg l q : 0 <= occ l q.
Proof. unfold occ. lia. Qed.

Lemma pack_one_ok vals : shaped cnt (length ranks) vals -> forall done i todo s, order = done ++ i :: todo ->
  bufs_ok vals done (fst s) /\ next_ok done (snd s) ->
  exists s', (let iv := to_int i in
  let! k := vread (x_idx m) iv in
  if 0 <=? k then
    let! p := vread (x_peers m) k in
    let! nb := vread (snd s) k in
    let! b := vread (fst s) k in
    let! b' := ofoldl (fun b c => let! v := vals_at vals c iv in buf_write cnt (snd p) b c nb v) (zseq 0 (Z.to_nat cnt)) b in
    let! bufs := vwrite (fst s) k b' in
    let! next := vwrite (snd s) k (nb + 1) in
    Some (bufs, next)
  else Some s) = Some s' /\ bufs_ok vals (done ++ [i]) (fst s') /\ next_ok (done ++ [i]) (snd s').
Proof.
  intros SH done i todo s E [[LB BO] NO]. assert (Hio : In i order) by (rewrite E; apply in_elt). pose proof (order_pos i Hio) as Bi.
  cbv zeta. rewrite to_int_small by lia. destruct (vread_ge ranks i Bi) as (q & Hq).
  pose proof HM as (ND & HK & HP & _ & HI). specialize (HI i q Hq). destruct (Z.leb_spec 0 q) as [Pq|Pq].
  - destruct HI as (k & Hk & Hpr). rewrite Hk. pose proof (vread_lt _ _ _ Hpr) as Bk. rewrite (proj2 (Z.leb_le 0 k)) by lia.
    rewrite HP, vread_fmap, Hpr. cbn [option_map snd]. rewrite (proj2 NO _ _ Hpr). destruct (BO k q Hpr) as (b & Hb & Lb & Rb). rewrite Hb.
    set (nb := Z.of_nat (length (sel ranks q done))). assert (Hnb : 0 <= nb < occ ranks q) by (pose proof (sel_prefix q done i todo E Hq); unfold nb; lia).
    destruct (pack_col vals (occ ranks q) nb i b SH Bi Hnb Lb) as (b' & Eb & Lb' & Rb'). rewrite Eb.
    destruct (vwrite_spec (fst s) k b' ltac:(lia)) as (bufs & W & LW & RW). rewrite W.
    destruct (next_step done i q k (snd s) Hq Hpr NO) as (next' & Wn & Nn). fold nb in Wn. rewrite Wn.
    exists (bufs, next'). split; [reflexivity|]. split; [|exact Nn]. cbn [fst]. split; [congruence|].
    intros k' q' Hk'. rewrite RW. destruct (Z.eqb_spec k' k) as [->|Nk].
    + assert (q' = q) by congruence. subst q'. exists b'. split; [reflexivity|]. split; [rewrite Lb'; exact Lb|].
      intros c j i' Hc Hj. rewrite sel_app, (sel_one _ _ _ _ Hq), Z.eqb_refl in Hj.
      assert (Bj : 0 <= Z.of_nat j < occ ranks q).
      { assert (j < length (sel ranks q done ++ [i]))%nat by (apply nth_error_Some; congruence). rewrite app_length in H. cbn [length] in H. unfold nb in Hnb. lia. }
      rewrite Rb' by auto. destruct (Z.eqb_spec (Z.of_nat j) nb) as [Ej|Nj].
      * rewrite nth_error_app2 in Hj by (unfold nb in Ej; lia). replace (j - length (sel ranks q done))%nat with 0%nat in Hj by (unfold nb in Ej; lia).
        cbn [nth_error] in Hj. congruence.
      * apply Rb; [exact Hc|]. destruct (Nat.lt_ge_cases j (length (sel ranks q done))) as [Hl|Hl]; [rewrite nth_error_app1 in Hj by exact Hl; exact Hj|].
        exfalso. unfold nb in Nj. destruct (Nat.eq_dec j (length (sel ranks q done))); [lia|]. rewrite nth_error_app2 in Hj by exact Hl.
        destruct (j - length (sel ranks q done))%nat as [|j'] eqn:Ej; [lia|]. cbn [nth_error] in Hj. destruct j'; discriminate.
    + destruct (BO k' q' Hk') as (b2 & Hb2 & Lb2 & Rb2). exists b2. split; [exact Hb2|]. split; [exact Lb2|]. intros c j i' Hc Hj. apply Rb2; [exact Hc|].
      rewrite sel_app, (sel_one _ _ _ _ Hq) in Hj. destruct (Z.eqb_spec q q') as [->|]; [exfalso; apply Nk; eapply vread_inj; eauto|]. rewrite app_nil_r in Hj. exact Hj.
  - rewrite HI. cbn. exists s. split; [reflexivity|]. split; [|apply (next_skip done i q); auto]. split; [exact LB|].
    intros k q' Hk. destruct (BO k q' Hk) as (b & Hb & Lb & Rb). exists b. split; [exact Hb|]. split; [exact Lb|]. intros c j i' Hc Hj. apply Rb; [exact Hc|].
    rewrite sel_app, (sel_one _ _ _ _ Hq) in Hj. pose proof (proj1 (proj1 (HK q') (vread_In _ _ _ Hk))). destruct (Z.eqb_spec q q'); [lia|]. rewrite app_nil_r in Hj. exact Hj.
Qed.

Lemma pack_ok vals : shaped cnt (length ranks) vals ->
  exists bufs, pack cnt m vals (new_bufs cnt junk m) = Some bufs /\ bufs_ok vals order bufs.
Proof.
  intros SH. unfold pack, pack_one. rewrite ofoldl_index. pose proof HM as (ND & HK & HP & HX & _). rewrite HX.
  destruct (ofoldl_split _ (fun done s => bufs_ok vals done (fst s) /\ next_ok done (snd s)) order (pack_one_ok vals SH)
    (new_bufs cnt junk m, new_next m)) as (s' & E & B & _).
  - split; [|apply next_start]. cbn [fst]. unfold new_bufs. rewrite HP, map_map. split; [apply map_length|].
    intros k q Hk. rewrite vread_fmap, Hk. cbn [option_map snd]. eexists. split; [reflexivity|]. split.
    + rewrite repeat_length. pose proof (occ_nonneg ranks q). nia.
    + intros c j i _ Hj. destruct j; discriminate.
  - cbv zeta in E. rewrite E. exists (fst s'). split; [reflexivity|exact B].
Qed.

(** ** Unpacking *)

Lemma unpack_col (b : list V) num nb iv len : 0 <= iv < Z.of_nat len -> 0 <= nb < num -> Z.of_nat (length b) = cnt * num -> forall vals : list (list V), shaped cnt len vals ->
  exists vals', ofoldl (fun vals c =>
        let! v := buf_read cnt num b c nb in
        let! row := vread vals c in
        let! row' := vwrite row iv v in
        vwrite vals c row') (zseq 0 (Z.to_nat cnt)) vals = Some vals' /\ shaped cnt len vals' /\
    forall c i, 0 <= c < cnt -> vals_at vals' c i = if i =? iv then vread b (c * num + nb) else vals_at vals c i.
Proof.
  intros Hiv Hnb Hb vals SH.
  destruct (ofoldl_split (fun vals c =>
        let! v := buf_read cnt num b c nb in
        let! row := vread vals c in
        let! row' := vwrite row iv v in
        vwrite vals c row')
    (fun done vals' => shaped cnt len vals' /\ forall c i, 0 <= c < cnt ->
       (In c done -> vals_at vals' c i = if i =? iv then vread b (c * num + nb) else vals_at vals c i) /\
       (~ In c done -> vals_at vals' c i = vals_at vals c i)) (zseq 0 (Z.to_nat cnt))) with (s0 := vals) as (vals' & E & L & G).
  - intros done c todo v1 Ez [[L1 R1] G1]. assert (Hc : 0 <= c < cnt).
    { assert (In c (zseq 0 (Z.to_nat cnt))) as Hi by (rewrite Ez; apply in_elt). apply zseq_In in Hi. lia. }
    unfold buf_read.
    rewrite (proj2 (Z.leb_le _ _) (proj1 Hc)), (proj2 (Z.ltb_lt _ _) (proj2 Hc)), (proj2 (Z.leb_le _ _) (proj1 Hnb)), (proj2 (Z.ltb_lt _ _) (proj2 Hnb)). cbn [andb].
    destruct (vread_ge b (c * num + nb)) as (v & Hv); [rewrite Hb; nia|]. rewrite Hv.
    destruct (vread_ge v1 c ltac:(lia)) as (row & Hrow). rewrite Hrow. pose proof (R1 row (vread_In _ _ _ Hrow)) as Lrow.
    destruct (vwrite_spec row iv v ltac:(lia)) as (row' & W1 & L2 & R2). rewrite W1.
    destruct (vwrite_spec v1 c row' ltac:(lia)) as (v2 & W2 & L3 & R3). exists v2. split; [exact W2|]. split.
    + split; [congruence|]. intros x Hx. apply In_vread in Hx as (j & Hj). rewrite R3 in Hj. destruct (j =? c); [injection Hj as <-; congruence|]. apply R1, (vread_In _ _ _ Hj).
    + intros c' i Hc'. destruct (G1 c' i Hc') as [A B]. unfold vals_at at 1 3. rewrite R3. destruct (Z.eqb_spec c' c) as [->|Nc].
      * rewrite R2. split; [|intros H; exfalso; apply H, in_elt]. intros _. destruct (Z.eqb_spec i iv) as [->|Ni]; [congruence|].
        assert (X : vals_at v1 c i = vread row i) by (unfold vals_at; rewrite Hrow; reflexivity). rewrite <- X.
        destruct (in_dec Z.eq_dec c done) as [Hi|Hi]; [rewrite (A Hi); destruct (Z.eqb_spec i iv); [lia|reflexivity]|apply B, Hi].
      * fold (vals_at v1 c' i). split.
        -- intros H. apply A. apply in_app_or in H as [H|[H|[]]]; [exact H|congruence].
        -- intros H. apply B. intros X. apply H, in_or_app. left. exact X.
  - split; [exact SH|]. intros c i _. split; [intros []|reflexivity].
  - exists vals'. split; [exact E|]. split; [exact L|]. intros c i Hc. apply G; [exact Hc|]. apply zseq_In. lia.
Qed.

(** The values unpacked so far. *)
Definition out_ok (bufs out : list (list V)) (done : list Z) (vals : list (list V)) : Prop :=
  shaped cnt (length ranks) vals /\
  (forall k q b c j i, vread pr k = Some q -> vread bufs k = Some b -> 0 <= c < cnt -> nth_error (sel ranks q done) j = Some i ->
     vals_at vals c i = vread b (c * occ ranks q + Z.of_nat j)) /\
  (forall c i, 0 <= c < cnt -> (~ In i done \/ exists q, vread ranks i = Some q /\ q < 0) -> vals_at vals c i = vals_at out c i).

Lemma unpack_ok bufs out : shaped cnt (length ranks) out -> length bufs = length pr ->
  (forall k q b, vread pr k = Some q -> vread bufs k = Some b -> Z.of_nat (length b) = cnt * occ ranks q) ->
  exists out', unpack cnt m bufs out = Some out' /\ out_ok bufs out order out'.
Proof.
  intros SH LB HB. unfold unpack, unpack_one. rewrite ofoldl_index. pose proof HM as (ND & HK & HP & HX & HI). rewrite HX.
  edestruct (ofoldl_split (fun (s : list (list V) * list Z) (x : Z) => let iv := to_int x in
    let! k := vread (x_idx m) iv in
    if 0 <=? k then
      let! p := vread (x_peers m) k in
      let! nb := vread (snd s) k in
      let! b := vread bufs k in
      let! vals := ofoldl (fun vals c =>
          let! v := buf_read cnt (snd p) b c nb in
          let! row := vread vals c in
          let! row' := vwrite row iv v in
          vwrite vals c row') (zseq 0 (Z.to_nat cnt)) (fst s) in
      let! next := vwrite (snd s) k (nb + 1) in
      Some (vals, next)
    else Some s) (fun done s => out_ok bufs out done (fst s) /\ next_ok done (snd s)) order) with (s0 := (out, new_next m)) as (s' & E & B & _).
  - intros done i todo s E [(S1 & O1 & O2) NO]. assert (Hio : In i order) by (rewrite E; apply in_elt). pose proof (order_pos i Hio) as Bi.
    assert (Nd : ~ In i done). { pose proof order_NoDup as N. rewrite E in N. apply NoDup_remove_2 in N. intros X. apply N, in_or_app. left. exact X. }
    cbv zeta. rewrite to_int_small by lia. destruct (vread_ge ranks i Bi) as (q & Hq). specialize (HI i q Hq).
    destruct (Z.leb_spec 0 q) as [Pq|Pq].
    + destruct HI as (k & Hk & Hpr). rewrite Hk. pose proof (vread_lt _ _ _ Hpr) as Bk. rewrite (proj2 (Z.leb_le 0 k)) by lia.
      rewrite HP, vread_fmap, Hpr. cbn [option_map snd]. rewrite (proj2 NO _ _ Hpr). destruct (vread_ge bufs k ltac:(lia)) as (b & Hb). rewrite Hb.
      set (nb := Z.of_nat (length (sel ranks q done))). assert (Hnb : 0 <= nb < occ ranks q) by (pose proof (sel_prefix q done i todo E Hq); unfold nb; lia).
      destruct (unpack_col b (occ ranks q) nb i (length ranks) Bi Hnb (HB _ _ _ Hpr Hb) (fst s) S1) as (vals' & Ev & SH' & Rv). rewrite Ev.
      destruct (next_step done i q k (snd s) Hq Hpr NO) as (next' & Wn & Nn). fold nb in Wn. rewrite Wn.
      exists (vals', next'). split; [reflexivity|]. split; [|exact Nn]. cbn [fst]. split; [exact SH'|]. split.
      * intros k' q' b' c j i' Hk' Hb' Hc Hj. rewrite Rv by exact Hc. rewrite sel_app, (sel_one _ _ _ _ Hq) in Hj.
        destruct (Nat.lt_ge_cases j (length (sel ranks q' done))) as [Hl|Hl].
        -- rewrite nth_error_app1 in Hj by exact Hl. destruct (Z.eqb_spec i' i) as [->|Ni].
           ++ exfalso. apply nth_error_In, sel_In in Hj. tauto.
           ++ eapply O1; eauto.
        -- rewrite nth_error_app2 in Hj by exact Hl. destruct (Z.eqb_spec q q') as [<-|Nq].
           ++ destruct (j - length (sel ranks q done))%nat as [|j'] eqn:Ej; cbn [nth_error] in Hj; [|destruct j'; discriminate].
              injection Hj as <-. rewrite Z.eqb_refl. assert (k' = k) by (eapply vread_inj; eauto). subst. assert (b' = b) by congruence. subst.
              replace (Z.of_nat j) with nb by (unfold nb; lia). reflexivity.
           ++ destruct (j - _)%nat; discriminate.
      * intros c i' Hc Hi. rewrite Rv by exact Hc. destruct (Z.eqb_spec i' i) as [->|Ni].
        -- exfalso. destruct Hi as [Hi|(q' & Hq' & Pq')]; [apply Hi, in_elt|]. assert (q' = q) by congruence. lia.
        -- apply O2; [exact Hc|]. destruct Hi as [Hi|Hi]; [left|right; exact Hi]. intros X. apply Hi, in_or_app. left. exact X.
    + rewrite HI. cbn. exists s. split; [reflexivity|]. split; [|apply (next_skip done i q); auto]. split; [exact S1|]. split.
      * intros k' q' b' c j i' Hk' Hb' Hc Hj. rewrite sel_app, (sel_one _ _ _ _ Hq) in Hj. pose proof (proj1 (proj1 (HK q') (vread_In _ _ _ Hk'))).
        destruct (Z.eqb_spec q q'); [lia|]. rewrite app_nil_r in Hj. eapply O1; eauto.
      * intros c i' Hc Hi. apply O2; [exact Hc|]. destruct Hi as [Hi|Hi]; [|right; exact Hi]. left. intros X. apply Hi, in_or_app. left. exact X.
  - split; [|apply next_start]. cbn [fst]. split; [exact SH|]. split; [|reflexivity]. intros k q b c j i _ _ _ Hj. destruct j; discriminate.
  - cbv zeta in E. rewrite E. exists (fst s'). split; [reflexivity|exact B].
Qed.
End Values.
End Order.
