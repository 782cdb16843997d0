(** Proofs about process grid dimensions. *)
From Coq Require Import List ZArith Bool Lia Znumtheory.
From Verif Require Import TupleModel Base DecompModel DecompProof DomainModel DomainProof DimsModel DimsSpec.
Import ListNotations.
Local Open Scope Z_scope.

Lemma nd_cases nd : (1 <= nd <= 3)%nat -> nd = 1%nat \/ nd = 2%nat \/ nd = 3%nat.
Proof. lia. Qed.

Lemma variance_spec nd dims : (1 <= nd <= 3)%nat -> (forall d, (d < nd)%nat -> 0 <= tget dims d) ->
  dims_variance nd dims = unevenness (firsts nd dims).
Proof.
  intros H P. unfold dims_variance, unevenness, rounded_mean, firsts, total.
  destruct dims as [a b c].
  destruct (nd_cases nd H) as [->|[-> | ->]].
  - pose proof (P 0%nat ltac:(lia)). cbn [tget c0] in *.
    cbn [seq fold_left firstn map fold_right length tget c0 c1 c2].
    rewrite Z.quot_div_nonneg by lia. rewrite !Z.pow_2_r.
    replace (0 + a) with (a + 0) by lia. lia.
  - pose proof (P 0%nat ltac:(lia)). pose proof (P 1%nat ltac:(lia)). cbn [tget c0 c1] in *.
    cbn [seq fold_left firstn map fold_right length tget c0 c1 c2].
    rewrite Z.quot_div_nonneg by lia. rewrite !Z.pow_2_r.
    replace (0 + a + b) with (a + (b + 0)) by lia. lia.
  - pose proof (P 0%nat ltac:(lia)). pose proof (P 1%nat ltac:(lia)). pose proof (P 2%nat ltac:(lia)). cbn [tget c0 c1 c2] in *.
    cbn [seq fold_left firstn map fold_right length tget c0 c1 c2].
    rewrite Z.quot_div_nonneg by lia. rewrite !Z.pow_2_r.
    replace (0 + a + b + c) with (a + (b + (c + 0))) by lia. lia.
Qed.

(** The factors found divide the number. *)
Lemma product_app a b : product (a ++ b) = product a * product b.
Proof. unfold product. induction a as [|x a IH]; cbn [app fold_right]; [lia|]. rewrite IH. ring. Qed.
Lemma divide_out_ok p : 2 <= p -> forall fuel r acc, 1 <= r -> r < Z.of_nat fuel ->
  exists acc' r', divide_out fuel p r acc = Some (acc', r') /\ 1 <= r' /\
    product acc' * r' = product acc * r /\ (Forall (fun f => 1 <= f) acc -> Forall (fun f => 1 <= f) acc').
Proof.
  intros Hp. induction fuel as [|fuel IH]; intros r acc Hr Hf; [lia|]. cbn [divide_out].
  destruct (Z.eqb_spec (Z.rem r p) 0) as [E|E].
  - rewrite Z.rem_mod_nonneg in E by lia. rewrite Z.quot_div_nonneg by lia.
    assert (Hq : r = p * (r / p)) by (pose proof (Z.div_mod r p); lia).
    assert (1 <= r / p < r). { assert (0 < r / p) by nia. nia. }
    destruct (IH (r / p) (acc ++ [p])) as (acc' & r' & A & B & C & D); [lia|lia|].
    exists acc', r'. split; [exact A|]. split; [exact B|]. split.
    + rewrite C, product_app. cbn [product fold_right]. rewrite Hq at 2. ring.
    + intros F. apply D. apply Forall_app. split; [exact F|]. constructor; [lia|constructor].
  - exists acc, r. repeat split; auto.
Qed.
Lemma prime_factors_ok ps : Forall (fun p => 2 <= p) ps -> forall r acc, 1 <= r ->
  exists fs r', prime_factors ps r acc = Some fs /\ product fs * r' = product acc * r /\
    (Forall (fun f => 1 <= f) acc -> Forall (fun f => 1 <= f) fs).
Proof.
  intros F. induction F as [|p ps Hp F IH]; intros r acc Hr; cbn [prime_factors].
  - exists acc, r. auto.
  - destruct (Z.ltb_spec r p); [exists acc, r; auto|].
    destruct (divide_out_ok p Hp (S (Z.to_nat r)) r acc Hr) as (acc' & r' & A & B & C & D); [lia|].
    rewrite A. destruct (IH r' acc' B) as (fs & r2 & A2 & B2 & C2). exists fs, r2. split; [exact A2|].
    split; [lia|auto].
Qed.
Lemma small_primes_ok : Forall (fun p => 2 <= p) small_primes.
Proof. unfold small_primes. repeat (constructor; [lia|]). constructor. Qed.

Section Fixed.
Variables (nd : nat) (size : Z) (input : tup Z).
Hypothesis Hnd : (1 <= nd <= 3)%nat.

Lemma good_variance dims : good_dims nd size input dims ->
  dims_variance nd dims = unevenness (firsts nd dims).
Proof.
  intros [_ H]. apply variance_spec; [exact Hnd|]. intros d Hd. destruct (H d) as (A & _); [lia|]. specialize (A Hd). lia.
Qed.

(** Moving a factor from one free dimension to another. *)
Lemma move_good dims i o f : good_dims nd size input dims -> (i < nd)%nat -> (o < nd)%nat -> o <> i ->
  tget input i = 0 -> tget input o = 0 -> 1 <= f -> (f | tget dims i) ->
  let d1 := tset dims i (Z.quot (tget dims i) f) in
  let new := tset d1 o (tget d1 o * f) in
  good_dims nd size input new /\ f * tget new i = tget dims i.
Proof.
  intros [P H] Hi Ho Hne Ii Io Hf [q Hq]. cbv zeta.
  assert (Hpos : 1 <= tget dims i) by (apply (H i ltac:(lia)); exact Hi).
  assert (HposO : 1 <= tget dims o) by (apply (H o ltac:(lia)); exact Ho).
  assert (Q : Z.quot (tget dims i) f = q).
  { rewrite Z.quot_div_nonneg by lia. rewrite Hq. apply Z.div_mul. lia. }
  rewrite Q.
  assert (G : forall d, (d < 3)%nat -> tget (tset (tset dims i q) o (tget (tset dims i q) o * f)) d =
     if Nat.eqb d o then tget dims o * f else if Nat.eqb d i then q else tget dims d).
  { intros d Hd. rewrite !tget_tset by lia. destruct (Nat.eqb_spec d o) as [->|]; [|reflexivity].
    destruct (Nat.eqb_spec o i); [congruence|reflexivity]. }
  split.
  - split.
    + revert P G. destruct dims as [a b c]. set (new := tset _ _ _). destruct new as [a' b' c']. intros P G.
      pose proof (G 0%nat ltac:(lia)) as G0. pose proof (G 1%nat ltac:(lia)) as G1. pose proof (G 2%nat ltac:(lia)) as G2.
      unfold firsts in *.
      destruct (nd_cases nd Hnd) as [->|[-> | ->]]; cbn [firstn product fold_right c0 c1 c2 tget] in *.
      * lia.
      * assert (X : ((i = 0 /\ o = 1) \/ (i = 1 /\ o = 0))%nat) by lia.
        destruct X as [[-> ->]|[-> ->]]; cbn [Nat.eqb tget c0 c1 c2] in *; subst; nia.
      * assert (X : ((i = 0 /\ o = 1) \/ (i = 1 /\ o = 0) \/ (i = 0 /\ o = 2) \/ (i = 2 /\ o = 0) \/ (i = 1 /\ o = 2) \/ (i = 2 /\ o = 1))%nat) by lia.
        destruct X as [[-> ->]|[[-> ->]|[[-> ->]|[[-> ->]|[[-> ->]|[-> ->]]]]]]; cbn [Nat.eqb tget c0 c1 c2] in *; subst; ring.
    + intros d Hd. rewrite (G d Hd). destruct (H d Hd) as (A & B & C).
      destruct (Nat.eqb_spec d o) as [->|]; [|destruct (Nat.eqb_spec d i) as [->|]].
      * repeat split; [intros; nia|congruence|lia].
      * repeat split; [intros; nia|congruence|lia].
      * auto.
  - rewrite (G i) by lia. destruct (Nat.eqb_spec i o); [congruence|]. rewrite Nat.eqb_refl. lia.
Qed.

Lemma move_factor_ok dims i f fs : good_dims nd size input dims -> (i < nd)%nat -> tget input i = 0 ->
  1 <= f -> (f * product fs | tget dims i) ->
  let r := move_factor nd input i dims f in
  good_dims nd size input r /\ (product fs | tget r i) /\ dims_variance nd r <= dims_variance nd dims.
Proof.
  intros G Hi Ii Hf Hdiv. cbv zeta. unfold move_factor.
  set (F := fun best c => _).
  assert (X : forall l best, (forall c, In c l -> Nat.modulo c nd <> i) ->
     good_dims nd size input (fst best) /\ (product fs | tget (fst best) i) /\ snd best = dims_variance nd (fst best) /\
     snd best <= dims_variance nd dims ->
     let best' := fold_left F l best in
     good_dims nd size input (fst best') /\ (product fs | tget (fst best') i) /\ snd best' = dims_variance nd (fst best') /\
     snd best' <= dims_variance nd dims).
  { induction l as [|c l IH]; intros best Hl HB; [exact HB|]. cbn [fold_left]. apply IH; [intros; apply Hl; right; assumption|].
    unfold F. cbv zeta. destruct (Z.eqb_spec (tget input (c mod nd)) 0) as [Io|Io]; [|exact HB].
    destruct (move_good dims i (c mod nd) f G Hi) as [G' E']; auto.
    - apply Nat.mod_upper_bound. lia.
    - apply Hl. left. reflexivity.
    - destruct Hdiv as [q Hq]. exists (q * product fs). lia.
    - cbv zeta in *. destruct (Z.ltb_spec (dims_variance nd (tset (tset dims i (tget dims i ÷ f)) (c mod nd)
        (tget (tset dims i (tget dims i ÷ f)) (c mod nd) * f))) (snd best)) as [Hlt|Hlt]; [|exact HB].
      cbn [fst snd]. split; [exact G'|]. split; [|split; [reflexivity|lia]].
      destruct Hdiv as [q Hq]. exists q. rewrite <- E' in Hq. nia. }
  destruct (X (seq (i + 1) (nd - 1)) (dims, dims_variance nd dims)) as (A & B & C & D).
  - intros c Hc. apply in_seq in Hc. intros E.
    destruct (Nat.lt_ge_cases c nd) as [L1|L1]; [rewrite Nat.mod_small in E by lia; lia|].
    replace c with (c - nd + 1 * nd)%nat in E by lia. rewrite Nat.mod_add in E by lia.
    rewrite Nat.mod_small in E by lia. lia.
  - cbn [fst snd]. split; [exact G|]. split; [|split; [reflexivity|lia]].
    destruct Hdiv as [q Hq]. exists (q * f). lia.
  - cbv zeta in *. rewrite C in D. auto.
Qed.
Lemma move_factors_ok i fs : (i < nd)%nat -> tget input i = 0 -> Forall (fun f => 1 <= f) fs ->
  forall dims, good_dims nd size input dims -> (product fs | tget dims i) ->
  let r := fold_left (move_factor nd input i) fs dims in
  good_dims nd size input r /\ dims_variance nd r <= dims_variance nd dims.
Proof.
  intros Hi Ii F. induction F as [|f fs Hf F IH]; intros dims G Hdiv; cbv zeta; [cbn; split; [exact G|lia]|].
  cbn [fold_left]. destruct (move_factor_ok dims i f fs G Hi Ii Hf Hdiv) as (A & B & C). cbv zeta in *.
  destruct (IH _ A B) as [D E]. cbv zeta in *. split; [exact D|lia].
Qed.
Lemma rebalance_gen l : (forall i, In i l -> (i < nd)%nat) -> forall dims, good_dims nd size input dims ->
  exists r, ofold (fun dims i => if Z.eqb (tget input i) 0 then
                         match prime_factors small_primes (tget dims i) [] with
                         | Some fs => Some (fold_left (move_factor nd input i) fs dims) | None => None end
                       else Some dims) l dims = Some r /\
    good_dims nd size input r /\ dims_variance nd r <= dims_variance nd dims.
Proof.
  induction l as [|i l IH]; intros Hl dims G; [exists dims; split; [reflexivity|split; [exact G|lia]]|].
  cbn [ofold]. pose proof (Hl i (or_introl eq_refl)) as Hi.
  assert (Hl' : forall j, In j l -> (j < nd)%nat) by (intros j Hj; apply Hl; right; exact Hj).
  destruct (Z.eqb_spec (tget input i) 0) as [E|E]; [|apply IH; assumption].
  assert (Hp : 1 <= tget dims i) by (apply (proj2 G i ltac:(lia)); exact Hi).
  destruct (prime_factors_ok small_primes small_primes_ok (tget dims i) [] Hp) as (fs & r' & A & B & C).
  rewrite A. destruct (move_factors_ok i fs Hi E (C (Forall_nil _)) dims G) as [D V].
  { exists r'. cbn [product fold_right] in B. lia. }
  cbv zeta in *. destruct (IH Hl' _ D) as (r & R1 & R2 & R3). exists r. split; [exact R1|]. split; [exact R2|lia].
Qed.
End Fixed.

(** The swaps. *)
Lemma tup3_tset (a b c : Z) i v : tset (T3 a b c) i v =
  match i with 0%nat => T3 v b c | 1%nat => T3 a v c | 2%nat => T3 a b v | _ => T3 a b c end.
Proof. destruct i as [|[|[|]]]; reflexivity. Qed.

Lemma swap_one nd size input i j d : (1 <= nd <= 3)%nat -> (i < j)%nat -> (j < 3)%nat ->
  good_dims nd size input d ->
  good_dims nd size input (swap_if input i j d) /\
  (forall f : Z -> Z, total (map f (firsts nd (swap_if input i j d))) = total (map f (firsts nd d))).
Proof.
  intros Hnd Hij Hj [P H]. unfold swap_if.
  destruct (Z.eqb_spec (tget input i) 0) as [Ii|]; [|split; [split; assumption|reflexivity]].
  destruct (Z.eqb_spec (tget input j) 0) as [Ij|]; [|split; [split; assumption|reflexivity]].
  destruct (Z.ltb_spec (tget d i) (tget d j)) as [Hlt|]; [|split; [split; assumption|reflexivity]]. cbn [andb].
  destruct (H i ltac:(lia)) as (Ai & Bi & Ci). destruct (H j Hj) as (Aj & Bj & Cj).
  assert (Hjn : (j < nd)%nat).
  { destruct (Nat.lt_ge_cases j nd) as [|Hge]; [assumption|]. rewrite (Cj Hge), Ij in Hlt.
    destruct (Nat.lt_ge_cases i nd) as [X|X]; [specialize (Ai X); lia|rewrite (Ci X), Ii in Hlt; lia]. }
  assert (Hin : (i < nd)%nat) by lia. specialize (Ai Hin). specialize (Aj Hjn).
  assert (G : forall k, (k < 3)%nat -> tget (tset (tset d i (tget d j)) j (tget d i)) k =
     if Nat.eqb k j then tget d i else if Nat.eqb k i then tget d j else tget d k).
  { intros k Hk. rewrite !tget_tset by lia. reflexivity. }
  assert (X : (i = 0 /\ j = 1 \/ i = 0 /\ j = 2 \/ i = 1 /\ j = 2)%nat) by lia.
  revert G. set (r := tset _ _ _). intros G.
  split; [split|].
  - pose proof (G 0%nat ltac:(lia)) as G0. pose proof (G 1%nat ltac:(lia)) as G1. pose proof (G 2%nat ltac:(lia)) as G2.
    clearbody r. destruct r as [a' b' c'], d as [a b c]. unfold firsts, product in *.
    destruct (nd_cases nd Hnd) as [->|[-> | ->]]; destruct X as [[-> ->]|[[-> ->]|[-> ->]]]; try lia;
      cbn [firstn fold_right c0 c1 c2 tget Nat.eqb] in *; subst; ring.
  - intros k Hk. rewrite (G k Hk). destruct (H k Hk) as (A & B & C).
    destruct (Nat.eqb_spec k j) as [->|]; [|destruct (Nat.eqb_spec k i) as [->|]]; repeat split; auto; intros; try lia; try congruence.
  - intros f. pose proof (G 0%nat ltac:(lia)) as G0. pose proof (G 1%nat ltac:(lia)) as G1. pose proof (G 2%nat ltac:(lia)) as G2.
    clearbody r. destruct r as [a' b' c'], d as [a b c]. unfold firsts, total in *.
    destruct (nd_cases nd Hnd) as [->|[-> | ->]]; destruct X as [[-> ->]|[[-> ->]|[-> ->]]]; try lia;
      cbn [firstn fold_right map c0 c1 c2 tget Nat.eqb] in *; subst; ring.
Qed.
Lemma swap_values input i j d k : (i < 3)%nat -> (j < 3)%nat -> (k < 3)%nat ->
  tget (swap_if input i j d) k =
  if Z.eqb (tget input i) 0 && Z.eqb (tget input j) 0
  then if Nat.eqb k i then Z.max (tget d i) (tget d j) else if Nat.eqb k j then Z.min (tget d i) (tget d j) else tget d k
  else tget d k.
Proof.
  intros Hi Hj Hk. unfold swap_if.
  destruct (Z.eqb (tget input i) 0 && Z.eqb (tget input j) 0); cbn [andb]; [|reflexivity].
  destruct (Z.ltb_spec (tget d i) (tget d j)).
  - rewrite !tget_tset by lia. destruct (Nat.eqb_spec k i), (Nat.eqb_spec k j); subst; try lia. 
  - destruct (Nat.eqb_spec k i), (Nat.eqb_spec k j); subst; try lia.
Qed.
Lemma swaps_ok nd size input d : (1 <= nd <= 3)%nat -> good_dims nd size input d ->
  let r := swap_if input 1 2 (swap_if input 0 2 (swap_if input 0 1 d)) in
  good_dims nd size input r /\ free_sorted input r /\
  (forall f : Z -> Z, total (map f (firsts nd r)) = total (map f (firsts nd d))).
Proof.
  intros Hnd G0. cbv zeta.
  destruct (swap_one nd size input 0 1 d Hnd ltac:(lia) ltac:(lia) G0) as [G1 T1].
  destruct (swap_one nd size input 0 2 _ Hnd ltac:(lia) ltac:(lia) G1) as [G2 T2].
  destruct (swap_one nd size input 1 2 _ Hnd ltac:(lia) ltac:(lia) G2) as [G3 T3].
  split; [exact G3|]. split.
  - intros i j Hij Hj Ii Ij.
    assert (X : (i = 0 /\ j = 1 \/ i = 0 /\ j = 2 \/ i = 1 /\ j = 2)%nat) by lia.
    destruct X as [[-> ->]|[[-> ->]|[-> ->]]]; rewrite !swap_values by lia; rewrite ?Ii, ?Ij; cbn [Z.eqb Nat.eqb andb];
      repeat (rewrite ?andb_true_r, ?andb_true_l;
              match goal with |- context [Z.eqb (tget input ?k) 0] => destruct (Z.eqb (tget input k) 0); cbn [andb] end); lia.
  - intros f. rewrite T3, T2, T1. reflexivity.
Qed.

Lemma uneven_perm nd d r : (forall f : Z -> Z, total (map f (firsts nd r)) = total (map f (firsts nd d))) ->
  length (firsts nd r) = length (firsts nd d) -> unevenness (firsts nd r) = unevenness (firsts nd d).
Proof.
  intros H HL. unfold unevenness.
  assert (E : rounded_mean (firsts nd r) = rounded_mean (firsts nd d)).
  { unfold rounded_mean. rewrite HL. pose proof (H (fun x => x)) as X. rewrite !map_id in X. rewrite X. reflexivity. }
  rewrite E. apply H.
Qed.

Lemma decomp_dims_ok nd size input mpi : (1 <= nd <= 3)%nat -> good_dims nd size input mpi ->
  exists r, decomp_dims nd input mpi = Some r /\ good_dims nd size input r /\ free_sorted input r /\
    unevenness (firsts nd r) <= unevenness (firsts nd mpi).
Proof.
  intros Hnd G. unfold decomp_dims, rebalance.
  destruct (rebalance_gen nd size input Hnd (seq 0 nd)) with (dims := mpi) as (d & -> & G1 & V); [intros i Hi; apply in_seq in Hi; lia|exact G|].
  destruct (swaps_ok nd size input d Hnd G1) as (A & B & C). cbv zeta in *.
  eexists. split; [reflexivity|]. split; [exact A|]. split; [exact B|].
  rewrite (uneven_perm nd d _ C); [|unfold firsts; rewrite !firstn_length; reflexivity].
  rewrite <- (good_variance nd size input Hnd d G1), <- (good_variance nd size input Hnd mpi G). exact V.
Qed.
