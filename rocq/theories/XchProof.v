(** Proofs about finding the ranks of an exchange: one rank. *)
From Coq Require Import List ZArith Bool Lia.
From Verif Require Import TupleModel RangeModel RangeProof Base IndexerModel ArrayModel ArrayProof ContModel ContSpec ContProof MapProof OMap.
From Verif Require Import HashModel HashProof ProtoModel ProtoSpec NetModel NetSpec NetProof NetPhase NetTools SendModel SendProof XchModel XchSpec.
Import ListNotations.
Local Open Scope Z_scope.

Local Notation mok := (mok Z.ltb).
Local Notation mget := (mget Z.ltb).

(** ** Two kinds of messages in one phase *)

(** Who receives from whom. *)
Definition linked (n : nat) (src dst : nat -> list nat) : Prop :=
  (forall r, (r < n)%nat -> NoDup (src r) /\ NoDup (dst r)) /\
  (forall r s, (r < n)%nat -> In s (src r) \/ In s (dst r) -> (s < n)%nat) /\
  (forall r s, (r < n)%nat -> (s < n)%nat -> (In s (src r) <-> In r (dst s))).

Lemma linked_sym n src dst : linked n src dst -> linked n dst src.
Proof.
  intros (A & B & C). split; [intros r Hr; destruct (A r Hr); auto|]. split.
  - intros r s Hr [H|H]; eauto.
  - intros r s Hr Hs. symmetry. apply C; auto.
Qed.

Lemma count_firstn (s : nat) l i : NoDup l -> nth_error l i = Some s -> count s (firstn i l) = 0%nat.
Proof.
  intros N E. rewrite count_memb.
  - destruct (memb s (firstn i l)) eqn:M; [|reflexivity]. apply memb_In in M. exfalso.
    apply In_nth_error in M as (j & Hj). rewrite nth_error_firstn in Hj. destruct (Nat.ltb_spec j i); [|discriminate].
    assert (j = i); [|lia]. apply (proj1 (NoDup_nth_error l) N); [apply nth_error_Some; congruence|congruence].
  - rewrite <- (firstn_skipn i l) in N. revert N. generalize (firstn i l), (skipn i l). clear. induction l as [|a l IH]; intros q H; [constructor|].
    inversion H; subst. constructor; [|eapply IH; eauto]. intros X. apply H2. apply in_or_app. auto.
Qed.

Lemma two_phase n recvs sends done (S S' : nat -> xst) sm dm gm sn dn gn :
  linked n sm dm -> linked n sn dn ->
  (forall r, (r < n)%nat -> recvs (xm (S r)) = sm r /\ recvs (xn (S r)) = sn r) ->
  (forall r, (r < n)%nat -> sends (xm (S r)) = map (fun d => (d, gm r d)) (dm r) /\ sends (xn (S r)) = map (fun d => (d, gn r d)) (dn r)) ->
  (forall r, (r < n)%nat -> done (xm (S r)) (map (fun s => gm s r) (sm r)) = Some (xm (S' r)) /\
     done (xn (S r)) (map (fun s => gn s r) (sn r)) = Some (xn (S' r))) ->
  phase_ok n (two_sided recvs sends done) S S'.
Proof.
  intros (A1 & B1 & C1) (A2 & B2 & C2) HR HS HD. unfold two_sided, wait_all, phase_ok. split.
  - intros r Hr. cbn [p_recvs p_sends]. destruct (HR r Hr) as [-> ->]. split; [|split].
    + intros s Hs. apply in_app_or in Hs as [Hs|Hs]; eauto.
    + intros d m Hm. destruct (HS r Hr) as [E1 E2]. rewrite E1, E2 in Hm. apply in_app_or in Hm as [Hm|Hm];
        apply in_map_iff in Hm as (d' & E & Hd); injection E as -> _; eauto.
    + intros s Hs. destruct (HS s Hs) as [-> ->]. rewrite count_app, msgs_to_app, !count_memb by (apply A1 || apply A2; auto).
      rewrite !msgs_single by (apply A1 || apply A2; auto). rewrite app_length. f_equal.
      * destruct (memb s (sm r)) eqn:M1, (memb r (dm s)) eqn:M2; try reflexivity.
        -- apply memb_In in M1. apply memb_false in M2. exfalso. apply M2, C1; auto.
        -- apply memb_In in M2. apply memb_false in M1. exfalso. apply M1, C1; auto.
      * destruct (memb s (sn r)) eqn:M1, (memb r (dn s)) eqn:M2; try reflexivity.
        -- apply memb_In in M1. apply memb_false in M2. exfalso. apply M2, C2; auto.
        -- apply memb_In in M2. apply memb_false in M1. exfalso. apply M1, C2; auto.
  - intros r l Hr A. cbn [p_done]. destruct (HR r Hr) as [R1 R2]. destruct (HD r Hr) as [D1 D2].
    erewrite buffers_arrival with (p := P2P (fun _ s => recvs (xm s) ++ recvs (xn s)) (fun _ s => sends (xm s) ++ sends (xn s)) _) (S := S) (r := r)
      (ms := map (fun s => gm s r) (sm r) ++ map (fun s => gn s r) (sn r)).
    + rewrite R1. rewrite firstn_app, skipn_app. rewrite !map_length, !Nat.sub_diag. cbn [firstn skipn]. rewrite app_nil_r.
      rewrite firstn_all2 by (rewrite map_length; lia). rewrite skipn_all2 by (rewrite map_length; lia). cbn [app].
      rewrite D1, D2. destruct (S' r); reflexivity.
    + exact A.
    + cbn [p_recvs]. rewrite R1, R2. rewrite !app_length, !map_length. reflexivity.
    + intros i Hi. unfold recv_msg. cbn [p_recvs p_sends]. rewrite R1, R2.
      destruct (Nat.lt_ge_cases i (length (sm r))) as [L|L].
      * rewrite nth_error_app1 by exact L. rewrite (nth_error_app1 (map _ _)) by (rewrite map_length; exact L).
        destruct (nth_error (sm r) i) as [s|] eqn:E; [|apply nth_error_None in E; lia].
        rewrite (map_nth_error _ _ _ E). assert (Is : In s (sm r)) by (apply nth_error_In in E; exact E). assert (Hs : (s < n)%nat) by eauto.
        destruct (HS s Hs) as [-> ->]. rewrite msgs_to_app, !msgs_single by (apply A1 || apply A2; auto).
        rewrite firstn_app. replace (i - length (sm r))%nat with 0%nat by lia. cbn [firstn]. rewrite app_nil_r.
        rewrite count_firstn by (try apply A1; auto). rewrite (proj2 (memb_In r (dm s)) (proj1 (C1 r s Hr Hs) Is)). reflexivity.
      * rewrite nth_error_app2 by exact L. rewrite (nth_error_app2 (map _ _)) by (rewrite map_length; exact L). rewrite map_length.
        rewrite !app_length, !map_length in Hi.
        destruct (nth_error (sn r) (i - length (sm r))) as [s|] eqn:E; [|apply nth_error_None in E; lia].
        rewrite (map_nth_error _ _ _ E). assert (Is : In s (sn r)) by (apply nth_error_In in E; exact E). assert (Hs : (s < n)%nat) by eauto.
        destruct (HS s Hs) as [-> ->]. rewrite msgs_to_app, !msgs_single by (apply A1 || apply A2; auto).
        rewrite firstn_app, firstn_all2 by exact L. rewrite count_app, (count_firstn _ (sn r)) by (try apply A2; auto). rewrite Nat.add_0_r.
        rewrite count_memb by (apply A1; auto). rewrite (proj2 (memb_In r (dn s)) (proj1 (C2 r s Hr Hs) Is)).
        destruct (memb s (sm r)) eqn:M1, (memb r (dm s)) eqn:M2; try reflexivity.
        -- apply memb_In in M1. apply memb_false in M2. exfalso. apply M2, C1; auto.
        -- apply memb_In in M2. apply memb_false in M1. exfalso. apply M1, C1; auto.
Qed.

(** ** Maps with any values *)

Lemma fetch_write {V} (m : smap Z V) k v0 v : mok m ->
  let x := map_fetch Z.ltb m k v0 in
  mok (map_write (fst x) (snd x) v) /\
  forall q, mget (map_write (fst x) (snd x) v) q = if q =? k then Some v else mget m q.
Proof.
  intros G x. pose proof (mok_fetch Z.ltb zltb_swo m k v0 G) as G1.
  pose proof (mget_fetch Z.ltb zltb_swo zEQ m k v0) as F.
  assert (N : mget (fst x) k <> None).
  { unfold x. rewrite F by exact G. rewrite zkq, Z.eqb_refl. destruct (mget m k); discriminate. }
  unfold x in *. rewrite (fetch_pos Z.ltb zltb_swo m k v0 G). split.
  - apply (mok_write Z.ltb zltb_swo); auto.
  - intros q. rewrite (mget_write Z.ltb zltb_swo zEQ) by auto. rewrite zkq.
    destruct (Z.eqb_spec q k) as [->|E]; [reflexivity|]. rewrite F by exact G. rewrite zkq.
    destruct (Z.eqb_spec q k); [congruence|reflexivity].
Qed.

Lemma fetch_entry {V} (m : smap Z V) k v0 : mok m ->
  let x := map_fetch Z.ltb m k v0 in
  exists e, nth_error (m_entries (fst x)) (snd x) = Some e /\ snd e = match mget m k with Some w => w | None => v0 end.
Proof.
  intros G x. destruct (map_fetch_good (fun _ => True) Z.ltb zltb_swo m k v0 G I) as (_ & _ & N & _). fold x in N. rewrite N.
  pose proof (mget_fetch Z.ltb zltb_swo zEQ m k v0 k G) as F. rewrite zkq, Z.eqb_refl in F. unfold OMap.mget at 1 in F. fold x in F.
  destruct (mlookup Z.ltb (m_entries (fst x)) k) as [e|]; cbn [option_map] in F.
  - exists e. split; [reflexivity|]. destruct (mget m k); congruence.
  - destruct (mget m k); discriminate.
Qed.

(** ** The points of a rank, by partition *)

Section Rank.
Context (grids : list (Z * range)) (lps : Z).
Hypothesis Hl : 0 < lps.

Definition key (sl : slot) : Z := match linear_point grids (sl_grid sl) (sl_pt sl) with Some k => k | None => 0 end.
Definition keys (l : list slot) : list Z := map key (filter sl_want l).
Definition bin (k : Z) : Z := Z.quot k lps.
Definition at_bin (b : Z) (l : list Z) : list Z := filter (fun k => bin k =? b) l.

Definition sound (l : list slot) : Prop := forall sl, In sl l -> sl_want sl = true -> linear_point grids (sl_grid sl) (sl_pt sl) = Some (key sl).

Definition by_bin (l : list Z) (m : smap Z (list Z)) : Prop :=
  mok m /\ forall b, mget m b = match at_bin b l with [] => None | x => Some x end.

Lemma at_bin_app b l1 l2 : at_bin b (l1 ++ l2) = at_bin b l1 ++ at_bin b l2.
Proof. apply filter_app. Qed.

Lemma at_bin_one b k : at_bin b [k] = if bin k =? b then [k] else [].
Proof. reflexivity. Qed.

Lemma add_point_ok l m k : by_bin l m -> exists m', add_point lps m k = Some m' /\ by_bin (l ++ [k]) m'.
Proof.
  intros [M G]. unfold add_point, partition_of. destruct (Z.eqb_spec lps 0); [lia|]. fold (bin k).
  destruct (map_fetch Z.ltb m (bin k) []) as [m' i] eqn:F.
  destruct (fetch_entry m (bin k) [] M) as (e & E1 & E2). rewrite F in E1. cbn [fst snd] in E1. rewrite E1.
  eexists. split; [reflexivity|]. destruct (fetch_write m (bin k) [] (snd e ++ [k]) M) as [W1 W2]. rewrite F in W1, W2. cbn [fst snd] in W1, W2.
  split; [exact W1|]. intros b. rewrite W2, at_bin_app. unfold at_bin at 2. cbn [filter]. destruct (Z.eqb_spec b (bin k)) as [->|N].
  - rewrite Z.eqb_refl, E2, G. destruct (at_bin (bin k) l); reflexivity.
  - destruct (Z.eqb_spec (bin k) b); [congruence|]. rewrite app_nil_r. apply G.
Qed.

Definition add_slot (m : smap Z (list Z)) (sl : slot) : option (smap Z (list Z)) :=
  if sl_want sl then let! k := linear_point grids (sl_grid sl) (sl_pt sl) in add_point lps m k else Some m.

Lemma add_slots_ok l2 : sound l2 -> forall l1 m, by_bin (keys l1) m ->
  exists m', ofoldl add_slot l2 m = Some m' /\ by_bin (keys (l1 ++ l2)) m'.
Proof.
  induction l2 as [|sl l2 IH]; intros HS l1 m G; cbn [ofoldl].
  - exists m. rewrite app_nil_r. auto.
  - assert (H : exists m', add_slot m sl = Some m' /\ by_bin (keys (l1 ++ [sl])) m').
    { unfold add_slot, keys. rewrite filter_app, map_app. cbn [filter]. destruct (sl_want sl) eqn:W.
      - rewrite (HS sl) by (cbn; auto). cbn [map]. apply add_point_ok, G.
      - exists m. split; [reflexivity|]. cbn [map]. rewrite app_nil_r. exact G. }
    destruct H as (m1 & -> & G1). destruct (IH (fun x Hx => HS x (or_intror Hx)) (l1 ++ [sl]) m1 G1) as (m' & E & G').
    exists m'. rewrite <- app_assoc in G'. auto.
Qed.

Lemma build_ok ll : sound (concat ll) -> exists m, ofoldl (fun m sls => ofoldl add_slot sls m) ll map_empty = Some m /\ by_bin (keys (concat ll)) m.
Proof.
  assert (G : forall ll l1 m, sound (concat ll) -> by_bin (keys l1) m ->
    exists m', ofoldl (fun m sls => ofoldl add_slot sls m) ll m = Some m' /\ by_bin (keys (l1 ++ concat ll)) m').
  { clear ll. induction ll as [|l ll' IH]; intros l1 m HS Gm; cbn [ofoldl concat].
    - exists m. rewrite app_nil_r. auto.
    - destruct (add_slots_ok l (fun x Hx => HS x (in_or_app _ _ _ (or_introl Hx))) l1 m Gm) as (m1 & -> & G1).
      destruct (IH (l1 ++ l) m1 (fun x Hx => HS x (in_or_app _ _ _ (or_intror Hx))) G1) as (m' & E & G').
      exists m'. rewrite <- app_assoc in G'. auto. }
  intros HS. apply (G ll [] map_empty HS). split; [apply mok_empty|]. intros b. reflexivity.
Qed.

Lemma by_bin_keys l m : by_bin l m -> forall b, In b (m_keys m) <-> exists k, In k l /\ bin k = b.
Proof.
  intros [M G] b. rewrite (mkeys_In Z.ltb zltb_swo zEQ m b M), G. split.
  - destruct (at_bin b l) as [|k q] eqn:E; [congruence|]. intros _. exists k.
    assert (I : In k (at_bin b l)) by (rewrite E; left; reflexivity). apply filter_In in I as [I J]. apply Z.eqb_eq in J. auto.
  - intros (k & I & J). destruct (at_bin b l) as [|k' q] eqn:E; [|discriminate].
    assert (X : In k (at_bin b l)) by (apply filter_In; split; [exact I|apply Z.eqb_eq, J]). rewrite E in X. contradiction.
Qed.

Lemma by_bin_entries l m : by_bin l m -> m_entries m = map (fun b => (b, at_bin b l)) (m_keys m).
Proof.
  intros [M G]. rewrite (mkeys Z.ltb zEQ m M), map_map. rewrite <- (map_id (m_entries m)) at 1. apply map_ext_in. intros [b v] H.
  cbn [fst]. apply (mget_In Z.ltb zltb_swo zEQ m b v M) in H. rewrite G in H. destruct (at_bin b l); congruence.
Qed.

(** ** Reading the answers *)

Section Take.
Context (ans : Z -> Z) (all : list Z).

(** The points of [done] have been answered. *)
Definition taken (done : list Z) (m : smap Z (Z * list Z)) : Prop :=
  mok m /\ forall b, mget m b = match at_bin b all with [] => None | x => Some (Z.of_nat (length (at_bin b done)), map ans x) end.

Lemma take_rank_ok done k todo m : all = done ++ k :: todo -> taken done m ->
  exists m', take_rank lps m k = Some (m', ans k) /\ taken (done ++ [k]) m'.
Proof.
  intros E [M G]. unfold take_rank, partition_of. destruct (Z.eqb_spec lps 0); [lia|]. fold (bin k).
  assert (A : at_bin (bin k) all = at_bin (bin k) done ++ k :: at_bin (bin k) todo).
  { rewrite E, at_bin_app. unfold at_bin at 2. cbn [filter]. rewrite Z.eqb_refl. reflexivity. }
  assert (Gk : mget m (bin k) = Some (Z.of_nat (length (at_bin (bin k) done)), map ans (at_bin (bin k) all))).
  { rewrite G. destruct (at_bin (bin k) all) eqn:X; [|reflexivity]. destruct (at_bin (bin k) done); discriminate. }
  pose proof (mget_at Z.ltb zltb_swo m (bin k) _ M Gk) as P. unfold map_at in P.
  destruct (nth_error (m_entries m) (set_lower Z.ltb (m_keys m) (bin k))) as [e|]; [|discriminate].
  cbn [option_map] in P. injection P as P. rewrite P. cbn [fst snd].
  rewrite vread_nth, A, map_app, nth_error_app2, map_length, Nat.sub_diag by (rewrite map_length; lia). cbn [map nth_error].
  eexists. split; [reflexivity|]. split.
  - apply (mok_write Z.ltb zltb_swo); [exact M|congruence].
  - intros b. rewrite (mget_write Z.ltb zltb_swo zEQ) by (congruence || exact M). rewrite zkq.
    rewrite at_bin_app, at_bin_one. destruct (Z.eqb_spec b (bin k)) as [->|N].
    + rewrite Z.eqb_refl, A, app_length. cbn [length].
      destruct (at_bin (bin k) done) eqn:X; cbn [app]; rewrite ?map_app; cbn [map length app]; rewrite ?map_app; cbn [map]; repeat f_equal; lia.
    + destruct (Z.eqb_spec (bin k) b); [congruence|]. rewrite app_nil_r. apply G.
Qed.

Definition outcome (sl : slot) : Z := if sl_want sl then ans (key sl) else sl_rank sl.

Lemma take_slots_ok l2 : sound l2 -> forall l1 todo m acc, all = keys (l1 ++ l2) ++ todo -> taken (keys l1) m ->
  exists m', ofoldl (take_slot grids lps) l2 (m, acc) = Some (m', acc ++ map outcome l2) /\ taken (keys (l1 ++ l2)) m'.
Proof.
  induction l2 as [|sl l2 IH]; intros HS l1 todo m acc E G; cbn [ofoldl].
  - exists m. cbn [map]. rewrite !app_nil_r. auto.
  - assert (H : exists m1, take_slot grids lps (m, acc) sl = Some (m1, acc ++ [outcome sl]) /\ taken (keys (l1 ++ [sl])) m1).
    { unfold take_slot, outcome, keys in *. cbn [fst snd]. rewrite filter_app, map_app in *. cbn [filter] in *. destruct (sl_want sl) eqn:W.
      - rewrite (HS sl) by (cbn; auto). cbn [map] in *. rewrite <- app_assoc in E. cbn [app] in E.
        destruct (take_rank_ok _ _ _ m E G) as (m1 & -> & G1). eauto.
      - exists m. split; [reflexivity|]. cbn [map]. rewrite app_nil_r. exact G. }
    destruct H as (m1 & -> & G1).
    assert (E' : all = keys ((l1 ++ [sl]) ++ l2) ++ todo) by (rewrite <- app_assoc; exact E).
    destruct (IH (fun x Hx => HS x (or_intror Hx)) (l1 ++ [sl]) todo m1 (acc ++ [outcome sl]) E' G1) as (m' & E2 & G').
    exists m'. rewrite E2. rewrite <- !app_assoc in *. auto.
Qed.

Lemma unpack_ok ll m : sound (concat ll) -> all = keys (concat ll) -> taken [] m ->
  exists m', ofoldl (fun x sls => let! y := ofoldl (take_slot grids lps) sls (fst x, []) in Some (fst y, snd x ++ [snd y])) ll (m, []) =
    Some (m', map (map outcome) ll).
Proof.
  assert (G : forall ll l1 m acc, sound (concat ll) -> all = keys (l1 ++ concat ll) -> taken (keys l1) m ->
    exists m', ofoldl (fun x sls => let! y := ofoldl (take_slot grids lps) sls (fst x, []) in Some (fst y, snd x ++ [snd y])) ll (m, acc) =
      Some (m', acc ++ map (map outcome) ll)).
  { clear ll m. induction ll as [|l ll' IH]; intros l1 m acc HS E Gm; cbn [ofoldl concat map].
    - exists m. rewrite app_nil_r. auto.
    - cbn [fst snd]. assert (E' : all = keys (l1 ++ l) ++ keys (concat ll')).
      { rewrite E. cbn [concat]. rewrite app_assoc. unfold keys. rewrite !filter_app, !map_app. reflexivity. }
      destruct (take_slots_ok l (fun x Hx => HS x (in_or_app _ _ _ (or_introl Hx))) l1 _ m [] E' Gm) as (m1 & -> & G1). cbn [fst snd app].
      destruct (IH (l1 ++ l) m1 (acc ++ [map outcome l]) (fun x Hx => HS x (in_or_app _ _ _ (or_intror Hx)))) as (m' & E2).
      + rewrite <- app_assoc. exact E.
      + exact G1.
      + exists m'. rewrite E2, <- app_assoc. reflexivity. }
  intros HS E Gm. apply (G ll [] m []); auto.
Qed.
End Take.

(** ** The ranks of a partition *)

Lemma fill_one (b rank : Z) l : forall a, (forall k, In k l -> b <= k < b + Z.of_nat (length a)) ->
  exists a', ofoldl (fun a k => vwrite a (k - b) rank) l a = Some a' /\ length a' = length a /\
    forall k, vread a' (k - b) = if existsb (Z.eqb k) l then Some rank else vread a (k - b).
Proof.
  induction l as [|k l IH]; intros a H; cbn [ofoldl existsb].
  - exists a. auto.
  - destruct (vwrite_spec a (k - b) rank) as (a1 & E & L & R); [specialize (H k (or_introl eq_refl)); lia|]. rewrite E.
    destruct (IH a1) as (a' & E' & L' & R'); [rewrite L; intros; apply H; cbn; auto|]. exists a'. split; [exact E'|].
    split; [lia|]. intros k'. rewrite R'. destruct (existsb (Z.eqb k') l) eqn:X; [rewrite orb_true_r; reflexivity|].
    rewrite orb_false_r, R. destruct (Z.eqb_spec (k' - b) (k - b)), (Z.eqb_spec k' k); try lia; reflexivity.
Qed.

Definition latest (k : Z) (v : Z) (l : list (nat * list Z)) : Z :=
  fold_left (fun acc x => if existsb (Z.eqb k) (snd x) then Z.of_nat (fst x) else acc) l v.

Lemma fill_ok b l : forall a, (forall x k, In x l -> In k (snd x) -> b <= k < b + Z.of_nat (length a)) ->
  exists a', ofoldl (fun a x => ofoldl (fun a k => vwrite a (k - b) (Z.of_nat (fst x))) (snd x) a) l a = Some a' /\ length a' = length a /\
    forall k v, vread a (k - b) = Some v -> vread a' (k - b) = Some (latest k v l).
Proof.
  induction l as [|x l IH]; intros a H; cbn [ofoldl].
  - exists a. auto.
  - destruct (fill_one b (Z.of_nat (fst x)) (snd x) a) as (a1 & E & L & R); [intros k Hk; apply (H x k); cbn; auto|]. rewrite E.
    destruct (IH a1) as (a' & E' & L' & R'); [rewrite L; intros; eapply H; cbn; eauto|]. exists a'. split; [exact E'|].
    split; [lia|]. intros k v Hv. unfold latest. cbn [fold_left]. apply R'. rewrite R, Hv. destruct (existsb _ _); reflexivity.
Qed.
End Rank.

Definition found (n : nat) (K : nat -> list Z) (k : Z) : Z := latest k (-1) (map (fun q => (q, K q)) (seq 0 n)).

Lemma existsb_eqb k l : existsb (Z.eqb k) l = true <-> In k l.
Proof.
  rewrite existsb_exists. split; [intros (x & I & E); apply Z.eqb_eq in E; congruence|]. intros I. exists k. split; [exact I|apply Z.eqb_refl].
Qed.

Lemma found_last n K k : last_rank n (fun q => In k (K q)) (found n K k).
Proof.
  unfold found, latest. induction n as [|n IH].
  - left. split; [reflexivity|]. intros q Hq. lia.
  - rewrite seq_S, map_app, fold_left_app. cbn [map fold_left fst snd Nat.add]. destruct (existsb (Z.eqb k) (K n)) eqn:E.
    + right. exists n. apply existsb_eqb in E. split; [reflexivity|]. split; [lia|]. split; [exact E|]. intros. lia.
    + assert (N : ~ In k (K n)) by (rewrite <- existsb_eqb; congruence).
      destruct IH as [[-> H]|(q & -> & Hq & Pq & Mq)].
      * left. split; [reflexivity|]. intros q Hq Pq. destruct (Nat.eq_dec q n) as [->|]; [auto|]. apply (H q); [lia|exact Pq].
      * right. exists q. split; [reflexivity|]. split; [lia|]. split; [exact Pq|]. intros q' Hq' P'.
        destruct (Nat.eq_dec q' n) as [->|]; [contradiction|]. apply Mq; [lia|exact P'].
Qed.
