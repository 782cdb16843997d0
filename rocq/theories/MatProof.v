(** Proofs about matching donors and receivers: one rank. *)
From Coq Require Import List ZArith Bool Lia.
From Verif Require Import TupleModel RangeModel RangeProof Base IndexerModel ArrayModel ArrayProof ContModel ContSpec ContProof MapProof OMap.
From Verif Require Import HashModel HashProof ProtoModel ProtoSpec NetModel NetSpec NetProof NetPhase NetTools SendModel SendProof XchProof MatModel MatSpec.
Import ListNotations.
Local Open Scope Z_scope.

Local Notation mok := (mok Z.ltb).
Local Notation mget := (mget Z.ltb).

Lemma two_phase n recvs sends done (S S' : nat -> mst) sm dm gm sn dn gn :
  linked n sm dm -> linked n sn dn ->
  (forall r, (r < n)%nat -> recvs (ms_m (S r)) = sm r /\ recvs (ms_n (S r)) = sn r) ->
  (forall r, (r < n)%nat -> sends (ms_m (S r)) = map (fun d => (d, gm r d)) (dm r) /\ sends (ms_n (S r)) = map (fun d => (d, gn r d)) (dn r)) ->
  (forall r, (r < n)%nat -> done (ms_m (S r)) (map (fun s => gm s r) (sm r)) = Some (ms_m (S' r)) /\
     done (ms_n (S r)) (map (fun s => gn s r) (sn r)) = Some (ms_n (S' r))) ->
  (forall r, (r < n)%nat -> ms_grids (S' r) = ms_grids (S r) /\ ms_size (S' r) = ms_size (S r) /\ ms_total (S' r) = ms_total (S r)) ->
  phase_ok n (two_sided recvs sends done) S S'.
Proof.
  intros (A1 & B1 & C1) (A2 & B2 & C2) HR HS HD HK. unfold two_sided, wait_all, phase_ok. split.
  - intros r Hr. cbn [p_recvs p_sends]. destruct (HR r Hr) as [-> ->]. split; [|split].
    + intros s Hs. apply in_app_or in Hs as [Hs|Hs]; eauto.
    + intros d m Hm. destruct (HS r Hr) as [E1 E2]. rewrite E1, E2 in Hm. apply in_app_or in Hm as [Hm|Hm];
        apply in_map_iff in Hm as (d' & E & Hd); injection E as -> _; eauto.
    + intros s Hs. destruct (HS s Hs) as [-> ->]. rewrite count_app, msgs_to_app, !count_memb by (apply A1 || apply A2; auto).
      rewrite !msgs_single by (apply A1 || apply A2; auto). rewrite app_length. f_equal.
      * destruct (memb s (sm r)) eqn:M1, (memb r (dm s)) eqn:M2; try reflexivity.
        -- apply memb_In in M1. apply memb_false in M2. exfalso. apply M2, C1; auto.
        -- apply memb_In in M2. apply memb_false in M1. exfalso. apply M1, C1; auto.
      * destruct (memb s (sn r)) eqn:M1, (memb r (dn s)) eqn:M2; try reflexivity.
        -- apply memb_In in M1. apply memb_false in M2. exfalso. apply M2, C2; auto.
        -- apply memb_In in M2. apply memb_false in M1. exfalso. apply M1, C2; auto.
  - intros r l Hr A. cbn [p_done]. destruct (HR r Hr) as [R1 R2]. destruct (HD r Hr) as [D1 D2].
    erewrite buffers_arrival with (p := P2P (fun _ s => recvs (ms_m s) ++ recvs (ms_n s)) (fun _ s => sends (ms_m s) ++ sends (ms_n s)) _) (S := S) (r := r)
      (ms := map (fun s => gm s r) (sm r) ++ map (fun s => gn s r) (sn r)).
    + rewrite R1. rewrite firstn_app, skipn_app. rewrite !map_length, !Nat.sub_diag. cbn [firstn skipn]. rewrite app_nil_r.
      rewrite firstn_all2 by (rewrite map_length; lia). rewrite skipn_all2 by (rewrite map_length; lia). cbn [app].
      rewrite D1, D2. destruct (HK r Hr) as (K1 & K2 & K3). rewrite <- K1, <- K2, <- K3. destruct (S' r); reflexivity.
    + exact A.
    + cbn [p_recvs]. rewrite R1, R2. rewrite !app_length, !map_length. reflexivity.
    + intros i Hi. unfold recv_msg. cbn [p_recvs p_sends]. rewrite R1, R2.
      destruct (Nat.lt_ge_cases i (length (sm r))) as [L|L].
      * rewrite nth_error_app1 by exact L. rewrite (nth_error_app1 (map _ _)) by (rewrite map_length; exact L).
        destruct (nth_error (sm r) i) as [s|] eqn:E; [|apply nth_error_None in E; lia].
        rewrite (map_nth_error _ _ _ E). assert (Is : In s (sm r)) by (apply nth_error_In in E; exact E). assert (Hs : (s < n)%nat) by eauto.
        destruct (HS s Hs) as [-> ->]. rewrite msgs_to_app, !msgs_single by (apply A1 || apply A2; auto).
        rewrite firstn_app. replace (i - length (sm r))%nat with 0%nat by lia. cbn [firstn]. rewrite app_nil_r.
        rewrite count_firstn by (try apply A1; auto). rewrite (proj2 (memb_In r (dm s)) (proj1 (C1 r s Hr Hs) Is)). reflexivity.
      * rewrite nth_error_app2 by exact L. rewrite (nth_error_app2 (map _ _)) by (rewrite map_length; exact L). rewrite map_length.
        rewrite !app_length, !map_length in Hi.
        destruct (nth_error (sn r) (i - length (sm r))) as [s|] eqn:E; [|apply nth_error_None in E; lia].
        rewrite (map_nth_error _ _ _ E). assert (Is : In s (sn r)) by (apply nth_error_In in E; exact E). assert (Hs : (s < n)%nat) by eauto.
        destruct (HS s Hs) as [-> ->]. rewrite msgs_to_app, !msgs_single by (apply A1 || apply A2; auto).
        rewrite firstn_app, firstn_all2 by exact L. rewrite count_app, (count_firstn _ (sn r)) by (try apply A2; auto). rewrite Nat.add_0_r.
        rewrite count_memb by (apply A1; auto). rewrite (proj2 (memb_In r (dn s)) (proj1 (C2 r s Hr Hs) Is)).
        destruct (memb s (sm r)) eqn:M1, (memb r (dm s)) eqn:M2; try reflexivity.
        -- apply memb_In in M1. apply memb_false in M2. exfalso. apply M2, C1; auto.
        -- apply memb_In in M2. apply memb_false in M1. exfalso. apply M1, C1; auto.
Qed.


(** ** The items of a rank, by bin *)

Section Rank.
Context (bs : Z).
Hypothesis Hl : 0 < bs.

Definition bin (it : item) : Z := Z.quot (it_id it) bs.
Definition at_bin (b : Z) (l : list item) : list item := filter (fun it => bin it =? b) l.
Definition by_bin (l : list item) (m : smap Z (list item)) : Prop :=
  mok m /\ forall b, mget m b = match at_bin b l with [] => None | x => Some x end.

Lemma at_bin_app b l1 l2 : at_bin b (l1 ++ l2) = at_bin b l1 ++ at_bin b l2.
Proof. apply filter_app. Qed.
Lemma at_bin_one b k : at_bin b [k] = if bin k =? b then [k] else [].
Proof. reflexivity. Qed.

Lemma add_item_ok l m k : by_bin l m -> exists m', add_item bs m k = Some m' /\ by_bin (l ++ [k]) m'.
Proof.
  intros [M G]. unfold add_item, bin_of. destruct (Z.eqb_spec bs 0); [lia|]. fold (bin k).
  destruct (map_fetch Z.ltb m (bin k) []) as [m' i] eqn:F.
  destruct (fetch_entry m (bin k) [] M) as (e & E1 & E2). rewrite F in E1. cbn [fst snd] in E1. rewrite E1.
  eexists. split; [reflexivity|]. destruct (fetch_write m (bin k) [] (snd e ++ [k]) M) as [W1 W2]. rewrite F in W1, W2. cbn [fst snd] in W1, W2.
  split; [exact W1|]. intros b. rewrite W2, at_bin_app. unfold at_bin at 2. cbn [filter]. destruct (Z.eqb_spec b (bin k)) as [->|N].
  - rewrite Z.eqb_refl, E2, G. destruct (at_bin (bin k) l); reflexivity.
  - destruct (Z.eqb_spec (bin k) b); [congruence|]. rewrite app_nil_r. apply G.
Qed.
Lemma add_items_ok l2 : forall l1 m, by_bin l1 m -> exists m', ofoldl (add_item bs) l2 m = Some m' /\ by_bin (l1 ++ l2) m'.
Proof.
  induction l2 as [|it l2 IH]; intros l1 m G; cbn [ofoldl].
  - exists m. rewrite app_nil_r. auto.
  - destruct (add_item_ok l1 m it G) as (m1 & -> & G1). destruct (IH (l1 ++ [it]) m1 G1) as (m' & E & G'). exists m'. rewrite <- app_assoc in G'. auto.
Qed.
Lemma build_ok ll : exists m, ofoldl (fun m its => ofoldl (add_item bs) its m) ll map_empty = Some m /\ by_bin (concat ll) m.
Proof.
  assert (G : forall ll l1 m, by_bin l1 m -> exists m', ofoldl (fun m its => ofoldl (add_item bs) its m) ll m = Some m' /\ by_bin (l1 ++ concat ll) m').
  { clear ll. induction ll as [|l ll' IH]; intros l1 m Gm; cbn [ofoldl concat].
    - exists m. rewrite app_nil_r. auto.
    - destruct (add_items_ok l l1 m Gm) as (m1 & -> & G1). destruct (IH (l1 ++ l) m1 G1) as (m' & E & G'). exists m'. rewrite <- app_assoc in G'. auto. }
  apply (G ll [] map_empty). split; [apply mok_empty|]. intros b. reflexivity.
Qed.

Lemma by_bin_keys l m : by_bin l m -> forall b, In b (m_keys m) <-> exists k, In k l /\ bin k = b.
Proof.
  intros [M G] b. rewrite (mkeys_In Z.ltb zltb_swo zEQ m b M), G. split.
  - destruct (at_bin b l) as [|k q] eqn:E; [congruence|]. intros _. exists k.
    assert (I : In k (at_bin b l)) by (rewrite E; left; reflexivity). apply filter_In in I as [I J]. apply Z.eqb_eq in J. auto.
  - intros (k & I & J). destruct (at_bin b l) as [|k' q] eqn:E; [|discriminate].
    assert (X : In k (at_bin b l)) by (apply filter_In; split; [exact I|apply Z.eqb_eq, J]). rewrite E in X. contradiction.
Qed.

Lemma by_bin_entries l m : by_bin l m -> m_entries m = map (fun b => (b, at_bin b l)) (m_keys m).
Proof.
  intros [M G]. rewrite (mkeys Z.ltb zEQ m M), map_map. rewrite <- (map_id (m_entries m)) at 1. apply map_ext_in. intros [b v] H.
  cbn [fst]. apply (mget_In Z.ltb zltb_swo zEQ m b v M) in H. rewrite G in H. destruct (at_bin b l); congruence.
Qed.

(** ** Reading the answers *)

Section Take.
Context (ans : item -> place) (all : list item).

(** The items of [done] have been answered. *)
Definition taken (done : list item) (m : smap Z (Z * list place)) : Prop :=
  mok m /\ forall b, mget m b = match at_bin b all with [] => None | x => Some (Z.of_nat (length (at_bin b done)), map ans x) end.

Lemma take_place_ok done k todo m acc : all = done ++ k :: todo -> taken done m ->
  exists m', take_place bs (m, acc) k = Some (m', acc ++ [ans k]) /\ taken (done ++ [k]) m'.
Proof.
  intros E [M G]. unfold take_place, bin_of. cbn [fst snd]. destruct (Z.eqb_spec bs 0); [lia|]. fold (bin k).
  assert (A : at_bin (bin k) all = at_bin (bin k) done ++ k :: at_bin (bin k) todo).
  { rewrite E, at_bin_app. unfold at_bin at 2. cbn [filter]. rewrite Z.eqb_refl. reflexivity. }
  assert (Gk : mget m (bin k) = Some (Z.of_nat (length (at_bin (bin k) done)), map ans (at_bin (bin k) all))).
  { rewrite G. destruct (at_bin (bin k) all) eqn:X; [|reflexivity]. destruct (at_bin (bin k) done); discriminate. }
  pose proof (mget_at Z.ltb zltb_swo m (bin k) _ M Gk) as P. unfold map_at in P.
  destruct (nth_error (m_entries m) (set_lower Z.ltb (m_keys m) (bin k))) as [e|]; [|discriminate].
  cbn [option_map] in P. injection P as P. rewrite P. cbn [fst snd].
  rewrite vread_nth, A, map_app, nth_error_app2, map_length, Nat.sub_diag by (rewrite map_length; lia). cbn [map nth_error].
  eexists. split; [reflexivity|]. split.
  - apply (mok_write Z.ltb zltb_swo); [exact M|congruence].
  - intros b. rewrite (mget_write Z.ltb zltb_swo zEQ) by (congruence || exact M). rewrite zkq.
    rewrite at_bin_app, at_bin_one. destruct (Z.eqb_spec b (bin k)) as [->|N].
    + rewrite Z.eqb_refl, A, app_length. cbn [length].
      destruct (at_bin (bin k) done) eqn:X; cbn [app]; rewrite ?map_app; cbn [map length app]; rewrite ?map_app; cbn [map]; repeat f_equal; lia.
    + destruct (Z.eqb_spec (bin k) b); [congruence|]. rewrite app_nil_r. apply G.
Qed.

Lemma take_places_ok l2 : forall l1 todo m acc, all = (l1 ++ l2) ++ todo -> taken l1 m ->
  exists m', ofoldl (take_place bs) l2 (m, acc) = Some (m', acc ++ map ans l2) /\ taken (l1 ++ l2) m'.
Proof.
  induction l2 as [|it l2 IH]; intros l1 todo m acc E G; cbn [ofoldl].
  - exists m. cbn [map]. rewrite !app_nil_r. auto.
  - assert (E0 : all = l1 ++ it :: (l2 ++ todo)) by (rewrite E, <- app_assoc; reflexivity).
    destruct (take_place_ok l1 it (l2 ++ todo) m acc E0 G) as (m1 & -> & G1).
    assert (E' : all = ((l1 ++ [it]) ++ l2) ++ todo) by (rewrite E0, <- !app_assoc; reflexivity).
    destruct (IH (l1 ++ [it]) todo m1 (acc ++ [ans it]) E' G1) as (m' & E2 & G').
    exists m'. rewrite E2. cbn [map]. rewrite <- !app_assoc in *. auto.
Qed.
Lemma unpack_ok ll m : all = concat ll -> taken [] m ->
  exists m', ofoldl (fun x its => let! y := ofoldl (take_place bs) its (fst x, []) in Some (fst y, snd x ++ [snd y])) ll (m, []) = Some (m', map (map ans) ll).
Proof.
  assert (G : forall ll l1 m acc, all = l1 ++ concat ll -> taken l1 m ->
    exists m', ofoldl (fun x its => let! y := ofoldl (take_place bs) its (fst x, []) in Some (fst y, snd x ++ [snd y])) ll (m, acc) = Some (m', acc ++ map (map ans) ll)).
  { clear ll m. induction ll as [|l ll' IH]; intros l1 m acc E Gm; cbn [ofoldl concat map].
    - exists m. rewrite app_nil_r. auto.
    - cbn [fst snd]. assert (E' : all = (l1 ++ l) ++ concat ll') by (rewrite E; cbn [concat]; now rewrite app_assoc).
      destruct (take_places_ok l l1 _ m [] E' Gm) as (m1 & -> & G1). cbn [fst snd app].
      destruct (IH (l1 ++ l) m1 (acc ++ [map ans l]) E' G1) as (m' & E2). exists m'. rewrite E2, <- app_assoc. reflexivity. }
  intros E Gm. apply (G ll [] m []); auto.
Qed.
End Take.
End Rank.

(** ** Filling a bin *)
Lemma partner_app l1 l2 v k : partner (l1 ++ l2) v k = partner l2 (partner l1 v k) k.
Proof. unfold partner. apply fold_left_app. Qed.
Lemma fill_items b l : forall a, (forall it, In it l -> b <= it_id it < b + Z.of_nat (length a)) ->
  exists a', ofoldl (fun a it => vwrite a (it_id it - b) (it_place it)) l a = Some a' /\ length a' = length a /\
    forall k v, vread a (k - b) = Some v -> vread a' (k - b) = Some (partner l v k).
Proof.
  induction l as [|it l IH]; intros a H; cbn [ofoldl].
  - exists a. auto.
  - destruct (vwrite_spec a (it_id it - b) (it_place it)) as (a1 & E & L & R); [specialize (H it (or_introl eq_refl)); lia|]. rewrite E.
    destruct (IH a1) as (a' & E' & L' & R'); [rewrite L; intros; apply H; cbn; auto|]. exists a'. split; [exact E'|].
    split; [lia|]. intros k v Hv. change (partner (it :: l) v k) with (partner l (if it_id it =? k then it_place it else v) k). apply R'. rewrite R.
    destruct (Z.eqb_spec (k - b) (it_id it - b)), (Z.eqb_spec (it_id it) k); try lia; auto.
Qed.
Lemma fill_all b ll : forall a, (forall it, In it (concat ll) -> b <= it_id it < b + Z.of_nat (length a)) ->
  exists a', ofoldl (fun a its => ofoldl (fun a it => vwrite a (it_id it - b) (it_place it)) its a) ll a = Some a' /\ length a' = length a /\
    forall k v, vread a (k - b) = Some v -> vread a' (k - b) = Some (partner (concat ll) v k).
Proof.
  induction ll as [|l ll IH]; intros a H; cbn [ofoldl concat].
  - exists a. auto.
  - destruct (fill_items b l a) as (a1 & E & L & R); [intros; apply H; cbn [concat]; apply in_or_app; auto|]. rewrite E.
    destruct (IH a1) as (a' & E' & L' & R'); [rewrite L; intros; apply H; cbn [concat]; apply in_or_app; auto|]. exists a'. split; [exact E'|].
    split; [lia|]. intros k v Hv. rewrite partner_app. auto.
Qed.
Lemma partner_filter (f : item -> bool) l v k : (forall it, In it l -> it_id it = k -> f it = true) -> partner (filter f l) v k = partner l v k.
Proof.
  revert v. induction l as [|it l IH]; intros v H; [reflexivity|]. cbn [filter].
  change (partner (it :: l) v k) with (partner l (if it_id it =? k then it_place it else v) k).
  destruct (f it) eqn:F.
  - change (partner (it :: filter f l) v k) with (partner (filter f l) (if it_id it =? k then it_place it else v) k). apply IH. intros; apply H; cbn; auto.
  - destruct (Z.eqb_spec (it_id it) k) as [E|_]; [|apply IH; intros; apply H; cbn; auto]. rewrite (H it (or_introl eq_refl) E) in F. discriminate.
Qed.
