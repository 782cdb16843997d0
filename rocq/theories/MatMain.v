(** Proofs about matching donors and receivers: what the numbers of grids and the files give. *)
From Coq Require Import List ZArith Bool Lia Permutation.
From Verif Require Import TupleModel Base ContModel ArrayModel HashModel ProtoModel ProtoSpec NetModel NetSpec NetProof NetTools MatModel MatSpec MatProof MatLaws.
Import ListNotations.
Local Open Scope Z_scope.

Lemma max_of l v : (forall x, In x l -> x = v) -> l <> [] -> 0 <= v -> fold_right Z.max 0 l = v.
Proof.
  intros H N Hv. destruct l as [|x l]; [congruence|]. clear N. assert (X : forall l, (forall x, In x l -> x = v) -> fold_right Z.max 0 l = v \/ fold_right Z.max 0 l = 0).
  { clear - Hv. induction l as [|y l IH]; intros H; [now right|]. cbn [fold_right]. rewrite (H y (or_introl eq_refl)). destruct (IH (fun x Hx => H x (or_intror Hx))) as [-> | ->]; lia. }
  cbn [fold_right]. rewrite (H x (or_introl eq_refl)). destruct (X l (fun x Hx => H x (or_intror Hx))) as [-> | ->]; lia.
Qed.
Lemma sum_nonneg k f : (forall i, (i < k)%nat -> 0 <= f i) -> 0 <= sum_of k f.
Proof.
  intros H. unfold sum_of. assert (X : forall l, (forall i, In i l -> 0 <= f i) -> 0 <= fold_right Z.add 0 (map f l)).
  { induction l as [|x l IH]; intros Hl; cbn; [lia|]. pose proof (Hl x (or_introl eq_refl)). specialize (IH (fun i Hi => Hl i (or_intror Hi))). lia. }
  apply X. intros i Hi. apply in_seq in Hi. apply H; lia.
Qed.

Section Known.
Context (n grids : nat) (points receivers : nat -> Z) (G : nat -> list (Z * (Z * Z))).
Hypothesis HK : known n grids points receivers G.
Context (D R : nat -> list (list item)).
Let S0 := fun r => MS0 (G r) (D r) (R r).

Lemma total_known (f : Z * Z -> Z) (v : nat -> Z) : (forall i, f (points i, receivers i) = v i) -> (forall i, (i < grids)%nat -> 0 <= v i) ->
  total_of f grids (map S0 (seq 0 n)) = sum_of grids v.
Proof.
  intros Hf Hv. unfold total_of, sum_of. f_equal. apply map_ext_in. intros i Hi. apply in_seq in Hi. unfold on_grid.
  apply max_of; [| |apply Hv; lia].
  - intros x Hx. apply in_flat_map in Hx as (s & Hs & Hx). apply in_map_iff in Hs as (r & <- & Hr). apply in_seq in Hr. cbn [ms_grids S0 MS0] in Hx.
    apply in_map_iff in Hx as ((g & y) & <- & Hy). apply filter_In in Hy as [Hy E]. apply Z.eqb_eq in E. cbn [fst snd] in *.
    destruct (kn_right _ _ _ _ _ HK r g y ltac:(lia) Hy) as (j & Hj & E1 & ->). assert (j = i) as -> by lia. apply Hf.
  - destruct (kn_some _ _ _ _ _ HK i ltac:(lia)) as (r & Hr & Hin). intros E.
    assert (X : In (f (points i, receivers i)) (flat_map (fun s => map (fun x => f (snd x)) (filter (fun x => fst x =? Z.of_nat i + 1) (ms_grids s))) (map S0 (seq 0 n)))).
    { apply in_flat_map. exists (S0 r). split; [apply in_map, in_seq; lia|]. cbn [ms_grids S0 MS0]. apply in_map_iff. exists (Z.of_nat i + 1, (points i, receivers i)).
      split; [reflexivity|]. apply filter_In. split; [exact Hin|]. cbn [fst]. apply Z.eqb_refl. }
    rewrite E in X. destruct X.
Qed.

Definition conns := sum_of grids receivers.
Definition size := Z.min (bins_of (sum_of grids points) n) conns.
Context (junk : nat -> Z -> place).
Hypothesis Hn : (0 < n)%nat.
Hypothesis Ht : conns <= sum_of grids points.
Hypothesis HD : ids_below n conns D.
Hypothesis HR : ids_below n conns R.

Definition final (r : nat) : mst := st size conns G (s8 n size conns D junk (all_items n R)) (s8 n size conns R junk (all_items n D)) r.

Lemma sizes : total_of fst grids (map S0 (seq 0 n)) = sum_of grids points /\ total_of snd grids (map S0 (seq 0 n)) = conns.
Proof.
  split; apply total_known; try reflexivity; intros i Hi; apply (kn_pos _ _ _ _ _ HK i Hi).
Qed.
Lemma match_positive : 0 < conns -> computes n (match_all grids n junk) S0 final.
Proof.
  intros Hp. apply prog_computes. destruct sizes as [E1 E2].
  assert (P : 0 <= sum_of grids points) by (apply sum_nonneg; intros; apply (kn_pos _ _ _ _ _ HK); auto).
  pose proof (bins_of_enough (sum_of grids points) n Hn P) as B.
  assert (0 < bins_of (sum_of grids points) n) by nia.
  unfold final. apply sizes_ok; auto.
  - unfold size. lia.
  - unfold size. nia.
  - fold S0. rewrite E1. reflexivity.
Qed.
End Known.

(** The receivers of the donors. *)
Lemma partner_in l v k : (exists it, In it l /\ it_id it = k /\ partner l v k = it_place it) \/ (forall it, In it l -> it_id it <> k) /\ partner l v k = v.
Proof.
  revert v. induction l as [|it l IH]; intros v; [right; split; [intros it []|reflexivity]|].
  change (partner (it :: l) v k) with (partner l (if it_id it =? k then it_place it else v) k).
  destruct (IH (if it_id it =? k then it_place it else v)) as [(x & A & B & C)|(A & B)].
  - left. exists x. repeat split; auto. now right.
  - rewrite B. destruct (Z.eqb_spec (it_id it) k) as [E|E].
    + left. exists it. repeat split; auto. now left.
    + right. split; [|reflexivity]. intros x [<-|H]; auto.
Qed.

Lemma items_in n (S : nat -> list (list item)) r l it : (r < n)%nat -> In l (S r) -> In it l -> In it (all_items n S).
Proof. intros Hr Hl Hi. apply in_flat_map. exists r. split; [apply in_seq; lia|]. apply in_concat. eauto. Qed.

(** What the result is if there may be no IDs at all: then there are no donors and receivers. *)
Section Result.
Context (n grids : nat) (points receivers : nat -> Z) (G : nat -> list (Z * (Z * Z))).
Hypothesis HK : known n grids points receivers G.
Context (D R : nat -> list (list item)).
Let total := sum_of grids receivers.
Context (junk : nat -> Z -> place).
Hypothesis Hn : (0 < n)%nat.
Hypothesis Hp : total <= sum_of grids points.
Hypothesis HD : ids_below n total D.
Hypothesis HR : ids_below n total R.

Definition unread (it : item) : place := junk (Z.to_nat (Z.quot (it_id it) (size n grids points receivers))) (it_id it).

Lemma empty_items (S : nat -> list (list item)) : total <= 0 -> ids_below n total S -> forall r, (r < n)%nat -> concat (S r) = [].
Proof.
  intros Ht HS r Hr. destruct (concat (S r)) as [|it l] eqn:E; [reflexivity|]. exfalso.
  assert (I : In it (all_items n S)) by (apply in_flat_map; exists r; split; [apply in_seq; lia|rewrite E; now left]). pose proof (HS it I). lia.
Qed.
Lemma empties {A} (ll : list (list A)) : concat ll = [] -> ll = map (fun _ => []) ll.
Proof. induction ll as [|l ll IH]; cbn; intros H; [reflexivity|]. apply app_eq_nil in H as [-> H]. f_equal. auto. Qed.
Lemma empty_build bs ll : concat ll = [] -> ofoldl (fun m its => ofoldl (add_item bs) its m) ll map_empty = Some map_empty.
Proof. induction ll as [|l ll IH]; cbn; intros H; [reflexivity|]. apply app_eq_nil in H as [-> H]. cbn. auto. Qed.
Lemma empty_unpack bs ll x acc : concat ll = [] ->
  ofoldl (fun x its => let! y := ofoldl (take_place bs) its (fst x, []) in Some (fst y, snd x ++ [snd y])) ll (x, acc) = Some (x, acc ++ map (fun _ => []) ll).
Proof. revert acc. induction ll as [|l ll IH]; cbn; intros acc H; [now rewrite app_nil_r|]. apply app_eq_nil in H as [-> H]. cbn. rewrite IH by auto. now rewrite <- app_assoc. Qed.

Definition e1 (S : nat -> list (list item)) (r : nat) : side := Side (S r) map_empty [] [] [] [] [] map_empty [].
Definition e2 (S : nat -> list (list item)) (r : nat) : side := Side (S r) map_empty [] [] [] [] [] map_empty (map (fun _ => []) (S r)).
Lemma named_none (l : list side) r : (forall s, In s l -> sd_send s = map_empty) ->
  named n (fun q => match nth_error l q with Some x => sd_ranks x | None => [] end) r = [].
Proof.
  intros H. unfold named. assert (X : forall k, filter (fun q => existsb (Nat.eqb r) match nth_error l q with Some x => sd_ranks x | None => [] end) k = []).
  { induction k as [|q k IH]; [reflexivity|]. cbn [filter]. destruct (nth_error l q) as [s|] eqn:E; [|exact IH]. unfold sd_ranks. rewrite (H s) by (eapply nth_error_In; eauto). exact IH. }
  apply X.
Qed.
Lemma no_links : XchProof.linked n (fun _ => []) (fun _ => []).
Proof. split; [split; constructor|split; [intros ? ? ? [[]|[]]|reflexivity]]. Qed.
Lemma match_empty : total <= 0 -> computes n (match_all grids n junk) (fun r => MS0 (G r) (D r) (R r)) (fun r => MS (G r) (size n grids points receivers) total (e2 D r) (e2 R r)).
Proof.
  intros Ht. apply prog_computes. pose proof (empty_items D Ht HD) as ED. pose proof (empty_items R Ht HR) as ER.
  destruct (sizes n grids points receivers G HK D R) as [Q1 Q2].
  assert (T0 : total = 0) by (assert (0 <= total) by (apply sum_nonneg; intros; apply (kn_pos _ _ _ _ _ HK); auto); lia).
  pose (X := fun (a b : nat -> side) (r : nat) => MS (G r) (size n grids points receivers) total (a r) (b r)).
  unfold match_all. cbn [prog_ok]. exists (X (e1 D) (e1 R)). split.
  { intros r Hr. cbn beta. unfold ms_sizes. rewrite nth_map_seq by exact Hr. cbv zeta. rewrite Q1, Q2. reflexivity. }
  exists (X (e1 D) (e1 R)). split.
  { intros r Hr. unfold both, sd_build. cbn [ms_m ms_n ms_size X sd_items e1]. rewrite (empty_build _ _ (ED r Hr)), (empty_build _ _ (ER r Hr)). reflexivity. }
  exists (X (e1 D) (e1 R)). split.
  { intros r Hr. cbn beta. rewrite nth_map_seq by exact Hr. unfold on_m, sd_handshake. rewrite map_map. change (map (fun x => ms_m (X (e1 D) (e1 R) x)) (seq 0 n)) with (map (e1 D) (seq 0 n)). rewrite (nth_map_seq (e1 D) n r Hr).
    rewrite named_none by (intros s Hs; apply in_map_iff in Hs as (q & <- & _); reflexivity). reflexivity. }
  exists (X (e1 D) (e1 R)). split.
  { intros r Hr. cbn beta. rewrite nth_map_seq by exact Hr. unfold on_n, sd_handshake. rewrite map_map. change (map (fun x => ms_n (X (e1 D) (e1 R) x)) (seq 0 n)) with (map (e1 R) (seq 0 n)). rewrite (nth_map_seq (e1 R) n r Hr).
    rewrite named_none by (intros s Hs; apply in_map_iff in Hs as (q & <- & _); reflexivity). reflexivity. }
  pose proof no_links as NL.
  exists (X (e1 D) (e1 R)). split.
  { apply two_phase with (sm := fun _ => []) (dm := fun _ => []) (gm := fun _ _ => Count 0) (sn := fun _ => []) (dn := fun _ => []) (gn := fun _ _ => Count 0); auto; intros r Hr; repeat split; reflexivity. }
  exists (X (e1 D) (e1 R)). split.
  { apply two_phase with (sm := fun _ => []) (dm := fun _ => []) (gm := fun _ _ => Count 0) (sn := fun _ => []) (dn := fun _ => []) (gn := fun _ _ => Count 0); auto; intros r Hr; repeat split; reflexivity. }
  assert (F : forall r, size n grids points receivers * Z.of_nat r <? total = false).
  { intros r. apply Z.ltb_ge. unfold size. change (conns grids receivers) with total. rewrite T0. assert (0 <= sum_of grids points) by (apply sum_nonneg; intros; apply (kn_pos _ _ _ _ _ HK); auto).
    pose proof (bins_of_enough (sum_of grids points) n Hn H). assert (0 <= bins_of (sum_of grids points) n) by nia. rewrite Z.min_r by lia. lia. }
  exists (X (e1 D) (e1 R)). split.
  { intros r Hr. cbn beta zeta. unfold both, sd_fill. cbv zeta. cbn [X ms_m ms_n ms_size ms_total ms_grids sd_recv e1 ofoldl]. rewrite F. reflexivity. }
  exists (X (e1 D) (e1 R)). split.
  { apply two_phase with (sm := fun _ => []) (dm := fun _ => []) (gm := fun _ _ => Count 0) (sn := fun _ => []) (dn := fun _ => []) (gn := fun _ _ => Count 0); auto; intros r Hr; repeat split; reflexivity. }
  exists (X (e2 D) (e2 R)). split; [|reflexivity].
  intros r Hr. unfold both, sd_unpack. cbn [X ms_m ms_n ms_size sd_items sd_got e1]. rewrite (empty_unpack _ _ _ [] (ED r Hr)), (empty_unpack _ _ _ [] (ER r Hr)). reflexivity.
Qed.

Lemma match_result : exists S', computes n (match_all grids n junk) (fun r => MS0 (G r) (D r) (R r)) S' /\ forall r, (r < n)%nat ->
  sd_out (ms_m (S' r)) = map (map (fun it => partner (all_items n R) (unread it) (it_id it))) (D r) /\
  sd_out (ms_n (S' r)) = map (map (fun it => partner (all_items n D) (unread it) (it_id it))) (R r).
Proof.
  destruct (Z_lt_le_dec 0 total) as [Ht|Ht].
  - exists (final n grids points receivers G D R junk). split; [apply match_positive; auto|]. intros r Hr. split; reflexivity.
  - eexists. split; [apply (match_empty Ht)|]. intros r Hr. cbn [ms_m ms_n sd_out e2].
    assert (X : forall (S : nat -> list (list item)) f, ids_below n total S -> map (fun _ => []) (S r) = map (map (f : item -> place)) (S r)).
    { intros S f HS. pose proof (empty_items S Ht HS r Hr) as E. rewrite (empties _ E) at 2. rewrite map_map. reflexivity. }
    split; apply X; auto.
Qed.
End Result.

(** Every one matched. *)
Lemma match_paired n grids points receivers G D R junk : (0 < n)%nat -> known n grids points receivers G ->
  sum_of grids receivers <= sum_of grids points -> ids_below n (sum_of grids receivers) D -> ids_below n (sum_of grids receivers) R ->
  (forall k, In k (map it_id (all_items n D)) <-> In k (map it_id (all_items n R))) ->
  exists S', computes n (match_all grids n junk) (fun r => MS0 (G r) (D r) (R r)) S' /\ forall r, (r < n)%nat ->
    paired (D r) (all_items n R) (sd_out (ms_m (S' r))) /\ paired (R r) (all_items n D) (sd_out (ms_n (S' r))).
Proof.
  intros Hn HK Hp HD HR Hk. destruct (match_result n grids points receivers G HK D R junk Hn Hp HD HR) as (S' & C & H). exists S'. split; [exact C|].
  intros r Hr. destruct (H r Hr) as [H1 H2]. rewrite H1, H2.
  assert (X : forall (A B : nat -> list (list item)) f, (forall k, In k (map it_id (all_items n A)) -> In k (map it_id (all_items n B))) ->
    paired (A r) (all_items n B) (map (map (fun it => partner (all_items n B) (f it) (it_id it))) (A r))).
  { intros A B f Hin. unfold paired. assert (Y : forall l, (forall x, In x l -> In x (A r)) ->
      Forall2 (Forall2 (fun it p => exists x, In x (all_items n B) /\ it_id x = it_id it /\ p = it_place x)) l (map (map (fun it => partner (all_items n B) (f it) (it_id it))) l)).
    { induction l as [|its l IH]; intros Hl; cbn [map]; constructor; [|apply IH; intros; apply Hl; now right].
      assert (Z : forall k, (forall it, In it k -> In it its) -> Forall2 (fun it p => exists x, In x (all_items n B) /\ it_id x = it_id it /\ p = it_place x) k (map (fun it => partner (all_items n B) (f it) (it_id it)) k)).
      { induction k as [|it k IHk]; intros Hk'; cbn [map]; constructor; [|apply IHk; intros; apply Hk'; now right].
        destruct (partner_in (all_items n B) (f it) (it_id it)) as [(x & a & b & c)|(a & _)]; [exists x; repeat split; auto|].
        exfalso. assert (I1 : In (it_id it) (map it_id (all_items n A))) by (apply in_map; eapply items_in; [exact Hr|apply Hl; now left|apply Hk'; now left]).
        apply Hin in I1. apply in_map_iff in I1 as (y & E & Hy). exact (a y Hy E). }
      apply Z; auto. }
    apply Y; auto. }
  split; apply X; intros k Hk'; apply Hk; exact Hk'.
Qed.
