(** Proofs about finding the ranks of an exchange: all ranks. *)
From Coq Require Import List ZArith Bool Lia.
From Verif Require Import TupleModel RangeModel RangeProof Base IndexerModel ArrayModel ArrayProof ContModel ContSpec ContProof MapProof OMap.
From Verif Require Import HashModel HashProof ProtoModel ProtoSpec NetModel NetSpec NetProof NetPhase NetTools SendModel SendProof.
From Verif Require Import XchModel XchSpec XchProof.
Import ListNotations.
Local Open Scope Z_scope.

Local Notation mok := (mok Z.ltb).
Local Notation mget := (mget Z.ltb).

Lemma bin_divide_pos t n : (0 < n)%nat -> 0 < t -> 0 < bin_divide t n /\ t <= bin_divide t n * Z.of_nat n.
Proof.
  intros Hn Ht. unfold bin_divide. set (N := Z.of_nat n). assert (0 < N) by lia.
  rewrite Z.quot_div_nonneg by lia. pose proof (Z.div_mod (t + N - 1) N ltac:(lia)). pose proof (Z.mod_pos_bound (t + N - 1) N ltac:(lia)). nia.
Qed.

Section Global.
Context (grids : list (Z * range)) (n : nat) (Hn : (0 < n)%nat).
Let total := total_points grids.
Let lps := bin_divide total n.
Hypothesis Ht : 0 < total.

Lemma Hl : 0 < lps.
Proof. apply bin_divide_pos; auto. Qed.
Lemma Htl : total <= lps * Z.of_nat n.
Proof. apply bin_divide_pos; auto. Qed.

Local Notation bin := (bin lps).
Local Notation at_bin := (at_bin lps).

Lemma bin_bounds k : 0 <= k < total -> 0 <= bin k < Z.of_nat n.
Proof.
  intros H. pose proof Hl. pose proof Htl. unfold XchProof.bin. rewrite Z.quot_div_nonneg by lia.
  split; [apply Z.div_pos; lia|]. apply Z.div_lt_upper_bound; lia.
Qed.
Lemma bin_interval k q : 0 <= k < total -> bin k = q -> lps * q <= k < Z.min (lps * (q + 1)) total.
Proof.
  intros H E. pose proof Hl. unfold XchProof.bin in E. rewrite Z.quot_div_nonneg in E by lia.
  pose proof (Z.div_mod k lps ltac:(lia)). pose proof (Z.mod_pos_bound k lps ltac:(lia)). rewrite E in *. lia.
Qed.

(** The points of all ranks' donors (or receivers). *)
Definition in_total (slots : nat -> list (list slot)) : Prop := forall r sl, (r < n)%nat -> In sl (concat (slots r)) -> sl_want sl = true ->
  exists k, linear_point grids (sl_grid sl) (sl_pt sl) = Some k /\ 0 <= k < total.

Definition K (slots : nat -> list (list slot)) (r : nat) : list Z := keys grids (concat (slots r)).

Section OneSide.
Context (slots : nat -> list (list slot)) (HS : in_total slots).

Lemma is_sound r : (r < n)%nat -> sound grids (concat (slots r)).
Proof. intros Hr sl I W. destruct (HS r sl Hr I W) as (k & E & _). unfold key. rewrite E. reflexivity. Qed.
Lemma K_in r k : (r < n)%nat -> In k (K slots r) -> 0 <= k < total.
Proof.
  intros Hr H. apply in_map_iff in H as (sl & <- & I). apply filter_In in I as [I W]. destruct (HS r sl Hr I W) as (k & E & B).
  unfold key. rewrite E. exact B.
Qed.

Definition sendm r : smap Z (list Z) :=
  match ofoldl (fun m sls => ofoldl (add_slot grids lps) sls m) (slots r) map_empty with Some m => m | None => map_empty end.
Lemma sendm_ok r : (r < n)%nat -> ofoldl (fun m sls => ofoldl (add_slot grids lps) sls m) (slots r) map_empty = Some (sendm r) /\ by_bin lps (K slots r) (sendm r).
Proof. intros Hr. destruct (build_ok grids lps Hl (slots r) (is_sound r Hr)) as (m & E & G). unfold sendm. rewrite E. auto. Qed.

Definition dst r : list nat := map Z.to_nat (m_keys (sendm r)).
Definition src r : list nat := named n dst r.
Definition g (r d : nat) : list Z := at_bin (Z.of_nat d) (K slots r).

Lemma key_rank r b : (r < n)%nat -> In b (m_keys (sendm r)) -> Z.of_nat (Z.to_nat b) = b /\ (Z.to_nat b < n)%nat.
Proof.
  intros Hr H. apply (by_bin_keys lps _ _ (proj2 (sendm_ok r Hr))) in H as (k & I & E).
  pose proof (bin_bounds k (K_in r k Hr I)). lia.
Qed.
Lemma dst_In r d : (r < n)%nat -> (In d (dst r) <-> exists k, In k (K slots r) /\ bin k = Z.of_nat d).
Proof.
  intros Hr. unfold dst. rewrite in_map_iff. split.
  - intros (b & <- & H). destruct (key_rank r b Hr H) as [-> _]. apply (by_bin_keys lps _ _ (proj2 (sendm_ok r Hr)) b), H.
  - intros H. exists (Z.of_nat d). split; [lia|]. apply (by_bin_keys lps _ _ (proj2 (sendm_ok r Hr))), H.
Qed.
Lemma src_In r s : In s (src r) <-> (s < n)%nat /\ In r (dst s).
Proof.
  unfold src, named. rewrite filter_In, in_seq. fold (memb r (dst s)). rewrite memb_In. intuition lia.
Qed.
Lemma dst_NoDup r : (r < n)%nat -> NoDup (dst r).
Proof.
  intros Hr. pose proof (mkeys_NoDup Z.ltb zltb_swo (sendm r) (proj1 (proj2 (sendm_ok r Hr)))) as N. unfold dst.
  assert (H : forall b, In b (m_keys (sendm r)) -> Z.of_nat (Z.to_nat b) = b) by (intros b Hb; apply (key_rank r b Hr Hb)).
  revert N H. generalize (m_keys (sendm r)). induction l as [|b l IH]; intros N H; cbn [map]; constructor; inversion N; subst.
  - intros X. apply in_map_iff in X as (b' & E & I). apply H2. rewrite <- (H b) by (cbn; auto). rewrite <- E, H by (cbn; auto). exact I.
  - apply IH; auto. intros; apply H; cbn; auto.
Qed.
Lemma links : linked n src dst.
Proof.
  split; [|split].
  - intros r Hr. split; [apply NoDup_filter, seq_NoDup|apply dst_NoDup, Hr].
  - intros r s Hr [H|H]; [apply src_In in H; apply H|]. apply in_map_iff in H as (b & <- & H). apply (key_rank r b Hr H).
  - intros r s Hr Hs. rewrite src_In. intuition.
Qed.

Definition s0 r := side0 (slots r).
Definition s1 r := Side (slots r) (sendm r) [] [] [] [] [] map_empty [].
Definition s2 r := Side (slots r) (sendm r) (src r) [] [] [] [] map_empty [].
Definition cnts r := map (fun s => Z.of_nat (length (g s r))) (src r).
Definition s3 r := Side (slots r) (sendm r) (src r) (cnts r) [] [] [] map_empty [].
Definition recvd r := map (fun s => g s r) (src r).
Definition s4 r := Side (slots r) (sendm r) (src r) (cnts r) (recvd r) [] [] map_empty [].

Lemma entries r : (r < n)%nat -> m_entries (sendm r) = map (fun b => (b, at_bin b (K slots r))) (m_keys (sendm r)).
Proof. intros Hr. apply by_bin_entries, sendm_ok, Hr. Qed.

Lemma step1 r : (r < n)%nat -> sd_build grids lps (s0 r) = Some (s1 r).
Proof. intros Hr. unfold sd_build. cbn [sd_slots s0 side0]. destruct (sendm_ok r Hr) as [E _]. unfold add_slot in E. rewrite E. reflexivity. Qed.

Lemma step2 r : (r < n)%nat -> sd_handshake n (map s1 (seq 0 n)) r = Some (s2 r).
Proof.
  intros Hr. unfold sd_handshake. rewrite (nth_map_seq s1 n r Hr). cbn [sd_slots sd_send sd_from sd_cnt sd_recv sd_part sd_ans sd_got sd_out s1].
  unfold s2. f_equal. f_equal. unfold src, named. apply filter_ext_in. intros q Hq. apply in_seq in Hq.
  rewrite (nth_map_seq s1 n q) by lia. reflexivity.
Qed.

Lemma step3_sends r : (r < n)%nat -> sd_count_sends (s2 r) = map (fun d => (d, [Z.of_nat (length (g r d))])) (dst r).
Proof.
  intros Hr. unfold sd_count_sends. cbn [sd_send s2]. rewrite (entries r Hr). unfold dst. rewrite !map_map. apply map_ext_in. intros b Hb.
  cbn [fst snd]. unfold g. destruct (key_rank r b Hr Hb) as [-> _]. reflexivity.
Qed.
Lemma step3 r : sd_count_done (s2 r) (map (fun s => [Z.of_nat (length (g s r))]) (src r)) = Some (s3 r).
Proof. unfold sd_count_done. rewrite omap_comp with (h := fun s => Z.of_nat (length (g s r))); [reflexivity|]. reflexivity. Qed.

Lemma step4_sends r : (r < n)%nat -> sd_point_sends (s3 r) = map (fun d => (d, g r d)) (dst r).
Proof.
  intros Hr. unfold sd_point_sends. cbn [sd_send s3]. rewrite (entries r Hr). unfold dst. rewrite !map_map. apply map_ext_in. intros b Hb.
  cbn [fst snd]. unfold g. destruct (key_rank r b Hr Hb) as [-> _]. reflexivity.
Qed.
Lemma combine_maps {A B C} (f : A -> B) (h : A -> C) l : combine (map f l) (map h l) = map (fun a => (f a, h a)) l.
Proof. induction l as [|a l IH]; [reflexivity|]. cbn. f_equal. exact IH. Qed.
Lemma recv_full (b m : list Z) : length m = length b -> recv_into b m = Some m.
Proof. intros E. unfold recv_into. rewrite E, Nat.leb_refl. rewrite skipn_all2, app_nil_r by lia. reflexivity. Qed.
Lemma step4 r : sd_point_done (s3 r) (map (fun s => g s r) (src r)) = Some (s4 r).
Proof.
  unfold sd_point_done. cbn [sd_cnt s3]. unfold cnts. rewrite combine_maps.
  rewrite omap_comp with (h := fun s => g s r); [reflexivity|]. intros s _. cbn [fst snd].
  apply recv_full. rewrite repeat_length, Nat2Z.id. reflexivity.
Qed.

Definition lo r := lps * Z.of_nat r.
Definition hi r := Z.min (lps * (Z.of_nat r + 1)) total.
Lemma interval r k : (r < n)%nat -> 0 <= k < total -> bin k = Z.of_nat r -> lo r <= k < hi r.
Proof. intros Hr Hk E. apply bin_interval; auto. Qed.

Lemma g_In s r k : In k (g s r) <-> In k (K slots s) /\ bin k = Z.of_nat r.
Proof. unfold g, XchProof.at_bin. rewrite filter_In, Z.eqb_eq. reflexivity. Qed.

Definition part r : list Z :=
  match ofoldl (fun a x => ofoldl (fun a k => vwrite a (k - lo r) (Z.of_nat (fst x))) (snd x) a)
    (combine (src r) (recvd r)) (repeat (-1) (Z.to_nat (hi r - lo r))) with Some a => a | None => [] end.
Definition s5 r := Side (slots r) (sendm r) (src r) (cnts r) (recvd r) (part r) [] map_empty [].

Lemma part_ok r : (r < n)%nat -> sd_fill (lo r) (hi r) (s4 r) = Some (s5 r) /\
  forall k, 0 <= k < total -> bin k = Z.of_nat r -> vread (part r) (k - lo r) = Some (found n (K slots) k).
Proof.
  intros Hr. unfold sd_fill. cbn [sd_from sd_recv s4].
  assert (C : combine (src r) (recvd r) = map (fun s => (s, g s r)) (src r)).
  { unfold recvd. rewrite <- (map_id (src r)) at 1. apply combine_maps. }
  destruct (fill_ok (lo r) (combine (src r) (recvd r)) (repeat (-1) (Z.to_nat (hi r - lo r)))) as (a & E & L & R).
  { intros x k Hx Hk. rewrite C in Hx. apply in_map_iff in Hx as (s & <- & Is). cbn [snd] in Hk. apply g_In in Hk as [Ik B].
    apply src_In in Is as [Hs _]. pose proof (K_in s k Hs Ik) as Hk. pose proof (interval r k Hr Hk B). rewrite repeat_length. lia. }
  unfold s5, part. rewrite E. split; [reflexivity|]. intros k Hk B. pose proof (interval r k Hr Hk B).
  rewrite (R k (-1)) by (apply repeat_read; lia). f_equal. rewrite C. unfold found, src, named.
  assert (H1 : forall l v, (forall q, In q l -> (q < n)%nat) ->
    latest k v (map (fun s => (s, g s r)) (filter (fun q => existsb (Nat.eqb r) (dst q)) l)) = latest k v (map (fun q => (q, K slots q)) l)).
  { induction l as [|q l IH]; intros v Hq; [reflexivity|]. cbn [filter map].
    assert (Q : (q < n)%nat) by (apply Hq; left; reflexivity).
    assert (X : existsb (Z.eqb k) (g q r) = existsb (Z.eqb k) (K slots q)).
    { destruct (existsb (Z.eqb k) (K slots q)) eqn:Y.
      - apply existsb_eqb in Y. apply existsb_eqb, g_In. auto.
      - destruct (existsb (Z.eqb k) (g q r)) eqn:Z; [|reflexivity]. apply existsb_eqb, g_In in Z as [Z _].
        apply existsb_eqb in Z. congruence. }
    destruct (existsb (Nat.eqb r) (dst q)) eqn:D; cbn [map].
    - unfold latest. cbn [fold_left fst snd]. rewrite X. apply IH. intros; apply Hq; right; auto.
    - unfold latest at 2. cbn [fold_left fst snd]. fold (latest k).
      destruct (existsb (Z.eqb k) (K slots q)) eqn:Y.
      + apply existsb_eqb in Y. exfalso. assert (In r (dst q)) by (apply dst_In; eauto). apply memb_In in H0. unfold memb in H0. congruence.
      + apply IH. intros; apply Hq; right; auto. }
  apply H1. intros q Hq. apply in_seq in Hq. lia.
Qed.

Context (ans : Z -> Z).

Definition answers r := map (map ans) (recvd r).
Definition s6 r := Side (slots r) (sendm r) (src r) (cnts r) (recvd r) (part r) (answers r) map_empty [].

Lemma step6 r (opart : list Z) : (r < n)%nat ->
  (forall k, 0 <= k < total -> bin k = Z.of_nat r -> vread opart (k - lo r) = Some (ans k)) ->
  sd_answer (lo r) opart (s5 r) = Some (s6 r).
Proof.
  intros Hr H. unfold sd_answer. cbn [sd_recv s5]. rewrite <- (map_id (recvd r)) at 1.
  rewrite omap_comp with (h := map ans); [reflexivity|]. intros l Hl0. unfold recvd in Hl0. apply in_map_iff in Hl0 as (s & <- & Is).
  rewrite <- (map_id (g s r)) at 1. rewrite omap_comp with (h := ans); [reflexivity|]. intros k Hk. apply g_In in Hk as [Ik B].
  apply H; [|exact B]. apply src_In in Is as [Hs _]. apply (K_in s k Hs Ik).
Qed.

Definition gota r : smap Z (Z * list Z) := mkM (m_keys (sendm r)) (map (fun b => (b, (0, map ans (at_bin b (K slots r))))) (m_keys (sendm r))).
Definition s7 r := Side (slots r) (sendm r) (src r) (cnts r) (recvd r) (part r) (answers r) (gota r) [].

Lemma step7_sends r : sd_answer_sends (s6 r) = map (fun d => (d, map ans (g d r))) (src r).
Proof.
  unfold sd_answer_sends. cbn [sd_from sd_ans s6]. unfold answers, recvd. rewrite map_map. rewrite <- (map_id (src r)) at 1. apply combine_maps.
Qed.
Lemma step7 r : (r < n)%nat -> sd_answer_done (s6 r) (map (fun s => map ans (g r s)) (dst r)) = Some (s7 r).
Proof.
  intros Hr. unfold sd_answer_done. cbn [sd_send s6]. rewrite (entries r Hr). unfold dst. rewrite map_map, combine_maps.
  rewrite omap_comp with (h := fun b => (b, (0, map ans (at_bin b (K slots r))))); [reflexivity|]. intros b Hb. cbn [fst snd].
  unfold g. destruct (key_rank r b Hr Hb) as [-> _]. rewrite recv_full by (rewrite !map_length; reflexivity). reflexivity.
Qed.

Lemma gota_taken r : (r < n)%nat -> taken lps ans (K slots r) [] (gota r).
Proof.
  intros Hr. destruct (sendm_ok r Hr) as [_ [M G]]. split.
  - destruct M as [M1 M2]. split; [exact M1|]. unfold gota. cbn [m_keys m_entries]. rewrite (entries r Hr) in M2.
    revert M2. generalize (m_keys (sendm r)). induction l as [|b l IH]; intros F; cbn [map] in *; inversion F; subst; constructor; auto.
  - intros b. specialize (G b). unfold OMap.mget, gota in *. cbn [m_entries]. rewrite (entries r Hr) in G. revert G.
    generalize (m_keys (sendm r)). unfold mlookup. induction l as [|x l IH]; intros G; cbn [map find fst] in *.
    + cbn [option_map] in G. destruct (at_bin b (K slots r)); [reflexivity|discriminate].
    + destruct (eqv Z.ltb b x) eqn:E.
      * apply zEQ in E. subst x. cbn [option_map snd] in *. destruct (at_bin b (K slots r)); [discriminate|reflexivity].
      * apply IH, G.
Qed.

Definition got8 r : smap Z (Z * list Z) :=
  match ofoldl (fun x sls => let! y := ofoldl (take_slot grids lps) sls (fst x, []) in Some (fst y, snd x ++ [snd y])) (slots r) (gota r, []) with
  | Some x => fst x | None => map_empty end.
Definition s8 r := Side (slots r) (sendm r) (src r) (cnts r) (recvd r) (part r) (answers r) (got8 r) (map (map (outcome grids ans)) (slots r)).

Lemma step8 r : (r < n)%nat -> sd_unpack grids lps (s7 r) = Some (s8 r).
Proof.
  intros Hr. unfold sd_unpack. cbn [sd_slots sd_got s7].
  destruct (unpack_ok grids lps Hl ans (K slots r) (slots r) (gota r) (is_sound r Hr) eq_refl (gota_taken r Hr)) as (m & E).
  unfold s8, got8. rewrite E. reflexivity.
Qed.
End OneSide.

Context (SM SN : nat -> list (list slot)) (HM : in_total SM) (HN : in_total SN).
Let aM := found n (K SN).
Let aN := found n (K SM).

Lemma map_seq_xm (f h : nat -> side) : map xm (map (fun r => XS (f r) (h r)) (seq 0 n)) = map f (seq 0 n).
Proof. rewrite map_map. reflexivity. Qed.
Lemma map_seq_xn (f h : nat -> side) : map xn (map (fun r => XS (f r) (h r)) (seq 0 n)) = map h (seq 0 n).
Proof. rewrite map_map. reflexivity. Qed.

Lemma find_ranks_ok : prog_ok n (find_ranks grids n) (fun r => XS (side0 (SM r)) (side0 (SN r))) (fun r => XS (s8 SM aM r) (s8 SN aN r)).
Proof.
  unfold find_ranks. fold total. fold lps. cbn [prog_ok].
  exists (fun r => XS (s1 SM r) (s1 SN r)). split.
  { intros r Hr. unfold both. cbn [xm xn]. fold (s0 SM r) (s0 SN r). rewrite (step1 SM HM r Hr), (step1 SN HN r Hr). reflexivity. }
  exists (fun r => XS (s2 SM r) (s1 SN r)). split.
  { intros r Hr. cbn beta. rewrite map_seq_xm, (step2 SM r Hr). rewrite nth_map_seq by exact Hr. reflexivity. }
  exists (fun r => XS (s2 SM r) (s2 SN r)). split.
  { intros r Hr. cbn beta. rewrite map_seq_xn, (step2 SN r Hr). rewrite nth_map_seq by exact Hr. reflexivity. }
  exists (fun r => XS (s3 SM r) (s3 SN r)). split.
  { apply two_phase with (sm := src SM) (dm := dst SM) (gm := fun r d => [Z.of_nat (length (g SM r d))])
      (sn := src SN) (dn := dst SN) (gn := fun r d => [Z.of_nat (length (g SN r d))]); try (apply links; assumption).
    - intros r Hr. split; reflexivity.
    - intros r Hr. split; apply step3_sends; assumption.
    - intros r Hr. split; apply step3. }
  exists (fun r => XS (s4 SM r) (s4 SN r)). split.
  { apply two_phase with (sm := src SM) (dm := dst SM) (gm := g SM) (sn := src SN) (dn := dst SN) (gn := g SN); try (apply links; assumption).
    - intros r Hr. split; reflexivity.
    - intros r Hr. split; apply step4_sends; assumption.
    - intros r Hr. split; apply step4. }
  exists (fun r => XS (s6 SM aM r) (s6 SN aN r)). split.
  { intros r Hr. cbn beta zeta. fold (lo r) (hi r). unfold both. cbn [xm xn].
    destruct (part_ok SM HM r Hr) as [-> PM]. destruct (part_ok SN HN r Hr) as [-> PN]. cbn [xm xn sd_part s5].
    rewrite (step6 SM HM aM r (part SN r) Hr) by (intros; apply PN; assumption).
    rewrite (step6 SN HN aN r (part SM r) Hr) by (intros; apply PM; assumption). reflexivity. }
  exists (fun r => XS (s7 SM aM r) (s7 SN aN r)). split.
  { apply two_phase with (sm := dst SM) (dm := src SM) (gm := fun r d => map aM (g SM d r))
      (sn := dst SN) (dn := src SN) (gn := fun r d => map aN (g SN d r)); try (apply linked_sym, links; assumption).
    - intros r Hr. split; reflexivity.
    - intros r Hr. split; apply step7_sends.
    - intros r Hr. split; apply step7; assumption. }
  exists (fun r => XS (s8 SM aM r) (s8 SN aN r)). split.
  { intros r Hr. unfold both. cbn [xm xn]. rewrite (step8 SM HM aM r Hr), (step8 SN HN aN r Hr). reflexivity. }
  reflexivity.
Qed.
End Global.
