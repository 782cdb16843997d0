(** Proofs about matching donors and receivers: all ranks. *)
From Coq Require Import List ZArith Bool Lia.
From Verif Require Import TupleModel RangeModel RangeProof Base IndexerModel ArrayModel ArrayProof ContModel ContSpec ContProof MapProof OMap.
From Verif Require Import HashModel HashProof ProtoModel ProtoSpec NetModel NetSpec NetProof NetPhase NetTools SendModel SendProof XchProof MatModel MatSpec MatProof.
Import ListNotations.
Local Open Scope Z_scope.

Local Notation mok := (mok Z.ltb).
Local Notation mget := (mget Z.ltb).

Lemma bins_of_enough t n : (0 < n)%nat -> 0 <= t -> t <= bins_of t n * Z.of_nat n.
Proof.
  intros Hn Ht. unfold bins_of, XinModel.bin_divide. set (N := Z.of_nat n). assert (0 < N) by lia.
  rewrite Z.quot_div_nonneg by lia. pose proof (Z.div_mod (t + N - 1) N ltac:(lia)). pose proof (Z.mod_pos_bound (t + N - 1) N ltac:(lia)). nia.
Qed.
Lemma combine_maps {A B C} (f : A -> B) (h : A -> C) l : combine (map f l) (map h l) = map (fun a => (f a, h a)) l.
Proof. induction l as [|a l IH]; [reflexivity|]. cbn. f_equal. exact IH. Qed.

Section Global.
Context (n : nat) (Hn : (0 < n)%nat) (bs total : Z).
Hypothesis Hl : 0 < bs.
Hypothesis Htl : total <= bs * Z.of_nat n.
Context (G : nat -> list (Z * (Z * Z))).

Local Notation bin := (bin bs).
Local Notation at_bin := (at_bin bs).

Lemma bin_bounds it : 0 <= it_id it < total -> 0 <= bin it < Z.of_nat n.
Proof. intros H. unfold MatProof.bin. rewrite Z.quot_div_nonneg by lia. split; [apply Z.div_pos; lia|]. apply Z.div_lt_upper_bound; lia. Qed.
Lemma bin_interval it q : 0 <= it_id it < total -> bin it = q -> bs * q <= it_id it < Z.min (bs * (q + 1)) total.
Proof.
  intros H E. unfold MatProof.bin in E. rewrite Z.quot_div_nonneg in E by lia.
  pose proof (Z.div_mod (it_id it) bs ltac:(lia)). pose proof (Z.mod_pos_bound (it_id it) bs ltac:(lia)). rewrite E in *. lia.
Qed.

Section OneSide.
Context (items : nat -> list (list item)) (HS : ids_below n total items).
Definition K (r : nat) : list item := concat (items r).

Lemma K_all r it : (r < n)%nat -> In it (K r) -> In it (all_items n items).
Proof. intros Hr H. apply in_flat_map. exists r. split; [apply in_seq; lia|exact H]. Qed.
Lemma K_in r it : (r < n)%nat -> In it (K r) -> 0 <= it_id it < total.
Proof. intros Hr H. apply HS, (K_all r); auto. Qed.

Definition sendm r : smap Z (list item) := match ofoldl (fun m its => ofoldl (add_item bs) its m) (items r) map_empty with Some m => m | None => map_empty end.
Lemma sendm_ok r : ofoldl (fun m its => ofoldl (add_item bs) its m) (items r) map_empty = Some (sendm r) /\ by_bin bs (K r) (sendm r).
Proof. destruct (build_ok bs Hl (items r)) as (m & E & B). unfold sendm. rewrite E. auto. Qed.

Definition dst r : list nat := map Z.to_nat (m_keys (sendm r)).
Definition src r : list nat := named n dst r.
Definition g (r d : nat) : list item := at_bin (Z.of_nat d) (K r).

Lemma key_rank r b : (r < n)%nat -> In b (m_keys (sendm r)) -> Z.of_nat (Z.to_nat b) = b /\ (Z.to_nat b < n)%nat.
Proof.
  intros Hr H. apply (by_bin_keys bs _ _ (proj2 (sendm_ok r))) in H as (k & I & E). pose proof (bin_bounds k (K_in r k Hr I)). lia.
Qed.
Lemma dst_In r d : (r < n)%nat -> (In d (dst r) <-> exists k, In k (K r) /\ bin k = Z.of_nat d).
Proof.
  intros Hr. unfold dst. rewrite in_map_iff. split.
  - intros (b & <- & H). destruct (key_rank r b Hr H) as [-> _]. apply (by_bin_keys bs _ _ (proj2 (sendm_ok r)) b), H.
  - intros H. exists (Z.of_nat d). split; [lia|]. apply (by_bin_keys bs _ _ (proj2 (sendm_ok r))), H.
Qed.
Lemma src_In r s : In s (src r) <-> (s < n)%nat /\ In r (dst s).
Proof.
  unfold src, named. rewrite filter_In, in_seq. fold (memb r (dst s)). rewrite memb_In. intuition lia.
Qed.
Lemma dst_NoDup r : (r < n)%nat -> NoDup (dst r).
Proof.
  intros Hr. pose proof (mkeys_NoDup Z.ltb zltb_swo (sendm r) (proj1 (proj2 (sendm_ok r)))) as N. unfold dst.
  assert (H : forall b, In b (m_keys (sendm r)) -> Z.of_nat (Z.to_nat b) = b) by (intros b Hb; apply (key_rank r b Hr Hb)).
  revert N H. generalize (m_keys (sendm r)). induction l as [|b l IH]; intros N H; cbn [map]; constructor; inversion N; subst.
  - intros X. apply in_map_iff in X as (b' & E & I). apply H2. rewrite <- (H b) by (cbn; auto). rewrite <- E, H by (cbn; auto). exact I.
  - apply IH; auto. intros; apply H; cbn; auto.
Qed.
Lemma links : linked n src dst.
Proof.
  split; [|split].
  - intros r Hr. split; [apply NoDup_filter, seq_NoDup|apply dst_NoDup, Hr].
  - intros r s Hr [H|H]; [apply src_In in H; apply H|]. apply in_map_iff in H as (b & <- & H). apply (key_rank r b Hr H).
  - intros r s Hr Hs. rewrite src_In. intuition.
Qed.

Definition s0 r := side0 (items r).
Definition s1 r := Side (items r) (sendm r) [] [] [] [] [] map_empty [].
Definition s2 r := Side (items r) (sendm r) (src r) [] [] [] [] map_empty [].
Definition cnts r := map (fun s => Z.of_nat (length (g s r))) (src r).
Definition s3 r := Side (items r) (sendm r) (src r) (cnts r) [] [] [] map_empty [].
Definition recvd r := map (fun s => g s r) (src r).
Definition s4 r := Side (items r) (sendm r) (src r) (cnts r) (recvd r) [] [] map_empty [].

Lemma entries r : m_entries (sendm r) = map (fun b => (b, at_bin b (K r))) (m_keys (sendm r)).
Proof. apply by_bin_entries, sendm_ok. Qed.

Lemma step1 r : sd_build bs (s0 r) = Some (s1 r).
Proof. unfold sd_build. cbn [sd_items s0 side0]. destruct (sendm_ok r) as [E _]. rewrite E. reflexivity. Qed.
Lemma step2 r : (r < n)%nat -> sd_handshake n (map s1 (seq 0 n)) r = Some (s2 r).
Proof.
  intros Hr. unfold sd_handshake. rewrite (nth_map_seq s1 n r Hr). cbn [sd_items sd_send sd_from sd_cnt sd_recv sd_bin sd_ans sd_got sd_out s1].
  unfold s2. f_equal. f_equal. unfold src, named. apply filter_ext_in. intros q Hq. apply in_seq in Hq. rewrite (nth_map_seq s1 n q) by lia. reflexivity.
Qed.
Lemma step3_sends r : (r < n)%nat -> sd_count_sends (s2 r) = map (fun d => (d, Count (Z.of_nat (length (g r d))))) (dst r).
Proof.
  intros Hr. unfold sd_count_sends. cbn [sd_send s2]. rewrite (entries r). unfold dst. rewrite !map_map. apply map_ext_in. intros b Hb.
  cbn [fst snd]. unfold g. destruct (key_rank r b Hr Hb) as [-> _]. reflexivity.
Qed.
Lemma step3 r : sd_count_done (s2 r) (map (fun s => Count (Z.of_nat (length (g s r)))) (src r)) = Some (s3 r).
Proof. unfold sd_count_done. rewrite omap_comp with (h := fun s => Z.of_nat (length (g s r))); [reflexivity|]. reflexivity. Qed.
Lemma step4_sends r : (r < n)%nat -> sd_item_sends (s3 r) = map (fun d => (d, Items (g r d))) (dst r).
Proof.
  intros Hr. unfold sd_item_sends. cbn [sd_send s3]. rewrite (entries r). unfold dst. rewrite !map_map. apply map_ext_in. intros b Hb.
  cbn [fst snd]. unfold g. destruct (key_rank r b Hr Hb) as [-> _]. reflexivity.
Qed.
Lemma step4 r : sd_item_done (s3 r) (map (fun s => Items (g s r)) (src r)) = Some (s4 r).
Proof.
  unfold sd_item_done. cbn [sd_cnt s3]. unfold cnts. rewrite combine_maps.
  rewrite omap_comp with (h := fun s => g s r); [reflexivity|]. intros s _. cbn [fst snd]. now rewrite Z.eqb_refl.
Qed.

Context (junk : nat -> Z -> place).
Definition lo r := bs * Z.of_nat r.
Definition hi r := Z.min (bs * (Z.of_nat r + 1)) total.
Lemma g_In s r k : In k (g s r) <-> In k (K s) /\ bin k = Z.of_nat r.
Proof. unfold g, MatProof.at_bin. rewrite filter_In, Z.eqb_eq. reflexivity. Qed.

Definition fresh r := if lo r <? total then map (fun i => junk r (lo r + Z.of_nat i)) (seq 0 (Z.to_nat (hi r - lo r))) else [].
Definition part r : list place :=
  match ofoldl (fun a its => ofoldl (fun a it => vwrite a (it_id it - lo r) (it_place it)) its a) (recvd r) (fresh r) with Some a => a | None => [] end.
Definition s5 r := Side (items r) (sendm r) (src r) (cnts r) (recvd r) (part r) [] map_empty [].

Lemma recvd_all r : concat (recvd r) = flat_map (fun s => g s r) (src r).
Proof. unfold recvd. now rewrite flat_map_concat_map. Qed.
Lemma recvd_In r it : In it (concat (recvd r)) -> 0 <= it_id it < total /\ bin it = Z.of_nat r.
Proof.
  rewrite recvd_all. intros H. apply in_flat_map in H as (s & Is & H). apply src_In in Is as [Hs _]. apply g_In in H as [H1 H2]. split; [apply (K_in s); auto|exact H2].
Qed.
Lemma fresh_read r k : lo r <= k < hi r -> vread (fresh r) (k - lo r) = Some (junk r k).
Proof.
  intros H. unfold fresh. assert (lo r < total) by (unfold hi in H; lia). destruct (Z.ltb_spec (lo r) total); [|lia].
  replace (k - lo r) with (Z.of_nat (Z.to_nat (k - lo r))) by lia. rewrite vread_nth, (nth_map_seq (fun i => junk r (lo r + Z.of_nat i))) by lia.
  do 2 f_equal. lia.
Qed.
Lemma fresh_length r k : lo r <= k < hi r -> Z.of_nat (length (fresh r)) = hi r - lo r.
Proof.
  intros H. unfold fresh. assert (lo r < total) by (unfold hi in H; lia). destruct (Z.ltb_spec (lo r) total); [|lia]. rewrite map_length, seq_length. lia.
Qed.
Lemma flat_map_filter (p : nat -> bool) (f h : nat -> list item) l : (forall q, In q l -> (if p q then h q else []) = f q) -> flat_map h (filter p l) = flat_map f l.
Proof.
  induction l as [|q l IH]; intros H; [reflexivity|]. cbn [filter flat_map]. rewrite <- (H q) by (cbn; auto). destruct (p q); cbn [flat_map app]; rewrite IH; auto; intros; apply H; cbn; auto.
Qed.
Lemma recvd_filter r : (r < n)%nat -> concat (recvd r) = filter (fun it => bin it =? Z.of_nat r) (all_items n items).
Proof.
  intros Hr. rewrite recvd_all. unfold all_items, src, named.
  assert (X : forall l, filter (fun it => bin it =? Z.of_nat r) (flat_map (fun q => concat (items q)) l) = flat_map (fun q => g q r) l).
  { induction l as [|q l IH]; [reflexivity|]. cbn [flat_map]. rewrite filter_app, IH. reflexivity. }
  rewrite X. apply flat_map_filter. intros q Hq. apply in_seq in Hq. destruct (existsb (Nat.eqb r) (dst q)) eqn:E; [reflexivity|].
  destruct (g q r) as [|it l] eqn:Y; [reflexivity|]. exfalso.
  assert (I : In it (g q r)) by (rewrite Y; left; reflexivity). apply g_In in I as [I J]. assert (D : In r (dst q)) by (apply dst_In; [lia|eauto]).
  apply memb_In in D. unfold memb in D. congruence.
Qed.

Lemma part_ok r : (r < n)%nat -> sd_fill bs total (junk r) r (s4 r) = Some (s5 r) /\
  forall it, 0 <= it_id it < total -> bin it = Z.of_nat r -> vread (part r) (it_id it - lo r) = Some (partner (all_items n items) (junk r (it_id it)) (it_id it)).
Proof.
  intros Hr. unfold sd_fill. cbn [sd_recv s4]. cbv zeta. fold (lo r). fold (hi r). fold (fresh r).
  destruct (fill_all (lo r) (recvd r) (fresh r)) as (a & E & L & R).
  { intros it Hit. destruct (recvd_In r it Hit) as [H1 H2]. pose proof (bin_interval it _ H1 H2) as H3. fold (lo r) (hi r) in H3. rewrite (fresh_length r (it_id it) H3). lia. }
  unfold s5, part. rewrite E. split; [reflexivity|]. intros it H1 H2. pose proof (bin_interval it _ H1 H2) as H3. fold (lo r) (hi r) in H3.
  rewrite (R (it_id it) _ (fresh_read r (it_id it) H3)). f_equal. rewrite (recvd_filter r Hr). apply partner_filter.
  intros it' _ E'. apply Z.eqb_eq. rewrite <- H2. unfold MatProof.bin. now rewrite E'.
Qed.

Context (other : list item).
(** What is answered for an item. *)
Definition ans (it : item) : place := partner other (junk (Z.to_nat (bin it)) (it_id it)) (it_id it).

Definition answers r := map (map ans) (recvd r).
Definition s6 r := Side (items r) (sendm r) (src r) (cnts r) (recvd r) (part r) (answers r) map_empty [].

Lemma step6 r (opart : list place) : (r < n)%nat ->
  (forall it, 0 <= it_id it < total -> bin it = Z.of_nat r -> vread opart (it_id it - lo r) = Some (partner other (junk r (it_id it)) (it_id it))) ->
  sd_answer (lo r) opart (s5 r) = Some (s6 r).
Proof.
  intros Hr H. unfold sd_answer. cbn [sd_recv s5]. rewrite <- (map_id (recvd r)) at 1.
  rewrite omap_comp with (h := map ans); [reflexivity|]. intros l Hl0.
  rewrite <- (map_id l) at 1. rewrite omap_comp with (h := ans); [reflexivity|]. intros it Hit.
  destruct (recvd_In r it) as [H1 H2]; [apply in_concat; eauto|]. rewrite (H it H1 H2). unfold ans. rewrite H2, Nat2Z.id. reflexivity.
Qed.

Definition gota r : smap Z (Z * list place) := mkM (m_keys (sendm r)) (map (fun b => (b, (0, map ans (at_bin b (K r))))) (m_keys (sendm r))).
Definition s7 r := Side (items r) (sendm r) (src r) (cnts r) (recvd r) (part r) (answers r) (gota r) [].

Lemma step7_sends r : sd_answer_sends (s6 r) = map (fun d => (d, Places (map ans (g d r)))) (src r).
Proof.
  unfold sd_answer_sends. cbn [sd_from sd_ans s6]. unfold answers, recvd. rewrite !map_map. rewrite <- (map_id (src r)) at 1. apply combine_maps.
Qed.
Lemma step7 r : (r < n)%nat -> sd_answer_done (s6 r) (map (fun s => Places (map ans (g r s))) (dst r)) = Some (s7 r).
Proof.
  intros Hr. unfold sd_answer_done. cbn [sd_send s6]. rewrite (entries r). unfold dst. rewrite map_map, combine_maps.
  rewrite omap_comp with (h := fun b => (b, (0, map ans (at_bin b (K r))))); [reflexivity|]. intros b Hb. cbn [fst snd].
  unfold g. destruct (key_rank r b Hr Hb) as [-> _]. rewrite map_length, Nat.eqb_refl. reflexivity.
Qed.

Lemma gota_taken r : (r < n)%nat -> taken bs ans (K r) [] (gota r).
Proof.
  intros Hr. destruct (sendm_ok r) as [_ [M GG]]. split.
  - destruct M as [M1 M2]. split; [exact M1|]. unfold gota. cbn [m_keys m_entries]. rewrite (entries r) in M2.
    revert M2. generalize (m_keys (sendm r)). induction l as [|b l IH]; intros F; cbn [map] in *; inversion F; subst; constructor; auto.
  - intros b. specialize (GG b). unfold OMap.mget, gota in *. cbn [m_entries]. rewrite (entries r) in GG. revert GG.
    generalize (m_keys (sendm r)). unfold mlookup. induction l as [|x l IH]; intros GG; cbn [map find fst] in *.
    + cbn [option_map] in GG. destruct (at_bin b (K r)); [reflexivity|discriminate].
    + destruct (eqv Z.ltb b x) eqn:E.
      * apply zEQ in E. subst x. cbn [option_map snd] in *. destruct (at_bin b (K r)); [discriminate|reflexivity].
      * apply IH, GG.
Qed.

Definition got8 r : smap Z (Z * list place) :=
  match ofoldl (fun x its => let! y := ofoldl (take_place bs) its (fst x, []) in Some (fst y, snd x ++ [snd y])) (items r) (gota r, []) with
  | Some x => fst x | None => map_empty end.
Definition s8 r := Side (items r) (sendm r) (src r) (cnts r) (recvd r) (part r) (answers r) (got8 r) (map (map ans) (items r)).

Lemma step8 r : (r < n)%nat -> sd_unpack bs (s7 r) = Some (s8 r).
Proof.
  intros Hr. unfold sd_unpack. cbn [sd_items sd_got s7].
  destruct (unpack_ok bs Hl ans (K r) (items r) (gota r) eq_refl (gota_taken r Hr)) as (m & E). unfold s8, got8. rewrite E. reflexivity.
Qed.
End OneSide.

Context (junk : nat -> Z -> place) (SM SN : nat -> list (list item)) (HM : ids_below n total SM) (HN : ids_below n total SN) (grids : nat).
Let oM := all_items n SN.
Let oN := all_items n SM.
Definition st (a b : nat -> side) (r : nat) : mst := MS (G r) bs total (a r) (b r).

Lemma map_seq_m (f h : nat -> side) : map ms_m (map (st f h) (seq 0 n)) = map f (seq 0 n).
Proof. rewrite map_map. reflexivity. Qed.
Lemma map_seq_n (f h : nat -> side) : map ms_n (map (st f h) (seq 0 n)) = map h (seq 0 n).
Proof. rewrite map_map. reflexivity. Qed.
Lemma two_st recvs sends done sm dm gm sn dn gn (a b a' b' : nat -> side) :
  linked n sm dm -> linked n sn dn -> (forall r, (r < n)%nat -> recvs (a r) = sm r /\ recvs (b r) = sn r) ->
  (forall r, (r < n)%nat -> sends (a r) = map (fun d => (d, gm r d)) (dm r) /\ sends (b r) = map (fun d => (d, gn r d)) (dn r)) ->
  (forall r, (r < n)%nat -> done (a r) (map (fun s => gm s r) (sm r)) = Some (a' r) /\ done (b r) (map (fun s => gn s r) (sn r)) = Some (b' r)) ->
  phase_ok n (two_sided recvs sends done) (st a b) (st a' b').
Proof. intros A B C D E. apply two_phase with (sm := sm) (dm := dm) (gm := gm) (sn := sn) (dn := dn) (gn := gn); auto. Qed.

Lemma sizes_ok : bs = Z.min (bins_of (total_of fst grids (map (fun r => MS0 (G r) (SM r) (SN r)) (seq 0 n))) n) total ->
  total = total_of snd grids (map (fun r => MS0 (G r) (SM r) (SN r)) (seq 0 n)) ->
  prog_ok n (match_all grids n junk) (fun r => MS0 (G r) (SM r) (SN r)) (st (s8 SM junk oM) (s8 SN junk oN)).
Proof.
  intros B1 B2. unfold match_all. cbn [prog_ok].
  exists (st (s0 SM) (s0 SN)). split.
  { intros r Hr. cbn beta. unfold ms_sizes. rewrite nth_map_seq by exact Hr. rewrite <- B2, <- B1. reflexivity. }
  exists (st (s1 SM) (s1 SN)). split.
  { intros r Hr. unfold both. cbn [ms_m ms_n ms_size st]. rewrite (step1 SM r), (step1 SN r). reflexivity. }
  exists (st (s2 SM) (s1 SN)). split.
  { intros r Hr. cbn beta. rewrite nth_map_seq by exact Hr. unfold on_m. rewrite map_seq_m, (step2 SM r Hr). reflexivity. }
  exists (st (s2 SM) (s2 SN)). split.
  { intros r Hr. cbn beta. rewrite nth_map_seq by exact Hr. unfold on_n. rewrite map_seq_n, (step2 SN r Hr). reflexivity. }
  exists (st (s3 SM) (s3 SN)). split.
  { apply two_st with (sm := src SM) (dm := dst SM) (gm := fun r d => Count (Z.of_nat (length (g SM r d))))
      (sn := src SN) (dn := dst SN) (gn := fun r d => Count (Z.of_nat (length (g SN r d)))); try (apply links; assumption).
    - intros r Hr. split; reflexivity.
    - intros r Hr. split; apply step3_sends; assumption.
    - intros r Hr. split; apply step3. }
  exists (st (s4 SM) (s4 SN)). split.
  { apply two_st with (sm := src SM) (dm := dst SM) (gm := fun r d => Items (g SM r d)) (sn := src SN) (dn := dst SN) (gn := fun r d => Items (g SN r d)); try (apply links; assumption).
    - intros r Hr. split; reflexivity.
    - intros r Hr. split; apply step4_sends; assumption.
    - intros r Hr. split; apply step4. }
  exists (st (s6 SM junk oM) (s6 SN junk oN)). split.
  { intros r Hr. cbn beta zeta. unfold both. cbn [ms_m ms_n ms_size ms_total ms_grids st].
    destruct (part_ok SM HM junk r Hr) as [-> PM]. destruct (part_ok SN HN junk r Hr) as [-> PN]. cbn [ms_m ms_n sd_bin s5]. fold (lo r).
    rewrite (step6 SM HM junk oM r (part SN junk r) Hr PN), (step6 SN HN junk oN r (part SM junk r) Hr PM). reflexivity. }
  exists (st (s7 SM junk oM) (s7 SN junk oN)). split.
  { apply two_st with (sm := dst SM) (dm := src SM) (gm := fun r d => Places (map (ans junk oM) (g SM d r)))
      (sn := dst SN) (dn := src SN) (gn := fun r d => Places (map (ans junk oN) (g SN d r))); try (apply linked_sym, links; assumption).
    - intros r Hr. split; reflexivity.
    - intros r Hr. split; apply step7_sends.
    - intros r Hr. split; apply step7; assumption. }
  exists (st (s8 SM junk oM) (s8 SN junk oN)). split.
  { intros r Hr. unfold both. cbn [ms_m ms_n ms_size ms_total ms_grids st]. rewrite (step8 SM junk oM r Hr), (step8 SN junk oN r Hr). reflexivity. }
  reflexivity.
Qed.
End Global.
