(** Proofs about matching donors and receivers: the parts of files. *)
From Coq Require Import List ZArith Bool Lia Permutation.
From Verif Require Import TupleModel Base ContModel ArrayModel ArrayProof HashModel ProtoModel ProtoSpec NetModel NetSpec XinModel XinSpec XinChunk XinFile MatModel MatSpec MatMain.
Import ListNotations.
Local Open Scope Z_scope.

Lemma in_combine_seq {A} (l : list A) : forall s i x, In (i, x) (combine (seq s (length l)) l) <-> (s <= i)%nat /\ nth_error l (i - s) = Some x.
Proof.
  induction l as [|a l IH]; intros s i x; cbn [length seq combine].
  - split; [intros []|]. intros [_ H]. destruct (i - s)%nat; discriminate.
  - cbn [In]. rewrite IH. split.
    + intros [E|[H1 H2]]; [injection E as <- <-; rewrite Nat.sub_diag; auto|]. split; [lia|]. replace (i - s)%nat with (S (i - S s)) by lia. exact H2.
    + intros [H1 H2]. destruct (Nat.eq_dec i s) as [->|N]; [rewrite Nat.sub_diag in H2; injection H2 as ->; now left|].
      right. split; [lia|]. replace (i - s)%nat with (S (i - S s)) in H2 by lia. exact H2.
Qed.
Lemma in_numbered {A} (l : list A) i x : In (i, x) (numbered l) <-> nth_error l i = Some x.
Proof. unfold numbered. rewrite in_combine_seq. rewrite Nat.sub_0_r. intuition lia. Qed.
Lemma in_held {A} h r (l : list A) x : In x (held h r l) <-> exists k, nth_error l k = Some x /\ h k = r.
Proof.
  unfold held. rewrite in_map_iff. split.
  - intros ((k & y) & <- & H). apply filter_In in H as [H E]. apply in_numbered in H. apply Nat.eqb_eq in E. eauto.
  - intros (k & H & E). exists (k, x). split; [reflexivity|]. apply filter_In. split; [now apply in_numbered|]. now apply Nat.eqb_eq.
Qed.
Lemma in_all n S it : In it (all_items n S) <-> exists r l, (r < n)%nat /\ In l (S r) /\ In it l.
Proof.
  unfold all_items. rewrite in_flat_map. split.
  - intros (r & Hr & H). apply in_seq in Hr. apply in_concat in H as (l & A & B). exists r, l. repeat split; auto; lia.
  - intros (r & l & Hr & A & B). exists r. split; [apply in_seq; lia|]. apply in_concat. eauto.
Qed.

Lemma forall2_impl {A B} (P Q : A -> B -> Prop) l l' : (forall a b, P a b -> Q a b) -> Forall2 P l l' -> Forall2 Q l l'.
Proof. intros H F. induction F; constructor; auto. Qed.

Section Held.
Context (n : nat) (h : nat -> nat -> nat) (L : list (list donor_chunk * list receiver_chunk)).
Hypothesis Hh : forall i k, (h i k < n)%nat.
Lemma in_donors_held it : In it (all_items n (donors_held h L)) <-> exists i x c, nth_error L i = Some x /\ In c (fst x) /\ In it (donor_items (Z.of_nat i + 1) c).
Proof.
  rewrite in_all. unfold donors_held. split.
  - intros (r & l & Hr & A & B). apply in_map_iff in A as ((i & x) & <- & A). apply in_numbered in A. cbn [fst snd] in B. apply in_flat_map in B as (c & Hc & B).
    apply in_held in Hc as (k & Hc & _). apply nth_error_In in Hc. eauto 8.
  - intros (i & x & c & H1 & H2 & H3). apply In_nth_error in H2 as [k H2]. exists (h i k). eexists. split; [apply Hh|]. split.
    + apply in_map_iff. exists (i, x). split; [reflexivity|]. now apply in_numbered.
    + apply in_flat_map. exists c. split; [|exact H3]. apply in_held. cbn [fst snd]. eauto.
Qed.
Lemma in_receivers_held it : In it (all_items n (receivers_held h L)) <-> exists i x c, nth_error L i = Some x /\ In c (snd x) /\ In it (receiver_items (Z.of_nat i + 1) c).
Proof.
  rewrite in_all. unfold receivers_held. split.
  - intros (r & l & Hr & A & B). apply in_map_iff in A as ((i & x) & <- & A). apply in_numbered in A. cbn [fst snd] in B. apply in_flat_map in B as (c & Hc & B).
    apply in_held in Hc as (k & Hc & _). apply nth_error_In in Hc. eauto 8.
  - intros (i & x & c & H1 & H2 & H3). apply In_nth_error in H2 as [k H2]. exists (h i k). eexists. split; [apply Hh|]. split.
    + apply in_map_iff. exists (i, x). split; [reflexivity|]. now apply in_numbered.
    + apply in_flat_map. exists c. split; [|exact H3]. apply in_held. cbn [fst snd]. eauto.
Qed.
End Held.

Lemma in_donor_items g c it : In it (donor_items g c) <-> exists j e, nth_error (dc_data c) j = Some e /\ it = Item (dc_start c + Z.of_nat j) (g, e_begin e).
Proof.
  unfold donor_items. rewrite in_map_iff. split.
  - intros ((j & e) & <- & H). change (In (j, e) (numbered (dc_data c))) in H. apply in_numbered in H. eauto.
  - intros (j & e & H & ->). exists (j, e). split; [reflexivity|]. change (In (j, e) (numbered (dc_data c))). now apply in_numbered.
Qed.
Lemma nth_part {A} c (l : list A) k j : nth_error (part c l k) j = if (j <? Z.to_nat c)%nat then nth_error l (Z.to_nat c * k + j) else None.
Proof.
  unfold part. rewrite nth_error_firstn, nth_error_skipn. reflexivity.
Qed.

Section File.
Context (gs : list grid_data) (domain : list (tup Z * Z)) (adjust : Z) (L : list (list donor_chunk * list receiver_chunk)).
Hypothesis Hm : matches gs domain.
Hypothesis Hr : readable gs domain adjust.
Hypothesis HL : contents_read gs domain adjust L.

Lemma in_domain i g : nth_error gs i = Some g -> exists d, nth_error domain i = Some d /\ 1 <= snd d /\
  (forall n c, in_parts (len (g_donors g)) d adjust n c -> donors_fit c n (g_donors g)).
Proof.
  intros Hg. pose proof Hm as M. pose proof Hr as R. clear - Hg M R. unfold matches, readable in *. revert i Hg. revert R. induction M as [|g0 d0 gs ds H M IH]; intros R i Hg; [destruct i; discriminate|].
  inversion R as [|? ? ? ? R1 R2]; subst. destruct i as [|i]; cbn in Hg |- *.
  - injection Hg as <-. exists d0. split; [reflexivity|]. split; [lia|]. apply R1.
  - exact (IH R2 i Hg).
Qed.
Lemma in_L i x : nth_error L i = Some x -> exists g, nth_error gs i = Some g.
Proof. intros H. destruct (nth_error gs i) as [g|] eqn:E; [eauto|]. apply nth_error_None in E. destruct HL as [E1 _]. rewrite <- E1 in E. apply nth_error_None in E. congruence. Qed.

Lemma in_file_donors n h it : (forall i k, (h i k < n)%nat) -> In it (all_items n (donors_held h L)) <-> In it (file_donors gs).
Proof.
  intros Hh. rewrite in_donors_held by exact Hh. unfold file_donors. rewrite in_flat_map.
  assert (X : forall i g x, nth_error gs i = Some g -> nth_error L i = Some x ->
    (exists c, In c (fst x) /\ In it (donor_items (Z.of_nat i + 1) c)) <-> exists m d, nth_error (g_donors g) m = Some d /\ it = Item (g_first g + Z.of_nat m) (Z.of_nat i + 1, d_cell d)).
  { intros i g x Hg Hx. destruct (in_domain i g Hg) as (d & Hd & Hp & Hfit). destruct HL as [_ HL2]. destruct (HL2 i g d Hg Hd) as (nn & c & n' & c' & P1 & P2 & E).
    rewrite Hx in E. injection E as ->. cbn [fst]. specialize (Hfit nn c P1). destruct Hfit as [[F1 F2] _]. destruct P1 as (iv & P1).
    destruct (chunkify_readers (len (g_donors g)) (snd d) (XinModel.bin_divide (num_points (fst d)) (snd d)) adjust ltac:(unfold len; lia) Hp) as (i0 & n0 & c0 & Q1 & Q2 & _ & Q3 & Q4 & _).
    rewrite P1 in Q1. injection Q1 as <- <- <-. unfold ceiling in Q3, Q4. assert (1 <= nn) by nia. assert (0 <= c) by (unfold len in Q4; nia).
    unfold donors_read. split.
    - intros (ch & H1 & H2). apply in_map_iff in H1 as (k & <- & Hk). apply in_donor_items in H2 as (j & e & H2 & ->). cbn [dc_data dc_start] in *.
      rewrite nth_error_map in H2. destruct (nth_error (part c (g_donors g) k) j) as [x|] eqn:E; [|discriminate]. injection H2 as <-. rewrite nth_part in E.
      destruct (Nat.ltb_spec j (Z.to_nat c)); [|discriminate]. exists (Z.to_nat c * k + j)%nat, x. split; [exact E|]. cbn [e_begin donor_read]. f_equal. nia.
    - intros (m & x & H1 & ->). assert (B : (m < length (g_donors g))%nat) by (apply nth_error_Some; congruence). unfold len in *.
      assert (0 < c) by nia. pose (k := (m / Z.to_nat c)%nat). pose (j := (m mod Z.to_nat c)%nat).
      pose proof (Nat.div_mod m (Z.to_nat c) ltac:(lia)) as DM. pose proof (Nat.mod_upper_bound m (Z.to_nat c) ltac:(lia)) as MB. fold k j in DM, MB.
      assert (k < Z.to_nat nn)%nat by nia.
      eexists. split; [apply in_map_iff; exists k; split; [reflexivity|apply in_seq; lia]|]. apply in_donor_items. cbn [dc_data dc_start]. exists j, (donor_read x). split.
      + rewrite nth_error_map, nth_part. destruct (Nat.ltb_spec j (Z.to_nat c)); [|lia]. rewrite <- DM, H1. reflexivity.
      + cbn [e_begin donor_read]. f_equal. nia. }
  split.
  - intros (i & x & c & H1 & H2 & H3). destruct (in_L i x H1) as [g Hg]. destruct (proj1 (X i g x Hg H1) (ex_intro _ c (conj H2 H3))) as (m & d & E & ->).
    exists (i, g). split; [now apply in_numbered|]. cbn [fst snd]. apply in_map_iff. exists (m, d). split; [reflexivity|]. now apply in_numbered.
  - intros ((i & g) & H1 & H2). apply in_numbered in H1. cbn [fst snd] in H2. apply in_map_iff in H2 as ((m & d) & E & H2). apply in_numbered in H2. cbn [fst snd] in E.
    destruct (nth_error L i) as [x|] eqn:Ex; [|apply nth_error_None in Ex; destruct HL as [E1 _]; rewrite E1 in Ex; apply nth_error_None in Ex; congruence].
    destruct (proj2 (X i g x H1 Ex) (ex_intro _ m (ex_intro _ d (conj H2 (eq_sym E))))) as (c & A & B). eauto 8.
Qed.
Lemma in_file_receivers n h it : (forall i k, (h i k < n)%nat) -> In it (all_items n (receivers_held h L)) <-> In it (file_receivers gs).
Proof.
  intros Hh. rewrite in_receivers_held by exact Hh. unfold file_receivers. rewrite in_flat_map.
  assert (X : forall i g x, nth_error gs i = Some g -> nth_error L i = Some x ->
    (exists c, In c (snd x) /\ In it (receiver_items (Z.of_nat i + 1) c)) <-> exists y, In y (g_receivers g) /\ it = Item (r_connection y) (Z.of_nat i + 1, r_point y)).
  { intros i g x Hg Hx. destruct (contents_all gs domain adjust L Hm Hr HL i g Hg) as (D & R & E & _ & E2). rewrite Hx in E. injection E as ->. cbn [snd].
    assert (Y : forall e, (exists c, In c R /\ In e (rc_data c)) <-> exists y, In y (g_receivers g) /\ e = receiver_read y).
    { intros e. transitivity (In e (concat (map rc_data R))).
      - rewrite in_concat. split; [intros (c & A & B); exists (rc_data c); split; [now apply in_map|exact B]|].
        intros (l & A & B). apply in_map_iff in A as (c & <- & A). eauto.
      - rewrite E2, in_map_iff. split; intros (y & A & B); eauto. }
    unfold receiver_items. split.
    - intros (c & A & B). apply in_map_iff in B as (e & <- & B). destruct (proj1 (Y e) (ex_intro _ c (conj A B))) as (y & Hy & ->). exists y. split; [exact Hy|]. reflexivity.
    - intros (y & Hy & ->). destruct (proj2 (Y (receiver_read y)) (ex_intro _ y (conj Hy eq_refl))) as (c & A & B). exists c. split; [exact A|]. apply in_map_iff. exists (receiver_read y). auto. }
  split.
  - intros (i & x & c & H1 & H2 & H3). destruct (in_L i x H1) as [g Hg]. destruct (proj1 (X i g x Hg H1) (ex_intro _ c (conj H2 H3))) as (y & E & ->).
    exists (i, g). split; [now apply in_numbered|]. cbn [fst snd]. apply in_map_iff. exists y. auto.
  - intros ((i & g) & H1 & H2). apply in_numbered in H1. cbn [fst snd] in H2. apply in_map_iff in H2 as (y & E & H2).
    destruct (nth_error L i) as [x|] eqn:Ex; [|apply nth_error_None in Ex; destruct HL as [E1 _]; rewrite E1 in Ex; apply nth_error_None in Ex; congruence].
    destruct (proj2 (X i g x H1 Ex) (ex_intro _ y (conj H2 (eq_sym E)))) as (c & A & B). eauto 8.
Qed.

Lemma receivers_sum : sum_of (length gs) (receivers_of gs) = len (file_receivers gs).
Proof.
  unfold sum_of, file_receivers, numbered, len. assert (X : forall l s, (forall j, nth_error l j = nth_error gs (s + j)) ->
    fold_right Z.add 0 (map (receivers_of gs) (seq s (length l))) =
    Z.of_nat (length (flat_map (fun x : nat * grid_data => map (fun y => Item (r_connection y) (Z.of_nat (fst x) + 1, r_point y)) (g_receivers (snd x))) (combine (seq s (length l)) l)))).
  { induction l as [|g l IH]; intros s Hl; [reflexivity|]. cbn [length seq map fold_right combine flat_map]. rewrite app_length, map_length, (IH (S s)).
    - specialize (Hl 0%nat). rewrite Nat.add_0_r in Hl. cbn in Hl. unfold receivers_of at 1. rewrite <- Hl. unfold len. cbn [snd]. lia.
    - intros j. specialize (Hl (S j)). cbn in Hl. rewrite Hl. f_equal. lia. }
  apply X. reflexivity.
Qed.

Lemma match_file n hd hr G junk : (0 < n)%nat -> (forall i k, (hd i k < n)%nat) -> (forall i k, (hr i k < n)%nat) -> consistent gs ->
  known n (length gs) (points_of gs) (receivers_of gs) G -> len (file_receivers gs) <= sum_of (length gs) (points_of gs) ->
  exists S', computes n (match_all (length gs) n junk) (fun r => MS0 (G r) (donors_held hd L r) (receivers_held hr L r)) S' /\ forall r, (r < n)%nat ->
    paired (donors_held hd L r) (file_receivers gs) (sd_out (ms_m (S' r))) /\ paired (receivers_held hr L r) (file_donors gs) (sd_out (ms_n (S' r))).
Proof.
  intros Hn H1 H2 [C1 C2] HK Hp. assert (U : forall t k, In k (upto t) <-> 0 <= k < t).
  { intros t k. unfold upto. rewrite in_map_iff. split; [intros (j & <- & Hj); apply in_seq in Hj; lia|]. intros Hk. exists (Z.to_nat k). split; [lia|]. apply in_seq. lia. }
  assert (I1 : forall k, In k (map it_id (all_items n (donors_held hd L))) <-> 0 <= k < len (file_receivers gs)).
  { intros k. rewrite <- U. split; intros H.
    - apply (Permutation_in _ C1). apply in_map_iff in H as (it & <- & H). apply in_map. apply (in_file_donors n hd it H1). exact H.
    - apply (Permutation_in _ (Permutation_sym C1)) in H. apply in_map_iff in H as (it & <- & H). apply in_map. apply (in_file_donors n hd it H1). exact H. }
  assert (I2 : forall k, In k (map it_id (all_items n (receivers_held hr L))) <-> 0 <= k < len (file_receivers gs)).
  { intros k. rewrite <- U. split; intros H.
    - apply (Permutation_in _ C2). apply in_map_iff in H as (it & <- & H). apply in_map. apply (in_file_receivers n hr it H2). exact H.
    - apply (Permutation_in _ (Permutation_sym C2)) in H. apply in_map_iff in H as (it & <- & H). apply in_map. apply (in_file_receivers n hr it H2). exact H. }
  destruct (match_paired n (length gs) (points_of gs) (receivers_of gs) G (donors_held hd L) (receivers_held hr L) junk) as (S' & C & H); auto.
  - rewrite receivers_sum. exact Hp.
  - rewrite receivers_sum. intros it Hit. apply I1. now apply in_map.
  - rewrite receivers_sum. intros it Hit. apply I2. now apply in_map.
  - intros k. rewrite I1, I2. reflexivity.
  - exists S'. split; [exact C|]. intros r Hr'. destruct (H r Hr') as [A B].
    assert (Y : forall l o o' out, (forall x, In x o -> In x o') -> paired l o out -> paired l o' out).
    { intros l o o' out Ho. unfold paired. apply forall2_impl. intros a b. apply forall2_impl. intros it p (x & X1 & X2 & X3). exists x. auto. }
    split; [apply (Y _ (all_items n (receivers_held hr L))); [intros x Hx; now apply (in_file_receivers n hr x H2)|exact A]|].
    apply (Y _ (all_items n (donors_held hd L))); [intros x Hx; now apply (in_file_donors n hd x H1)|exact B].
Qed.
End File.

(** There is one such place. *)
Lemma paired_unique gs l o o' : consistent gs -> paired l (file_receivers gs) o -> paired l (file_receivers gs) o' -> o = o'.
Proof.
  intros [_ C]. assert (ND : NoDup (map it_id (file_receivers gs))).
  { apply (Permutation_NoDup (Permutation_sym C)). unfold upto. apply FinFun.Injective_map_NoDup; [intros a b; lia|apply seq_NoDup]. }
  assert (U : forall x y, In x (file_receivers gs) -> In y (file_receivers gs) -> it_id x = it_id y -> x = y).
  { revert ND. generalize (file_receivers gs). induction l0 as [|a l0 IH]; intros ND x y Hx Hy E; [destruct Hx|]. cbn in ND. apply NoDup_cons_iff in ND as [N1 N2].
    destruct Hx as [<-|Hx], Hy as [<-|Hy]; auto.
    - exfalso. apply N1. rewrite E. now apply in_map.
    - exfalso. apply N1. rewrite <- E. now apply in_map. }
  unfold paired. intros P. revert o'. induction P as [|a b l o H P IH]; intros o' Q; inversion Q as [|? b' ? o2 H2 Q2]; subst; [reflexivity|]. f_equal; [|auto].
  clear - U H H2. revert b' H2. induction H as [|it p a b (x & X1 & X2 & X3) H IH]; intros b' Q; inversion Q as [|? p' ? b2 (y & Y1 & Y2 & Y3) Q2]; subst; [reflexivity|].
  f_equal; [|auto]. f_equal. apply U; auto. congruence.
Qed.
