(** The connectivity of a pair of grids: proofs for ConModel. *)
From Coq Require Import List ZArith QArith Bool Lia Permutation Sorting.Sorted.
From Verif Require Import TupleModel RangeModel Base RangeProof CartModel CartProof DecompModel DecompProof IndexerModel ArrayModel ArrayProof HashModel HashProof.
From Verif Require Import NetModel NetSpec NetProof NetTools LiftModel LiftProof EmbedModel EmbedProof NeighSpec NeighProof FieldSpec FieldProof.
From Verif Require Import SendModel SendSpec SendProof SendLaws CellModel CollectSpec OvlModel OvlSpec OvlProof OvlLaws ConModel ConSpec.
Import ListNotations.
Local Open Scope Z_scope.

Lemma cell_extents_box nd x : cell_extents nd x = cell_box nd (mr_cell x).
Proof. reflexivity. Qed.

(** ** The donors of the neighbours *)
Section Share.
Variables (c : cart) (k n : nat) (L : nat -> range) (R : range) (NB : nat -> list nat) (sort : nat -> list Z -> list Z).
Variables (E : nat -> list entry) (LD : nat -> list drow).
Hypothesis HD : decomposed c k L.
Hypothesis SO : stored_once c.
Hypothesis HN : forall i, (i < k)%nat -> NoDup (NB i) /\ forall j, In j (NB i) <-> adjacent c k L i j.
Hypothesis HE : forall q e, (q < n)%nat -> In e (E q) -> pt_in (cells_of c) (e_cell e) /\ pt_in R (e_point e).
Hypothesis HU : forall q q' e e', (q < n)%nat -> (q' < n)%nat -> In e (E q) -> In e' (E q') -> e_point e = e_point e' -> q = q' /\ e = e'.
Hypothesis Hsort : forall i, (i < k)%nat -> sorts (sort i).
Let row_of q e := DRow (cell_box (c_nd c) (e_cell e)) (e_coords e) (e_point e) (Z.of_nat q).
Hypothesis F1 : forall j d, (j < k)%nat -> In d (LD j) -> exists q e, (q < n)%nat /\ In e (E q) /\ pt_in (L j) (e_cell e) /\ d = row_of q e.
Hypothesis F2 : forall j q e, (j < k)%nat -> (q < n)%nat -> In e (E q) -> pt_in (L j) (e_cell e) -> In (row_of q e) (LD j).
Hypothesis F3 : forall j, (j < k)%nat -> NoDup (map dr_dest (LD j)).

Let nbs i := map (fun q => (q, L q)) (NB i).

Let ok_c : cart_ok c := proj1 (proj2 (proj2 HD)).
Let nd3 : (c_nd c <= 3)%nat := proj2 (proj1 HD).

Lemma next_sym i j : (i < k)%nat -> (j < k)%nat -> In j (NB i) <-> In i (NB j).
Proof.
  intros Hi Hj. rewrite (proj2 (HN i Hi)), (proj2 (HN j Hj)). split; intros (A & B & p & u & P & U & Nr); (split; [assumption|]; split; [congruence|]);
    exists u, p; (split; [assumption|]; split; [assumption|]); apply near_sym; assumption.
Qed.

Lemma next_lt i j : (i < k)%nat -> In j (NB i) -> (j < k)%nat.
Proof. intros Hi H. apply (proj2 (HN i Hi)) in H. apply H. Qed.

Lemma box_pre i cell : (i < k)%nat -> pt_in (cells_of c) cell -> map_range_pre c (L i) (cell_box (c_nd c) cell).
Proof.
  intros Hi Hc. pose proof HD as (_ & _ & _ & _ & NP & _ & NE). split; [apply NE, Hi|]. split.
  - apply rempty_tget. intros d Hd. unfold cell_box. cbn [rb re]. rewrite !tget_tmake by exact Hd. destruct (Nat.ltb d (c_nd c)); lia.
  - intros d Hd. destruct (own_bounds c k L HD i d Hi Hd) as (_ & B2 & B3 & B4). destruct (cells_bounds c k L HD d Hd) as [C1 C2].
    rewrite pt_in_tget in Hc. specialize (Hc d Hd). pose proof (SO d Hd) as So. unfold cell_box. cbn [rb re]. rewrite !tget_tmake by exact Hd. split; [|split].
    + intros P. lia.
    + intros P. rewrite P in C2. cbn [andb] in C2. destruct (Nat.ltb_spec d (c_nd c)); lia.
    + intros H. apply NP. lia.
Qed.

(** A vertex on rank i, as a range that overlaps. *)
Lemma box_vertex i cell u : (i < k)%nat -> pt_in (cells_of c) cell -> is_image c cell u ->
  (ranges_overlap (L i) (cell_box (c_nd c) u) = true <-> exists v, corner (c_nd c) u v /\ pt_in (L i) v).
Proof.
  intros Hi Hc Im. assert (Fl : forall d, (c_nd c <= d < 3)%nat -> tget u d = 0).
  { intros d Hd. pose proof HD as (_ & _ & _ & _ & NP & _). destruct (Im d ltac:(lia)) as [_ I2]. rewrite I2 by (apply NP; lia).
    rewrite pt_in_tget in Hc. specialize (Hc d ltac:(lia)). destruct (cells_bounds c k L HD d ltac:(lia)) as [B1 B2]. destruct (Nat.ltb_spec d (c_nd c)); lia. }
  rewrite overlap_tget. split.
  - intros H. exists (tmake (fun d => if tget (rb (L i)) d <=? tget u d then tget u d else tget u d + 1)). split.
    + intros d Hd. rewrite tget_tmake by exact Hd. destruct (Z.leb_spec (tget (rb (L i)) d) (tget u d)); [left; reflexivity|].
      destruct (Nat.ltb_spec d (c_nd c)); [right; auto|]. destruct (own_bounds c k L HD i d Hi Hd) as (_ & B2 & _). destruct (Nat.ltb_spec d (c_nd c)); [lia|].
      rewrite (Fl d ltac:(lia)) in H0. lia.
    + rewrite pt_in_tget. intros d Hd. rewrite tget_tmake by exact Hd. specialize (H d Hd). unfold cell_box in H. cbn [rb re] in H. rewrite !tget_tmake in H by exact Hd.
      destruct (Z.leb_spec (tget (rb (L i)) d) (tget u d)), (Nat.ltb_spec d (c_nd c)); try lia; rewrite (Fl d ltac:(lia)) in *; lia.
  - intros (v & Co & Hv) d Hd. rewrite pt_in_tget in Hv. specialize (Hv d Hd). unfold cell_box. cbn [rb re]. rewrite !tget_tmake by exact Hd.
    destruct (Co d Hd) as [Ev|[E1 Ev]].
    + destruct (Nat.ltb_spec d (c_nd c)); [lia|]. rewrite Ev, (Fl d ltac:(lia)) in Hv. lia.
    + destruct (Nat.ltb_spec d (c_nd c)); [lia|]. lia.
Qed.

Lemma range_box cell s : pt_in (cells_of c) cell -> range_image c (cell_box (c_nd c) cell) s -> is_image c cell (rb s) /\ s = cell_box (c_nd c) (rb s).
Proof.
  intros Hc [I Sz]. pose proof HD as (_ & _ & _ & _ & NP & _).
  assert (Fl : forall d, (c_nd c <= d < 3)%nat -> tget cell d = 0).
  { intros d Hd. rewrite pt_in_tget in Hc. specialize (Hc d ltac:(lia)). destruct (cells_bounds c k L HD d ltac:(lia)) as [B1 B2]. destruct (Nat.ltb_spec d (c_nd c)); lia. }
  assert (Eb : rb (cell_box (c_nd c) cell) = cell).
  { apply tup_ext. intros d Hd. unfold cell_box. cbn [rb]. rewrite tget_tmake by exact Hd. destruct (Nat.ltb_spec d (c_nd c)); [reflexivity|]. symmetry. apply Fl. lia. }
  rewrite Eb in I. split; [exact I|]. destruct s as [b e]. cbn [rb] in *. unfold cell_box. f_equal; apply tup_ext; intros d Hd; rewrite tget_tmake by exact Hd.
  - destruct (Nat.ltb_spec d (c_nd c)); [reflexivity|]. destruct (I d Hd) as [_ I2]. rewrite I2 by (apply NP; lia). apply Fl. lia.
  - specialize (Sz d Hd). unfold cell_box in Sz. cbn [rb re] in Sz. rewrite !tget_tmake in Sz by exact Hd.
    destruct (Nat.ltb_spec d (c_nd c)); [lia|]. destruct (I d Hd) as [_ I2]. rewrite I2 in Sz by (apply NP; lia). rewrite (Fl d) in Sz by lia. lia.
Qed.

Definition to_next (i : nat) (d : drow) : option drow := match share_row c (L i) d with Some o => o | None => None end.

Lemma share_row_ok i q e : (i < k)%nat -> (q < n)%nat -> In e (E q) ->
  share_row c (L i) (row_of q e) = Some (to_next i (row_of q e)) /\
  match to_next i (row_of q e) with
  | Some d => exists u, is_image c (e_cell e) u /\ d = DRow (cell_box (c_nd c) u) (e_coords e) (e_point e) (Z.of_nat q) /\ exists v, corner (c_nd c) u v /\ pt_in (L i) v
  | None => ~ has_vertex c (L i) (e_cell e)
  end.
Proof.
  intros Hi Hq He. destruct (HE q e Hq He) as [Hc _]. destruct (map_range_correct c (L i) _ ok_c nd3 (box_pre i (e_cell e) Hi Hc)) as (res & Er & Hr).
  assert (T : share_row c (L i) (row_of q e) = Some (option_map (fun s => DRow s (e_coords e) (e_point e) (Z.of_nat q)) res)) by (unfold share_row, row_of; cbn [dr_ext]; rewrite Er; reflexivity).
  assert (T' : to_next i (row_of q e) = option_map (fun s => DRow s (e_coords e) (e_point e) (Z.of_nat q)) res) by (unfold to_next; rewrite T; reflexivity).
  rewrite T', T. split; [reflexivity|]. destruct res as [s|]; cbn [option_map].
  - destruct Hr as [Im Ov]. destruct (range_box _ _ Hc Im) as [I Es]. exists (rb s). split; [exact I|]. split; [rewrite <- Es; reflexivity|].
    apply (box_vertex i (e_cell e)); auto. rewrite <- Es. exact Ov.
  - intros (u & v & I & Co & Lv & _).
    assert (O : ranges_overlap (L i) (cell_box (c_nd c) u) = true) by (apply (box_vertex i (e_cell e)); eauto).
    rewrite Hr in O; [discriminate|]. split.
    + intros d Hd. pose proof HD as (_ & _ & _ & _ & NP & _). destruct (I d Hd) as [I1 I2]. unfold cell_box. cbn [rb]. rewrite !tget_tmake by exact Hd.
      destruct (Nat.ltb_spec d (c_nd c)); [split; assumption|]. split; [intros P; rewrite NP in P by lia; discriminate|reflexivity].
    + intros d Hd. unfold cell_box. cbn [rb re]. rewrite !tget_tmake by exact Hd. destruct (Nat.ltb d (c_nd c)); lia.
Qed.

Definition sent (j i : nat) : list drow := keep (map (to_next i) (LD j)).
Definition h1 i := HS (LD i) (map (fun q => (q, sent i q)) (NB i)) [] [] [].
Definition h2 i := HS (LD i) (map (fun q => (q, sent i q)) (NB i)) (map (fun q => (q, Z.of_nat (length (sent q i)))) (NB i)) [] [].
Definition h3 i := HS (LD i) (map (fun q => (q, sent i q)) (NB i)) (map (fun q => (q, Z.of_nat (length (sent q i)))) (NB i)) (map (fun q => (q, sent q i)) (NB i)) [].

Lemma h1_ok : phase_ok k (Local (hs_pack c nbs) : phase hst hmsg) (fun i => HS0 (LD i)) h1.
Proof.
  intros i Hi. unfold hs_pack. cbn [h_local HS0].
  erewrite (omap_map (fun nb => let! ds := omap (share_row c (snd nb)) (LD i) in Some (fst nb, keep ds)) (fun nb => (fst nb, sent i (fst nb)))).
  - unfold h1, nbs. rewrite map_map. cbn [fst]. reflexivity.
  - intros nb Hnb. unfold nbs in Hnb. apply in_map_iff in Hnb as (j & <- & Hj). cbn [fst snd]. rewrite (omap_map _ (to_next j)); [reflexivity|].
    intros d Hd. destruct (F1 i d Hi Hd) as (q & e & Hq & He & _ & ->). apply share_row_ok; auto. eapply next_lt; eauto.
Qed.

Lemma map_fst_nbs i : map fst (nbs i) = NB i.
Proof. unfold nbs. rewrite map_map. cbn [fst]. apply map_id. Qed.

Lemma h2_ok : phase_ok k (wait_all (num_recvs nbs) num_sends (num_done nbs) : phase hst hmsg) h1 h2.
Proof.
  apply single_phase with (g := fun s d => HCount (Z.of_nat (length (sent s d)))) (src := NB) (dst := NB).
  - intros r Hr. apply HN, Hr.
  - intros r Hr. apply HN, Hr.
  - intros r s Hr. apply next_lt, Hr.
  - intros r s Hr. apply next_lt, Hr.
  - intros r s Hr Hs. apply next_sym; auto.
  - intros r Hr. unfold num_recvs. apply map_fst_nbs.
  - intros r Hr. unfold num_sends, h1. cbn [h_send]. rewrite map_map. reflexivity.
  - intros r Hr. unfold num_done, h1, h2. cbn [h_local h_send h_num h_recv h_donors].
    rewrite (omap_comp (fun m => match m with HCount k0 => Some k0 | _ => None end) (fun s => HCount (Z.of_nat (length (sent s r)))) (fun s => Z.of_nat (length (sent s r)))) by reflexivity.
    rewrite map_fst_nbs, combine_map_r. reflexivity.
Qed.

Lemma h3_ok : phase_ok k (wait_all (row_recvs nbs) row_sends (row_done nbs) : phase hst hmsg) h2 h3.
Proof.
  apply single_phase with (g := fun s d => HRows (sent s d)) (src := NB) (dst := NB).
  - intros r Hr. apply HN, Hr.
  - intros r Hr. apply HN, Hr.
  - intros r s Hr. apply next_lt, Hr.
  - intros r s Hr. apply next_lt, Hr.
  - intros r s Hr Hs. apply next_sym; auto.
  - intros r Hr. unfold row_recvs. apply map_fst_nbs.
  - intros r Hr. unfold row_sends, h2. cbn [h_send]. rewrite map_map. reflexivity.
  - intros r Hr. unfold row_done, h2, h3. cbn [h_local h_send h_num h_recv h_donors]. rewrite map_fst_nbs, combine_map_r.
    rewrite (omap_comp _ (fun s => (s, HRows (sent s r))) (fun s => (s, sent s r))); [reflexivity|].
    intros s Is. cbn [fst snd]. rewrite lookup_map, (proj2 (memb_In s (NB r)) Is), Z.eqb_refl. reflexivity.
Qed.

Definition no_rank (d : drow) : drow := DRow (dr_ext d) (dr_coords d) (dr_dest d) (-1).
Definition gathered (i : nat) : list drow := LD i ++ concat (map (fun q => sent q i) (NB i)).

Lemma keep_In {A} (l : list (option A)) x : In x (keep l) <-> In (Some x) l.
Proof.
  induction l as [|[a|] l IH]; cbn [keep]; [reflexivity| |].
  - cbn [In]. rewrite IH. split; intros [H|H]; auto; [left; congruence|left; injection H; auto].
  - rewrite IH. cbn [In]. split; [auto|]. intros [H|H]; [discriminate|exact H].
Qed.

Lemma sent_In j i d : (j < k)%nat -> (i < k)%nat -> In d (sent j i) <->
  exists q e, (q < n)%nat /\ In e (E q) /\ pt_in (L j) (e_cell e) /\ to_next i (row_of q e) = Some d.
Proof.
  intros Hj Hi. unfold sent. rewrite keep_In, in_map_iff. split.
  - intros (d0 & Ed & H). destruct (F1 j d0 Hj H) as (q & e & Hq & He & Hl & ->). exists q, e. auto.
  - intros (q & e & Hq & He & Hl & Ed). exists (row_of q e). split; [exact Ed|]. apply F2; auto.
Qed.

Lemma to_next_dest i q e d : (i < k)%nat -> (q < n)%nat -> In e (E q) -> to_next i (row_of q e) = Some d -> dr_dest d = e_point e.
Proof. intros Hi Hq He Ed. destruct (share_row_ok i q e Hi Hq He) as [_ H]. rewrite Ed in H. destruct H as (u & _ & -> & _). reflexivity. Qed.

Lemma gathered_origin i d : (i < k)%nat -> In d (gathered i) -> exists q e j, (q < n)%nat /\ In e (E q) /\ (j < k)%nat /\ pt_in (L j) (e_cell e) /\ dr_dest d = e_point e /\
  (j = i /\ d = row_of q e \/ In j (NB i) /\ j <> i /\ to_next i (row_of q e) = Some d).
Proof.
  intros Hi H. unfold gathered in H. apply in_app_or in H as [H|H].
  - destruct (F1 i d Hi H) as (q & e & Hq & He & Hl & ->). exists q, e, i. split; [exact Hq|]. split; [exact He|]. split; [exact Hi|]. split; [exact Hl|]. split; [reflexivity|]. left. split; reflexivity.
  - apply in_concat in H as (l & Hl & H). apply in_map_iff in Hl as (j & <- & Hj). pose proof (next_lt i j Hi Hj) as Lj.
    apply (sent_In j i d Lj Hi) in H as (q & e & Hq & He & Hl & Ed). exists q, e, j. split; [exact Hq|]. split; [exact He|]. split; [exact Lj|]. split; [exact Hl|]. split.
    + exact (to_next_dest i q e d Hi Hq He Ed).
    + right. split; [exact Hj|]. split; [|exact Ed]. apply (proj2 (HN i Hi)) in Hj. destruct Hj as (_ & Ne & _). exact Ne.
Qed.

Lemma keep_app {A} (l1 l2 : list (option A)) : keep (l1 ++ l2) = keep l1 ++ keep l2.
Proof. induction l1 as [|[a|] l1 IH]; cbn [keep app]; [reflexivity|f_equal; exact IH|exact IH]. Qed.

Lemma NoDup_app_intro {A} (l1 l2 : list A) : NoDup l1 -> NoDup l2 -> (forall x, In x l1 -> In x l2 -> False) -> NoDup (l1 ++ l2).
Proof.
  induction 1 as [|a l1 Ha N1 IH]; intros N2 Dj; [exact N2|]. cbn [app]. constructor.
  - intros H. apply in_app_or in H as [H|H]; [contradiction|]. apply (Dj a); [left; reflexivity|exact H].
  - apply IH; [exact N2|]. intros x H1 H2. apply (Dj x); [right; exact H1|exact H2].
Qed.

Lemma sent_NoDup j i : (j < k)%nat -> (i < k)%nat -> NoDup (map dr_dest (sent j i)).
Proof.
  intros Hj Hi. unfold sent. pose proof (F3 j Hj) as ND.
  assert (A : forall d, In d (LD j) -> exists q e, (q < n)%nat /\ In e (E q) /\ d = row_of q e).
  { intros d Hd. destruct (F1 j d Hj Hd) as (q & e & Hq & He & _ & ->). eauto. }
  induction (LD j) as [|d l IH]; [constructor|]. cbn [map] in ND. inversion ND as [|x y Nd N']; subst x y. clear ND.
  specialize (IH N' (fun d' H => A d' (or_intror H))). cbn [map]. destruct (to_next i d) as [d'|] eqn:Ed; cbn [keep]; [|exact IH].
  cbn [map]. constructor; [|exact IH]. intros H. apply Nd. apply in_map_iff in H as (d2 & E2 & H2). apply keep_In in H2. apply in_map_iff in H2 as (d3 & E3 & H3).
  destruct (A d (or_introl eq_refl)) as (q & e & Hq & He & Er). destruct (A d3 (or_intror H3)) as (q3 & e3 & Hq3 & He3 & Er3). subst d d3.
  rewrite (to_next_dest i q3 e3 d2 Hi Hq3 He3 E3), (to_next_dest i q e d' Hi Hq He Ed) in E2. apply in_map_iff. exists (row_of q3 e3). split; [exact E2|exact H3].
Qed.

Lemma gathered_NoDup i : (i < k)%nat -> NoDup (map dr_dest (gathered i)).
Proof.
  intros Hi. unfold gathered. rewrite map_app. apply NoDup_app_intro; [apply F3, Hi| |].
  - rewrite concat_map, map_map. destruct (HN i Hi) as [N0 A0].
    assert (Sub : forall j, In j (NB i) -> (j < k)%nat) by (intros j; apply next_lt, Hi).
    induction (NB i) as [|j l IH]; [constructor|]. inversion N0 as [|x y Nj N']; subst x y. cbn [map concat]. apply NoDup_app_intro.
    + apply sent_NoDup; auto using in_eq.
    + clear A0. revert N' Sub. clear IH N0 Nj. intros N' Sub. assert (S2 : forall j, In j l -> (j < k)%nat) by auto using in_cons. clear Sub.
      revert N' S2. induction l as [|j' l IH]; intros; [constructor|]. cbn [map concat]. inversion N' as [|x y Nj N2]; subst x y.
      apply NoDup_app_intro; [apply sent_NoDup; auto using in_eq|apply IH; auto using in_cons|].
      intros x H1 H2. apply in_concat in H2 as (l2 & Hl2 & H2). apply in_map_iff in Hl2 as (j2 & <- & Hj2).
      apply in_map_iff in H1 as (d1 & E1 & H1). apply in_map_iff in H2 as (d2 & E2 & H2).
      apply sent_In in H1 as (q & e & Hq & He & P1 & T1); auto using in_eq. apply sent_In in H2 as (q' & e' & Hq' & He' & P2 & T2); auto using in_cons.
      rewrite (to_next_dest i q e d1) in E1 by auto. rewrite (to_next_dest i q' e' d2) in E2 by auto.
      destruct (HU q q' e e' Hq Hq' He He' ltac:(congruence)) as [<- <-]. apply Nj. rewrite (L_unique c k L HD j' j2 (e_cell e)); auto using in_eq, in_cons.
    + intros x H1 H2. apply in_concat in H2 as (l2 & Hl2 & H2). apply in_map_iff in Hl2 as (j2 & <- & Hj2).
      apply in_map_iff in H1 as (d1 & E1 & H1). apply in_map_iff in H2 as (d2 & E2 & H2).
      apply sent_In in H1 as (q & e & Hq & He & P1 & T1); auto using in_eq. apply sent_In in H2 as (q' & e' & Hq' & He' & P2 & T2); auto using in_cons.
      rewrite (to_next_dest i q e d1) in E1 by auto. rewrite (to_next_dest i q' e' d2) in E2 by auto.
      destruct (HU q q' e e' Hq Hq' He He' ltac:(congruence)) as [<- <-]. apply Nj. rewrite (L_unique c k L HD j j2 (e_cell e)); auto using in_eq, in_cons.
  - intros x H1 H2. rewrite concat_map, map_map in H2. apply in_concat in H2 as (l2 & Hl2 & H2). apply in_map_iff in Hl2 as (j2 & <- & Hj2).
    apply in_map_iff in H1 as (d1 & E1 & H1). apply in_map_iff in H2 as (d2 & E2 & H2). pose proof (next_lt i j2 Hi Hj2) as Lj.
    destruct (F1 i d1 Hi H1) as (q & e & Hq & He & P1 & ->). apply sent_In in H2 as (q' & e' & Hq' & He' & P2 & T2); auto.
    rewrite (to_next_dest i q' e' d2) in E2 by auto. cbn [row_of dr_dest] in E1.
    destruct (HU q q' e e' Hq Hq' He He' ltac:(congruence)) as [<- <-].
    apply (proj2 (HN i Hi)) in Hj2. destruct Hj2 as (_ & Ne & _). apply Ne. apply (L_unique c k L HD j2 i (e_cell e)); auto.
Qed.

Lemma share_prog : exists S', prog_ok k (share c nbs R sort) (fun i => HS0 (LD i)) S' /\
  forall i, (i < k)%nat -> d_side c n (L i) R E (h_donors (S' i)).
Proof.
  assert (A : forall i, (i < k)%nat -> exists out, hs_order R sort i (h3 i) = Some (HS (h_local (h3 i)) (h_send (h3 i)) (h_num (h3 i)) (h_recv (h3 i)) out) /\ d_side c n (L i) R E out).
  { intros i Hi. set (rows := map no_rank (gathered i)).
    assert (Er : map (fun d => DRow (dr_ext d) (dr_coords d) (dr_dest d) (-1)) (h_local (h3 i) ++ concat (map snd (h_recv (h3 i)))) = rows).
    { unfold rows, gathered, h3. cbn [h_local h_recv]. rewrite map_map. reflexivity. }
    destruct (sorted_rows dr_dest (sort i) R rows (Hsort i Hi)) as (lo & out & E1 & E2 & H1 & H2).
    - unfold rows. rewrite map_map. cbn [no_rank dr_dest]. apply gathered_NoDup, Hi.
    - intros x Hx. unfold rows in Hx. apply in_map_iff in Hx as (d & <- & Hd). destruct (gathered_origin i d Hi Hd) as (q & e & j & Hq & He & _ & _ & Ed & _).
      cbn [no_rank dr_dest]. rewrite Ed. apply (HE q e Hq He).
    - exists out. split; [unfold hs_order; rewrite Er, E1, E2; reflexivity|]. split; [exact H2|]. split.
      + intros row Hr. apply H1 in Hr. unfold rows in Hr. apply in_map_iff in Hr as (d & <- & Hd).
        destruct (gathered_origin i d Hi Hd) as (q & e & j & Hq & He & Hj & Hl & Ed & [[-> ->]|(Hn & Ne & T)]).
        * exists q, e, (e_cell e). split; [exact Hq|]. split; [exact He|]. split; [reflexivity|]. split; [reflexivity|]. split; [reflexivity|].
          split; [apply is_image_refl|]. split; [reflexivity|]. split; [|reflexivity]. exists (e_cell e). split; [intros d Hd'; left; reflexivity|exact Hl].
        * destruct (share_row_ok i q e Hi Hq He) as [_ S0]. rewrite T in S0. destruct S0 as (u & I & -> & V).
          exists q, e, u. split; [exact Hq|]. split; [exact He|]. split; [reflexivity|]. split; [reflexivity|]. split; [reflexivity|].
          split; [exact I|]. split; [reflexivity|]. split; [exact V|]. intros Hl'. exfalso. apply Ne. apply (L_unique c k L HD j i (e_cell e)); auto.
      + intros q e Hq He V. destruct (HE q e Hq He) as [Hc Hp].
        destruct (L_owner c k L HD (e_cell e)) as (j & Hj & Hl).
        { revert Hc. rewrite !pt_in_tget. intros Hc d Hd. specialize (Hc d Hd). destruct (cells_bounds c k L HD d Hd) as [B1 B2].
          destruct (L_grid c k L HD 0%nat ltac:(lia)) as [_ G2].
          destruct (Nat.ltb_spec d (c_nd c)); [destruct (tget (c_per c) d && stor_eqb (c_stor c) UNIQUE); lia|].
          destruct (own_bounds c k L HD 0 d ltac:(lia) Hd) as (_ & B3 & B4 & B5). destruct (Nat.ltb_spec d (c_nd c)); lia. }
        assert (G : exists d, In d (gathered i) /\ dr_dest d = e_point e).
        { destruct (Nat.eq_dec j i) as [->|Ne].
          - exists (row_of q e). split; [|reflexivity]. unfold gathered. apply in_or_app. left. apply F2; auto.
          - destruct (share_row_ok i q e Hi Hq He) as [_ S0]. destruct (to_next i (row_of q e)) as [d|] eqn:T; [|contradiction].
            exists d. split; [|exact (to_next_dest i q e d Hi Hq He T)]. unfold gathered. apply in_or_app. right. apply in_concat. exists (sent j i). split.
            + apply in_map_iff. exists j. split; [reflexivity|]. apply (proj2 (HN i Hi)). split; [exact Hj|]. split; [exact Ne|].
              destruct V as (u & v & I & Co & Lv & _). exists v, (e_cell e). split; [exact Lv|]. split; [exact Hl|].
              exists u. split; [exact I|]. intros d0 Hd0. destruct (Co d0 Hd0) as [Ev|[_ Ev]]; lia.
            + apply sent_In; auto. exists q, e. auto. }
        destruct G as (d & Hd & Ed). exists (no_rank d). split; [|exact Ed]. apply H1. unfold rows. apply in_map, Hd. }
  pose (S' := fun i => match hs_order R sort i (h3 i) with Some s => s | None => h3 i end).
  exists S'. split.
  - exists h1. split; [exact h1_ok|]. exists h2. split; [exact h2_ok|]. exists h3. split; [exact h3_ok|]. exists S'. split; [|intros r Hr; reflexivity].
    intros i Hi. unfold S'. destruct (A i Hi) as (out & -> & _). reflexivity.
  - intros i Hi. unfold S'. destruct (A i Hi) as (out & -> & H). exact H.
Qed.
End Share.
