(** Importing XINTOUT files: from the files to the connectivities. *)
From Coq Require Import List ZArith QArith Bool Lia Permutation.
From Verif Require Import TupleModel RangeModel CartModel Base RangeProof CartProof DecompModel DecompProof ContModel ArrayModel ArrayProof HashModel ProtoModel ProtoSpec NetModel NetSpec.
From Verif Require Import DHashModel HashSpec DDecompProof NeighSpec NeighProof XinModel XinSpec XinChunk XinFile MatModel MatSpec MatFile DistModel DistSpec DistProof ImpModel ImpSpec ImpProof ImpMain.
From Verif Require Import EndModel EndSpec EndLists EndProof.
Import ListNotations.
Local Open Scope Z_scope.

Lemma in_file_d gs it : In it (file_donors gs) <-> exists i g k d, nth_error gs i = Some g /\ nth_error (g_donors g) k = Some d /\ it = Item (g_first g + Z.of_nat k) (Z.of_nat i + 1, d_cell d).
Proof.
  unfold file_donors. rewrite in_flat_map. split.
  - intros ((i & g) & H1 & H2). apply in_numbered in H1. cbn [fst snd] in H2. apply in_map_iff in H2 as ((k & d) & <- & H2). apply in_numbered in H2. cbn [fst snd]. eauto 8.
  - intros (i & g & k & d & H1 & H2 & ->). exists (i, g). split; [now apply in_numbered|]. cbn [fst snd]. apply in_map_iff. exists (k, d). split; [reflexivity|]. now apply in_numbered.
Qed.
Lemma in_file_r gs it : In it (file_receivers gs) <-> exists j g y, nth_error gs j = Some g /\ In y (g_receivers g) /\ it = Item (r_connection y) (Z.of_nat j + 1, r_point y).
Proof.
  unfold file_receivers. rewrite in_flat_map. split.
  - intros ((i & g) & H1 & H2). apply in_numbered in H1. cbn [fst snd] in H2. apply in_map_iff in H2 as (y & <- & H2). cbn [fst snd]. eauto 8.
  - intros (i & g & y & H1 & H2 & ->). exists (i, g). split; [now apply in_numbered|]. cbn [fst snd]. apply in_map_iff. eauto.
Qed.

Section Links.
Context (gs : list grid_data).
Hypothesis Hc : consistent gs.
(** Donors and receivers point to each other. *)
Lemma donor_link i g k d : nth_error gs i = Some g -> nth_error (g_donors g) k = Some d ->
  exists j h y, nth_error gs j = Some h /\ In y (g_receivers h) /\ r_connection y = g_first g + Z.of_nat k /\
    place_of (file_receivers gs) (g_first g + Z.of_nat k) = (Z.of_nat j + 1, r_point y) /\ place_of (file_donors gs) (r_connection y) = (Z.of_nat i + 1, d_cell d).
Proof.
  intros Hi Hk. destruct (consistent_NoDup gs Hc) as [N1 N2]. destruct Hc as [C1 C2].
  assert (I : In (Item (g_first g + Z.of_nat k) (Z.of_nat i + 1, d_cell d)) (file_donors gs)) by (apply in_file_d; eauto 8).
  pose proof (in_map it_id _ _ I) as J. cbn [it_id] in J. apply (Permutation_in _ C1) in J. apply (Permutation_in _ (Permutation_sym C2)) in J. apply in_map_iff in J as (it & E & J).
  pose proof (place_unique _ _ N2 J) as P. apply in_file_r in J as (j & h & y & H1 & H2 & ->). cbn [it_id it_place] in *. exists j, h, y. repeat split; auto; [congruence|].
  pose proof (place_unique _ _ N1 I) as Q. cbn [it_id it_place] in Q. congruence.
Qed.
Lemma receiver_link j h y : nth_error gs j = Some h -> In y (g_receivers h) ->
  exists i g k d, nth_error gs i = Some g /\ nth_error (g_donors g) k = Some d /\ r_connection y = g_first g + Z.of_nat k /\
    place_of (file_receivers gs) (g_first g + Z.of_nat k) = (Z.of_nat j + 1, r_point y) /\ place_of (file_donors gs) (r_connection y) = (Z.of_nat i + 1, d_cell d).
Proof.
  intros Hj Hy. destruct (consistent_NoDup gs Hc) as [N1 N2]. destruct Hc as [C1 C2].
  assert (I : In (Item (r_connection y) (Z.of_nat j + 1, r_point y)) (file_receivers gs)) by (apply in_file_r; eauto 8).
  pose proof (in_map it_id _ _ I) as J. cbn [it_id] in J. apply (Permutation_in _ C2) in J. apply (Permutation_in _ (Permutation_sym C1)) in J. apply in_map_iff in J as (it & E & J).
  pose proof (place_unique _ _ N1 J) as P. apply in_file_d in J as (i & g & k & d & H1 & H2 & ->). cbn [it_id it_place] in *. exists i, g, k, d. repeat split; auto; [|congruence].
  pose proof (place_unique _ _ N2 I) as Q. cbn [it_id it_place] in Q. congruence.
Qed.
Lemma in_donor_links i x : In x (donor_links gs i) <-> exists g k d, nth_error gs i = Some g /\ nth_error (g_donors g) k = Some d /\ x = (d, place_of (file_receivers gs) (g_first g + Z.of_nat k)).
Proof.
  unfold donor_links. split.
  - destruct (nth_error gs i) as [g|] eqn:E; [|intros []]. intros H. apply in_map_iff in H as ((k & d) & <- & H). apply in_numbered in H. exists g, k, d. auto.
  - intros (g & k & d & -> & H & ->). apply in_map_iff. exists (k, d). split; [reflexivity|]. now apply in_numbered.
Qed.
Lemma in_receiver_links i x : In x (receiver_links gs i) <-> exists g y, nth_error gs i = Some g /\ In y (g_receivers g) /\ x = (r_point y, place_of (file_donors gs) (r_connection y)).
Proof.
  unfold receiver_links. split.
  - destruct (nth_error gs i) as [g|] eqn:E; [|intros []]. intros H. apply in_map_iff in H as (y & <- & H). exists g, y. auto.
  - intros (g & y & -> & H & ->). apply in_map_iff. exists y. auto.
Qed.
Lemma donor_joined i x : In x (donor_links gs i) -> exists j, (j < length gs)%nat /\ gid x = Z.of_nat j + 1 /\ joined gs (Z.of_nat i + 1) j.
Proof.
  intros H. apply in_donor_links in H as (g & k & d & Hg & Hk & ->). destruct (donor_link i g k d Hg Hk) as (j & h & y & H1 & H2 & H3 & H4 & H5). exists j.
  split; [apply nth_error_Some; congruence|]. split; [unfold gid; cbn [snd]; now rewrite H4|]. exists (r_point y, place_of (file_donors gs) (r_connection y)).
  split; [apply in_receiver_links; eauto|]. unfold gid. cbn [snd]. now rewrite H5.
Qed.
Lemma joined_below i j : joined gs i j -> 1 <= i <= Z.of_nat (length gs) /\ (j < length gs)%nat.
Proof.
  intros (v & H & <-). apply in_receiver_links in H as (h & y & Hj & Hy & ->). destruct (receiver_link j h y Hj Hy) as (i & g & k & d & H1 & H2 & H3 & H4 & H5).
  unfold gid. cbn [snd]. rewrite H5. cbn [fst]. assert (i < length gs)%nat by (apply nth_error_Some; congruence). split; [lia|]. apply nth_error_Some; congruence.
Qed.

(** Making connectivities of what was distributed. *)
Context (n : nat) (gr : nat -> list nat) (c : nat -> cart) (own : nat -> nat -> range) (X : nat -> nat -> xst).
Hypothesis Hdon : forall i g, nth_error gs i = Some g -> Forall donor_ok (g_donors g).
Hypothesis LO : laid_out n gs gr c own.
Hypothesis HX : forall i, (i < length gs)%nat -> dist_result gs gr i (c i) (own i) (X i).

Lemma in_locals s x : In x (locals_at (length gs) gr X s) <-> exists i q, (i < length gs)%nat /\ nth_error (gr i) q = Some s /\ x = (Z.of_nat i + 1, (x_donors (X i q), x_receivers (X i q))).
Proof.
  unfold locals_at. rewrite in_flat_map. split.
  - intros (i & Hi & H). apply in_seq in Hi. destruct (rank_in s (gr i)) as [q|] eqn:E; [|destruct H]. destruct H as [<-|[]]. apply rank_in_nth in E. exists i, q. split; [lia|]. auto.
  - intros (i & q & Hi & E & ->). exists i. split; [apply in_seq; lia|]. rewrite (nth_rank_in s (gr i) q); [now left|apply (lo_ranks _ _ _ _ _ LO i Hi)|exact E].
Qed.
Lemma nth_lt {A} (l : list A) k x : nth_error l k = Some x -> (k < length l)%nat.
Proof. intros H. apply nth_error_Some. congruence. Qed.
Lemma connected_joined a b : connected n (locals_at (length gs) gr X) a b <-> exists j, b = Z.of_nat j + 1 /\ joined gs a j.
Proof.
  split.
  - intros (s & ds & rs & v & Hs & H & Hv & <-). apply in_locals in H as (j & q & Hj & Hq & E). injection E as -> -> ->. exists j. split; [reflexivity|]. exists v. split; [|reflexivity].
    destruct (HX j Hj q (nth_lt _ _ _ Hq)) as [_ (l & Cl & P)]. apply (Permutation_in _ P) in Hv. now apply (chosen_In _ _ _ v Cl) in Hv.
  - intros (j & -> & v & Hv & <-). pose proof Hv as Hv'. apply in_receiver_links in Hv' as (h & y & Hj & Hy & E). assert (Hjl : (j < length gs)%nat) by (apply nth_error_Some; congruence).
    pose proof (lo_points _ _ _ _ _ LO j h y Hj Hy) as Hp. destruct (L_owner (c j) (length (gr j)) (own j) (lo_range _ _ _ _ _ LO j Hjl) (r_point y) Hp) as (q & Hq & I).
    destruct (nth_error (gr j) q) as [s|] eqn:Es; [|apply nth_error_None in Es; lia].
    exists s, (x_donors (X j q)), (x_receivers (X j q)), v. split; [apply (lo_ranks _ _ _ _ _ LO j Hjl); eapply nth_error_In; eauto|]. split; [apply in_locals; eauto|]. split; [|reflexivity].
    destruct (HX j Hjl q Hq) as [_ (l & Cl & P)]. apply (Permutation_in _ (Permutation_sym P)). apply (chosen_In _ _ _ v Cl). split; [exact Hv|]. subst v. exact I.
Qed.
Lemma reached_nonempty cc o x : reached cc o x -> exists p, pt_in x p.
Proof. intros [(_ & p & H & _)|(_ & p & u & H & _)]; eauto. Qed.
Lemma sizes_ok i x : In x (donor_links gs i) -> (exists p, pt_in (cell_of (fst x)) p) -> forall d, (d < 3)%nat ->
  1 <= tget (d_size (fst x)) d /\ Z.of_nat (length (tget (d_coefs (fst x)) d)) = tget (d_size (fst x)) d.
Proof.
  intros H (p & Hp) d Hd. apply in_donor_links in H as (g & k & e & Hg & Hk & ->). cbn [fst] in *. pose proof (Hdon i g Hg) as F. rewrite Forall_forall in F.
  destruct (F e (nth_error_In _ _ Hk)) as (_ & _ & _ & _ & K0 & K1 & K2). unfold len in *. unfold pt_in, cell_of in Hp. cbn in Hp. destruct d as [|[|[|d]]]; [| | |lia]; cbn [tget]; lia.
Qed.
Lemma links_size (e : donor) d : (d < 3)%nat -> tget (e_end (donor_read e)) d - tget (e_begin (donor_read e)) d = tget (d_size e) d.
Proof. intros Hd. destruct d as [|[|[|d]]]; [| | |lia]; cbn; lia. Qed.

Lemma locals_importable : importable n (length gs) (locals_at (length gs) gr X).
Proof.
  constructor.
  - intros s id ds rs Hs H. apply in_locals in H as (i & q & Hi & Hq & E). injection E as -> -> ->. lia.
  - intros s id ds rs v Hs H Hv. apply in_locals in H as (i & q & Hi & Hq & E). injection E as -> -> ->.
    destruct (HX i Hi q (nth_lt _ _ _ Hq)) as [_ (l & Cl & P)]. apply (Permutation_in _ P) in Hv. apply (chosen_In _ _ _ v Cl) in Hv as [Hv _].
    apply (joined_below (gid v) i). exists v. auto.
  - intros s id ds rs v Hs H Hv. apply in_locals in H as (i & q & Hi & Hq & E). injection E as -> -> ->. apply connected_joined.
    destruct (HX i Hi q (nth_lt _ _ _ Hq)) as [(l & Cl & P) _]. apply (Permutation_in _ P) in Hv. apply in_map_iff in Hv as (x & <- & Hx). apply (chosen_In _ _ _ x Cl) in Hx as [Hx _].
    destruct (donor_joined i x Hx) as (j & Hj & E & J). exists j. split; [exact E|exact J].
  - intros s id ds rs v d Hs H Hv Hd. apply in_locals in H as (i & q & Hi & Hq & E). injection E as -> -> ->.
    destruct (HX i Hi q (nth_lt _ _ _ Hq)) as [(l & Cl & P) _]. apply (Permutation_in _ P) in Hv. apply in_map_iff in Hv as (x & <- & Hx). apply (chosen_In _ _ _ x Cl) in Hx as [Hx R].
    destruct (sizes_ok i x Hx (reached_nonempty _ _ _ R) d Hd) as [S1 S2]. cbn [fst]. rewrite (links_size (fst x) d Hd). cbn [donor_read e_coefs]. auto.
Qed.

Lemma imports_in_files r i q out : nth_error (gr i) q = Some r -> (i < length gs)%nat ->
  imports n (locals_at (length gs) gr X) (Z.of_nat i + 1) (x_donors (X i q)) (x_receivers (X i q)) out -> as_in_files gs (c i) (own i q) i out.
Proof.
  intros Hq Hi (A1 & A2 & A3 & A4 & A5 & A6). destruct (HX i Hi q (nth_lt _ _ _ Hq)) as [(ld & Cd & Pd) (lr & Cr & Pr)].
  split; [exact A1|]. split; [exact A2|]. split; [intros j; rewrite A3; apply connected_joined|]. split; [|split].
  - intros j. rewrite A4, connected_joined. split; [intros (k & E & H)|intros H; exists i; auto]. assert (k = i) as -> by lia. exact H.
  - intros j m Hm. destruct (A5 j m Hm) as [(B1 & _) B2].
    exists (filter (fun x => gid x =? j) ld). split; [apply chosen_and; [exact Cd|]; intros x; apply Z.eqb_eq|].
    assert (P : Permutation (to_grid j (x_donors (X i q))) (map (fun x => (donor_read (fst x), snd x)) (filter (fun x => gid x =? j) ld))).
    { unfold to_grid. etransitivity; [apply perm_filter, Pd|]. rewrite filter_map_of. reflexivity. }
    split.
    + rewrite B2. rewrite <- (map_map (fun x : donor * place => (donor_read (fst x), snd x)) (stored (cm_max m))). now apply Permutation_map.
    + intros x d Hx Hd. rewrite <- (links_size (fst x) d Hd). apply (B1 (donor_read (fst x), snd x) d); [|exact Hd].
      apply (Permutation_in _ (Permutation_sym P)). apply in_map_iff. exists x. auto.
  - intros j l' Hl. rewrite (A6 j l' Hl). exists (filter (fun x => gid x =? j) lr). split; [apply chosen_and; [exact Cr|]; intros x; apply Z.eqb_eq|].
    unfold to_grid. now apply perm_filter.
Qed.

Lemma locals_keys s : map fst (locals_at (length gs) gr X s) = map (fun i => Z.of_nat i + 1) (filter (fun i => match rank_in s (gr i) with Some _ => true | None => false end) (seq 0 (length gs))).
Proof. unfold locals_at. induction (seq 0 (length gs)) as [|i l IH]; [reflexivity|]. cbn. rewrite map_app, IH. now destruct (rank_in s (gr i)). Qed.

Lemma import_files nd : exists ids S', computes n (import_all nd (length gs)) (fun r => I0 (locals_at (length gs) gr X r)) S' /\
  NoDup ids /\ (forall i j, In (i, j) ids <-> exists k, j = Z.of_nat k + 1 /\ joined gs i k) /\
  forall r, (r < n)%nat -> exists o, S' r = IDone ids o /\ NoDup (map fst o) /\ (forall id, In id (map fst o) <-> exists i, (i < length gs)%nat /\ id = Z.of_nat i + 1 /\ In r (gr i)) /\
    forall i q out, (i < length gs)%nat -> nth_error (gr i) q = Some r -> In (Z.of_nat i + 1, out) o -> as_in_files gs (c i) (own i q) i out.
Proof.
  destruct (import_spec nd n (length gs) (locals_at (length gs) gr X) locals_importable) as (ids & S' & C & N & I & H). exists ids, S'. split; [exact C|]. split; [exact N|].
  split; [intros i j; rewrite I; apply connected_joined|]. intros r Hr. destruct (H r Hr) as (o & E & F). exists o. split; [exact E|].
  assert (K : map fst o = map fst (locals_at (length gs) gr X r)) by (clear - F; induction F as [|x y l l' [A _] F IH]; [reflexivity|]; cbn; congruence).
  rewrite K, locals_keys. split; [|split].
  - apply FinFun.Injective_map_NoDup; [intros a b; lia|]. apply NoDup_filter, seq_NoDup.
  - intros id. rewrite in_map_iff. split.
    + intros (i & <- & Hi). apply filter_In in Hi as [Hi B]. apply in_seq in Hi. destruct (rank_in r (gr i)) as [q|] eqn:Eq; [|discriminate]. exists i. repeat split; [lia|].
      apply rank_in_nth in Eq. eapply nth_error_In; eauto.
    + intros (i & Hi & -> & Hir). exists i. split; [reflexivity|]. apply filter_In. split; [apply in_seq; lia|]. apply In_nth_error in Hir as (q & Hq).
      now rewrite (nth_rank_in r (gr i) q (proj1 (lo_ranks _ _ _ _ _ LO i Hi)) Hq).
  - intros i q out Hi Hq Ho. apply In_nth_error in Ho as (k & Ho). destruct (Forall2_nth _ _ _ F) as [FL F'].
    destruct (nth_error (locals_at (length gs) gr X r) k) as [x|] eqn:Ex; [|apply nth_error_None in Ex; apply nth_lt in Ho; lia].
    destruct (F' k x _ Ex Ho) as [G1 G2]. cbn [fst snd] in G1, G2. apply nth_error_In, in_locals in Ex as (i' & q' & Hi' & Hq' & ->). cbn [fst snd] in *.
    assert (i' = i) as -> by lia. assert (q' = q) as ->.
    { destruct (lo_ranks _ _ _ _ _ LO i Hi) as [ND _]. pose proof (nth_rank_in _ _ _ ND Hq). pose proof (nth_rank_in _ _ _ ND Hq'). congruence. }
    eapply imports_in_files; eauto.
Qed.
End Links.

Lemma grids_known n gs gr c own : laid_out n gs gr c own -> (forall i, 0 <= points_of gs i) -> known n (length gs) (points_of gs) (receivers_of gs) (grids_on gs gr).
Proof.
  intros LO Hp. constructor.
  - intros r g x Hr H. unfold grids_on in H. apply in_flat_map in H as (i & Hi & H). apply in_seq in Hi. destruct (rank_in r (gr i)); [|destruct H]. destruct H as [[= <- <-]|[]]. exists i. repeat split. lia.
  - intros i Hi. destruct (lo_range _ _ _ _ _ LO i Hi) as (_ & Hn & _). destruct (lo_ranks _ _ _ _ _ LO i Hi) as [ND Hlt]. destruct (gr i) as [|r l] eqn:E; [cbn in Hn; lia|].
    exists r. split; [apply Hlt; now left|]. unfold grids_on. apply in_flat_map. exists i. split; [apply in_seq; lia|]. rewrite E. cbn. rewrite Nat.eqb_refl. now left.
  - intros i Hi. split; [apply Hp|]. unfold receivers_of. destruct (nth_error gs i); unfold len; lia.
Qed.

Theorem import_from_files m e fmt iblank oh ox gs domain adjust n nd hd hr gr c own junk guess rnd :
  file_ok fmt iblank oh gs -> length ox = 4%nat -> gs <> [] -> matches gs domain -> readable gs domain adjust -> consistent gs ->
  (forall i, 0 <= points_of gs i) -> len (file_receivers gs) <= sum_of (length gs) (points_of gs) ->
  laid_out n gs gr c own -> (forall i k, (i < length gs)%nat -> In (hd i k) (gr i) /\ In (hr i k) (gr i)) -> (forall i k, (hd i k < n)%nat /\ (hr i k < n)%nat) ->
  (forall l m, 1 <= m -> guess l m <= m) -> rounding rnd -> (rnd 1 == 1)%Q ->
  exists L M X ids S',
    read_xintout m domain adjust (ho_file fmt e iblank oh gs) (x_file fmt e ox gs) = Done L /\
    computes n (match_all (length gs) n junk) (fun r => MS0 (grids_on gs gr r) (donors_held hd L r) (receivers_held hr L r)) M /\
    (forall i, (i < length gs)%nat -> computes (length (gr i)) (distribute (c i) (length (gr i)) (range_decomp guess (c_nd (c i))) (range_ratio rnd (c_nd (c i)))) (dist_start hd hr L gr own M i) (X i)) /\
    computes n (import_all nd (length gs)) (fun r => I0 (locals_at (length gs) gr X r)) S' /\
    NoDup ids /\ (forall i j, In (i, j) ids <-> exists k, j = Z.of_nat k + 1 /\ joined gs i k) /\
    forall r, (r < n)%nat -> exists o, S' r = IDone ids o /\ NoDup (map fst o) /\ (forall id, In id (map fst o) <-> exists i, (i < length gs)%nat /\ id = Z.of_nat i + 1 /\ In r (gr i)) /\
      forall i q out, (i < length gs)%nat -> nth_error (gr i) q = Some r -> In (Z.of_nat i + 1, out) o -> as_in_files gs (c i) (own i q) i out.
Proof.
  intros F1 F2 F3 F4 F5 Hc Hp Ht LO Hh Hn G1 G2 G3. destruct (file_read m e fmt iblank oh ox gs domain adjust F1 F2 F3 F4 F5) as (L & RL & HL).
  assert (Hn0 : (0 < n)%nat) by (destruct (Hn 0%nat 0%nat); lia).
  destruct (match_file gs domain adjust L F4 F5 HL n hd hr (grids_on gs gr) junk Hn0 (fun i k => proj1 (Hn i k)) (fun i k => proj2 (Hn i k)) Hc (grids_known n gs gr c own LO Hp) Ht) as (M & CM & HM).
  assert (Hdon : forall i g, nth_error gs i = Some g -> Forall donor_ok (g_donors g)).
  { intros i g Hg. destruct F1 as [F1 _]. rewrite Forall_forall in F1. exact (proj1 (F1 g (nth_error_In _ _ Hg))). }
  destruct (choose (fun i Xi => computes (length (gr i)) (distribute (c i) (length (gr i)) (range_decomp guess (c_nd (c i))) (range_ratio rnd (c_nd (c i)))) (dist_start hd hr L gr own M i) Xi /\
    dist_result gs gr i (c i) (own i) Xi) (fun _ => XDone 0 [] []) (length gs)) as (X & HX).
  { intros i Hi. destruct (nth_error gs i) as [g|] eqn:Hg; [|apply nth_error_None in Hg; lia]. destruct (lo_ranks _ _ _ _ _ LO i Hi) as [ND Hlt].
    apply (distribute_grid gs domain adjust L F4 F5 HL hd hr Hc gr i g Hg ND (c i) (own i) M n (lo_range _ _ _ _ _ LO i Hi) (Hdon i g Hg)); auto.
    - intros d p k Hd. now apply (lo_cells _ _ _ _ _ LO i g d p k Hg).
    - intros y. apply (lo_points _ _ _ _ _ LO i g y Hg).
    - intros k. apply Hh, Hi.
    - intros k. apply Hh, Hi. }
  destruct (import_files gs Hc n gr c own X Hdon LO (fun i Hi => proj2 (HX i Hi)) nd) as (ids & S' & C & H). exists L, M, X, ids, S'.
  split; [exact RL|]. split; [exact CM|]. split; [intros i Hi; apply HX, Hi|]. split; [exact C|exact H].
Qed.
