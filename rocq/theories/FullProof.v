(** The connectivities of all pairs of grids can be exchanged: proofs for C80. *)
From Coq Require Import List ZArith QArith Bool Lia Sorting.Sorted.
From Verif Require Import TupleModel RangeModel Base RangeProof CartModel CartProof DecompModel DecompProof IndexerModel ArrayModel HashModel HashProof.
From Verif Require Import EmbedModel EmbedProof NeighSpec NeighProof FieldSpec FieldProof SendModel SendSpec SendProof SendLaws CellModel CollectSpec XchModel XchSpec PipeModel PipeSpec.
From Verif Require Import OvlModel OvlSpec OvlProof OvlLaws ConModel ConSpec ConProof ConLaws FullSpec.
Import ListNotations.
Local Open Scope Z_scope.

Lemma image_same c p u : cart_ok c -> stored_once c -> pt_in (c_range c) p -> pt_in (c_range c) u -> is_image c p u -> u = p.
Proof.
  intros Ok SO Hp Hu I. rewrite <- (wrap_id c Ok SO p Hp), <- (wrap_id c Ok SO u Hu). apply wrap_unique; [exact Ok| |apply wrap_base, Ok].
  apply (is_image_trans c _ p); [apply is_image_sym, I|apply wrap_image, Ok].
Qed.

Section Pair.
Variables (n : nat) (NL : Z -> nat -> range) (donor : Z -> nat -> tup Z -> Z) (rm : Z -> nat -> tup Z -> bool) (P : pair).
Hypothesis HP : filled n NL donor rm P.
Notation E := (gp_chosen donor P).

Lemma pair_input : conn_input (gp_c P) n (gp_mem P) (gp_L P) (gp_R P) (gp_D P) (gp_MG P) (gp_NG P) (gp_NB P) (gp_M P) (gp_N P) (NL (gp_n P)) (donor (gp_n P)) (rm (gp_n P)) (gp_m P).
Proof. apply HP. Qed.
Lemma pair_overlap : overlap_input (gp_c P) n (gp_mem P) (gp_L P) (gp_R P) E (gp_MG P) (gp_NG P).
Proof. apply chosen_input. exact (ci_overlap _ _ _ _ _ _ _ _ _ _ _ _ _ _ _ pair_input). Qed.
Lemma pair_once : stored_once (gp_c P).
Proof. apply HP. Qed.
Lemma pair_grid : decomposed (gp_c P) (length (gp_mem P)) (gp_L P).
Proof. exact (oi_grid _ _ _ _ _ _ _ _ pair_overlap). Qed.
Lemma pair_donors i r : nth_error (gp_mem P) i = Some r -> d_side (gp_c P) n (gp_L P i) (gp_R P) E (gp_dons P r).
Proof. apply HP. Qed.
Lemma pair_mem : NoDup (gp_mem P) /\ forall r, In r (gp_mem P) -> (r < n)%nat.
Proof. exact (oi_mem _ _ _ _ _ _ _ _ pair_overlap). Qed.
Lemma mem_at i r : nth_error (gp_mem P) i = Some r -> (i < length (gp_mem P))%nat /\ (r < n)%nat.
Proof. intros H. split; [apply nth_error_Some; congruence|]. apply (proj2 pair_mem). eapply nth_error_In; eauto. Qed.

Lemma chosen_same q q' e e' : (q < n)%nat -> (q' < n)%nat -> In e (E q) -> In e' (E q') -> e_point e = e_point e' -> q = q' /\ e = e'.
Proof. apply (same_entry (gp_c P) n (gp_mem P) (gp_L P) (gp_R P) E (gp_MG P) (gp_NG P) pair_overlap). Qed.

Lemma chosen_D q e : In e (E q) -> In e (gp_D P q) /\ donor (gp_n P) q (e_point e) = gp_m P.
Proof. unfold gp_chosen, chosen. rewrite filter_In, Z.eqb_eq. auto. Qed.

Lemma chosen_local q e : (q < n)%nat -> In e (E q) -> pt_in (NL (gp_n P) q) (e_point e).
Proof. intros Hq He. apply chosen_D in He as [He _]. apply (ci_local _ _ _ _ _ _ _ _ _ _ _ _ _ _ _ pair_input q Hq), He. Qed.

Lemma cell_grid e q : (q < n)%nat -> In e (E q) -> pt_in (c_range (gp_c P)) (e_cell e).
Proof.
  intros Hq He. destruct (oi_entries _ _ _ _ _ _ _ _ pair_overlap q e Hq He) as [Hc _]. pose proof pair_grid as HD.
  revert Hc. rewrite !pt_in_tget. intros Hc d Hd. specialize (Hc d Hd). destruct (cells_bounds _ _ _ HD d Hd) as [B1 B2].
  destruct (Nat.ltb_spec d (c_nd (gp_c P))) as [Hlt|Hge].
  - destruct (tget (c_per (gp_c P)) d && stor_eqb (c_stor (gp_c P)) UNIQUE); lia.
  - pose proof HD as (_ & H0 & _). destruct (own_bounds _ _ _ HD 0 d ltac:(lia) Hd) as (_ & B3 & B4 & B5). destruct (Nat.ltb_spec d (c_nd (gp_c P))); lia.
Qed.

Lemma box_lower e q u : (q < n)%nat -> In e (E q) -> is_image (gp_c P) (e_cell e) u -> rb (cell_box (c_nd (gp_c P)) u) = u.
Proof.
  intros Hq He I. apply tup_ext. intros d Hd. unfold cell_box. cbn [rb]. rewrite tget_tmake by exact Hd. destruct (Nat.ltb_spec d (c_nd (gp_c P))) as [|Hge]; [reflexivity|].
  symmetry. apply (cell_flat (gp_c P) n (gp_mem P) (gp_L P) (gp_R P) (gp_D P) (gp_MG P) (gp_NG P) (gp_M P) (ci_overlap _ _ _ _ _ _ _ _ _ _ _ _ _ _ _ pair_input)
    (ci_m _ _ _ _ _ _ _ _ _ _ _ _ _ _ _ pair_input) (e_cell e)); [apply (oi_entries _ _ _ _ _ _ _ _ pair_overlap q e Hq He)|exact I|lia].
Qed.

(** The donors whose lower corner is on the rank are those whose cell it owns. *)
Lemma own_donors i r d : nth_error (gp_mem P) i = Some r -> In d (gp_dons P r) -> pt_in (gp_L P i) (rb (dr_ext d)) ->
  exists q e, (q < n)%nat /\ In e (E q) /\ dr_dest d = e_point e /\ dr_coords d = e_coords e /\ pt_in (gp_L P i) (e_cell e) /\ dr_ext d = cell_box (c_nd (gp_c P)) (e_cell e).
Proof.
  intros Hi Hd Hl. destruct (mem_at i r Hi) as [Li Lr]. destruct (pair_donors i r Hi) as (_ & H2 & _).
  destruct (H2 d Hd) as (q & e & u & Hq & He & E1 & E2 & _ & I & E3 & _ & _). rewrite E3, (box_lower e q u Hq He I) in Hl.
  assert (u = e_cell e).
  { pose proof pair_grid as HD. pose proof HD as (_ & _ & Ok & _). apply (image_same (gp_c P)); auto using pair_once.
    - apply (cell_grid e q Hq He).
    - apply (L_sub _ _ _ HD i Li), Hl. }
  subst u. exists q, e. auto 7.
Qed.

Lemma owned_donor i r q e : nth_error (gp_mem P) i = Some r -> (q < n)%nat -> In e (E q) -> pt_in (gp_L P i) (e_cell e) ->
  exists d, In d (gp_dons P r) /\ dr_dest d = e_point e /\ pt_in (gp_L P i) (rb (dr_ext d)).
Proof.
  intros Hi Hq He Hl. destruct (mem_at i r Hi) as [Li Lr]. destruct (pair_donors i r Hi) as (_ & H2 & H3).
  destruct (H3 q e Hq He) as (d & Hd & Ed).
  { apply (owner_vertex _ _ _ pair_grid i _ Li); [apply (oi_entries _ _ _ _ _ _ _ _ pair_overlap q e Hq He)|exact Hl]. }
  exists d. split; [exact Hd|]. split; [exact Ed|]. destruct (H2 d Hd) as (q' & e' & u & Hq' & He' & E1 & _ & _ & I & E3 & _ & W).
  destruct (chosen_same q q' e e' Hq Hq' He He' ltac:(congruence)) as [<- <-]. rewrite E3, (box_lower e q u Hq He I). rewrite (W Hl). exact Hl.
Qed.

Lemma dests_sorted i r : nth_error (gp_mem P) i = Some r -> StronglySorted (fun a b => rindex ColMajor (gp_R P) (dr_dest a) < rindex ColMajor (gp_R P) (dr_dest b)) (gp_dons P r).
Proof. intros Hi. destruct (pair_donors i r Hi) as (H1 & _). apply vread_sorted, H1. Qed.

Lemma sorted_NoDup {A B} (key : A -> Z) (f : A -> B) (l : list A) : (forall a b, f a = f b -> key a = key b) -> StronglySorted (fun a b => key a < key b) l -> NoDup (map f l).
Proof.
  intros K. induction 1 as [|a l S IH F]; [constructor|]. cbn [map]. constructor; [|exact IH]. intros H. apply in_map_iff in H as (b & Eb & Hb).
  rewrite Forall_forall in F. specialize (F b Hb). apply K in Eb. lia.
Qed.

Lemma dests_NoDup i r : nth_error (gp_mem P) i = Some r -> NoDup (map dr_dest (gp_dons P r)).
Proof. intros Hi. apply (sorted_NoDup (fun d => rindex ColMajor (gp_R P) (dr_dest d))); [intros a b ->; reflexivity|]. apply (dests_sorted i r Hi). Qed.

Definition m_conn (i r : nat) : mconn := MConn (gp_m P) (gp_n P) (gp_L P i) (map (fun d => Donor (rb (dr_ext d)) (dr_dest d) (dr_rank d)) (gp_dons P r)).
Definition n_conn (r : nat) : nconn := NConn (gp_m P) (gp_n P) (map (fun x => Recvr (fst x) (-1)) (gp_recv P r)).

Lemma local_point i r p : nth_error (gp_mem P) i = Some r -> In p (map d_point (XchSpec.local_donors (m_conn i r))) <->
  exists q e, (q < n)%nat /\ In e (E q) /\ e_point e = p /\ pt_in (gp_L P i) (e_cell e).
Proof.
  intros Hi. unfold XchSpec.local_donors. rewrite in_map_iff. cbn [mc_local mc_donors m_conn]. split.
  - intros (x & <- & Hx). apply filter_In in Hx as [Hx Hc]. apply in_map_iff in Hx as (d & <- & Hd). cbn [d_lower d_point] in *. apply rcontains_spec in Hc.
    destruct (own_donors i r d Hi Hd Hc) as (q & e & Hq & He & E1 & _ & Hl & _). exists q, e. auto.
  - intros (q & e & Hq & He & <- & Hl). destruct (owned_donor i r q e Hi Hq He Hl) as (d & Hd & Ed & Hr). exists (Donor (rb (dr_ext d)) (dr_dest d) (dr_rank d)).
    split; [exact Ed|]. apply filter_In. split; [apply in_map_iff; eauto|]. apply rcontains_spec. exact Hr.
Qed.

Lemma receiver_point r p : (r < n)%nat -> In p (map r_point (nc_receivers (n_conn r))) <-> exists e, In e (E r) /\ e_point e = p.
Proof.
  intros Hr. destruct HP as (_ & _ & _ & HR). cbn [n_conn nc_receivers]. rewrite (HR r Hr), !map_map. cbn [fst r_point]. rewrite in_map_iff. split; intros (e & A & B); eauto.
Qed.

Lemma local_NoDup i r : nth_error (gp_mem P) i = Some r -> NoDup (map d_point (XchSpec.local_donors (m_conn i r))).
Proof.
  intros Hi. unfold XchSpec.local_donors. cbn [m_conn mc_donors]. pose proof (dests_NoDup i r Hi) as H. revert H. generalize (gp_dons P r). induction l as [|d l IH]; intros H; [constructor|].
  cbn [map] in *. inversion H as [|? ? H1 H2]; subst. cbn [filter]. destruct (rcontains _ _); [|apply IH, H2]. cbn [map]. constructor; [|apply IH, H2].
  intros K. apply H1. apply in_map_iff in K as (x & Ex & Hx). apply filter_In in Hx as [Hx _]. apply in_map_iff in Hx as (d' & <- & Hd'). cbn [d_point] in Ex. rewrite <- Ex. apply in_map, Hd'.
Qed.

Lemma receiver_NoDup r : (r < n)%nat -> NoDup (map r_point (nc_receivers (n_conn r))).
Proof.
  intros Hr. destruct HP as (_ & _ & _ & HR). cbn [n_conn nc_receivers]. rewrite (HR r Hr), !map_map. cbn [fst r_point]. apply (oi_points _ _ _ _ _ _ _ _ pair_overlap r Hr).
Qed.

Lemma dons_many i r : nth_error (gp_mem P) i = Some r -> Z.of_nat (length (gp_dons P r)) <= 2 ^ 31.
Proof.
  intros Hi. destruct (mem_at i r Hi) as [Li Lr]. destruct (ci_many _ _ _ _ _ _ _ _ _ _ _ _ _ _ _ pair_input r Lr) as [B _].
  assert (X : (length (map dr_dest (gp_dons P r)) <= length (map mr_dest (gp_M P r)))%nat).
  { apply NoDup_incl_length; [apply (dests_NoDup i r Hi)|]. intros p Hp. apply in_map_iff in Hp as (d & <- & Hd).
    destruct (pair_donors i r Hi) as (_ & H2 & _). destruct (H2 d Hd) as (q & e & u & Hq & He & E1 & _ & _ & I & _ & (v & Co & Hv) & _). rewrite E1.
    destruct (ci_m _ _ _ _ _ _ _ _ _ _ _ _ _ _ _ pair_input i r Hi) as (_ & _ & M3). apply chosen_D in He as [He _].
    destruct (M3 q e Hq He) as (row & Hrow & Er); [|rewrite <- Er; apply in_map, Hrow].
    exists u, v. split; [exact I|]. split; [exact Co|]. split; [exact Hv|]. pose proof pair_grid as HD. pose proof HD as (_ & _ & Ok & _).
    rewrite <- (wrap_id _ Ok pair_once v); [apply wrap_base, Ok|]. apply (L_sub _ _ _ HD i Li), Hv. }
  rewrite !map_length in X. lia.
Qed.

Lemma recv_many r : (r < n)%nat -> Z.of_nat (length (gp_recv P r)) <= 2 ^ 31.
Proof.
  intros Hr. destruct HP as (_ & _ & _ & HR). rewrite (HR r Hr), map_length. destruct (ci_many _ _ _ _ _ _ _ _ _ _ _ _ _ _ _ pair_input r Hr) as [_ B].
  assert (X : length (gp_N P r) = length (gp_D P r)).
  { pose proof (ci_n _ _ _ _ _ _ _ _ _ _ _ _ _ _ _ pair_input r Hr) as F. unfold n_side in F. clear -F. induction F; cbn [length]; congruence. }
  unfold gp_chosen, chosen. assert (length (filter (fun e => donor (gp_n P) r (e_point e) =? gp_m P)%Z (gp_D P r)) <= length (gp_D P r))%nat; [|lia].
  clear. induction (gp_D P r) as [|a l IH]; [cbn; lia|]. cbn [filter]. destruct (_ =? _)%Z; cbn [length]; lia.
Qed.
End Pair.

Section All.
Variables (grids : list (Z * range)) (n : nat) (NL : Z -> nat -> range) (donor : Z -> nat -> tup Z -> Z) (rm : Z -> nat -> tup Z -> bool) (ps : list pair).
Hypothesis HA : assembled grids n NL donor rm ps.

Let fl P (H : In P ps) : filled n NL donor rm P := as_filled _ _ _ _ _ _ HA P H.

Lemma m_conns_In r mc : In mc (m_conns ps r) <-> exists P i, In P ps /\ nth_error (gp_mem P) i = Some r /\ mc = m_conn P i r.
Proof.
  unfold m_conns. rewrite in_flat_map. split.
  - intros (P & HP & H). destruct (position (gp_mem P) r) as [i|] eqn:Ei; [|contradiction]. destruct H as [<-|[]]. exists P, i. split; [exact HP|]. split; [apply position_nth, Ei|reflexivity].
  - intros (P & i & HP & Hi & ->). exists P. split; [exact HP|]. rewrite (nth_position _ _ _ (proj1 (pair_mem n NL donor rm P (fl P HP))) Hi). left. reflexivity.
Qed.

Lemma n_conns_In r nc : In nc (n_conns ps r) <-> exists P, In P ps /\ In r (gp_nmem P) /\ nc = n_conn P r.
Proof.
  unfold n_conns. rewrite in_flat_map. split.
  - intros (P & HP & H). destruct (position (gp_nmem P) r) as [i|] eqn:Ei; [|contradiction]. destruct H as [<-|[]]. exists P. split; [exact HP|]. split; [|reflexivity].
    apply position_nth in Ei. eapply nth_error_In; eauto.
  - intros (P & HP & Hi & ->). exists P. split; [exact HP|]. destruct (position (gp_nmem P) r) eqn:Ei; [left; reflexivity|]. apply position_none in Ei. contradiction.
Qed.

Lemma same_pair P P' : In P ps -> In P' ps -> gp_id P = gp_id P' -> P = P'.
Proof.
  intros H H' E. pose proof (as_ids _ _ _ _ _ _ HA) as ND. rewrite NoDup_nth_error in ND. apply In_nth_error in H as (i & Hi). apply In_nth_error in H' as (j & Hj).
  assert (i = j); [|congruence]. apply ND; [rewrite map_length; apply nth_error_Some; congruence|]. rewrite !nth_error_map, Hi, Hj. cbn [option_map]. congruence.
Qed.

Lemma sub_NoDup {A B C} (f : A -> list B) (g : B -> C) (h : A -> C) l : (forall a x, In x (f a) -> g x = h a) -> (forall a, NoDup (f a)) -> (forall a, length (f a) <= 1)%nat ->
  NoDup (map h l) -> NoDup (map g (flat_map f l)).
Proof.
  intros H1 H2 H3. induction l as [|a l IH]; intros ND; [constructor|]. cbn [map flat_map] in *. inversion ND as [|? ? N1 N2]; subst. rewrite map_app.
  apply NoDup_app_intro; [|apply IH, N2|].
  - specialize (H3 a). destruct (f a) as [|x [|y k]]; cbn [length map] in *; [constructor|constructor; [intros []|constructor]|lia].
  - intros z Hz Hz'. apply in_map_iff in Hz as (x & <- & Hx). rewrite (H1 a x Hx) in Hz'. apply N1. apply in_map_iff in Hz' as (y & Ey & Hy). apply in_flat_map in Hy as (b & Hb & Hy).
    rewrite (H1 b y Hy) in Ey. rewrite <- Ey. apply in_map, Hb.
Qed.

(** The same point of the same grid. *)
Lemma same_point P P' q q' e e' : In P ps -> In P' ps -> gp_n P = gp_n P' -> (q < n)%nat -> (q' < n)%nat ->
  In e (gp_chosen donor P q) -> In e' (gp_chosen donor P' q') -> e_point e = e_point e' -> P = P' /\ q = q' /\ e = e'.
Proof.
  intros HP HP' En Hq Hq' He He' Ep.
  pose proof (chosen_local n NL donor rm P (fl P HP) q e Hq He) as L1. pose proof (chosen_local n NL donor rm P' (fl P' HP') q' e' Hq' He') as L2.
  rewrite <- En, <- Ep in L2. pose proof (as_local _ _ _ _ _ _ HA _ q q' _ Hq Hq' L1 L2) as <-.
  destruct (chosen_D donor P q e He) as [_ D1]. destruct (chosen_D donor P' q e' He') as [_ D2]. rewrite <- En, <- Ep in D2.
  assert (P = P') as <- by (apply same_pair; auto; unfold gp_id; congruence). split; [reflexivity|].
  apply (chosen_same n NL donor rm P (fl P HP)); auto.
Qed.

Lemma all_fitting : fitting n (m_conns ps) (n_conns ps).
Proof.
  constructor.
  - intros r mc d Hr H Hd. apply m_conns_In in H as (P & i & HP & Hi & ->). cbn [m_conn mc_donors] in Hd. apply in_map_iff in Hd as (x & <- & Hx). cbn [d_rank].
    destruct (pair_donors n NL donor rm P (fl P HP) i r Hi) as (_ & H2 & _). destruct (H2 x Hx) as (? & ? & ? & _ & _ & _ & _ & -> & _). lia.
  - intros r nc x Hr H Hx. apply n_conns_In in H as (P & HP & Hi & ->). cbn [n_conn nc_receivers] in Hx. apply in_map_iff in Hx as (y & <- & _). cbn [r_rank]. lia.
  - intros r Hr. unfold m_conns. apply (sub_NoDup _ _ gp_id).
    + intros P x Hx. destruct (position _ _); [|contradiction]. destruct Hx as [<-|[]]. reflexivity.
    + intros P. destruct (position _ _); [|constructor]. constructor; [intros []|constructor].
    + intros P. destruct (position _ _); cbn; lia.
    + exact (as_ids _ _ _ _ _ _ HA).
  - intros r Hr. unfold n_conns. apply (sub_NoDup _ _ gp_id).
    + intros P x Hx. destruct (position _ _); [|contradiction]. destruct Hx as [<-|[]]. reflexivity.
    + intros P. destruct (position _ _); [|constructor]. constructor; [intros []|constructor].
    + intros P. destruct (position _ _); cbn; lia.
    + exact (as_ids _ _ _ _ _ _ HA).
  - intros id p. split.
    + intros (r & mc & Hr & H & <- & Hp). apply m_conns_In in H as (P & i & HP & Hi & ->). apply (local_point n NL donor rm P (fl P HP) i r p Hi) in Hp as (q & e & Hq & He & <- & _).
      exists q, (n_conn P q). split; [exact Hq|]. split; [|split; [reflexivity|apply (receiver_point n NL donor rm P (fl P HP)); eauto]].
      apply n_conns_In. exists P. split; [exact HP|]. split; [|reflexivity]. destruct (in_dec Nat.eq_dec q (gp_nmem P)) as [|Nq]; [assumption|].
      exfalso. apply chosen_D in He as [He _]. rewrite (as_nmem _ _ _ _ _ _ HA P q HP Hq Nq) in He. contradiction.
    + intros (r & nc & Hr & H & <- & Hp). apply n_conns_In in H as (P & HP & Hi & ->). apply (receiver_point n NL donor rm P (fl P HP) r p Hr) in Hp as (e & He & <-).
      destruct (L_owner _ _ _ (pair_grid n NL donor rm P (fl P HP)) (e_cell e) (cell_grid n NL donor rm P (fl P HP) e r Hr He)) as (i & Li & Hl).
      destruct (nth_error (gp_mem P) i) as [k|] eqn:Ek; [|apply nth_error_None in Ek; lia]. exists k, (m_conn P i k). split; [apply (mem_at n NL donor rm P (fl P HP) i k Ek)|].
      split; [apply m_conns_In; eauto|]. split; [reflexivity|]. apply (local_point n NL donor rm P (fl P HP) i k _ Ek). exists r, e. auto.
  - intros r r' mc mc' p Hr Hr' H H' G Hp Hp'. apply m_conns_In in H as (P & i & HP & Hi & ->). apply m_conns_In in H' as (P' & i' & HP' & Hi' & ->). cbn [m_conn mc_grid] in G.
    apply (local_point n NL donor rm P (fl P HP) i r p Hi) in Hp as (q & e & Hq & He & <- & Hl). apply (local_point n NL donor rm P' (fl P' HP') i' r' _ Hi') in Hp' as (q' & e' & Hq' & He' & Ep & Hl').
    destruct (same_point P P' q q' e e' HP HP' G Hq Hq' He He' (eq_sym Ep)) as (<- & <- & <-). split; [|reflexivity].
    assert (i = i'); [|congruence]. apply (L_unique _ _ _ (pair_grid n NL donor rm P (fl P HP)) i i' (e_cell e)); auto; apply nth_error_Some; congruence.
  - intros r r' nc nc' p Hr Hr' H H' G Hp Hp'. apply n_conns_In in H as (P & HP & Hi & ->). apply n_conns_In in H' as (P' & HP' & Hi' & ->). cbn [n_conn nc_grid] in G.
    apply (receiver_point n NL donor rm P (fl P HP) r p Hr) in Hp as (e & He & <-). apply (receiver_point n NL donor rm P' (fl P' HP') r' _ Hr') in Hp' as (e' & He' & Ep).
    destruct (same_point P P' r r' e e' HP HP' G Hr Hr' He He' (eq_sym Ep)) as (<- & <- & <-). auto.
  - intros r mc Hr H. apply m_conns_In in H as (P & i & HP & Hi & ->). apply (local_NoDup n NL donor rm P (fl P HP) i r Hi).
  - intros r nc Hr H. apply n_conns_In in H as (P & HP & Hi & ->). apply (receiver_NoDup n NL donor rm P (fl P HP) r Hr).
Qed.

Theorem all_exchangeable P : In P ps ->
  exchangeable grids n (m_conns ps) (n_conns ps) (gp_id P) (gp_R P) (gp_mem P) (gp_L P) (donor_cells P) (NL (gp_n P)) /\
  distributed (gp_c P) (length (gp_mem P)) (gp_L P) (gp_NB P) (donor_cells P).
Proof.
  intros HP. split.
  - constructor.
    + split; [exact (as_grids _ _ _ _ _ _ HA)|]. intros r g p Hr [H|H].
      * destruct H as (mc & d & H & Hd & _ & _ & <- & <-). apply m_conns_In in H as (P' & i & HP' & Hi & ->). cbn [m_conn mc_grid mc_donors] in *. apply in_map_iff in Hd as (x & <- & Hx). cbn [d_point].
        exists (gp_R P'). split; [apply (as_range _ _ _ _ _ _ HA P' HP')|]. destruct (pair_donors n NL donor rm P' (fl P' HP') i r Hi) as (_ & H2 & _).
        destruct (H2 x Hx) as (q & e & u & Hq & He & -> & _). apply (oi_entries _ _ _ _ _ _ _ _ (pair_overlap n NL donor rm P' (fl P' HP')) q e Hq He).
      * destruct H as (nc & y & H & Hy & _ & <- & <-). apply n_conns_In in H as (P' & HP' & Hi & ->). cbn [n_conn nc_grid] in *.
        exists (gp_R P'). split; [apply (as_range _ _ _ _ _ _ HA P' HP')|]. destruct (proj1 (receiver_point n NL donor rm P' (fl P' HP') r (r_point y) Hr) (in_map _ _ _ Hy)) as (e & He & <-).
        apply (oi_entries _ _ _ _ _ _ _ _ (pair_overlap n NL donor rm P' (fl P' HP')) r e Hr He).
    + exact all_fitting.
    + apply (as_range _ _ _ _ _ _ HA P HP).
    + apply (pair_mem n NL donor rm P (fl P HP)).
    + intros i r Hi. exists (m_conn P i r). split; [apply m_conns_In; eauto|]. split; [reflexivity|]. split; [reflexivity|].
      unfold donor_cells. rewrite Hi. cbn [m_conn mc_donors]. rewrite !map_map. reflexivity.
    + intros r mc Hr H Em. apply m_conns_In in H as (P' & i & HP' & Hi & ->). assert (P' = P) as -> by (apply same_pair; auto). eapply nth_error_In; eauto.
    + intros r mc d Hr H Em Hd. apply m_conns_In in H as (P' & i & HP' & Hi & ->). assert (P' = P) as -> by (apply same_pair; auto).
      cbn [m_conn mc_donors] in Hd. apply in_map_iff in Hd as (x & <- & Hx). cbn [d_point]. destruct (pair_donors n NL donor rm P (fl P HP) i r Hi) as (_ & H2 & _).
      destruct (H2 x Hx) as (q & e & u & Hq & He & -> & _). apply (oi_entries _ _ _ _ _ _ _ _ (pair_overlap n NL donor rm P (fl P HP)) q e Hq He).
    + intros r nc y Hr H Em Hy. apply n_conns_In in H as (P' & HP' & Hi & ->). assert (P' = P) as -> by (apply same_pair; auto).
      destruct (proj1 (receiver_point n NL donor rm P (fl P HP) r (r_point y) Hr) (in_map _ _ _ Hy)) as (e & He & <-). apply (chosen_local n NL donor rm P (fl P HP) r e Hr He).
    + intros r mc Hr H Em. apply m_conns_In in H as (P' & i & HP' & Hi & ->). assert (P' = P) as -> by (apply same_pair; auto).
      cbn [m_conn mc_donors]. rewrite map_length. apply (dons_many n NL donor rm P (fl P HP) i r Hi).
    + intros r nc Hr H Em. apply n_conns_In in H as (P' & HP' & Hi & ->). assert (P' = P) as -> by (apply same_pair; auto).
      cbn [n_conn nc_receivers]. rewrite map_length. apply (recv_many n NL donor rm P (fl P HP) r Hr).
  - apply (donors_distributed (gp_c P) n (gp_mem P) (gp_L P) (gp_R P) (gp_chosen donor P) (gp_MG P) (gp_NG P) (gp_NB P) (gp_dons P)).
    + apply (pair_overlap n NL donor rm P (fl P HP)).
    + apply (pair_once n NL donor rm P (fl P HP)).
    + apply (pair_donors n NL donor rm P (fl P HP)).
    + exact (ci_next _ _ _ _ _ _ _ _ _ _ _ _ _ _ _ (pair_input n NL donor rm P (fl P HP))).
Qed.
End All.
