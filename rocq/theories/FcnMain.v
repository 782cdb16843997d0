(** The processes agree on the fragments to transfer (C84). *)
From Coq Require Import List ZArith Bool Arith Lia Permutation Sorting.Sorted.
From Verif Require Import TupleModel RangeModel ArrayModel ContModel ContSpec ContProof HashModel HashProof ProtoModel ProtoSpec NetModel NetSpec NetProof NetPhase.
From Verif Require Import FtxModel FtxSpec FtxProof FtxInv FtxStep FtxLive FcnModel FcnSpec FcnProof.
Import ListNotations.
Local Open Scope nat_scope.

Lemma zr_len r : length (zr r) = 1. Proof. reflexivity. Qed.
Lemma zr_inj a b : zr a = zr b -> a = b. Proof. intros [=]. lia. Qed.
Lemma k2_len x : length (k2 x) = 2. Proof. reflexivity. Qed.
Lemma k2_inj a b : k2 a = k2 b -> a = b. Proof. destruct a, b. cbn. intros [=]. f_equal; [assumption|lia]. Qed.
Lemma k3_len x : length (k3 x) = 3. Proof. reflexivity. Qed.
Lemma k3_inj a b : k3 a = k3 b -> a = b. Proof. destruct a as [[? ?] ?], b as [[? ?] ?]. cbn. intros [=]. repeat f_equal; try assumption. lia. Qed.
Lemma kl_len x : length (kl x) = 2. Proof. reflexivity. Qed.
Lemma kl_inj a b : kl a = kl b -> a = b. Proof. destruct a, b. cbn. intros [=]. congruence. Qed.
Lemma ke_len x : length (ke x) = 3. Proof. reflexivity. Qed.
Lemma ke_inj a b : ke a = ke b -> a = b. Proof. destruct a, b. cbn. intros [=]. f_equal; try assumption. lia. Qed.
Lemma kz_len x : length (kz x) = 1. Proof. reflexivity. Qed.
Lemma kz_inj a b : kz a = kz b -> a = b. Proof. intros [=]. assumption. Qed.

Lemma combine_map {A B C} (f : A -> B) (g : A -> C) l : combine (map f l) (map g l) = map (fun a => (f a, g a)) l.
Proof. induction l as [|a l IH]; [reflexivity|]. cbn. rewrite IH. reflexivity. Qed.
Lemma combine_self {A C} (g : A -> C) l : combine l (map g l) = map (fun a => (a, g a)) l.
Proof. induction l as [|a l IH]; [reflexivity|]. cbn. rewrite IH. reflexivity. Qed.

Section Connect.
Variables (n : nat) (local : nat -> list Z) (frange : nat -> Z -> Z -> option range) (need : nat -> list (Z * ent)).
Hypothesis Hneed : exist_needs n local frange need.

(** Who is involved *)
Definition T r := kset k3 (map (fun x => (fst x, e_grid (snd x), e_rank (snd x))) (need r)).
Definition MR r := kset zr (filter (fun q => negb (Nat.eqb q r)) (map snd (T r))).
Definition NR r := named n MR r.

Lemma T_In r N M q : In (N, M, q) (T r) <-> exists f, In (N, mkE M q f) (need r).
Proof.
  unfold T. rewrite (kset_In k3 3 k3_len k3_inj), in_map_iff. split.
  - intros ([N' e] & E & H). cbn in E. injection E as -> <- <-. exists (e_frag e). destruct e. exact H.
  - intros (f & H). exists (N, mkE M q f). split; [reflexivity|exact H].
Qed.
Lemma MR_In r q : In q (MR r) <-> q <> r /\ exists N M, In (N, M, q) (T r).
Proof.
  unfold MR. rewrite (kset_In zr 1 zr_len zr_inj), filter_In, negb_true_iff, Nat.eqb_neq, in_map_iff. split.
  - intros (([[N M] q'] & E & H) & Nq). cbn in E. subst q'. eauto.
  - intros (Nq & N & M & H). split; [|exact Nq]. exists (N, M, q). auto.
Qed.
Lemma NR_In r q : In q (NR r) <-> q < n /\ In r (MR q).
Proof.
  unfold NR, named. rewrite filter_In, in_seq, existsb_exists. split.
  - intros (H & x & Hx & E). apply Nat.eqb_eq in E. subst x. split; [lia|exact Hx].
  - intros (H & Hx). split; [lia|]. exists r. split; [exact Hx|apply Nat.eqb_refl].
Qed.
Lemma NR_nodup r : NoDup (NR r).
Proof. apply NoDup_filter, seq_NoDup. Qed.
Lemma T_rank r N M q : r < n -> In (N, M, q) (T r) -> q < n /\ In M (local q).
Proof. intros Hr H. apply T_In in H. destruct H as (f & H). destruct (Hneed r _ _ Hr H) as (H1 & H2 & _). auto. Qed.
Lemma MR_lt r q : r < n -> In q (MR r) -> q < n.
Proof. intros Hr H. apply MR_In in H. destruct H as (_ & N & M & H). apply (T_rank r N M q Hr H). Qed.

Lemma one_filter s l : NoDup l -> filter (fun k => Nat.eqb k s) l = if existsb (Nat.eqb s) l then [s] else [].
Proof.
  induction 1 as [|a l N ND IH]; [reflexivity|]. cbn [filter existsb]. rewrite (Nat.eqb_sym s a).
  destruct (Nat.eqb_spec a s) as [->|]; [|exact IH]. cbn [orb]. rewrite IH.
  destruct (existsb (Nat.eqb s) l) eqn:E; [|reflexivity]. apply existsb_exists in E. destruct E as (x & Hx & E).
  apply Nat.eqb_eq in E. subst x. contradiction.
Qed.
Lemma ranks_agree p s : p < n -> s < n ->
  map (fun _ : nat => tt) (filter (fun k => Nat.eqb k s) (NR p)) = map (fun _ => tt) (filter (fun k => Nat.eqb k p) (MR s)).
Proof.
  intros Hp Hs. rewrite one_filter by apply NR_nodup. rewrite one_filter by apply (kset_nodup zr 1 zr_len zr_inj).
  assert (E : existsb (Nat.eqb s) (NR p) = existsb (Nat.eqb p) (MR s)).
  { destruct (existsb (Nat.eqb p) (MR s)) eqn:X.
    - apply existsb_exists in X. destruct X as (x & Hx & X). apply Nat.eqb_eq in X. subst x.
      apply existsb_exists. exists s. split; [apply NR_In; auto|apply Nat.eqb_refl].
    - destruct (existsb (Nat.eqb s) (NR p)) eqn:Y; [|reflexivity]. apply existsb_exists in Y. destruct Y as (x & Hx & Y).
      apply Nat.eqb_eq in Y. subst x. apply NR_In in Hx. rewrite <- X. symmetry. apply existsb_exists. exists p. split; [apply Hx|apply Nat.eqb_refl]. }
  rewrite E. destruct (existsb (Nat.eqb p) (MR s)); reflexivity.
Qed.

(** The states *)
Definition sw (x : Z * Z * nat) : Z * Z := (snd (fst x), fst (fst x)).
Definition NUM r := map (fun q => length (filter (rank_is r) (T q))) (NR r).
Definition INP r := map (fun q => map sw (filter (rank_is r) (T q))) (NR r).
Definition s1 r := CS (need r) (T r) (MR r) [] [] [] [] [] [] [] [] [] [] [] [] [].
Definition s2 r := CS (need r) (T r) (MR r) (NR r) [] [] [] [] [] [] [] [] [] [] [] [].
Definition s3 r := CS (need r) (T r) (MR r) (NR r) (NUM r) [] [] [] [] [] [] [] [] [] [] [].
Definition s4 r := CS (need r) (T r) (MR r) (NR r) (NUM r) (INP r) [] [] [] [] [] [] [] [] [] [].
Definition GS r := kset k2 (filter (fun k => negb (Nat.eqb (snd k) r)) (map (fun x => (fst (fst x), snd x)) (kset k3 (m_side r (s4 r))))).
Definition GR r := kset k2 (filter (fun k => negb (Nat.eqb (snd k) r)) (map (fun x => (snd (fst x), snd x)) (T r))).
Definition KEYS r := kset k2 (map (fun x => (e_grid (snd x), e_rank (snd x))) (need r)).
Definition FRG r := frags_of r (s4 r).
Definition FR r := map (fun k => (k, FRG r k)) (KEYS r).
Definition s5 r := CS (need r) (T r) (MR r) (NR r) (NUM r) (INP r) (GS r) (GR r) (FR r) [] [] [] [] [] [] [].
Definition FNUM r := map (fun k => length (FRG (snd k) (fst k, r))) (GS r).
Definition s6 r := CS (need r) (T r) (MR r) (NR r) (NUM r) (INP r) (GS r) (GR r) (FR r) (FNUM r) [] [] [] [] [] [].
Definition FS r := map (fun k => (k, FRG (snd k) (fst k, r))) (GS r).
Definition s7 r := CS (need r) (T r) (MR r) (NR r) (NUM r) (INP r) (GS r) (GR r) (FR r) (FNUM r) (FS r) [] [] [] [] [].
Definition SE r := kset ke (ents (FS r)).
Definition RE r := kset ke (ents (FR r)).
Definition LO r := kset kl (map (fun x => (e_grid (snd x), e_frag (snd x))) (filter (fun x => Nat.eqb (e_rank (snd x)) r) (need r))).
Definition rng r (x : Z * Z) : range := match frange r (fst x) (snd x) with Some y => y | None => mkR (T3 0%Z 0%Z 0%Z) (T3 0%Z 0%Z 0%Z) end.
Definition ab (e : ent) : Z * Z := (e_grid e, e_frag e).
Definition OUT r := map (fun e => rng r (ab e)) (SE r).
Definition s8 r := CS (need r) (T r) (MR r) (NR r) (NUM r) (INP r) (GS r) (GR r) (FR r) (FNUM r) (FS r) (SE r) (RE r) (LO r) (OUT r) [].
Definition s9 r := CS (need r) (T r) (MR r) (NR r) (NUM r) (INP r) (GS r) (GR r) (FR r) (FNUM r) (FS r) (SE r) (RE r) (LO r) (OUT r)
  (map (fun e => (e, rng (e_rank e) (ab e))) (RE r)).

Lemma m_side_In r M N q : r < n -> In (M, N, q) (m_side r (s4 r)) <-> q < n /\ (q = r \/ In r (MR q)) /\ In (N, M, r) (T q).
Proof.
  intros Hr. unfold m_side. cbn [s4 c_tri c_nr c_in]. rewrite in_app_iff, in_map_iff. unfold INP. rewrite combine_self, in_flat_map. split.
  - intros [H|H].
    + destruct H as ([[N' M'] q'] & E & H). cbn in E. injection E as -> -> ->. apply filter_In in H. destruct H as (H & X).
      unfold rank_is in X. cbn in X. apply Nat.eqb_eq in X. subst q. auto.
    + destruct H as ([q' l] & H1 & H2). apply in_map_iff in H1. destruct H1 as (q1 & [= -> <-] & Hq). cbn [fst snd] in H2.
      apply in_map_iff in H2. destruct H2 as ([M' N'] & E & H2). cbn in E. injection E as -> -> ->.
      apply in_map_iff in H2. destruct H2 as ([[N' M'] r'] & E & H2). unfold sw in E. cbn in E. injection E as -> ->.
      apply filter_In in H2. destruct H2 as (H2 & X). unfold rank_is in X. cbn in X. apply Nat.eqb_eq in X. subst r'.
      apply NR_In in Hq. tauto.
  - intros (Hq & [->|Hm] & H).
    + left. exists (N, M, r). split; [reflexivity|]. apply filter_In. split; [exact H|]. apply Nat.eqb_refl.
    + right. exists (q, map sw (filter (rank_is r) (T q))). split.
      * apply in_map_iff. exists q. split; [reflexivity|]. apply NR_In. auto.
      * cbn [fst snd]. apply in_map_iff. exists (M, N). split; [reflexivity|]. apply in_map_iff. exists (N, M, r). split; [reflexivity|].
        apply filter_In. split; [exact H|]. apply Nat.eqb_refl.
Qed.
Lemma GS_In r M q : r < n -> In (M, q) (GS r) <-> q <> r /\ q < n /\ exists N, In (N, M, r) (T q).
Proof.
  intros Hr. unfold GS. rewrite (kset_In k2 2 k2_len k2_inj), filter_In, negb_true_iff, Nat.eqb_neq, in_map_iff. split.
  - intros (([[M' N] q'] & E & H) & Nq). cbn in E. injection E as -> ->. rewrite (kset_In k3 3 k3_len k3_inj) in H.
    apply (m_side_In r M N q Hr) in H. split; [exact Nq|]. split; [apply H|]. exists N. apply H.
  - intros (Nq & Hq & N & H). split; [|exact Nq]. exists (M, N, q). split; [reflexivity|].
    apply (kset_In k3 3 k3_len k3_inj), (m_side_In r M N q Hr). split; [exact Hq|]. split; [|exact H].
    right. apply MR_In. split; [congruence|]. eauto.
Qed.
Lemma GR_In r M q : In (M, q) (GR r) <-> q <> r /\ exists N, In (N, M, q) (T r).
Proof.
  unfold GR. rewrite (kset_In k2 2 k2_len k2_inj), filter_In, negb_true_iff, Nat.eqb_neq, in_map_iff. split.
  - intros (([[N M'] q'] & E & H) & Nq). cbn in E. injection E as -> ->. eauto.
  - intros (Nq & N & H). split; [|exact Nq]. exists (N, M, q). auto.
Qed.
Lemma GR_lt r k : r < n -> In k (GR r) -> snd k < n.
Proof. destruct k as [M q]. intros Hr H. apply GR_In in H. destruct H as (_ & N & H). apply (T_rank r N M q Hr H). Qed.
Lemma k2_kz a b q : klt k2 (a, q) (b, q) = true -> klt kz a b = true.
Proof.
  unfold klt, k2, kz, elem_less_r. cbn [fst snd lex_less]. destruct (Z.ltb_spec a b); [reflexivity|].
  rewrite Z.ltb_irrefl, andb_false_r. discriminate.
Qed.
Lemma grids_agree p s : p < n -> s < n ->
  map fst (filter (fun k => Nat.eqb (snd k) s) (GS p)) = map fst (filter (fun k => Nat.eqb (snd k) p) (GR s)).
Proof.
  intros Hp Hs. apply (sorted_same kz 1 kz_len kz_inj).
  - apply (sorted_map (fun a b => klt k2 a b = true)); [apply sorted_filter, (kset_sorted k2 2 k2_len k2_inj)|].
    intros [a1 a2] [b1 b2] Ia Ib L. apply filter_In in Ia, Ib. destruct Ia as (_ & Ea), Ib as (_ & Eb). cbn in Ea, Eb.
    apply Nat.eqb_eq in Ea, Eb. subst. exact (k2_kz _ _ _ L).
  - apply (sorted_map (fun a b => klt k2 a b = true)); [apply sorted_filter, (kset_sorted k2 2 k2_len k2_inj)|].
    intros [a1 a2] [b1 b2] Ia Ib L. apply filter_In in Ia, Ib. destruct Ia as (_ & Ea), Ib as (_ & Eb). cbn in Ea, Eb.
    apply Nat.eqb_eq in Ea, Eb. subst. exact (k2_kz _ _ _ L).
  - intros M. rewrite !in_map_iff. split.
    + intros ([M' q] & E & H). cbn in E. subst M'. apply filter_In in H. destruct H as (H & X). cbn in X. apply Nat.eqb_eq in X. subst q.
      apply (GS_In p M s Hp) in H. destruct H as (Nq & _ & N & H). exists (M, p). split; [reflexivity|]. apply filter_In.
      split; [|apply Nat.eqb_refl]. apply GR_In. split; [congruence|]. eauto.
    + intros ([M' q] & E & H). cbn in E. subst M'. apply filter_In in H. destruct H as (H & X). cbn in X. apply Nat.eqb_eq in X. subst q.
      apply GR_In in H. destruct H as (Nq & N & H). exists (M, s). split; [reflexivity|]. apply filter_In.
      split; [|apply Nat.eqb_refl]. apply (GS_In p M s Hp). split; [congruence|]. split; [exact Hs|]. eauto.
Qed.
Lemma FRG_In r M q f : In f (FRG r (M, q)) <-> q <> r /\ exists N, In (N, mkE M q f) (need r).
Proof.
  unfold FRG, frags_of. cbn [snd fst s4 c_need]. destruct (Nat.eqb_spec q r) as [->|Nq]; [split; [intros []|intros (X & _); congruence]|].
  rewrite (kset_In kz 1 kz_len kz_inj), in_map_iff. split.
  - intros ([N e] & E & H). cbn in E. apply filter_In in H. destruct H as (H & X). cbn in X. apply andb_true_iff in X. destruct X as (X & Y).
    apply Z.eqb_eq in X. apply Nat.eqb_eq in Y. split; [exact Nq|]. exists N. destruct e. cbn in *. subst. exact H.
  - intros (_ & N & H). exists (N, mkE M q f). split; [reflexivity|]. apply filter_In. split; [exact H|]. cbn. rewrite Z.eqb_refl, Nat.eqb_refl. reflexivity.
Qed.
Lemma KEYS_In r M q : In (M, q) (KEYS r) <-> exists N, In (N, M, q) (T r).
Proof.
  unfold KEYS. rewrite (kset_In k2 2 k2_len k2_inj), in_map_iff. split.
  - intros ([N e] & E & H). cbn in E. injection E as <- <-. exists N. apply T_In. exists (e_frag e). destruct e. exact H.
  - intros (N & H). apply T_In in H. destruct H as (f & H). exists (N, mkE M q f). auto.
Qed.
Lemma k2_eqb_eq a b : k2_eqb a b = true <-> a = b.
Proof. unfold k2_eqb. destruct a, b. cbn. rewrite andb_true_iff, Z.eqb_eq, Nat.eqb_eq. split; [intros (-> & ->); reflexivity|intros [= -> ->]; auto]. Qed.
Lemma find_key r k : forall l, In k l -> find (fun x => k2_eqb (fst x) k) (map (fun k => (k, FRG r k)) l) = Some (k, FRG r k).
Proof.
  induction l as [|a l IH]; intros H; [destruct H|]. cbn [map find fst]. destruct (k2_eqb a k) eqn:E.
  - apply k2_eqb_eq in E. subst a. reflexivity.
  - apply IH. destruct H as [->|H]; [|exact H]. rewrite (proj2 (k2_eqb_eq k k) eq_refl) in E. discriminate.
Qed.
Lemma receiving_all r k s : c_fr s = FR r -> In k (GR r) -> receiving s k = Some (FRG r k).
Proof.
  intros E H. unfold receiving. rewrite E. unfold FR. rewrite (find_key r k); [reflexivity|]. destruct k as [M q].
  apply GR_In in H. apply KEYS_In, H.
Qed.
Lemma ents_In l g q f : In (mkE g q f) (ents l) <-> exists fs, In (g, q, fs) l /\ In f fs.
Proof.
  unfold ents. rewrite in_flat_map. split.
  - intros ([[g' q'] fs] & H & X). cbn in X. apply in_map_iff in X. destruct X as (f' & [= -> -> ->] & X). eauto.
  - intros (fs & H & X). exists (g, q, fs). split; [exact H|]. cbn. apply in_map. exact X.
Qed.
Lemma RE_In r e : In e (RE r) <-> e_rank e <> r /\ needs need r e.
Proof.
  unfold RE. rewrite (kset_In ke 3 ke_len ke_inj). destruct e as [g q f]. rewrite ents_In. cbn [e_rank]. unfold FR. split.
  - intros (fs & H & X). apply in_map_iff in H. destruct H as (k & [= -> <-] & H). apply FRG_In in X. exact X.
  - intros (Nq & N & H). exists (FRG r (g, q)). split; [|apply FRG_In; split; [exact Nq|eauto]].
    apply in_map_iff. exists (g, q). split; [reflexivity|]. apply KEYS_In. exists N. apply T_In. eauto.
Qed.
Lemma SE_In r g q f : r < n -> In (mkE g q f) (SE r) <-> q < n /\ q <> r /\ needs need q (mkE g r f).
Proof.
  intros Hr. unfold SE. rewrite (kset_In ke 3 ke_len ke_inj), ents_In. unfold FS. split.
  - intros (fs & H & X). apply in_map_iff in H. destruct H as (k & [= -> <-] & H). cbn [fst snd] in X. apply FRG_In in X.
    apply (GS_In r g q Hr) in H. split; [apply H|]. split; [apply H|]. apply X.
  - intros (Hq & Nq & N & H). exists (FRG q (g, r)). split; [|apply FRG_In; split; [congruence|eauto]].
    apply in_map_iff. exists (g, q). split; [reflexivity|]. apply (GS_In r g q Hr). split; [exact Nq|]. split; [exact Hq|].
    exists N. apply T_In. eauto.
Qed.
Lemma LO_In r g f : In (g, f) (LO r) <-> needs need r (mkE g r f).
Proof.
  unfold LO. rewrite (kset_In kl 2 kl_len kl_inj), in_map_iff. split.
  - intros ([N e] & E & H). cbn in E. injection E as <- <-. apply filter_In in H. destruct H as (H & X). cbn in X. apply Nat.eqb_eq in X.
    exists N. destruct e. cbn in *. subst. exact H.
  - intros (N & H). exists (N, mkE g r f). split; [reflexivity|]. apply filter_In. split; [exact H|]. apply Nat.eqb_refl.
Qed.
Lemma ke_ab (a b : ent) : e_rank a = e_rank b -> klt ke a b = true -> klt kl (ab a) (ab b) = true.
Proof.
  destruct a as [g q f], b as [g' q' f']. cbn [e_rank]. intros <-. unfold klt, ke, kl, elem_less_r, ab. cbn [e_grid e_rank e_frag fst snd lex_less].
  rewrite Z.ltb_irrefl, Z.eqb_refl. auto.
Qed.
Lemma ents_agree p s : p < n -> s < n ->
  map ab (filter (fun k => Nat.eqb (e_rank k) s) (RE p)) = map ab (filter (fun k => Nat.eqb (e_rank k) p) (SE s)).
Proof.
  intros Hp Hs. apply (sorted_same kl 2 kl_len kl_inj).
  - apply (sorted_map (fun a b => klt ke a b = true)); [apply sorted_filter, (kset_sorted ke 3 ke_len ke_inj)|].
    intros a b Ia Ib L. apply filter_In in Ia, Ib. destruct Ia as (_ & Ea), Ib as (_ & Eb). apply Nat.eqb_eq in Ea, Eb. apply ke_ab; congruence.
  - apply (sorted_map (fun a b => klt ke a b = true)); [apply sorted_filter, (kset_sorted ke 3 ke_len ke_inj)|].
    intros a b Ia Ib L. apply filter_In in Ia, Ib. destruct Ia as (_ & Ea), Ib as (_ & Eb). apply Nat.eqb_eq in Ea, Eb. apply ke_ab; congruence.
  - intros [g f]. rewrite !in_map_iff. split.
    + intros ([g' q f'] & E & H). unfold ab in E. cbn in E. injection E as -> ->. apply filter_In in H. destruct H as (H & X). cbn in X.
      apply Nat.eqb_eq in X. subst q. apply RE_In in H. cbn [e_rank] in H. exists (mkE g p f). split; [reflexivity|]. apply filter_In.
      split; [|apply Nat.eqb_refl]. apply (SE_In s g p f Hs). split; [exact Hp|]. split; [intros X; apply (proj1 H); congruence|apply H].
    + intros ([g' q f'] & E & H). unfold ab in E. cbn in E. injection E as -> ->. apply filter_In in H. destruct H as (H & X). cbn in X.
      apply Nat.eqb_eq in X. subst q. apply (SE_In s g p f Hs) in H. exists (mkE g s f). split; [reflexivity|]. apply filter_In.
      split; [|apply Nat.eqb_refl]. apply RE_In. cbn [e_rank]. split; [intros X; apply (proj1 (proj2 H)); congruence|apply H].
Qed.
Lemma rng_ok q N e : q < n -> In (N, e) (need q) -> frange (e_rank e) (e_grid e) (e_frag e) = Some (rng (e_rank e) (ab e)).
Proof.
  intros Hq H. destruct (Hneed q N e Hq H) as (_ & _ & F). unfold rng, ab. cbn [fst snd]. destruct (frange _ _ _); [reflexivity|congruence].
Qed.

Lemma connect_ok : prog_ok n (connect local frange n) (fun r => cst0 (need r)) s9.
Proof.
  unfold connect.
  exists s1. split; [intros r Hr; reflexivity|].
  exists s2. split.
  { intros r Hr. unfold cn_hand. rewrite (nth_error_nth' _ (s1 r)) by (rewrite map_length, seq_length; exact Hr).
    assert (E : forall q, q < n -> nth q (map s1 (seq 0 n)) (s1 r) = s1 q).
    { intros q Hq. rewrite (map_nth s1 (seq 0 n) r q). rewrite seq_nth by exact Hq. reflexivity. }
    rewrite (E r Hr). cbn [s1 c_need c_tri c_mr]. f_equal. unfold s2. f_equal. unfold NR, named. apply filter_ext_in. intros q Hq. apply in_seq in Hq.
    rewrite nth_error_map, (nth_error_nth' _ 0) by (rewrite seq_length; lia). rewrite seq_nth by lia. reflexivity. }
  exists s3. split.
  { apply (keyed_ok n _ _ _ s2 s3 (fun k => k) (fun _ => tt) NR MR (fun s p _ => CNum (length (filter (rank_is p) (T s))))).
    - intros p Hp. cbn. rewrite map_id. reflexivity.
    - intros s Hs. reflexivity.
    - intros p k Hp [H|H]; [apply NR_In in H; apply H|apply (MR_lt p k Hp H)].
    - apply ranks_agree.
    - intros p Hp. unfold num_done. rewrite (omap_map _ (fun m => match m with CNum k => k | _ => 0 end)).
      + rewrite map_map. reflexivity.
      + intros m Hm. apply in_map_iff in Hm. destruct Hm as (k & <- & _). reflexivity. }
  exists s4. split.
  { apply (keyed_ok n _ _ _ s3 s4 (fun k => k) (fun _ => tt) NR MR (fun s p _ => CPairs (map sw (filter (rank_is p) (T s))))).
    - intros p Hp. cbn. rewrite map_id. reflexivity.
    - intros s Hs. reflexivity.
    - intros p k Hp [H|H]; [apply NR_In in H; apply H|apply (MR_lt p k Hp H)].
    - apply ranks_agree.
    - intros p Hp. unfold pair_done. cbn [s3 c_num]. unfold NUM. rewrite combine_map.
      rewrite (omap_map _ (fun km => match snd km with CPairs l => l | _ => [] end)).
      + rewrite map_map. reflexivity.
      + intros m Hm. apply in_map_iff in Hm. destruct Hm as (k & <- & _). unfold pairs_of. cbn [fst snd]. rewrite map_length, Nat.eqb_refl. reflexivity. }
  exists s5. split.
  { intros r Hr. unfold cn_sides. rewrite (proj2 (forallb_forall _ _)); [reflexivity|].
    intros [[M N] q] H. rewrite (kset_In k3 3 k3_len k3_inj) in H. apply (m_side_In r M N q Hr) in H. cbn [fst snd].
    destruct H as (Hq & _ & H). apply (T_rank q N M r Hq) in H. unfold has_grid. apply existsb_exists. exists M. split; [apply H|apply Z.eqb_refl]. }
  exists s5. split.
  { intros r Hr. unfold cn_check. rewrite (proj2 (forallb_forall _ _)); [reflexivity|].
    intros k Hk. rewrite (receiving_all r k (s5 r) eq_refl Hk). reflexivity. }
  exists s6. split.
  { apply (keyed_ok n _ _ _ s5 s6 snd fst GS GR (fun s p M => CNum (length (FRG s (M, p))))).
    - intros p Hp. reflexivity.
    - intros s Hs. unfold fnum_sends. cbn [s5 c_gr]. apply map_ext_in. intros k Hk. unfold receiving_or.
      fold (s5 s). rewrite (receiving_all s k (s5 s) eq_refl Hk). destruct k; reflexivity.
    - intros p [M q] Hp [H|H]; [apply (GS_In p M q Hp) in H; apply H|apply (GR_lt p _ Hp H)].
    - apply grids_agree.
    - intros p Hp. unfold fnum_done. rewrite (omap_map _ (fun m => match m with CNum k => k | _ => 0 end)).
      + rewrite map_map. reflexivity.
      + intros m Hm. apply in_map_iff in Hm. destruct Hm as (k & <- & _). reflexivity. }
  exists s7. split.
  { apply (keyed_ok n _ _ _ s6 s7 snd fst GS GR (fun s p M => CFrags (FRG s (M, p)))).
    - intros p Hp. reflexivity.
    - intros s Hs. unfold frag_sends. cbn [s6 c_gr]. apply map_ext_in. intros k Hk. unfold receiving_or.
      fold (s6 s). rewrite (receiving_all s k (s6 s) eq_refl Hk). destruct k; reflexivity.
    - intros p [M q] Hp [H|H]; [apply (GS_In p M q Hp) in H; apply H|apply (GR_lt p _ Hp H)].
    - apply grids_agree.
    - intros p Hp. unfold frag_done. cbn [s6 c_fnum]. unfold FNUM. rewrite combine_map.
      rewrite (omap_map _ (fun km => match snd km with CFrags l => l | _ => [] end)).
      + rewrite map_map. cbn [snd c_gs]. rewrite combine_self. reflexivity.
      + intros m Hm. apply in_map_iff in Hm. destruct Hm as (k & <- & _). unfold frags_in. cbn [fst snd]. rewrite Nat.eqb_refl. reflexivity. }
  exists s8. split.
  { intros r Hr. unfold cn_lists. cbn [s7 c_fs c_fr c_need]. fold (SE r) (RE r) (LO r).
    rewrite (omap_map _ (fun e => rng r (ab e))).
    - rewrite (omap_map _ (fun x => rng r x)); [reflexivity|]. intros [g f] H. apply LO_In in H. destruct H as (N & H).
      apply (rng_ok r N _ Hr H).
    - intros [g q f] H. apply (SE_In r g q f Hr) in H. destruct H as (Hq & _ & N & H). apply (rng_ok q N _ Hq H). }
  exists s9. split; [|intros r Hr; reflexivity].
  apply (keyed_ok n _ _ _ s8 s9 e_rank ab RE SE (fun s p x => CRange (rng s x))).
  - intros p Hp. reflexivity.
  - intros s Hs. unfold range_sends. cbn [s8 c_sends c_out]. unfold OUT. rewrite combine_self, map_map. reflexivity.
  - intros p [g q f] Hp [H|H]; cbn [e_rank].
    + apply RE_In in H. destruct H as (_ & N & H). apply (Hneed p N _ Hp H).
    + apply (SE_In p g q f Hp) in H. apply H.
  - apply ents_agree.
  - intros p Hp. unfold range_done. rewrite (omap_map _ (fun m => match m with CRange x => x | _ => mkR (T3 0%Z 0%Z 0%Z) (T3 0%Z 0%Z 0%Z) end)).
    + rewrite map_map. cbn [s8 c_recvs]. rewrite combine_self. reflexivity.
    + intros m Hm. apply in_map_iff in Hm. destruct Hm as (k & <- & _). reflexivity.
Qed.

Lemma ke_lt a b : klt ke a b = true -> ent_lt a b.
Proof.
  destruct a as [g q f], b as [g' q' f']. unfold klt, ke, elem_less_r, ent_lt. cbn [e_grid e_rank e_frag lex_less].
  rewrite !orb_true_iff, !andb_true_iff, !orb_true_iff, !andb_true_iff, !Z.ltb_lt, !Z.eqb_eq. lia.
Qed.
Lemma s9_connected r : r < n -> connected n frange need r (s9 r).
Proof.
  intros Hr. split; [|split; [|split]].
  - split; [|apply RE_In]. cbn [s9 c_recvs]. rewrite <- (map_id (RE r)).
    apply (sorted_map (fun a b => klt ke a b = true)); [apply (kset_sorted ke 3 ke_len ke_inj)|]. intros a b _ _. apply ke_lt.
  - split; [|intros g q f; apply (SE_In r g q f Hr)]. cbn [s9 c_sends]. rewrite <- (map_id (SE r)).
    apply (sorted_map (fun a b => klt ke a b = true)); [apply (kset_sorted ke 3 ke_len ke_inj)|]. intros a b _ _. apply ke_lt.
  - split; [apply (kset_nodup kl 2 kl_len kl_inj)|]. apply LO_In.
  - cbn [s9 c_ranges c_recvs]. split; [rewrite map_map; apply map_id|]. intros e x H. apply in_map_iff in H. destruct H as (e' & [= -> <-] & H).
    apply RE_In in H. destruct H as (_ & N & H). apply (rng_ok r N e Hr H).
Qed.

Lemma connect_run : exists S', computes n (connect local frange n) (fun r => cst0 (need r)) S' /\
  forall r, r < n -> connected n frange need r (S' r).
Proof. exists s9. split; [apply prog_computes, connect_ok|apply s9_connected]. Qed.
End Connect.

(** The lists agree. *)
Lemma connected_agreed {V} n frange need (S' : nat -> cst) (data : nat -> Z -> Z -> nat -> V) local : exist_needs n local frange need ->
  (forall r, r < n -> connected n frange need r (S' r)) ->
  agreed (transfer n S' data).
Proof.
  intros Hn C. split; cbn [transfer j_n j_sends j_recvs].
  - intros r Hr. destruct (C r Hr) as ((R1 & R2) & (Q1 & Q2) & _). split; [exact Q1|]. split; [exact R1|]. intros e [He|He].
    + destruct e as [g q f]. apply Q2 in He. apply He.
    + apply R2 in He. destruct He as (_ & N & H). apply (Hn r N e Hr H).
  - intros p q g f Hp Hq. destruct (C p Hp) as (_ & (_ & Q2) & _). destruct (C q Hq) as ((_ & R2) & _). rewrite Q2, R2. cbn [e_rank]. intuition congruence.
Qed.

Lemma connected_used {V} n local frange need (S' : nat -> cst) (data : nat -> Z -> Z -> nat -> V) l g q :
  exist_needs n local frange need -> (forall r, r < n -> connected n frange need r (S' r)) ->
  exec (transfer n S' data) true (start (transfer n S' data)) l = Some g -> q < n -> done (g q) = true ->
  forall e, needs need q e <-> used S' data q (k_log (g q)) e.
Proof.
  intros Hn C E Hq D e. assert (A := connected_agreed n frange need S' data local Hn C).
  destruct (run_right (transfer n S' data) A l g q E Hq D) as (P & F & L). cbn [transfer j_recvs j_locals] in P, L.
  destruct (C q Hq) as ((_ & R2) & _ & (_ & L2) & _). rewrite Forall_forall in F. split.
  - intros N. destruct (Nat.eq_dec (e_rank e) q) as [X|X].
    + right. split; [exact X|]. assert (I : In (e_grid e, e_frag e) (c_locals (S' q))).
      { apply L2. destruct e as [a b c]. cbn in X |- *. subst b. exact N. }
      apply In_nth_error in I. destruct I as (i & I). exists i. split; [exact I|]. rewrite L. apply in_seq.
      assert (i < length (c_locals (S' q))); [|lia]. apply nth_error_Some. congruence.
    + left. split; [exact X|]. assert (I : In e (c_recvs (S' q))) by (apply R2; auto).
      apply In_nth_error in I. destruct I as (i & I). exists i. split; [exact I|].
      assert (Hi : In i (map fst (remote (k_log (g q))))).
      { apply (Permutation_in _ (Permutation_sym P)). apply in_seq. assert (i < length (c_recvs (S' q))); [|lia]. apply nth_error_Some. congruence. }
      apply in_map_iff in Hi. destruct Hi as ((i' & vs) & Ei & Hi). cbn in Ei. subst i'.
      destruct (F _ Hi) as (e' & He' & Hv). cbn [fst snd transfer j_recvs] in He', Hv. rewrite He' in I. injection I as ->. rewrite Hv in Hi. exact Hi.
  - intros [(X & i & I & _)|(X & i & I & _)].
    + apply nth_error_In in I. apply R2 in I. apply I.
    + apply nth_error_In in I. apply L2 in I. destruct e as [a b c]. cbn in X, I. subst b. exact I.
Qed.
Lemma connect_agreed : forall V n local frange need (data : nat -> Z -> Z -> nat -> V), exist_needs n local frange need ->
  exists S', computes n (connect local frange n) (fun r => cst0 (need r)) S' /\ agreed (transfer n S' data).
Proof.
  intros V n local frange need data H. destruct (connect_run n local frange need H) as (S' & C & K). exists S'. split; [exact C|].
  exact (connected_agreed n frange need S' data local H K).
Qed.
Lemma connect_used : forall V n local frange need (data : nat -> Z -> Z -> nat -> V), exist_needs n local frange need ->
  exists S', computes n (connect local frange n) (fun r => cst0 (need r)) S' /\
    forall l g q, exec (transfer n S' data) true (start (transfer n S' data)) l = Some g -> q < n -> done (g q) = true ->
      forall e, needs need q e <-> used S' data q (k_log (g q)) e.
Proof.
  intros V n local frange need data H. destruct (connect_run n local frange need H) as (S' & C & K). exists S'. split; [exact C|].
  intros l g q E Hq D. exact (connected_used n local frange need S' data l g q H K E Hq D).
Qed.
