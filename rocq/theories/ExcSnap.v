(** The ranks an exchanger has found fit the arrays. *)
From Coq Require Import List ZArith NArith Bool Lia.
From Verif Require Import TupleModel RangeModel Base RangeProof IndexerModel ArrayModel ContModel HashModel ProtoModel ProtoSpec NetModel NetSpec NetProof NetPhase DDecompProof.
From Verif Require Import SendModel SendSpec SendProof SendLaws DomainModel DomainSpec OMap PairMap DomainProof.
From Verif Require Import XchModel XchSpec XchProof XchLaws XchMain ExcModel ExcSpec ExcProof ExcLaws ExcRun.
Import ListNotations.
Local Open Scope Z_scope.

(** ** Finding ranks *)

Lemma rank_of_last n P : last_rank n (fun q => P q = true) (rank_of n P).
Proof.
  unfold rank_of. induction n as [|n IH]; [left; split; [reflexivity|]; intros; lia|]. rewrite seq_S, fold_left_app. cbn [fold_left plus].
  destruct (P n) eqn:E.
  - right. exists n. split; [reflexivity|]. split; [lia|]. split; [exact E|]. intros; lia.
  - destruct IH as [[-> H]|(q & -> & Hq & Pq & H)].
    + left. split; [reflexivity|]. intros q Hq. destruct (Nat.eq_dec q n) as [->|]; [congruence|]. apply H. lia.
    + right. exists q. split; [reflexivity|]. split; [lia|]. split; [exact Pq|]. intros q' Hq' Pq'. destruct (Nat.eq_dec q' n) as [->|]; [congruence|]. apply H; [lia|exact Pq'].
Qed.
Lemma last_unique n P x y : last_rank n P x -> last_rank n P y -> x = y.
Proof.
  intros [[-> H]|(q & -> & Hq & Pq & H)] [[-> H']|(q' & -> & Hq' & Pq' & H')]; [reflexivity|elim (H q' Hq' Pq')|elim (H' q Hq Pq)|].
  specialize (H q' Hq' Pq'). specialize (H' q Hq Pq). f_equal. lia.
Qed.
Lemma has_receiver_iff ns g p : has_receiver ns g p = true <-> receives ns g p.
Proof.
  unfold has_receiver, receives. rewrite existsb_exists. split.
  - intros (nc & I & H). apply andb_true_iff in H as [G H]. apply existsb_exists in H as (y & Iy & H). apply andb_true_iff in H as [K P].
    exists nc, y. split; [exact I|]. split; [exact Iy|]. split; [lia|]. split; [lia|]. apply teqb_eq, P.
  - intros (nc & y & I & Iy & K & <- & <-). exists nc. split; [exact I|]. apply andb_true_iff. split; [lia|]. apply existsb_exists. exists y. split; [exact Iy|].
    apply andb_true_iff. split; [lia|]. apply teqb_eq. reflexivity.
Qed.
Lemma has_donor_iff ms g p : has_donor ms g p = true <-> donates ms g p.
Proof.
  unfold has_donor, donates. rewrite existsb_exists. split.
  - intros (mc & I & H). apply andb_true_iff in H as [G H]. apply existsb_exists in H as (d & Id & H). apply andb_true_iff in H as [H P]. apply andb_true_iff in H as [L K].
    exists mc, d. split; [exact I|]. split; [exact Id|]. split; [apply rcontains_spec, L|]. split; [lia|]. split; [lia|]. apply teqb_eq, P.
  - intros (mc & d & I & Id & L & K & <- & <-). exists mc. split; [exact I|]. apply andb_true_iff. split; [lia|]. apply existsb_exists. exists d. split; [exact Id|].
    apply andb_true_iff. split; [apply andb_true_iff; split; [apply rcontains_spec, L|lia]|]. apply teqb_eq. reflexivity.
Qed.
Lemma find_dest_rank n ns mc d : donor_rank n ns mc d (find_dest n ns mc d).
Proof.
  unfold donor_rank, find_dest. destruct (rcontains (mc_local mc) (d_lower d)) eqn:E.
  - apply rcontains_spec in E. destruct (Z.ltb_spec (d_rank d) 0).
    + split; [tauto|]. split; [lia|]. intros _ _. eapply last_rank_ext; [|apply rank_of_last]. intros q _. apply has_receiver_iff.
    + split; [tauto|]. split; [reflexivity|lia].
  - assert (~ pt_in (mc_local mc) (d_lower d)) by (rewrite <- rcontains_spec; congruence). split; [reflexivity|]. split; tauto.
Qed.
Lemma find_src_rank n ms nc y : receiver_rank n ms nc y (find_src n ms nc y).
Proof.
  unfold receiver_rank, find_src. destruct (Z.ltb_spec (r_rank y) 0).
  - split; [lia|]. intros _. eapply last_rank_ext; [|apply rank_of_last]. intros q _. apply has_donor_iff.
  - split; [reflexivity|lia].
Qed.
Lemma donor_rank_unique n ns mc d x y : donor_rank n ns mc d x -> donor_rank n ns mc d y -> x = y.
Proof.
  intros (A & B & C) (A' & B' & C'). destruct (rcontains (mc_local mc) (d_lower d)) eqn:E.
  - apply rcontains_spec in E. destruct (Z.lt_ge_cases (d_rank d) 0) as [L|L]; [exact (last_unique n _ _ _ (C E L) (C' E L))|].
    rewrite (B E L), (B' E L). reflexivity.
  - assert (N : ~ pt_in (mc_local mc) (d_lower d)) by (rewrite <- rcontains_spec; congruence). rewrite (A N), (A' N). reflexivity.
Qed.
Lemma receiver_rank_unique n ms nc y x x' : receiver_rank n ms nc y x -> receiver_rank n ms nc y x' -> x = x'.
Proof.
  intros (A & B) (A' & B'). destruct (Z.lt_ge_cases (r_rank y) 0) as [L|L]; [exact (last_unique n _ _ _ (B L) (B' L))|]. rewrite (A L), (A' L). reflexivity.
Qed.
Lemma found_map {A B} (items : A -> list B) (P : A -> B -> Z -> Prop) (f : A -> B -> Z) conns out :
  (forall c b x, P c b x -> x = f c b) -> ranks_found items P conns out -> out = map (fun c => map (f c) (items c)) conns.
Proof.
  intros H F. unfold ranks_found in F. induction F as [|c l conns out E F IH]; [reflexivity|]. cbn [map]. f_equal; [|exact IH].
  clear -H E. induction E as [|b x bs xs Hx E IH]; [reflexivity|]. cbn [map]. f_equal; [apply H, Hx|exact IH].
Qed.
Lemma map_found {A B} (items : A -> list B) (P : A -> B -> Z -> Prop) (f : A -> B -> Z) conns :
  (forall c b, P c b (f c b)) -> ranks_found items P conns (map (fun c => map (f c) (items c)) conns).
Proof.
  intros H. unfold ranks_found. induction conns as [|c l IH]; cbn [map]; constructor; [|exact IH].
  generalize (items c). intros bs. induction bs as [|b bs IHb]; cbn; constructor; auto.
Qed.

(** The messages of C68 find the ranks of the model of the exchanger. *)
Theorem matching grids n ms ns : (0 < n)%nat -> 0 < total_points grids -> known_points grids n ms ns ->
  exists S', computes n (find_ranks grids n) (fun r => XS0 (ms r) (ns r)) S' /\
  forall r, (r < n)%nat ->
    sd_out (xm (S' r)) = map (fun mc => map (find_dest n ns mc) (mc_donors mc)) (ms r) /\
    sd_out (xn (S' r)) = map (fun nc => map (find_src n ms nc) (nc_receivers nc)) (ns r).
Proof.
  intros Hn HT HK. destruct (find_ranks_finds grids n ms ns Hn HT HK) as (S' & C & F). exists S'. split; [exact C|]. intros r Hr. destruct (F r Hr) as [F1 F2]. split.
  - apply (found_map mc_donors (donor_rank n ns)); [|exact F1]. intros mc d x Hx. eapply donor_rank_unique; [exact Hx|apply find_dest_rank].
  - apply (found_map nc_receivers (receiver_rank n ms)); [|exact F2]. intros nc y x Hx. eapply receiver_rank_unique; [exact Hx|apply find_src_rank].
Qed.

(** ** One connectivity of many *)
Definition just_m (k : oid) (ms : nat -> list mconn) (r : nat) : list mconn := filter (fun mc => oid_eqb (m_id mc) k) (ms r).
Definition just_n (k : oid) (ns : nat -> list nconn) (r : nat) : list nconn := filter (fun nc => oid_eqb (n_id nc) k) (ns r).

Lemma just_m_In k ms r mc : In mc (just_m k ms r) <-> In mc (ms r) /\ m_id mc = k.
Proof. unfold just_m. rewrite filter_In, oid_eqb_iff. tauto. Qed.
Lemma just_n_In k ns r nc : In nc (just_n k ns r) <-> In nc (ns r) /\ n_id nc = k.
Proof. unfold just_n. rewrite filter_In, oid_eqb_iff. tauto. Qed.
Lemma NoDup_map_filter {A B} (f : A -> B) p l : NoDup (map f l) -> NoDup (map f (filter p l)).
Proof.
  induction l as [|a l IH]; cbn; [auto|]. intros H. inversion H as [|x y Nx Nd]; subst. destruct (p a); cbn; [|auto]. constructor; [|auto].
  intros I. apply Nx. apply in_map_iff in I as (b & E & I). apply filter_In in I as [I _]. apply in_map_iff. exists b. auto.
Qed.
Lemma fitting_just n ms ns k : fitting n ms ns -> fitting n (just_m k ms) (just_n k ns).
Proof.
  intros F. split.
  - intros r mc d Hr I J. apply just_m_In in I as [I _]. eapply fit_m_given; eauto.
  - intros r mc d Hr I J. apply just_n_In in I as [I _]. eapply fit_n_given; eauto.
  - intros r Hr. apply NoDup_map_filter, (fit_m_id _ _ _ F r Hr).
  - intros r Hr. apply NoDup_map_filter, (fit_n_id _ _ _ F r Hr).
  - intros id p. split.
    + intros (r & mc & Hr & I & E & P). apply just_m_In in I as [I Ek]. destruct (proj1 (fit_match _ _ _ F id p)) as (r' & nc & Hr' & I' & E' & P'); [exists r, mc; auto|].
      exists r', nc. split; [exact Hr'|]. split; [apply just_n_In; split; [exact I'|congruence]|]. auto.
    + intros (r & mc & Hr & I & E & P). apply just_n_In in I as [I Ek]. destruct (proj2 (fit_match _ _ _ F id p)) as (r' & nc & Hr' & I' & E' & P'); [exists r, mc; auto|].
      exists r', nc. split; [exact Hr'|]. split; [apply just_m_In; split; [exact I'|congruence]|]. auto.
  - intros r r' mc mc' p Hr Hr' I I'. apply just_m_In in I as [I _]. apply just_m_In in I' as [I' _]. eapply fit_m_once; eauto.
  - intros r r' mc mc' p Hr Hr' I I'. apply just_n_In in I as [I _]. apply just_n_In in I' as [I' _]. eapply fit_n_once; eauto.
  - intros r mc Hr I. apply just_m_In in I as [I _]. eapply fit_m_distinct; eauto.
  - intros r mc Hr I. apply just_n_In in I as [I _]. eapply fit_n_distinct; eauto.
Qed.

(** Ranks found among some of the connectivities are those found with the one alone. *)
Lemma find_dest_just n ms ns ns' k r mc d : fitting n ms ns -> (r < n)%nat -> In mc (ms r) -> m_id mc = k -> In d (mc_donors mc) ->
  (forall q nc, (q < n)%nat -> In nc (ns' q) -> In nc (ns q)) -> (forall q nc, (q < n)%nat -> In nc (ns q) -> n_id nc = k -> In nc (ns' q)) ->
  find_dest n ns' mc d = find_dest n (just_n k ns) mc d.
Proof.
  intros F Hr I E J S1 S2. unfold find_dest. destruct (rcontains (mc_local mc) (d_lower d)) eqn:L; [|reflexivity]. destruct (Z.ltb (d_rank d) 0); [|reflexivity].
  apply rank_of_ext. intros q Hq. apply eq_true_iff_eq. rewrite !has_receiver_iff. split.
  - intros (nc & y & In1 & Iy & K & G & P). exists nc, y. split; [|auto]. apply just_n_In. split; [apply S1; assumption|].
    destruct (proj1 (fit_match _ _ _ F k (d_point d))) as (r' & nc' & Hr' & I' & E' & P').
    { exists r, mc. split; [exact Hr|]. split; [exact I|]. split; [exact E|]. apply in_map, filter_In. split; [exact J|exact L]. }
    destruct (fit_n_once _ _ _ F q r' nc nc' (d_point d) Hq Hr' (S1 q nc Hq In1) I') as [_ X]; [|rewrite <- P; apply in_map, Iy|exact P'|congruence].
    unfold m_id, n_id in *. rewrite <- E in E'. congruence.
  - intros (nc & y & In1 & H). apply just_n_In in In1 as [In1 E1]. exists nc, y. split; [apply S2; assumption|exact H].
Qed.
Lemma find_src_just n ms ns ms' k r nc y : fitting n ms ns -> (r < n)%nat -> In nc (ns r) -> n_id nc = k -> In y (nc_receivers nc) ->
  (forall q mc, (q < n)%nat -> In mc (ms' q) -> In mc (ms q)) -> (forall q mc, (q < n)%nat -> In mc (ms q) -> m_id mc = k -> In mc (ms' q)) ->
  find_src n ms' nc y = find_src n (just_m k ms) nc y.
Proof.
  intros F Hr I E J S1 S2. unfold find_src. destruct (Z.ltb (r_rank y) 0); [|reflexivity].
  apply rank_of_ext. intros q Hq. apply eq_true_iff_eq. rewrite !has_donor_iff. split.
  - intros (mc & d & Im & Id & L & K & G & P). exists mc, d. split; [|auto]. apply just_m_In. split; [apply S1; assumption|].
    destruct (proj2 (fit_match _ _ _ F k (r_point y))) as (r' & mc' & Hr' & I' & E' & P').
    { exists r, nc. split; [exact Hr|]. split; [exact I|]. split; [exact E|]. apply in_map, J. }
    destruct (fit_m_once _ _ _ F q r' mc mc' (r_point y) Hq Hr' (S1 q mc Hq Im) I') as [_ X]; [| |exact P'|congruence].
    + unfold m_id, n_id in *. rewrite <- E in E'. congruence.
    + rewrite <- P. apply in_map, filter_In. split; [exact Id|apply rcontains_spec, L].
  - intros (mc & d & Im & H). apply just_m_In in Im as [Im E1]. exists mc, d. split; [apply S2; assumption|exact H].
Qed.

(** ** Snapshots *)
Definition one_m (t : tables) (loc : Z -> nat -> bool) (k : oid) (dm : nat -> list donor) (r : nat) : list mconn :=
  if loc (fst k) r then [MConn (fst k) (snd k) (t_local t (fst k) r) (dm r)] else [].
Definition one_n (loc : Z -> nat -> bool) (k : oid) (yn : nat -> list receiver) (r : nat) : list nconn :=
  if loc (snd k) r then [NConn (fst k) (snd k) (yn r)] else [].

Lemma fitting_ext n ms ms' ns ns' : (forall r, (r < n)%nat -> ms r = ms' r /\ ns r = ns' r) -> fitting n ms ns -> fitting n ms' ns'.
Proof.
  intros H F. assert (HM : forall r, (r < n)%nat -> ms' r = ms r) by (intros r Hr; symmetry; apply H, Hr). assert (HN : forall r, (r < n)%nat -> ns' r = ns r) by (intros r Hr; symmetry; apply H, Hr). split.
  - intros r mc d Hr. rewrite (HM r Hr). eapply fit_m_given; eauto.
  - intros r mc d Hr. rewrite (HN r Hr). eapply fit_n_given; eauto.
  - intros r Hr. rewrite (HM r Hr). eapply fit_m_id; eauto.
  - intros r Hr. rewrite (HN r Hr). eapply fit_n_id; eauto.
  - intros id p. split.
    + intros (r & mc & Hr & I & E & P). rewrite (HM r Hr) in I. destruct (proj1 (fit_match _ _ _ F id p)) as (r' & nc & Hr' & I' & R); [exists r, mc; auto|].
      exists r', nc. rewrite (HN r' Hr'). auto.
    + intros (r & mc & Hr & I & E & P). rewrite (HN r Hr) in I. destruct (proj2 (fit_match _ _ _ F id p)) as (r' & nc & Hr' & I' & R); [exists r, mc; auto|].
      exists r', nc. rewrite (HM r' Hr'). auto.
  - intros r r' mc mc' p Hr Hr'. rewrite (HM r Hr), (HM r' Hr'). eapply fit_m_once; eauto.
  - intros r r' mc mc' p Hr Hr'. rewrite (HN r Hr), (HN r' Hr'). eapply fit_n_once; eauto.
  - intros r mc Hr. rewrite (HM r Hr). eapply fit_m_distinct; eauto.
  - intros r mc Hr. rewrite (HN r Hr). eapply fit_n_distinct; eauto.
Qed.

Section Snap.
Context (t : tables) (n : nat).

(** The flags of edits that change what ranks are found from. *)
Definition rank_flags : N := 840.

Definition snap (s : espec) (rm rn : nat -> oid -> list Z) (k : oid) : Prop := exists dm yn,
  let ms := one_m t (livesb (q_d s)) k dm in let ns := one_n (livesb (q_d s)) k yn in
  fitting n ms ns /\
  (forall r, (r < n)%nat -> livesb (q_d s) (fst k) r = true -> rm r k = map (find_dest n ns (MConn (fst k) (snd k) (t_local t (fst k) r) (dm r))) (dm r)) /\
  (forall r, (r < n)%nat -> livesb (q_d s) (snd k) r = true -> rn r k = map (find_src n ms (NConn (fst k) (snd k) (yn r))) (yn r)) /\
  (N.land (s_pend (q_d s) k) rank_flags = 0%N -> forall r, (r < n)%nat -> q_m s r k = dm r /\ q_n s r k = yn r).

Lemma filter_one {A} (f : oid -> A) (ident : A -> oid) (p : oid -> bool) ov k : (forall j, ident (f j) = j) -> NoDup ov -> In k ov ->
  filter (fun a => oid_eqb (ident a) k) (map f (filter p ov)) = if p k then [f k] else [].
Proof.
  intros HI ND I. induction ov as [|j ov IH]; [contradiction|]. inversion ND as [|x y Nj ND']; subst. cbn [filter].
  assert (Z0 : ~ In k ov -> filter (fun a => oid_eqb (ident a) k) (map f (filter p ov)) = []).
  { clear -HI. intros N. induction ov as [|j ov IH]; [reflexivity|]. cbn [filter]. assert (IH' : filter (fun a => oid_eqb (ident a) k) (map f (filter p ov)) = []) by (apply IH; intros J; apply N; right; exact J).
    destruct (p j); [|exact IH']. cbn [map filter]. rewrite HI. destruct (oid_eqb j k) eqn:E; [|exact IH']. apply oid_eqb_iff in E. subst. elim N. left. reflexivity. }
  destruct I as [->|I].
  - destruct (p k); cbn [map filter]; [rewrite HI, (proj2 (oid_eqb_iff k k) eq_refl); f_equal|]; apply Z0, Nj.
  - assert (Ne : oid_eqb j k = false) by (apply not_true_iff_false; rewrite oid_eqb_iff; intros ->; contradiction).
    destruct (p j); cbn [map filter]; [rewrite HI, Ne|]; apply IH; assumption.
Qed.
Lemma just_all_m s k r : NoDup (s_over (q_d s)) -> In k (s_over (q_d s)) -> just_m k (all_m t s) r = one_m t (livesb (q_d s)) k (fun q => q_m s q k) r.
Proof.
  intros ND I. unfold just_m, all_m. rewrite (filter_one (conn_m t (q_m s) r) m_id _ _ k); auto. intros [a b]. reflexivity.
Qed.
Lemma just_all_n s k r : NoDup (s_over (q_d s)) -> In k (s_over (q_d s)) -> just_n k (all_n s) r = one_n (livesb (q_d s)) k (fun q => q_n s q k) r.
Proof.
  intros ND I. unfold just_n, all_n. rewrite (filter_one (conn_n (q_n s) r) n_id _ _ k); auto. intros [a b]. reflexivity.
Qed.

(** Ranks that have just been found, with connectivities [ms'] and [ns'] taking part. *)
Lemma snap_now s s' rm rn k ms' ns' : NoDup (s_over (q_d s)) -> In k (s_over (q_d s)) -> fitting n (all_m t s) (all_n s) ->
  (forall q mc, (q < n)%nat -> In mc (ms' q) -> In mc (all_m t s q)) -> (forall q mc, (q < n)%nat -> In mc (all_m t s q) -> m_id mc = k -> In mc (ms' q)) ->
  (forall q nc, (q < n)%nat -> In nc (ns' q) -> In nc (all_n s q)) -> (forall q nc, (q < n)%nat -> In nc (all_n s q) -> n_id nc = k -> In nc (ns' q)) ->
  (forall r, (r < n)%nat -> rm r k = map (find_dest n ns' (conn_m t (q_m s) r k)) (q_m s r k)) ->
  (forall r, (r < n)%nat -> rn r k = map (find_src n ms' (conn_n (q_n s) r k)) (q_n s r k)) ->
  (forall r, livesb (q_d s') (fst k) r = livesb (q_d s) (fst k) r /\ livesb (q_d s') (snd k) r = livesb (q_d s) (snd k) r) ->
  (forall r, (r < n)%nat -> q_m s' r k = q_m s r k /\ q_n s' r k = q_n s r k) ->
  snap s' rm rn k.
Proof.
  intros ND I F M1 M2 N1 N2 Rm Rn HLv HA. exists (fun q => q_m s q k), (fun q => q_n s q k). cbv zeta.
  assert (Om : forall r, one_m t (livesb (q_d s')) k (fun q => q_m s q k) r = just_m k (all_m t s) r) by (intros r; rewrite just_all_m by assumption; unfold one_m; rewrite (proj1 (HLv r)); reflexivity).
  assert (On : forall r, one_n (livesb (q_d s')) k (fun q => q_n s q k) r = just_n k (all_n s) r) by (intros r; rewrite just_all_n by assumption; unfold one_n; rewrite (proj2 (HLv r)); reflexivity).
  split; [|split; [|split]].
  - eapply fitting_ext; [|apply (fitting_just n _ _ k F)]. intros r Hr. rewrite Om, On. auto.
  - intros r Hr Lr. rewrite (Rm r Hr). apply map_ext_in. intros d Hd. rewrite (proj1 (HLv r)) in Lr.
    assert (Im : In (conn_m t (q_m s) r k) (all_m t s r)) by (apply in_map_iff; exists k; split; [reflexivity|]; apply filter_In; auto).
    rewrite (find_dest_just n _ _ ns' k r _ d F Hr Im) by (auto; destruct k; reflexivity). apply find_dest_ext. intros q Hq. symmetry. apply On.
  - intros r Hr Lr. rewrite (Rn r Hr). apply map_ext_in. intros y Hy. rewrite (proj2 (HLv r)) in Lr.
    assert (Im : In (conn_n (q_n s) r k) (all_n s r)) by (apply in_map_iff; exists k; split; [reflexivity|]; apply filter_In; auto).
    rewrite (find_src_just n _ _ ms' k r _ y F Hr Im) by (auto; destruct k; reflexivity). apply find_src_ext. intros q Hq. symmetry. apply Om.
  - intros _ r Hr. apply HA, Hr.
Qed.

(** Ranks that have been kept. *)
Lemma snap_kept s s' rm rn rm' rn' k : snap s rm rn k ->
  (forall r, (r < n)%nat -> rm' r k = rm r k /\ rn' r k = rn r k) ->
  (forall r, livesb (q_d s') (fst k) r = livesb (q_d s) (fst k) r /\ livesb (q_d s') (snd k) r = livesb (q_d s) (snd k) r) ->
  (N.land (s_pend (q_d s') k) rank_flags = 0%N -> N.land (s_pend (q_d s) k) rank_flags = 0%N /\ forall r, (r < n)%nat -> q_m s' r k = q_m s r k /\ q_n s' r k = q_n s r k) ->
  snap s' rm' rn' k.
Proof.
  intros (dm & yn & F & A & B & C) HR HLv HP. exists dm, yn. cbv zeta in *.
  assert (Om : forall r, one_m t (livesb (q_d s')) k dm r = one_m t (livesb (q_d s)) k dm r) by (intros r; unfold one_m; rewrite (proj1 (HLv r)); reflexivity).
  assert (On : forall r, one_n (livesb (q_d s')) k yn r = one_n (livesb (q_d s)) k yn r) by (intros r; unfold one_n; rewrite (proj2 (HLv r)); reflexivity).
  split; [|split; [|split]].
  - eapply fitting_ext; [|exact F]. intros r Hr. rewrite Om, On. auto.
  - intros r Hr Lr. rewrite (proj1 (HLv r)) in Lr. rewrite (proj1 (HR r Hr)), (A r Hr Lr). apply map_ext. intros d. apply find_dest_ext. intros q Hq. symmetry. apply On.
  - intros r Hr Lr. rewrite (proj2 (HLv r)) in Lr. rewrite (proj2 (HR r Hr)), (B r Hr Lr). apply map_ext. intros d. apply find_src_ext. intros q Hq. symmetry. apply Om.
  - intros P r Hr. destruct (HP P) as [P0 E]. destruct (E r Hr) as [-> ->]. apply (C P0 r Hr).
Qed.

(** A new connectivity. *)
Lemma snap_new s rm rn k : (forall r, rm r k = [] /\ rn r k = [] /\ q_m s r k = [] /\ q_n s r k = []) -> snap s rm rn k.
Proof.
  intros H. exists (fun _ => []), (fun _ => []). cbv zeta.
  assert (Im : forall r mc, In mc (one_m t (livesb (q_d s)) k (fun _ => []) r) -> mc_donors mc = []) by (intros r mc; unfold one_m; destruct (livesb _ _ _); [intros [<-|[]]; reflexivity|intros []]).
  assert (In1 : forall r nc, In nc (one_n (livesb (q_d s)) k (fun _ => []) r) -> nc_receivers nc = []) by (intros r mc; unfold one_n; destruct (livesb _ _ _); [intros [<-|[]]; reflexivity|intros []]).
  split; [split|split; [|split]].
  - intros r mc d _ I. rewrite (Im r mc I). intros [].
  - intros r mc d _ I. rewrite (In1 r mc I). intros [].
  - intros r _. unfold one_m. destruct (livesb _ _ _); [|constructor]. constructor; [intros []|constructor].
  - intros r _. unfold one_n. destruct (livesb _ _ _); [|constructor]. constructor; [intros []|constructor].
  - intros id p. split; intros (r & mc & _ & I & _ & P).
    + unfold XchSpec.local_donors in P. rewrite (Im r mc I) in P. destruct P.
    + rewrite (In1 r mc I) in P. destruct P.
  - intros r r' mc mc' p _ _ I _ _ P. unfold XchSpec.local_donors in P. rewrite (Im r mc I) in P. destruct P.
  - intros r r' mc mc' p _ _ I _ _ P. rewrite (In1 r mc I) in P. destruct P.
  - intros r mc _ I. unfold XchSpec.local_donors. rewrite (Im r mc I). constructor.
  - intros r mc _ I. rewrite (In1 r mc I). constructor.
  - intros r _ _. apply H.
  - intros r _ _. apply H.
  - intros _ r _. destruct (H r) as (_ & _ & -> & ->). auto.
Qed.

Definition snaps (s : espec) (rm rn : nat -> oid -> list Z) : Prop := q_bound s = true -> forall k, In k (s_over (q_d s)) -> snap s rm rn k.

Lemma lor_land_0 a b m : N.land (N.lor a b) m = 0%N -> N.land a m = 0%N /\ N.land b m = 0%N.
Proof. rewrite N.land_lor_distr_l. apply N.lor_eq_0_iff. Qed.
Lemma land_sub_0 a m m' : N.land m m' = m' -> N.land a m = 0%N -> N.land a m' = 0%N.
Proof. intros H E. rewrite <- H, N.land_assoc, E. reflexivity. Qed.

Lemma comp_snaps s rm rn st o : einv n s rm rn st -> snaps s rm rn -> dlegal n (q_d s) o ->
  (ends_edits o = true -> fitting n (all_m t s) (all_n s)) ->
  (ends_edits o = true -> q_bound s = true -> forall k, In k (s_over (q_d s)) ->
    N.land (s_pend (q_d s) k) (EDIT_M_EXTENTS + EDIT_N_POINTS) <> 0%N -> N.land (s_pend (q_d s) k) (EDIT_M_DESTINATIONS + EDIT_N_SOURCES) <> 0%N) ->
  snaps (comp_spec s o) (comp_rm t n s o rm) (comp_rn t n s o rn).
Proof.
  intros I HS HL HF HC Hb k Ik. cbn [comp_spec q_d q_bound] in Hb, Ik. pose proof (ei_d _ _ _ _ _ I) as I1.
  pose proof (created_new n (q_d s) o HL) as HN. assert (HC' : forall j, In j (created o) -> ~ In j (s_over (q_d s))) by (intros j J; apply HN, J).
  assert (ND : NoDup (s_over (q_d s))) by (eapply sok_NoDup; [exact pair_swo|]; apply (di_over _ _ _ I1)).
  pose proof Ik as Ik'. apply (sstep_over (q_d s) o k HC') in Ik' as [Ik' _].
  destruct (kin k (created o)) eqn:Ec.
  { apply snap_new. intros r. unfold comp_rm, comp_rn. cbn [comp_spec q_m q_n]. unfold blank.
    change (existsb (fun k0 => Z.eqb (fst k) (fst k0) && Z.eqb (snd k) (snd k0)) (created o)) with (kin k (created o)). rewrite Ec. auto. }
  destruct Ik' as [Ik'|Ik']; [|apply kin_spec in Ik'; congruence].
  assert (BM : forall A (f : nat -> oid -> list A) r j, In j (s_over (q_d s)) -> blank f (created o) r j = f r j).
  { intros A f r j Ij. unfold blank. change (existsb (fun k0 => Z.eqb (fst j) (fst k0) && Z.eqb (snd j) (snd k0)) (created o)) with (kin j (created o)).
    destruct (kin j (created o)) eqn:E; [|reflexivity]. apply kin_spec in E. elim (HC' j E Ij). }
  assert (LV : forall j r, In j (s_over (q_d s)) -> livesb (ev_spec (q_d s) o) (fst j) r = livesb (q_d s) (fst j) r /\ livesb (ev_spec (q_d s) o) (snd j) r = livesb (q_d s) (snd j) r).
  { intros j r Ij. destruct (di_og _ _ _ I1 j Ij). rewrite !(lives_ev n) by assumption. auto. }
  assert (LA : forall r, livesb (sstep (q_d s) o) (fst k) r = livesb (q_d s) (fst k) r /\ livesb (sstep (q_d s) o) (snd k) r = livesb (q_d s) (snd k) r).
  { intros r. destruct (lives_after (q_d s) o k r Ik HC') as [-> ->]. apply LV, Ik'. }
  destruct (ends_edits o && again s k) eqn:Ea.
  - apply andb_true_iff in Ea as [Ee Ea]. set (loc := livesb (ev_spec (q_d s) o)).
    apply (snap_now s (comp_spec s o) _ _ k (some_m t s loc (blank (q_m s) (created o))) (some_n s loc (blank (q_n s) (created o))) ND Ik' (HF Ee)).
    + intros q mc Hq Im. apply in_map_iff in Im as (j & <- & Im). apply filter_In in Im as [Im P]. apply andb_true_iff in P as [_ P]. apply in_map_iff. exists j.
      split; [unfold conn_m; rewrite BM by exact Im; reflexivity|]. apply filter_In. split; [exact Im|]. rewrite <- (proj1 (LV j q Im)). exact P.
    + intros q mc Hq Im E. apply in_map_iff in Im as (j & <- & Im). apply filter_In in Im as [Im P]. unfold m_id in E. cbn in E. assert (j = k) by (destruct j; exact E). subst j.
      apply in_map_iff. exists k. split; [unfold conn_m; rewrite BM by exact Im; reflexivity|]. apply filter_In. split; [exact Im|]. rewrite Ea. unfold loc. rewrite (proj1 (LV k q Im)). exact P.
    + intros q mc Hq Im. apply in_map_iff in Im as (j & <- & Im). apply filter_In in Im as [Im P]. apply andb_true_iff in P as [_ P]. apply in_map_iff. exists j.
      split; [unfold conn_n; rewrite BM by exact Im; reflexivity|]. apply filter_In. split; [exact Im|]. rewrite <- (proj2 (LV j q Im)). exact P.
    + intros q mc Hq Im E. apply in_map_iff in Im as (j & <- & Im). apply filter_In in Im as [Im P]. unfold n_id in E. cbn in E. assert (j = k) by (destruct j; exact E). subst j.
      apply in_map_iff. exists k. split; [unfold conn_n; rewrite BM by exact Im; reflexivity|]. apply filter_In. split; [exact Im|]. rewrite Ea. unfold loc. rewrite (proj2 (LV k q Im)). exact P.
    + intros r Hr. unfold comp_rm. rewrite Ec, Ee, Ea. cbn [andb]. cbv zeta. unfold conn_m. rewrite !BM by exact Ik'. reflexivity.
    + intros r Hr. unfold comp_rn. rewrite Ec, Ee, Ea. cbn [andb]. cbv zeta. unfold conn_n. rewrite !BM by exact Ik'. reflexivity.
    + exact LA.
    + intros r Hr. cbn [comp_spec q_m q_n]. rewrite !BM by exact Ik'. auto.
  - apply (snap_kept s (comp_spec s o) rm rn _ _ k (HS Hb k Ik')).
    + intros r Hr. unfold comp_rm, comp_rn. rewrite Ec, Ea. auto.
    + exact LA.
    + cbn [comp_spec q_d q_m q_n]. intros P. split; [|intros r Hr; rewrite !BM by exact Ik'; auto]. rewrite sstep_pend in P.
      destruct (ends_edits o) eqn:Ee.
      * cbn [andb] in Ea. unfold again in Ea. rewrite (proj2 (kin_spec k _) Ik') in Ea. cbn [andb] in Ea. apply nonzero_false in Ea.
        destruct (N.eq_dec (N.land (s_pend (q_d s) k) (EDIT_M_EXTENTS + EDIT_N_POINTS)) 0) as [E0|E0]; [|elim (HC eq_refl Hb k Ik' E0 Ea)].
        change rank_flags with (N.lor (EDIT_M_EXTENTS + EDIT_N_POINTS) (EDIT_M_DESTINATIONS + EDIT_N_SOURCES)). rewrite N.land_lor_distr_r, E0, Ea. reflexivity.
      * destruct o as [g' f|l|g'|l|j|l|j|l| |q j f|q j f|]; try exact P; destruct (oid_eqb k j); try exact P; apply lor_land_0 in P; apply P.
Qed.

Lemma step_snaps s rm rn st o : einv n s rm rn st -> snaps s rm rn -> elegal n s o -> consistent t n s o -> careful s o ->
  snaps (espec_step s o) (step_rm t n s o rm) (step_rn t n s o rn).
Proof.
  intros I HS HL HF HC. destruct o as [o|r k f ds|r k f ys| | |r k i|r k i]; cbn [espec_step step_rm step_rn elegal] in *.
  - apply (comp_snaps s rm rn st o I HS (proj1 HL)); [exact HF|exact HC].
  - destruct HL as (HL & Hf & Hc). pose proof (comp_snaps s rm rn st (EditM r k f) I HS HL ltac:(discriminate) ltac:(discriminate)) as X.
    intros Hb j Ij. apply (snap_kept (comp_spec s (EditM r k f)) _ rm rn _ _ j (X Hb j Ij)); [auto|auto|].
    cbn [q_d q_m q_n]. intros P. split; [exact P|]. intros q Hq. split; [|reflexivity]. rewrite put_at. destruct (Nat.eqb q r && oid_eqb j k) eqn:Ej; [|reflexivity].
    apply andb_true_iff in Ej as [Eq Ej]. apply Nat.eqb_eq in Eq. apply oid_eqb_iff in Ej. subst q j. cbn [comp_spec q_d] in P. rewrite sstep_pend in P. cbn [ends_edits] in P.
    rewrite (proj2 (oid_eqb_iff k k) eq_refl) in P. apply lor_land_0 in P as [_ P]. destruct Hc as [C1 C2].
    specialize (C1 (land_sub_0 _ _ _ eq_refl P)). destruct (C2 (land_sub_0 _ _ _ eq_refl P)) as [C3 C4].
    change (q_m (comp_spec s (EditM r k f)) r k) with (q_m s r k). revert C1 C3 C4. generalize (q_m s r k). clear. induction ds as [|[a b c0] ds IH]; intros [|[a' b' c'] l]; cbn; intros; try discriminate; [reflexivity|].
    f_equal; [congruence|]. apply IH; congruence.
  - destruct HL as (HL & Hf & Hc). pose proof (comp_snaps s rm rn st (EditN r k f) I HS HL ltac:(discriminate) ltac:(discriminate)) as X.
    intros Hb j Ij. apply (snap_kept (comp_spec s (EditN r k f)) _ rm rn _ _ j (X Hb j Ij)); [auto|auto|].
    cbn [q_d q_m q_n]. intros P. split; [exact P|]. intros q Hq. split; [reflexivity|]. rewrite put_at. destruct (Nat.eqb q r && oid_eqb j k) eqn:Ej; [|reflexivity].
    apply andb_true_iff in Ej as [Eq Ej]. apply Nat.eqb_eq in Eq. apply oid_eqb_iff in Ej. subst q j. cbn [comp_spec q_d] in P. rewrite sstep_pend in P. cbn [ends_edits] in P.
    rewrite (proj2 (oid_eqb_iff k k) eq_refl) in P. apply lor_land_0 in P as [_ P]. destruct Hc as [C1 C2].
    specialize (C1 (land_sub_0 _ _ _ eq_refl P)). specialize (C2 (land_sub_0 _ _ _ eq_refl P)).
    change (q_n (comp_spec s (EditN r k f)) r k) with (q_n s r k). revert C1 C2. generalize (q_n s r k). clear. induction ys as [|[a b] ds IH]; intros [|[a' b'] l]; cbn; intros; try discriminate; [reflexivity|].
    f_equal; [congruence|]. apply IH; congruence.
  - intros _ k Ik. cbn [q_d] in Ik. pose proof (ei_d _ _ _ _ _ I) as I1. assert (ND : NoDup (s_over (q_d s))) by (eapply sok_NoDup; [exact pair_swo|]; apply (di_over _ _ _ I1)).
    apply (snap_now s _ _ _ k (all_m t s) (all_n s) ND Ik (HF eq_refl)); auto.
  - intros Hb. discriminate.
  - intros Hb k' Ik'. exact (HS Hb k' Ik').
  - intros Hb k' Ik'. exact (HS Hb k' Ik').
Qed.

Lemma run_snaps h : forall s rm rn st, (0 < n)%nat -> einv n s rm rn st -> snaps s rm rn ->
  always (elegal n) s h -> always (consistent t n) s h -> always careful s h ->
  snaps (fold_left espec_step h s) (run_rm t n s h rm) (run_rn t n s h rn).
Proof.
  induction h as [|o h IH]; intros s rm rn st Hn I HS HL HF HC; cbn [fold_left run_rm run_rn always] in *; [exact HS|].
  destruct HL as [HL HL'], HF as [HF HF'], HC as [HC HC']. destruct (estep_ok t n s rm rn st o Hn I HL) as (st1 & E & I1).
  apply (IH _ _ _ st1); try assumption. eapply step_snaps; eauto.
Qed.
End Snap.

(** ** Exchanges *)
Section Exchange.
Context (t : tables) (n : nat) (h : list eop).
Hypothesis Hn : (0 < n)%nat.
Hypothesis HL : elegal_history n h.
Hypothesis HF : always (consistent t n) espec0 h.
Hypothesis HC : always careful espec0 h.
Let s := espec_run h.
Context (k : oid).
Hypothesis Hb : q_bound s = true.
Hypothesis Ik : In k (s_over (q_d s)).
Hypothesis Pk : s_pend (q_d s) k = 0%N.
Context (st : est).
Hypothesis HR : erun t n h = Some st.

Let ms := one_m t (livesb (q_d s)) k (fun q => q_m s q k).
Let ns := one_n (livesb (q_d s)) k (fun q => q_n s q k).

Lemma stored : fitting n ms ns /\ forall r, (r < n)%nat ->
  dest_ranks st k r = of_id m_id k (ms r) (map (fun mc => map (find_dest n ns mc) (mc_donors mc)) (ms r)) /\
  dest_points st k r = m_points k (ms r) /\
  source_ranks st k r = of_id n_id k (ns r) (map (fun nc => map (find_src n ms nc) (nc_receivers nc)) (ns r)) /\
  source_points st k r = n_points k (ns r).
Proof.
  pose proof (einv_init n (fun _ _ => []) (fun _ _ => [])) as I0.
  destruct (erun_from t n h espec0 (fun _ _ => []) (fun _ _ => []) (est0 n) Hn I0 HL) as (st' & E & I). unfold erun in HR. rewrite HR in E. injection E as <-.
  assert (S0 : snaps t n espec0 (fun _ _ => []) (fun _ _ => [])) by (intros B; discriminate).
  pose proof (run_snaps t n h espec0 _ _ _ Hn I0 S0 HL HF HC) as S1. fold (espec_run h) in S1, I. fold s in S1, I.
  destruct (S1 Hb k Ik) as (dm & yn & F & A & B & C). cbv zeta in *. rewrite Pk in C. specialize (C eq_refl).
  assert (Om : forall r, (r < n)%nat -> one_m t (livesb (q_d s)) k dm r = ms r) by (intros r Hr; unfold ms, one_m; rewrite (proj1 (C r Hr)); reflexivity).
  assert (On : forall r, (r < n)%nat -> one_n (livesb (q_d s)) k yn r = ns r) by (intros r Hr; unfold ns, one_n; rewrite (proj2 (C r Hr)); reflexivity).
  split; [eapply fitting_ext; [|exact F]; auto|]. intros r Hr.
  destruct (einv_seen n s _ _ st I r k Hr) as (V1 & V2 & V3 & V4). destruct (C r Hr) as [Cm Cn].
  assert (K1 : forall {X Y} (a : X) (b : Y) (e : X -> Z * Z), e a = k -> of_id e k [a] [[b]] = [b]) by (intros X Y a b e Ea; unfold of_id; cbn; rewrite Ea, !Z.eqb_refl; reflexivity).
  unfold dest_ranks, dest_points, source_ranks, source_points.
  assert (Q1 : dest_ranks st k r = of_id m_id k (ms r) (map (fun mc => map (find_dest n ns mc) (mc_donors mc)) (ms r)) /\ dest_points st k r = m_points k (ms r)).
  { unfold dest_ranks, dest_points. destruct (livesb (q_d s) (fst k) r) eqn:El.
    - destruct (local_m st r k) as [l|]; [|elim (proj2 V1); auto]. destruct (V3 l eq_refl) as (P1 & _ & P3). rewrite (P3 Pk). rewrite P1, (A r Hr El).
      unfold m_points, of_id, ms, one_m. rewrite El. cbn [map combine find fst snd m_id mc_from mc_grid mc_donors]. rewrite !Z.eqb_refl. cbn [andb fst snd]. rewrite <- Cm. split; [|reflexivity].
      apply map_ext. intros d. apply find_dest_ext. exact On.
    - destruct (local_m st r k) as [l|]; [destruct (proj1 V1) as (_ & _ & X); [discriminate|congruence]|]. unfold m_points, of_id, ms, one_m. rewrite El. split; reflexivity. }
  assert (Q2 : source_ranks st k r = of_id n_id k (ns r) (map (fun nc => map (find_src n ms nc) (nc_receivers nc)) (ns r)) /\ source_points st k r = n_points k (ns r)).
  { unfold source_ranks, source_points. destruct (livesb (q_d s) (snd k) r) eqn:El.
    - destruct (local_n st r k) as [l|]; [|elim (proj2 V2); auto]. destruct (V4 l eq_refl) as (P1 & _ & P3). rewrite (P3 Pk). rewrite P1, (B r Hr El).
      unfold n_points, of_id, ns, one_n. rewrite El. cbn [map combine find fst snd n_id nc_from nc_grid nc_receivers]. rewrite !Z.eqb_refl. cbn [andb fst snd]. rewrite <- Cn. split; [|reflexivity].
      apply map_ext. intros d. apply find_src_ext. exact Om.
    - destruct (local_n st r k) as [l|]; [destruct (proj1 V2) as (_ & _ & X); [discriminate|congruence]|]. unfold n_points, of_id, ns, one_n. rewrite El. split; reflexivity. }
  destruct Q1 as [Q11 Q12], Q2 as [Q21 Q22]. auto.
Qed.

Lemma stored_found r : (r < n)%nat ->
  ranks_found mc_donors (donor_rank n ns) (ms r) (map (fun mc => map (find_dest n ns mc) (mc_donors mc)) (ms r)) /\
  ranks_found nc_receivers (receiver_rank n ms) (ns r) (map (fun nc => map (find_src n ms nc) (nc_receivers nc)) (ns r)).
Proof. intros _. split; apply map_found; intros; [apply find_dest_rank|apply find_src_rank]. Qed.

Lemma agreed_ext m dst dst' src src' sp sp' rp rp' : (forall r, (r < m)%nat -> dst r = dst' r /\ src r = src' r /\ sp r = sp' r /\ rp r = rp' r) ->
  agreed m dst src sp rp -> agreed m dst' src' sp' rp'.
Proof. intros H A a r p Ha Hr. destruct (H a Ha) as (<- & _ & <- & _). destruct (H r Hr) as (_ & <- & _ & <-). apply A; assumption. Qed.

Theorem stored_agreed : agreed n (dest_ranks st k) (source_ranks st k) (dest_points st k) (source_points st k) /\
  forall r, (r < n)%nat ->
    (forall q, In q (dest_ranks st k r) -> q < Z.of_nat n) /\ (forall q, In q (source_ranks st k r) -> 0 <= q < Z.of_nat n) /\
    length (dest_points st k r) = length (dest_ranks st k r) /\ length (source_points st k r) = length (source_ranks st k r) /\
    distinct (dest_ranks st k r) (dest_points st k r) /\ distinct (source_ranks st k r) (source_points st k r).
Proof.
  destruct stored as [F St]. split.
  - eapply agreed_ext; [|apply (fitting_agreed n ms ns _ _ F stored_found k)]. intros r Hr. destruct (St r Hr) as (-> & -> & -> & ->). auto.
  - intros r Hr. destruct (St r Hr) as (-> & -> & -> & ->). apply (fitting_found n ms ns _ _ F stored_found k r Hr).
Qed.

(** The points are those of the arrays. *)
Lemma stored_points r : (r < n)%nat ->
  (livesb (q_d s) (fst k) r = true -> dest_points st k r = map d_point (q_m s r k)) /\ (livesb (q_d s) (fst k) r = false -> dest_points st k r = []) /\
  (livesb (q_d s) (snd k) r = true -> source_points st k r = map r_point (q_n s r k)) /\ (livesb (q_d s) (snd k) r = false -> source_points st k r = []).
Proof.
  intros Hr. destruct stored as [_ St]. destruct (St r Hr) as (_ & -> & _ & ->). unfold m_points, n_points, of_id, ms, ns, one_m, one_n.
  split; [|split; [|split]]; intros ->; try reflexivity; cbn [map combine find fst snd m_id n_id mc_from mc_grid nc_from nc_grid mc_donors nc_receivers]; rewrite !Z.eqb_refl; reflexivity.
Qed.

(** A donor whose cell begins on the rank is sent to the rank of its receiver. *)
Lemma stored_dest a r i j d y : (a < n)%nat -> (r < n)%nat -> livesb (q_d s) (fst k) a = true -> livesb (q_d s) (snd k) r = true ->
  vread (q_m s a k) i = Some d -> rcontains (t_local t (fst k) a) (d_lower d) = true -> vread (q_n s r k) j = Some y -> r_point y = d_point d ->
  vread (dest_ranks st k a) i = Some (Z.of_nat r) /\ vread (source_ranks st k r) j = Some (Z.of_nat a).
Proof.
  intros Ha Hr La Lr Hi Ld Hj Ep. destruct stored as [F St]. destruct (St a Ha) as (-> & _ & _ & _). destruct (St r Hr) as (_ & _ & -> & _).
  set (MC := MConn (fst k) (snd k) (t_local t (fst k) a) (q_m s a k)). set (NC := NConn (fst k) (snd k) (q_n s r k)).
  assert (Em : ms a = [MC]) by (unfold ms, one_m; rewrite La; reflexivity). assert (En : ns r = [NC]) by (unfold ns, one_n; rewrite Lr; reflexivity).
  assert (Im : In MC (ms a)) by (rewrite Em; left; reflexivity). assert (In1 : In NC (ns r)) by (rewrite En; left; reflexivity).
  rewrite Em, En. unfold of_id. cbn [map combine find fst snd m_id n_id mc_from mc_grid nc_from nc_grid mc_donors nc_receivers MC NC]. rewrite !Z.eqb_refl. cbn [andb fst snd].
  rewrite !vread_fmap. fold MC NC. cbn [mc_donors nc_receivers MC NC]. rewrite Hi, Hj. cbn [option_map]. apply vread_In in Hi. apply vread_In in Hj.
  assert (Pd : In (d_point d) (map d_point (XchSpec.local_donors MC))) by (apply in_map, filter_In; split; assumption).
  assert (Py : In (d_point d) (map r_point (nc_receivers NC))) by (rewrite <- Ep; apply in_map; exact Hj).
  split; f_equal.
  - destruct (find_dest_rank n ns MC d) as (_ & _ & X). specialize (X (proj1 (rcontains_spec _ _) Ld) (fit_m_given _ _ _ F a MC d Ha Im Hi)).
    destruct X as [[_ X]|(q & -> & Hq & (nc & y' & Inc & Iy & _ & G & P) & _)].
    + elim (X r Hr). exists NC, y. split; [exact In1|]. split; [exact Hj|]. split; [apply (fit_n_given _ _ _ F r NC y Hr In1 Hj)|]. split; [reflexivity|exact Ep].
    + destruct (fit_n_once _ _ _ F q r nc NC (d_point d) Hq Hr Inc In1) as [-> _]; [rewrite G; reflexivity|rewrite <- P; apply in_map, Iy|exact Py|reflexivity].
  - destruct (find_src_rank n ms NC y) as (_ & X). specialize (X (fit_n_given _ _ _ F r NC y Hr In1 Hj)).
    destruct X as [[_ X]|(q & -> & Hq & (mc & d' & Imc & Id & L' & _ & G & P) & _)].
    + elim (X a Ha). exists MC, d. split; [exact Im|]. split; [exact Hi|]. split; [apply rcontains_spec, Ld|]. split; [apply (fit_m_given _ _ _ F a MC d Ha Im Hi)|]. split; [reflexivity|]. symmetry. exact Ep.
    + destruct (fit_m_once _ _ _ F q a mc MC (d_point d) Hq Ha Imc Im) as [-> _]; [rewrite G; reflexivity| |exact Pd|reflexivity].
      rewrite <- Ep, <- P. apply in_map, filter_In. split; [exact Id|apply rcontains_spec, L'].
Qed.
(** Every receiver has a donor. *)
Lemma stored_donor r j y : (r < n)%nat -> livesb (q_d s) (snd k) r = true -> vread (q_n s r k) j = Some y ->
  exists a i d, (a < n)%nat /\ livesb (q_d s) (fst k) a = true /\ vread (q_m s a k) i = Some d /\ rcontains (t_local t (fst k) a) (d_lower d) = true /\ r_point y = d_point d.
Proof.
  intros Hr Lr Hj. destruct stored as [F _]. set (NC := NConn (fst k) (snd k) (q_n s r k)). assert (En : ns r = [NC]) by (unfold ns, one_n; rewrite Lr; reflexivity).
  apply vread_In in Hj. destruct (proj2 (fit_match _ _ _ F k (r_point y))) as (a & mc & Ha & Im & E & P).
  { exists r, NC. rewrite En. split; [exact Hr|]. split; [left; reflexivity|]. split; [destruct k; reflexivity|]. apply in_map, Hj. }
  unfold ms, one_m in Im. destruct (livesb (q_d s) (fst k) a) eqn:La; [|contradiction]. destruct Im as [<-|[]]. apply in_map_iff in P as (d & Ed & Id). apply filter_In in Id as [Id Ld].
  cbn in Id, Ld. apply In_nth_error in Id as (i & Hi). exists a, (Z.of_nat i), d. rewrite vread_nth. auto.
Qed.

Theorem stored_exchange V cnt (junk : V) R ssort rsort vals out :
  0 <= cnt ->
  (forall r, (r < n)%nat -> sorts (ssort r) /\ sorts (rsort r)) ->
  (forall r d, (r < n)%nat -> In d (q_m s r k) -> pt_in R (d_point d)) -> (forall r y, (r < n)%nat -> In y (q_n s r k) -> pt_in R (r_point y)) ->
  (forall r, (r < n)%nat -> Z.of_nat (length (dest_ranks st k r)) <= 2 ^ 31 /\ Z.of_nat (length (source_ranks st k r)) <= 2 ^ 31) ->
  (forall r, (r < n)%nat -> shaped cnt (length (dest_ranks st k r)) (vals r) /\ shaped cnt (length (source_ranks st k r)) (out r)) ->
  exists S' out',
  computes n (send_recv cnt junk (dest_ranks st k) (fun r => send_recv_order (ssort r) R (dest_points st k r))
                                 (source_ranks st k) (fun r => send_recv_order (rsort r) R (source_points st k r)))
    (fun r => SS0 (vals r) (out r)) S' /\
  (forall r, (r < n)%nat -> s_out (S' r) = out' r /\ shaped cnt (length (source_ranks st k r)) (out' r)) /\
  (forall a r i j d y c, (a < n)%nat -> (r < n)%nat -> 0 <= c < cnt ->
     livesb (q_d s) (fst k) a = true -> livesb (q_d s) (snd k) r = true ->
     vread (q_m s a k) i = Some d -> rcontains (t_local t (fst k) a) (d_lower d) = true -> vread (q_n s r k) j = Some y -> r_point y = d_point d ->
     vals_at (out' r) c j = vals_at (vals a) c i).
Proof.
  intros Hc HS RD RY H31 Hsh. destruct stored_agreed as [A B].
  destruct (@points_ok V cnt junk n R ssort rsort (dest_ranks st k) (source_ranks st k) (dest_points st k) (source_points st k) vals out Hc) as (S' & out' & C1 & C2 & C3 & _).
  - intros r q Hr. apply (B r Hr).
  - intros r q Hr Iq. apply (B r Hr) in Iq. lia.
  - exact A.
  - intros r Hr. destruct (HS r Hr). destruct (B r Hr) as (_ & _ & L1 & L2 & D1 & D2). split; [assumption|]. split; [exact L1|]. split; [|split; [exact D1|split; [apply H31, Hr|apply Hsh, Hr]]].
    intros p Hp. destruct (stored_points r Hr) as (P1 & P2 & _). destruct (livesb (q_d s) (fst k) r); [rewrite (P1 eq_refl) in Hp|rewrite (P2 eq_refl) in Hp; destruct Hp].
    apply in_map_iff in Hp as (d & <- & Id). apply (RD r d Hr Id).
  - intros r Hr. destruct (HS r Hr). destruct (B r Hr) as (_ & _ & L1 & L2 & D1 & D2). split; [assumption|]. split; [exact L2|]. split; [|split; [exact D2|split; [apply H31, Hr|apply Hsh, Hr]]].
    intros p Hp. destruct (stored_points r Hr) as (_ & _ & P1 & P2). destruct (livesb (q_d s) (snd k) r); [rewrite (P1 eq_refl) in Hp|rewrite (P2 eq_refl) in Hp; destruct Hp].
    apply in_map_iff in Hp as (d & <- & Id). apply (RY r d Hr Id).
  - exists S', out'. split; [exact C1|]. split; [exact C2|]. intros a r i j d y c Ha Hr Hcc La Lr Hi Ld Hj Ep.
    destruct (stored_dest a r i j d y Ha Hr La Lr Hi Ld Hj Ep) as [Q1 Q2]. apply (C3 a r i j (d_point d) c Ha Hr Hcc Q1); [|exact Q2|].
    + destruct (stored_points a Ha) as (P1 & _). rewrite (P1 La), vread_fmap, Hi. reflexivity.
    + destruct (stored_points r Hr) as (_ & _ & P1 & _). rewrite (P1 Lr), vread_fmap, Hj. cbn. congruence.
Qed.
End Exchange.
