(** Finding the ranks of an exchange: the results in terms of donors and receivers. *)
From Coq Require Import List ZArith Bool Lia.
From Verif Require Import TupleModel RangeModel RangeProof Base IndexerModel ArrayModel ArrayProof ContModel HashModel HashProof.
From Verif Require Import ProtoModel ProtoSpec NetModel NetSpec NetProof SendModel SendSpec SendProof XchModel XchSpec XchProof XchLaws.
Import ListNotations.
Local Open Scope Z_scope.

(** ** The numbers of the points *)

Definition sum_points (grids : list (Z * range)) : Z := fold_right (fun g t => rcount (snd g) + t) 0 grids.
Lemma total_sum grids : total_points grids = sum_points grids.
Proof.
  unfold total_points. assert (G : forall t, fold_left (fun t g => t + rcount (snd g)) grids t = t + sum_points grids).
  { induction grids as [|x l IH]; intros t; cbn [fold_left sum_points fold_right]; [lia|]. rewrite IH. unfold sum_points. lia. }
  apply G.
Qed.
Lemma rcount_pos e : 0 <= rcount e.
Proof. unfold rcount, rsize1. nia. Qed.

Lemma before_grid_in grids g R : NoDup (map fst grids) -> In (g, R) grids -> forall part, exists b,
  before_grid grids part g = Some (b, R) /\ part <= b /\ b + rcount R <= part + sum_points grids.
Proof.
  induction grids as [|[id r] l IH]; intros N I part; [contradiction|]. cbn [before_grid sum_points fold_right snd map fst] in *.
  fold (sum_points l). pose proof (rcount_pos r).
  assert (SP : 0 <= sum_points l). { clear. induction l as [|x l IH]; cbn; [lia|]. fold (sum_points l). pose proof (rcount_pos (snd x)). lia. }
  inversion N as [|? ? Ni Nl]; subst. destruct I as [E|I].
  - injection E as -> ->. rewrite Z.eqb_refl. exists part. split; [reflexivity|]. lia.
  - destruct (Z.eqb_spec g id) as [->|_]; [exfalso; apply Ni; change id with (fst (id, R)); apply in_map, I|].
    destruct (IH Nl I (part + rcount r)) as (b & E & B1 & B2). exists b. split; [exact E|]. lia.
Qed.
Lemma before_grid_apart grids g R g' R' part b b' : NoDup (map fst grids) -> In (g, R) grids -> In (g', R') grids ->
  before_grid grids part g = Some (b, R) -> before_grid grids part g' = Some (b', R') -> g = g' \/ b + rcount R <= b' \/ b' + rcount R' <= b.
Proof.
  revert part. induction grids as [|[id r] l IH]; intros part N I I' E E'; [contradiction|]. cbn [before_grid map fst] in *. inversion N as [|? ? Ni Nl]; subst.
  pose proof (before_grid_in l) as BI.
  destruct (Z.eqb_spec g id) as [->|Ng], (Z.eqb_spec g' id) as [->|Ng'].
  - left. reflexivity.
  - injection E as <- <-. destruct I' as [X|I']; [congruence|]. destruct (BI _ _ Nl I' (part + rcount r)) as (b2 & E2 & B1 & _). rewrite E' in E2. injection E2 as <-. right. left. exact B1.
  - injection E' as <- <-. destruct I as [X|I]; [congruence|]. destruct (BI _ _ Nl I (part + rcount r)) as (b2 & E2 & B1 & _). rewrite E in E2. injection E2 as <-. right. right. exact B1.
  - destruct I as [X|I]; [congruence|]. destruct I' as [X|I']; [congruence|]. eapply IH; eauto.
Qed.

Definition known (grids : list (Z * range)) (g : Z) (p : tup Z) : Prop := exists R, In (g, R) grids /\ pt_in R p.

Lemma linear_in grids g p : NoDup (map fst grids) -> known grids g p ->
  exists k, linear_point grids g p = Some k /\ 0 <= k < total_points grids.
Proof.
  intros N (R & I & Hp). destruct (before_grid_in grids g R N I 0) as (b & E & B1 & B2). unfold linear_point. rewrite E. cbn [fst snd].
  eexists. split; [reflexivity|]. pose proof (rindex_bounds ColMajor R p Hp). rewrite total_sum. lia.
Qed.
Lemma linear_inj grids g p g' p' k : NoDup (map fst grids) -> known grids g p -> known grids g' p' ->
  linear_point grids g p = Some k -> linear_point grids g' p' = Some k -> g = g' /\ p = p'.
Proof.
  intros N (R & I & Hp) (R' & I' & Hp') E E'. unfold linear_point in *.
  destruct (before_grid_in grids g R N I 0) as (b & B & _). destruct (before_grid_in grids g' R' N I' 0) as (b' & B' & _).
  rewrite B in E. rewrite B' in E'. cbn [fst snd] in *. injection E as E. injection E' as E'.
  pose proof (rindex_bounds ColMajor R p Hp). pose proof (rindex_bounds ColMajor R' p' Hp').
  destruct (before_grid_apart grids g R g' R' 0 b b' N I I' B B') as [->|X]; [|lia]. split; [reflexivity|].
  rewrite B in B'. injection B' as <- <-. apply (rindex_inj ColMajor R); auto. lia.
Qed.

(** ** Slots *)

Lemma m_slots_In ms sl : In sl (concat (map m_slots ms)) <-> exists mc d, In mc ms /\ In d (mc_donors mc) /\ sl = m_slot mc d.
Proof.
  rewrite in_concat. split.
  - intros (l & Il & Isl). apply in_map_iff in Il as (mc & <- & Imc). apply in_map_iff in Isl as (d & <- & Id). eauto.
  - intros (mc & d & Imc & Id & ->). exists (m_slots mc). split; apply in_map; auto.
Qed.
Lemma n_slots_In ns sl : In sl (concat (map n_slots ns)) <-> exists nc x, In nc ns /\ In x (nc_receivers nc) /\ sl = n_slot nc x.
Proof.
  rewrite in_concat. split.
  - intros (l & Il & Isl). apply in_map_iff in Il as (mc & <- & Imc). apply in_map_iff in Isl as (d & <- & Id). eauto.
  - intros (mc & d & Imc & Id & ->). exists (n_slots mc). split; apply in_map; auto.
Qed.

Lemma m_want mc d : sl_want (m_slot mc d) = true <-> pt_in (mc_local mc) (d_lower d) /\ d_rank d < 0.
Proof.
  unfold m_slot. cbn [sl_want]. rewrite andb_true_iff, rcontains_spec, Z.ltb_lt. split; intros [H1 H2]; (split; [exact H1|]);
    apply rcontains_spec in H1; rewrite H1 in *; exact H2.
Qed.
Lemma n_want nc x : sl_want (n_slot nc x) = true <-> r_rank x < 0.
Proof. apply Z.ltb_lt. Qed.

Lemma donates_slot ms g p : donates ms g p <-> exists sl, In sl (concat (map m_slots ms)) /\ sl_want sl = true /\ sl_grid sl = g /\ sl_pt sl = p.
Proof.
  split.
  - intros (mc & d & I1 & I2 & L & Rk & <- & <-). exists (m_slot mc d). split; [apply m_slots_In; eauto|]. split; [apply m_want; auto|auto].
  - intros (sl & I & W & <- & <-). apply m_slots_In in I as (mc & d & I1 & I2 & ->). apply m_want in W as [L Rk]. exists mc, d. cbn. auto 10.
Qed.
Lemma receives_slot ns g p : receives ns g p <-> exists sl, In sl (concat (map n_slots ns)) /\ sl_want sl = true /\ sl_grid sl = g /\ sl_pt sl = p.
Proof.
  split.
  - intros (mc & d & I1 & I2 & Rk & <- & <-). exists (n_slot mc d). split; [apply n_slots_In; eauto|]. split; [apply n_want; auto|auto].
  - intros (sl & I & W & <- & <-). apply n_slots_In in I as (mc & d & I1 & I2 & ->). apply n_want in W. exists mc, d. cbn. auto 10.
Qed.

Lemma last_rank_ext n P Q x : (forall q, (q < n)%nat -> (P q <-> Q q)) -> last_rank n P x -> last_rank n Q x.
Proof.
  intros H [[-> N]|(q & -> & Hq & Pq & M)].
  - left. split; [reflexivity|]. intros q Hq X. apply (N q Hq), H; auto.
  - right. exists q. split; [reflexivity|]. split; [exact Hq|]. split; [apply H; auto|]. intros q' Hq' X. apply M; auto. apply H; auto.
Qed.

Section Main.
Context (grids : list (Z * range)) (n : nat) (ms : nat -> list mconn) (ns : nat -> list nconn).
Hypothesis Hn : (0 < n)%nat.
Hypothesis Ht : 0 < total_points grids.
Hypothesis HK : known_points grids n ms ns.

Let SM r := map m_slots (ms r).
Let SN r := map n_slots (ns r).

Lemma HM : in_total grids n SM.
Proof.
  intros r sl Hr I W. apply linear_in; [apply HK|]. destruct (proj2 HK r (sl_grid sl) (sl_pt sl) Hr) as (R & H); [|exists R; exact H].
  left. apply donates_slot. exists sl. auto.
Qed.
Lemma HN : in_total grids n SN.
Proof.
  intros r sl Hr I W. apply linear_in; [apply HK|]. destruct (proj2 HK r (sl_grid sl) (sl_pt sl) Hr) as (R & H); [|exists R; exact H].
  right. apply receives_slot. exists sl. auto.
Qed.

Lemma found_slots (S : nat -> list (list slot)) (P : nat -> Z -> tup Z -> Prop) g p :
  in_total grids n S ->
  (forall r g p, (r < n)%nat -> (P r g p <-> exists sl, In sl (concat (S r)) /\ sl_want sl = true /\ sl_grid sl = g /\ sl_pt sl = p)) ->
  (forall r g p, (r < n)%nat -> P r g p -> known grids g p) -> known grids g p ->
  last_rank n (fun q => P q g p) (found n (K grids S) (match linear_point grids g p with Some k => k | None => 0 end)).
Proof.
  intros HS HP HKn Kp. destruct (linear_in grids g p (proj1 HK) Kp) as (k & E & B). rewrite E.
  eapply last_rank_ext; [|apply found_last]. intros q Hq. cbn beta. rewrite (HP q g p Hq). unfold K, keys. rewrite in_map_iff. split.
  - intros (sl & Ek & I). apply filter_In in I as [I W]. exists sl. split; [exact I|]. split; [exact W|].
    assert (Ks : known grids (sl_grid sl) (sl_pt sl)) by (apply (HKn q _ _ Hq), HP; eauto).
    destruct (linear_in grids _ _ (proj1 HK) Ks) as (k' & E' & _). unfold key in Ek. rewrite E' in Ek. subst k'.
    destruct (linear_inj grids _ _ _ _ k (proj1 HK) Ks Kp E' E); auto.
  - intros (sl & I & W & <- & <-). exists sl. unfold key. rewrite E. split; [reflexivity|]. apply filter_In. auto.
Qed.

Theorem find_ranks_prog : exists S', prog_ok n (find_ranks grids n) (fun r => XS0 (ms r) (ns r)) S' /\
  forall r, (r < n)%nat ->
    ranks_found mc_donors (donor_rank n ns) (ms r) (sd_out (xm (S' r))) /\
    ranks_found nc_receivers (receiver_rank n ms) (ns r) (sd_out (xn (S' r))).
Proof.
  eexists. split; [apply (find_ranks_ok grids n Hn Ht SM SN HM HN)|]. intros r Hr. cbn [xm xn sd_out s8].
  assert (KN : forall q g p, (q < n)%nat -> receives (ns q) g p -> known grids g p) by (intros q g p Hq H; apply (proj2 HK q g p Hq); right; exact H).
  assert (KM : forall q g p, (q < n)%nat -> donates (ms q) g p -> known grids g p) by (intros q g p Hq H; apply (proj2 HK q g p Hq); left; exact H).
  split.
  - unfold ranks_found, SM. rewrite map_map.
    assert (G : forall l, incl l (ms r) -> Forall2 (fun c l0 => Forall2 (donor_rank n ns c) (mc_donors c) l0) l
      (map (fun x => map (outcome grids (found n (K grids SN))) (m_slots x)) l)); [|apply G, incl_refl].
    induction l as [|mc l IH]; intros Il; constructor; [|apply IH; intros x Hx; apply Il; right; exact Hx].
    assert (Im : In mc (ms r)) by (apply Il; left; reflexivity). unfold m_slots. rewrite map_map.
    assert (G : forall ds, incl ds (mc_donors mc) -> Forall2 (donor_rank n ns mc) ds (map (fun x => outcome grids (found n (K grids SN)) (m_slot mc x)) ds)); [|apply G, incl_refl].
    induction ds as [|d ds IHd]; intros Id; constructor; [|apply IHd; intros x Hx; apply Id; right; exact Hx].
    assert (Hd : In d (mc_donors mc)) by (apply Id; left; reflexivity). unfold outcome.
    destruct (sl_want (m_slot mc d)) eqn:W.
    + apply m_want in W as [L Rk]. split; [tauto|]. split; [lia|]. intros _ _. cbn [m_slot sl_grid sl_pt]. unfold key. cbn [m_slot sl_grid sl_pt].
      apply (found_slots SN (fun q => receives (ns q))); [apply HN| |apply KN|].
      * intros q g p _. apply receives_slot.
      * apply (KM r _ _ Hr). exists mc, d. auto 10.
    + unfold m_slot. cbn [sl_rank]. split; [|split].
      * intros N. destruct (rcontains (mc_local mc) (d_lower d)) eqn:C; [|reflexivity]. exfalso. apply N, rcontains_spec, C.
      * intros L _. apply rcontains_spec in L. rewrite L. reflexivity.
      * intros L Rk. assert (sl_want (m_slot mc d) = true) by (apply m_want; auto). congruence.
  - unfold ranks_found, SN. rewrite map_map.
    assert (G : forall l, incl l (ns r) -> Forall2 (fun c l0 => Forall2 (receiver_rank n ms c) (nc_receivers c) l0) l
      (map (fun x => map (outcome grids (found n (K grids SM))) (n_slots x)) l)); [|apply G, incl_refl].
    induction l as [|nc l IH]; intros Il; constructor; [|apply IH; intros x Hx; apply Il; right; exact Hx].
    assert (Im : In nc (ns r)) by (apply Il; left; reflexivity). unfold n_slots. rewrite map_map.
    assert (G : forall ds, incl ds (nc_receivers nc) -> Forall2 (receiver_rank n ms nc) ds (map (fun x => outcome grids (found n (K grids SM)) (n_slot nc x)) ds)); [|apply G, incl_refl].
    induction ds as [|d ds IHd]; intros Id; constructor; [|apply IHd; intros x Hx; apply Id; right; exact Hx].
    assert (Hd : In d (nc_receivers nc)) by (apply Id; left; reflexivity). unfold outcome.
    destruct (sl_want (n_slot nc d)) eqn:W.
    + apply n_want in W as Rk. split; [lia|]. intros _. unfold key. cbn [n_slot sl_grid sl_pt].
      apply (found_slots SM (fun q => donates (ms q))); [apply HM| |apply KM|].
      * intros q g p _. apply donates_slot.
      * apply (KN r _ _ Hr). exists nc, d. auto 10.
    + cbn [n_slot sl_rank]. split; [reflexivity|]. intros Rk. assert (sl_want (n_slot nc d) = true) by (apply n_want; auto). congruence.
Qed.

Theorem find_ranks_finds : exists S', computes n (find_ranks grids n) (fun r => XS0 (ms r) (ns r)) S' /\
  forall r, (r < n)%nat ->
    ranks_found mc_donors (donor_rank n ns) (ms r) (sd_out (xm (S' r))) /\
    ranks_found nc_receivers (receiver_rank n ms) (ns r) (sd_out (xn (S' r))).
Proof.
  destruct find_ranks_prog as (S' & A & B). exists S'. split; [apply prog_computes, A|exact B].
Qed.
End Main.

(** ** Connectivities that fit together *)

Lemma of_id_inv {A B} (ident : A -> Z * Z) id conns (l : list (list B)) i v : vread (of_id ident id conns l) i = Some v ->
  exists a c x, nth_error conns a = Some c /\ nth_error l a = Some x /\ ident c = id /\ of_id ident id conns l = x.
Proof.
  unfold of_id. revert l. induction conns as [|c conns IH]; intros [|x l]; cbn [combine find fst snd]; try (intros H; apply vread_In in H; contradiction).
  destruct ((fst (ident c) =? fst id) && (snd (ident c) =? snd id)) eqn:E.
  - intros _. exists 0%nat, c, x. split; [reflexivity|]. split; [reflexivity|]. split; [|reflexivity].
    apply andb_prop in E as [E1 E2]. apply Z.eqb_eq in E1, E2. destruct (ident c), id. cbn in *. congruence.
  - intros H. destruct (IH l H) as (a & c' & x' & H1 & H2 & H3 & H4). exists (S a), c', x'. auto.
Qed.
Lemma of_id_at {A B} (ident : A -> Z * Z) conns (l : list (list B)) a c x : NoDup (map ident conns) ->
  nth_error conns a = Some c -> nth_error l a = Some x -> of_id ident (ident c) conns l = x.
Proof.
  intros N. unfold of_id. revert l a. induction conns as [|c' conns IH]; intros [|x' l] [|a]; cbn [nth_error combine find fst snd]; try discriminate; inversion N as [|? ? Ni Nl]; subst.
  - intros [= ->] [= ->]. rewrite !Z.eqb_refl. reflexivity.
  - intros Hc Hx. destruct ((fst (ident c') =? fst (ident c)) && (snd (ident c') =? snd (ident c))) eqn:E; [|apply (IH Nl l a Hc Hx)].
    exfalso. apply Ni. apply andb_prop in E as [E1 E2]. apply Z.eqb_eq in E1, E2. replace (ident c') with (ident c) by (destruct (ident c), (ident c'); cbn in *; congruence).
    apply in_map. apply nth_error_In in Hc. exact Hc.
Qed.
Lemma Forall2_nth {A B} (P : A -> B -> Prop) l1 l2 a x : Forall2 P l1 l2 -> nth_error l1 a = Some x -> exists y, nth_error l2 a = Some y /\ P x y.
Proof.
  intros F. revert a. induction F as [|u v l1 l2 H F IH]; intros [|a] E; try discriminate E; cbn [nth_error] in *.
  - injection E as <-. eauto.
  - apply IH, E.
Qed.
Lemma Forall2_len {A B} (P : A -> B -> Prop) l1 l2 : Forall2 P l1 l2 -> length l1 = length l2.
Proof. induction 1; cbn; congruence. Qed.

Section Fit.
Context (n : nat) (ms : nat -> list mconn) (ns : nat -> list nconn) (om on : nat -> list (list Z)).
Hypothesis HF : fitting n ms ns.
Hypothesis HO : forall r, (r < n)%nat -> ranks_found mc_donors (donor_rank n ns) (ms r) (om r) /\ ranks_found nc_receivers (receiver_rank n ms) (ns r) (on r).
Context (id : Z * Z).

Let dst r := of_id m_id id (ms r) (om r).
Let src r := of_id n_id id (ns r) (on r).
Let spts r := m_points id (ms r).
Let rpts r := n_points id (ns r).

Lemma local_In mc d : In d (local_donors mc) <-> In d (mc_donors mc) /\ pt_in (mc_local mc) (d_lower d).
Proof. unfold local_donors. rewrite filter_In, rcontains_spec. reflexivity. Qed.

(** A position of the connectivity on the M side. *)
Lemma m_at s i : (s < n)%nat -> forall x p, vread (dst s) i = Some x -> vread (spts s) i = Some p ->
  exists mc d, In mc (ms s) /\ m_id mc = id /\ vread (mc_donors mc) i = Some d /\ d_point d = p /\ donor_rank n ns mc d x.
Proof.
  intros Hs x p Hx Hp. destruct (of_id_inv _ _ _ _ _ _ Hx) as (a & mc & l & E1 & E2 & E3 & E4).
  destruct (HO s Hs) as [F _]. destruct (Forall2_nth _ _ _ _ _ F E1) as (l' & E2' & F'). rewrite E2 in E2'. injection E2' as <-.
  unfold spts, m_points in Hp. rewrite <- E3 in Hp.
  rewrite (of_id_at m_id (ms s) _ a mc (map d_point (mc_donors mc)) (fit_m_id _ _ _ HF s Hs) E1) in Hp by (apply (map_nth_error (fun mc => map d_point (mc_donors mc))), E1).
  rewrite vread_fmap in Hp. destruct (vread (mc_donors mc) i) as [d|] eqn:Ed; [|discriminate]. injection Hp as Hp.
  exists mc, d. split; [apply nth_error_In in E1; exact E1|]. split; [exact E3|]. split; [exact Ed|]. split; [exact Hp|].
  unfold dst in Hx. rewrite E4 in Hx. unfold vread in Ed, Hx. destruct (i <? 0); [discriminate|]. destruct (Forall2_nth _ _ _ _ _ F' Ed) as (y & Ey & Dy). congruence.
Qed.
Lemma n_at r i : (r < n)%nat -> forall x p, vread (src r) i = Some x -> vread (rpts r) i = Some p ->
  exists nc d, In nc (ns r) /\ n_id nc = id /\ vread (nc_receivers nc) i = Some d /\ r_point d = p /\ receiver_rank n ms nc d x.
Proof.
  intros Hs x p Hx Hp. destruct (of_id_inv _ _ _ _ _ _ Hx) as (a & mc & l & E1 & E2 & E3 & E4).
  destruct (HO r Hs) as [_ F]. destruct (Forall2_nth _ _ _ _ _ F E1) as (l' & E2' & F'). rewrite E2 in E2'. injection E2' as <-.
  unfold rpts, n_points in Hp. rewrite <- E3 in Hp.
  rewrite (of_id_at n_id (ns r) _ a mc (map r_point (nc_receivers mc)) (fit_n_id _ _ _ HF r Hs) E1) in Hp by (apply (map_nth_error (fun mc => map r_point (nc_receivers mc))), E1).
  rewrite vread_fmap in Hp. destruct (vread (nc_receivers mc) i) as [d|] eqn:Ed; [|discriminate]. injection Hp as Hp.
  exists mc, d. split; [apply nth_error_In in E1; exact E1|]. split; [exact E3|]. split; [exact Ed|]. split; [exact Hp|].
  unfold src in Hx. rewrite E4 in Hx. unfold vread in Ed, Hx. destruct (i <? 0); [discriminate|]. destruct (Forall2_nth _ _ _ _ _ F' Ed) as (y & Ey & Dy). congruence.
Qed.

(** And the positions there are. *)
Lemma m_has s mc i d : (s < n)%nat -> In mc (ms s) -> m_id mc = id -> vread (mc_donors mc) i = Some d ->
  exists x, vread (dst s) i = Some x /\ vread (spts s) i = Some (d_point d) /\ donor_rank n ns mc d x.
Proof.
  intros Hs I E Hd. apply In_nth_error in I as (a & Ea). destruct (HO s Hs) as [F _]. destruct (Forall2_nth _ _ _ _ _ F Ea) as (l & El & F').
  unfold vread in Hd. destruct (Z.ltb_spec i 0); [discriminate|]. destruct (Forall2_nth _ _ _ _ _ F' Hd) as (x & Ex & Dx). exists x.
  unfold dst, spts, m_points. rewrite <- E. rewrite (of_id_at m_id (ms s) _ a mc l (fit_m_id _ _ _ HF s Hs) Ea El).
  rewrite (of_id_at m_id (ms s) _ a mc (map d_point (mc_donors mc)) (fit_m_id _ _ _ HF s Hs) Ea) by (apply (map_nth_error (fun mc => map d_point (mc_donors mc))), Ea).
  unfold vread. destruct (Z.ltb_spec i 0); [lia|]. split; [exact Ex|]. split; [apply map_nth_error, Hd|exact Dx].
Qed.
Lemma n_has r nc i d : (r < n)%nat -> In nc (ns r) -> n_id nc = id -> vread (nc_receivers nc) i = Some d ->
  exists x, vread (src r) i = Some x /\ vread (rpts r) i = Some (r_point d) /\ receiver_rank n ms nc d x.
Proof.
  intros Hs I E Hd. apply In_nth_error in I as (a & Ea). destruct (HO r Hs) as [_ F]. destruct (Forall2_nth _ _ _ _ _ F Ea) as (l & El & F').
  unfold vread in Hd. destruct (Z.ltb_spec i 0); [discriminate|]. destruct (Forall2_nth _ _ _ _ _ F' Hd) as (x & Ex & Dx). exists x.
  unfold src, rpts, n_points. rewrite <- E. rewrite (of_id_at n_id (ns r) _ a nc l (fit_n_id _ _ _ HF r Hs) Ea El).
  rewrite (of_id_at n_id (ns r) _ a nc (map r_point (nc_receivers nc)) (fit_n_id _ _ _ HF r Hs) Ea) by (apply (map_nth_error (fun mc => map r_point (nc_receivers mc))), Ea).
  unfold vread. destruct (Z.ltb_spec i 0); [lia|]. split; [exact Ex|]. split; [apply map_nth_error, Hd|exact Dx].
Qed.

Lemma at_index {A} (l : list A) x : In x l -> exists i, vread l i = Some x.
Proof. intros H. apply In_nth_error in H as (a & Ha). exists (Z.of_nat a). rewrite vread_nth. exact Ha. Qed.

(** The donor and the receiver of a point know each other. *)
Lemma donor_finds s mc d x : (s < n)%nat -> In mc (ms s) -> m_id mc = id -> In d (local_donors mc) -> donor_rank n ns mc d x ->
  exists r nc, x = Z.of_nat r /\ (r < n)%nat /\ In nc (ns r) /\ n_id nc = id /\ In (d_point d) (map r_point (nc_receivers nc)).
Proof.
  intros Hs I E Id (_ & _ & D). apply local_In in Id as Id'. destruct Id' as [Id1 L]. specialize (D L (fit_m_given _ _ _ HF s mc d Hs I Id1)).
  assert (X : exists r nc, (r < n)%nat /\ In nc (ns r) /\ n_id nc = id /\ In (d_point d) (map r_point (nc_receivers nc))).
  { apply (fit_match _ _ _ HF). exists s, mc. split; [exact Hs|]. split; [exact I|]. split; [exact E|]. apply in_map, Id. }
  destruct X as (r0 & nc0 & Hr0 & I0 & E0 & P0).
  assert (Q0 : receives (ns r0) (mc_grid mc) (d_point d)).
  { apply in_map_iff in P0 as (y & Ey & Iy). exists nc0, y. split; [exact I0|]. split; [exact Iy|]. split; [apply (fit_n_given _ _ _ HF r0 nc0 y Hr0 I0 Iy)|].
    split; [|exact Ey]. unfold m_id, n_id in *. congruence. }
  destruct D as [[_ N]|(q & -> & Hq & Pq & _)]; [exfalso; apply (N r0 Hr0 Q0)|].
  destruct Pq as (nc & y & In1 & Iy & _ & Eg & Ey). assert (Py : In (d_point d) (map r_point (nc_receivers nc))) by (rewrite <- Ey; apply in_map, Iy).
  destruct (fit_n_once _ _ _ HF q r0 nc nc0 (d_point d) Hq Hr0 In1 I0) as [-> Ei]; auto; [unfold m_id, n_id in *; congruence|].
  exists r0, nc. split; [reflexivity|]. split; [exact Hr0|]. split; [exact In1|]. split; [congruence|exact Py].
Qed.
Lemma receiver_finds r nc y x : (r < n)%nat -> In nc (ns r) -> n_id nc = id -> In y (nc_receivers nc) -> receiver_rank n ms nc y x ->
  exists s mc, x = Z.of_nat s /\ (s < n)%nat /\ In mc (ms s) /\ m_id mc = id /\ In (r_point y) (map d_point (local_donors mc)).
Proof.
  intros Hr I E Iy (_ & D). specialize (D (fit_n_given _ _ _ HF r nc y Hr I Iy)).
  assert (X : exists s mc, (s < n)%nat /\ In mc (ms s) /\ m_id mc = id /\ In (r_point y) (map d_point (local_donors mc))).
  { apply (fit_match _ _ _ HF). exists r, nc. split; [exact Hr|]. split; [exact I|]. split; [exact E|]. apply in_map, Iy. }
  destruct X as (s0 & mc0 & Hs0 & I0 & E0 & P0).
  assert (Q0 : donates (ms s0) (nc_grid nc) (r_point y)).
  { apply in_map_iff in P0 as (d & Ed & Id). apply local_In in Id as [Id L]. exists mc0, d. split; [exact I0|]. split; [exact Id|]. split; [exact L|].
    split; [apply (fit_m_given _ _ _ HF s0 mc0 d Hs0 I0 Id)|]. split; [|exact Ed]. unfold m_id, n_id in *. congruence. }
  destruct D as [[_ N]|(q & -> & Hq & Pq & _)]; [exfalso; apply (N s0 Hs0 Q0)|].
  destruct Pq as (mc & d & Im & Id & L & _ & Eg & Ed). assert (Pd : In (r_point y) (map d_point (local_donors mc))) by (rewrite <- Ed; apply in_map, local_In; auto).
  destruct (fit_m_once _ _ _ HF q s0 mc mc0 (r_point y) Hq Hs0 Im I0) as [-> Ei]; auto; [unfold m_id, n_id in *; congruence|].
  exists s0, mc. split; [reflexivity|]. split; [exact Hs0|]. split; [exact Im|]. split; [congruence|exact Pd].
Qed.

Lemma donor_here mc d x : donor_rank n ns mc d x -> 0 <= x -> In d (mc_donors mc) -> In d (local_donors mc).
Proof.
  intros (N & _) Hx I. apply local_In. split; [exact I|]. destruct (rcontains (mc_local mc) (d_lower d)) eqn:C; [apply rcontains_spec, C|].
  exfalso. assert (x = -1); [|lia]. apply N. intros X. apply rcontains_spec in X. congruence.
Qed.

Theorem fitting_agreed : agreed n dst src spts rpts.
Proof.
  intros s r p Hs Hr. split; intros (i & Hx & Hp).
  - destruct (m_at s i Hs _ _ Hx Hp) as (mc & d & I & E & Hd & Ed & D). assert (Ld : In d (local_donors mc)).
    { eapply donor_here; eauto; [lia|]. apply vread_In in Hd. exact Hd. }
    destruct (donor_finds s mc d _ Hs I E Ld D) as (r' & nc & Er & _ & In1 & En & Pn). apply Nat2Z.inj in Er. subst r'.
    apply in_map_iff in Pn as (y & Ey & Iy). destruct (at_index _ _ Iy) as (j & Hj). destruct (n_has r nc j y Hr In1 En Hj) as (x & Hx1 & Hp1 & Rx).
    exists j. destruct (receiver_finds r nc y x Hr In1 En Iy Rx) as (s' & mc' & -> & Hs' & Im' & Em' & Pm').
    destruct (fit_m_once _ _ _ HF s' s mc' mc (r_point y) Hs' Hs Im' I) as [-> _]; auto.
    + unfold m_id in *. congruence.
    + rewrite Ey. apply in_map, Ld.
    + split; [exact Hx1|]. rewrite Hp1. congruence.
  - destruct (n_at r i Hr _ _ Hx Hp) as (nc & y & I & E & Hy & Ey & D). apply vread_In in Hy as Iy.
    destruct (receiver_finds r nc y _ Hr I E Iy D) as (s' & mc & Es & _ & Im & Em & Pm). apply Nat2Z.inj in Es. subst s'.
    apply in_map_iff in Pm as (d & Ed & Ld). apply local_In in Ld as Id. destruct Id as [Id _]. destruct (at_index _ _ Id) as (j & Hj).
    destruct (m_has s mc j d Hs Im Em Hj) as (x & Hx1 & Hp1 & Dx). exists j.
    destruct (donor_finds s mc d x Hs Im Em Ld Dx) as (r' & nc' & -> & Hr' & In' & En' & Pn').
    destruct (fit_n_once _ _ _ HF r' r nc' nc (d_point d) Hr' Hr In' I) as [-> _]; auto.
    + unfold n_id in *. congruence.
    + rewrite Ed. apply in_map, Iy.
    + split; [exact Hx1|]. rewrite Hp1. congruence.
Qed.

Theorem fitting_found : forall r, (r < n)%nat ->
  (forall q, In q (dst r) -> q < Z.of_nat n) /\ (forall q, In q (src r) -> 0 <= q < Z.of_nat n) /\
  length (spts r) = length (dst r) /\ length (rpts r) = length (src r) /\ distinct (dst r) (spts r) /\ distinct (src r) (rpts r).
Proof.
  intros r Hr. destruct (HO r Hr) as [F1 F2].
  assert (LM : length (spts r) = length (dst r)).
  { unfold spts, dst, m_points, of_id. clear -F1. induction F1 as [|mc l ms' om' H F IH]; [reflexivity|]. cbn [map combine find fst snd].
    destruct (_ && _); [|exact IH]. cbn [snd]. rewrite map_length. apply (Forall2_len _ _ _ H). }
  assert (LN : length (rpts r) = length (src r)).
  { unfold rpts, src, n_points, of_id. clear -F2. induction F2 as [|mc l ms' om' H F IH]; [reflexivity|]. cbn [map combine find fst snd].
    destruct (_ && _); [|exact IH]. cbn [snd]. rewrite map_length. apply (Forall2_len _ _ _ H). }
  assert (PM : forall i x, vread (dst r) i = Some x -> exists p, vread (spts r) i = Some p) by (intros i x H; apply vread_lt in H; apply vread_ge; lia).
  assert (PN : forall i x, vread (src r) i = Some x -> exists p, vread (rpts r) i = Some p) by (intros i x H; apply vread_lt in H; apply vread_ge; lia).
  split; [|split; [|split; [exact LM|split; [exact LN|split]]]].
  - intros q Hq. destruct (at_index _ _ Hq) as (i & Hi). destruct (PM i q Hi) as (p & Hp). destruct (m_at r i Hr _ _ Hi Hp) as (mc & d & I & E & Hd & Ed & D).
    destruct (Z.lt_ge_cases q 0); [lia|]. assert (Ld : In d (local_donors mc)) by (eapply donor_here; eauto; apply vread_In in Hd; exact Hd).
    destruct (donor_finds r mc d q Hr I E Ld D) as (r' & nc & -> & Hr' & _). lia.
  - intros q Hq. destruct (at_index _ _ Hq) as (i & Hi). destruct (PN i q Hi) as (p & Hp). destruct (n_at r i Hr _ _ Hi Hp) as (nc & y & I & E & Hy & Ey & D).
    apply vread_In in Hy. destruct (receiver_finds r nc y q Hr I E Hy D) as (s & mc & -> & Hs & _). lia.
  - intros i j q p Hq Hi Hj Hpi Hpj. destruct (m_at r i Hr _ _ Hi Hpi) as (mc & d & I & E & Hd & Ed & D). destruct (m_at r j Hr _ _ Hj Hpj) as (mc' & d' & I' & E' & Hd' & Ed' & D').
    assert (mc' = mc).
    { apply In_nth_error in I as (a & Ha). apply In_nth_error in I' as (a' & Ha'). assert (a = a'); [|congruence].
      pose proof (fit_m_id _ _ _ HF r Hr) as N. rewrite NoDup_nth_error in N. apply N; [rewrite map_length; apply nth_error_Some; congruence|].
      rewrite (map_nth_error _ _ _ Ha), (map_nth_error _ _ _ Ha'). congruence. }
    subst mc'. pose proof (donor_here mc d q D Hq (vread_In _ _ _ Hd)) as L. pose proof (donor_here mc d' q D' Hq (vread_In _ _ _ Hd')) as L'.
    pose proof (fit_m_distinct _ _ _ HF r mc Hr I) as ND. unfold local_donors in *. unfold vread in Hd, Hd'. destruct (Z.ltb_spec i 0); [discriminate|]. destruct (Z.ltb_spec j 0); [discriminate|].
    assert (X : Z.to_nat i = Z.to_nat j); [|lia]. revert Hd Hd'. generalize (Z.to_nat i), (Z.to_nat j). clear -ND L L' Ed Ed'. subst p.
    apply filter_In in L as [_ L]. apply filter_In in L' as [_ L'].
    induction (mc_donors mc) as [|x l IH]; intros [|a] [|b]; cbn [nth_error]; intros Ha Hb; try discriminate; try reflexivity.
    + injection Ha as ->. cbn [filter] in ND. rewrite L in ND. cbn [map] in ND. inversion ND as [|? ? Nx _]; subst. exfalso. apply Nx. rewrite <- Ed'. apply in_map, filter_In.
      split; [apply nth_error_In in Hb; exact Hb|exact L'].
    + injection Hb as ->. cbn [filter] in ND. rewrite L' in ND. cbn [map] in ND. inversion ND as [|? ? Nx _]; subst. exfalso. apply Nx. rewrite Ed'. apply in_map, filter_In.
      split; [apply nth_error_In in Ha; exact Ha|exact L].
    + f_equal. apply IH; auto. cbn [filter] in ND. destruct (rcontains (mc_local mc) (d_lower x)); [cbn [map] in ND; inversion ND; assumption|exact ND].
  - intros i j q p Hq Hi Hj Hpi Hpj. destruct (n_at r i Hr _ _ Hi Hpi) as (mc & d & I & E & Hd & Ed & D). destruct (n_at r j Hr _ _ Hj Hpj) as (mc' & d' & I' & E' & Hd' & Ed' & D').
    assert (mc' = mc).
    { apply In_nth_error in I as (a & Ha). apply In_nth_error in I' as (a' & Ha'). assert (a = a'); [|congruence].
      pose proof (fit_n_id _ _ _ HF r Hr) as N. rewrite NoDup_nth_error in N. apply N; [rewrite map_length; apply nth_error_Some; congruence|].
      rewrite (map_nth_error _ _ _ Ha), (map_nth_error _ _ _ Ha'). congruence. }
    subst mc'. apply (vread_inj [] (map r_point (nc_receivers mc)) i j p (fit_n_distinct _ _ _ HF r mc Hr I)); rewrite vread_fmap; rewrite ?Hd, ?Hd'; cbn; congruence.
Qed.
End Fit.
