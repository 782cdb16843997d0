(** Filling a connectivity: the reverse exchange, the donors of a rank, the receivers, and all of it. *)
From Coq Require Import List ZArith QArith Bool Lia Permutation Sorting.Sorted.
From Verif Require Import TupleModel RangeModel Base RangeProof CartModel CartProof DecompModel DecompProof IndexerModel ArrayModel ArrayProof HashModel HashProof.
From Verif Require Import NetModel NetSpec NetProof NetPhase NetTools LiftModel LiftProof EmbedModel EmbedProof NeighSpec NeighProof FieldSpec FieldProof AsmRep.
From Verif Require Import SendModel SendSpec SendProof SendLaws CellModel CellProof CollectSpec OvlModel OvlSpec OvlProof OvlLaws ConModel ConSpec ConProof.
Import ListNotations.
Local Open Scope Z_scope.

Lemma order_default ranks : is_order ranks (default_order ranks).
Proof. apply Permutation_refl. Qed.

Lemma shaped_one {V} len (out : list (list V)) : shaped 1 len out -> exists row, out = [row] /\ length row = len.
Proof.
  intros [H1 H2]. destruct out as [|row [|x out]]; cbn [length] in H1; try lia. exists row. split; [reflexivity|]. apply H2. left. reflexivity.
Qed.

Lemma paired_sym n dst src : SendSpec.paired n dst src -> SendSpec.paired n src dst.
Proof. intros (A & B & C). split; [exact B|]. split; [exact A|]. intros s r Hs Hr. symmetry. apply C; auto. Qed.

(** ** Values from one side of an overlap to the other *)
Section Values.
Variables (c : cart) (n : nat) (mem : list nat) (L : nat -> range) (R : range) (D : nat -> list entry) (MG NG : nat -> list nat)
  (M : nat -> list mrow) (N : nat -> list nrow).
Hypothesis HI : overlap_input c n mem L R D MG NG.
Hypothesis HM : forall i r, nth_error mem i = Some r -> m_side c n (L i) R D (M r).
Hypothesis HO : forall r, (r < n)%nat -> ~ In r mem -> M r = [].
Hypothesis HN : forall q, (q < n)%nat -> n_side mem L (D q) (N q).
Hypothesis HA : forall q, (q < n)%nat -> StronglySorted (fun p p' => rindex ColMajor R p < rindex ColMajor R p') (map e_point (D q)).
Hypothesis HB : forall r, (r < n)%nat -> Z.of_nat (length (M r)) <= 2 ^ 31 /\ Z.of_nat (length (N r)) <= 2 ^ 31.

Theorem reverse_values {V} (junk init : V) (f : nat -> tup Z -> V) : exists S',
  prog_ok n (send_recv 1 junk (fun r => map nr_rank (N r)) (fun r => default_order (map nr_rank (N r)))
                              (fun r => map mr_rank (M r)) (fun r => default_order (map mr_rank (M r))))
    (fun r => SS0 [map (fun x => f r (nr_point x)) (N r)] [repeat init (length (M r))]) S' /\
  forall r, (r < n)%nat -> s_out (S' r) = [map (fun a => if mr_rank a <? 0 then init else f (Z.to_nat (mr_rank a)) (mr_dest a)) (M r)].
Proof.
  destruct (exchange_prog 1 junk n (fun r => map nr_rank (N r)) (fun r => default_order (map nr_rank (N r)))
    (fun r => map mr_rank (M r)) (fun r => default_order (map mr_rank (M r)))
    (fun r => [map (fun x => f r (nr_point x)) (N r)]) (fun r => [repeat init (length (M r))])) as (S' & out' & P & A & B & C & E).
  - lia.
  - apply paired_sym. exact (fit_paired c n mem L R D MG NG M N HI HM HO HN HA).
  - intros r Hr. split; [apply order_default|]. split; [rewrite map_length; apply HB, Hr|]. split; [reflexivity|]. intros row [<-|[]]. rewrite !map_length. reflexivity.
  - intros r Hr. split; [apply order_default|]. split; [rewrite map_length; apply HB, Hr|]. split; [reflexivity|]. intros row [<-|[]]. rewrite map_length, repeat_length. reflexivity.
  - exists S'. split; [exact P|]. intros r Hr. destruct (A r Hr) as (_ & -> & Sh). apply shaped_one in Sh as (row & Er & Lr). rewrite map_length in Lr. rewrite Er. f_equal.
    apply list_vread_ext; [rewrite map_length; exact Lr|]. intros j Hj. rewrite Lr in Hj. destruct (vread_ge (M r) j Hj) as (a & Ha).
    assert (X : vals_at (out' r) 0 j = vread row j) by (rewrite Er; reflexivity). rewrite <- X, vread_fmap, Ha. cbn [option_map].
    assert (Ra : vread (map mr_rank (M r)) j = Some (mr_rank a)) by (rewrite vread_fmap, Ha; reflexivity).
    destruct (Z.ltb_spec (mr_rank a) 0) as [Neg|Pos].
    + rewrite (E r j (mr_rank a) 0 Hr Ra Neg ltac:(lia)). unfold vals_at. change (vread [repeat init (length (M r))] 0) with (Some (repeat init (length (M r)))). cbv iota.
      destruct (vread_ge (repeat init (length (M r))) j) as (v & Hv); [rewrite repeat_length; exact Hj|]. rewrite Hv. f_equal. apply vread_In in Hv. apply repeat_spec in Hv. exact Hv.
    + destruct (C r j (mr_rank a) Hr Ra Pos) as (k & i & N1 & N2).
      assert (Hs : (Z.to_nat (mr_rank a) < n)%nat).
      { pose proof (m_row c n mem L R D MG NG M N HI HM HO HN r a Hr (vread_In _ _ _ Ha)). lia. }
      pose proof N1 as N1'. replace (mr_rank a) with (Z.of_nat (Z.to_nat (mr_rank a))) in N1' by lia.
      rewrite (B _ r i j k 0 Hs Hr ltac:(lia) N2 N1'). unfold vals_at. cbn [vread].
      destruct (numbered_default nr_rank _ _ _ _ N2) as (b & Hb & Rb & _).
      change (vread [map (fun x => f (Z.to_nat (mr_rank a)) (nr_point x)) (N (Z.to_nat (mr_rank a)))] 0) with (Some (map (fun x => f (Z.to_nat (mr_rank a)) (nr_point x)) (N (Z.to_nat (mr_rank a))))). cbv iota.
      rewrite vread_fmap, Hb. cbn [option_map]. f_equal. f_equal. symmetry.
      exact (fit_default c n mem L R D MG NG M N HI HM HO HN HA r (Z.to_nat (mr_rank a)) j i k a b Hr Hs N1' N2 Ha Hb).
Qed.

Theorem forward_values {V} (junk init : V) (f : nat -> tup Z -> V) : exists S',
  prog_ok n (send_recv 1 junk (fun r => map mr_rank (M r)) (fun r => default_order (map mr_rank (M r)))
                              (fun r => map nr_rank (N r)) (fun r => default_order (map nr_rank (N r))))
    (fun r => SS0 [map (fun x => f r (mr_dest x)) (M r)] [repeat init (length (N r))]) S' /\
  forall r, (r < n)%nat -> s_out (S' r) = [map (fun b => f (Z.to_nat (nr_rank b)) (nr_point b)) (N r)].
Proof.
  destruct (exchange_prog 1 junk n (fun r => map mr_rank (M r)) (fun r => default_order (map mr_rank (M r)))
    (fun r => map nr_rank (N r)) (fun r => default_order (map nr_rank (N r)))
    (fun r => [map (fun x => f r (mr_dest x)) (M r)]) (fun r => [repeat init (length (N r))])) as (S' & out' & P & A & B & C & E).
  - lia.
  - exact (fit_paired c n mem L R D MG NG M N HI HM HO HN HA).
  - intros r Hr. split; [apply order_default|]. split; [rewrite map_length; apply HB, Hr|]. split; [reflexivity|]. intros row [<-|[]]. rewrite !map_length. reflexivity.
  - intros r Hr. split; [apply order_default|]. split; [rewrite map_length; apply HB, Hr|]. split; [reflexivity|]. intros row [<-|[]]. rewrite map_length, repeat_length. reflexivity.
  - exists S'. split; [exact P|]. intros r Hr. destruct (A r Hr) as (_ & -> & Sh). apply shaped_one in Sh as (row & Er & Lr). rewrite map_length in Lr. rewrite Er. f_equal.
    apply list_vread_ext; [rewrite map_length; exact Lr|]. intros j Hj. rewrite Lr in Hj. destruct (vread_ge (N r) j Hj) as (b & Hb).
    assert (X : vals_at (out' r) 0 j = vread row j) by (rewrite Er; reflexivity). rewrite <- X, vread_fmap, Hb. cbn [option_map].
    assert (Rb : vread (map nr_rank (N r)) j = Some (nr_rank b)) by (rewrite vread_fmap, Hb; reflexivity).
    destruct (n_row' c n mem L R D MG NG M N HI HM HO HN r b Hr (vread_In _ _ _ Hb)) as [_ Pos].
    destruct (C r j (nr_rank b) Hr Rb ltac:(lia)) as (k & i & N1 & N2).
    assert (Hs : (Z.to_nat (nr_rank b) < n)%nat) by lia.
    pose proof N1 as N1'. replace (nr_rank b) with (Z.of_nat (Z.to_nat (nr_rank b))) in N1' by lia.
    rewrite (B _ r i j k 0 Hs Hr ltac:(lia) N2 N1'). unfold vals_at.
    destruct (numbered_default mr_rank _ _ _ _ N2) as (a & Ha & _ & _).
    change (vread [map (fun x => f (Z.to_nat (nr_rank b)) (mr_dest x)) (M (Z.to_nat (nr_rank b)))] 0) with (Some (map (fun x => f (Z.to_nat (nr_rank b)) (mr_dest x)) (M (Z.to_nat (nr_rank b))))). cbv iota.
    rewrite vread_fmap, Ha. cbn [option_map]. f_equal. f_equal.
    exact (fit_default c n mem L R D MG NG M N HI HM HO HN HA (Z.to_nat (nr_rank b)) r i j k a b Hs Hr N2 N1' Ha Hb).
Qed.
End Values.

(** ** The receivers *)
Lemma sorted_same {A} (P : A -> A -> Prop) : (forall a, ~ P a a) -> (forall a b c, P a b -> P b c -> P a c) ->
  forall l l', StronglySorted P l -> StronglySorted P l' -> (forall x, In x l <-> In x l') -> l = l'.
Proof.
  intros Irr Tr. induction l as [|a l IH]; intros [|b l'] S1 S2 H.
  - reflexivity.
  - destruct (proj2 (H b) ltac:(left; reflexivity)).
  - destruct (proj1 (H a) ltac:(left; reflexivity)).
  - inversion S1 as [|? ? A1 A2]; subst. inversion S2 as [|? ? B1 B2]; subst. rewrite Forall_forall in A2, B2.
    assert (a = b).
    { destruct (proj1 (H a) ltac:(left; reflexivity)) as [E|Ha]; [congruence|]. destruct (proj2 (H b) ltac:(left; reflexivity)) as [E|Hb]; [congruence|].
      exfalso. apply (Irr a). apply (Tr a b a); auto. }
    subst b. f_equal. apply IH; auto. intros x. split; intros Hx.
    + destruct (proj1 (H x) ltac:(right; exact Hx)) as [<-|]; [|assumption]. exfalso. apply (Irr a). auto.
    + destruct (proj2 (H x) ltac:(right; exact Hx)) as [<-|]; [|assumption]. exfalso. apply (Irr a). auto.
Qed.

Lemma foreach_sorted R : StronglySorted (fun p q => rindex ColMajor R p < rindex ColMajor R q) (foreach_col R).
Proof.
  pose proof (sorted_zseq (Z.to_nat (rcount R)) 0) as H. rewrite <- rindex_foreach in H. apply sorted_map in H. exact H.
Qed.

Lemma receiver_loop rows want : forall l rows1 rows2 acc, rows = rows1 ++ rows2 ->
  filter (fun p => existsb (fun x => teqb (nr_point x) p) rows) l = map nr_point rows2 ->
  ofoldl (receiver_step rows want) l (Z.of_nat (length rows1), acc) =
  Some (Z.of_nat (length rows), acc ++ map (fun x => (nr_point x, nr_source x)) (filter (fun x => want (nr_point x)) rows2)).
Proof.
  induction l as [|p l IH]; intros rows1 rows2 acc E H; cbn [filter ofoldl] in *.
  - destruct rows2; [|discriminate]. rewrite app_nil_r in E. subst. cbn. rewrite app_nil_r. reflexivity.
  - unfold receiver_step at 1. cbn [fst snd]. destruct (existsb (fun x => teqb (nr_point x) p) rows) eqn:Ex.
    + destruct rows2 as [|x rows2]; [discriminate|]. cbn [map] in H. injection H as -> H.
      assert (E' : rows = (rows1 ++ [x]) ++ rows2) by (rewrite <- app_assoc; exact E).
      assert (Ez : Z.of_nat (length rows1) + 1 = Z.of_nat (length (rows1 ++ [x]))) by (rewrite app_length; cbn [length]; lia).
      cbn [filter]. destruct (want (nr_point x)) eqn:W.
      * rewrite vread_nth, E, nth_error_app2, Nat.sub_diag by lia. cbn [nth_error]. rewrite Ez, <- E, (IH _ _ _ E' H), <- app_assoc. reflexivity.
      * rewrite Ez, (IH _ _ _ E' H). reflexivity.
    + apply IH; auto.
Qed.

Lemma filter_twice {A} (f g : A -> bool) l : filter f (filter g l) = filter (fun x => g x && f x) l.
Proof. induction l as [|a l IH]; [reflexivity|]. cbn [filter]. destruct (g a); cbn [andb filter]; [destruct (f a); rewrite IH; reflexivity|exact IH]. Qed.

Theorem receivers_all dp dc loc rows want :
  StronglySorted (fun p q => rindex ColMajor loc p < rindex ColMajor loc q) (map nr_point rows) -> (forall x, In x rows -> pt_in loc (nr_point x)) ->
  (forall p, pt_in loc p -> want p = true -> In p (map nr_point rows)) ->
  receivers dp dc loc rows want = Some (map (fun x => (nr_point x, nr_source x)) (filter (fun x => want (nr_point x)) rows)).
Proof.
  intros So In0 Wa.
  assert (Ef : filter (fun p => existsb (fun x => teqb (nr_point x) p) rows) (foreach_col loc) = map nr_point rows).
  { apply (sorted_same (fun p q => rindex ColMajor loc p < rindex ColMajor loc q)); [intros; lia|intros; lia|apply sorted_filter, foreach_sorted|exact So|].
    intros p. rewrite filter_In, foreach_col_In, existsb_exists, in_map_iff. split.
    - intros (_ & x & Hx & E). apply teqb_eq in E. eauto.
    - intros (x & <- & Hx). split; [apply In0, Hx|]. exists x. split; [exact Hx|apply teqb_eq; reflexivity]. }
  unfold receivers. rewrite (receiver_loop rows want (foreach_col loc) [] rows [] eq_refl Ef : ofoldl _ _ (0, []) = _). cbn [snd app].
  assert (Ec : receiver_count loc want = length (filter (fun x => want (nr_point x)) rows)).
  { unfold receiver_count. rewrite <- (map_length nr_point (filter _ rows)). f_equal. rewrite <- filter_map, <- Ef.
    rewrite filter_twice. apply filter_ext_in. intros p Hp. apply foreach_col_In in Hp. destruct (want p) eqn:W; [|rewrite andb_false_r; reflexivity].
    rewrite andb_true_r. symmetry. apply existsb_exists. destruct (proj1 (in_map_iff _ _ _) (Wa p Hp W)) as (x & E & Hx). exists x. split; [exact Hx|]. apply teqb_eq, E. }
  rewrite Ec, map_length, Nat.leb_refl, Nat.sub_diag. cbn [repeat]. rewrite app_nil_r. reflexivity.
Qed.

(** ** All of it *)
Section Fill.
Variables (c : cart) (n : nat) (mem : list nat) (L : nat -> range) (R : range) (D : nat -> list entry) (MG NG NB : nat -> list nat)
  (M : nat -> list mrow) (N : nat -> list nrow) (NL : nat -> range) (donor : nat -> tup Z -> Z) (rm : nat -> tup Z -> bool) (mg : Z).
Variables (sort : nat -> list Z -> list Z) (dp dc : tup Z).
Hypothesis HC : conn_input c n mem L R D MG NG NB M N NL donor rm mg.
Hypothesis SO : stored_once c.
Hypothesis Hsort : forall i, (i < length mem)%nat -> sorts (sort i).

Let HI : overlap_input c n mem L R D MG NG. Proof. exact (ci_overlap _ _ _ _ _ _ _ _ _ _ _ _ _ _ _ HC). Qed.
Let HM : forall i r, nth_error mem i = Some r -> m_side c n (L i) R D (M r). Proof. exact (ci_m _ _ _ _ _ _ _ _ _ _ _ _ _ _ _ HC). Qed.
Let HO : forall r, (r < n)%nat -> ~ In r mem -> M r = []. Proof. exact (ci_out _ _ _ _ _ _ _ _ _ _ _ _ _ _ _ HC). Qed.
Let HN : forall q, (q < n)%nat -> n_side mem L (D q) (N q). Proof. exact (ci_n _ _ _ _ _ _ _ _ _ _ _ _ _ _ _ HC). Qed.
Let E := chosen D donor mg.

Lemma points_sorted q : (q < n)%nat -> StronglySorted (fun p p' => rindex ColMajor R p < rindex ColMajor R p') (map e_point (D q)).
Proof.
  intros Hq. destruct (ci_local _ _ _ _ _ _ _ _ _ _ _ _ _ _ _ HC q Hq) as [Sub In0].
  eapply sorted_impl; [exact (ci_order _ _ _ _ _ _ _ _ _ _ _ _ _ _ _ HC q Hq)|]. intros a b Ha Hb H.
  apply in_map_iff in Ha as (ea & <- & Ha). apply in_map_iff in Hb as (eb & <- & Hb). apply (order_global (NL q)); auto.
Qed.

Definition donates (a : mrow) : bool := if mr_rank a <? 0 then false else donor (Z.to_nat (mr_rank a)) (mr_dest a) =? mg.
Definition local_donors (r : nat) : list drow := map (donor_row (c_nd c)) (filter donates (M r)).

Lemma donor_rows_ok r : donor_rows (c_nd c) (M r) (map donates (M r)) = Some (local_donors r).
Proof.
  unfold donor_rows, local_donors. rewrite map_length, Nat.eqb_refl. f_equal. induction (M r) as [|a l IH]; [reflexivity|].
  cbn [map combine fst snd filter]. destruct (donates a); cbn [keep map]; rewrite IH; reflexivity.
Qed.

Lemma chosen_In q e : In e (E q) <-> In e (D q) /\ donor q (e_point e) = mg.
Proof. unfold E, chosen. rewrite filter_In, Z.eqb_eq. reflexivity. Qed.

Lemma at_mem i : (i < length mem)%nat -> exists r, nth_error mem i = Some r /\ (r < n)%nat /\ In r mem.
Proof.
  intros Hi. destruct (nth_error mem i) as [r|] eqn:Er; [|apply nth_error_None in Er; lia]. exists r. split; [reflexivity|].
  pose proof (nth_error_In _ _ Er). split; [|assumption]. apply (proj2 (oi_mem _ _ _ _ _ _ _ _ HI)). assumption.
Qed.

Let LD (i : nat) : list drow := match nth_error mem i with Some r => local_donors r | None => [] end.

Lemma own_In i d : (i < length mem)%nat -> In d (LD i) <->
  exists q e, (q < n)%nat /\ In e (E q) /\ pt_in (L i) (e_cell e) /\ d = DRow (cell_box (c_nd c) (e_cell e)) (e_coords e) (e_point e) (Z.of_nat q).
Proof.
  intros Hi. destruct (at_mem i Hi) as (r & Er & Hr & Mr). unfold LD. rewrite Er. unfold local_donors. rewrite in_map_iff. destruct (HM i r Er) as (_ & M2 & M3). split.
  - intros (a & <- & Ha). apply filter_In in Ha as [Ha Da]. unfold donates in Da. destruct (Z.ltb_spec (mr_rank a) 0); [discriminate|].
    destruct (M2 a Ha) as (q & e & Hq & He & Ep & Ec & _ & _ & [(Hin & Ece & Rq)|(_ & X)]); [|lia]. exists q, e. split; [exact Hq|]. split.
    + apply chosen_In. split; [exact He|]. apply Z.eqb_eq in Da. rewrite Rq, Nat2Z.id, Ep in Da. exact Da.
    + split; [exact Hin|]. unfold donor_row. rewrite cell_extents_box, Ece, Ep, Ec, Rq. reflexivity.
  - intros (q & e & Hq & He & Hin & ->). apply chosen_In in He as [He Dq].
    destruct (M3 q e Hq He) as (a & Ha & Ea).
    { apply (owner_vertex c (length mem) L (oi_grid _ _ _ _ _ _ _ _ HI) i _ Hi); [apply (oi_entries _ _ _ _ _ _ _ _ HI q e Hq He)|exact Hin]. }
    exists a. destruct (M2 a Ha) as (q' & e' & Hq' & He' & Ep & Ec & _ & _ & X).
    destruct (same_entry c n mem L R D MG NG HI q q' e e' Hq Hq' He He' ltac:(congruence)) as [<- <-].
    destruct X as [(_ & Ece & Rq)|(X & _)]; [|contradiction]. split; [unfold donor_row; rewrite cell_extents_box, Ece, Ep, Ec, Rq; reflexivity|].
    apply filter_In. split; [exact Ha|]. unfold donates. rewrite Rq, Nat2Z.id, Ep. destruct (Z.ltb_spec (Z.of_nat q) 0); [lia|]. apply Z.eqb_eq, Dq.
Qed.

Lemma own_NoDup i : (i < length mem)%nat -> NoDup (map dr_dest (LD i)).
Proof.
  intros Hi. destruct (at_mem i Hi) as (r & Er & Hr & Mr). unfold LD. rewrite Er. unfold local_donors. rewrite map_map.
  pose proof (m_sorted c n mem L R D M HM HO r Hr) as S. apply (sorted_filter _ donates) in S.
  induction S as [|a l S IH F]; [constructor|]. cbn [map]. constructor; [|exact IH]. intros H. apply in_map_iff in H as (b & Eb & Hb).
  rewrite Forall_forall in F. specialize (F b Hb). cbn [donor_row dr_dest] in Eb. rewrite Eb in F. lia.
Qed.

Theorem fill_prog : exists S',
  prog_ok n (conn_fill c n mem (fun i => map (fun q => (q, L q)) (NB i)) R sort M N NL donor rm mg dp dc) (start_fill M N donor mg) S' /\
  (forall i r, nth_error mem i = Some r -> d_side c n (L i) R E (h_donors (f_h (S' r)))) /\
  (forall r, (r < n)%nat -> ~ In r mem -> h_donors (f_h (S' r)) = []) /\
  (forall q, (q < n)%nat -> f_n (S' q) = map (fun e => (e_point e, e_cell e)) (E q)).
Proof.
  destruct (reverse_values c n mem L R D MG NG M N HI HM HO HN points_sorted (ci_many _ _ _ _ _ _ _ _ _ _ _ _ _ _ _ HC) false false (fun q p => donor q p =? mg)) as (SX & PX & OX).
  destruct (share_prog c (length mem) n L R NB sort E LD (oi_grid _ _ _ _ _ _ _ _ HI) SO (ci_next _ _ _ _ _ _ _ _ _ _ _ _ _ _ _ HC)) as (SH & PH & DH).
  - intros q e Hq He. apply chosen_In in He as [He _]. apply (oi_entries _ _ _ _ _ _ _ _ HI q e Hq He).
  - intros q q' e e' Hq Hq' He He'. apply chosen_In in He as [He _]. apply chosen_In in He' as [He' _]. apply (same_entry c n mem L R D MG NG HI q q' e e' Hq Hq' He He').
  - exact Hsort.
  - intros j d Hj Hd. apply (own_In j d Hj) in Hd. exact Hd.
  - intros j q e Hj Hq He Hl. apply (own_In j _ Hj). exists q, e. auto.
  - exact own_NoDup.
  - set (T := fun r => HS0 (local_donors r)).
    set (F1 := fun r => FS (SX r) (HS0 []) []).
    set (F2 := fun r => FS (SX r) (HS0 (local_donors r)) []).
    set (F3 := fun r => FS (SX r) (spread mem SH T r) []).
    set (F4 := fun r => FS (SX r) (spread mem SH T r) (map (fun e => (e_point e, e_cell e)) (E r))).
    exists F4. split; [|split; [|split]].
    + unfold conn_fill. apply prog_ok_app. exists F1. split.
      { apply (lift_ok (fun s => Some (f_x s)) put_fx n _ (fun r => FS (SX r) (HS0 []) []) _ SX); [reflexivity|reflexivity|]. apply remsg_ok; [reflexivity|exact PX]. }
      apply prog_ok_app. exists F2. split.
      { eexists. split; [|intros r Hr; reflexivity]. intros r Hr. unfold fill_local, F1. cbn [f_x]. rewrite (OX r Hr).
        change (vread [map (fun a => if mr_rank a <? 0 then false else donor (Z.to_nat (mr_rank a)) (mr_dest a) =? mg) (M r)] 0) with (Some (map donates (M r))). cbv iota.
        rewrite donor_rows_ok. reflexivity. }
      apply prog_ok_app. exists F3. split.
      { assert (E2 : forall r, (r < n)%nat -> put_fh (F2 r) (spread mem (fun i => HS0 (LD i)) T r) = F2 r).
        { intros r Hr. unfold put_fh, F2, spread, T. cbn [f_x f_n]. destruct (position mem r) as [i|] eqn:P; [|reflexivity]. unfold LD. rewrite (position_nth _ _ _ P). reflexivity. }
        eapply (prog_ok_start n _ _ _ _ E2). apply (lift_ok (fun s => Some (f_h s)) put_fh n _ F2 _ (spread mem SH T)); [reflexivity|reflexivity|]. apply remsg_ok; [reflexivity|].
        destruct (oi_mem _ _ _ _ _ _ _ _ HI) as [M1 M2]. apply embed_ok; auto. repeat constructor. }
      eexists. split; [|intros r Hr; reflexivity]. intros r Hr. unfold fill_receivers, F3. cbn [f_x f_h].
      destruct (ci_local _ _ _ _ _ _ _ _ _ _ _ _ _ _ _ HC r Hr) as [Sub Loc]. pose proof (n_points_eq n mem L D N HN r Hr) as EP.
      rewrite receivers_all.
      * unfold F4. f_equal. f_equal. pose proof (HN r Hr) as F. unfold n_side in F. unfold E, chosen.
        assert (G : forall e, In e (D r) -> rm r (e_point e) && (donor r (e_point e) =? mg) = (donor r (e_point e) =? mg)).
        { intros e He. destruct (Z.eqb_spec (donor r (e_point e)) mg) as [Ed|Ed]; [|apply andb_false_r].
          destruct (ci_donor _ _ _ _ _ _ _ _ _ _ _ _ _ _ _ HC r (e_point e) Hr (Loc e He) Ed) as [-> _]. reflexivity. }
        clear -F G. induction F as [|e row l l' (P1 & P2 & _) F IH]; [reflexivity|]. cbn [filter]. rewrite P1, (G e ltac:(left; reflexivity)).
        specialize (IH (fun e' H => G e' (or_intror H))). destruct (donor r (e_point e) =? mg); [|exact IH]. cbn [map]. rewrite P1, P2, IH. reflexivity.
      * rewrite EP. exact (ci_order _ _ _ _ _ _ _ _ _ _ _ _ _ _ _ HC r Hr).
      * intros x Hx. assert (In (nr_point x) (map e_point (D r))) as H by (rewrite <- EP; apply in_map, Hx). apply in_map_iff in H as (e & <- & He). apply Loc, He.
      * intros p Hp W. rewrite EP. apply andb_prop in W as [_ W]. apply Z.eqb_eq in W. apply (ci_donor _ _ _ _ _ _ _ _ _ _ _ _ _ _ _ HC r p Hr Hp W).
    + intros i r Er. unfold F4. cbn [f_h]. unfold spread. destruct (oi_mem _ _ _ _ _ _ _ _ HI) as [M1 M2].
      rewrite (nth_position mem i r M1 Er). apply DH. apply nth_error_Some. congruence.
    + intros r Hr Nr. unfold F4. cbn [f_h]. unfold spread. rewrite (proj2 (position_none mem r) Nr). reflexivity.
    + intros q Hq. reflexivity.
Qed.
End Fill.

(** ** The connectivity is an overlap of the chosen points *)
Lemma chosen_input c n mem L R D MG NG donor mg : overlap_input c n mem L R D MG NG -> overlap_input c n mem L R (chosen D donor mg) MG NG.
Proof.
  intros [A B C E F G H I J]. assert (X : forall q e, In e (chosen D donor mg q) -> In e (D q)) by (intros q e He; apply filter_In in He; apply He).
  constructor; auto; try (intros; eauto; fail).
  - intros q Hq. specialize (H q Hq). unfold chosen. clear -H. induction (D q) as [|e l IH]; [constructor|]. cbn [map] in H. inversion H as [|? ? H1 H2]; subst. cbn [filter].
    destruct (donor q (e_point e) =? mg); auto. cbn [map]. constructor; auto. intros K. apply H1. apply in_map_iff in K as (e' & Ee & K). apply filter_In in K. rewrite <- Ee. apply in_map, K.
Qed.

Lemma pt_in_dec l p : {pt_in l p} + {~ pt_in l p}.
Proof. destruct (rcontains l p) eqn:E; [left; apply rcontains_spec, E|right; intros H; apply rcontains_spec in H; congruence]. Qed.

Lemma donor_overlap c n l R E rows : d_side c n l R E rows -> exists ms, m_side c n l R E ms /\ map dr_ext rows = map (cell_extents (c_nd c)) ms /\ map dr_dest rows = map mr_dest ms.
Proof.
  intros (H1 & H2 & H3).
  pose (good := fun (d : drow) (x : mrow) => dr_ext d = cell_extents (c_nd c) x /\ dr_dest d = mr_dest x /\
    exists q e, (q < n)%nat /\ In e (E q) /\ mr_dest x = e_point e /\ mr_coords x = e_coords e /\
     is_image c (e_cell e) (mr_cell x) /\ (exists v, corner (c_nd c) (mr_cell x) v /\ pt_in l v) /\
     (pt_in l (e_cell e) /\ mr_cell x = e_cell e /\ mr_rank x = Z.of_nat q \/ ~ pt_in l (e_cell e) /\ mr_rank x = -1)).
  assert (F : exists ms, Forall2 good rows ms).
  { clear H1 H3. induction rows as [|d rows IH]; [exists []; constructor|]. destruct IH as (ms & F); [intros row Hr; apply H2; right; exact Hr|].
    destruct (H2 d ltac:(left; reflexivity)) as (q & e & u & Hq & He & E1 & E2 & _ & I & E3 & V & W).
    exists (MRow u (e_coords e) (e_point e) (if pt_in_dec l (e_cell e) then Z.of_nat q else -1) :: ms). constructor; [|exact F].
    split; [exact E3|]. split; [exact E1|]. exists q, e. cbn [mr_dest mr_coords mr_cell mr_rank]. repeat (split; [assumption || reflexivity|]).
    destruct (pt_in_dec l (e_cell e)) as [Y|Y]; [left; auto|right; auto]. }
  destruct F as (ms & F). exists ms.
  assert (A1 : map dr_ext rows = map (cell_extents (c_nd c)) ms) by (clear -F; induction F as [|d x rows ms (G1 & _) F IH]; [reflexivity|]; cbn [map]; congruence).
  assert (A2 : map dr_dest rows = map mr_dest ms) by (clear -F; induction F as [|d x rows ms (_ & G1 & _) F IH]; [reflexivity|]; cbn [map]; congruence).
  split; [|split; assumption]. split; [|split].
  - intros i j a b Hij Ha Hb.
    assert (K : forall i a, vread ms i = Some a -> exists d, vread rows i = Some d /\ dr_dest d = mr_dest a).
    { intros i0 a0 H. assert (X : vread (map mr_dest ms) i0 = Some (mr_dest a0)) by (rewrite vread_fmap, H; reflexivity).
      rewrite <- A2, vread_fmap in X. destruct (vread rows i0) as [d|]; [|discriminate]. exists d. split; [reflexivity|]. injection X as X. exact X. }
    destruct (K i a Ha) as (d & Hd & <-). destruct (K j b Hb) as (d' & Hd' & <-). eapply H1; eauto.
  - intros x Hx. clear -F Hx. induction F as [|d y rows ms G F IH]; [contradiction|]. destruct Hx as [<-|Hx]; [|apply IH, Hx]. destruct G as (_ & _ & G). exact G.
  - intros q e Hq He V. destruct (H3 q e Hq He V) as (d & Hd & Ed). assert (In (e_point e) (map mr_dest ms)) as Hin by (rewrite <- A2, <- Ed; apply in_map, Hd).
    apply in_map_iff in Hin as (x & Ex & Hx). eauto.
Qed.

Theorem donors_distributed c n mem L R D MG NG N (dons : nat -> list drow) : overlap_input c n mem L R D MG NG -> stored_once c ->
  (forall i r, nth_error mem i = Some r -> d_side c n (L i) R D (dons r)) ->
  (forall i, (i < length mem)%nat -> NoDup (N i) /\ forall j, In j (N i) <-> adjacent c (length mem) L i j) ->
  distributed c (length mem) L N (fun i => match nth_error mem i with Some r => map dr_ext (dons r) | None => [] end).
Proof.
  intros HI SO HD HN.
  assert (X : exists M : nat -> list mrow, forall i r, nth_error mem i = Some r -> m_side c n (L i) R D (M r) /\ map dr_ext (dons r) = map (cell_extents (c_nd c)) (M r)).
  { destruct (oi_mem _ _ _ _ _ _ _ _ HI) as [ND _]. clear -HD ND. 
    assert (Y : forall rs, (forall r, In r rs -> exists i, nth_error mem i = Some r) -> exists M : nat -> list mrow, forall i r, In r rs -> nth_error mem i = Some r -> m_side c n (L i) R D (M r) /\ map dr_ext (dons r) = map (cell_extents (c_nd c)) (M r)).
    { induction rs as [|r rs IH]; intros H; [exists (fun _ => []); intros i r []|]. destruct IH as (M & HM); [intros r' Hr; apply H; right; exact Hr|].
      destruct (H r ltac:(left; reflexivity)) as (i & Hi). destruct (donor_overlap c n (L i) R D (dons r) (HD i r Hi)) as (ms & A & B & _).
      exists (fun r' => if Nat.eqb r' r then ms else M r'). intros i' r' Hr Hi'. destruct (Nat.eqb_spec r' r) as [->|Ne].
      - assert (i' = i); [|subst; auto]. rewrite NoDup_nth_error in ND. apply ND; [apply nth_error_Some; congruence|congruence].
      - destruct Hr as [<-|Hr]; [contradiction|]. auto. }
    destruct (Y mem) as (M & HM); [intros r Hr; apply In_nth_error, Hr|]. exists M. intros i r Hi. apply HM; auto. eapply nth_error_In; eauto. }
  destruct X as (M & HM). pose proof (rows_distributed c n mem L R D MG NG M HI (fun i r H => proj1 (HM i r H)) SO N HN) as H.
  assert (E : forall i, row_cells c mem M i = match nth_error mem i with Some r => map dr_ext (dons r) | None => [] end).
  { intros i. unfold row_cells. destruct (nth_error mem i) as [r|] eqn:Ei; [|reflexivity]. symmetry. apply (HM i r Ei). }
  destruct H as (A1 & A2 & A3 & A4). split; [exact A1|]. split; [exact A2|]. split.
  - destruct A3 as (B1 & B2 & B3). split; [|split].
    + intros i cell p. rewrite <- E. apply B1.
    + intros i cell. rewrite <- E. apply B2.
    + intros i j cell. rewrite <- !E. apply B3.
  - intros i q cell p. rewrite <- E. apply A4.
Qed.
