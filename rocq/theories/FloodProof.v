(** Proofs about flood fill, and the partitions whose copies all have an owner at hand. *)
From Coq Require Import List ZArith Bool Arith Lia Relations Relation_Operators Operators_Properties.
From Verif Require Import TupleModel RangeModel Base RangeProof CartModel CartProof DecompModel DecompProof IndexerModel ArrayModel ArrayProof.
From Verif Require Import ContModel UFModel HashModel HashProof NetModel NetSpec NetProof NetPhase NetTools LiftModel LiftProof NeighSpec NeighProof.
From Verif Require Import HaloModel HaloProof PartModel PartProof FieldModel FieldSpec FieldProof EdgeProof CompModel CompSpec UFTrack LabelProof CompProof.
Import ListNotations.
Local Open Scope Z_scope.

Lemma open_path c b s u : b s = false -> same_component c b s u -> clos_refl_trans _ (open_step c b) s u /\ b u = false.
Proof.
  intros Hs C. apply clos_rt_rt1n in C. induction C as [s|s v u (A1 & A2 & A3 & A4) _ IH]; [split; [apply rt_refl|exact Hs]|].
  destruct (IH ltac:(congruence)) as [X Y]. split; [|exact Y]. eapply rt_trans; [apply rt_step|exact X].
  split; [exact A1|]. split; [exact A2|]. split; [exact A3|]. split; congruence.
Qed.

Lemma path_component c b s u : clos_refl_trans _ (open_step c b) s u -> same_component c b s u.
Proof.
  induction 1 as [x y (A1 & A2 & A3 & A4 & A5)|x|x y z _ IH1 _ IH2].
  - apply rt_step. split; [exact A1|]. split; [exact A2|]. split; [exact A3|]. congruence.
  - apply rt_refl.
  - eapply rt_trans; eassumption.
Qed.

Section Flood.
Variables (c : cart) (n : nat) (L E : nat -> range) (N : nat -> list nat) (H : nat -> hmap).
Hypothesis P : partitioned c n L E N H.
Hypothesis Cov : covered c n L E N.
Variables (M B : nat -> list bool) (mk b : tup Z -> bool).
Hypothesis Hk : agrees c n L E N M mk.
Hypothesis Hb : agrees c n L E N B b.

Lemma reads_agrees {V} (G : nat -> list V) g : (forall r, (r < n)%nat -> reads (E r) (G r) (fun p => g (wrap c p))) -> agrees c n L E N G g.
Proof.
  intros R. pose proof P as (D & SO & _). pose proof D as (_ & _ & Hok & _). split.
  - intros r Hr. destruct (R r Hr) as [A1 A2]. split; [exact A1|]. intros p Hp. rewrite A2 by (apply (L_E c n L E N H P r Hr), Hp).
    rewrite (L_wrap c n L E N H P r p Hr Hp). reflexivity.
  - intros r p q u Hr Hq Hp Hu I _. destruct (R r Hr) as [A1 A2]. rewrite A2 by exact Hp. f_equal. f_equal.
    apply (wrap_in c Hok SO p u I), (L_sub c n L D q Hq u Hu).
Qed.

Theorem flood_ok : exists S' F' m', prog_ok n (flood_mask (c_nd c) L E) (fun r => FL0 (H r) (M r) (B r)) S' /\
  (forall r, (r < n)%nat -> f_mask (S' r) = F' r) /\ agrees c n L E N F' m' /\
  forall u, pt_in (c_range c) u -> (m' u = true <-> mk u = true \/ flooded c mk b u).
Proof.
  pose proof P as (D & SO & _). pose proof D as (_ & Hn & Hok & _).
  destruct (components_ok c n L E N H P Cov B b Hb) as (SC & FC & lb & NC & PC & VC & AC & C1 & C2 & C3).
  assert (RM : forall r, (r < n)%nat -> reads (E r) (M r) (fun p => mk (wrap c p))) by (intros r Hr; apply (all_reads c n L E N H P Cov); auto).
  assert (RB : forall r, (r < n)%nat -> reads (E r) (B r) (fun p => b (wrap c p))) by (intros r Hr; apply (all_reads c n L E N H P Cov); auto).
  assert (RC : forall r, (r < n)%nat -> reads (E r) (FC r) (fun p => lb (wrap c p))) by (intros r Hr; apply (all_reads c n L E N H P Cov); auto).
  assert (EW : forall r p, (r < n)%nat -> pt_in (E r) p -> pt_in (c_range c) (wrap c p)) by (intros; apply (E_wrap c n L E N H P Cov r); auto).
  set (K := Z.to_nat NC).
  set (step := fun r fl p =>
                 let! m := fread (E r) (M r) p in
                 let! b := fread (E r) (B r) p in
                 if m && negb b then let! l := fread (E r) (FC r) p in vwrite fl l 1 else Some fl).
  set (mar := fun r => ofoldl (step r) (RangeModel.foreach_col (E r)) (repeat 0 K)).
  set (fl := fun r => match mar r with Some x => x | None => [] end).
  assert (Mar : forall r, (r < n)%nat -> mar r = Some (fl r) /\
    flags K (fun i => exists p, pt_in (E r) p /\ mk (wrap c p) = true /\ b (wrap c p) = false /\ lb (wrap c p) = i) (fl r)).
  { intros r Hr. destruct (ofoldl_all (step r)
      (fun done s => flags K (fun i => exists p, In p done /\ mk (wrap c p) = true /\ b (wrap c p) = false /\ lb (wrap c p) = i) s) (fun p => pt_in (E r) p)) with
      (todo := RangeModel.foreach_col (E r)) (done := @nil (tup Z)) (s := repeat 0 K) as (s & Q & Fl).
    - intros done p s Hp Fl. unfold step. rewrite (reads_fread _ _ _ p (RM r Hr) Hp), (reads_fread _ _ _ p (RB r Hr) Hp), (reads_fread _ _ _ p (RC r Hr) Hp).
      destruct (mk (wrap c p)) eqn:Em, (b (wrap c p)) eqn:Eb; cbn [andb negb].
      2: { pose proof (C2 _ (EW r p Hr Hp)) as Bd. destruct (flags_write K _ s (lb (wrap c p)) Fl ltac:(unfold K; lia)) as (s' & W & Fl').
           rewrite W. exists s'. split; [reflexivity|]. eapply flags_ext; [|exact Fl']. intros i _. cbv beta. split.
           - intros [->|(q & I & X)]; [exists p; split; [apply in_or_app; right; left; reflexivity|auto]|exists q; split; [apply in_or_app; auto|exact X]].
           - intros (q & I & X & Y & Z0). apply in_app_or in I. destruct I as [I|[I|[]]]; [right; exists q; auto|subst q; auto]. }
      all: exists s; split; [reflexivity|]; eapply flags_ext; [|exact Fl]; intros i _; cbv beta; split; intros (q & I & X & Y & Z0); exists q;
        (split; [|auto]); [apply in_or_app; auto|]; apply in_app_or in I; destruct I as [I|[I|[]]]; [exact I|subst q; congruence].
    - intros p. apply foreach_col_In.
    - eapply flags_ext; [|apply flags_repeat]. intros i _. cbv beta. split; [intros []|intros (p & [] & _)].
    - unfold fl, mar. rewrite Q. split; [reflexivity|]. eapply flags_ext; [|exact Fl]. intros i _. cbv beta. cbn [app].
      split; intros (p & X & Y); exists p; (split; [apply foreach_col_In, X|exact Y]). }
  pose proof (flags_reduce K max_flags _ fl n Hn (max_flags_ok K) (fun r Hr => proj2 (Mar r Hr))) as FR. cbv beta in FR.
  destruct (map fl (seq 0 n)) as [|x0 xs0] eqn:Efl; [contradiction|]. set (FLG := fold_left max_flags xs0 x0) in *.
  set (flb := fun u => match vread FLG (lb u) with Some x => negb (x =? 0) | None => false end).
  assert (Flb : forall u, pt_in (c_range c) u -> exists x, vread FLG (lb u) = Some x /\ flb u = negb (x =? 0) /\
    (flb u = true <-> exists s, pt_in (c_range c) s /\ mk s = true /\ b s = false /\ lb s = lb u)).
  { intros u Hu. pose proof (C2 u Hu) as Bd. destruct FR as [_ FR]. destruct (FR (lb u) ltac:(unfold K; lia)) as (x & X1 & _ & X3).
    exists x. unfold flb. rewrite X1. split; [reflexivity|]. split; [reflexivity|].
    rewrite negb_true_iff, Z.eqb_neq, X3. split.
    - intros (r & Hr & p & Hp & Y). exists (wrap c p). split; [apply (EW r); auto|exact Y].
    - intros (s & Hs & Y). destruct (L_owner c n L D s Hs) as (r & Hr & Hp). exists r. split; [exact Hr|]. exists s.
      split; [apply (L_E c n L E N H P r Hr), Hp|]. rewrite (L_wrap c n L E N H P r s Hr Hp). exact Y. }
  set (m' := fun u => mk u || (negb (b u) && flb u)).
  set (fstep := fun r m p =>
              let! b := fread (E r) (B r) p in
              if b : bool then Some m
              else
                let! l := fread (E r) (FC r) p in
                let! f := vread FLG l in
                if f =? 0 then Some m else fwrite (E r) m p true).
  set (fil := fun r => ofoldl (fstep r) (RangeModel.foreach_col (E r)) (M r)).
  set (F' := fun r => match fil r with Some x => x | None => [] end).
  assert (Fil : forall r, (r < n)%nat -> fil r = Some (F' r) /\ reads (E r) (F' r) (fun p => m' (wrap c p))).
  { intros r Hr. destruct (ofoldl_all (fstep r) (fun done s => reads (E r) s (fun q => if inb done q then m' (wrap c q) else mk (wrap c q))) (fun p => pt_in (E r) p)) with
      (todo := RangeModel.foreach_col (E r)) (done := @nil (tup Z)) (s := M r) as (s & Q & Rs).
    - intros done p s Hp Rs. unfold fstep. rewrite (reads_fread _ _ _ p (RB r Hr) Hp), (reads_fread _ _ _ p (RC r Hr) Hp).
      destruct (Flb (wrap c p) (EW r p Hr Hp)) as (x & X1 & X2 & _). rewrite X1.
      assert (In1 : forall q, inb (done ++ [p]) q = inb done q || teqb q p) by (intros q; unfold inb; rewrite existsb_app; cbn [existsb]; rewrite orb_false_r; reflexivity).
      assert (Same : m' (wrap c p) = mk (wrap c p) -> reads (E r) s (fun q => if inb (done ++ [p]) q then m' (wrap c q) else mk (wrap c q))).
      { intros Em. apply (reads_ext _ _ _ _ Rs). intros q _. rewrite In1. destruct (inb done q); [reflexivity|]. cbn [orb]. destruct (teqb q p) eqn:T; [|reflexivity].
        apply teqb_eq in T. subst q. auto. }
      destruct (b (wrap c p)) eqn:Eb.
      + exists s. split; [reflexivity|]. apply Same. unfold m'. rewrite Eb. apply orb_false_r.
      + destruct (Z.eqb_spec x 0) as [->|Nx].
        * exists s. split; [reflexivity|]. apply Same. unfold m'. rewrite X2. cbn. rewrite andb_false_r, orb_false_r. reflexivity.
        * destruct (reads_fwrite (E r) s _ p true Rs Hp) as (s' & W & R'). rewrite W. exists s'. split; [reflexivity|].
          apply (reads_ext _ _ _ _ R'). intros q _. rewrite In1. unfold upd. destruct (teqb q p) eqn:T; [|rewrite orb_false_r; reflexivity].
          apply teqb_eq in T. subst q. rewrite orb_true_r. unfold m'. rewrite Eb, X2. destruct (Z.eqb_spec x 0); [contradiction|]. cbn. rewrite orb_true_r. reflexivity.
    - intros p. apply foreach_col_In.
    - exact (RM r Hr).
    - unfold F', fil. rewrite Q. split; [reflexivity|]. apply (reads_ext _ _ _ _ Rs). intros q Hq. cbn [app].
      rewrite (proj2 (inb_spec _ _)) by (apply foreach_col_In, Hq). reflexivity. }
  exists (fun r => FS (F' r) FLG (SC r)), F', m'. split; [|split; [reflexivity|split]].
  - unfold flood_mask. apply prog_ok_app. exists (fun r => FS (M r) [] (SC r)). split.
    { apply (lift_ok f_get f_put n _ (fun r => FL0 (H r) (M r) (B r)) (fun r => K0 (H r) (B r)) SC); auto. }
    exists (fun r => FS (M r) (fl r) (SC r)). split.
    { intros r Hr. unfold flood_mark. cbn [f_mask f_flood f_comp]. destruct (VC r Hr) as (_ & V1 & V2 & V3). rewrite V1, V2, V3.
      destruct (Z.ltb_spec NC 0) as [Neg|_].
      - pose proof (C2 (wrap c (clamp_to_range (L r) (rb (L r))))). exfalso. pose proof D as (_ & _ & _ & _ & _ & _ & NE).
        pose proof (clamp_in (L r) (rb (L r)) (NE r Hr)) as Hp. specialize (C2 _ (L_sub c n L D r Hr _ Hp)). lia.
      - destruct (Mar r Hr) as [Q _]. unfold mar, step in Q. fold K. rewrite Q. reflexivity. }
    exists (fun r => FS (M r) FLG (SC r)). split.
    { intros r Hr. unfold flood_max. rewrite nth_map_seq by exact Hr. rewrite map_map. cbn [f_mask f_flood f_comp].
      change (map (fun r => fl r) (seq 0 n)) with (map fl (seq 0 n)). rewrite Efl. reflexivity. }
    eexists. split; [|cbn [prog_ok]; reflexivity].
    intros r Hr. unfold flood_fill. cbn [f_mask f_flood f_comp]. destruct (VC r Hr) as (_ & V1 & V2 & V3). rewrite V1, V2.
    destruct (Fil r Hr) as [Q _]. unfold fil, fstep in Q. rewrite Q. reflexivity.
  - apply reads_agrees. intros r Hr. apply (Fil r Hr).
  - intros u Hu. unfold m'. rewrite orb_true_iff, andb_true_iff, negb_true_iff. destruct (Flb u Hu) as (_ & _ & _ & Fu). rewrite Fu. split.
    + intros [X|[Y (s & Hs & S1 & S2 & S3)]]; [auto|]. right. exists s. split; [exact Hs|]. split; [exact S1|]. split; [exact S2|].
      apply C1 in S3; auto. apply (open_path c b s u S2 S3).
    + intros [X|(s & Hs & S1 & S2 & S3)]; [auto|]. right. apply path_component in S3. split; [apply (open_path c b s u S2 S3)|].
      exists s. split; [exact Hs|]. split; [exact S1|]. split; [exact S2|]. apply C1; auto.
Qed.
End Flood.

(** ** Copies with an owner at hand *)

Lemma nb_at_hand c n L E N H r q : partitioned c n L E N H -> (r < n)%nat -> q = r \/ In q (nb c n L r) -> q = r \/ In q (N r).
Proof.
  intros (D & SO & _ & _ & Near & _) Hr [->|I]; [auto|]. apply (neighbors_near c n L D r q SO Hr) in I.
  destruct I as (Hq & _ & p & u & Hp & Hu & Nr). apply (Near r q p u); auto.
Qed.

Theorem covered_ring c n L E N H : partitioned c n L E N H ->
  (forall r, (r < n)%nat -> pt_subset (E r) (extend_local_range c (L r) 1)) -> covered c n L E N.
Proof.
  intros P X r p Hr Hp. pose proof P as (D & SO & _). pose proof D as (_ & _ & Hok & _).
  destruct (rcontains (L r) p) eqn:Cp.
  - apply rcontains_spec in Cp. exists r, p. split; [exact Hr|]. split; [exact Cp|]. split; [apply is_image_refl|auto].
  - assert (Np : ~ pt_in (L r) p) by (intros Y; apply rcontains_spec in Y; congruence).
    destruct (neighbors_cover c n L D r p Hr (X r Hr p Hp) Np) as (q & u & O & I & _ & Hu). exists q, u.
    split; [destruct O as [->|O]; [exact Hr|apply (N_ok c n L D r Hr), O]|]. split; [exact Hu|]. split; [exact I|].
    apply (nb_at_hand c n L E N H r q P Hr O).
Qed.

Theorem covered_grid c n L E N H k : partitioned c n L E N H -> 1 <= k -> grid_of (c_nd c) n L k ->
  (forall r, (r < n)%nat -> grown (c_nd c) k (L r) (E r)) -> covered c n L E N.
Proof.
  intros P Hk Gr X r p Hr Hp. pose proof P as (D & SO & EO & _). pose proof D as (_ & _ & Hok & _ & _ & _ & NE).
  assert (W : pt_in (c_range c) (wrap c p)).
  { apply pt_in_tget. intros d Hd. pose proof (wrap_base c Hok p d Hd) as WB. pose proof (proj1 (pt_in_tget _ _) Hp d Hd) as Bp.
    destruct (L_dims c n L E N H P r Hr d Hd) as (B1 & B2 & B3 & B4).
    destruct (tget (c_per c) d) eqn:Pd; [specialize (WB eq_refl); specialize (SO d Hd); lia|].
    unfold wrap. rewrite tget_tmake by exact Hd. rewrite Pd. clear WB.
    destruct (le_lt_dec (c_nd c) d) as [Hn|Hn].
    { destruct (E_dim0 c n L E N H P r Hr d Hd Hn) as [X1 X2]. rewrite X1, X2 in Bp. destruct (B4 Hn). lia. }
    destruct (X r Hr) as [_ Xd]. specialize (Xd d Hd). cbn zeta in Xd. destruct (Nat.ltb_spec d (c_nd c)); [|lia].
    destruct (E_dim c n L E N H P r Hr d Hd Hn) as [[C _]|(_ & Y1 & Y2)]; [congruence|].
    assert (Room : forall x, tget (rb (c_range c)) d <= x < tget (re (c_range c)) d -> exists q, (q < n)%nat /\ tget (rb (L q)) d <= x < tget (re (L q)) d).
    { intros x Hx. pose proof (clamp_in (L r) (rb (L r)) (NE r Hr)) as Hi. pose proof (L_sub c n L D r Hr _ Hi) as Hic.
      destruct (L_owner c n L D (tset (clamp_to_range (L r) (rb (L r))) d x)) as (q & Hq & Hu).
      - apply pt_in_tget. intros d' Hd'. rewrite tget_tset by exact Hd'. destruct (Nat.eqb_spec d' d) as [->|Ne]; [exact Hx|]. apply (proj1 (pt_in_tget _ _) Hic d' Hd').
      - exists q. split; [exact Hq|]. pose proof (proj1 (pt_in_tget _ _) Hu d Hd) as Z0. rewrite tget_tset in Z0 by exact Hd. rewrite Nat.eqb_refl in Z0. exact Z0. }
    destruct Gr as [G1 G2]. split.
    - destruct Y1 as [Y1|[Y1 Y1']]; [lia|]. destruct (Room (tget (rb (L r)) d - 1) ltac:(lia)) as (q & Hq & Bq).
      specialize (G1 r q d Hr Hq Hd). specialize (G2 q d Hq Hn). destruct (L_dims c n L E N H P q Hq d Hd) as (Q1 & Q2 & Q3 & _). lia.
    - destruct Y2 as [Y2|[Y2 Y2']]; [lia|]. destruct (Room (tget (re (L r)) d) ltac:(lia)) as (q & Hq & Bq).
      specialize (G1 r q d Hr Hq Hd). specialize (G2 q d Hq Hn). destruct (L_dims c n L E N H P q Hq d Hd) as (Q1 & Q2 & Q3 & _). lia. }
  destruct (L_owner c n L D _ W) as (q & Hq & Hu). exists q, (wrap c p). split; [exact Hq|]. split; [exact Hu|].
  split; [apply wrap_image, Hok|]. apply (nb_at_hand c n L E N H r q P Hr).
  apply (thick_owner c n L D SO k Hk Gr r (E r) p q (wrap c p)); auto. apply wrap_image, Hok.
Qed.
