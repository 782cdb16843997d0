(** Importing XINTOUT files: what the ranks of a grid have before and after distributing. *)
From Coq Require Import List ZArith QArith Bool Lia Permutation.
From Verif Require Import TupleModel RangeModel CartModel Base RangeProof CartProof DecompModel DecompProof ContModel ArrayModel ArrayProof HashModel ProtoModel ProtoSpec NetModel NetSpec.
From Verif Require Import DHashModel HashSpec DDecompProof NeighSpec NeighProof XinModel XinSpec XinChunk XinFile MatModel MatSpec MatFile DistModel DistSpec DistProof ImpModel ImpSpec EndModel EndSpec EndLists.
Import ListNotations.
Local Open Scope Z_scope.

Lemma perm_filter {A} (f : A -> bool) l l' : Permutation l l' -> Permutation (filter f l) (filter f l').
Proof.
  induction 1; cbn; auto.
  - destruct (f x); auto.
  - destruct (f x), (f y); auto. apply perm_swap.
  - etransitivity; eauto.
Qed.
Lemma filter_map_of {A B} (g : A -> B) (f : B -> bool) l : filter f (map g l) = map g (filter (fun x => f (g x)) l).
Proof. induction l as [|a l IH]; [reflexivity|]. cbn. rewrite IH. now destruct (f (g a)). Qed.
Lemma filter_and {A} (f g : A -> bool) l : filter g (filter f l) = filter (fun x => f x && g x) l.
Proof. induction l as [|a l IH]; [reflexivity|]. cbn. destruct (f a); cbn; [destruct (g a); now rewrite IH|exact IH]. Qed.
Lemma all_of_filter {A} n (D : nat -> list A) f : all_of n D f = filter f (flat_map D (seq 0 n)).
Proof. unfold all_of. induction (seq 0 n) as [|a l IH]; [reflexivity|]. cbn. now rewrite filter_app, IH. Qed.
Lemma over_positions {A} (f : nat -> list A) (l : list nat) : flat_map (fun q => f (nth q l 0%nat)) (seq 0 (length l)) = flat_map f l.
Proof.
  rewrite !flat_map_concat_map. f_equal. apply nth_all. intros k. rewrite !nth_error_map. destruct (Nat.lt_ge_cases k (length l)) as [H|H].
  - rewrite (nth_error_nth' _ 0%nat) by (rewrite seq_length; exact H). rewrite seq_nth by exact H. cbn [option_map Nat.add]. rewrite (nth_error_nth' l 0%nat H). reflexivity.
  - rewrite (proj2 (nth_error_None _ _)) by (rewrite seq_length; exact H). now rewrite (proj2 (nth_error_None _ _)) by exact H.
Qed.
Lemma chosen_and {A} (P Q : A -> Prop) l l' g : chosen P l l' -> (forall x, g x = true <-> Q x) -> chosen (fun x => Q x /\ P x) l (filter g l').
Proof.
  intros (f & -> & H) HQ. exists (fun x => f x && g x). split; [apply filter_and|]. intros x Hx. rewrite andb_true_iff, (H x Hx), HQ. tauto.
Qed.
Lemma chosen_In {A} (P : A -> Prop) l l' x : chosen P l l' -> (In x l' <-> In x l /\ P x).
Proof. intros (f & -> & H). rewrite filter_In. split; intros [A1 A2]; (split; [exact A1|]); apply (H x A1); exact A2. Qed.

Lemma flat_map_same {A B} (f g : A -> list B) l : (forall a, In a l -> f a = g a) -> flat_map f l = flat_map g l.
Proof. induction l as [|a l IH]; intros H; [reflexivity|]. cbn. rewrite (H a (or_introl eq_refl)), IH; [reflexivity|]. intros; apply H; now right. Qed.
Lemma max_extent_ge l d k : In d l -> (k < 3)%nat -> tget (d_size d) k <= max_extent l.
Proof.
  intros H Hk. induction l as [|a l IH]; [destruct H|]. cbn [max_extent fold_right]. change (fold_right _ 0 l) with (max_extent l). destruct H as [->|H].
  - destruct k as [|[|[|k]]]; cbn [tget]; lia.
  - specialize (IH H). lia.
Qed.
Lemma max_In x l : In x l -> x <= fold_right Z.max 0 l.
Proof. induction l as [|a l IH]; [intros []|]. intros [->|H]; cbn; [lia|]. specialize (IH H). lia. Qed.

Section Grid.
Context (gs : list grid_data) (domain : list (tup Z * Z)) (adjust : Z) (L : list (list donor_chunk * list receiver_chunk)).
Hypothesis Hm : matches gs domain.
Hypothesis Hr : readable gs domain adjust.
Hypothesis HL : contents_read gs domain adjust L.

Lemma parts_read i g : nth_error gs i = Some g -> exists c n R, nth_error L i = Some (donors_read (g_first g) c n (g_donors g), R) /\ 0 <= c /\ fits (len (g_donors g)) c n.
Proof.
  intros Hg. destruct (in_domain gs domain adjust Hm Hr i g Hg) as (d & Hd & Hp & Hfit). pose proof HL as [_ HL2]. destruct (HL2 i g d Hg Hd) as (nn & c & n' & c' & P1 & P2 & E).
  exists c, nn, (receivers_read c' n' (g_receivers g)). split; [exact E|]. destruct (Hfit nn c P1) as [F _]. split; [|exact F]. destruct P1 as (iv & P1).
  destruct (chunkify_readers (len (g_donors g)) (snd d) (XinModel.bin_divide (num_points (fst d)) (snd d)) adjust ltac:(unfold len; lia) Hp) as (i0 & n0 & c0 & Q1 & Q2 & _ & Q3 & Q4 & _).
  rewrite P1 in Q1. injection Q1 as <- <- <-. unfold ceiling in Q3, Q4. unfold len in *. nia.
Qed.
Lemma ids_total i g : nth_error gs i = Some g ->
  flat_map with_ids (fst (nth i L ([], []))) = map (fun x => (g_first g + Z.of_nat (fst x), donor_read (snd x))) (numbered (g_donors g)).
Proof.
  intros Hg. destruct (parts_read i g Hg) as (c & n & R & E & Hc & F). rewrite (nth_error_nth L i ([], []) E). cbn [fst]. unfold donors_read. rewrite flat_map_concat_map, map_map.
  rewrite <- (parts_concat (len (g_donors g)) c n Hc F (numbered (g_donors g)) (len_numbered _)) at 1. rewrite concat_map, map_map. f_equal. apply map_ext. intros k.
  unfold with_ids. cbn [dc_start dc_data]. rewrite numbered_map, <- part_numbered, !map_map. apply map_ext. intros (j & d). cbn [fst snd]. f_equal. lia.
Qed.
Lemma receivers_total i g : nth_error gs i = Some g -> flat_map rc_data (snd (nth i L ([], []))) = map receiver_read (g_receivers g).
Proof.
  intros Hg. destruct (contents_all gs domain adjust L Hm Hr HL i g Hg) as (D & R & E & _ & H). rewrite (nth_error_nth L i ([], []) E). cbn [snd]. now rewrite flat_map_concat_map.
Qed.
Lemma part_max i g c e : nth_error gs i = Some g -> In c (fst (nth i L ([], []))) -> In e (dc_data c) -> exists d, In d (g_donors g) /\ e = donor_read d /\ forall k, (k < 3)%nat -> tget (d_size d) k <= dc_max c.
Proof.
  intros Hg Hc He. destruct (parts_read i g Hg) as (ch & n & R & E & H1 & F). rewrite (nth_error_nth L i ([], []) E) in Hc. cbn [fst] in Hc. unfold donors_read in Hc. apply in_map_iff in Hc as (k & <- & Hk).
  cbn [dc_data dc_max] in *. apply in_map_iff in He as (d & <- & Hd). exists d. split; [|split; [reflexivity|intros; now apply max_extent_ge]].
  apply In_nth_error in Hd as (j & Hd). rewrite nth_part in Hd. destruct (j <? Z.to_nat ch)%nat; [|discriminate]. eapply nth_error_In; eauto.
Qed.

(** What a rank has of a grid after matching. *)
Context (hd hr : nat -> nat -> nat).
Hypothesis Hcons : consistent gs.
Lemma donors_at_eq out i r : paired (donors_held hd L r) (file_receivers gs) out -> (i < length gs)%nat ->
  donors_at hd L out i r = map (fun y => (snd y, place_of (file_receivers gs) (fst y))) (flat_map with_ids (donor_parts hd L i r)).
Proof.
  intros P Hi. unfold paired in P. destruct (Forall2_nth _ _ _ P) as [E1 P']. unfold donors_held in E1. rewrite map_length in E1.
  assert (EL : length (numbered L) = length gs) by (destruct HL as [E _]; rewrite <- E; rewrite <- (snd_numbered L) at 2; now rewrite map_length).
  destruct (nth_error out i) as [o|] eqn:Eo; [|apply nth_error_None in Eo; lia].
  destruct (nth_error L i) as [x|] eqn:Ex; [|apply nth_error_None in Ex; destruct HL; lia].
  specialize (P' i (flat_map (donor_items (Z.of_nat i + 1)) (held (hd i) r (fst x))) o). unfold donors_held in P'. rewrite nth_error_map, nth_numbered, Ex in P'. specialize (P' eq_refl Eo).
  unfold donors_at, donor_parts. rewrite (nth_error_nth out i [] Eo), (nth_error_nth L i ([], []) Ex).
  apply (forall2_fun _ (fun it => place_of (file_receivers gs) (it_id it))) in P'.
  2: { intros it p _ (y & Y1 & Y2 & ->). rewrite <- Y2. symmetry. apply place_unique; [apply consistent_NoDup, Hcons|exact Y1]. }
  rewrite P'. rewrite (flat_map_ext _ _ (fun c => items_with_ids (Z.of_nat i + 1) c)), (flat_map_ext _ _ data_with_ids), !flat_map_map, map_map, combine_maps. reflexivity.
Qed.
Lemma receivers_at_eq out i r : paired (receivers_held hr L r) (file_donors gs) out -> (i < length gs)%nat ->
  receivers_at hr L out i r = map (fun y => (v_point y, place_of (file_donors gs) (v_id y))) (flat_map rc_data (receiver_parts hr L i r)).
Proof.
  intros P Hi. unfold paired in P. destruct (Forall2_nth _ _ _ P) as [E1 P']. unfold receivers_held in E1. rewrite map_length in E1.
  assert (EL : length (numbered L) = length gs) by (destruct HL as [E _]; rewrite <- E; rewrite <- (snd_numbered L) at 2; now rewrite map_length).
  destruct (nth_error out i) as [o|] eqn:Eo; [|apply nth_error_None in Eo; lia].
  destruct (nth_error L i) as [x|] eqn:Ex; [|apply nth_error_None in Ex; destruct HL; lia].
  specialize (P' i (flat_map (receiver_items (Z.of_nat i + 1)) (held (hr i) r (snd x))) o). unfold receivers_held in P'. rewrite nth_error_map, nth_numbered, Ex in P'. specialize (P' eq_refl Eo).
  unfold receivers_at, receiver_parts. rewrite (nth_error_nth out i [] Eo), (nth_error_nth L i ([], []) Ex).
  apply (forall2_fun _ (fun it => place_of (file_donors gs) (it_id it))) in P'.
  2: { intros it p _ (y & Y1 & Y2 & ->). rewrite <- Y2. symmetry. apply place_unique; [apply consistent_NoDup, Hcons|exact Y1]. }
  rewrite P'. unfold receiver_items at 1. rewrite flat_map_map, map_map, combine_maps. reflexivity.
Qed.

(** The ranks of a grid together have all of it. *)
Context (gr : nat -> list nat) (i : nat) (g : grid_data).
Hypothesis Hg : nth_error gs i = Some g.
Hypothesis ND : NoDup (gr i).
Lemma all_donors (D : nat -> list dval) : (forall k, In (hd i k) (gr i)) ->
  (forall q, (q < length (gr i))%nat -> D q = map (fun y => (snd y, place_of (file_receivers gs) (fst y))) (flat_map with_ids (donor_parts hd L i (nth q (gr i) 0%nat)))) ->
  Permutation (flat_map D (seq 0 (length (gr i)))) (map (fun x => (donor_read (fst x), snd x)) (donor_links gs i)).
Proof.
  intros Hh E. transitivity (flat_map (fun q => map (fun y => (snd y, place_of (file_receivers gs) (fst y))) (flat_map with_ids (donor_parts hd L i (nth q (gr i) 0%nat)))) (seq 0 (length (gr i)))).
  { apply Permutation_refl', flat_map_same. intros q Hq. apply in_seq in Hq. apply E. lia. }
  rewrite (over_positions (fun r => map _ (flat_map with_ids (donor_parts hd L i r)))), flat_map_map. unfold donor_links. rewrite Hg, map_map. cbn [fst snd].
  rewrite <- (map_map (fun x => (g_first g + Z.of_nat (fst x), donor_read (snd x))) (fun y => (snd y, place_of (file_receivers gs) (fst y)))). apply Permutation_map.
  rewrite <- (ids_total i g Hg), <- flat_map_twice. apply perm_flat_map. unfold donor_parts. apply held_all; [exact ND|]. intros k _. apply Hh.
Qed.
Lemma all_receivers (R : nat -> list rval) : (forall k, In (hr i k) (gr i)) ->
  (forall q, (q < length (gr i))%nat -> R q = map (fun y => (v_point y, place_of (file_donors gs) (v_id y))) (flat_map rc_data (receiver_parts hr L i (nth q (gr i) 0%nat)))) ->
  Permutation (flat_map R (seq 0 (length (gr i)))) (receiver_links gs i).
Proof.
  intros Hh E. transitivity (flat_map (fun q => map (fun y => (v_point y, place_of (file_donors gs) (v_id y))) (flat_map rc_data (receiver_parts hr L i (nth q (gr i) 0%nat)))) (seq 0 (length (gr i)))).
  { apply Permutation_refl', flat_map_same. intros q Hq. apply in_seq in Hq. apply E. lia. }
  rewrite (over_positions (fun r => map _ (flat_map rc_data (receiver_parts hr L i r)))), flat_map_map. unfold receiver_links. rewrite Hg.
  change (fun y : receiver => (r_point y, place_of (file_donors gs) (r_connection y))) with (fun y => (fun v => (v_point v, place_of (file_donors gs) (v_id v))) (receiver_read y)).
  rewrite <- (map_map receiver_read). apply Permutation_map.
  rewrite <- (receivers_total i g Hg), <- flat_map_twice. apply perm_flat_map. unfold receiver_parts. apply held_all; [exact ND|]. intros k _. apply Hh.
Qed.

(** Distributing them. *)
Context (c : cart) (own : nat -> range) (M : nat -> mst) (n : nat).
Hypothesis HD : decomposed c (length (gr i)) own.
Hypothesis Hdon : Forall donor_ok (g_donors g).
Hypothesis Hcell : forall d p k, In d (g_donors g) -> pt_in (cell_of d) p -> (k < 3)%nat -> tget (c_per c) k = false -> tget (rb (c_range c)) k <= tget p k < tget (re (c_range c)) k.
Hypothesis Hpt : forall y, In y (g_receivers g) -> pt_in (c_range c) (r_point y).
Hypothesis Hhd : forall k, In (hd i k) (gr i).
Hypothesis Hhr : forall k, In (hr i k) (gr i).
Hypothesis Hlt : forall r, In r (gr i) -> (r < n)%nat.
Hypothesis HM : forall r, (r < n)%nat -> paired (donors_held hd L r) (file_receivers gs) (sd_out (ms_m (M r))) /\ paired (receivers_held hr L r) (file_donors gs) (sd_out (ms_n (M r))).

Definition dist_result (X : nat -> xst) : Prop := forall q, (q < length (gr i))%nat ->
  (exists l, chosen (fun x => reached c (own q) (cell_of (fst x))) (donor_links gs i) l /\ Permutation (x_donors (X q)) (map (fun x => (donor_read (fst x), snd x)) l)) /\
  (exists l, chosen (fun x => pt_in (own q) (fst x)) (receiver_links gs i) l /\ Permutation (x_receivers (X q)) l).

Lemma distribute_grid guess rnd : (forall l m, 1 <= m -> guess l m <= m) -> rounding rnd -> (rnd 1 == 1)%Q ->
  exists X, computes (length (gr i)) (distribute c (length (gr i)) (range_decomp guess (c_nd c)) (range_ratio rnd (c_nd c)))
    (dist_start hd hr L gr (fun _ => own) M i) X /\ dist_result X.
Proof.
  intros Hguess Hrnd R1. assert (Hi : (i < length gs)%nat) by (apply nth_error_Some; congruence).
  set (D := fun q => donors_at hd L (sd_out (ms_m (M (nth q (gr i) 0%nat)))) i (nth q (gr i) 0%nat)). set (R := fun q => receivers_at hr L (sd_out (ms_n (M (nth q (gr i) 0%nat)))) i (nth q (gr i) 0%nat)).
  assert (Hq : forall q, (q < length (gr i))%nat -> (nth q (gr i) 0%nat < n)%nat) by (intros q H; apply Hlt, nth_In, H).
  assert (ED : forall q, (q < length (gr i))%nat -> D q = map (fun y => (snd y, place_of (file_receivers gs) (fst y))) (flat_map with_ids (donor_parts hd L i (nth q (gr i) 0%nat)))).
  { intros q H. apply donors_at_eq; [apply HM, Hq, H|exact Hi]. }
  assert (ER : forall q, (q < length (gr i))%nat -> R q = map (fun y => (v_point y, place_of (file_donors gs) (v_id y))) (flat_map rc_data (receiver_parts hr L i (nth q (gr i) 0%nat)))).
  { intros q H. apply receivers_at_eq; [apply HM, Hq, H|exact Hi]. }
  pose proof (all_donors D Hhd ED) as PD. pose proof (all_receivers R Hhr ER) as PR.
  assert (InD : forall q v, (q < length (gr i))%nat -> In v (D q) -> In v (flat_map D (seq 0 (length (gr i))))) by (intros q v H H'; apply in_flat_map; exists q; split; [apply in_seq; lia|exact H']).
  assert (InR : forall q v, (q < length (gr i))%nat -> In v (R q) -> In v (flat_map R (seq 0 (length (gr i))))) by (intros q v H H'; apply in_flat_map; exists q; split; [apply in_seq; lia|exact H']).
  destruct (distribute_spec c (length (gr i)) own (fun q => size_at hd L i (nth q (gr i) 0%nat)) D R guess rnd HD) as (mx' & f & k & C & H); auto.
  - intros q v H Hv. rewrite (ED q H) in Hv. apply in_map_iff in Hv as (y & <- & Hy). apply in_flat_map in Hy as (ch & Hch & Hy).
    assert (He : In (snd y) (dc_data ch)) by (rewrite data_with_ids; now apply in_map).
    assert (Hch' : In ch (fst (nth i L ([], [])))) by (unfold donor_parts in Hch; apply in_held in Hch as (kk & Hch & _); eapply nth_error_In; eauto).
    destruct (part_max i g ch (snd y) Hg Hch' He) as (d & Hd & E & Mx). rewrite E. rewrite Forall_forall in Hdon. destruct (Hdon d Hd) as (_ & (S0 & S1 & S2) & _ & _ & K0 & K1 & K2).
    assert (HS : dc_max ch <= size_at hd L i (nth q (gr i) 0%nat)) by (unfold size_at; apply max_In, in_map; exact Hch).
    split; [intros p kd Hp; apply (Hcell d p kd Hd Hp)|]. intros kd Hkd. cbn [fst donor_read e_begin e_end e_coefs]. specialize (Mx kd Hkd).
    destruct kd as [|[|[|kd]]]; [| | |lia]; cbn [tget c0 c1 c2] in *; unfold len in *; rewrite ?K0, ?K1, ?K2; cbn; lia.
  - intros q v H Hv. pose proof (InR q v H Hv) as H'. apply (Permutation_in _ PR) in H'. unfold receiver_links in H'. rewrite Hg in H'.
    apply in_map_iff in H' as (y & <- & Hy). cbn [fst]. now apply Hpt.
  - eexists. split; [exact C|]. intros q Hql. cbn [x_donors x_receivers]. rewrite !all_of_filter. split.
    + exists (filter (fun x => f q (donor_read (fst x), snd x)) (donor_links gs i)). split.
      * eexists. split; [reflexivity|]. intros x Hx. assert (I : In (donor_read (fst x), snd x) (flat_map D (seq 0 (length (gr i))))).
        { apply (Permutation_in _ (Permutation_sym PD)). apply in_map_iff. exists x. auto. }
        apply in_flat_map in I as (s & Hs & I). apply in_seq in Hs. exact (proj1 (proj1 (H q s Hql ltac:(lia)) _ I)).
      * rewrite <- filter_map_of. apply perm_filter. exact PD.
    + exists (filter (k q) (receiver_links gs i)). split.
      * eexists. split; [reflexivity|]. intros x Hx. apply (Permutation_in _ (Permutation_sym PR)) in Hx.
        apply in_flat_map in Hx as (s & Hs & I). apply in_seq in Hs. exact (proj2 (H q s Hql ltac:(lia)) _ I).
      * apply perm_filter. exact PR.
Qed.
End Grid.
