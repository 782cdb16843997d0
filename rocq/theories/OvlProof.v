(** Proofs about filling the overlap data (C78). *)
From Coq Require Import List ZArith QArith Bool Lia Permutation.
From Verif Require Import TupleModel RangeModel Base RangeProof CartModel CartProof DecompModel DecompProof IndexerModel ArrayModel HashModel HashProof.
From Verif Require Import ArrayProof NeighSpec NeighProof NetModel NetSpec NetProof NetPhase NetTools EmbedModel EmbedProof SendModel SendSpec SendProof CellModel FragModel FragProof OvlModel OvlSpec.
Import ListNotations.
Local Open Scope Z_scope.

(** ** The cells of a rank *)

Section Geometry.
Variables (c : cart) (n : nat) (L : nat -> range).
Hypothesis HD : decomposed c n L.
Let nd := c_nd c.

Let own (i : nat) : range := range_point_to_cell c (L i).

Lemma own_bounds i d : (i < n)%nat -> (d < 3)%nat ->
  tget (rb (own i)) d = tget (rb (L i)) d /\
  (if Nat.ltb d nd then
     tget (re (own i)) d = if negb (tget (re (L i)) d =? tget (re (c_range c)) d) || (tget (c_per c) d && stor_eqb (c_stor c) UNIQUE)
                           then tget (re (L i)) d else tget (re (L i)) d - 1
   else tget (rb (L i)) d = 0 /\ tget (re (own i)) d = 1 /\ tget (re (L i)) d = 1) /\
  tget (rb (c_range c)) d <= tget (rb (L i)) d < tget (re (L i)) d /\ tget (re (L i)) d <= tget (re (c_range c)) d.
Proof.
  intros Hi Hd. pose proof (L_within c n L HD i Hi d Hd) as W. destruct (L_grid c n L HD i Hi) as [G1 G2].
  specialize (G1 d Hd). unfold own, range_point_to_cell.
  match goal with |- context [dims_range ?a ?b ?e] => destruct (dims_range_get a b e d Hd) as [E1 E2] end.
  rewrite E1, E2. unfold nd. destruct (Nat.ltb_spec d (c_nd c)).
  - repeat split; auto; lia.
  - destruct (G2 d ltac:(lia)) as [H1 H2]. repeat split; auto; lia.
Qed.

Lemma cells_bounds d : (d < 3)%nat ->
  tget (rb (cells_of c)) d = tget (rb (c_range c)) d /\
  (if Nat.ltb d nd then
    tget (re (cells_of c)) d = (if tget (c_per c) d && stor_eqb (c_stor c) UNIQUE then tget (re (c_range c)) d else tget (re (c_range c)) d - 1)
   else tget (rb (c_range c)) d = 0 /\ tget (re (cells_of c)) d = 1).
Proof.
  intros Hd. pose proof HD as (_ & _ & _ & Dc & _). unfold cells_of, cart_point_to_cell. cbn [c_range].
  match goal with |- context [dims_range ?a ?b ?e] => destruct (dims_range_get a b e d Hd) as [E1 E2] end.
  rewrite E1, E2. unfold nd. destruct (Nat.ltb_spec d (c_nd c)); [auto|]. destruct (Dc d ltac:(lia)). auto.
Qed.

Lemma per_len_eq d : (d < 3)%nat -> tget (c_per c) d = true ->
  per_len c d = (if stor_eqb (c_stor c) UNIQUE then tget (re (c_range c)) d - tget (rb (c_range c)) d else tget (re (c_range c)) d - tget (rb (c_range c)) d - 1).
Proof.
  intros Hd P. unfold per_len. rewrite P. destruct (c_stor c); cbn; lia.
Qed.

(** A cell of the grid that is in the range of a rank is one of its cells, and the only image among them. *)
Lemma own_cell i p : (i < n)%nat -> pt_in (cells_of c) p -> pt_in (own i) p <-> pt_in (L i) p.
Proof. intros Hi Hp. unfold own. rewrite (own_cells c n L HD i p Hi). unfold cells_of in Hp. tauto. Qed.

Lemma cells_base p : pt_in (cells_of c) p -> in_base c p.
Proof.
  intros H d Hd P. rewrite pt_in_tget in H. specialize (H d Hd). destruct (cells_bounds d Hd) as [B1 B2].
  pose proof HD as (_ & _ & _ & _ & NP & _).
  unfold nd in B2. destruct (Nat.ltb_spec d (c_nd c)) as [Hn|Hn]; [|rewrite NP in P by lia; discriminate].
  rewrite P in B2. cbn [andb] in B2. rewrite (per_len_eq d Hd P). destruct (stor_eqb (c_stor c) UNIQUE); lia.
Qed.

Lemma own_image i p u : (i < n)%nat -> pt_in (cells_of c) p -> is_image c p u -> pt_in (own i) u -> u = p.
Proof.
  intros Hi Hp Im Hu. pose proof HD as (_ & _ & Ok & _). unfold own in Hu. rewrite (own_cells c n L HD i u Hi) in Hu.
  assert (T : forall (a b : tup Z), (forall d, (d < 3)%nat -> tget a d = tget b d) -> a = b).
  { intros [a0 a1 a2] [b0 b1 b2] H. pose proof (H 0%nat ltac:(lia)). pose proof (H 1%nat ltac:(lia)). pose proof (H 2%nat ltac:(lia)).
    cbn in *. congruence. }
  apply T. intros d Hd. destruct (Im d Hd) as [I1 I2]. destruct (tget (c_per c) d) eqn:P; [|auto].
  destruct (I1 eq_refl) as [k Ek]. pose proof (cells_base p Hp d Hd P). pose proof (cells_base u (proj2 Hu) d Hd P).
  assert (k = 0) by nia. subst k. lia.
Qed.

(** The cover range: images in it have a vertex on the rank. *)
Lemma cover_vertex i u : (i < n)%nat -> pt_in (cell_cover c (own i)) u -> exists v, corner nd u v /\ pt_in (L i) v.
Proof.
  intros Hi Hu. rewrite cell_cover_spec in Hu.
  exists (tmake (fun d => if tget u d <? tget (rb (L i)) d then tget u d + 1 else tget u d)). split.
  - intros d Hd. rewrite tget_tmake by exact Hd. specialize (Hu d Hd). destruct (own_bounds i d Hi Hd) as (O1 & O2 & O3). unfold nd in *.
    destruct (Nat.ltb_spec d (c_nd c)); destruct (Z.ltb_spec (tget u d) (tget (rb (L i)) d)); auto; lia.
  - apply pt_in_tget. intros d Hd. rewrite tget_tmake by exact Hd. specialize (Hu d Hd). destruct (own_bounds i d Hi Hd) as (O1 & O2 & O3). unfold nd in *.
    rewrite O1 in Hu. destruct (Nat.ltb_spec d (c_nd c)); [|destruct (Z.ltb_spec (tget u d) (tget (rb (L i)) d)); lia].
    revert Hu O2. destruct (negb _ || (_ && _)); destruct ((_ <? _) || _); destruct (Z.ltb_spec (tget u d) (tget (rb (L i)) d)); intros; lia.
Qed.

(** A cell with a vertex on the rank has an image in the cover range. *)
Lemma vertex_cover i cell : (i < n)%nat -> pt_in (cells_of c) cell -> has_vertex c (L i) cell ->
  exists u, is_image c cell u /\ pt_in (cell_cover c (own i)) u.
Proof.
  intros Hi Hc (u & v & Im & Co & Hv & Bv). pose proof HD as (_ & _ & Ok & _ & NP & _).
  rewrite pt_in_tget in Hv, Hc.
  exists (tmake (fun d => if tget (c_per c) d && (tget u d <? tget (rb (L i)) d) && (tget (rb (L i)) d =? tget (rb (c_range c)) d) &&
                             (tget (re (own i)) d =? tget (re (c_range c)) d) then tget u d + per_len c d else tget u d)). split.
  - intros d Hd. rewrite tget_tmake by exact Hd. destruct (Im d Hd) as [I1 I2]. split; intros P; rewrite P; cbn [andb].
    + destruct (I1 P) as [k Ek]. destruct (_ && _); [exists (k + 1)|exists k]; lia.
    + auto.
  - apply cell_cover_spec. intros d Hd. rewrite tget_tmake by exact Hd. destruct (own_bounds i d Hi Hd) as (O1 & O2 & O3).
    specialize (Co d Hd). specialize (Hv d Hd). specialize (Bv d Hd). destruct (cells_bounds d Hd) as [C1 C2]. specialize (Hc d Hd).
    destruct (Im d Hd) as [_ I2]. specialize (Ok d Hd). unfold nd in *. rewrite O1.
    destruct (Nat.ltb_spec d (c_nd c)) as [Hn|Hn].
    + destruct (tget (c_per c) d) eqn:P; cbn [andb orb] in *.
      * specialize (Bv eq_refl). pose proof (per_len_eq d Hd P) as PL.
        destruct (stor_eqb (c_stor c) UNIQUE); cbn [orb andb] in *; rewrite ?orb_true_r, ?orb_false_r in O2;
          destruct (Z.eqb_spec (tget (re (L i)) d) (tget (re (c_range c)) d)); cbn [negb] in O2;
          destruct (Z.ltb_spec (tget u d) (tget (rb (L i)) d)); cbn [andb];
          destruct (Z.eqb_spec (tget (rb (L i)) d) (tget (rb (c_range c)) d)); cbn [andb];
          destruct (Z.eqb_spec (tget (re (own i)) d) (tget (re (c_range c)) d)); cbn [andb negb orb];
          destruct (Z.ltb_spec (tget (rb (c_range c)) d) (tget (rb (L i)) d)); cbn [orb]; lia.
      * rewrite orb_false_r in *. specialize (I2 eq_refl).
        destruct (Z.eqb_spec (tget (re (L i)) d) (tget (re (c_range c)) d)); cbn [negb] in O2;
          destruct (Z.ltb_spec (tget (rb (c_range c)) d) (tget (rb (L i)) d)); lia.
    + rewrite (NP d ltac:(lia)) in *. cbn [andb]. lia.
Qed.

Lemma cover_nonper i cell : (i < n)%nat -> pt_in (cells_of c) cell -> nonper_ok c (cell_cover c (own i)) cell /\ nonper_ok c (own i) cell.
Proof.
  intros Hi Hc. rewrite pt_in_tget in Hc. split; intros d Hd P; specialize (Hc d Hd); destruct (own_bounds i d Hi Hd) as (O1 & O2 & O3); destruct (cells_bounds d Hd) as [C1 C2]; unfold nd in *.
  - split; [lia|]. unfold cell_cover. match goal with |- context [dims_range ?a ?b ?e] => destruct (dims_range_get a b e d Hd) as [E1 E2] end. rewrite E2.
    destruct (Nat.ltb_spec d (c_nd c)); [|lia]. rewrite O2. destruct (_ || _); lia.
  - split; [lia|]. destruct (Nat.ltb_spec d (c_nd c)); [|lia]. rewrite O2. destruct (_ || _); lia.
Qed.

(** The images of a cell in the cover range and in the range of a rank's own cells. *)
Lemma cover_map i cell : (i < n)%nat -> pt_in (cells_of c) cell ->
  exists res, map_tuple_to_range c (cell_cover c (own i)) cell = Some res /\
    match res with
    | Some u => is_image c cell u /\ exists v, corner nd u v /\ pt_in (L i) v
    | None => ~ has_vertex c (L i) cell
    end.
Proof.
  intros Hi Hc. pose proof HD as (_ & _ & Ok & _).
  destruct (map_tuple_correct c (cell_cover c (own i)) cell Ok (proj1 (cover_nonper i cell Hi Hc))) as (res & E & H).
  exists res. split; [exact E|]. destruct res as [u|].
  - destruct H as (Pu & Im & _). split; [exact Im|]. apply (cover_vertex i u Hi Pu).
  - intros V. destruct (vertex_cover i cell Hi Hc V) as (u & Im & Pu). exact (H u Im Pu).
Qed.

Lemma own_map i cell : (i < n)%nat -> pt_in (cells_of c) cell ->
  exists res, map_tuple_to_range c (own i) cell = Some res /\
    match res with Some u => u = cell /\ pt_in (L i) cell | None => ~ pt_in (L i) cell end.
Proof.
  intros Hi Hc. pose proof HD as (_ & _ & Ok & _).
  destruct (map_tuple_correct c (own i) cell Ok (proj2 (cover_nonper i cell Hi Hc))) as (res & E & H).
  exists res. split; [exact E|]. destruct res as [u|].
  - destruct H as (Pu & Im & _). pose proof (own_image i cell u Hi Hc Im Pu). subst u. split; [reflexivity|]. apply (own_cell i cell Hi Hc), Pu.
  - intros V. apply (H cell (is_image_refl c cell)). apply (own_cell i cell Hi Hc), V.
Qed.

Lemma owner_vertex i cell : (i < n)%nat -> pt_in (cells_of c) cell -> pt_in (L i) cell -> has_vertex c (L i) cell.
Proof.
  intros Hi Hc Hl. exists cell, cell. split; [apply is_image_refl|]. split; [intros d Hd; auto|]. split; [exact Hl|]. apply cells_base, Hc.
Qed.
End Geometry.

(** ** Rows in the order of their points *)

Lemma scatter {A V} (pos : A -> Z) (val : A -> V) l a0 : NoDup (map pos l) -> (forall x, In x l -> 0 <= pos x < Z.of_nat (length a0)) ->
  exists a, ofoldl (fun a x => vwrite a (pos x) (val x)) l a0 = Some a /\ length a = length a0 /\
    forall x, In x l -> vread a (pos x) = Some (val x).
Proof.
  intros ND B.
  destruct (ofoldl_split (fun a x => vwrite a (pos x) (val x))
    (fun done a => length a = length a0 /\ forall x, In x done -> vread a (pos x) = Some (val x)) l) with (s0 := a0) as (a & E & H1 & H2).
  - intros done x todo s -> [H1 H2]. destruct (vwrite_spec s (pos x) (val x)) as (s' & E & Ls & Rs).
    { rewrite H1. apply B. apply in_or_app. right. left. reflexivity. }
    exists s'. split; [exact E|]. split; [congruence|]. intros y Hy. rewrite Rs. apply in_app_or in Hy as [Hy|[<-|[]]].
    + destruct (Z.eqb_spec (pos y) (pos x)) as [Ep|]; [|auto]. exfalso. rewrite map_app in ND. cbn [map] in ND. apply NoDup_remove_2 in ND.
      apply ND. apply in_or_app. left. rewrite <- Ep. apply in_map, Hy.
    + rewrite Z.eqb_refl. reflexivity.
  - split; [reflexivity|intros x []].
  - exists a. auto.
Qed.

Lemma zseq_nth b n k : (k < n)%nat -> nth_error (zseq b n) k = Some (b + Z.of_nat k).
Proof.
  revert b k. induction n as [|n IH]; intros b k H; [lia|]. destruct k as [|k]; cbn [zseq nth_error]; [f_equal; lia|]. rewrite IH by lia. f_equal. lia.
Qed.

Lemma ofold_ext {S A} (f g : S -> A -> option S) l : (forall s a, In a l -> f s a = g s a) -> forall s, ofoldl f l s = ofoldl g l s.
Proof.
  induction l as [|a l IH]; intros H s; [reflexivity|]. cbn [ofoldl]. rewrite H by apply in_eq. destruct (g s a); [|reflexivity].
  apply IH. auto using in_cons.
Qed.

Lemma nth_ext_eq {A} (l : list A) : forall l', length l = length l' -> (forall k, (k < length l)%nat -> nth_error l k = nth_error l' k) -> l = l'.
Proof.
  induction l as [|a l IH]; intros [|b l'] E H; [reflexivity|discriminate|discriminate|].
  pose proof (H 0%nat ltac:(cbn; lia)) as H0. cbn in H0. injection H0 as ->. f_equal. apply IH; [cbn in E; lia|].
  intros k Hk. apply (H (S k)). cbn. lia.
Qed.

Lemma vread_once {A} (l : list A) i j x : NoDup l -> vread l i = Some x -> vread l j = Some x -> i = j.
Proof.
  intros N A1 A2. pose proof (vread_lt _ _ _ A1) as B1. pose proof (vread_lt _ _ _ A2) as B2.
  replace i with (Z.of_nat (Z.to_nat i)) in A1 by lia. replace j with (Z.of_nat (Z.to_nat j)) in A2 by lia. rewrite vread_nth in A1, A2.
  rewrite NoDup_nth_error in N. specialize (N (Z.to_nat i) (Z.to_nat j) ltac:(lia) ltac:(congruence)). lia.
Qed.

Lemma omap_id_some {A} (l : list (option A)) (out : list A) : l = map Some out -> omap (fun x => x) l = Some out.
Proof. intros ->. induction out as [|a out IH]; [reflexivity|]. cbn [map]. rewrite omap_cons, IH. reflexivity. Qed.

Lemma order_vread order m i : Permutation order (zseq 0 m) -> 0 <= i < Z.of_nat m -> exists k, vread order i = Some k /\ 0 <= k < Z.of_nat m.
Proof.
  intros P H. destruct (vread_ge order i) as (k & E); [rewrite (Permutation_length P), zseq_length; exact H|].
  exists k. split; [exact E|]. apply vread_In, (Permutation_in _ P), zseq_In in E. lia.
Qed.

Lemma left_order_ok order m : Permutation order (zseq 0 m) ->
  exists lo, left_order order = Some lo /\ length lo = m /\ forall i k, vread order i = Some k -> vread lo k = Some i.
Proof.
  intros P. assert (Lo : length order = m) by (rewrite (Permutation_length P), zseq_length; reflexivity).
  unfold left_order. rewrite Lo. set (pos := fun i => match vread order i with Some k => k | None => 0 end).
  destruct (scatter pos (fun i => i) (zseq 0 m) (repeat 0 m)) as (lo & E & Ll & H).
  - replace (map pos (zseq 0 m)) with order; [apply (Permutation_NoDup (Permutation_sym P)), zseq_NoDup|].
    apply nth_ext_eq; [rewrite map_length, zseq_length; exact Lo|].
    intros k Hk. rewrite nth_error_map, zseq_nth by lia. cbn [option_map]. unfold pos. rewrite Z.add_0_l, vread_nth.
    destruct (nth_error order k) eqn:E; [reflexivity|]. apply nth_error_None in E. lia.
  - intros i Hi. apply zseq_In in Hi. rewrite repeat_length. unfold pos. destruct (order_vread order m i P ltac:(lia)) as (k & -> & Hk). exact Hk.
  - exists lo. split.
    + rewrite <- E. apply ofold_ext. intros s i Hi. apply zseq_In in Hi. unfold pos.
      destruct (order_vread order m i P ltac:(lia)) as (k & -> & Hk). reflexivity.
    + rewrite repeat_length in Ll. split; [exact Ll|]. intros i k Hi. pose proof (vread_lt _ _ _ Hi). specialize (H i ltac:(apply zseq_In; lia)). unfold pos in H. rewrite Hi in H. exact H.
Qed.

Lemma place_ok {A} (rows : list A) order lo : Permutation order (zseq 0 (length rows)) -> length lo = length rows ->
  (forall i k, vread order i = Some k -> vread lo k = Some i) ->
  exists out, place rows lo = Some out /\ length out = length rows /\ forall i k, vread order i = Some k -> vread out i = vread rows k.
Proof.
  intros P Ll Hlo. set (m := length rows) in *. assert (Lo : length order = m) by (rewrite (Permutation_length P), zseq_length; reflexivity).
  set (pos := fun x : A * Z => match vread lo (snd x) with Some i => i | None => 0 end).
  assert (Inv : forall k, 0 <= k < Z.of_nat m -> exists i, vread order i = Some k).
  { intros k Hk. apply In_vread, (Permutation_in _ (Permutation_sym P)), zseq_In. lia. }
  assert (Lc : length (combine rows (zseq 0 m)) = m) by (rewrite combine_length, zseq_length; unfold m; lia).
  assert (Nc : forall k row, nth_error rows k = Some row -> nth_error (combine rows (zseq 0 m)) k = Some (row, Z.of_nat k)).
  { intros k row Hk. assert (Hl : (k < m)%nat) by (apply nth_error_Some; congruence). rewrite <- (Z.add_0_l (Z.of_nat k)).
    revert Hk. pose proof (zseq_nth 0 m k Hl) as Z1. revert Z1. generalize (0 + Z.of_nat k). clear. revert k. generalize (zseq 0 m). generalize rows.
    induction rows0 as [|a l IH]; intros z k w Z1 Hk; [destruct k; discriminate|]. destruct z as [|b z]; [destruct k; discriminate|].
    destruct k as [|k]; cbn [nth_error combine] in *; [congruence|]. apply IH; auto. }
  assert (Ip : forall x, In x (combine rows (zseq 0 m)) -> exists i, vread rows (snd x) = Some (fst x) /\ vread lo (snd x) = Some i /\ vread order i = Some (snd x)).
  { intros x Hx. apply In_nth_error in Hx as (k & Hk). assert (Hl : (k < m)%nat) by (rewrite <- Lc; apply nth_error_Some; congruence).
    destruct (nth_error rows k) as [row|] eqn:E; [|apply nth_error_None in E; fold m in E; lia].
    rewrite (Nc k row E) in Hk. injection Hk as <-. cbn [fst snd]. destruct (Inv (Z.of_nat k) ltac:(lia)) as (i & Hi). exists i.
    rewrite vread_nth. auto. }
  destruct (scatter pos (fun x => Some (fst x)) (combine rows (zseq 0 m)) (repeat None m)) as (a & E & La & Ha).
  - apply NoDup_nth_error. rewrite map_length, Lc. intros i j Hi Ej. rewrite !nth_error_map in Ej.
    assert (Hj : (j < m)%nat).
    { destruct (nth_error (combine rows (zseq 0 m)) j) eqn:X; [rewrite <- Lc; apply nth_error_Some; congruence|].
      destruct (nth_error (combine rows (zseq 0 m)) i) eqn:Y; [discriminate|]. apply nth_error_None in Y. lia. }
    destruct (nth_error rows i) as [ri|] eqn:Ri; [|apply nth_error_None in Ri; fold m in Ri; lia].
    destruct (nth_error rows j) as [rj|] eqn:Rj; [|apply nth_error_None in Rj; fold m in Rj; lia].
    rewrite (Nc i ri Ri), (Nc j rj Rj) in Ej. cbn [option_map] in Ej. injection Ej as Ej. unfold pos in Ej. cbn [snd] in Ej.
    destruct (Inv (Z.of_nat i) ltac:(lia)) as (x & Hx). destruct (Inv (Z.of_nat j) ltac:(lia)) as (y & Hy).
    rewrite (Hlo _ _ Hx), (Hlo _ _ Hy) in Ej. subst y. rewrite Hx in Hy. injection Hy. lia.
  - intros x Hx. destruct (Ip x Hx) as (i & _ & H2 & H3). unfold pos. rewrite H2, repeat_length. apply vread_lt in H3. lia.
  - assert (Out : forall i k, vread order i = Some k -> exists row, vread rows k = Some row /\ vread a i = Some (Some row)).
    { intros i k Hi. pose proof (vread_In _ _ _ Hi) as Hk. apply (Permutation_in _ P), zseq_In in Hk.
      destruct (vread_ge rows k) as (row & Hr); [fold m; lia|]. exists row. split; [exact Hr|].
      assert (Hx : In (row, k) (combine rows (zseq 0 m))).
      { apply nth_error_In with (n := Z.to_nat k). replace k with (Z.of_nat (Z.to_nat k)) at 2 by lia. apply Nc. rewrite <- vread_nth, Z2Nat.id by lia. exact Hr. }
      specialize (Ha _ Hx). cbn [fst] in Ha. unfold pos in Ha. cbn [snd] in Ha. rewrite (Hlo _ _ Hi) in Ha. exact Ha. }
    set (out := keep a). assert (Ea : a = map Some out).
    { unfold out. assert (All : forall x, In x a -> x <> None).
      { intros x Hx. apply In_vread in Hx as (i & Hi). pose proof (vread_lt _ _ _ Hi) as B. rewrite La, repeat_length in B.
        destruct (order_vread order m i P ltac:(lia)) as (k & Hk & _). destruct (Out i k Hk) as (row & _ & R). congruence. }
      clear -All. induction a as [|[x|] a IH]; [reflexivity| |exfalso; apply (All None); [left; reflexivity|reflexivity]].
      cbn [keep map]. f_equal. apply IH. intros y Hy. apply All. right. exact Hy. }
    exists out. split.
    + unfold place. fold m. replace (ofoldl _ _ _) with (Some a); [apply omap_id_some, Ea|].
      rewrite <- E. apply ofold_ext. intros s x Hx. destruct (Ip x Hx) as (i & _ & H2 & _). unfold pos. rewrite H2. reflexivity.
    + assert (Le : length out = m) by (rewrite Ea, map_length, repeat_length in La; exact La). split; [exact Le|].
      intros i k Hi. destruct (Out i k Hi) as (row & -> & Hr). rewrite Ea, vread_fmap in Hr. destruct (vread out i); cbn [option_map] in Hr; [congruence|discriminate].
Qed.

(** The rows, sorted: every row once, with ascending indices of the destinations. *)
Lemma sorted_rows {A} (dest : A -> tup Z) sort R (rows : list A) : sorts sort -> NoDup (map dest rows) -> (forall x, In x rows -> pt_in R (dest x)) ->
  exists lo out, left_order (sort (map (fun x => rindex ColMajor R (dest x)) rows)) = Some lo /\ place rows lo = Some out /\
    (forall x, In x out <-> In x rows) /\
    (forall i j a b, i < j -> vread out i = Some a -> vread out j = Some b -> rindex ColMajor R (dest a) < rindex ColMajor R (dest b)).
Proof.
  intros HS ND HR. set (keys := map (fun x => rindex ColMajor R (dest x)) rows). destruct (HS keys) as [P Srt].
  assert (Lk : length keys = length rows) by apply map_length. rewrite Lk in P.
  destruct (left_order_ok _ _ P) as (lo & E1 & Ll & Hlo). destruct (place_ok rows _ lo P Ll Hlo) as (out & E2 & Lout & Ho).
  exists lo, out. split; [exact E1|]. split; [exact E2|].
  assert (Lord : length (sort keys) = length rows) by (rewrite (Permutation_length P), zseq_length; reflexivity). split.
  - intros x. split; intros Hx; apply In_vread in Hx as (i & Hi).
    + pose proof (vread_lt _ _ _ Hi). destruct (vread_ge (sort keys) i) as (k & Hk); [lia|]. rewrite (Ho i k Hk) in Hi. eapply vread_In; eauto.
    + pose proof (vread_lt _ _ _ Hi) as B. destruct (In_vread (sort keys) i) as (j & Hj). { apply (Permutation_in _ (Permutation_sym P)), zseq_In. lia. }
      apply (vread_In out j). rewrite (Ho j i Hj). exact Hi.
  - intros i j a b Hij Ha Hb. pose proof (vread_lt _ _ _ Ha). pose proof (vread_lt _ _ _ Hb).
    destruct (vread_ge (sort keys) i) as (ki & Hi); [lia|]. destruct (vread_ge (sort keys) j) as (kj & Hj); [lia|].
    rewrite (Ho i ki Hi) in Ha. rewrite (Ho j kj Hj) in Hb.
    assert (Ka : vread keys ki = Some (rindex ColMajor R (dest a))) by (unfold keys; rewrite vread_fmap, Ha; reflexivity).
    assert (Kb : vread keys kj = Some (rindex ColMajor R (dest b))) by (unfold keys; rewrite vread_fmap, Hb; reflexivity).
    assert (Le : rindex ColMajor R (dest a) <= rindex ColMajor R (dest b)).
    { replace i with (Z.of_nat (Z.to_nat i)) in Hi by lia. replace j with (Z.of_nat (Z.to_nat j)) in Hj by lia. rewrite vread_nth in Hi, Hj.
      pose proof Hj as Hj'. apply nth_error_split in Hj' as (m1 & m2 & Ek & Lm). rewrite Ek, nth_error_app1 in Hi by lia.
      apply nth_error_split in Hi as (m3 & m4 & Ek' & _). apply (Srt m3 ki m4 kj m2 _ _); auto. rewrite Ek, Ek', <- app_assoc. reflexivity. }
    assert (rindex ColMajor R (dest a) <> rindex ColMajor R (dest b)); [|lia].
    intros Eq. apply rindex_inj in Eq; [|apply HR; eapply vread_In; eauto..].
    assert (ki = kj).
    { apply (vread_once (map dest rows) ki kj (dest a) ND); rewrite vread_fmap; [rewrite Ha; reflexivity|rewrite Hb, Eq; reflexivity]. }
    subst kj. pose proof (vread_once (sort keys) i j ki (Permutation_NoDup (Permutation_sym P) (zseq_NoDup _ _)) Hi Hj). lia.
Qed.

(** ** Lists of pairs *)

Lemma lookup_map {A} (f : nat -> A) k l : lookup k (map (fun q => (q, f q)) l) = if memb k l then Some (f k) else None.
Proof.
  unfold lookup, memb. induction l as [|a l IH]; [reflexivity|]. cbn [map find fst existsb]. rewrite (Nat.eqb_sym k a).
  destruct (Nat.eqb_spec a k) as [->|]; [reflexivity|]. exact IH.
Qed.

Lemma lookup_app {A} k (l1 l2 : list (nat * A)) : lookup k (l1 ++ l2) = match lookup k l1 with Some x => Some x | None => lookup k l2 end.
Proof.
  unfold lookup. induction l1 as [|a l IH]; [reflexivity|]. cbn [app find]. destruct (Nat.eqb (fst a) k); [reflexivity|exact IH].
Qed.

Lemma others_In r l q : In q (others r l) <-> In q l /\ q <> r.
Proof. unfold others. rewrite filter_In, negb_true_iff, Nat.eqb_neq. reflexivity. Qed.
Lemma others_NoDup r l : NoDup l -> NoDup (others r l).
Proof. apply NoDup_filter. Qed.

Lemma keep_map {A B} (p : A -> bool) (g : A -> B) l : keep (map (fun a => if p a then Some (g a) else None) l) = map g (filter p l).
Proof. induction l as [|a l IH]; [reflexivity|]. cbn [map filter]. destruct (p a); cbn [keep map]; rewrite IH; reflexivity. Qed.

Lemma sum_lengths {A B} (f : A -> list B) (l : list A) : forall z,
  fold_left Z.add (map (fun a => Z.of_nat (length (f a))) l) z = z + Z.of_nat (length (flat_map f l)).
Proof.
  induction l as [|a l IH]; intros z; cbn [map fold_left flat_map length]; [lia|]. rewrite IH, app_length. lia.
Qed.

(** ** The program *)

Section Fill.
Variables (c : cart) (n : nat) (mem : list nat) (L : nat -> range) (R : range) (D : nat -> list entry) (MG NG : nat -> list nat)
  (sort : nat -> list Z -> list Z).
Hypothesis HI : overlap_input c n mem L R D MG NG.
Hypothesis HS : forall r, (r < n)%nat -> sorts (sort r).

Let HD := oi_grid _ _ _ _ _ _ _ _ HI.

Definition rng (r : nat) : range := match position mem r with Some i => L i | None => c_range c end.
Definition xr (r : nat) : mranges := own_ranges c (rng r).
Definition covb (r : nat) (e : entry) : bool := match map_tuple_to_range c (snd (xr r)) (e_cell e) with Some (Some _) => true | _ => false end.
Definition row_cell (r : nat) (e : entry) : tup Z :=
  match map_tuple_to_range c (fst (xr r)) (e_cell e) with
  | Some (Some v) => v
  | _ => match map_tuple_to_range c (snd (xr r)) (e_cell e) with Some (Some u) => u | _ => e_cell e end
  end.
Definition mk (r : nat) (e : entry) : mdata := MData (row_cell r e) (e_coords e) (e_point e).
Definition num (q r : nat) : Z := Z.of_nat (length (filter (covb r) (D q))).
Definition dat (q r : nat) : list mdata := map (mk r) (filter (covb r) (D q)).
Definition MG' (q : nat) : list nat := filter (fun r => negb (num q r =? 0)) (MG q).
Definition NG' (r : nat) : list nat := filter (fun q => negb (num q r =? 0)) (NG r).
Definition own1 (r : nat) : list (nat * mranges) := match position mem r with Some i => [(r, own_ranges c (L i))] | None => [] end.
Definition rngs (r : nat) : list (nat * mranges) := own1 r ++ map (fun k => (k, xr k)) (others r (MG r)).
Definition allrows (r : nat) : list mrow := flat_map (fun q => rows_from (fst (xr r)) q (dat q r)) (NG' r).

Definition s1 r := OS (D r) (MG r) (NG r) (own1 r) [] [] [] [] [] [].
Definition s2 r := OS (D r) (MG r) (NG r) (rngs r) [] [] [] [] [] [].
Definition s3 r := OS (D r) (MG r) (NG r) (rngs r) (map (fun k => (k, num r k)) (MG r)) [] [] [] [] [].
Definition s4 r := OS (D r) (MG r) (NG r) (rngs r) (map (fun k => (k, num r k)) (MG r)) (map (fun q => (q, num q r)) (NG r)) [] [] [] [].
Definition s5 r := OS (D r) (MG' r) (NG' r) (rngs r) (map (fun k => (k, num r k)) (MG' r)) (map (fun q => (q, num q r)) (NG' r)) [] [] [] [].
Definition s6 r := OS (D r) (MG' r) (NG' r) (rngs r) (map (fun k => (k, num r k)) (MG' r)) (map (fun q => (q, num q r)) (NG' r))
  (map (fun k => (k, dat r k)) (MG' r)) [] [] [].
Definition s7 r := OS (D r) (MG' r) (NG' r) (rngs r) (map (fun k => (k, num r k)) (MG' r)) (map (fun q => (q, num q r)) (NG' r))
  (map (fun k => (k, dat r k)) (MG' r)) (map (fun q => (q, dat q r)) (others r (NG' r))) [] [].
Definition out_m r := match ov_fill_m c mem L R sort r (s7 r) with Some s => o_m s | None => [] end.
Definition s8 r := OS (D r) (MG' r) (NG' r) (rngs r) (map (fun k => (k, num r k)) (MG' r)) (map (fun q => (q, num q r)) (NG' r))
  (map (fun k => (k, dat r k)) (MG' r)) (map (fun q => (q, dat q r)) (others r (NG' r))) (out_m r) [].
Definition src_of r e := match source_rank (rngs r) (e_cell e) (MG' r) with Some k => k | None => -1 end.
Definition s9 r := OS (D r) (MG' r) (NG' r) (rngs r) (map (fun k => (k, num r k)) (MG' r)) (map (fun q => (q, num q r)) (NG' r))
  (map (fun k => (k, dat r k)) (MG' r)) (map (fun q => (q, dat q r)) (others r (NG' r))) (out_m r)
  (map (fun e => NRow (e_point e) (e_cell e) (src_of r e)) (D r)).

(** Ranks of the M grid *)

Lemma rng_nth i r : nth_error mem i = Some r -> rng r = L i /\ (i < length mem)%nat.
Proof.
  intros H. unfold rng. rewrite (nth_position mem i r (proj1 (oi_mem _ _ _ _ _ _ _ _ HI)) H). split; [reflexivity|]. apply nth_error_Some. congruence.
Qed.
Lemma mem_nth r : In r mem -> exists i, nth_error mem i = Some r.
Proof. apply In_nth_error. Qed.
Lemma mem_lt r : In r mem -> (r < n)%nat.
Proof. apply (proj2 (oi_mem _ _ _ _ _ _ _ _ HI)). Qed.
Lemma MG_mem q r : (q < n)%nat -> In r (MG q) -> In r mem.
Proof. intros Hq. apply (proj2 (oi_m _ _ _ _ _ _ _ _ HI q Hq)). Qed.
Lemma MG_lt q r : (q < n)%nat -> In r (MG q) -> (r < n)%nat.
Proof. intros Hq H. apply mem_lt, (MG_mem q); auto. Qed.
Lemma NG_lt r q : (r < n)%nat -> In q (NG r) -> (q < n)%nat.
Proof. intros Hr. apply (proj2 (oi_n _ _ _ _ _ _ _ _ HI r Hr)). Qed.
Lemma mutual q r : (q < n)%nat -> (r < n)%nat -> (In r (MG q) <-> In q (NG r)).
Proof. apply (oi_mutual _ _ _ _ _ _ _ _ HI). Qed.
Lemma NG_mem r q : (r < n)%nat -> In q (NG r) -> In r mem.
Proof. intros Hr H. apply (MG_mem q); [eapply NG_lt; eauto|]. apply mutual; auto. eapply NG_lt; eauto. Qed.
Lemma mutual' q r : (q < n)%nat -> (r < n)%nat -> (In r (MG' q) <-> In q (NG' r)).
Proof. intros Hq Hr. unfold MG', NG'. rewrite !filter_In, mutual by auto. reflexivity. Qed.
Lemma MG'_in q r : In r (MG' q) -> In r (MG q).
Proof. intros H. apply filter_In in H. tauto. Qed.
Lemma NG'_in q r : In r (NG' q) -> In r (NG q).
Proof. intros H. apply filter_In in H. tauto. Qed.

Lemma own1_eq r : In r mem -> own1 r = [(r, xr r)].
Proof. intros H. unfold own1, xr, rng. destruct (position mem r) eqn:E; [reflexivity|]. apply position_none in E. contradiction. Qed.

Lemma rngs_lookup r k : (r < n)%nat -> In k (MG r) -> lookup k (rngs r) = Some (xr k).
Proof.
  intros Hr H. unfold rngs. rewrite lookup_app, lookup_map. destruct (Nat.eq_dec k r) as [->|N].
  - rewrite own1_eq by (eapply MG_mem; eauto). unfold lookup. cbn [find fst]. rewrite Nat.eqb_refl. reflexivity.
  - assert (E : lookup k (own1 r) = None).
    { unfold own1. destruct (position mem r); [|reflexivity]. unfold lookup. cbn [find fst]. destruct (Nat.eqb_spec r k); [congruence|reflexivity]. }
    rewrite E. rewrite (proj2 (memb_In k _)); [reflexivity|]. apply others_In. auto.
Qed.

(** Entries *)

Lemma entry_cell q e : (q < n)%nat -> In e (D q) -> pt_in (cells_of c) (e_cell e).
Proof. intros Hq H. apply (oi_entries _ _ _ _ _ _ _ _ HI q e Hq H). Qed.

Lemma covered_spec i r q e : nth_error mem i = Some r -> (q < n)%nat -> In e (D q) ->
  covered_entry c (xr r) e = Some (covb r e) /\ pack_entry c (xr r) e = Some (if covb r e then Some (mk r e) else None) /\
  (has_vertex c (L i) (e_cell e) -> covb r e = true) /\
  (covb r e = true -> is_image c (e_cell e) (row_cell r e) /\ (exists v, corner (c_nd c) (row_cell r e) v /\ pt_in (L i) v)) /\
  (pt_in (L i) (e_cell e) -> row_cell r e = e_cell e) /\
  (covb r e = true -> rcontains (fst (xr r)) (row_cell r e) = true <-> pt_in (L i) (e_cell e)).
Proof.
  intros Hi Hq He. destruct (rng_nth i r Hi) as [Er Hl]. pose proof (entry_cell q e Hq He) as Hc.
  destruct (cover_map c (length mem) L HD i (e_cell e) Hl Hc) as (res & E1 & H1).
  destruct (own_map c (length mem) L HD i (e_cell e) Hl Hc) as (res2 & E2 & H2).
  unfold covered_entry, pack_entry, covb, mk, row_cell, xr, own_ranges. cbn [fst snd]. rewrite Er, E1, E2.
  split; [destruct res; reflexivity|]. split; [destruct res, res2; reflexivity|].
  split; [intros V; destruct res; [reflexivity|contradiction]|]. split; [|split].
  - intros C. destruct res as [u|]; [|discriminate]. destruct H1 as [Im V]. destruct res2 as [v|].
    + destruct H2 as [-> Hin]. split; [apply is_image_refl|]. exists (e_cell e). split; [intros d Hd; auto|exact Hin].
    + split; [exact Im|exact V].
  - intros P. destruct res2 as [v|]; [tauto|contradiction].
  - intros C. destruct res as [u|]; [|discriminate]. destruct H1 as [Im V]. rewrite rcontains_spec. destruct res2 as [v|].
    + destruct H2 as [-> Hin]. rewrite (own_cell c (length mem) L HD i _ Hl Hc). reflexivity.
    + split; [|intros P; contradiction]. intros P. exfalso. pose proof (own_image c (length mem) L HD i _ _ Hl Hc Im P). subst u.
      apply H2. apply (own_cell c (length mem) L HD i _ Hl Hc), P.
Qed.

Lemma covered_all r q : In r mem -> (q < n)%nat ->
  omap (covered_entry c (xr r)) (D q) = Some (map (covb r) (D q)) /\
  omap (pack_entry c (xr r)) (D q) = Some (map (fun e => if covb r e then Some (mk r e) else None) (D q)).
Proof.
  intros Hr Hq. destruct (mem_nth r Hr) as (i & Hi). split; apply omap_map; intros e He; apply (covered_spec i r q e Hi Hq He).
Qed.

Lemma num_zero q r : num q r = 0 -> filter (covb r) (D q) = [].
Proof. unfold num. destruct (filter (covb r) (D q)); [reflexivity|cbn [length]; lia]. Qed.

(** All ranks with a vertex of the cell are left. *)
Lemma left_told i r q e : nth_error mem i = Some r -> (q < n)%nat -> In e (D q) -> has_vertex c (L i) (e_cell e) -> In r (MG' q) /\ covb r e = true.
Proof.
  intros Hi Hq He V. assert (C : covb r e = true) by (apply (covered_spec i r q e Hi Hq He), V). split; [|exact C].
  apply filter_In. split; [apply (oi_told _ _ _ _ _ _ _ _ HI q e i r); auto|]. apply negb_true_iff, Z.eqb_neq. intros Z0. apply num_zero in Z0.
  assert (In e (filter (covb r) (D q))) by (apply filter_In; auto). rewrite Z0 in H. contradiction.
Qed.

Lemma cells_in p : pt_in (cells_of c) p -> pt_in (c_range c) p.
Proof.
  rewrite !pt_in_tget. intros H d Hd. specialize (H d Hd). destruct (cells_bounds c (length mem) L HD d Hd) as [B1 B2].
  pose proof HD as (_ & _ & _ & Dc & _). destruct (Nat.ltb_spec d (c_nd c)); [destruct (_ && _)%bool; lia|]. destruct (Dc d ltac:(lia)). lia.
Qed.

Lemma owner q e : (q < n)%nat -> In e (D q) -> exists i k, nth_error mem i = Some k /\ pt_in (L i) (e_cell e) /\ In k (MG' q).
Proof.
  intros Hq He. pose proof (entry_cell q e Hq He) as Hc. destruct (L_owner c (length mem) L HD (e_cell e) (cells_in _ Hc)) as (i & Hi & Hp).
  destruct (nth_error mem i) as [k|] eqn:E; [|apply nth_error_None in E; lia]. exists i, k. split; [exact E|]. split; [exact Hp|].
  apply (left_told i k q e E Hq He), (owner_vertex c (length mem) L HD i _ Hi Hc Hp).
Qed.

(** Phases *)

Lemma ranges_ok : phase_ok n (wait_all ranges_recvs ranges_sends ranges_done : phase ost omsg) s1 s2.
Proof.
  apply single_phase with (g := fun s _ => MsgRanges (xr s)) (src := fun r => others r (MG r)) (dst := fun r => others r (NG r)).
  - intros r Hr. apply others_NoDup, (oi_m _ _ _ _ _ _ _ _ HI r Hr).
  - intros r Hr. apply others_NoDup, (oi_n _ _ _ _ _ _ _ _ HI r Hr).
  - intros r s Hr H. apply others_In in H as [H _]. eapply MG_lt; eauto.
  - intros r s Hr H. apply others_In in H as [H _]. eapply NG_lt; eauto.
  - intros r s Hr Hs. rewrite !others_In, mutual by auto. intuition.
  - reflexivity.
  - intros r Hr. unfold ranges_sends. cbn [o_ranges o_ng s1]. destruct (in_dec Nat.eq_dec r mem) as [M|M].
    + rewrite own1_eq by exact M. unfold lookup. cbn [find fst]. rewrite Nat.eqb_refl. reflexivity.
    + assert (E : NG r = []). { destruct (NG r) as [|q l] eqn:E; [reflexivity|]. exfalso. apply M, (NG_mem r q Hr). rewrite E. left. reflexivity. }
      rewrite E. destruct (lookup r (own1 r)); reflexivity.
  - intros r Hr. unfold ranges_done. rewrite (omap_comp _ _ (fun s => xr s)) by reflexivity. cbn [o_mg s1]. rewrite combine_map_r. reflexivity.
Qed.

Lemma count_ok : phase_ok n (Local (ov_count c) : phase ost omsg) s2 s3.
Proof.
  intros r Hr. unfold ov_count. cbn [o_data o_mg o_ranges s2].
  rewrite (omap_map _ (fun k => (k, num r k))); [reflexivity|]. intros k Hk. unfold num.
  pose proof (proj1 (covered_all k r (MG_mem r k Hr Hk) Hr)) as E. destruct (D r) as [|e l]; [reflexivity|].
  rewrite (rngs_lookup r k Hr Hk), E. f_equal. f_equal. f_equal. rewrite filter_map, map_length. reflexivity.
Qed.

Lemma counts_ok : phase_ok n (wait_all count_recvs count_sends count_done : phase ost omsg) s3 s4.
Proof.
  apply single_phase with (g := fun s d => MsgCount (num s d)) (src := fun r => NG r) (dst := fun r => MG r).
  - intros r Hr. apply (oi_n _ _ _ _ _ _ _ _ HI r Hr).
  - intros r Hr. apply (oi_m _ _ _ _ _ _ _ _ HI r Hr).
  - intros r s Hr H. eapply NG_lt; eauto.
  - intros r s Hr H. eapply MG_lt; eauto.
  - intros r s Hr Hs. symmetry. apply mutual; auto.
  - reflexivity.
  - intros r Hr. unfold count_sends. cbn [o_mnum s3]. rewrite map_map. reflexivity.
  - intros r Hr. unfold count_done. rewrite (omap_comp _ _ (fun s => num s r)) by reflexivity. cbn [o_ng s3]. rewrite combine_map_r. reflexivity.
Qed.

Lemma erase_list (f : nat -> Z) l :
  filter (contains (some_left (map (fun k => (k, f k)) l))) l = filter (fun k => negb (f k =? 0)) l /\
  some_left (map (fun k => (k, f k)) l) = map (fun k => (k, f k)) (filter (fun k => negb (f k =? 0)) l).
Proof.
  assert (E : some_left (map (fun k => (k, f k)) l) = map (fun k => (k, f k)) (filter (fun k => negb (f k =? 0)) l)).
  { unfold some_left. rewrite filter_map. reflexivity. }
  split; [|exact E]. rewrite E. apply filter_ext_in'. intros k Hk. unfold contains. rewrite lookup_map.
  destruct (memb k (filter (fun k => negb (f k =? 0)) l)) eqn:M.
  - apply memb_In, filter_In in M. symmetry. apply M.
  - apply memb_false in M. symmetry. destruct (negb (f k =? 0)) eqn:F; [|reflexivity]. exfalso. apply M, filter_In. auto.
Qed.

Lemma erase_ok : phase_ok n (Local ov_erase : phase ost omsg) s4 s5.
Proof.
  intros r Hr. unfold ov_erase. cbn [o_mnum o_nnum o_mg o_ng s4].
  destruct (erase_list (fun k => num r k) (MG r)) as [E1 E2]. destruct (erase_list (fun q => num q r) (NG r)) as [E3 E4].
  rewrite E1, E2, E3, E4. reflexivity.
Qed.

Lemma pack_ok : phase_ok n (Local (ov_pack c) : phase ost omsg) s5 s6.
Proof.
  intros r Hr. unfold ov_pack. cbn [o_data o_mg o_ranges o_mnum s5].
  rewrite (omap_map _ (fun k => (k, dat r k))); [reflexivity|]. intros k Hk. rewrite lookup_map, (proj2 (memb_In _ _) Hk).
  apply MG'_in in Hk. rewrite (rngs_lookup r k Hr Hk). rewrite (proj2 (covered_all k r (MG_mem r k Hr Hk) Hr)), keep_map.
  unfold num, dat. rewrite map_length, Z.eqb_refl. reflexivity.
Qed.

Lemma data_ok : phase_ok n (wait_all data_recvs data_sends data_done : phase ost omsg) s6 s7.
Proof.
  apply single_phase with (g := fun s d => MsgData (dat s d)) (src := fun r => others r (NG' r)) (dst := fun r => others r (MG' r)).
  - intros r Hr. apply others_NoDup, NoDup_filter, (oi_n _ _ _ _ _ _ _ _ HI r Hr).
  - intros r Hr. apply others_NoDup, NoDup_filter, (oi_m _ _ _ _ _ _ _ _ HI r Hr).
  - intros r s Hr H. apply others_In in H as [H _]. apply NG'_in in H. eapply NG_lt; eauto.
  - intros r s Hr H. apply others_In in H as [H _]. apply MG'_in in H. eapply MG_lt; eauto.
  - intros r s Hr Hs. rewrite !others_In, mutual' by auto. intuition.
  - reflexivity.
  - intros r Hr. unfold data_sends. cbn [o_send s6]. rewrite filter_map, map_map. reflexivity.
  - intros r Hr. unfold data_done. cbn [o_ng o_nnum s6]. rewrite combine_map_r.
    rewrite (omap_comp _ _ (fun q => (q, dat q r))); [reflexivity|]. intros q Hq. cbn [fst snd]. apply others_In in Hq as [Hq _].
    rewrite lookup_map, (proj2 (memb_In _ _) Hq). unfold num, dat. rewrite map_length, Z.eqb_refl. reflexivity.
Qed.

Lemma allrows_In i r row : nth_error mem i = Some r -> (In row (allrows r) <-> exists q e, In q (NG' r) /\ In e (D q) /\ covb r e = true /\
   row = MRow (row_cell r e) (e_coords e) (e_point e) (if rcontains (fst (xr r)) (row_cell r e) then Z.of_nat q else -1)).
Proof.
  intros Hi. unfold allrows, rows_from, dat. rewrite in_flat_map. split.
  - intros (q & Hq & H). rewrite map_map in H. apply in_map_iff in H as (e & <- & He). apply filter_In in He as [H1 H2]. exists q, e. auto.
  - intros (q & e & Hq & He & C & ->). exists q. split; [exact Hq|]. rewrite map_map. apply in_map_iff. exists e. split; [reflexivity|]. apply filter_In. auto.
Qed.

Lemma allrows_NoDup r : (r < n)%nat -> NoDup (map mr_dest (allrows r)).
Proof.
  intros Hr. unfold allrows. rewrite map_flat_map. apply NoDup_flat_map.
  - apply NoDup_filter, (oi_n _ _ _ _ _ _ _ _ HI r Hr).
  - intros q Hq. unfold rows_from, dat. rewrite !map_map. cbn [mr_dest md_dest mk].
    apply NG'_in in Hq. pose proof (oi_points _ _ _ _ _ _ _ _ HI q (NG_lt r q Hr Hq)) as ND. revert ND. generalize (D q). clear.
    induction l as [|e l IH]; intros ND; [constructor|]. cbn [map filter] in *. inversion ND; subst. destruct (covb r e); [|auto].
    cbn [map]. constructor; [|auto]. intros H. apply H1. apply in_map_iff in H as (x & E & Hx). apply filter_In in Hx as [Hx _]. rewrite <- E. apply in_map, Hx.
  - intros q q' x Hq Hq' Hx Hx'. unfold rows_from, dat in Hx, Hx'. rewrite !map_map in Hx, Hx'. apply in_map_iff in Hx as (e & <- & He). apply in_map_iff in Hx' as (e' & E & He').
    apply filter_In in He as [He _]. apply filter_In in He' as [He' _]. cbn [mr_dest md_dest mk] in E. apply NG'_in in Hq. apply NG'_in in Hq'.
    apply (oi_ranks _ _ _ _ _ _ _ _ HI q q' e e'); eauto using NG_lt.
Qed.

Lemma fill_m_spec r : (r < n)%nat -> ov_fill_m c mem L R sort r (s7 r) = Some (s8 r) /\
  (forall x, In x (out_m r) <-> In x (allrows r)) /\
  (forall i j a b, i < j -> vread (out_m r) i = Some a -> vread (out_m r) j = Some b -> rindex ColMajor R (mr_dest a) < rindex ColMajor R (mr_dest b)).
Proof.
  intros Hr. unfold s8. assert (G : exists out, ov_fill_m c mem L R sort r (s7 r) = Some (OS (D r) (MG' r) (NG' r) (rngs r) (map (fun k => (k, num r k)) (MG' r)) (map (fun q => (q, num q r)) (NG' r))
      (map (fun k => (k, dat r k)) (MG' r)) (map (fun q => (q, dat q r)) (others r (NG' r))) out []) /\
    (forall x, In x out <-> In x (allrows r)) /\
    (forall i j a b, i < j -> vread out i = Some a -> vread out j = Some b -> rindex ColMajor R (mr_dest a) < rindex ColMajor R (mr_dest b))).
  2:{ destruct G as (out & E & H). unfold out_m. rewrite E. cbn [o_m]. auto. }
  unfold ov_fill_m. cbn [o_ng o_data o_mg o_ranges o_mnum o_nnum o_send o_recv o_n s7].
  destruct (NG' r) as [|q0 l0] eqn:EN.
  - exists []. unfold s7, allrows. rewrite EN. split; [reflexivity|]. split; [reflexivity|]. intros i j a b _ H _. apply vread_lt in H. cbn in H. lia.
  - rewrite <- EN in *.
    assert (M : In r mem). { apply (NG_mem r q0 Hr), NG'_in. rewrite EN. left. reflexivity. }
    destruct (mem_nth r M) as (i & Hi). destruct (rng_nth i r Hi) as [Er Hl].
    rewrite (nth_position mem i r (proj1 (oi_mem _ _ _ _ _ _ _ _ HI)) Hi).
    assert (Own : range_point_to_cell c (L i) = fst (xr r)) by (unfold xr, own_ranges; cbn [fst]; rewrite Er; reflexivity). rewrite Own.
    rewrite (omap_map _ (fun q => (num q r, rows_from (fst (xr r)) q (dat q r)))).
    2:{ intros q Hq. unfold data_from. cbn [o_send o_recv s7]. rewrite (lookup_map (fun q => num q r)), (proj2 (memb_In _ _) Hq).
        pose proof (NG'_in _ _ Hq) as Hq'. pose proof (NG_lt r q Hr Hq') as Lq. destruct (Nat.eqb_spec q r) as [->|Nq].
        - rewrite lookup_map, (proj2 (memb_In r (MG' r))); [reflexivity|]. apply mutual'; auto.
        - rewrite lookup_map, (proj2 (memb_In q (others r (NG' r)))); [reflexivity|]. apply others_In. auto. }
    rewrite !map_map. cbn [fst snd]. rewrite <- flat_map_concat_map. fold (allrows r).
    assert (Len : Z.of_nat (length (allrows r)) = fold_left Z.add (map (fun q => num q r) (NG' r)) 0).
    { unfold num. rewrite sum_lengths. unfold allrows, rows_from, dat. rewrite Z.add_0_l. f_equal. generalize (NG' r). clear.
      induction l as [|q l IH]; [reflexivity|]. cbn [flat_map]. rewrite !app_length, IH, !map_length. reflexivity. }
    rewrite (proj2 (Z.eqb_eq _ _) Len).
    destruct (sorted_rows mr_dest (sort r) R (allrows r) (HS r Hr) (allrows_NoDup r Hr)) as (lo & out & E1 & E2 & H1 & H2).
    { intros x Hx. apply (allrows_In i r x Hi) in Hx as (q & e & Hq & He & _ & ->). cbn [mr_dest]. apply NG'_in in Hq.
      apply (oi_entries _ _ _ _ _ _ _ _ HI q e (NG_lt r q Hr Hq) He). }
    rewrite E1, E2. exists out. auto.
Qed.

Lemma source_ok q e : (q < n)%nat -> In e (D q) -> exists i k, nth_error mem i = Some k /\ pt_in (L i) (e_cell e) /\
  source_rank (rngs q) (e_cell e) (MG' q) = Some (Z.of_nat k).
Proof.
  intros Hq He. destruct (owner q e Hq He) as (i & k & Hi & Hp & Hk). exists i, k. split; [exact Hi|]. split; [exact Hp|].
  pose proof (entry_cell q e Hq He) as Hc.
  assert (Q : forall ks, (forall x, In x ks -> In x (MG q)) -> In k ks -> source_rank (rngs q) (e_cell e) ks = Some (Z.of_nat k)).
  { induction ks as [|x ks IH]; intros Sub Hin; [contradiction|]. cbn [source_rank]. pose proof (Sub x (or_introl eq_refl)) as Hx. rewrite (rngs_lookup q x Hq Hx).
    destruct (mem_nth x (MG_mem q x Hq Hx)) as (j & Hj). destruct (rng_nth j x Hj) as [Ej Lj]. destruct (rng_nth i k Hi) as [_ Li].
    destruct (rcontains (fst (xr x)) (e_cell e)) eqn:Rc.
    - apply rcontains_spec in Rc. unfold xr, own_ranges in Rc. cbn [fst] in Rc. rewrite Ej in Rc. apply (own_cell c (length mem) L HD j _ Lj Hc) in Rc.
      rewrite (L_unique c (length mem) L HD j i (e_cell e) Lj Li Rc Hp) in Hj. congruence.
    - apply IH; [intros y Hy; apply Sub; right; exact Hy|]. destruct Hin as [->|Hin]; [|exact Hin]. exfalso.
      assert (j = i). { pose proof (proj1 (oi_mem _ _ _ _ _ _ _ _ HI)) as ND. rewrite NoDup_nth_error in ND. apply ND; congruence. } subst j.
      assert (rcontains (fst (xr k)) (e_cell e) = true); [|congruence]. apply rcontains_spec. unfold xr, own_ranges. cbn [fst]. rewrite Ej.
      apply (own_cell c (length mem) L HD i _ Li Hc), Hp. }
  apply Q; [|exact Hk]. intros x Hx. apply MG'_in, Hx.
Qed.

Lemma fill_n_ok : phase_ok n (Local ov_fill_n : phase ost omsg) s8 s9.
Proof.
  intros r Hr. unfold ov_fill_n, s9. cbn [o_ng o_data o_mg o_ranges o_mnum o_nnum o_send o_recv o_m s8].
  destruct (MG' r) as [|k0 l0] eqn:EM.
  - assert (ED : D r = []). { destruct (D r) as [|e l] eqn:E; [reflexivity|]. destruct (owner r e Hr) as (i & k & _ & _ & H); [rewrite E; left; reflexivity|]. rewrite EM in H. contradiction. }
    unfold s8. rewrite ED, EM. reflexivity.
  - rewrite <- EM. rewrite (omap_map _ (fun e => NRow (e_point e) (e_cell e) (src_of r e))); [reflexivity|].
    intros e He. unfold src_of. destruct (source_ok r e Hr He) as (i & k & _ & _ & E). rewrite E. reflexivity.
Qed.

Lemma fill_prog : prog_ok n (overlap_fill c mem L R sort) (fun r => OS0 (D r) (MG r) (NG r)) s9.
Proof.
  exists s1. split; [intros r Hr; reflexivity|]. exists s2. split; [exact ranges_ok|]. exists s3. split; [exact count_ok|].
  exists s4. split; [exact counts_ok|]. exists s5. split; [exact erase_ok|]. exists s6. split; [exact pack_ok|]. exists s7. split; [exact data_ok|].
  exists s8. split; [intros r Hr; apply (fill_m_spec r Hr)|]. exists s9. split; [exact fill_n_ok|]. intros r Hr. reflexivity.
Qed.

Lemma fill_sides : (forall i r, nth_error mem i = Some r -> m_side c n (L i) R D (o_m (s9 r))) /\
  (forall r, (r < n)%nat -> ~ In r mem -> o_m (s9 r) = []) /\
  (forall q, (q < n)%nat -> n_side mem L (D q) (o_n (s9 q))).
Proof.
  split; [|split].
  - intros i r Hi. assert (Hr : (r < n)%nat) by (apply mem_lt; eapply nth_error_In; eauto). cbn [o_m s9].
    destruct (fill_m_spec r Hr) as (_ & H1 & H2). split; [exact H2|]. split.
    + intros row Hrow. apply H1, (allrows_In i r row Hi) in Hrow as (q & e & Hq & He & C & ->). apply NG'_in in Hq. pose proof (NG_lt r q Hr Hq) as Lq.
      destruct (covered_spec i r q e Hi Lq He) as (_ & _ & _ & A & B & X). destruct (A C) as [Im V]. exists q, e. cbn [mr_dest mr_coords mr_cell mr_rank].
      split; [exact Lq|]. split; [exact He|]. split; [reflexivity|]. split; [reflexivity|]. split; [exact Im|]. split; [exact V|].
      specialize (X C). destruct (rcontains (fst (xr r)) (row_cell r e)).
      * left. pose proof (proj1 X eq_refl) as P. split; [exact P|]. split; [apply B, P|reflexivity].
      * right. split; [intros P; discriminate (proj2 X P)|reflexivity].
    + intros q e Hq He V. destruct (left_told i r q e Hi Hq He V) as [HM C].
      exists (MRow (row_cell r e) (e_coords e) (e_point e) (if rcontains (fst (xr r)) (row_cell r e) then Z.of_nat q else -1)). split; [|reflexivity].
      apply H1, (allrows_In i r _ Hi). exists q, e. split; [apply (mutual' q r Hq Hr); exact HM|]. auto.
  - intros r Hr M. cbn [o_m s9]. destruct (fill_m_spec r Hr) as (_ & H1 & _). destruct (out_m r) as [|x l]; [reflexivity|]. exfalso.
    pose proof (proj1 (H1 x) (or_introl eq_refl)) as H. unfold allrows in H. apply in_flat_map in H as (q & Hq & _). apply M, (NG_mem r q Hr), NG'_in, Hq.
  - intros q Hq. cbn [o_n s9]. unfold n_side.
    assert (G : forall l, (forall e, In e l -> In e (D q)) -> Forall2 (fun e row => nr_point row = e_point e /\ nr_source row = e_cell e /\
      exists i k, nth_error mem i = Some k /\ pt_in (L i) (e_cell e) /\ nr_rank row = Z.of_nat k) l (map (fun e => NRow (e_point e) (e_cell e) (src_of q e)) l)).
    { induction l as [|e l IH]; intros Sub; constructor; [|apply IH; intros; apply Sub; right; auto].
      cbn [nr_point nr_source nr_rank]. split; [reflexivity|]. split; [reflexivity|]. destruct (source_ok q e Hq (Sub e (or_introl eq_refl))) as (i & k & A & B & E).
      exists i, k. split; [exact A|]. split; [exact B|]. unfold src_of. rewrite E. reflexivity. }
    apply G. auto.
Qed.

Theorem fill_correct : exists S', computes n (overlap_fill c mem L R sort) (fun r => OS0 (D r) (MG r) (NG r)) S' /\
  (forall i r, nth_error mem i = Some r -> m_side c n (L i) R D (o_m (S' r))) /\
  (forall r, (r < n)%nat -> ~ In r mem -> o_m (S' r) = []) /\
  (forall q, (q < n)%nat -> n_side mem L (D q) (o_n (S' q))).
Proof. exists s9. split; [apply prog_computes, fill_prog|exact fill_sides]. Qed.
End Fill.
