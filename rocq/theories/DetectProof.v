(** The detection of overlap finds the best cell of the whole grid for every point (C77). *)
From Coq Require Import List ZArith Bool QArith Lia Lqa Sorting.Sorted.
From Verif Require Import TupleModel RangeModel Base RangeProof CartModel CartProof DecompModel DecompProof IndexerModel ArrayModel HashModel HashProof HashSpec.
From Verif Require Import NeighSpec NeighProof CellModel CellSpec CellProof GeomModel AccelModel AccelSpec AccelProof FragModel FragSpec FragProof DetectModel.
From Verif Require BoxModel BoxProof.
Import ListNotations.
Local Open Scope Z_scope.

Lemma better_index rnd nd u v i j i' j' : (j <? i) = (j' <? i') -> better_cell rnd nd u v i j = better_cell rnd nd u v i' j'.
Proof. intros E. unfold better_cell. rewrite E. reflexivity. Qed.

Lemma index_order R R' p q : pt_in R p -> pt_in R q -> pt_in R' p -> pt_in R' q ->
  (rindex ColMajor R p <? rindex ColMajor R q) = (rindex ColMajor R' p <? rindex ColMajor R' q).
Proof.
  intros A B A' B'. pose proof (rindex_before R p q A B). pose proof (rindex_before R' p q A' B').
  apply eq_true_iff_eq. rewrite !Z.ltb_lt. tauto.
Qed.

Lemma box_in_contains b x : BoxProof.box_in (BoxModel.mkB (bb b) (be b)) x <-> box_contains b x = true.
Proof.
  rewrite contains_spec. unfold BoxProof.box_in. cbn [BoxModel.bb BoxModel.be]. split.
  - intros H d Hd. destruct d as [|[|[|]]]; try lia; cbn [tget]; tauto || (cbn in H; tauto).
  - intros H. pose proof (H 0%nat ltac:(lia)). pose proof (H 1%nat ltac:(lia)). pose proof (H 2%nat ltac:(lia)). cbn [tget] in *. tauto.
Qed.

Section Detect.
Variable rnd : Q -> Q.
Variables (g : geometry) (c : cart) (n : nat) (L : nat -> range) (stop : range -> bool) (depth : nat -> nat) (active : tup Z -> bool).
Variables (X : tup Z -> tup Q) (O : nat -> range -> tup (tup Q)) (maxtol : Q).
Variables (leaf : nat -> range -> list (Z * BoxModel.box) -> bool) (scale : nat -> range -> Q) (levels : nat -> range -> nat -> nat).
Variables (loc : range) (nactive : tup Z -> bool) (Y : tup Z -> tup Q) (tol : Q).
Hypothesis HR : rounding rnd.
Hypothesis HD : decomposed c n L.

Let nd := c_nd c.
Let cc := cart_point_to_cell c.
Let cells := c_range cc.
Let frs r := fragments c L stop depth active r.

(** What the tests on a fragment say of a cell and a point. *)
Definition accepted (r : nat) (f : range) (p cell : tup Z) (u : tup Q) : Prop :=
  overlaps_cell g nd (fragment_coords X O r f) tol cell (oriented (O r f) (Y p)) = true /\
  coords_in_cell g nd (fragment_extents c f) (fragment_coords X O r f) cell (oriented (O r f) (Y p)) = Some u.

Definition cand (p cell : tup Z) (u : tup Q) : Prop :=
  active cell = true /\ exists r f, (r < n)%nat /\ In f (frs r) /\ pt_in f cell /\ accepted r f p cell u.

Lemma HNd : (1 <= nd <= 3)%nat. Proof. apply HD. Qed.
Lemma Hdims : dims_ok nd (c_range c). Proof. apply HD. Qed.

Lemma frag_cells r f cell : (r < n)%nat -> In f (frs r) -> pt_in f cell -> pt_in cells cell /\ pt_in (L r) cell.
Proof.
  intros Hr Hf Hc. destruct (fragments_ok c n L stop depth active HD r Hr) as (F1 & _). destruct (F1 f Hf) as [S _].
  destruct (proj1 (own_cells c n L HD r cell Hr) (S cell Hc)); auto.
Qed.

(** A cell is in one fragment of one rank. *)
Lemma frag_unique r f r' f' cell : (r < n)%nat -> In f (frs r) -> pt_in f cell -> (r' < n)%nat -> In f' (frs r') -> pt_in f' cell -> r = r' /\ f = f'.
Proof.
  intros Hr Hf Hc Hr' Hf' Hc'. destruct (frag_cells r f cell Hr Hf Hc) as [_ A]. destruct (frag_cells r' f' cell Hr' Hf' Hc') as [_ A'].
  assert (r = r') by (eapply (L_unique c n L HD); eauto). subst r'. split; auto.
  destruct (fragments_ok c n L stop depth active HD r Hr) as (_ & _ & F3).
  apply In_nth_error in Hf as [i Hi]. apply In_nth_error in Hf' as [j Hj]. specialize (F3 i j f f' cell Hi Hj Hc Hc'). congruence.
Qed.

Lemma all_fragments_In r f : In (r, f) (all_fragments c n L stop depth active) <-> (r < n)%nat /\ In f (frs r).
Proof.
  unfold all_fragments. rewrite in_flat_map. split.
  - intros (r' & Hr & H). apply in_seq in Hr. apply in_map_iff in H as (f' & E & H). injection E as -> ->. split; [lia|exact H].
  - intros [Hr Hf]. exists r. split; [apply in_seq; lia|]. apply in_map. exact Hf.
Qed.

(** Where the point is in the scaled box of a cell, it is in the box of the fragment. *)
Lemma frag_contains r f p cell : (r < n)%nat -> In f (frs r) -> pt_in f cell -> active cell = true ->
  BoxProof.box_in (fragment_bounds c X O maxtol r f cell) (oriented (O r f) (Y p)) -> fragment_contains c active X O maxtol r (Y p) f = true.
Proof.
  intros Hr Hf Hc A B. unfold fragment_bounds in B. apply box_in_contains in B. unfold fragment_contains, fragment_box. apply box_cells. right.
  exists cell. split; [|split; [exact A|exact B]]. apply foreach_col_In. apply cell_cover_spec. intros d Hd.
  destruct (frag_cells r f cell Hr Hf Hc) as [P _]. rewrite pt_in_tget in Hc, P. specialize (Hc d Hd). specialize (P d Hd).
  change (c_nd (cart_point_to_cell c)) with nd. destruct (Nat.ltb_spec d nd) as [Hn|Hn].
  - destruct (_ || _); lia.
  - unfold cells, cc, cart_point_to_cell in P. cbn [c_range] in P.
    match type of P with context [dims_range ?m ?b ?e] => destruct (dims_range_get m b e d Hd) as [G1 G2] end. rewrite G1, G2 in P.
    destruct (Nat.ltb_spec d (c_nd c)); unfold nd in Hn; lia.
Qed.

Hypothesis BUILT : forall r f, (r < n)%nat -> In f (frs r) -> exists a, fragment_accel rnd c active X O maxtol leaf scale levels r f = Some a.
Hypothesis BOXED : forall r f p cell u, (r < n)%nat -> In f (frs r) -> pt_in f cell -> active cell = true -> pt_in loc p -> nactive p = true ->
  accepted r f p cell u -> BoxProof.box_in (fragment_bounds c X O maxtol r f cell) (oriented (O r f) (Y p)).

Lemma query_points_In r f p : In p (query_points c active X O maxtol loc nactive Y r f) <->
  pt_in loc p /\ nactive p = true /\ fragment_contains c active X O maxtol r (Y p) f = true.
Proof. unfold query_points. rewrite filter_In, foreach_col_In, andb_true_iff. tauto. Qed.

(** The answer of a fragment for a point: the best cell of the fragment. *)
Definition answered (r : nat) (f : range) (p : tup Z) (q : query) : Prop :=
  q_point q = rindex ColMajor loc p /\
  match q_cell q with
  | None => forall cell u, pt_in f cell -> active cell = true -> ~ accepted r f p cell u
  | Some i => exists cell, i = rindex ColMajor cells cell /\ pt_in f cell /\ active cell = true /\ accepted r f p cell (q_coords q) /\
      forall cell' u', pt_in f cell' -> active cell' = true -> accepted r f p cell' u' ->
        better_cell rnd nd (q_coords q) u' i (rindex ColMajor cells cell') = false
  end.

Lemma answer_ok r f a p : (r < n)%nat -> In f (frs r) -> fragment_accel rnd c active X O maxtol leaf scale levels r f = Some a ->
  pt_in loc p -> nactive p = true -> exists q, answer rnd g c X O loc Y tol r f a p = Some q /\ answered r f p q.
Proof.
  intros Hr Hf Ha Hp Hn.
  destruct (find_cell_ok rnd nd (leaf r f) (scale r f) (levels r f) f active (fragment_bounds c X O maxtol r f)
    (overlaps_cell g nd (fragment_coords X O r f) tol) (coords_in_cell g nd (fragment_extents c f) (fragment_coords X O r f)) a (oriented (O r f) (Y p))
    HR HNd Ha) as (res & E & H).
  unfold answer. fold nd. rewrite E. eexists. split; [reflexivity|]. destruct res as [[cell u]|].
  - destruct H as [(H1 & H2 & H3 & H4) H5]. split; [reflexivity|]. cbn [q_cell q_coords]. exists cell. split; [reflexivity|]. split; [exact H1|]. split; [exact H2|].
    split; [split; assumption|]. intros cell' u' C A (T1 & T2).
    pose proof (H5 cell' u' (conj C (conj A (conj T1 T2))) (BOXED r f p cell' u' Hr Hf C A Hp Hn (conj T1 T2))) as B.
    rewrite <- B. apply better_index. destruct (frag_cells r f cell Hr Hf H1) as [Q _]. destruct (frag_cells r f cell' Hr Hf C) as [Q' _].
    fold cc. fold cells. apply index_order; assumption.
  - split; [reflexivity|]. cbn [q_cell]. intros cell u C A (T1 & T2). apply (H cell u (conj C (conj A (conj T1 T2)))).
    apply (BOXED r f p cell u); auto. split; assumption.
Qed.

Lemma answers_ok r f : (r < n)%nat -> In f (frs r) -> exists qs, answers rnd g c active X O maxtol leaf scale levels loc nactive Y tol r f = Some qs /\
  (forall q, In q qs -> exists p, pt_in loc p /\ nactive p = true /\ answered r f p q) /\
  (forall p, pt_in loc p -> nactive p = true -> fragment_contains c active X O maxtol r (Y p) f = true -> exists q, In q qs /\ answered r f p q).
Proof.
  intros Hr Hf. unfold answers. destruct (BUILT r f Hr Hf) as [a Ha]. pose proof (query_points_In r f) as I.
  set (ps := query_points c active X O maxtol loc nactive Y r f) in *.
  destruct (omap_total (answer rnd g c X O loc Y tol r f a) ps) as [qs Q].
  { intros p Hp. apply I in Hp as (P1 & P2 & _). destruct (answer_ok r f a p Hr Hf Ha P1 P2) as (q & Q & _). eauto. }
  exists qs. split; [rewrite <- Q; destruct ps; [reflexivity|rewrite Ha; reflexivity]|]. pose proof (omap_In _ _ _ Q) as M. split.
  - intros q Hq. apply M in Hq as (p & Hp & Eq). apply I in Hp as (P1 & P2 & _). exists p. split; auto. split; auto.
    destruct (answer_ok r f a p Hr Hf Ha P1 P2) as (q' & Q' & A). congruence.
  - intros p P1 P2 P3. destruct (answer_ok r f a p Hr Hf Ha P1 P2) as (q & Q' & A). exists q. split; [|exact A]. apply M. exists p. split; [apply I; auto|exact Q'].
Qed.

(** ** The whole detection *)

Theorem detect_ok : exists es, detect rnd g c n L stop depth active X O maxtol leaf scale levels loc nactive Y tol = Some es /\
  StronglySorted (fun p q => rindex ColMajor loc p < rindex ColMajor loc q) (map e_point es) /\
  (forall p, In p (map e_point es) <-> pt_in loc p /\ nactive p = true /\ exists cell u, cand p cell u) /\
  (forall e, In e es -> cand (e_point e) (e_cell e) (e_coords e)) /\
  (forall e cell u, In e es -> cand (e_point e) cell u ->
    better_cell rnd nd (e_coords e) u (rindex ColMajor cells (e_cell e)) (rindex ColMajor cells cell) = false).
Proof.
  unfold detect.
  set (F := fun rf : nat * range => answers rnd g c active X O maxtol leaf scale levels loc nactive Y tol (fst rf) (snd rf)).
  destruct (omap_total F (all_fragments c n L stop depth active)) as [fr E].
  { intros [r f] H. apply all_fragments_In in H as [Hr Hf]. destruct (answers_ok r f Hr Hf) as (qs & Q & _). exists qs. exact Q. }
  rewrite E. pose proof (omap_In _ _ _ E) as M.
  assert (Q1 : forall qs q, In qs fr -> In q qs -> exists r f p, (r < n)%nat /\ In f (frs r) /\ pt_in loc p /\ nactive p = true /\ answered r f p q).
  { intros qs q H1 H2. apply M in H1 as ([r f] & H1 & E1). apply all_fragments_In in H1 as [Hr Hf]. destruct (answers_ok r f Hr Hf) as (qs' & Q & A & _).
    unfold F in E1. cbn [fst snd] in E1. assert (qs' = qs) by congruence. subst qs'. destruct (A q H2) as (p & P1 & P2 & P3). exists r, f, p. auto. }
  assert (Q2 : forall r f p, (r < n)%nat -> In f (frs r) -> pt_in loc p -> nactive p = true -> fragment_contains c active X O maxtol r (Y p) f = true ->
    exists qs q, In qs fr /\ In q qs /\ answered r f p q).
  { intros r f p Hr Hf P1 P2 P3. destruct (answers_ok r f Hr Hf) as (qs & Q & _ & A). destruct (A p P1 P2 P3) as (q & I & B). exists qs, q. split; auto.
    apply M. exists (r, f). split; [apply all_fragments_In; auto|exact Q]. }
  assert (V : valid_queries cells loc fr).
  { intros qs q H1 H2. destruct (Q1 qs q H1 H2) as (r & f & p & Hr & Hf & P1 & P2 & A1 & A2). split.
    - rewrite A1. apply rindex_bounds. exact P1.
    - intros i Ei. rewrite Ei in A2. destruct A2 as (cell & -> & C & _). apply rindex_bounds. apply (frag_cells r f); auto. }
  destruct (aggregate_ok rnd nd cells loc fr V) as (es & Ea & (S1 & S2) & FC & BE). exists es. split; [exact Ea|]. split; [exact S1|].
  (* what is found is a candidate, and each candidate is dominated by something found *)
  assert (W1 : forall p i u, pt_in loc p -> finds fr (rindex ColMajor loc p) i u -> nactive p = true /\ exists cell, i = rindex ColMajor cells cell /\ pt_in cells cell /\ cand p cell u).
  { intros p i u Hp (qs & H1 & H2). destruct (Q1 qs _ H1 H2) as (r & f & p' & Hr & Hf & P1 & P2 & A1 & A2). cbn [q_point q_cell q_coords] in A1, A2.
    apply rindex_inj in A1; auto. subst p'. split; auto. destruct A2 as (cell & -> & C & A & T & _). exists cell. split; auto. split; [apply (frag_cells r f); auto|].
    split; auto. exists r, f. auto. }
  assert (W2 : forall p cell u, pt_in loc p -> nactive p = true -> cand p cell u -> exists i v, finds fr (rindex ColMajor loc p) i v /\
    better_cell rnd nd v u i (rindex ColMajor cells cell) = false).
  { intros p cell u Hp Hn (A & r & f & Hr & Hf & C & T).
    pose proof (frag_contains r f p cell Hr Hf C A (BOXED r f p cell u Hr Hf C A Hp Hn T)) as FCn.
    destruct (Q2 r f p Hr Hf Hp Hn FCn) as (qs & q & I1 & I2 & A1 & A2). destruct q as [l oi v]. cbn [q_point q_cell q_coords] in A1, A2. destruct oi as [i|].
    - destruct A2 as (cell' & Ei & C' & A' & T' & B). exists i, v. split; [exists qs; split; auto; rewrite <- A1; exact I2|]. apply B; auto.
    - exfalso. apply (A2 cell u C A T). }
  split; [|split].
  - intros p. rewrite S2. split.
    + intros (Hp & i & u & Fd). destruct (W1 p i u Hp Fd) as (Hn & cell & _ & _ & C). eauto.
    + intros (Hp & Hn & cell & u & C). split; auto. destruct (W2 p cell u Hp Hn C) as (i & v & Fd & _). eauto.
  - intros e He. destruct (FC e He) as [C Fd].
    assert (Hp : pt_in loc (e_point e)) by (apply S2; apply in_map; exact He).
    destruct (W1 _ _ _ Hp Fd) as (_ & cell & Ei & C' & K). apply rindex_inj in Ei; auto. rewrite Ei. exact K.
  - intros e cell u He K. assert (P : In (e_point e) (map e_point es)) by (apply in_map; exact He). apply S2 in P as (Hp & i & w & Fd0).
    destruct (W1 _ _ _ Hp Fd0) as (Hn & _). destruct (W2 _ cell u Hp Hn K) as (j & v & Fd & B).
    eapply better_trans; [apply BE; [exact He|exact Fd]|exact B].
Qed.
End Detect.
