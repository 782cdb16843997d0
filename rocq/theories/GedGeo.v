(** Cells and points of a grid on several ranks: which are at hand. *)
From Coq Require Import List ZArith QArith Bool Lia Arith.
From Verif Require Import TupleModel RangeModel CartModel Base RangeProof CartProof IndexerModel ArrayModel ArrayProof.
From Verif Require Import ContModel HashModel HashSpec HashProof DecompModel DecompProof NetModel NetSpec NeighSpec NeighProof HaloModel HaloProof FieldModel FieldSpec FieldProof GeomModel GedModel GedSpec.
Import ListNotations.
Local Open Scope Z_scope.

Section Geo.
Context (c : cart) (n : nat) (L : nat -> range).
Hypothesis D : decomposed c n L.
Hypothesis SO : stored_once c.
Notation cc := (cart_point_to_cell c).
Notation E := (points_extended c L).
Notation CE := (cells_extended c L).
Notation CL := (cells_local c L).

Lemma per_unique d : (d < 3)%nat -> tget (c_per c) d = true -> c_stor c = UNIQUE.
Proof. intros Hd P. specialize (SO d Hd). unfold per_len in SO. rewrite P in SO. destruct (c_stor c); [reflexivity|lia]. Qed.
Lemma L_bounds r d : (r < n)%nat -> (d < 3)%nat -> tget (rb (c_range c)) d <= tget (rb (L r)) d /\ tget (rb (L r)) d < tget (re (L r)) d /\ tget (re (L r)) d <= tget (re (c_range c)) d.
Proof.
  intros Hr Hd. pose proof D as (_ & _ & _ & _ & _ & _ & X). specialize (X r Hr). pose proof (proj1 (rempty_tget _) X d Hd) as Y.
  pose proof (L_within c n L D r Hr d Hd). lia.
Qed.
Lemma cc_get d : (d < 3)%nat -> tget (rb (c_range cc)) d = (if Nat.ltb d (c_nd c) then tget (rb (c_range c)) d else 0) /\
  tget (re (c_range cc)) d = (if Nat.ltb d (c_nd c) then if tget (c_per c) d then tget (re (c_range c)) d else tget (re (c_range c)) d - 1 else 1).
Proof.
  intros Hd. unfold cart_point_to_cell. cbn [c_range]. match goal with |- context [dims_range ?a ?b ?e] => destruct (dims_range_get a b e d Hd) as [G1 G2] end. rewrite G1, G2.
  split; [reflexivity|]. destruct (Nat.ltb d (c_nd c)); [|reflexivity]. destruct (tget (c_per c) d) eqn:P; [|reflexivity]. now rewrite (per_unique d Hd P).
Qed.
Lemma cl_get r d : (d < 3)%nat -> tget (rb (CL r)) d = (if Nat.ltb d (c_nd c) then tget (rb (L r)) d else 0) /\
  tget (re (CL r)) d = (if Nat.ltb d (c_nd c) then if tget (c_per c) d || negb (tget (re (L r)) d =? tget (re (c_range c)) d) then tget (re (L r)) d else tget (re (L r)) d - 1 else 1).
Proof.
  intros Hd. unfold cells_local, range_point_to_cell. match goal with |- context [dims_range ?a ?b ?e] => destruct (dims_range_get a b e d Hd) as [G1 G2] end. rewrite G1, G2.
  split; [reflexivity|]. destruct (Nat.ltb d (c_nd c)); [|reflexivity]. destruct (tget (c_per c) d) eqn:P; cbn [andb orb].
  - rewrite (per_unique d Hd P). cbn. now rewrite orb_true_r.
  - rewrite orb_false_r. reflexivity.
Qed.
Lemma ce_get r d : (d < 3)%nat ->
  tget (rb (CE r)) d = (if Nat.ltb d (c_nd c) && (negb (tget (rb (CL r)) d =? tget (rb (c_range cc)) d) || tget (c_per c) d) then tget (rb (CL r)) d - 2 else tget (rb (CL r)) d) /\
  tget (re (CE r)) d = (if Nat.ltb d (c_nd c) && (negb (tget (re (CL r)) d =? tget (re (c_range cc)) d) || tget (c_per c) d) then tget (re (CL r)) d + 2 else tget (re (CL r)) d).
Proof. intros Hd. exact (extend_get cc (CL r) 2 d Hd). Qed.
Lemma e_get r d : (d < 3)%nat -> tget (rb (E r)) d = (if Nat.ltb d (c_nd c) then tget (rb (CE r)) d else 0) /\ tget (re (E r)) d = (if Nat.ltb d (c_nd c) then tget (re (CE r)) d + 1 else 1).
Proof. intros Hd. unfold points_extended, grid_extended, range_cell_to_point_all. match goal with |- context [dims_range ?a ?b ?e] => exact (dims_range_get a b e d Hd) end. Qed.

Lemma dim_high d : (c_nd c <= d < 3)%nat -> tget (rb (c_range c)) d = 0 /\ tget (re (c_range c)) d = 1 /\ tget (c_per c) d = false.
Proof. intros Hd. pose proof D as (_ & _ & _ & HD & HP & _). destruct (HD d Hd). auto. Qed.
Lemma L_high r d : (r < n)%nat -> (c_nd c <= d < 3)%nat -> tget (rb (L r)) d = 0 /\ tget (re (L r)) d = 1.
Proof. intros Hr Hd. destruct (dim_high d Hd) as (A & B & _). pose proof (L_bounds r d Hr ltac:(lia)). lia. Qed.

Lemma per_len_cc d : (d < 3)%nat -> tget (c_per c) d = true -> per_len cc d = per_len c d.
Proof.
  intros Hd P. destruct (cc_get d Hd) as [A B]. rewrite (SO d Hd). unfold per_len. rewrite A, B, P. cbn [cart_point_to_cell c_stor]. destruct (Nat.ltb_spec d (c_nd c)); [lia|].
  destruct (dim_high d ltac:(lia)) as (_ & _ & X). congruence.
Qed.
Lemma image_cc p u : is_image cc p u <-> is_image c p u.
Proof.
  split; intros H d Hd; destruct (H d Hd) as [A B]; (split; [|exact B]); intros P; destruct (A P) as [k Hk]; exists k; [rewrite <- (per_len_cc d Hd P)|rewrite (per_len_cc d Hd P)]; exact Hk.
Qed.
Lemma wrap_cc p : wrap cc p = wrap c p.
Proof.
  apply tup_ext. intros d Hd. unfold wrap. rewrite !tget_tmake by exact Hd. change (c_per cc) with (c_per c). destruct (tget (c_per c) d) eqn:P; [|reflexivity].
  rewrite (per_len_cc d Hd P). destruct (cc_get d Hd) as [A _]. rewrite A. destruct (Nat.ltb_spec d (c_nd c)); [reflexivity|]. destruct (dim_high d ltac:(lia)) as (_ & _ & X). congruence.
Qed.

Section Some.
Hypothesis NE : forall r, (r < n)%nat -> rempty (cells_local c L r) = false.
Lemma cc_nonempty d : (d < 3)%nat -> tget (rb (c_range cc)) d < tget (re (c_range cc)) d.
Proof.
  intros Hd. pose proof D as (_ & Hn & _). assert (H0 : (0 < n)%nat) by lia. pose proof (proj1 (rempty_tget _) (NE 0 H0) d Hd) as X.
  destruct (cl_get 0 d Hd) as [A B]. destruct (cc_get d Hd) as [A' B']. rewrite A, B in X. rewrite A', B'. pose proof (L_bounds 0 d H0 Hd). destruct (Nat.ltb d (c_nd c)); [|lia].
  destruct (tget (c_per c) d); cbn [orb] in X; [lia|]. destruct (Z.eqb_spec (tget (re (L 0)) d) (tget (re (c_range c)) d)); cbn [negb] in X; lia.
Qed.
Lemma decomposed_cells : decomposed cc n CL.
Proof.
  pose proof D as (Hnd & Hn & Hok & HD & HP & HS & _). split; [exact Hnd|]. split; [exact Hn|]. split.
  { intros d Hd. unfold per_len. cbn [cart_point_to_cell c_stor]. pose proof (cc_nonempty d Hd) as X. cbn [cart_point_to_cell c_range] in X |- *. lia. }
  split. { intros d Hd. change (c_nd cc) with (c_nd c) in Hd. destruct (cc_get d ltac:(lia)) as [-> ->]. destruct (Nat.ltb_spec d (c_nd c)); [lia|auto]. }
  split; [exact HP|]. split; [|exact NE].
  assert (X : map CL (seq 0 n) = map (range_point_to_cell c) (map L (seq 0 n))) by (rewrite map_map; reflexivity). rewrite X. apply cell_decomp; [exact HD| |exact HS].
  intros i r Hi d Hd. rewrite nth_error_map in Hi. destruct (nth_error (seq 0 n) i) as [q|] eqn:Eq; [|discriminate]. injection Hi as <-. apply nth_error_In, in_seq in Eq. apply L_high; lia.
Qed.
End Some.
Lemma stored_once_cells : stored_once cc.
Proof. clear D SO. intros d Hd. unfold per_len. cbn [cart_point_to_cell c_stor]. lia. Qed.

Lemma cell_point r p : (r < n)%nat -> pt_in (CL r) p -> pt_in (L r) p.
Proof.
  intros Hr Hp. apply pt_in_tget. intros d Hd. pose proof (proj1 (pt_in_tget _ _) Hp d Hd) as B. destruct (cl_get r d Hd) as [A A']. rewrite A, A' in B. pose proof (L_bounds r d Hr Hd).
  destruct (Nat.ltb_spec d (c_nd c)); [|destruct (L_high r d Hr ltac:(lia)); lia]. destruct (tget (c_per c) d || _); lia.
Qed.
Lemma L_in_ext r : (r < n)%nat -> pt_subset (L r) (E r).
Proof. intros Hr. apply (extended_sub c n L (E r) r D Hr). apply (grid_extended_ok c n L r D SO Hr). Qed.
Lemma CL_in_CE r : (r < n)%nat -> pt_subset (CL r) (CE r).
Proof.
  intros Hr p Hp. apply pt_in_tget. intros d Hd. pose proof (proj1 (pt_in_tget _ _) Hp d Hd) as B. destruct (ce_get r d Hd) as [-> ->].
  destruct (Nat.ltb d (c_nd c) && _); destruct (Nat.ltb d (c_nd c) && _); lia.
Qed.

Lemma wrap_range p : (forall d, (d < 3)%nat -> tget (c_per c) d = false -> tget (rb (c_range c)) d <= tget p d < tget (re (c_range c)) d) -> pt_in (c_range c) (wrap c p).
Proof.
  intros H. pose proof D as (_ & _ & Hok & _). apply pt_in_tget. intros d Hd. destruct (tget (c_per c) d) eqn:P.
  - pose proof (wrap_base c Hok p d Hd P). rewrite (SO d Hd) in H0. lia.
  - unfold wrap. rewrite tget_tmake, P by exact Hd. apply H; auto.
Qed.
Lemma wrap_range_cells p : (forall r, (r < n)%nat -> rempty (cells_local c L r) = false) -> (forall d, (d < 3)%nat -> tget (c_per c) d = false -> tget (rb (c_range cc)) d <= tget p d < tget (re (c_range cc)) d) -> pt_in (c_range cc) (wrap cc p).
Proof.
  intros NE H. pose proof (decomposed_cells NE) as (_ & _ & Hok & _). apply pt_in_tget. intros d Hd. destruct (tget (c_per c) d) eqn:P.
  - pose proof (wrap_base cc Hok p d Hd P). rewrite (stored_once_cells d Hd) in H0. lia.
  - unfold wrap. change (c_per cc) with (c_per c). rewrite tget_tmake, P by exact Hd. apply H; auto.
Qed.

Section Hand.
Context (N : nat -> list nat).
Hypothesis HN : forall r q p u, (r < n)%nat -> (q < n)%nat -> pt_in (L r) p -> pt_in (L q) u -> near c p u -> q = r \/ In q (N r).

Lemma offset_get i d : (i < num_vertices (c_nd c))%nat -> (d < 3)%nat -> 0 <= tget (offset i) d <= 1 /\ ((c_nd c <= d)%nat -> tget (offset i) d = 0).
Proof.
  pose proof D as (Hnd & _). intros Hi Hd. unfold num_vertices in Hi.
  assert (X : (i < 8)%nat) by (destruct (c_nd c) as [|[|[|]]]; lia).
  do 8 (destruct i as [|i]; [destruct d as [|[|[|d]]]; [| | |lia]; (split; [vm_compute; split; discriminate|]; intros; try reflexivity; exfalso; destruct (c_nd c) as [|[|[|[|]]]]; lia)|]). lia.
Qed.
Lemma tget_tadd' (a b : tup Z) d : (d < 3)%nat -> tget (tadd a b) d = tget a d + tget b d.
Proof. intros H. unfold tadd. destruct d as [|[|[|d]]]; try reflexivity; lia. Qed.
(** The vertices of own cells *)
Lemma vertex_hand r cell i : (r < n)%nat -> pt_in (CL r) cell -> (i < num_vertices (c_nd c))%nat ->
  pt_in (E r) (tadd cell (offset i)) /\ at_hand c n L N r (tadd cell (offset i)).
Proof.
  intros Hr Hc Hi. pose proof D as (_ & _ & Hok & _). set (p := tadd cell (offset i)).
  assert (B : forall d, (d < 3)%nat -> tget cell d <= tget p d <= tget cell d + 1 /\ ((c_nd c <= d)%nat -> tget p d = tget cell d)).
  { intros d Hd. unfold p. rewrite tget_tadd' by exact Hd. destruct (offset_get i d Hi Hd) as [X Y]. split; [lia|]. intros G. rewrite Y; lia. }
  split.
  - apply pt_in_tget. intros d Hd. destruct (B d Hd) as [B1 B2]. pose proof (proj1 (pt_in_tget _ _) (CL_in_CE r Hr cell Hc) d Hd) as C. destruct (e_get r d Hd) as [-> ->].
    destruct (Nat.ltb_spec d (c_nd c)); [lia|]. rewrite B2 by lia. pose proof (proj1 (pt_in_tget _ _) (cell_point r cell Hr Hc) d Hd). destruct (L_high r d Hr ltac:(lia)). lia.
  - assert (W : pt_in (c_range c) (wrap c p)).
    { apply wrap_range. intros d Hd P. destruct (B d Hd) as [B1 B2]. pose proof (proj1 (pt_in_tget _ _) Hc d Hd) as C. destruct (cl_get r d Hd) as [X Y]. rewrite X, Y in C. rewrite P in C. cbn [orb] in C.
      pose proof (L_bounds r d Hr Hd). destruct (Nat.ltb_spec d (c_nd c)).
      - destruct (Z.eqb_spec (tget (re (L r)) d) (tget (re (c_range c)) d)); cbn [negb] in C; lia.
      - destruct (dim_high d ltac:(lia)) as (Q1 & Q2 & _). rewrite B2 by lia. lia. }
    destruct (L_owner c n L D (wrap c p) W) as (q & Hq & Lq). exists q, (wrap c p). split; [exact Hq|]. split; [exact Lq|]. split; [apply wrap_image; exact Hok|].
    apply (HN r q cell (wrap c p)); auto; [apply cell_point; auto|]. exists p. split; [apply is_image_sym, wrap_image, Hok|]. intros d Hd. destruct (B d Hd). lia.
Qed.
(** The cells at own points *)
Lemma cells_by_of r p : (r < n)%nat -> pt_in (L r) p -> cells_by c (CE r) p = cells_of c p.
Proof.
  intros Hr Hp. unfold cells_by, cells_of, intersect_ranges. cbn [rb re].
  assert (X : forall d, (d < 3)%nat ->
    Z.max (tget (rb (CE r)) d) (if Nat.ltb d (c_nd c) then tget p d - 1 else 0) =
      (if Nat.ltb d (c_nd c) then if tget (c_per c) d then tget p d - 1 else Z.max (tget p d - 1) (tget (rb (c_range cc)) d) else 0) /\
    Z.min (tget (re (CE r)) d) (if Nat.ltb d (c_nd c) then tget p d + 1 else 1) =
      (if Nat.ltb d (c_nd c) then if tget (c_per c) d then tget p d + 1 else Z.min (tget p d + 1) (tget (re (c_range cc)) d) else 1)).
  { intros d Hd. pose proof (proj1 (pt_in_tget _ _) Hp d Hd) as B. pose proof (L_bounds r d Hr Hd) as LB. destruct (ce_get r d Hd) as [-> ->]. destruct (cl_get r d Hd) as [-> ->]. destruct (cc_get d Hd) as [-> ->].
    destruct (Nat.ltb_spec d (c_nd c)); cbn [andb]; [|lia]. destruct (tget (c_per c) d) eqn:P; cbn [orb].
    - rewrite !orb_true_r. lia.
    - rewrite !orb_false_r. destruct (Z.eqb_spec (tget (re (L r)) d) (tget (re (c_range c)) d)); cbn [negb];
      destruct (Z.eqb_spec (tget (rb (L r)) d) (tget (rb (c_range c)) d)); cbn [negb];
      match goal with |- context [?a =? ?b] => destruct (Z.eqb_spec a b) end; cbn [negb]; lia. }
  f_equal; apply tup_ext; intros d Hd; rewrite !tget_tmake by exact Hd; apply X; exact Hd.
Qed.
Hypothesis NE : forall r, (r < n)%nat -> rempty (cells_local c L r) = false.
Lemma cell_hand r p cell : (r < n)%nat -> pt_in (L r) p -> pt_in (cells_of c p) cell -> pt_in (CE r) cell /\ at_hand cc n CL N r cell.
Proof.
  intros Hr Hp Hc. split; [rewrite <- (cells_by_of r p Hr Hp) in Hc; unfold cells_by in Hc; apply intersect_spec in Hc; tauto|].
  pose proof (decomposed_cells NE) as DC. pose proof DC as (_ & _ & Hok & _). pose proof D as (_ & _ & Hok' & _).
  assert (B : forall d, (d < 3)%nat -> tget (rb (cells_of c p)) d <= tget cell d < tget (re (cells_of c p)) d) by (apply pt_in_tget; exact Hc).
  assert (B' : forall d, (d < 3)%nat -> Z.abs (tget p d - tget cell d) <= 1 /\ (tget (c_per c) d = false -> tget (rb (c_range cc)) d <= tget cell d < tget (re (c_range cc)) d)).
  { intros d Hd. specialize (B d Hd). unfold cells_of in B. cbn [rb re] in B. rewrite !tget_tmake in B by exact Hd. destruct (Nat.ltb_spec d (c_nd c)).
    - destruct (tget (c_per c) d); [split; [lia|discriminate]|]. split; [lia|]. intros _. lia.
    - pose proof (proj1 (pt_in_tget _ _) Hp d Hd). destruct (L_high r d Hr ltac:(lia)). split; [lia|]. intros _. destruct (cc_get d Hd) as [-> ->]. destruct (Nat.ltb_spec d (c_nd c)); lia. }
  assert (W : pt_in (c_range cc) (wrap cc cell)) by (apply (wrap_range_cells _ NE); intros d Hd; apply B'; exact Hd).
  destruct (L_owner cc n CL DC (wrap cc cell) W) as (q & Hq & Lq). exists q, (wrap cc cell). split; [exact Hq|]. split; [exact Lq|]. split; [apply wrap_image; exact Hok|].
  apply (HN r q p (wrap cc cell)); auto; [apply cell_point; auto|]. exists cell. split; [apply image_cc, is_image_sym, wrap_image, Hok|]. intros d Hd. apply B'. exact Hd.
Qed.
Lemma cells_some p r : (r < n)%nat -> pt_in (L r) p -> 0 < rcount (cells_of c p).
Proof.
  intros Hr Hp. assert (X : forall d, (d < 3)%nat -> tget (rb (cells_of c p)) d < tget (re (cells_of c p)) d).
  { intros d Hd. unfold cells_of. cbn [rb re]. rewrite !tget_tmake by exact Hd. pose proof (proj1 (pt_in_tget _ _) Hp d Hd) as B. pose proof (L_bounds r d Hr Hd). pose proof (cc_nonempty NE d Hd) as Y.
    destruct (cc_get d Hd) as [A A']. rewrite A, A' in *. destruct (Nat.ltb_spec d (c_nd c)); [|lia]. destruct (tget (c_per c) d); lia. }
  pose proof (X 0%nat ltac:(lia)). pose proof (X 1%nat ltac:(lia)). pose proof (X 2%nat ltac:(lia)). unfold rcount, rsize1. repeat apply Z.mul_pos_pos; lia.
Qed.
End Hand.
End Geo.
