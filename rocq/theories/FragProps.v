(** Property C72: the search for the ranks that overlap a point. *)
From Coq Require Import List ZArith QArith Bool Lia.
From Verif Require Import TupleModel RangeModel Base RangeProof CartModel CartProof DecompModel DecompProof NeighSpec FieldSpec HaloEx.
From Verif Require Import FragModel FragSpec FragProof FragEx.
Import ListNotations.
Local Open Scope Z_scope.

(** C72. However a rank subdivides its cells into fragments, every active cell of the rank is in exactly one fragment,
    and every fragment has an active cell. *)
Theorem C72_fragments : forall nd stop active k, (1 <= nd <= 3)%nat -> forall r, fragmented active r (subdivide nd stop active k r).
Proof. exact subdivide_ok. Qed.
Print Assumptions C72_fragments.

(** C72. If a point is in an active cell of a grid, then the fragment with the cell contains the point, and the rank that
    owns the cell is found and told, for all decompositions, subdivisions, orientations of fragments and tolerances. *)
Theorem C72_searched : forall c n L stop depth active X O tol, decomposed c n L -> (0 <= tol)%Q ->
  forall cell x xs, pt_in (c_range (cart_point_to_cell c)) cell -> active cell = true -> in_cell (c_nd c) X cell x -> In x xs ->
  exists r f, (r < n)%nat /\ pt_in (L r) cell /\ In f (fragments c L stop depth active r) /\ pt_in f cell /\
    fragment_contains c active X O tol r x f = true /\ In r (overlapping_ranks c L stop depth active X O tol n xs).
Proof. exact searched. Qed.
Print Assumptions C72_searched.

(** C72. A point with coordinates between 0 and 1 in a cell is in the cell in the sense of the last property. *)
Theorem C72_multilinear : forall nd X cell u, (1 <= nd <= 3)%nat ->
  (forall d, (d < nd)%nat -> (0 <= tget u d)%Q /\ (tget u d <= 1)%Q) -> in_cell nd X cell (multilinear nd X cell u).
Proof. exact multilinear_in. Qed.
Print Assumptions C72_multilinear.

(** C72. The other ranks with a vertex of the cell are told as well.  They must be: they store the cell, and take part
    in the exchanges of its values.  Partial: the vertex must itself be the lower corner of an active cell, and
    periodic images must have the same coordinates; otherwise the claim does not hold, see below. *)
Theorem C72_told_partial : forall c n L stop depth active X O tol, decomposed c n L -> (0 <= tol)%Q ->
  forall cell v x xs r, periodic_coords c X -> periodic_mask c active ->
  pt_in (c_range (cart_point_to_cell c)) cell -> active cell = true -> in_cell (c_nd c) X cell x -> In x xs ->
  (r < n)%nat -> corner (c_nd c) cell v -> pt_in (L r) (wrap c v) ->
  pt_in (c_range (cart_point_to_cell c)) (wrap c v) -> active (wrap c v) = true ->
  In r (overlapping_ranks c L stop depth active X O tol n xs).
Proof. exact told. Qed.
Print Assumptions C72_told_partial.

(** C72 does not hold for a rank that has only the last points of a grid: it has no cell and so no fragment, and is not
    told of a point in the cell before its first vertex. *)
Theorem C72_last_rank_refuted : exists c n L active X cell v x r,
  decomposed c n L /\ stored_once c /\ pt_in (c_range (cart_point_to_cell c)) cell /\ (forall p, active p = true) /\
  in_cell (c_nd c) X cell x /\ (r < n)%nat /\ corner (c_nd c) cell v /\ pt_in (L r) (wrap c v) /\
  forall stop depth O, ~ In r (overlapping_ranks c L stop depth active X O 0 n [x]).
Proof.
  exists ex_line, 3%nat, (ex_L1 2 5), (fun _ => true), axis, (T3 4 0 0), (T3 5 0 0), (half_way (T3 4 0 0)), 2%nat.
  split; [apply ex_line_decomposed; lia|]. split; [apply ex_line_once|]. split; [unfold pt_in; cbn; lia|]. split; [reflexivity|].
  split; [apply half_way_in|]. split; [lia|]. split; [intros d Hd; ex_dims d|]. split; [unfold pt_in; vm_compute; intuition congruence|].
  intros stop depth O H. unfold overlapping_ranks in H. apply filter_In in H. destruct H as [_ H].
  cbn [existsb] in H. rewrite orb_false_r in H. apply existsb_exists in H. destruct H as [f [H _]].
  assert (F : fragmented (fun _ => true) (range_point_to_cell ex_line (ex_L1 2 5 2)) (fragments ex_line (ex_L1 2 5) stop depth (fun _ => true) 2))
    by (apply subdivide_ok; cbn; lia).
  destruct F as [F _]. destruct (F f H) as [S [p [P _]]]. specialize (S p P). unfold pt_in in S. cbn in S. lia.
Qed.
Print Assumptions C72_last_rank_refuted.

(** C72 does not hold for a rank without active cells of its own, even if it has active vertices of an active cell:
    here the cells 0 and 1 of a line are active, and the rank with the vertices 2 and 3 is not told of a point in
    cell 1. *)
Theorem C72_inactive_refuted : exists c n L active X cell v x r,
  decomposed c n L /\ stored_once c /\ pt_in (c_range (cart_point_to_cell c)) cell /\ active cell = true /\
  in_cell (c_nd c) X cell x /\ (r < n)%nat /\ corner (c_nd c) cell v /\ pt_in (L r) (wrap c v) /\
  pt_in (c_range (cart_point_to_cell c)) (wrap c v) /\
  forall stop depth O, ~ In r (overlapping_ranks c L stop depth active X O 0 n [x]).
Proof.
  exists ex_line, 3%nat, (ex_L1 2 4), (fun p => c0 p <? 2), axis, (T3 1 0 0), (T3 2 0 0), (half_way (T3 1 0 0)), 1%nat.
  split; [apply ex_line_decomposed; lia|]. split; [apply ex_line_once|]. split; [unfold pt_in; cbn; lia|]. split; [reflexivity|].
  split; [apply half_way_in|]. split; [lia|]. split; [intros d Hd; ex_dims d|]. split; [unfold pt_in; vm_compute; intuition congruence|].
  split; [unfold pt_in; vm_compute; intuition congruence|].
  intros stop depth O H. unfold overlapping_ranks in H. apply filter_In in H. destruct H as [_ H].
  cbn [existsb] in H. rewrite orb_false_r in H. apply existsb_exists in H. destruct H as [f [H _]].
  assert (F : fragmented (fun p => c0 p <? 2) (range_point_to_cell ex_line (ex_L1 2 4 1)) (fragments ex_line (ex_L1 2 4) stop depth (fun p => c0 p <? 2) 1))
    by (apply subdivide_ok; cbn; lia).
  destruct F as [F _]. destruct (F f H) as [S [p [P A]]]. specialize (S p P). apply Z.ltb_lt in A. unfold pt_in in S. cbn in S. lia.
Qed.
Print Assumptions C72_inactive_refuted.

(** C72 does not hold for grids that are periodic with a period length: the rank with the first point of the line has
    the cell before it with the coordinates less the period, and is not told of a point in the last cell. *)
Theorem C72_period_length_refuted : exists c n L active X cell v x r,
  decomposed c n L /\ stored_once c /\ pt_in (c_range (cart_point_to_cell c)) cell /\ (forall p, active p = true) /\
  in_cell (c_nd c) X cell x /\ (r < n)%nat /\ corner (c_nd c) cell v /\ pt_in (L r) (wrap c v) /\
  pt_in (c_range (cart_point_to_cell c)) (wrap c v) /\
  exists stop depth O, ~ In r (overlapping_ranks c L stop depth active X O 0 n [x]).
Proof.
  exists (ex_circle UNIQUE), 3%nat, (ex_L1 2 4), (fun _ => true), axis, (T3 5 0 0), (T3 6 0 0), (half_way (T3 5 0 0)), 0%nat.
  split; [apply ex_circle_decomposed; lia|]. split; [intros d Hd; ex_dims d|]. split; [unfold pt_in; cbn; lia|]. split; [reflexivity|].
  split; [apply half_way_in|]. split; [lia|]. split; [intros d Hd; ex_dims d|]. split; [unfold pt_in; vm_compute; intuition congruence|].
  split; [unfold pt_in; vm_compute; intuition congruence|].
  exists (fun _ => false), (fun _ => 1%nat), no_rotation. vm_compute. intuition lia.
Qed.
Print Assumptions C72_period_length_refuted.

(** The ring of 6 x 4 points on 2 x 2 ranks: a point in the cell where all ranks meet is told to all of them, and one in
    the cell at the first point to its owner and a rank with a box that contains it. *)
Example C72_example : decomposed ex_c 4 ex_L /\ periodic_coords ex_c hexagon /\ periodic_mask ex_c (fun _ => true) /\
  in_cell 2 hexagon (T3 5 1 0) (mid (T3 5 1 0)) /\
  map (fun r => length (fragments ex_c ex_L (fun _ => false) (fun _ => 1%nat) (fun _ => true) r)) (seq 0 4) = [2; 2; 2; 2]%nat /\
  overlapping_ranks ex_c ex_L (fun _ => false) (fun _ => 1%nat) (fun _ => true) hexagon no_rotation 0 4 [mid (T3 5 1 0)] = [0; 1; 2; 3]%nat /\
  overlapping_ranks ex_c ex_L (fun _ => false) (fun _ => 1%nat) (fun _ => true) hexagon no_rotation 0 4 [mid (T3 0 0 0)] = [0; 2]%nat.
Proof.
  split; [exact ex_decomposed|]. split; [exact hexagon_periodic|]. split; [intros p q _; reflexivity|].
  split; [apply multilinear_in; [lia|]; intros d Hd; destruct d as [|[|d]]; [| |lia]; split; discriminate|].
  split; [vm_compute; reflexivity|]. split; vm_compute; reflexivity.
Qed.
