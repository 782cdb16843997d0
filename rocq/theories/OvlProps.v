(** Property C78: filling the overlap data of a pair of grids on all ranks. *)
From Coq Require Import List ZArith QArith Bool Lia Sorting.Sorted.
From Verif Require Import TupleModel RangeModel Base RangeProof CartModel CartProof DecompModel DecompProof IndexerModel ArrayModel HashModel.
From Verif Require Import ProtoModel ProtoSpec NetModel NetSpec NetProof DDecompProof NeighSpec FieldSpec HaloEx SendModel SendSpec SendLaws.
From Verif Require Import CollectModel CollectSpec EmbedModel CellModel CellSpec FragModel FragSpec OvlModel OvlSpec OvlProof OvlLaws OvlEx.
Import ListNotations.
Local Open Scope Z_scope.

(** C78. However the messages of the ranks interleave, filling the overlap data ends.  On each rank of the M grid there is
    afterwards a row for each point for which a cell with a vertex on this rank was found, on whatever rank, and no other,
    in the order of the points; the row has the coordinates and the image of the cell that is on this rank; the rank of
    the point is in the row if this rank owns the cell, and otherwise none.  On each rank of the N grid there is a row
    for each point, in the order of its data, with the rank that owns the cell. *)
Theorem C78_fill : forall c n mem L R D MG NG sort,
  overlap_input c n mem L R D MG NG -> (forall r, (r < n)%nat -> sorts (sort r)) ->
  exists S', computes n (overlap_fill c mem L R sort) (fun r => OS0 (D r) (MG r) (NG r)) S' /\
    (forall i r, nth_error mem i = Some r -> m_side c n (L i) R D (o_m (S' r))) /\
    (forall r, (r < n)%nat -> ~ In r mem -> o_m (S' r) = []) /\
    (forall q, (q < n)%nat -> n_side mem L (D q) (o_n (S' q))).
Proof. intros. apply fill_correct with (MG := MG) (NG := NG); assumption. Qed.
Print Assumptions C78_fill.

(** C78. The two sides fit together: rank s of the M grid has a row for point p and rank r exactly if r has a row for p and
    s, and never two.  If the points of each rank are in order, then the rows match in the order in which they are
    listed: the k-th row for r on s is for the same point as the k-th row for s on r.  The exchanges of the assembler
    rely on this, as their send and recv maps are made without an order. *)
Theorem C78_sides : forall c n mem L R D MG NG M N,
  overlap_input c n mem L R D MG NG ->
  (forall i r, nth_error mem i = Some r -> m_side c n (L i) R D (M r)) -> (forall r, (r < n)%nat -> ~ In r mem -> M r = []) ->
  (forall q, (q < n)%nat -> n_side mem L (D q) (N q)) ->
  agreed n (fun r => map mr_rank (M r)) (fun q => map nr_rank (N q)) (fun r => map mr_dest (M r)) (fun q => map nr_point (N q)) /\
  (forall r, (r < n)%nat -> distinct (map mr_rank (M r)) (map mr_dest (M r)) /\ distinct (map nr_rank (N r)) (map nr_point (N r))) /\
  ((forall q, (q < n)%nat -> StronglySorted (fun p p' => rindex ColMajor R p < rindex ColMajor R p') (map e_point (D q))) ->
   SendSpec.paired n (fun r => map mr_rank (M r)) (fun q => map nr_rank (N q)) /\
   forall s r i j k a b, (s < n)%nat -> (r < n)%nat ->
     numbered (map mr_rank (M s)) (default_order (map mr_rank (M s))) (Z.of_nat r) i k ->
     numbered (map nr_rank (N r)) (default_order (map nr_rank (N r))) (Z.of_nat s) j k ->
     vread (M s) i = Some a -> vread (N r) j = Some b -> mr_dest a = nr_point b).
Proof. exact sides_fit. Qed.
Print Assumptions C78_sides.

(** C78. The points found by a search (C70) are in order in this sense. *)
Theorem C78_order : forall loc frags es R, lists_found loc frags es -> pt_subset loc R ->
  StronglySorted (fun p p' => rindex ColMajor R p < rindex ColMajor R p') (map e_point es).
Proof. exact found_order. Qed.
Print Assumptions C78_order.

(** C78. On grids that store each point once, the cells of the M side can be collected (C37, C38): all ranks with a vertex
    of a cell list it. *)
Theorem C78_collect : forall c n mem L R D MG NG M N,
  overlap_input c n mem L R D MG NG -> (forall i r, nth_error mem i = Some r -> m_side c n (L i) R D (M r)) -> stored_once c ->
  (forall i, (i < length mem)%nat -> NoDup (N i) /\ forall j, In j (N i) <-> adjacent c (length mem) L i j) ->
  distributed c (length mem) L N (fun i => match nth_error mem i with Some r => map (cell_extents (c_nd c)) (M r) | None => [] end).
Proof. exact collect_cells. Qed.
Print Assumptions C78_collect.

(** C78. When all ranks that have a vertex of a cell know of the point: the search of C72 tells them, if every vertex of a
    cell that was found is itself the lower corner of an active cell.  Partial as C72 is. *)
Theorem C78_told_partial : forall c k L stop depth active X O tol, decomposed c k L -> (0 <= tol)%Q ->
  periodic_coords c X -> periodic_mask c active ->
  forall cell x xs i, pt_in (cells_of c) cell -> active cell = true -> in_cell (c_nd c) X cell x -> In x xs ->
  (forall v, corner (c_nd c) cell v -> pt_in (cells_of c) (wrap c v) /\ active (wrap c v) = true) ->
  (i < k)%nat -> has_vertex c (L i) cell -> In i (overlapping_ranks c L stop depth active X O tol k xs).
Proof. exact vertex_told. Qed.
Print Assumptions C78_told_partial.

(** C78 does not go on to the collects on a periodic grid that stores its first points twice: the last cell of such a grid is
    one cell on the rank with its end and its image before the first point on the rank with the first point, which are
    not the same vertices to the collect map; collecting a field at these cells never ends. *)
Theorem C78_duplicated_refuted : exists c n mem L R D MG NG sort S' N (fields : nat -> list (list Z)) vv ls s,
  overlap_input c n mem L R D MG NG /\ (forall r, (r < n)%nat -> sorts (sort r)) /\
  computes n (overlap_fill c mem L R sort) (fun r => OS0 (D r) (MG r) (NG r)) S' /\
  (forall i, (i < length mem)%nat -> NoDup (N i) /\ forall j, In j (N i) <-> adjacent c (length mem) L i j) /\
  mem = seq 0 n /\
  let prog := collect ColMajor c 1 L L (fun i => map (fun q => (q, L q)) (N i)) (fun i => map (cell_extents (c_nd c)) (o_m (S' i)))
                (fun _ => red_min Z.ltb 1000) in
  run (nstep true n prog) (net0 (fun r => CS0 (fields r) (vv r))) ls = Some s /\ stuck (nstep true n prog) s /\ (n_pc s 0%nat < length prog)%nat.
Proof. exact duplicated_hangs. Qed.
Print Assumptions C78_duplicated_refuted.

(** The M grid is the ring of 6 x 4 points on the ranks 3, 0, 1 and 2; the N grid has four points, 0 and 1 on rank 4, 2 and 3
    on rank 1.  Point 0 is in the cell where the four ranks meet, 1 in the last cell of the first row, 2 in a cell of one
    rank (with a vertex of the next); 3 is in none. *)
Example C78_example : overlap_input ex_c 5 ov_mem ex_L ov_R ov_D ov_MG ov_NG /\
  (forall r, (r < 5)%nat -> sorts isort) /\
  match final 5 (overlap_fill ex_c ov_mem ex_L ov_R (fun _ => isort)) 8 2000 (fun r => OS0 (ov_D r) (ov_MG r) (ov_NG r)) with
  | Some s => map (fun r => map (fun x => (mr_cell x, mr_dest x, mr_rank x)) (o_m (n_st s r))) (seq 0 5) = ov_M /\
              map (fun r => map (fun x => (nr_point x, nr_source x, nr_rank x)) (o_n (n_st s r))) (seq 0 5) = ov_N /\
              forallb (fun r => Nat.eqb (n_pc s r) 9) (seq 0 5) = true
  | None => False
  end.
Proof. exact ov_example. Qed.
