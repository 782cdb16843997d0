(** Property C73: the search of the cell of a fragment that contains a point. *)
From Coq Require Import List ZArith QArith Bool Lia.
From Verif Require Import TupleModel RangeModel RangeProof BoxModel BoxProof IndexerModel HashModel HashSpec CellModel CellSpec AccelModel AccelSpec AccelProof.
Import ListNotations.
Local Open Scope Z_scope.

(** C73. The search is complete and finds the best cell: if it finds nothing, then the point overlaps no active cell whose
    box contains it; if it finds a cell, then the point overlaps the cell, has the coordinates returned, and no other cell
    whose box contains the point is better (exact arithmetic).  This holds for all criteria by which the tree is
    subdivided, all depths and all resolutions of the bins. *)
Theorem C73_found : forall nd leaf scale depth R mask bounds overlaps coords a x, (1 <= nd <= 3)%nat ->
  accel_build (fun q => q) nd leaf scale depth R mask bounds = Some a ->
  exists res, find_cell (fun q => q) nd R overlaps coords a x = Some res /\
    match res with
    | None => forall cell u, overlapped R mask overlaps coords x cell u -> ~ box_in (bounds cell) x
    | Some (cell, u) => overlapped R mask overlaps coords x cell u /\
        forall cell' u', overlapped R mask overlaps coords x cell' u' -> box_in (bounds cell') x ->
          as_good nd u (rindex ColMajor R cell) u' (rindex ColMajor R cell')
    end.
Proof. exact find_cell_exact. Qed.
Print Assumptions C73_found.

(** C73. With arithmetic rounded in any way, the result does not depend on how the tree is built, nor on the boxes, as
    long as the boxes of the cells that the point overlaps contain it. *)
Theorem C73_structure : forall rnd nd leaf leaf' scale scale' depth depth' R mask bounds bounds' overlaps coords a a' x,
  rounding rnd -> (1 <= nd <= 3)%nat ->
  accel_build rnd nd leaf scale depth R mask bounds = Some a -> accel_build rnd nd leaf' scale' depth' R mask bounds' = Some a' ->
  bounded R mask overlaps coords bounds x -> bounded R mask overlaps coords bounds' x ->
  find_cell rnd nd R overlaps coords a x = find_cell rnd nd R overlaps coords a' x.
Proof. exact find_cell_same. Qed.
Print Assumptions C73_structure.

(** C73. The construction has no undefined behaviour if no active cell is flat and positive numbers are not rounded to
    zero. *)
Theorem C73_built : forall rnd nd, rounding rnd -> (forall q, (0 < q)%Q -> (0 < rnd q)%Q) -> (1 <= nd <= 3)%nat ->
  forall leaf scale depth R mask bounds, (0 < scale)%Q -> (forall cell, pt_in R cell -> mask cell = true -> solid nd (bounds cell)) ->
  exists a, accel_build rnd nd leaf scale depth R mask bounds = Some a.
Proof. exact accel_built. Qed.
Print Assumptions C73_built.

(** Four unit squares in a row and three above them, the last one of the first row inactive: a point in a cell; a point on
    the edge between two cells; a point in the inactive cell, a little outside of its neighbour; a point
    outside of all cells. *)
Definition ex_R : range := mkR (T3 0 0 0) (T3 4 2 1).
Definition ex_mask (c : tup Z) : bool := negb ((c0 c =? 3) && (c1 c =? 0)).
Definition ex_box (c : tup Z) : box :=
  mkB (T3 (inject_Z (c0 c) - (1 # 10)) (inject_Z (c1 c) - (1 # 10)) 0)%Q (T3 (inject_Z (c0 c) + (11 # 10)) (inject_Z (c1 c) + (11 # 10)) 0)%Q.
Definition ex_over (c : tup Z) (x : tup Q) : bool := bcontains (ex_box c) x.
Definition ex_coords (c : tup Z) (x : tup Q) : option (tup Q) := Some (T3 (Qred (c0 x - inject_Z (c0 c))) (Qred (c1 x - inject_Z (c1 c))) 0)%Q.
Example C73_example :
  match accel_build (fun q => q) 2 (fun _ => false) (1 # 2) (fun _ => 2%nat) ex_R ex_mask ex_box with
  | None => False
  | Some a =>
      let find x := find_cell (fun q => q) 2 ex_R ex_over ex_coords a x in
      (exists d s l r, a_root a = Some (Fork d s l r)) /\
      find (T3 (3 # 2) (1 # 2) 0)%Q = Some (Some (T3 1 0 0, T3 (1 # 2) (1 # 2) 0%Q)) /\
      find (T3 1 (1 # 2) 0)%Q = Some (Some (T3 0 0 0, T3 1%Q (1 # 2) 0%Q)) /\
      find (T3 (61 # 20) (1 # 2) 0)%Q = Some (Some (T3 2 0 0, T3 (21 # 20) (1 # 2) 0%Q)) /\
      find (T3 (7 # 2) (1 # 2) 0)%Q = Some None
  end.
Proof. vm_compute. split; [eauto|]. repeat split. Qed.
