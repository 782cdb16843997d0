(** C94: from XINTOUT files to connectivities. *)
From Coq Require Import List ZArith QArith Bool Lia Permutation.
From Verif Require Import TupleModel RangeModel CartModel Base RangeProof CartProof DecompModel DecompProof ContModel ProtoModel ProtoSpec NetModel NetSpec.
From Verif Require Import DHashModel HashSpec DDecompProof NeighSpec HaloEx XinModel XinSpec XinEx MatModel MatSpec MatEx DistModel DistSpec DistEx ImpModel ImpSpec.
From Verif Require Import EndModel EndSpec EndProof EndMain EndServed EndEx.
Import ListNotations.
Local Open Scope Z_scope.

(** Files in either format and byte order, of grids on any ranks and decomposed in any way: reading them, matching, distributing and making connectivities ends in every execution on all ranks. There are
    connectivities for exactly those pairs of grids that have a connection, the same ones on all ranks, and on each rank the one from a grid has exactly the donors of the file for that pair with a point
    that the rank has, and the one to a grid exactly the receivers that are its points, each once, with the data in the file and the destination (source) that the connection gives it. *)
Theorem C94_import : forall m e fmt iblank oh ox gs domain adjust n nd hd hr gr c own junk guess rnd,
  file_ok fmt iblank oh gs -> length ox = 4%nat -> gs <> [] -> matches gs domain -> readable gs domain adjust -> consistent gs ->
  (forall i, 0 <= points_of gs i) -> len (file_receivers gs) <= sum_of (length gs) (points_of gs) ->
  laid_out n gs gr c own -> (forall i k, (i < length gs)%nat -> In (hd i k) (gr i) /\ In (hr i k) (gr i)) -> (forall i k, (hd i k < n)%nat /\ (hr i k < n)%nat) ->
  (forall l m, 1 <= m -> guess l m <= m) -> rounding rnd -> (rnd 1 == 1)%Q ->
  exists L M X ids S',
    read_xintout m domain adjust (ho_file fmt e iblank oh gs) (x_file fmt e ox gs) = Done L /\
    computes n (match_all (length gs) n junk) (fun r => MS0 (grids_on gs gr r) (donors_held hd L r) (receivers_held hr L r)) M /\
    (forall i, (i < length gs)%nat -> computes (length (gr i)) (distribute (c i) (length (gr i)) (range_decomp guess (c_nd (c i))) (range_ratio rnd (c_nd (c i)))) (dist_start hd hr L gr own M i) (X i)) /\
    computes n (import_all nd (length gs)) (fun r => I0 (locals_at (length gs) gr X r)) S' /\
    NoDup ids /\ (forall i j, In (i, j) ids <-> exists k, j = Z.of_nat k + 1 /\ joined gs i k) /\
    forall r, (r < n)%nat -> exists o, S' r = IDone ids o /\ NoDup (map fst o) /\ (forall id, In id (map fst o) <-> exists i, (i < length gs)%nat /\ id = Z.of_nat i + 1 /\ In r (gr i)) /\
      forall i q out, (i < length gs)%nat -> nth_error (gr i) q = Some r -> In (Z.of_nat i + 1, out) o -> as_in_files gs (c i) (own i q) i out.
Proof. exact import_from_files. Qed.
Print Assumptions C94_import.

(** Such connectivities have both sides of every connection: the donor on a rank of its grid (if its cell is not empty) with the receiver's point as its destination, and
    the receiver on a rank of its grid with the donor's cell as its source. *)
Theorem C94_both_sides : forall n gs gr c own (O : nat -> nat -> imported), consistent gs -> laid_out n gs gr c own ->
  (forall i q, (i < length gs)%nat -> (q < length (gr i))%nat -> as_in_files gs (c i) (own i q) i (O i q)) ->
  forall i g k d, nth_error gs i = Some g -> nth_error (g_donors g) k = Some d -> exists j h y, nth_error gs j = Some h /\ In y (g_receivers h) /\ r_connection y = g_first g + Z.of_nat k /\
    ((exists p, pt_in (cell_of d) p) -> exists q m, (q < length (gr i))%nat /\ In (Z.of_nat j + 1, m) (fst (O i q)) /\ In (stored (cm_max m) (donor_read d, (Z.of_nat j + 1, r_point y))) (cm_cells m)) /\
    (exists q l, (q < length (gr j))%nat /\ In (Z.of_nat i + 1, l) (snd (O j q)) /\ In (r_point y, (Z.of_nat i + 1, d_cell d)) l).
Proof. exact both_sides. Qed.
Print Assumptions C94_both_sides.

(** The files of C89 meet this on three ranks; the donor whose cell leaves the grid is for a receiver of the second grid, and the ranks on both ends of the period have points of it. *)
Example C94_example : file_ok STANDARD true ex_other ex_grids /\ matches ex_grids en_domain /\ readable ex_grids en_domain 0 /\ consistent ex_grids /\ laid_out 3 ex_grids en_gr en_c en_own /\
  (forall i k, In (en_hd i k) (en_gr i)) /\
  In (ex_donor (T3 3 1 0) (T3 3 3 1) 4611686018427387904, (2, T3 2 2 0)) (donor_links ex_grids 0) /\ joined ex_grids 1 1 /\
  reached (en_c 0) (en_own 0 0) (cell_of (ex_donor (T3 3 1 0) (T3 3 3 1) 4611686018427387904)).
Proof.
  split; [apply ex_ok; discriminate|]. split; [exact en_matches|]. split; [exact en_readable|]. split; [exact mx_consistent|]. split; [exact en_laid_out|]. split; [exact en_holders|].
  split; [right; right; now left|]. split; [exists (T3 2 0 0, (1, T3 0 1 0)); split; [now left|reflexivity]|].
  right. split.
  - intros H. specialize (H (T3 5 1 0)). unfold pt_in in H. cbn in H. lia.
  - exists (T3 5 1 0), (T3 0 1 0). split; [unfold pt_in; cbn; lia|]. split; [|split; [|unfold pt_in; cbn; lia]].
    + intros [|[|[|d]]] Hd; cbn; split; try discriminate; try lia. intros _. exists (-1). reflexivity.
    + intros [|[|[|d]]] Hd; cbn; try discriminate; lia.
Qed.
(** So they are imported. *)
Example C94_example_import : exists L M X S' ids,
  read_xintout LITTLE en_domain 0 (ho_file STANDARD BIG true ex_other ex_grids) (x_file STANDARD BIG ex_other ex_grids) = Done L /\
  computes 3 (match_all 2 3 mm_junk) (fun r => MS0 (grids_on ex_grids en_gr r) (donors_held en_hd L r) (receivers_held en_hd L r)) M /\
  computes 3 (import_all 2 2) (fun r => I0 (locals_at 2 en_gr X r)) S' /\ In (1, 2) ids /\ In (2, 1) ids /\ ~ In (1, 1) ids /\ exists o, S' 0%nat = IDone ids o /\ map fst o = [1].
Proof.
  destruct (C94_import LITTLE BIG STANDARD true ex_other ex_other ex_grids en_domain 0 3 2 en_hd en_hd en_gr en_c en_own mm_junk ex_guess (fun x => x)) as (L & M & X & ids & S' & H1 & H2 & _ & H4 & _ & H6 & H7).
  - apply ex_ok; discriminate.
  - reflexivity.
  - discriminate.
  - exact en_matches.
  - exact en_readable.
  - exact mx_consistent.
  - exact en_points.
  - exact mx_points.
  - exact en_laid_out.
  - intros i k _. split; apply en_holders.
  - assert (B : forall i k, (en_hd i k < 3)%nat) by (intros i k; pose proof (en_holders i k) as H; unfold en_gr in H; destruct (i =? 0)%nat; cbn in H; lia). auto.
  - exact ex_guess_ok.
  - exact id_rounding.
  - reflexivity.
  - exists L, M, X, S', ids. split; [exact H1|]. split; [exact H2|]. split; [exact H4|]. split; [|split; [|split]].
    + apply H6. exists 1%nat. split; [reflexivity|]. exists (T3 2 0 0, (1, T3 0 1 0)). split; [now left|reflexivity].
    + apply H6. exists 0%nat. split; [reflexivity|]. exists (T3 4 0 0, (2, T3 0 1 0)). split; [now left|reflexivity].
    + rewrite H6. intros (k & E & v & Hv & G). assert (k = 0%nat) as -> by lia. destruct Hv as [<-|[]]. discriminate.
    + destruct (H7 0%nat ltac:(lia)) as (o & E & ND & K & _). exists o. split; [exact E|].
      assert (Y : forall id, In id (map fst o) <-> id = 1).
      { intros id. rewrite K. split; [intros ([|[|i]] & Hi & -> & I); [reflexivity|cbn in I; lia|cbn in Hi; lia]|]. intros ->. exists 0%nat. cbn. auto with arith. }
      destruct (map fst o) as [|a [|b l]]; [destruct (proj2 (Y 1) eq_refl)|f_equal; apply Y; now left|].
      exfalso. pose proof (proj1 (Y a) (or_introl eq_refl)). pose proof (proj1 (Y b) (or_intror (or_introl eq_refl))). subst. inversion ND as [|? ? N _]. apply N. now left.
Qed.
