(** Properties of choosing cells and donors: C70, C71. *)
From Coq Require Import List ZArith QArith Bool Lia Sorting.Sorted.
From Verif Require Import TupleModel RangeModel Base RangeProof IndexerModel ArrayModel HashModel CellModel CellSpec CellProof DonorProof.
Import ListNotations.
Local Open Scope Z_scope.

(** C70. Whatever the fragments have found, the overlap data of a pair of grids lists, in order, the points of the
    local range that were found in some cell, each with one of the cells found, and no other cell found for it is
    better: nearer to the point; if the point is in both, with its center nearer to the point; in doubt, of lesser
    index (exact arithmetic). *)
Theorem C70_best_cell : forall nd cellR loc frags, valid_queries cellR loc frags ->
  exists es, aggregate (fun x => x) nd cellR loc frags = Some es /\ lists_found loc frags es /\ from_candidates cellR loc frags es /\
  forall e j v, In e es -> finds frags (rindex ColMajor loc (e_point e)) j v -> as_good nd (e_coords e) (rindex ColMajor cellR (e_cell e)) v j.
Proof. exact aggregate_exact. Qed.
Print Assumptions C70_best_cell.

(** C70. With arithmetic rounded in any way the data still lists the points found, with cells found for them. *)
Theorem C70_listed : forall rnd nd cellR loc frags, valid_queries cellR loc frags ->
  exists es, aggregate rnd nd cellR loc frags = Some es /\ lists_found loc frags es /\ from_candidates cellR loc frags es.
Proof. exact aggregate_listed. Qed.
Print Assumptions C70_listed.

(** C70. With arithmetic rounded in any way, the cell of a point does not depend on the decomposition: two runs with
    different local ranges and different fragments, in different order, that find a point in the same cells have the
    same entry for it. *)
Theorem C70_decomposition : forall rnd nd cellR loc loc' frags frags' es es',
  valid_queries cellR loc frags -> valid_queries cellR loc' frags' -> consistent frags ->
  aggregate rnd nd cellR loc frags = Some es -> aggregate rnd nd cellR loc' frags' = Some es' ->
  forall p, pt_in loc p -> pt_in loc' p ->
  (forall i u, finds frags (rindex ColMajor loc p) i u <-> finds frags' (rindex ColMajor loc' p) i u) ->
  forall e, e_point e = p -> (In e es <-> In e es').
Proof. exact aggregate_same. Qed.
Print Assumptions C70_decomposition.

(** Three points of a line, cells 0, 1, 2 and 3: the first is on the face between cells 0 and 1; the second is in cell 3
    and found, a little outside, in cell 2; the third is not found. *)
Definition ex_cells : range := mkR (T3 0 0 0) (T3 4 1 1).
Definition ex_loc : range := mkR (T3 5 0 0) (T3 8 1 1).
Definition ex_frags : list (list query) :=
  [[Query 0 (Some 1) (T3 0 0 0)%Q; Query 1 (Some 2) (T3 (11 # 10) 0 0)%Q; Query 2 None (T3 0 0 0)%Q];
   [Query 0 (Some 0) (T3 1 0 0)%Q; Query 1 (Some 3) (T3 (1 # 10) 0 0)%Q]].

Example C70_example : valid_queries ex_cells ex_loc ex_frags /\ consistent ex_frags /\
  aggregate (fun x => x) 1 ex_cells ex_loc ex_frags = Some [Entry (T3 0 0 0) (T3 1 0 0)%Q (T3 5 0 0); Entry (T3 3 0 0) (T3 (1 # 10) 0 0)%Q (T3 6 0 0)] /\
  aggregate (fun x => x) 1 ex_cells ex_loc (rev ex_frags) = Some [Entry (T3 0 0 0) (T3 1 0 0)%Q (T3 5 0 0); Entry (T3 3 0 0) (T3 (1 # 10) 0 0)%Q (T3 6 0 0)].
Proof.
  split; [|split; [|split]].
  - assert (C1 : rcount ex_loc = 3) by reflexivity. assert (C2 : rcount ex_cells = 4) by reflexivity. unfold valid_queries. rewrite C1, C2.
    intros fr q [<-|[<-|[]]] H; repeat (destruct H as [<-|H]; [cbn; split; [lia|intros i E; first [discriminate|injection E as <-; lia]]|]); destruct H.
  - intros l i u v (f & Hf & Hu) (g & Hg & Hv). destruct Hf as [<-|[<-|[]]], Hg as [<-|[<-|[]]]; cbn in Hu, Hv;
    repeat (destruct Hu as [Hu|Hu]; [injection Hu; intros; subst; clear Hu; repeat (destruct Hv as [Hv|Hv]; [injection Hv; intros; subst; try discriminate; try reflexivity; try lia|]); try destruct Hv|]); try destruct Hu; discriminate.
  - vm_compute. reflexivity.
  - vm_compute. reflexivity.
Qed.

(** C71. For each point of the local range the M grid chosen as donor is, among the candidates (the grids
    connected to this one that overlap the receiver, if disjoint not with an edge point), one farthest
    from its edge, relative to the edge padding; there is none only if there are no candidates. Among those as far away,
    no grid with a larger number is better; with the same option for all grids the choice is the preferred one. *)
Theorem C71_farthest : forall occ loc ext receiver os, (forall p, pt_in loc p -> pt_in ext p) -> Z.of_nat (length receiver) = rcount ext ->
  valid_overlaps loc ext os -> (forall o, In o os -> o_padding o < 999999) ->
  exists ds, choose_donors occ loc ext receiver os = Some ds /\ Z.of_nat (length ds) = rcount loc /\
  forall p, pt_in loc p -> exists s, vread ds (rindex ColMajor loc p) = Some s /\
    (s_id s < 0 /\ (forall o d v, In o os -> ~ candidate loc ext receiver o p d v) \/
     exists o d v, s_id s = o_m o /\ best_candidate loc ext receiver os p o d v /\
       forall o' d' v', In o' os -> candidate loc ext receiver o' p d' v' -> ~ farther_from_edge d (o_padding o) d' (o_padding o') ->
         (o_m o < o_m o' -> holds_against (occ (o_m o) (o_m o')) v v') /\
         forall K, (forall a b, In a os -> In b os -> o_m a < o_m b -> occ (o_m a) (o_m b) = K) -> preferred K (o_m o) v (o_m o') v').
Proof. exact donors_ok. Qed.
Print Assumptions C71_farthest.

(** C71. The orphans are the receivers without candidates. *)
Theorem C71_orphans : forall occ loc ext receiver os ds, (forall p, pt_in loc p -> pt_in ext p) -> Z.of_nat (length receiver) = rcount ext ->
  valid_overlaps loc ext os -> (forall o, In o os -> o_padding o < 999999) -> choose_donors occ loc ext receiver os = Some ds ->
  forall p, pt_in loc p -> exists b, orphan_at loc ext receiver ds p = Some b /\
    (b = true <-> vread receiver (rindex ColMajor ext p) = Some true /\ forall o d v, In o os -> ~ candidate loc ext receiver o p d v).
Proof. exact orphans_ok. Qed.
Print Assumptions C71_orphans.

(** A local range of four points in an extended range of five; M grids 1, 3 and 6. *)
Definition ex_l : range := mkR (T3 1 0 0) (T3 5 1 1).
Definition ex_e : range := mkR (T3 0 0 0) (T3 5 1 1).
Definition ex_rec : list bool := [true; true; true; true; true].
Definition ex_os : list overlap :=
  [Overlap 1 true true 1 [true; true; false; true] [true; true; true; true; true] [0; 1; 2] [5; 5; 5]%Q;
   Overlap 3 true false 3 [true; true; false; true] [true; true; true; true; false] [-1; 2; 9] [3; 3; 3]%Q;
   Overlap 6 false false 1 [true; true; true; true] [true; true; true; true; true] [9; 9; 9; 9] [1; 1; 1; 1]%Q].

Example C71_example : (forall p, pt_in ex_l p -> pt_in ex_e p) /\ Z.of_nat (length ex_rec) = rcount ex_e /\ valid_overlaps ex_l ex_e ex_os /\
  (forall o, In o ex_os -> o_padding o < 999999) /\
  option_map (map s_id) (choose_donors (fun _ _ => OCC_NONE) ex_l ex_e ex_rec ex_os) = Some [3; 3; -1; 1] /\
  option_map (map s_id) (choose_donors (fun _ _ => OCC_ALL) ex_l ex_e ex_rec ex_os) = Some [3; 1; -1; 1] /\
  option_map (map s_id) (choose_donors (fun _ _ => OCC_COARSE) ex_l ex_e ex_rec ex_os) = Some [3; 3; -1; 1].
Proof.
  split; [|split; [|split; [|split; [|split; [|split]]]]].
  - intros p. unfold pt_in; cbn. lia.
  - reflexivity.
  - split.
    + intros o [<-|[<-|[<-|[]]]]; unfold valid_overlap; cbn; repeat split; try lia; repeat constructor; lia.
    + repeat constructor.
  - intros o [<-|[<-|[<-|[]]]]; cbn; lia.
  - vm_compute. reflexivity.
  - vm_compute. reflexivity.
  - vm_compute. reflexivity.
Qed.
