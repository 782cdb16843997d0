(** Properties of region hashes. *)
From Coq Require Import List ZArith QArith Bool Lia Sorting.Sorted.
From Verif Require Import TupleModel RangeModel BoxModel BoxProof HashModel HashSpec HashGeoProof.
Import ListNotations.
Local Open Scope Z_scope.

(** C22. In a hash built over boxes with any numbers of bins and any rounding of the arithmetic,
    a point has no bin (-1) exactly if it is outside of the bounding box of all regions; the bin of
    every other point exists and lists every region that contains the point, in ascending order. *)
Theorem C22_region_hash_complete : forall rnd nd n regions h, rounding rnd -> (1 <= nd <= 3)%nat ->
  (forall d, (d < 3)%nat -> 1 <= tget n d) ->
  hash_build (qcoords rnd) (box_traits rnd) nd n regions = Some h ->
  bounding_box regions (h_ext h) /\
  forall p, exists b, hash_bin (qcoords rnd) h p = Some b /\
    (b = -1 <-> ~ box_in (h_ext h) p) /\
    (b <> -1 -> 0 <= b < c0 n * c1 n * c2 n /\
       exists l, hash_retrieve h b = Some l /\ StronglySorted Z.lt l /\
         (forall i, In i l -> 0 <= i < Z.of_nat (length regions)) /\
         (forall i r, nth_error regions i = Some r -> box_in r p -> In (Z.of_nat i) l)).
Proof. exact box_hash_correct. Qed.
Print Assumptions C22_region_hash_complete.

(** C22. The construction has no undefined behaviour if there are no regions, or if the bins have a
    positive width in every dimension. *)
Theorem C22_region_hash_built : forall rnd nd n regions, rounding rnd -> (1 <= nd <= 3)%nat ->
  (forall d, (d < 3)%nat -> 1 <= tget n d) ->
  regions = [] \/
  (forall d, (d < nd)%nat -> exists b p b' p', In b regions /\ box_in b p /\ In b' regions /\ box_in b' p' /\
     0 < rnd (rnd (tget p' d - tget p d) / inject_Z (tget n d)))%Q ->
  exists h, hash_build (qcoords rnd) (box_traits rnd) nd n regions = Some h.
Proof. exact box_hash_built. Qed.
Print Assumptions C22_region_hash_built.

(** Three overlapping boxes in two dimensions, in 2 x 2 bins. *)
Definition qb (x0 y0 x1 y1 : Q) : box := mkB (T3 x0 y0 0%Q) (T3 x1 y1 0%Q).
Definition ex_boxes : list box := [qb 0 0 2 2; qb 1 1 4 4; qb 3 0 4 1]%Q.
Example C22_example : rounding (fun x => x) /\
  match hash_build (qcoords (fun x => x)) (box_traits (fun x => x)) 2 (T3 2 2 1) ex_boxes with
  | Some h => hash_bin (qcoords (fun x => x)) h (T3 (7#2) (1#2) 0)%Q = Some 1 /\
              hash_retrieve h 1 = Some [0; 1; 2] /\ hash_retrieve h 2 = Some [0; 1] /\
              hash_bin (qcoords (fun x => x)) h (T3 5 (1#2) 0)%Q = Some (-1)
  | None => False
  end.
Proof.
  split; [split; [auto|reflexivity]|]. vm_compute. repeat split; reflexivity.
Qed.

(** C22. The condition on the width is needed: a single box that is flat in one dimension makes
    the constructor convert a NaN to int. *)
Theorem C22_flat_region_refuted : exists nd n regions, (1 <= nd <= 3)%nat /\
  (forall d, (d < 3)%nat -> 1 <= tget n d) /\ (forall r, In r regions -> exists p, box_in r p) /\
  hash_build (qcoords (fun x => x)) (box_traits (fun x => x)) nd n regions = None.
Proof.
  exists 2%nat, (T3 2 2 1), [qb 0 0 1 0]. split; [lia|]. split.
  - intros d Hd. destruct d as [|[|[|d]]]; cbn; lia.
  - split; [|vm_compute; reflexivity]. intros r [<-|[]]. exists (T3 0 0 0)%Q.
    unfold box_in, tall. cbn. unfold Qle. cbn. lia.
Qed.
Print Assumptions C22_flat_region_refuted.
