(** Property theorems C04. *)
From Coq Require Import List ZArith QArith Bool Lia.
From Verif Require Import TupleModel BoxModel Base BoxProof.
Import ListNotations.
Open Scope Q_scope.

(** C04. Boxes form a lattice of point sets. *)
Theorem C04_box_algebra : forall x y,
  (forall p, bcontains x p = true <-> box_in x p) /\
  (bempty x = true <-> forall p, ~ box_in x p) /\
  (bincludes x y = true <-> box_subset y x) /\
  (boxes_overlap x y = true <-> exists p, box_in x p /\ box_in y p) /\
  (forall p, box_in (intersect_boxes x y) p <-> box_in x p /\ box_in y p) /\
  (box_subset x (union_boxes x y) /\ box_subset y (union_boxes x y) /\
   forall z, box_subset x z -> box_subset y z -> box_subset (union_boxes x y) z) /\
  (forall p, box_subset x (extend_box x p) /\ box_in (extend_box x p) p /\
   forall z, box_subset x z -> box_in z p -> box_subset (extend_box x p) z).
Proof. exact box_algebra. Qed.
Print Assumptions C04_box_algebra.

(** C04. The empty box of any dimension contains nothing. *)
Theorem C04_empty_box : forall nd, (0 < nd)%nat -> forall p, ~ box_in (make_empty_box nd) p.
Proof. exact make_empty_box_empty. Qed.
Print Assumptions C04_empty_box.

(** C04. Clamping gives the nearest point of the box, coordinate by coordinate. *)
Theorem C04_box_clamp : forall x p, bempty x = false ->
  box_in x (clamp_to_box x p) /\
  (box_in x p -> clamp_to_box x p = p) /\
  (forall q, box_in x q -> forall d, (d < 3)%nat ->
     qdist (tget (clamp_to_box x p) d) (tget p d) <= qdist (tget q d) (tget p d)).
Proof. exact bclamp_spec. Qed.
Print Assumptions C04_box_clamp.

(** C04. Moving, growing and scaling act on the point set. *)
Theorem C04_box_motion : forall x a,
  (forall p q, (forall d, (d < 3)%nat -> tget q d == tget p d + tget a d) ->
     (box_in (move_box x a) q <-> box_in x p)) /\
  ((forall d, (d < 3)%nat -> 0 <= tget a d) ->
     forall q, box_in (grow_box x a) q <-> exists p, box_in x p /\ within q p a) /\
  (bempty x = false -> (forall d, (d < 3)%nat -> 0 <= tget a d) ->
     forall q, box_in (scale_box x a) q <-> exists p, box_in x p /\ scaled x a p q).
Proof. exact box_motion. Qed.
Print Assumptions C04_box_motion.

Example C04_example :
  let x := mkB (T3 (-1) 0 (1#2)) (T3 2 0 3) in
  let y := mkB (T3 1 (-3) 3) (T3 5 (1#3) 4) in
  bempty x = false /\ boxes_overlap x y = true /\
  union_boxes x y = mkB (T3 (-1) (-3) (1#2)) (T3 5 (1#3) 4) /\
  intersect_boxes x y = mkB (T3 1 0 3) (T3 2 0 3) /\
  clamp_to_box x (T3 7 (-1) 1) = T3 2 0 1 /\
  bempty (scale_box x (T3 2 1 (1#3))) = false.
Proof. vm_compute; repeat split; reflexivity. Qed.
