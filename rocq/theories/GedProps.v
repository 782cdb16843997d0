(** C97: geometries after their coordinates have been edited. *)
From Coq Require Import List ZArith QArith Bool.
From Verif Require Import TupleModel RangeModel RangeProof CartModel CartProof DecompModel IndexerModel ArrayModel HashModel NetModel NetSpec NeighSpec NeighProof HaloModel HaloProof HaloEx FieldSpec GeomModel GedModel GedSpec GedProof GedEx.
Local Open Scope Z_scope.

(** Ending an edit gives every copy of a point its coordinates, and cells and points their volumes, whatever the schedule. *)
Theorem C97_exact : forall g c n L N H CH len X S,
  gridded c n L N H CH -> edited c n L H CH len X S ->
  exists S', computes n (end_edit g c L) S S' /\ edited c n L H CH len X S' /\ up_to_date g c n L N len X S'.
Proof. exact geometry_exact. Qed.
Print Assumptions C97_exact.

(** The neighbours and halo maps of the library's grids are such grids. *)
Theorem C97_setup : forall c n L, decomposed c n L -> stored_once c -> (forall r, (r < n)%nat -> rempty (cells_local c L r) = false) ->
  gridded c n L (nb c n L) (hm c L (points_extended c L) (nb c n L)) (hm (cart_point_to_cell c) (cells_local c L) (cells_extended c L) (nb c n L)).
Proof. exact setup_ok. Qed.
Print Assumptions C97_setup.

(** The result does not depend on the decomposition. *)
Theorem C97_same : forall g c len X n L N H CH S n2 L2 N2 H2 CH2 S2,
  gridded c n L N H CH -> edited c n L H CH len X S -> gridded c n2 L2 N2 H2 CH2 -> edited c n2 L2 H2 CH2 len X S2 ->
  exists S' S2', computes n (end_edit g c L) S S' /\ computes n2 (end_edit g c L2) S2 S2' /\
    (forall r r2 p, (r < n)%nat -> (r2 < n2)%nat -> pt_in (points_extended c L r) p -> pt_in (points_extended c L2 r2) p -> at_hand c n L N r p -> at_hand c n2 L2 N2 r2 p ->
       at_ (points_extended c L r) (g_x (S' r)) p = at_ (points_extended c L2 r2) (g_x (S2' r2)) p /\ at_ (points_extended c L r) (g_y (S' r)) p = at_ (points_extended c L2 r2) (g_y (S2' r2)) p /\
       at_ (points_extended c L r) (g_z (S' r)) p = at_ (points_extended c L2 r2) (g_z (S2' r2)) p /\ at_ (points_extended c L r) (g_v (S' r)) p = at_ (points_extended c L2 r2) (g_v (S2' r2)) p) /\
    (forall r r2 p, (r < n)%nat -> (r2 < n2)%nat -> pt_in (cells_local c L r) p -> pt_in (cells_local c L2 r2) p ->
       at_ (cells_extended c L r) (g_cv (S' r)) p = at_ (cells_extended c L2 r2) (g_cv (S2' r2)) p).
Proof. exact geometry_same. Qed.
Print Assumptions C97_same.

(** Editing again without changes changes nothing. *)
Theorem C97_again : forall g c n L N H CH len X S,
  gridded c n L N H CH -> edited c n L H CH len X S -> up_to_date g c n L N len X S ->
  exists S', computes n (end_edit g c L) S S' /\
    (forall r p, (r < n)%nat -> pt_in (points_extended c L r) p -> at_hand c n L N r p ->
       at_ (points_extended c L r) (g_x (S' r)) p = at_ (points_extended c L r) (g_x (S r)) p /\ at_ (points_extended c L r) (g_y (S' r)) p = at_ (points_extended c L r) (g_y (S r)) p /\
       at_ (points_extended c L r) (g_z (S' r)) p = at_ (points_extended c L r) (g_z (S r)) p /\ at_ (points_extended c L r) (g_v (S' r)) p = at_ (points_extended c L r) (g_v (S r)) p) /\
    (forall r p, (r < n)%nat -> pt_in (cells_extended c L r) p -> at_hand (cart_point_to_cell c) n (cells_local c L) N r p ->
       at_ (cells_extended c L r) (g_cv (S' r)) p = at_ (cells_extended c L r) (g_cv (S r)) p).
Proof. exact geometry_again. Qed.
Print Assumptions C97_again.

(** Changing the periodic length leaves coordinates beyond the domain where they were. *)
Theorem C97_length : forall g c n L N len len' X S r p d,
  cart_ok c -> stored_once c -> up_to_date g c n L N len X S ->
  (r < n)%nat -> pt_in (points_extended c L r) p -> at_hand c n L N r p -> (d < 3)%nat -> periods c p d <> 0 -> ~ (tget len d == tget len' d)%Q ->
  ~ up_to_date g c n L N len' X (fun r => set_length len' (S r)).
Proof. exact geometry_length. Qed.
Print Assumptions C97_length.

(** The next edit puts them where they belong. *)
Theorem C97_new_length : forall g c n L N H CH len len' X S,
  gridded c n L N H CH -> edited c n L H CH len X S ->
  exists S', computes n (end_edit g c L) (fun r => set_length len' (S r)) S' /\ edited c n L H CH len' X S' /\ up_to_date g c n L N len' X S'.
Proof. exact geometry_new_length. Qed.
Print Assumptions C97_new_length.

Theorem C97_length_refuted : ~ forall g c n L N H CH len len' X S, gridded c n L N H CH -> edited c n L H CH len X S -> up_to_date g c n L N len X S ->
  up_to_date g c n L N len' X (fun r => set_length len' (S r)).
Proof. exact ged_length_refuted. Qed.
Print Assumptions C97_length_refuted.

(** Geometries are created with points at their indices, also beyond the domain: where they should be only if periodic lengths are numbers of points. *)
Theorem C97_created : forall c n L N H CH len,
  gridded c n L N H CH ->
  let S r := created (H r) (CH r) len (points_extended c L r) (cells_extended c L r) in
  edited c n L H CH len indices S /\
  forall r p d, (r < n)%nat -> pt_in (points_extended c L r) p -> (d < 3)%nat ->
    at_ (points_extended c L r) (component d (S r)) p = Some (tget (indices p) d) /\
    ((tget (indices p) d == tget (placed c len indices p) d)%Q <-> periods c p d = 0 \/ (tget len d == inject_Z (per_len c d))%Q).
Proof. exact geometry_created. Qed.
Print Assumptions C97_created.

Theorem C97_created_refuted : ~ forall g c n L N H CH len, gridded c n L N H CH ->
  up_to_date g c n L N len indices (fun r => created (H r) (CH r) len (points_extended c L r) (cells_extended c L r)).
Proof. exact ged_created_refuted. Qed.
Print Assumptions C97_created_refuted.

(** Six points on a circle on three ranks, two apart: the copy after the last one is at 12, its volume is 2. *)
Example C97_example : gridded gc 3 gL gN gH gCH /\ edited gc 3 gL gH gCH glen gX gS /\
  exists S', computes 3 (end_edit UNIFORM gc gL) gS S' /\ up_to_date UNIFORM gc 3 gL gN glen gX S' /\
  exists x v, at_ (points_extended gc gL 2) (g_x (S' 2%nat)) gp = Some x /\ (x == 12)%Q /\ at_ (points_extended gc gL 2) (g_v (S' 2%nat)) gp = Some v /\ (v == 2)%Q.
Proof. exact (conj gc_gridded (conj gS_edited ged_example)). Qed.
