(** Concrete cells for the examples in GeomProps. *)
From Coq Require Import List ZArith QArith Qabs Bool Lia.
From Verif Require Import TupleModel RangeModel GeomModel GeomSpec GeomProof GeomNewton GeomLattice GeomVolume.
Import ListNotations.
Local Open Scope Q_scope.

(** A lattice with steps that are not perpendicular, in two and three dimensions; the unit lattice; a rotated one. *)
Definition shear2 (p : tup Z) : tup Q := T3 (inject_Z (c0 p) + inject_Z (c1 p) / 2) (inject_Z (c1 p)) 0.
Definition shear3 (p : tup Z) : tup Q := T3 (inject_Z (c0 p) + inject_Z (c2 p) / 2) (inject_Z (c1 p) - inject_Z (c2 p)) (2 * inject_Z (c2 p)).
Definition unit (p : tup Z) : tup Q := T3 (inject_Z (c0 p)) (inject_Z (c1 p)) (inject_Z (c2 p)).
Definition turned (p : tup Z) : tup Q := T3 (3 * inject_Z (c0 p) - 4 * inject_Z (c1 p)) (4 * inject_Z (c0 p) + 3 * inject_Z (c1 p)) 0.
(** Points with no parallel lines: x = i + i j / 4, y = j + i j / 8, z = k + i k / 4. *)
Definition skewed (p : tup Z) : tup Q :=
  T3 (inject_Z (c0 p) + inject_Z (c0 p * c1 p) / 4) (inject_Z (c1 p) + inject_Z (c0 p * c1 p) / 8) (inject_Z (c2 p) + inject_Z (c0 p * c2 p) / 4).
(** A polar grid: the points j = 0 are one point. *)
Definition polar (p : tup Z) : tup Q := T3 (inject_Z (c1 p)) (inject_Z (c0 p * c1 p)) 0.
Definition mirrored (p : tup Z) : tup Q := T3 (- inject_Z (c0 p)) (inject_Z (c1 p)) 0.
Definition tiny (p : tup Z) : tup Q := T3 (inject_Z (c0 p) * (1 # 10000000000000)) (inject_Z (c1 p) * (1 # 10000000000000)) 0.
Definition origin : tup Z := T3 0%Z 0%Z 0%Z.

Ltac each := repeat match goal with H : In _ _ |- _ => cbn in H; destruct H as [<-|H] | H : False |- _ => destruct H | H : _ \/ _ |- _ => destruct H as [<-|H] end.
Ltac dims d := destruct d as [|[|[|[|d]]]]; try lia.
Ltac known := vm_compute; reflexivity.
Lemma shear2_parallel : parallel 2 shear2 origin. Proof. intros o Ho. each; intros d Hd; dims d; known. Qed.
Lemma shear2_full : full 2 shear2 origin. Proof. vm_compute. discriminate. Qed.
Lemma shear3_parallel : parallel 3 shear3 origin. Proof. intros o Ho. each; intros d Hd; dims d; known. Qed.
Lemma shear3_full : full 3 shear3 origin. Proof. vm_compute. discriminate. Qed.
Lemma unit_parallel : forall nd, (1 <= nd <= 3)%nat -> parallel nd unit origin.
Proof. intros nd H. dims nd; intros o Ho; each; intros d Hd; dims d; known. Qed.
Lemma unit_along : forall nd, (1 <= nd <= 3)%nat -> along_axes nd unit origin.
Proof. intros nd H. dims nd; (split; [intros e d He Hd N; dims e; dims d; known|intros e He; dims e; vm_compute; discriminate]). Qed.
Lemma unit_ascending : forall nd, (1 <= nd <= 3)%nat -> ascending nd unit origin.
Proof. intros nd H. split; [apply unit_along, H|]. intros d Hd. dims d; known. Qed.
Lemma turned_parallel : parallel 2 turned origin. Proof. intros o Ho. each; intros d Hd; dims d; known. Qed.
Lemma turned_perpendicular : perpendicular 2 turned origin.
Proof. split; [intros e He; dims e; vm_compute; discriminate|intros e e' He He' N; dims e; dims e'; known]. Qed.
Lemma skewed_convex : convex skewed origin. Proof. left. repeat constructor; known. Qed.
Lemma skewed_proper : proper 3 skewed origin.
Proof. intros part Hp. each; vm_compute; discriminate. Qed.
Lemma skewed_proper' : proper 3 skewed (tadd origin (unit_step 0)).
Proof. intros part Hp. each; vm_compute; discriminate. Qed.
Definition E4 : range := mkR (T3 0 0 0)%Z (T3 4 4 1)%Z.
Definition steps2 : tup (tup Q) := T3 (T3 1 0 0) (T3 (1 # 2) 1 0) (T3 0 0 0).
Lemma shear2_lattice : lattice 2 E4 shear2 (T3 0 0 0) steps2.
Proof. intros p _ d Hd. unfold shear2, steps2. dims d; cbn [tget c0 c1 c2 seq map]; rewrite ?qtotal_cons; change (qtotal []) with 0; field. Qed.
Lemma steps2_solid : solid_lattice 2 steps2. Proof. vm_compute. discriminate. Qed.
