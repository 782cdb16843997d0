(** What importing donors and receivers of files is for, stated without counts and positions. *)
From Coq Require Import List ZArith Bool.
From Verif Require Import TupleModel RangeModel XinModel MatModel DistModel ImpModel.
Import ListNotations.
Local Open Scope Z_scope.

(** Some rank has a receiver of grid [j] whose source is grid [i]. *)
Definition connected (n : nat) (L : nat -> locals) (i j : Z) : Prop :=
  exists s ds rs v, (s < n)%nat /\ In (j, (ds, rs)) (L s) /\ In v rs /\ gid v = i.

(** Grids are among 1, ..., g; cells are not empty and have as many coefficients as points in a direction; a donor is connected to its destination. *)
Record importable (n g : nat) (L : nat -> locals) : Prop := Importable {
  ip_grid : forall s id ds rs, (s < n)%nat -> In (id, (ds, rs)) (L s) -> 1 <= id <= Z.of_nat g;
  ip_source : forall s id ds rs v, (s < n)%nat -> In (id, (ds, rs)) (L s) -> In v rs -> 1 <= gid v <= Z.of_nat g;
  ip_dest : forall s id ds rs v, (s < n)%nat -> In (id, (ds, rs)) (L s) -> In v ds -> connected n L id (gid v);
  ip_coefs : forall s id ds rs v d, (s < n)%nat -> In (id, (ds, rs)) (L s) -> In v ds -> (d < 3)%nat ->
    1 <= tget (e_end (fst v)) d - tget (e_begin (fst v)) d /\ Z.of_nat (length (tget (e_coefs (fst v)) d)) = tget (e_end (fst v)) d - tget (e_begin (fst v)) d }.

(** A donor in arrays for cells of size [max]: the coefficients followed by zeros. *)
Definition filled (max : Z) (l : list Z) : list Z := l ++ repeat 0 (Z.to_nat (max - Z.of_nat (length l))).
Definition stored (max : Z) (v : dval) : dval :=
  (DonorEntry (e_begin (fst v)) (e_end (fst v)) (e_coords (fst v)) (T3 (filled max (c0 (e_coefs (fst v)))) (filled max (c1 (e_coefs (fst v)))) (filled max (c2 (e_coefs (fst v))))), snd v).

(** [max] is the largest size of a cell, at least 1. *)
Definition largest (max : Z) (ds : list dval) : Prop :=
  (forall v d, In v ds -> (d < 3)%nat -> tget (e_end (fst v)) d - tget (e_begin (fst v)) d <= max) /\
  (max = 1 \/ exists v d, In v ds /\ (d < 3)%nat /\ tget (e_end (fst v)) d - tget (e_begin (fst v)) d = max).

Definition to_grid {A} (j : Z) (l : list (A * place)) : list (A * place) := filter (fun v => gid v =? j) l.

(** The connectivities of a grid with donors [ds] and receivers [rs]. *)
Definition imports (n : nat) (L : nat -> locals) (id : Z) (ds : list dval) (rs : list rval) (out : imported) : Prop :=
  NoDup (map fst (fst out)) /\ NoDup (map fst (snd out)) /\
  (forall j, In j (map fst (fst out)) <-> connected n L id j) /\ (forall i, In i (map fst (snd out)) <-> connected n L i id) /\
  (forall j m, In (j, m) (fst out) -> largest (cm_max m) (to_grid j ds) /\ cm_cells m = map (stored (cm_max m)) (to_grid j ds)) /\
  (forall i l, In (i, l) (snd out) -> l = to_grid i rs).
