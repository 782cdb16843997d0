(** What importing XINTOUT files is for, from the contents of the files to the connectivities. *)
From Coq Require Import List ZArith Bool Permutation.
From Verif Require Import TupleModel RangeModel RangeProof CartModel Base CartProof DecompModel NeighSpec XinModel XinSpec MatModel MatSpec DistModel DistSpec ImpModel ImpSpec.
Import ListNotations.
Local Open Scope Z_scope.

(** The place with that connection; there is one if each number is the connection of one donor and of one receiver. *)
Definition place_of (l : list item) (id : Z) : place := match find (fun it => it_id it =? id) l with Some it => it_place it | None => (0, T3 0 0 0) end.
(** The donors of grid i + 1 with their destinations (grid and point), the receivers with their sources (grid and cell): all that the files have about it. *)
Definition donor_links (gs : list grid_data) (i : nat) : list (donor * place) :=
  match nth_error gs i with Some g => map (fun x => (snd x, place_of (file_receivers gs) (g_first g + Z.of_nat (fst x)))) (numbered (g_donors g)) | None => [] end.
Definition receiver_links (gs : list grid_data) (i : nat) : list (tup Z * place) :=
  match nth_error gs i with Some g => map (fun y => (r_point y, place_of (file_donors gs) (r_connection y))) (g_receivers g) | None => [] end.
Definition cell_of (d : donor) : range := mkR (d_cell d) (tadd (d_cell d) (d_size d)).

(** A grid has a receiver whose source is grid [i]. *)
Definition joined (gs : list grid_data) (i : Z) (j : nat) : Prop := exists v, In v (receiver_links gs j) /\ gid v = i.

(** [l'] are the elements of [l] with P. *)
Definition chosen {A} (P : A -> Prop) (l l' : list A) : Prop := exists f, l' = filter f l /\ forall x, In x l -> (f x = true <-> P x).

(** The grids of the domain: grid i + 1 has the ranks [gr i], the shape [c i], and the local ranges [own i]; cells leave it only in periodic directions, and receivers are points of it. *)
Record laid_out (n : nat) (gs : list grid_data) (gr : nat -> list nat) (c : nat -> cart) (own : nat -> nat -> range) : Prop := LaidOut {
  lo_ranks : forall i, (i < length gs)%nat -> NoDup (gr i) /\ forall r, In r (gr i) -> (r < n)%nat;
  lo_range : forall i, (i < length gs)%nat -> decomposed (c i) (length (gr i)) (own i);
  lo_cells : forall i g d p k, nth_error gs i = Some g -> In d (g_donors g) -> pt_in (cell_of d) p -> (k < 3)%nat -> tget (c_per (c i)) k = false ->
    tget (rb (c_range (c i))) k <= tget p k < tget (re (c_range (c i))) k;
  lo_points : forall i g y, nth_error gs i = Some g -> In y (g_receivers g) -> pt_in (c_range (c i)) (r_point y) }.

(** The connectivities of grid i + 1 on a rank with the local range [own]. *)
Definition as_in_files (gs : list grid_data) (c : cart) (own : range) (i : nat) (out : imported) : Prop :=
  NoDup (map fst (fst out)) /\ NoDup (map fst (snd out)) /\
  (forall j, In j (map fst (fst out)) <-> exists k, j = Z.of_nat k + 1 /\ joined gs (Z.of_nat i + 1) k) /\
  (forall j, In j (map fst (snd out)) <-> joined gs j i) /\
  (forall j m, In (j, m) (fst out) -> exists l, chosen (fun x => gid x = j /\ reached c own (cell_of (fst x))) (donor_links gs i) l /\
    Permutation (cm_cells m) (map (fun x => stored (cm_max m) (donor_read (fst x), snd x)) l) /\
    forall x d, In x l -> (d < 3)%nat -> tget (d_size (fst x)) d <= cm_max m) /\
  (forall j l', In (j, l') (snd out) -> exists l, chosen (fun x => gid x = j /\ pt_in own (fst x)) (receiver_links gs i) l /\ Permutation l' l).
