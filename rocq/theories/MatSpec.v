(** What matching the donors and receivers of XINTOUT files is for, stated without bins and messages. *)
From Coq Require Import List ZArith Bool Permutation.
From Verif Require Import TupleModel XinModel XinSpec MatModel.
Import ListNotations.
Local Open Scope Z_scope.

(** All donors (or receivers) that [n] ranks have. *)
Definition all_items (n : nat) (S : nat -> list (list item)) : list item := flat_map (fun r => concat (S r)) (seq 0 n).
(** The donor (or receiver) with ID [k] among them, the last if there are several, [v] if there is none. *)
Definition partner (l : list item) (v : place) (k : Z) : place := fold_left (fun acc it => if it_id it =? k then it_place it else acc) l v.

(** A domain of [grids] grids, [points i] and [receivers i] the numbers of points and receivers of grid i + 1, each grid known to some rank. *)
Record known (n grids : nat) (points receivers : nat -> Z) (G : nat -> list (Z * (Z * Z))) : Prop := Known {
  kn_right : forall r g x, (r < n)%nat -> In (g, x) (G r) -> exists i, (i < grids)%nat /\ g = Z.of_nat i + 1 /\ x = (points i, receivers i);
  kn_some : forall i, (i < grids)%nat -> exists r, (r < n)%nat /\ In (Z.of_nat i + 1, (points i, receivers i)) (G r);
  kn_pos : forall i, (i < grids)%nat -> 0 <= points i /\ 0 <= receivers i }.
Definition sum_of (grids : nat) (f : nat -> Z) : Z := fold_right Z.add 0 (map f (seq 0 grids)).

(** The IDs are in range. *)
Definition ids_below (n : nat) (total : Z) (S : nat -> list (list item)) : Prop := forall it, In it (all_items n S) -> 0 <= it_id it < total.

(** Every donor has the place of a receiver with its ID, for lists of results by local grid. *)
Definition paired (items : list (list item)) (others : list item) (out : list (list place)) : Prop :=
  Forall2 (Forall2 (fun it p => exists x, In x others /\ it_id x = it_id it /\ p = it_place x)) items out.

(** The donors and receivers of files: connection, grid and cell or point. *)
Definition numbered {A} (l : list A) : list (nat * A) := combine (seq 0 (length l)) l.
Definition file_donors (gs : list grid_data) : list item :=
  flat_map (fun x => map (fun y => Item (g_first (snd x) + Z.of_nat (fst y)) (Z.of_nat (fst x) + 1, d_cell (snd y))) (numbered (g_donors (snd x)))) (numbered gs).
Definition file_receivers (gs : list grid_data) : list item :=
  flat_map (fun x => map (fun y => Item (r_connection y) (Z.of_nat (fst x) + 1, r_point y)) (g_receivers (snd x))) (numbered gs).
(** Each number below the number of receivers is the connection of one donor and of one receiver. *)
Definition upto (t : Z) : list Z := map Z.of_nat (seq 0 (Z.to_nat t)).
Definition consistent (gs : list grid_data) : Prop :=
  Permutation (map it_id (file_donors gs)) (upto (len (file_receivers gs))) /\ Permutation (map it_id (file_receivers gs)) (upto (len (file_receivers gs))).

(** What rank [r] has read, by grid, if rank [h i k] has read part [k] of grid [i]; nothing of the grids it is not on. *)
Definition held {A} (h : nat -> nat) (r : nat) (l : list A) : list A := map snd (filter (fun x => Nat.eqb (h (fst x)) r) (numbered l)).
Definition donors_held (h : nat -> nat -> nat) (L : list (list donor_chunk * list receiver_chunk)) (r : nat) : list (list item) :=
  map (fun x => flat_map (donor_items (Z.of_nat (fst x) + 1)) (held (h (fst x)) r (fst (snd x)))) (numbered L).
Definition receivers_held (h : nat -> nat -> nat) (L : list (list donor_chunk * list receiver_chunk)) (r : nat) : list (list item) :=
  map (fun x => flat_map (receiver_items (Z.of_nat (fst x) + 1)) (held (h (fst x)) r (snd (snd x)))) (numbered L).
Definition points_of (gs : list grid_data) (i : nat) : Z := match nth_error gs i with Some g => num_points (g_size g) | None => 0 end.
Definition receivers_of (gs : list grid_data) (i : nat) : Z := match nth_error gs i with Some g => len (g_receivers g) | None => 0 end.
