(** What the fragments of a grid are for. *)
From Coq Require Import List ZArith Bool QArith.
From Verif Require Import TupleModel RangeModel RangeProof CartModel CartProof DecompModel DecompProof.
Import ListNotations.
Local Open Scope Z_scope.

(** The ranges are parts of r without common cells, each with an active cell, and every active cell of r is in one. *)
Definition fragmented (active : tup Z -> bool) (r : range) (fs : list range) : Prop :=
  (forall f, In f fs -> pt_subset f r /\ exists cell, pt_in f cell /\ active cell = true) /\
  (forall cell, pt_in r cell -> active cell = true -> exists f, In f fs /\ pt_in f cell) /\
  (forall i j f g cell, nth_error fs i = Some f -> nth_error fs j = Some g -> pt_in f cell -> pt_in g cell -> i = j).

Definition qsum (l : list Q) : Q := fold_right Qplus 0%Q l.

(** x is in the cell: a convex combination of the vertices with the coordinates X. *)
Definition in_cell (nd : nat) (X : tup Z -> tup Q) (cell : tup Z) (x : tup Q) : Prop :=
  exists l : list (Q * tup Z),
    (forall w v, In (w, v) l -> (0 <= w)%Q /\ corner nd cell v) /\ (qsum (map fst l) == 1)%Q /\
    forall d, (d < 3)%nat -> (tget x d == qsum (map (fun wv => fst wv * tget (X (snd wv)) d) l))%Q.

(** What depends on a point does so up to periodicity. *)
Definition periodic_coords (c : cart) (X : tup Z -> tup Q) : Prop := forall p q, is_image c p q -> X q = X p.
Definition periodic_mask (c : cart) (active : tup Z -> bool) : Prop := forall p q, is_image c p q -> active q = active p.

(** The point with the coordinates u in a cell, by multilinear interpolation between the vertices. *)
Definition weight (nd : nat) (u : tup Q) (o : tup Z) : Q :=
  fold_right (fun d w => (if Nat.ltb d nd then (if tget o d =? 0 then 1 - tget u d else tget u d) else 1) * w)%Q 1%Q [0; 1; 2]%nat.
Definition multilinear (nd : nat) (X : tup Z -> tup Q) (cell : tup Z) (u : tup Q) : tup Q :=
  tmake (fun d => qsum (map (fun o => weight nd u o * tget (X (tadd cell o)) d)%Q (foreach_col (dims_range nd (fun _ => 0) (fun _ => 2))))).
