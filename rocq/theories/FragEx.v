(** Coordinates used as examples and counterexamples. *)
From Coq Require Import List ZArith QArith Bool Lia.
From Verif Require Import TupleModel RangeModel CartModel CartProof DecompModel HaloEx FragModel FragSpec FragProof.
Import ListNotations.
Local Open Scope Z_scope.

Definition no_rotation (r : nat) (f : range) : tup (tup Q) := T3 (T3 1 0 0)%Q (T3 0 1 0)%Q (T3 0 0 1)%Q.
Definition axis (p : tup Z) : tup Q := T3 (inject_Z (c0 p)) 0%Q 0%Q.
Definition half_way (cell : tup Z) : tup Q := multilinear 1 axis cell (T3 (1 # 2) 0 0)%Q.

Lemma half_way_in cell : in_cell 1 axis cell (half_way cell).
Proof. apply multilinear_in; [lia|]. intros d Hd. destruct d; [|lia]. split; discriminate. Qed.

Definition hexagon (p : tup Z) : tup Q :=
  let s := inject_Z (1 + c1 p) in
  let at_ x y := T3 (s * x)%Q (s * y)%Q 0%Q in
  match c0 p mod 6 with
  | 0 => at_ 2%Q 0%Q | 1 => at_ 1%Q 2%Q | 2 => at_ (-1)%Q 2%Q
  | 3 => at_ (-2)%Q 0%Q | 4 => at_ (-1)%Q (-2)%Q | _ => at_ 1%Q (-2)%Q
  end.
Definition mid (cell : tup Z) : tup Q := multilinear 2 hexagon cell (T3 (1 # 2) (1 # 3) 0)%Q.

Lemma hexagon_periodic : periodic_coords ex_c hexagon.
Proof.
  intros p q H. unfold is_image in H. assert (E : c0 q mod 6 = c0 p mod 6 /\ c1 q = c1 p).
  { pose proof (H 0%nat ltac:(lia)) as [A _]. pose proof (H 1%nat ltac:(lia)) as [_ B]. cbn in A, B.
    destruct (A eq_refl) as [k E]. split; [|exact (B eq_refl)]. rewrite E. apply Z.mod_add. lia. }
  unfold hexagon. destruct E as [-> ->]. reflexivity.
Qed.
