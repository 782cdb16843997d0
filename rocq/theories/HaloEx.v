(** Small decompositions used as examples and counterexamples. *)
From Coq Require Import List ZArith QArith_base Bool Lia.
From Verif Require Import TupleModel RangeModel RangeProof CartModel CartProof DecompModel DecompProof.
From Verif Require Import NeighSpec.
Import ListNotations.
Local Open Scope Z_scope.

Definition ex_guess (l : list Q) (m : Z) : Z := Z.min 2 m.

Ltac ex_ranks r H := destruct r as [|[|[|[|r]]]]; cbn in H |- *; try lia.
Ltac ex_dims d := destruct d as [|[|[|d]]]; cbn; try lia.
Ltac ex_subset :=
  let i := fresh "i" in let H := fresh "H" in
  intros i ? H ? ?; repeat (destruct i as [|i]; [cbn in H; injection H as <-; unfold pt_in in *; cbn in *; lia|]);
  destruct i; discriminate.
Ltac ex_disjoint :=
  intros i j s t p Hs Ht Ps Pt;
  destruct i as [|[|[|[|i]]]]; destruct j as [|[|[|[|j]]]]; cbn in Hs, Ht; try reflexivity; try discriminate Hs; try discriminate Ht;
  try (destruct i; discriminate); try (destruct j; discriminate);
  exfalso; injection Hs as <-; injection Ht as <-; unfold pt_in in *; cbn in *; lia.
Ltac ex_in i := exists i; eexists; split; [reflexivity|unfold pt_in in *; cbn in *; lia].

(** A 6 x 4 domain, periodic in the first direction, on 2 x 2 ranks. *)
Definition ex_c : cart := mkC 2 (mkR (T3 0 0 0) (T3 6 4 1)) (T3 true false false) UNIQUE.
Definition ex_L (r : nat) : range :=
  match r with
  | O => mkR (T3 0 0 0) (T3 3 2 1) | 1%nat => mkR (T3 3 0 0) (T3 6 2 1)
  | 2%nat => mkR (T3 0 2 0) (T3 3 4 1) | _ => mkR (T3 3 2 0) (T3 6 4 1)
  end.

Lemma ex_decomposed : decomposed ex_c 4 ex_L.
Proof.
  split; [cbn; lia|]. split; [lia|]. split; [intros d Hd; ex_dims d|].
  split; [intros d Hd; cbn in Hd; ex_dims d|].
  split; [intros d Hd; cbn in Hd; ex_dims d; reflexivity|]. split.
  - split; [ex_subset|]. split; [|ex_disjoint].
    intros p Hp. assert (X : (c0 p < 3 \/ 3 <= c0 p) /\ (c1 p < 2 \/ 2 <= c1 p)) by lia.
    destruct X as [[X|X] [Y|Y]]; [ex_in 0%nat|ex_in 2%nat|ex_in 1%nat|ex_in 3%nat].
  - intros r Hr. ex_ranks r Hr; reflexivity.
Qed.

Lemma ex_once : stored_once ex_c.
Proof. intros d Hd. ex_dims d. Qed.

(** Six points on a circle, the last one stored twice or not, on three ranks. *)
Definition ex_circle (s : pstorage) : cart := mkC 1 (mkR (T3 0 0 0) (T3 6 1 1)) (T3 true false false) s.
Definition ex_line : cart := mkC 1 (mkR (T3 0 0 0) (T3 6 1 1)) (T3 false false false) UNIQUE.
Definition ex_L1 (a b : Z) (r : nat) : range :=
  match r with O => mkR (T3 0 0 0) (T3 a 1 1) | 1%nat => mkR (T3 a 0 0) (T3 b 1 1) | _ => mkR (T3 b 0 0) (T3 6 1 1) end.

Lemma ex_splits1 a b : 0 < a -> a < b -> b < 6 ->
  splits (mkR (T3 0 0 0) (T3 6 1 1)) (map (ex_L1 a b) (seq 0 3)).
Proof.
  intros A B C. split; [ex_subset|]. split; [|ex_disjoint].
  intros p Hp. assert (X : c0 p < a \/ a <= c0 p < b \/ b <= c0 p) by lia.
  destruct X as [X|[X|X]]; [ex_in 0%nat|ex_in 1%nat|ex_in 2%nat].
Qed.

Lemma ex_nonempty1 a b r : 0 < a -> a < b -> b < 6 -> rempty (ex_L1 a b r) = false.
Proof.
  intros A B C. apply rempty_false. destruct r as [|[|r]]; unfold pt_in; cbn; lia.
Qed.

Lemma ex_circle_decomposed s a b : 0 < a -> a < b -> b < 6 -> decomposed (ex_circle s) 3 (ex_L1 a b).
Proof.
  intros A B C. split; [cbn; lia|]. split; [lia|]. split; [intros d Hd; destruct s; ex_dims d|].
  split; [intros d Hd; cbn in Hd; ex_dims d|].
  split; [intros d Hd; cbn in Hd; ex_dims d; reflexivity|]. split; [apply ex_splits1; auto|].
  intros r Hr. apply ex_nonempty1; auto.
Qed.

Lemma ex_line_decomposed a b : 0 < a -> a < b -> b < 6 -> decomposed ex_line 3 (ex_L1 a b).
Proof.
  intros A B C. split; [cbn; lia|]. split; [lia|]. split; [intros d Hd; ex_dims d|].
  split; [intros d Hd; cbn in Hd; ex_dims d|].
  split; [intros d Hd; cbn in Hd; ex_dims d; reflexivity|]. split; [apply ex_splits1; auto|].
  intros r Hr. apply ex_nonempty1; auto.
Qed.

Lemma ex_line_once : stored_once ex_line.
Proof. intros d Hd. ex_dims d. Qed.
