(** Importing XINTOUT files: the files of C89 on three ranks. *)
From Coq Require Import List ZArith QArith Bool Lia Permutation.
From Verif Require Import TupleModel RangeModel CartModel Base RangeProof CartProof DecompModel DecompProof HashSpec NeighSpec HaloEx.
From Verif Require Import XinModel XinSpec XinMain XinEx MatModel MatSpec MatEx DistModel DistSpec ImpModel ImpSpec EndModel EndSpec.
Import ListNotations.
Local Open Scope Z_scope.

(** The first grid, periodic in the first direction, on ranks 2, 0, 1; the second one on ranks 1, 2. *)
Definition en_domain : list (tup Z * Z) := [(T3 5 4 1, 3); (T3 3 3 1, 2)].
Definition en_gr (i : nat) : list nat := if (i =? 0)%nat then [2; 0; 1]%nat else [1; 2]%nat.
Definition en_c (i : nat) : cart := if (i =? 0)%nat then mkC 2 (mkR (T3 0 0 0) (T3 5 4 1)) (T3 true false false) UNIQUE else mkC 2 (mkR (T3 0 0 0) (T3 3 3 1)) (T3 false false false) UNIQUE.
Definition en_own (i q : nat) : range :=
  match i, q with
  | 0%nat, 0%nat => mkR (T3 0 0 0) (T3 2 4 1) | 0%nat, 1%nat => mkR (T3 2 0 0) (T3 4 4 1) | 0%nat, _ => mkR (T3 4 0 0) (T3 5 4 1)
  | _, 0%nat => mkR (T3 0 0 0) (T3 3 2 1) | _, _ => mkR (T3 0 2 0) (T3 3 3 1)
  end.
Definition en_hd (i k : nat) : nat := nth k (en_gr i) 1%nat.

Lemma en_matches : matches ex_grids en_domain.
Proof. unfold matches. repeat apply Forall2_cons; try apply Forall2_nil; cbn; repeat split; lia. Qed.
Lemma en_readable : readable ex_grids en_domain 0.
Proof.
  unfold readable. repeat apply Forall2_cons; try apply Forall2_nil; split; intros n c H; apply in_parts_eq in H; vm_compute in H; injection H as <- <-;
    (split; [unfold fits; cbn; lia|small_parts]).
Qed.
Lemma en_decomposed0 : decomposed (en_c 0) 3 (en_own 0).
Proof.
  split; [cbn; lia|]. split; [lia|]. split; [intros d Hd; ex_dims d|]. split; [intros d Hd; cbn in Hd; ex_dims d|].
  split; [intros d Hd; cbn in Hd; ex_dims d; reflexivity|]. split.
  - split; [ex_subset|]. split; [|ex_disjoint]. intros p Hp. assert (X : c0 p < 2 \/ 2 <= c0 p < 4 \/ 4 <= c0 p) by lia. destruct X as [X|[X|X]]; [ex_in 0%nat|ex_in 1%nat|ex_in 2%nat].
  - intros r Hr. ex_ranks r Hr; reflexivity.
Qed.
Lemma en_decomposed1 : decomposed (en_c 1) 2 (en_own 1).
Proof.
  split; [cbn; lia|]. split; [lia|]. split; [intros d Hd; ex_dims d|]. split; [intros d Hd; cbn in Hd; ex_dims d|].
  split; [intros d Hd; cbn in Hd; ex_dims d; reflexivity|]. split.
  - split; [ex_subset|]. split; [|ex_disjoint]. intros p Hp. assert (X : c1 p < 2 \/ 2 <= c1 p) by lia. destruct X as [X|X]; [ex_in 0%nat|ex_in 1%nat].
  - intros r Hr. ex_ranks r Hr; reflexivity.
Qed.
Lemma en_laid_out : laid_out 3 ex_grids en_gr en_c en_own.
Proof.
  constructor.
  - intros i Hi. destruct i as [|[|i]]; [| |cbn in Hi; lia]; (split; [repeat constructor; cbn; intuition lia|]); cbn; intuition lia.
  - intros i Hi. destruct i as [|[|i]]; [apply en_decomposed0|apply en_decomposed1|cbn in Hi; lia].
  - intros i g d p k Hg Hd Hp Hk Hper. destruct i as [|[|i]]; cbn in Hg; [injection Hg as <-|injection Hg as <-|destruct i; discriminate].
    + cbn [ex_grid1 g_donors In] in Hd. destruct Hd as [<-|[<-|[<-|[]]]]; unfold pt_in, cell_of in Hp; cbn in Hp; destruct k as [|[|[|k]]]; cbn in Hper |- *; try discriminate; lia.
    + cbn [ex_grid2 g_donors In] in Hd. destruct Hd as [<-|[]]; unfold pt_in, cell_of in Hp; cbn in Hp; destruct k as [|[|[|k]]]; cbn in Hper |- *; try discriminate; lia.
  - intros i g y Hg Hy. destruct i as [|[|i]]; cbn in Hg; [injection Hg as <-|injection Hg as <-|destruct i; discriminate].
    + cbn [ex_grid1 g_receivers In] in Hy. destruct Hy as [<-|[]]; unfold pt_in; cbn; lia.
    + cbn [ex_grid2 g_receivers In] in Hy. destruct Hy as [<-|[<-|[<-|[]]]]; unfold pt_in; cbn; lia.
Qed.
Lemma en_holders i k : In (en_hd i k) (en_gr i).
Proof. unfold en_hd, en_gr. destruct (i =? 0)%nat; destruct k as [|[|[|k]]]; cbn; auto; destruct k; auto. Qed.
Lemma en_points i : 0 <= points_of ex_grids i.
Proof. unfold points_of. destruct i as [|[|i]]; cbn; try lia. destruct i; cbn; lia. Qed.
