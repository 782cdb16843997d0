(** Matching donors and receivers: examples. *)
From Coq Require Import List ZArith Bool Lia Permutation.
From Verif Require Import TupleModel Base ContModel ArrayModel HashModel ProtoModel ProtoSpec NetModel NetSpec DDecompProof XinModel XinSpec XinEx MatModel MatSpec MatMain MatFile.
Import ListNotations.
Local Open Scope Z_scope.

(** The files of C89 on three ranks: the first grid on all of them, the second on ranks 1 and 2. *)
Definition mx_G (r : nat) : list (Z * (Z * Z)) := if (r =? 0)%nat then [(1, (20, 1))] else [(1, (20, 1)); (2, (9, 3))].
Lemma mx_known : known 3 2 (points_of ex_grids) (receivers_of ex_grids) mx_G.
Proof.
  constructor.
  - intros r g x Hr H. unfold mx_G in H. destruct r as [|r]; cbn in H.
    + destruct H as [[= <- <-]|[]]. exists 0%nat. repeat split; lia.
    + destruct H as [[= <- <-]|[[= <- <-]|[]]]; [exists 0%nat|exists 1%nat]; repeat split; lia.
  - intros i Hi. destruct i as [|[|i]]; [exists 0%nat|exists 1%nat|lia]; (split; [lia|]); cbn; auto.
  - intros i Hi. destruct i as [|[|i]]; [| |lia]; cbn; lia.
Qed.
Lemma mx_consistent : consistent ex_grids.
Proof.
  split.
  - change (map it_id (file_donors ex_grids)) with [0; 1; 2; 3]. change (upto (len (file_receivers ex_grids))) with [0; 1; 2; 3]. reflexivity.
  - change (map it_id (file_receivers ex_grids)) with [3; 0; 1; 2]. change (upto (len (file_receivers ex_grids))) with [0; 1; 2; 3].
    change [3; 0; 1; 2] with ([3] ++ [0; 1; 2]). apply (Permutation_app_comm [3] [0; 1; 2]).
Qed.
Lemma mx_points : len (file_receivers ex_grids) <= sum_of (length ex_grids) (points_of ex_grids).
Proof. vm_compute. discriminate. Qed.

(** Two donors, two receivers with the same ID. *)
Definition mm_pt (x : Z) : tup Z := T3 x 0 0.
Definition mm_G (p v : Z) (r : nat) : list (Z * (Z * Z)) := [(1, (p, v))].
Definition mm_D (r : nat) : list (list item) := if (r =? 0)%nat then [[Item 0 (1, mm_pt 3); Item 1 (1, mm_pt 4)]] else [[]].
Definition mm_R (r : nat) : list (list item) := if (r =? 0)%nat then [[]] else [[Item 0 (1, mm_pt 8); Item 0 (1, mm_pt 9)]].
Lemma mm_known p v : 0 <= p -> 0 <= v -> known 2 1 (fun _ => p) (fun _ => v) (mm_G p v).
Proof.
  intros Hp Hv. constructor.
  - intros r g x Hr [[= <- <-]|[]]. exists 0%nat. repeat split; lia.
  - intros i Hi. exists 0%nat. assert (i = 0%nat) as -> by lia. cbn. auto.
  - intros i Hi. lia.
Qed.
Lemma mm_missing junk : exists S', computes 2 (match_all 1 2 junk) (fun r => MS0 (mm_G 10 2 r) (mm_D r) (mm_R r)) S' /\ sd_out (ms_m (S' 0%nat)) = [[(1, mm_pt 9); junk 0%nat 1]].
Proof.
  destruct (match_result 2 1 (fun _ => 10) (fun _ => 2) (mm_G 10 2) (mm_known 10 2 ltac:(lia) ltac:(lia)) mm_D mm_R junk ltac:(lia)) as (S' & C & H).
  - cbn. lia.
  - intros it. cbn. intros [<-|[<-|[]]]; cbn; lia.
  - intros it. cbn. intros [<-|[<-|[]]]; cbn; lia.
  - exists S'. split; [exact C|]. destruct (H 0%nat ltac:(lia)) as [-> _]. reflexivity.
Qed.
(** Donors and no receivers; a connection beyond the number of receivers; more receivers than points. *)
Definition mm_none (r : nat) : list (list item) := [].
Definition mm_far (r : nat) : list (list item) := if (r =? 0)%nat then [[Item 0 (1, mm_pt 3); Item 2 (1, mm_pt 4)]] else [].
Definition mm_three (r : nat) : list (list item) := if (r =? 0)%nat then [[Item 0 (1, mm_pt 0); Item 1 (1, mm_pt 1); Item 2 (1, mm_pt 1)]] else [].
Definition mm_junk (_ : nat) (_ : Z) : place := (0, mm_pt 0).
