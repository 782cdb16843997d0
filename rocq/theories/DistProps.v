(** C92: donors and receivers of XINTOUT files go to the ranks that need them. *)
From Coq Require Import List ZArith QArith Bool Lia.
From Verif Require Import TupleModel RangeModel CartModel Base RangeProof CartProof DecompModel DecompProof ContModel ProtoModel ProtoSpec.
From Verif Require Import NetModel NetSpec DHashModel HashSpec DDecompProof NeighSpec HaloEx XinModel MatModel DistModel DistSpec DistProof DistEx.
Import ListNotations.
Local Open Scope Z_scope.

(** In every execution a rank gets the donors whose cells have one of its points, and the receivers that are its points, each as it was read and in the order of the ranks that read them; and a maximal size that is large enough. *)
Theorem C92_exact : forall c n L mx ds rs guess rnd, decomposed c n L ->
  (forall r v, (r < n)%nat -> In v (ds r) -> donor_fits c (mx r) v) -> (forall r v, (r < n)%nat -> In v (rs r) -> pt_in (c_range c) (fst v)) ->
  (forall l m, 1 <= m -> guess l m <= m) -> rounding rnd -> (rnd 1 == 1)%Q ->
  exists mx' f k, computes n (distribute c n (range_decomp guess (c_nd c)) (range_ratio rnd (c_nd c))) (fun r => X0 (L r) (mx r) (ds r) (rs r))
      (fun r => XDone (mx' r) (all_of n ds (f r)) (all_of n rs (k r))) /\
    forall r s, (r < n)%nat -> (s < n)%nat ->
      (forall v, In v (ds s) -> (f r v = true <-> reached c (L r) (extents v)) /\ (f r v = true -> mx s <= mx' r)) /\
      (forall v, In v (rs s) -> (k r v = true <-> pt_in (L r) (fst v))).
Proof. exact distribute_spec. Qed.
Print Assumptions C92_exact.

(** Every receiver goes to exactly one rank; a donor goes to at least one if its cell is not empty, and else to none. *)
Theorem C92_places : forall c n L mx ds rs guess rnd, decomposed c n L ->
  (forall r v, (r < n)%nat -> In v (ds r) -> donor_fits c (mx r) v) -> (forall r v, (r < n)%nat -> In v (rs r) -> pt_in (c_range c) (fst v)) ->
  (forall l m, 1 <= m -> guess l m <= m) -> rounding rnd -> (rnd 1 == 1)%Q ->
  exists S', computes n (distribute c n (range_decomp guess (c_nd c)) (range_ratio rnd (c_nd c))) (fun r => X0 (L r) (mx r) (ds r) (rs r)) S' /\
    forall s, (s < n)%nat ->
      (forall v, In v (rs s) -> exists r, (r < n)%nat /\ pt_in (L r) (fst v) /\ forall q, (q < n)%nat -> (In v (xreceivers (S' q)) <-> q = r)) /\
      (forall v, In v (ds s) -> (exists r, (r < n)%nat /\ In v (xdonors (S' r))) <-> exists p, pt_in (extents v) p).
Proof. exact distribute_places. Qed.
Print Assumptions C92_places.

Example C92_circle : exists S', computes 3 (distribute (ex_circle UNIQUE) 3 (range_decomp ex_guess 1) (range_ratio (fun x => x) 1)) (fun r => X0 (xd_L r) (xd_mx r) (xd_D r) (xd_R r)) S' /\
  In (xd_donor 5 7 [3; 4] (1, T3 9 0 0)) (xdonors (S' 0%nat)) /\ In (xd_donor 5 7 [3; 4] (1, T3 9 0 0)) (xdonors (S' 2%nat)) /\
  ~ In (xd_donor 5 7 [3; 4] (1, T3 9 0 0)) (xdonors (S' 1%nat)).
Proof.
  destruct (C92_exact (ex_circle UNIQUE) 3 xd_L xd_mx xd_D xd_R ex_guess (fun x => x)) as (mx' & f & k & C & H);
    [apply ex_circle_decomposed; lia|exact xd_fits|exact xd_points|exact ex_guess_ok|exact id_rounding|reflexivity|].
  eexists. split; [exact C|]. cbn [xdonors]. rewrite !all_of_In. destruct xd_wrap as (W2 & W0 & W1). split; [|split].
  - exists 0%nat. split; [lia|]. split; [now left|]. apply (proj1 (H 0%nat 0%nat ltac:(lia) ltac:(lia))); [now left|exact W0].
  - exists 0%nat. split; [lia|]. split; [now left|]. apply (proj1 (H 2%nat 0%nat ltac:(lia) ltac:(lia))); [now left|exact W2].
  - intros (s & Hs & I & F). apply W1. apply (proj1 (H 1%nat s ltac:(lia) Hs) _ I), F.
Qed.

(** That no donor of a file is lost is false: one with an empty cell is gone, without an error. *)
Theorem C92_empty_refuted : exists c n L mx ds rs v, decomposed c n L /\ (forall r v, (r < n)%nat -> In v (ds r) -> donor_fits c (mx r) v) /\ In v (ds 0%nat) /\
  (forall r v, (r < n)%nat -> In v (rs r) -> pt_in (c_range c) (fst v)) /\
  exists S', computes n (distribute c n (range_decomp ex_guess (c_nd c)) (range_ratio (fun x => x) (c_nd c))) (fun r => X0 (L r) (mx r) (ds r) (rs r)) S' /\
    forall r, (r < n)%nat -> xdonors (S' r) = [].
Proof.
  exists (ex_circle UNIQUE), 3%nat, xd_L, (fun _ => 2), xd_empty, xd_R, (xd_donor 3 3 [] (1, T3 9 0 0)).
  assert (X : decomposed (ex_circle UNIQUE) 3 xd_L) by (apply ex_circle_decomposed; lia).
  split; [exact X|]. split; [exact xd_empty_fits|]. split; [now left|]. split; [exact xd_points|].
  destruct (C92_exact (ex_circle UNIQUE) 3 xd_L (fun _ => 2) xd_empty xd_R ex_guess (fun x => x) X xd_empty_fits xd_points) as (mx' & f & k & C2 & H2); [exact ex_guess_ok|exact id_rounding|reflexivity|].
  eexists. split; [exact C2|]. intros r Hr. cbn [xdonors]. destruct (all_of 3 xd_empty (f r)) as [|v l] eqn:E; [reflexivity|]. exfalso.
  assert (I : In v (all_of 3 xd_empty (f r))) by (rewrite E; now left). apply all_of_In in I as (s & Hs & I & F).
  apply (proj1 (proj1 (H2 r s Hr Hs) v I)) in F. destruct s as [|s]; [|contradiction]. destruct I as [<-|[]].
  destruct F as [(_ & p & P & _)|(_ & p & u & P & _)]; unfold pt_in in P; cbn in P; lia.
Qed.
Print Assumptions C92_empty_refuted.

(** That points outside of the grid are noticed is false too: they go to the first process, which gets a receiver that is no point of the grid and a donor of which it has no point. *)
Theorem C92_outside_refuted : exists c n L mx ds rs, decomposed c n L /\
  exists ls s v w, run (nstep true n (distribute c n (range_decomp ex_guess (c_nd c)) (range_ratio (fun x => x) (c_nd c)))) (net0 (fun r => X0 (L r) (mx r) (ds r) (rs r))) ls = Some s /\
  (forall r, (r < n)%nat -> n_pc s r = length (distribute c n (range_decomp ex_guess (c_nd c)) (range_ratio (fun x => x) (c_nd c)))) /\
  In v (xreceivers (n_st s 0%nat)) /\ ~ pt_in (c_range c) (fst v) /\ In w (xdonors (n_st s 0%nat)) /\ forall p, pt_in (extents w) p -> ~ pt_in (L 0%nat) p.
Proof. exists ex_line, 3%nat, xd_L, (fun _ => 2), xd_out, xd_beyond. split; [apply ex_line_decomposed; lia|]. exact xd_outside. Qed.
Print Assumptions C92_outside_refuted.
