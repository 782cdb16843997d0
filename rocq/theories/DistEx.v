(** Instances of sending donors and receivers to ranks, and of its failures. *)
From Coq Require Import List ZArith QArith Bool Lia.
From Verif Require Import TupleModel RangeModel CartModel Base RangeProof CartProof DecompModel DecompProof ContModel.
From Verif Require Import ProtoModel ProtoSpec NetModel NetSpec DHashModel HashSpec DDecompProof NeighSpec HaloEx XinModel MatModel DistModel DistSpec DistProof.
Import ListNotations.
Local Open Scope Z_scope.

Lemma ex_guess_ok l m : 1 <= m -> ex_guess l m <= m. Proof. unfold ex_guess. lia. Qed.
Lemma id_rounding : rounding (fun q => q). Proof. split; [auto|reflexivity]. Qed.

(** Six points on three ranks, [0,2), [2,4) and [4,6). *)
Definition xd_L : nat -> range := ex_L1 2 4.
Definition xd_donor (a b : Z) (l : list Z) (p : place) : dval := (DonorEntry (T3 a 0 0) (T3 b 1 1) (T3 0 0 0) (T3 l [1] [1]), p).
Definition xd_D (r : nat) : list dval :=
  match r with O => [xd_donor 5 7 [3; 4] (1, T3 9 0 0); xd_donor 1 3 [5; 6] (2, T3 8 0 0)] | 1%nat => [] | _ => [xd_donor 3 4 [7] (1, T3 7 0 0)] end.
Definition xd_R (r : nat) : list rval := match r with O => [(T3 3 0 0, (1, T3 0 0 0)); (T3 5 0 0, (2, T3 0 0 0))] | _ => [] end.
Definition xd_mx (r : nat) : Z := match r with O => 2 | 1%nat => -1 | _ => 1 end.

Lemma xd_fits r v : (r < 3)%nat -> In v (xd_D r) -> donor_fits (ex_circle UNIQUE) (xd_mx r) v.
Proof.
  intros Hr Hv. assert (X : exists a b l p, v = xd_donor a b l p /\ Z.of_nat (length l) = b - a /\ 0 <= b - a <= xd_mx r /\ 1 <= xd_mx r).
  { destruct r as [|[|r]]; cbn in Hv.
    - destruct Hv as [<-|[<-|[]]]; do 4 eexists; (split; [reflexivity|]); cbn; lia.
    - contradiction.
    - destruct Hv as [<-|[]]; do 4 eexists; (split; [reflexivity|]); cbn; lia. }
  destruct X as (a & b & l & p & -> & E & F & F1). split.
  - intros q d Hq Hd P. unfold pt_in in Hq. cbn in Hq. destruct d as [|[|[|d]]]; cbn in P |- *; try discriminate; lia.
  - intros d Hd. destruct d as [|[|[|d]]]; cbn; lia.
Qed.
Lemma xd_points r v : (r < 3)%nat -> In v (xd_R r) -> pt_in (c_range (ex_circle UNIQUE)) (fst v).
Proof. intros Hr Hv. destruct r as [|r]; [|contradiction]. destruct Hv as [<-|[<-|[]]]; unfold pt_in; cbn; lia. Qed.

(** The cell [5,7) has points of the last rank and, across the seam, of the first, and none of the one between. *)
Lemma xd_wrap : reached (ex_circle UNIQUE) (xd_L 2) (extents (xd_donor 5 7 [3; 4] (1, T3 9 0 0))) /\
  reached (ex_circle UNIQUE) (xd_L 0) (extents (xd_donor 5 7 [3; 4] (1, T3 9 0 0))) /\
  ~ reached (ex_circle UNIQUE) (xd_L 1) (extents (xd_donor 5 7 [3; 4] (1, T3 9 0 0))).
Proof.
  assert (N : ~ pt_subset (extents (xd_donor 5 7 [3; 4] (1, T3 9 0 0))) (c_range (ex_circle UNIQUE))).
  { intros H. specialize (H (T3 6 0 0) ltac:(unfold pt_in; cbn; lia)). unfold pt_in in H. cbn in H. lia. }
  split; [|split].
  - right. split; [exact N|]. exists (T3 5 0 0), (T3 5 0 0). split; [unfold pt_in; cbn; lia|]. split; [|split].
    + intros d Hd. split; [intros _; exists 0; lia|reflexivity].
    + intros d Hd P. destruct d as [|[|[|d]]]; cbn in *; try discriminate; lia.
    + unfold pt_in. cbn. lia.
  - right. split; [exact N|]. exists (T3 6 0 0), (T3 0 0 0). split; [unfold pt_in; cbn; lia|]. split; [|split].
    + intros d Hd. destruct d as [|[|[|d]]]; cbn; split; intros P; try discriminate; try reflexivity; try lia; exists (-1); reflexivity.
    + intros d Hd P. destruct d as [|[|[|d]]]; cbn in *; try discriminate; lia.
    + unfold pt_in. cbn. lia.
  - intros [(S & _)|(_ & p & u & Hp & I & B & O)]; [exact (N S)|]. unfold pt_in in Hp, O. cbn in Hp, O.
    destruct (I 0%nat ltac:(lia)) as [I1 _]. destruct (I1 eq_refl) as [k E]. cbn in E. lia.
Qed.

(** A donor with an empty cell. *)
Definition xd_empty (r : nat) : list dval := match r with O => [xd_donor 3 3 [] (1, T3 9 0 0)] | _ => [] end.
Lemma xd_empty_fits r v : (r < 3)%nat -> In v (xd_empty r) -> donor_fits (ex_circle UNIQUE) 2 v.
Proof.
  intros Hr Hv. destruct r as [|r]; [|contradiction]. destruct Hv as [<-|[]]. split.
  - intros q d Hq Hd P. unfold pt_in in Hq. cbn in Hq. lia.
  - intros d Hd. destruct d as [|[|[|d]]]; cbn; lia.
Qed.

(** The cell [5,7) and the point 7 on a grid that is not periodic. *)
Definition xd_out (r : nat) : list dval := match r with O => [xd_donor 5 7 [3; 4] (1, T3 9 0 0)] | _ => [] end.
Definition xd_beyond (r : nat) : list rval := match r with 1%nat => [(T3 7 0 0, (1, T3 0 0 0))] | _ => [] end.
Definition xd_prog := distribute ex_line 3 (range_decomp ex_guess 1) (range_ratio (fun x => x) 1).
Definition xd_check (s : net xst xmsg) : bool :=
  forallb (fun r => Nat.eqb (n_pc s r) (length xd_prog)) (seq 0 3) &&
  match xreceivers (n_st s 0%nat), xdonors (n_st s 0%nat) with [v], [w] => (c0 (fst v) =? 7) && (c0 (rb (extents w)) =? 5) && (c0 (re (extents w)) =? 7) | _, _ => false end.
Lemma xd_outside : exists ls s v w, run (nstep true 3 xd_prog) (net0 (fun r => X0 (xd_L r) 2 (xd_out r) (xd_beyond r))) ls = Some s /\
  (forall r, (r < 3)%nat -> n_pc s r = length xd_prog) /\
  In v (xreceivers (n_st s 0%nat)) /\ ~ pt_in (c_range ex_line) (fst v) /\ In w (xdonors (n_st s 0%nat)) /\ forall p, pt_in (extents w) p -> ~ pt_in (xd_L 0) p.
Proof.
  destruct (stuck_run 3 xd_prog 8 2000 (fun r => X0 (xd_L r) 2 (xd_out r) (xd_beyond r)) xd_check) as (ls & s & H1 & _ & H3).
  - vm_compute. reflexivity.
  - unfold xd_check in H3. apply andb_prop in H3 as [P1 P2]. rewrite forallb_forall in P1.
    destruct (xreceivers (n_st s 0%nat)) as [|v [|]] eqn:EV; try discriminate. destruct (xdonors (n_st s 0%nat)) as [|w [|]] eqn:EW; try discriminate.
    rewrite !andb_true_iff, !Z.eqb_eq in P2. destruct P2 as [[P2 P3] P4]. exists ls, s, v, w. split; [exact H1|]. split.
    { intros r Hr. apply Nat.eqb_eq, P1, in_seq. lia. }
    rewrite EV, EW. split; [now left|]. split; [|split; [now left|]].
    + unfold pt_in. cbn. lia.
    + intros p Hp Hq. unfold pt_in in Hp, Hq. cbn in Hq. lia.
Qed.
