(** Detection of overlap: examples. *)
From Coq Require Import List ZArith Bool QArith Lia Lqa.
From Verif Require Import TupleModel RangeModel Base RangeProof CartModel CartProof DecompModel DecompProof IndexerModel ArrayModel HashModel HashSpec.
From Verif Require Import NeighSpec HaloEx CellModel CellSpec GeomModel GeomSpec GeomProof GeomEx AccelModel FragModel DetectModel DetectSpec DetectProof DetectGeo DetectSame DetectCurv.
From Verif Require BoxModel.
Import ListNotations.
Local Open Scope Z_scope.


(** 5 x 5 points on two ranks, the first of which has a columns of them. *)
Definition ex5 : cart := mkC 2 (mkR (T3 0 0 0) (T3 5 5 1)) (T3 false false false) UNIQUE.
Definition ex5_L (a : Z) (r : nat) : range := match r with O => mkR (T3 0 0 0) (T3 a 5 1) | _ => mkR (T3 a 0 0) (T3 5 5 1) end.
Lemma ex5_decomposed a : 0 < a -> a < 5 -> decomposed ex5 2 (ex5_L a).
Proof.
  intros A B. split; [cbn; lia|]. split; [lia|]. split; [intros d Hd; ex_dims d|].
  split; [intros d Hd; cbn in Hd; ex_dims d|].
  split; [intros d Hd; cbn in Hd; ex_dims d; reflexivity|]. split.
  - split; [ex_subset|]. split; [|ex_disjoint].
    intros p Hp. assert (X : c0 p < a \/ a <= c0 p) by lia. destruct X as [X|X]; [ex_in 0%nat|ex_in 1%nat].
  - intros r Hr. apply rempty_false. destruct r as [|[|r]]; unfold pt_in; cbn; lia.
Qed.

Definition ex_plane (p : tup Z) : tup Q := T3 (inject_Z (c0 p)) (inject_Z (c1 p)) 0%Q.
Definition ex_sheared (p : tup Z) : tup Q := T3 (inject_Z (c0 p) + (1 # 2) * inject_Z (c1 p))%Q (inject_Z (c1 p)) 0%Q.
Definition ex_upright (r : nat) (f : range) : tup (tup Q) := (T3 (T3 1 0 0) (T3 0 1 0) (T3 0 0 1))%Q.
Definition ex_leaf (r : nat) (f : range) (l : list (Z * BoxModel.box)) : bool := true.
Definition ex_scale (r : nat) (f : range) : Q := 1%Q.
Definition ex_levels (r : nat) (f : range) (k : nat) : nat := 1%nat.
Definition ex_stop (f : range) : bool := true.
Definition ex_depth (r : nat) : nat := 1%nat.
Definition ex_all (p : tup Z) : bool := true.
(** Four points of another grid: in a cell, in the corner of four, just outside of the grid, far away *)
Definition ex_loc : range := mkR (T3 7 0 0) (T3 11 1 1).
Definition ex_Y (p : tup Z) : tup Q :=
  (if c0 p =? 7 then T3 (1 # 2) (1 # 2) 0 else if c0 p =? 8 then T3 2 2 0 else if c0 p =? 9 then T3 (- (1 # 10)) 1 0 else T3 9 9 0)%Q.

Definition ex_detect g a X tol := detect (fun q => q) g ex5 2 (ex5_L a) ex_stop ex_depth ex_all X ex_upright (1 # 4) ex_leaf ex_scale ex_levels ex_loc ex_all ex_Y tol.

Lemma ex_plane_planar p : planar 2 (ex_plane p).
Proof. intros d Hd. assert (d = 2%nat) by lia. subst d. reflexivity. Qed.
Lemma ex_sheared_planar p : planar 2 (ex_sheared p).
Proof. intros d Hd. assert (d = 2%nat) by lia. subst d. reflexivity. Qed.
Lemma ex_Y_planar p : planar 2 (ex_Y p).
Proof. intros d Hd. assert (d = 2%nat) by lia. subst d. unfold ex_Y. repeat destruct (_ =? _); reflexivity. Qed.

Ltac ex_cells := unfold side, ex_plane, ex_sheared, tadd, unit_step, tmake; cbn [tget c0 c1 c2 seq map Nat.eqb corners]; rewrite ?inject_Z_plus; change (inject_Z 0) with 0%Q; change (inject_Z 1) with 1%Q; unfold qtotal; cbn [fold_right].
Lemma ex_plane_regular cell : regular UNIFORM 2 ex_plane cell /\ parallel 2 ex_plane cell.
Proof.
  split; [split|].
  - intros e d He Hd N. destruct e as [|[|]], d as [|[|]]; try lia; ex_cells; ring.
  - intros d Hd E. destruct d as [|[|]]; try lia; revert E; ex_cells; intros E;
      assert (1 == 0)%Q as F; try discriminate F; lra.
  - intros o Ho d Hd. cbn [corners In] in Ho. destruct d as [|[|]]; try lia; repeat (destruct Ho as [<-|Ho]; [ex_cells; ring|]); destruct Ho.
Qed.

Lemma ex_sheared_lattice E : lattice 2 E ex_sheared (T3 0 0 0)%Q steps2.
Proof. intros p _ d Hd. unfold ex_sheared, steps2. destruct d as [|[|]]; try lia; cbn [tget c0 c1 c2 seq map]; unfold qtotal; cbn [fold_right]; ring. Qed.

Lemma ex5_roomy r f : (r < 2)%nat -> In f (fragments ex5 (ex5_L 2) ex_stop ex_depth ex_all r) -> roomy ex5 (c_range (cart_point_to_cell ex5)) f.
Proof.
  intros Hr Hf. destruct r as [|[|]]; [| |lia]; vm_compute in Hf; destruct Hf as [<-|[]]; intros d Hd _; cbn in Hd; destruct d as [|[|]]; try lia; cbn; lia.
Qed.

Lemma ex_turning r f : upright (ex_upright r f). Proof. reflexivity. Qed.

Lemma ex_sheared_listed mt loc nact : (0 <= mt)%Q -> exists es,
  detect (fun q => q) CURVILINEAR ex5 2 (ex5_L 2) ex_stop ex_depth ex_all ex_sheared ex_upright mt ex_leaf ex_scale ex_levels loc nact ex_Y 0 = Some es /\
  (pt_in loc (T3 7 0 0) -> nact (T3 7 0 0) = true -> In (T3 7 0 0) (map e_point es)).
Proof.
  intros Hm.
  destruct (detect_lattice ex5 2 (ex5_L 2) ex_stop ex_depth ex_all ex_sheared ex_upright mt ex_leaf ex_scale ex_levels loc nact ex_Y (T3 0 0 0)%Q steps2 (fun q => q))
    as (es & E & _ & A & _).
  - apply id_rounding.
  - auto.
  - left. reflexivity.
  - apply ex5_decomposed; lia.
  - exact Hm.
  - intros r f. reflexivity.
  - apply ex_sheared_planar.
  - intros p _. apply ex_Y_planar.
  - apply ex_turning.
  - exact ex5_roomy.
  - apply ex_sheared_lattice.
  - apply steps2_solid.
  - exists es. split; [exact E|]. intros P N. apply A. split; [exact P|]. split; [exact N|]. exists (T3 0 0 0). split; [unfold pt_in; cbn; lia|]. split; [reflexivity|].
    exists [1 # 2; 0; 1 # 4; 1 # 4]%Q. split; [reflexivity|]. split; [repeat constructor; discriminate|]. split; [reflexivity|].
    intros d Hd. destruct d as [|[|]]; try (cbn in Hd; lia); vm_compute; reflexivity.
Qed.

Lemma ex_sheared_found : exists es, ex_detect CURVILINEAR 2 ex_sheared 0 = Some es /\ In (T3 7 0 0) (map e_point es).
Proof.
  destruct (ex_sheared_listed (1 # 4)%Q ex_loc ex_all ltac:(discriminate)) as (es & E & I). exists es. split; [exact E|]. apply I; [unfold pt_in; cbn; lia|reflexivity].
Qed.

Lemma ex_thin : exists c L L' X Y loc O leaf scale levels stop depth active nactive A B,
  decomposed c 2 L /\ decomposed c 2 L' /\ (forall p, planar (c_nd c) (X p)) /\ (forall r f, upright (O r f)) /\
  lattice (c_nd c) (full_extents c) X A B /\ solid_lattice (c_nd c) B /\ (forall r f, 0 < scale r f)%Q /\
  detect (fun q => q) CURVILINEAR c 2 L stop depth active X O 0 leaf scale levels loc nactive Y 0 = Some [] /\
  exists e es, detect (fun q => q) CURVILINEAR c 2 L' stop depth active X O 0 leaf scale levels loc nactive Y 0 = Some (e :: es).
Proof.
  exists ex5, (ex5_L 1), (ex5_L 2), ex_sheared, ex_Y, (mkR (T3 7 0 0) (T3 8 1 1)), ex_upright, ex_leaf, ex_scale, ex_levels, ex_stop, ex_depth, ex_all, ex_all, (T3 0 0 0)%Q, steps2.
  split; [apply ex5_decomposed; lia|]. split; [apply ex5_decomposed; lia|]. split; [apply ex_sheared_planar|]. split; [apply ex_turning|]. split; [apply ex_sheared_lattice|].
  split; [apply steps2_solid|]. split; [intros; reflexivity|]. split; [vm_compute; reflexivity|].
  destruct (ex_sheared_listed 0%Q (mkR (T3 7 0 0) (T3 8 1 1)) ex_all ltac:(discriminate)) as (es & E & I). destruct es as [|e es].
  - destruct I; [unfold pt_in; cbn; lia|reflexivity].
  - exists e, es. exact E.
Qed.

(** The same grid on one rank *)
Definition ex5_one (r : nat) : range := c_range ex5.
Lemma ex5_one_decomposed : decomposed ex5 1 ex5_one.
Proof.
  split; [cbn; lia|]. split; [lia|]. split; [intros d Hd; ex_dims d|].
  split; [intros d Hd; cbn in Hd; ex_dims d|].
  split; [intros d Hd; cbn in Hd; ex_dims d; reflexivity|]. split.
  - split; [ex_subset|]. split; [|ex_disjoint]. intros p Hp. ex_in 0%nat.
  - intros r Hr. reflexivity.
Qed.
Lemma ex5_one_roomy r f : (r < 1)%nat -> In f (fragments ex5 ex5_one ex_stop ex_depth ex_all r) -> roomy ex5 (c_range (cart_point_to_cell ex5)) f.
Proof.
  intros Hr Hf. destruct r as [|]; [|lia]; vm_compute in Hf; destruct Hf as [<-|[]]; intros d Hd _; cbn in Hd; destruct d as [|[|]]; try lia; cbn; lia.
Qed.
