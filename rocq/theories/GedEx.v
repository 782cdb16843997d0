(** A circle of six points, two apart, on three ranks. *)
From Coq Require Import List ZArith QArith Bool Lia.
From Verif Require Import TupleModel RangeModel RangeProof CartModel CartProof DecompModel HashModel NetModel NetSpec NeighSpec NeighProof HaloModel HaloProof HaloEx FieldSpec GeomModel GedModel GedSpec GedProof.
Import ListNotations.
Local Open Scope Z_scope.

Definition gc : cart := ex_circle UNIQUE.
Definition gL : nat -> range := ex_L1 2 4.
Definition gN : nat -> list nat := nb gc 3 gL.
Definition gH : nat -> hmap := hm gc gL (points_extended gc gL) gN.
Definition gCH : nat -> hmap := hm (DecompModel.cart_point_to_cell gc) (cells_local gc gL) (cells_extended gc gL) gN.
Definition glen : tup Q := T3 12%Q 0%Q 0%Q.
Definition gX (p : tup Z) : tup Q := T3 (inject_Z (2 * c0 p)) 0%Q 0%Q.
(** Before the exchange, copies have coordinates 99. *)
Definition gS (r : nat) : gst :=
  let e := points_extended gc gL r in
  let f d := map (fun p => if rcontains (gL r) p then tget (gX p) d else 99%Q) (RangeModel.foreach_col e) in
  Gst (gH r) (gCH r) glen (f 0%nat) (f 1%nat) (f 2%nat) (map (fun _ => 1%Q) (RangeModel.foreach_col (cells_extended gc gL r))) (map (fun _ => 1%Q) (RangeModel.foreach_col e)).
Lemma gc_decomposed : decomposed gc 3 gL.
Proof. apply ex_circle_decomposed; lia. Qed.
Lemma gc_once : stored_once gc.
Proof. intros d Hd. destruct d as [|[|[|d]]]; [reflexivity|reflexivity|reflexivity|lia]. Qed.
Lemma gc_cells : forall r, (r < 3)%nat -> rempty (cells_local gc gL r) = false.
Proof. intros r Hr. destruct r as [|[|[|r]]]; [reflexivity|reflexivity|reflexivity|lia]. Qed.
Lemma gc_gridded : gridded gc 3 gL gN gH gCH.
Proof. apply setup_ok; [exact gc_decomposed|exact gc_once|exact gc_cells]. Qed.
Lemma gS_edited : edited gc 3 gL gH gCH glen gX gS.
Proof.
  assert (HL : forall e (f : tup Z -> Q), Z.of_nat (length (map f (RangeModel.foreach_col e))) = rcount e) by (intros; rewrite map_length; apply foreach_col_length).
  assert (HR : forall d r p, (r < 3)%nat -> pt_in (gL r) p ->
    at_ (points_extended gc gL r) (map (fun p => if rcontains (gL r) p then tget (gX p) d else 99%Q) (RangeModel.foreach_col (points_extended gc gL r))) p = Some (tget (gX p) d)).
  { intros d r p Hr Hp. rewrite created_read by (apply (GedGeo.L_in_ext gc 3 gL gc_decomposed gc_once r Hr), Hp). replace (rcontains (gL r) p) with true; [reflexivity|]. symmetry. now apply rcontains_spec. }
  split; [|split; [|split]].
  - intros r Hr. split; [reflexivity|]. split; [reflexivity|]. split; [reflexivity|]. split; apply HL.
  - intros r Hr. split; [apply HL|]. intros p Hp. apply (HR 0%nat r p Hr Hp).
  - intros r Hr. split; [apply HL|]. intros p Hp. apply (HR 1%nat r p Hr Hp).
  - intros r Hr. split; [apply HL|]. intros p Hp. apply (HR 2%nat r p Hr Hp).
Qed.
(** The point after the last one, on the last rank *)
Definition gp : tup Z := T3 6 0 0.
Lemma gp_in : pt_in (points_extended gc gL 2) gp.
Proof. apply rcontains_spec. reflexivity. Qed.
Lemma gp_hand : at_hand gc 3 gL gN 2 gp.
Proof.
  exists 0%nat, (T3 0 0 0). split; [lia|]. split; [apply rcontains_spec; reflexivity|]. split.
  - intros d Hd. destruct d as [|[|[|d]]]; [| | |lia]; (split; [intros P; try discriminate P; exists (-1); reflexivity|intros P; try discriminate P; reflexivity]).
  - right. assert (X : existsb (Nat.eqb 0) (gN 2) = true) by (vm_compute; reflexivity). apply existsb_exists in X. destruct X as (x & Hx & E). apply PeanoNat.Nat.eqb_eq in E. now subst.
Qed.
Theorem ged_example : exists S', computes 3 (end_edit UNIFORM gc gL) gS S' /\ up_to_date UNIFORM gc 3 gL gN glen gX S' /\
  exists x v, at_ (points_extended gc gL 2) (g_x (S' 2%nat)) gp = Some x /\ (x == 12)%Q /\ at_ (points_extended gc gL 2) (g_v (S' 2%nat)) gp = Some v /\ (v == 2)%Q.
Proof.
  destruct (geometry_exact UNIFORM gc 3 gL gN gH gCH glen gX gS gc_gridded gS_edited) as (S' & A & _ & B). exists S'. split; [exact A|]. split; [exact B|].
  destruct (proj1 B 2%nat gp ltac:(lia) gp_in gp_hand) as (X & _ & _ & V). eexists _, _. split; [exact X|]. split; [vm_compute; reflexivity|]. split; [exact V|]. vm_compute. reflexivity.
Qed.
Theorem ged_length_refuted : ~ forall g c n L N H CH len len' X S, gridded c n L N H CH -> edited c n L H CH len X S -> up_to_date g c n L N len X S ->
  up_to_date g c n L N len' X (fun r => set_length len' (S r)).
Proof.
  intros F. destruct (end_edit_ok UNIFORM gc 3 gL gN gH gCH glen gX gc_gridded gS gS_edited) as (S' & _ & B & C).
  refine (geometry_length UNIFORM gc 3 gL gN glen (T3 6%Q 0%Q 0%Q) gX S' 2%nat gp 0%nat _ gc_once C _ gp_in gp_hand _ _ _ (F UNIFORM gc 3%nat gL gN gH gCH glen _ gX S' gc_gridded B C)).
  - exact (Gok gc 3 gL gN gH gCH gc_gridded).
  - lia.
  - lia.
  - vm_compute. discriminate.
  - vm_compute. discriminate.
Qed.
Theorem ged_created_refuted : ~ forall g c n L N H CH len, gridded c n L N H CH ->
  up_to_date g c n L N len indices (fun r => created (H r) (CH r) len (points_extended c L r) (cells_extended c L r)).
Proof.
  intros F. pose proof (F UNIFORM gc 3%nat gL gN gH gCH (T3 0%Q 0%Q 0%Q) gc_gridded) as [U _]. destruct (U 2%nat gp ltac:(lia) gp_in gp_hand) as (X & _).
  destruct (geometry_created gc 3 gL gN gH gCH (T3 0%Q 0%Q 0%Q) gc_gridded) as [_ C]. destruct (C 2%nat gp 0%nat ltac:(lia) gp_in ltac:(lia)) as [C1 [C2 _]]. cbn [component] in C1. rewrite C1 in X.
  injection X as X. vm_compute in X. discriminate.
Qed.
