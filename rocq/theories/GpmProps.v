(** Properties of grid parameters. *)
From Coq Require Import List Bool Arith ZArith String.
From Verif Require Import GpmModel GpmSpec GpmProof.
Import ListNotations.
Local Open Scope Z_scope.

(** C107. Whatever setters are called in whatever order, in debug and release builds:
    every parameter, direction by direction, is what the last call that determines it
    gave, where choosing a dimension makes the directions beyond it trivial and leaves
    the others alone. *)
Theorem C107_values : forall dbg l p, grun dbg gp0 l = Some p ->
  last_given gives_name "Grid"%string l (p_name p) /\ last_given gives_dim 2%nat l (p_dim p) /\
  last_given gives_comm None l (p_comm p) /\ last_given gives_storage true l (g_uniq (p_cart p)) /\
  forall d, (d < 3)%nat ->
    last_given (gives_global d) (0, 1) l (g_rng (p_cart p) d) /\
    last_given (gives_local d) (0, 1) l (p_loc p d) /\
    last_given (gives_periodic d) false l (g_per (p_cart p) d).
Proof. exact values_correct. Qed.
Print Assumptions C107_values.

(** C107. A debug build accepts exactly the calls that fit the dimension. *)
Theorem C107_accepts : forall p o, (exists p', gstep true p o = Some p') <-> legal (p_dim p) o.
Proof. exact accepts_correct. Qed.
Print Assumptions C107_accepts.

(** C107. The parameters a debug build accepts make sense, if the unused directions of
    the carts given are trivial. *)
Theorem C107_valid_partial : forall l, Forall flat l ->
  forall p, grun true gp0 l = Some p -> valid p.
Proof. exact valid_correct. Qed.
Print Assumptions C107_valid_partial.

(** C107. Without that condition this is false: a two-dimensional cart with five points
    in the third direction, periodic in it, is accepted (Grid.cpp 238-249 do not check
    it, as 260-265 do for ranges). *)
Theorem C107_valid_refuted : exists l p, grun true gp0 l = Some p /\ p_dim p = 2%nat /\
  g_rng (p_cart p) 2%nat = (0, 5) /\ g_per (p_cart p) 2%nat = true /\ ~ valid p.
Proof.
  exists [GCart (mkGC 2 (fun _ => (0, 5)) (fun _ => true) true)]. eexists.
  split; [vm_compute; reflexivity|]. split; [reflexivity|]. split; [reflexivity|].
  split; [reflexivity|]. intros (_ & _ & _ & _ & _ & V).
  specialize (V 2%nat). cbn in V. discriminate V; auto.
Qed.
Print Assumptions C107_valid_refuted.

(** C107. The global range may begin elsewhere than at 0 if it is given as a range
    (Grid.cpp 257-271), but not if it is given in a cart (240-242). *)
Theorem C107_origin_refuted : exists r,
  (exists p, grun true gp0 [GGlobal r] = Some p /\ g_rng (p_cart p) 0%nat = (1, 4)) /\
  forall q, grun true gp0 [GCart (mkGC 2 r q true)] = None.
Proof.
  exists (fun d => match d with 0%nat => (1, 4) | 1%nat => (0, 3) | _ => (0, 1) end). split.
  - eexists. split; [vm_compute; reflexivity|reflexivity].
  - intros q. reflexivity.
Qed.
Print Assumptions C107_origin_refuted.

(** From two to three dimensions, and back: the third direction is forgotten. *)
Definition c107_r (a b c : Z) : rng :=
  fun d => match d with 0%nat => (0, a) | 1%nat => (0, b) | _ => (0, c) end.
Definition c107_l : list gop :=
  let j := c107_r 7 7 7 in let b := fun _ : nat => true in
  [GGlobal (c107_r 4 5 1); GDim j b 3; GLocal (c107_r 2 2 6); GPer (fun d => Nat.eqb d 2);
   GName "A"; GDim j b 2; GDim j b 3; GGlobal (c107_r 8 5 9)].
Example C107_case : Forall flat c107_l /\
  option_map (fun p => (p_name p, p_dim p, map (g_rng (p_cart p)) [0; 1; 2]%nat,
                        map (p_loc p) [0; 1; 2]%nat, map (g_per (p_cart p)) [0; 1; 2]%nat))
    (grun true gp0 c107_l) =
  Some ("A"%string, 3%nat, [(0, 8); (0, 5); (0, 9)], [(0, 2); (0, 2); (0, 1)], [false; false; false]) /\
  grun true gp0 [GGlobal (c107_r 4 5 2)] = None.
Proof.
  split; [|split; reflexivity]. unfold c107_l. repeat constructor.
Qed.
