(** What assemblies do not guarantee, and an example. *)
From Coq Require Import List ZArith Bool Lia.
From Verif Require Import TupleModel RangeModel Base RangeProof CartModel CartProof DecompModel DecompProof IndexerModel ArrayModel.
From Verif Require Import ContModel HashModel ProtoModel ProtoSpec NetModel NetSpec NeighModel NeighSpec NeighProof HaloModel HaloProof HaloEx PartModel PartProof.
From Verif Require Import FieldModel FieldSpec FieldProof FieldLaws FieldProps AsmModel AsmSpec AsmMain.
Import ListNotations.
Local Open Scope Z_scope.

Lemma ex_part : exists N H, partitioned ex_c 4 ex_L fx_E N H.
Proof.
  assert (X : forall r, (r < 4)%nat -> extended_ok ex_c (ex_L r) (fx_E r)).
  { intros r Hr. apply (extended_ranges_ok ex_c 4 ex_L r 1 ex_decomposed ex_once Hr ltac:(lia)). }
  eexists _, _. exact (nb_partitioned ex_c 4 ex_L fx_E ex_decomposed ex_once X).
Qed.

(** The example: 6 x 4 points, periodic in x, a boundary at y = 0; another grid overlaps the others, the hole is
    one point, the overlap is to be minimized at x < 5, y >= 2, where the other grid occludes this one. *)
Definition ax_fl (p : tup Z) : Z := if c1 p =? 0 then 3 else 1.
Definition ax_occ (p : tup Z) : bool := (c0 p <? 5) && (2 <=? c1 p).
Definition ax_v : given := Given (fun p => 1 <=? c1 p) [fun p => c1 p =? 3] (fun p => teqb p (T3 5 2 0)) ax_occ ax_occ (fun p => teqb p (T3 0 3 0)).

(** Points near others, here. *)
Lemma ex_near k u x : within ex_c k u x -> exists j, Z.abs (c0 u - (c0 x + j * 6)) <= k /\ Z.abs (c1 u - c1 x) <= k /\ c2 u = c2 x.
Proof.
  intros (x' & I & A). pose proof (I 0%nat ltac:(lia)) as [A0 _]. pose proof (I 1%nat ltac:(lia)) as [_ A1]. pose proof (I 2%nat ltac:(lia)) as [_ A2].
  pose proof (A 0%nat ltac:(lia)) as B0. pose proof (A 1%nat ltac:(lia)) as B1. pose proof (A 2%nat ltac:(lia)) as B2.
  destruct (A0 eq_refl) as [j J]. specialize (A1 eq_refl). specialize (A2 eq_refl). change (per_len ex_c 0) with 6 in J.
  destruct u, x, x'. cbn in *. exists j. lia.
Qed.
Lemma ex_in x : pt_in (c_range ex_c) x -> 0 <= c0 x < 6 /\ 0 <= c1 x < 4 /\ c2 x = 0.
Proof. intros Hx. unfold pt_in in Hx. destruct x. cbn in *. lia. Qed.
Lemma ex_apart k p q : Z.abs (c0 p - c0 q) <= k -> Z.abs (c1 p - c1 q) <= k -> c2 p = c2 q -> apart (c_nd ex_c) k p q.
Proof. intros A B C d Hd. destruct d as [|[|[|d]]]; [exact A|exact B|exact C|lia]. Qed.

(** A point removed where overlap is minimized keeps the flag FRINGE from the outer fringe. *)
Theorem minimized_fringe : exists c n L E N H ko overlaps o S infer fringe max fl v,
  partitioned c n L E N H /\ loaded c n L E N H ko overlaps o S fl v /\ 0 <= fringe /\ 1 <= max /\
  exists fl' dist u, assembles c n L E N infer overlaps fringe max o S fl' dist /\ pt_in (c_range c) u /\
    flag FRINGE fl' u = true /\ flag ACTIVE fl' u = false /\ flag OUTER_FRINGE fl' u = false /\ flag INNER_FRINGE fl' u = false.
Proof.
  destruct ex_part as (N & H & P). exists ex_c, 4%nat, ex_L, fx_E, N, H, 2%nat, [1%nat], 0%nat, (ast_from ex_c ex_L fx_E N H ax_fl ax_v), true, 1, 1, ax_fl, ax_v.
  pose proof (loaded_from ex_c 4 ex_L fx_E N H ax_fl ax_v P) as LD. split; [exact P|]. split; [exact LD|]. split; [lia|]. split; [lia|].
  destruct (assemble_outcome ex_c 4 ex_L fx_E N H _ true _ 1 1 _ P ltac:(lia) ltac:(lia) _ _ _ LD) as (fl' & d & A & K & _ & B & F & M & _).
  exists fl', d, (T3 2 3 0). split; [exact A|].
  assert (Hu : pt_in (c_range ex_c) (T3 2 3 0)) by (apply rcontains_spec; reflexivity). split; [exact Hu|].
  assert (Q : outer ex_c 1 ax_fl ax_v fl' (T3 2 3 0)).
  { split; [reflexivity|]. exists (T3 2 4 0), (T3 2 3 0). split; [apply ex_apart; cbn; lia|]. split; [apply ex_apart; cbn; lia|]. split; [reflexivity|].
    replace (continued _ _ _ _) with (kept ax_fl ax_v (T3 2 3 0) && negb (boundary fl' (T3 2 3 0))) by reflexivity. unfold boundary.
    rewrite (K (T3 2 3 0) INTERNAL_BOUNDARY Hu (or_introl eq_refl)). destruct (B _ Hu) as [B1 ->].
    destruct (flag INFERRED_DOMAIN_BOUNDARY fl' (T3 2 3 0)); [|reflexivity]. destruct (proj1 B1 eq_refl) as (_ & _ & _ & _ & W). inversion W. discriminate. }
  destruct (M _ Hu) as (M1 & _ & M3 & M4). destruct (F _ Hu) as [F1 F2]. specialize (M1 ltac:(lia)).
  assert (R : flag OVERLAP_MINIMIZED fl' (T3 2 3 0) = true).
  { apply M1. split; [reflexivity|]. split; [reflexivity|]. intros x Hx W. left. apply ex_near in W as (j & W). apply ex_in in Hx. cbn [c0 c1 c2] in W.
    cbn [v_occluded ax_v]. unfold ax_occ. apply andb_true_iff. rewrite Z.ltb_lt, Z.leb_le. lia. }
  rewrite R, andb_false_r in M3. split; [apply F2; left; exact Q|]. split; [exact M3|]. split.
  - destruct (flag OUTER_FRINGE fl' (T3 2 3 0)); [|reflexivity]. destruct (proj1 F1 eq_refl) as [_ C]. congruence.
  - destruct (flag INNER_FRINGE fl' (T3 2 3 0)); [|reflexivity]. destruct (proj1 M4 eq_refl) as [C _]. congruence.
Qed.

(** A receiver surrounded by receivers has a positive distance if no receiver's distance goes that far. *)
Theorem receiver_far : exists c n L E N H ko overlaps o S infer fringe max fl v,
  partitioned c n L E N H /\ loaded c n L E N H ko overlaps o S fl v /\ 0 <= fringe /\ 1 <= max /\
  exists fl' dist u, assembles c n L E N infer overlaps fringe max o S fl' dist /\ pt_in (c_range c) u /\
    flag RECEIVER fl' u = true /\ dist u = max.
Proof.
  set (v := Given (fun _ => true) [fun _ => true] (fun _ => false) (fun _ => true) (fun _ => false) (fun _ => false)). set (fl := fun _ : tup Z => 1).
  destruct ex_part as (N & H & P). exists ex_c, 4%nat, ex_L, fx_E, N, H, 2%nat, [1%nat], 0%nat, (ast_from ex_c ex_L fx_E N H fl v), true, 1, 1, fl, v.
  pose proof (loaded_from ex_c 4 ex_L fx_E N H fl v P) as LD. split; [exact P|]. split; [exact LD|]. split; [lia|]. split; [lia|].
  destruct (assemble_outcome ex_c 4 ex_L fx_E N H _ true _ 1 1 _ P ltac:(lia) ltac:(lia) _ _ _ LD) as (fl' & d & A & _ & G & _ & F & M & R & D).
  exists fl', d, (T3 0 1 0). split; [exact A|].
  assert (Hr : forall u, pt_in (c_range ex_c) u -> flag RECEIVER fl' u = true).
  { intros u Hu. destruct (R u Hu) as [-> _]. destruct (G u Hu) as (_ & _ & G3). rewrite G3. cbn [v_occluded v]. rewrite orb_true_r, andb_true_r.
    destruct (M u Hu) as (M1 & _ & -> & _). specialize (M1 ltac:(lia)). destruct (flag OVERLAP_MINIMIZED fl' u); [|reflexivity].
    destruct (proj1 M1 eq_refl) as [C _]. discriminate. }
  assert (Hu : pt_in (c_range ex_c) (T3 0 1 0)) by (apply rcontains_spec; reflexivity). split; [exact Hu|]. split; [apply Hr, Hu|].
  apply (D _ Hu). intros k Hk (x & Hx & W & _ & q & Aq & Cq). assert (k = 0) by lia. subst k.
  apply ex_near in W as (j & W). apply ex_in in Hx. cbn [c0 c1 c2] in W.
  pose proof (Aq 1%nat ltac:(lia)) as A1. pose proof (Aq 2%nat ltac:(lia)) as A2. destruct x as [x0 x1 x2], q as [q0 q1 q2]. cbn [c0 c1 c2] in W, Hx. cbn in A1, A2.
  unfold continued in Cq. assert (C : rcontains (c_range ex_c) (wrap ex_c (T3 q0 q1 q2)) = true).
  { apply rcontains_spec. unfold pt_in, wrap, tmake. cbn [c0 c1 c2 c_per ex_c c_range rb re tget].
    change (per_len ex_c 0) with 6. pose proof (Z.mod_pos_bound (q0 - 0) 6 ltac:(lia)). lia. }
  rewrite C in Cq. rewrite Hr in Cq; [discriminate|]. apply rcontains_spec, C.
Qed.
