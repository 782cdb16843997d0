(** Examples and counterexamples for the connectivity (C79). *)
From Coq Require Import List ZArith QArith Bool Lia Sorting.Sorted.
From Verif Require Import TupleModel RangeModel Base RangeProof CartModel CartProof DecompModel DecompProof IndexerModel ArrayModel HashModel.
From Verif Require Import ProtoModel ProtoSpec NetModel NetSpec NetProof DDecompProof NeighSpec NeighProof FieldSpec FieldProof HaloEx SendModel SendSpec SendLaws.
From Verif Require Import CollectModel CollectSpec EmbedModel CellModel OvlModel OvlSpec OvlProof OvlLaws OvlEx ConModel ConSpec ConProof ConLaws.
Import ListNotations.
Local Open Scope Z_scope.

Lemma fill_computes : forall c n mem L R D MG NG NB M N NL donor rm mg sort dp dc,
  conn_input c n mem L R D MG NG NB M N NL donor rm mg -> stored_once c -> (forall i, (i < length mem)%nat -> sorts (sort i)) ->
  exists S', computes n (conn_fill c n mem (fun i => map (fun q => (q, L q)) (NB i)) R sort M N NL donor rm mg dp dc) (start_fill M N donor mg) S' /\
    (forall i r, nth_error mem i = Some r -> d_side c n (L i) R (chosen D donor mg) (h_donors (f_h (S' r)))) /\
    (forall r, (r < n)%nat -> ~ In r mem -> h_donors (f_h (S' r)) = []) /\
    (forall q, (q < n)%nat -> f_n (S' q) = map (fun e => (e_point e, e_cell e)) (chosen D donor mg q)).
Proof.
  intros c n mem L R D MG NG NB M N NL donor rm mg sort dp dc HC SO HS.
  destruct (fill_prog c n mem L R D MG NG NB M N NL donor rm mg sort dp dc HC SO HS) as (S' & P & A). exists S'. split; [apply prog_computes, P|exact A].
Qed.

(** The pair of grids of C78: points 0 and 2 get their values from grid 7, point 1 from grid 9. *)
Definition ov_S := s9 ex_c ov_mem ex_L ov_R ov_D ov_MG ov_NG (fun _ => isort).
Definition co_NB (i : nat) : list nat := filter (fun j => negb (Nat.eqb j i)) (seq 0 4).
Definition co_NL (q : nat) : range :=
  match q with 4%nat => mkR (T3 0 0 0) (T3 2 1 1) | 1%nat => mkR (T3 2 0 0) (T3 4 1 1) | _ => mkR (T3 0 0 0) (T3 0 1 1) end.
Definition co_donor (_ : nat) (p : tup Z) : Z := if c0 p =? 1 then 9 else if c0 p =? 3 then -1 else 7.
Definition co_rm (_ : nat) (p : tup Z) : bool := c0 p <? 3.

Lemma co_adjacent i j : (i < 4)%nat -> (j < 4)%nat -> i <> j -> adjacent ex_c 4 ex_L i j.
Proof.
  intros Hi Hj Ne. split; [exact Hj|]. split; [congruence|].
  exists (T3 (if Nat.even i then 2 else 3) (if Nat.ltb i 2 then 1 else 2) 0), (T3 (if Nat.even j then 2 else 3) (if Nat.ltb j 2 then 1 else 2) 0).
  split; [|split].
  - destruct i as [|[|[|[|i]]]]; try lia; unfold pt_in; cbn; lia.
  - destruct j as [|[|[|[|j]]]]; try lia; unfold pt_in; cbn; lia.
  - exists (T3 (if Nat.even j then 2 else 3) (if Nat.ltb j 2 then 1 else 2) 0). split; [apply is_image_refl|].
    intros d Hd. destruct d as [|[|[|d]]]; [| | |lia]; cbn [tget c0 c1 c2]; destruct (Nat.even i), (Nat.even j), (Nat.ltb i 2), (Nat.ltb j 2); cbn; lia.
Qed.

Lemma co_neighbors i : (i < 4)%nat -> NoDup (co_NB i) /\ forall j, In j (co_NB i) <-> adjacent ex_c 4 ex_L i j.
Proof.
  intros Hi. split; [apply NoDup_filter, seq_NoDup|]. intros j. unfold co_NB. rewrite filter_In, in_seq, Bool.negb_true_iff, Nat.eqb_neq. split.
  - intros [H1 H2]. apply co_adjacent; lia.
  - intros (H1 & H2 & _). split; [lia|exact H2].
Qed.

Lemma co_input : conn_input ex_c 5 ov_mem ex_L ov_R ov_D ov_MG ov_NG co_NB (fun r => o_m (ov_S r)) (fun r => o_n (ov_S r)) co_NL co_donor co_rm 7.
Proof.
  destruct (fill_sides ex_c 5 ov_mem ex_L ov_R ov_D ov_MG ov_NG (fun _ => isort) ov_input) as (A & B & C); [intros; apply isort_sorts|].
  constructor; auto.
  - exact ov_input.
  - exact co_neighbors.
  - intros q Hq. split; [intros p; destruct q as [|[|[|[|[|q]]]]]; try lia; unfold pt_in; cbn; lia|].
    intros e He. destruct q as [|[|[|[|[|q]]]]]; try lia; cbn in He; try contradiction; repeat destruct He as [<-|He]; try contradiction; unfold pt_in; cbn; lia.
  - intros q Hq. destruct q as [|[|[|[|[|q]]]]]; try lia; cbn [ov_D map]; repeat constructor.
  - intros q p Hq Hp E. unfold co_donor in E. unfold co_rm. destruct p as [x y z]. cbn [c0] in *.
    destruct (Z.eqb_spec x 1); [discriminate|]. destruct (Z.eqb_spec x 3); [discriminate|].
    destruct q as [|[|[|[|[|q]]]]]; try lia; unfold pt_in in Hp; cbn in Hp; try lia; (split; [apply Z.ltb_lt; lia|]); cbn.
    + left. f_equal; lia.
    + left. f_equal; lia.
  - intros r Hr. destruct r as [|[|[|[|[|r]]]]]; try lia; vm_compute; split; discriminate.
Qed.

(** The donors, with extents and points, and the receivers. *)
Definition co_out : list (list (range * tup Z * Z)) :=
  [[(mkR (T3 2 1 0) (T3 4 3 1), T3 0 0 0, -1)];
   [(mkR (T3 2 1 0) (T3 4 3 1), T3 0 0 0, -1); (mkR (T3 1 2 0) (T3 3 4 1), T3 2 0 0, -1)];
   [(mkR (T3 2 1 0) (T3 4 3 1), T3 0 0 0, -1)];
   [(mkR (T3 2 1 0) (T3 4 3 1), T3 0 0 0, -1)]; []].

Lemma co_example :
  match final 5 (conn_fill ex_c 5 ov_mem (fun i => map (fun q => (q, ex_L q)) (co_NB i)) ov_R (fun _ => isort) (fun r => o_m (ov_S r)) (fun r => o_n (ov_S r))
      co_NL co_donor co_rm 7 (T3 (-1) 0 0) (T3 (-1) (-1) 0)) 8 2000 (start_fill (fun r => o_m (ov_S r)) (fun r => o_n (ov_S r)) co_donor 7) with
  | Some s => map (fun r => map (fun x => (dr_ext x, dr_dest x, dr_rank x)) (h_donors (f_h (n_st s r)))) (seq 0 5) = co_out /\
              map (fun r => f_n (n_st s r)) (seq 0 5) = [[]; [(T3 2 0 0, T3 1 2 0)]; []; []; [(T3 0 0 0, T3 2 1 0)]]
  | None => False
  end.
Proof. vm_compute. auto. Qed.

(** ** A ring that stores its first point twice *)
Definition dd_D (q : nat) : list entry := match q with 0%nat => [Entry (T3 0 0 0) (T3 0 0 0)%Q (T3 0 0 0)] | _ => [] end.
Definition dd_S := s9 du_c [0; 1; 2]%nat du_L ov_R dd_D du_MG du_NG (fun _ => isort).
Definition dd_NL (q : nat) : range := match q with 0%nat => ov_R | _ => mkR (T3 0 0 0) (T3 0 1 1) end.
Definition dd_donor (_ : nat) (p : tup Z) : Z := if c0 p =? 0 then 7 else -1.

Lemma dd_input : overlap_input du_c 3 [0; 1; 2]%nat du_L ov_R dd_D du_MG du_NG.
Proof.
  pose proof du_input as [A B C E F _ _ _ _]. constructor; auto.
  - intros q e Hq H. destruct q as [|[|[|q]]]; try lia; cbn in H; try contradiction; repeat destruct H as [<-|H]; try contradiction; split; unfold pt_in; cbn; lia.
  - intros q Hq. destruct q as [|[|[|q]]]; try lia; cbn; repeat constructor; cbn; intuition congruence.
  - intros q q' e e' Hq Hq' H H' X. destruct q as [|[|[|q]]]; try lia; cbn in H; try contradiction; destruct q' as [|[|[|q']]]; try lia; cbn in H'; try contradiction; reflexivity.
  - intros q e i r Hq H Hi _. assert (In r [0; 1; 2]%nat) by (eapply nth_error_In; eauto). cbn in H0.
    destruct q as [|[|[|q]]]; try lia; cbn in H; try contradiction; cbn; intuition lia.
Qed.

Lemma dd_conn : conn_input du_c 3 [0; 1; 2]%nat du_L ov_R dd_D du_MG du_NG du_N (fun r => o_m (dd_S r)) (fun r => o_n (dd_S r)) dd_NL dd_donor (fun _ _ => true) 7.
Proof.
  destruct (fill_sides du_c 3 [0; 1; 2]%nat du_L ov_R dd_D du_MG du_NG (fun _ => isort) dd_input) as (A & B & C); [intros; apply isort_sorts|].
  constructor; auto.
  - exact dd_input.
  - exact du_neighbors.
  - intros q Hq. split; [intros p; destruct q as [|[|[|q]]]; try lia; unfold pt_in; cbn; lia|].
    intros e He. destruct q as [|[|[|q]]]; try lia; cbn in He; try contradiction; repeat destruct He as [<-|He]; try contradiction; unfold pt_in; cbn; lia.
  - intros q Hq. destruct q as [|[|[|q]]]; try lia; cbn [dd_D map]; repeat constructor.
  - intros q p Hq Hp E. split; [reflexivity|]. unfold dd_donor in E. destruct p as [x y z]. cbn [c0] in *.
    destruct (Z.eqb_spec x 0) as [->|]; [|discriminate].
    destruct q as [|[|[|q]]]; try lia; unfold pt_in in Hp; cbn in Hp; try lia; cbn. left. f_equal; lia.
  - intros r Hr. destruct r as [|[|[|r]]]; try lia; vm_compute; split; discriminate.
Qed.

Theorem two_donors : exists c n mem L R D MG NG NB M N NL donor rm mg sort dp dc ls s i i' r r' d d',
  conn_input c n mem L R D MG NG NB M N NL donor rm mg /\ (forall i, (i < length mem)%nat -> sorts (sort i)) /\
  let prog := conn_fill c n mem (fun i => map (fun q => (q, L q)) (NB i)) R sort M N NL donor rm mg dp dc in
  run (nstep true n prog) (net0 (start_fill M N donor mg)) ls = Some s /\ (forall r, (r < n)%nat -> n_pc s r = length prog) /\
  nth_error mem i = Some r /\ nth_error mem i' = Some r' /\ r <> r' /\
  In d (h_donors (f_h (n_st s r))) /\ In d' (h_donors (f_h (n_st s r'))) /\ dr_dest d = dr_dest d' /\
  pt_in (L i) (rb (dr_ext d)) /\ pt_in (L i') (rb (dr_ext d')).
Proof.
  set (prog := conn_fill du_c 3 [0; 1; 2]%nat (fun i => map (fun q => (q, du_L q)) (du_N i)) ov_R (fun _ => isort) (fun r => o_m (dd_S r)) (fun r => o_n (dd_S r))
    dd_NL dd_donor (fun _ _ => true) 7 (T3 (-1) 0 0) (T3 (-1) (-1) 0)).
  assert (X : match final 3 prog 8 2000 (start_fill (fun r => o_m (dd_S r)) (fun r => o_n (dd_S r)) dd_donor 7) with
    | Some s => map (n_pc s) (seq 0 3) = [8; 8; 8]%nat /\ h_donors (f_h (n_st s 0%nat)) = [DRow (mkR (T3 0 0 0) (T3 2 1 1)) (T3 0 0 0)%Q (T3 0 0 0) (-1)] /\
        h_donors (f_h (n_st s 2%nat)) = [DRow (mkR (T3 5 0 0) (T3 7 1 1)) (T3 0 0 0)%Q (T3 0 0 0) (-1)]
    | None => False end) by (vm_compute; auto).
  unfold final in X. set (ls := schedule 3 prog 8 2000 (net0 (start_fill (fun r => o_m (dd_S r)) (fun r => o_n (dd_S r)) dd_donor 7))) in *.
  destruct (run (nstep true 3 prog) (net0 (start_fill (fun r => o_m (dd_S r)) (fun r => o_n (dd_S r)) dd_donor 7)) ls) as [s|] eqn:Es; [|contradiction].
  destruct X as (X1 & X2 & X3). cbn [map seq] in X1. injection X1 as P0 P1 P2.
  exists du_c, 3%nat, [0; 1; 2]%nat, du_L, ov_R, dd_D, du_MG, du_NG, du_N, (fun r => o_m (dd_S r)), (fun r => o_n (dd_S r)), dd_NL, dd_donor, (fun _ _ => true), 7, (fun _ => isort),
    (T3 (-1) 0 0), (T3 (-1) (-1) 0), ls, s, 0%nat, 2%nat, 0%nat, 2%nat, (DRow (mkR (T3 0 0 0) (T3 2 1 1)) (T3 0 0 0)%Q (T3 0 0 0) (-1)), (DRow (mkR (T3 5 0 0) (T3 7 1 1)) (T3 0 0 0)%Q (T3 0 0 0) (-1)).
  split; [exact dd_conn|]. split; [intros; apply isort_sorts|]. split; [exact Es|].
  split; [intros r Hr; destruct r as [|[|[|r]]]; try lia; assumption|]. split; [reflexivity|]. split; [reflexivity|]. split; [lia|].
  split; [rewrite X2; left; reflexivity|]. split; [rewrite X3; left; reflexivity|]. split; [reflexivity|]. split; unfold pt_in; cbn; lia.
Qed.
