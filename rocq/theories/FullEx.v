(** Two pairs of grids on five ranks: examples for C80. *)
From Coq Require Import List ZArith QArith Bool Lia Sorting.Sorted Reals Qreals.
From Verif Require Import TupleModel RangeModel Base RangeProof CartModel CartProof DecompModel DecompProof IndexerModel ArrayModel HashModel HashProof.
From Verif Require Import ProtoModel ProtoSpec NetModel NetSpec NetProof DDecompProof EmbedModel EmbedProof NeighSpec NeighProof FieldSpec FieldProof HaloEx.
From Verif Require Import SendModel SendSpec SendProof SendLaws CellModel CollectModel CollectSpec CollectLaws XchModel XchSpec PipeModel PipeSpec.
From Verif Require Import OvlModel OvlSpec OvlProof OvlLaws OvlEx ConModel ConSpec ConProof ConLaws ConEx FullSpec FullProof FullLaws.
From Verif Require GeomSpec.
Import ListNotations.
Local Open Scope Z_scope.

(** The M grids 7 and 9 are the same, and the N grid 8 gets its points 0 and 2 from grid 7 and point 1 from grid 9. *)
Definition fu_M (r : nat) : list mrow := o_m (ov_S r).
Definition fu_N (r : nat) : list nrow := o_n (ov_S r).
Definition fu_prog (mg : Z) := conn_fill ex_c 5 ov_mem (fun i => map (fun q => (q, ex_L q)) (co_NB i)) ov_R (fun _ => isort) fu_M fu_N co_NL co_donor co_rm mg (T3 (-1) 0 0) (T3 (-1) (-1) 0).
Definition fu_run (mg : Z) := final 5 (fu_prog mg) 8 2000 (start_fill fu_M fu_N co_donor mg).
Definition fu_tables (mg : Z) : list (list drow * list (tup Z * tup Z)) :=
  match fu_run mg with Some s => map (fun r => (h_donors (f_h (n_st s r)), f_n (n_st s r))) (seq 0 5) | None => [] end.
Definition fu_t7 : list (list drow * list (tup Z * tup Z)) := Eval vm_compute in fu_tables 7.
Definition fu_t9 : list (list drow * list (tup Z * tup Z)) := Eval vm_compute in fu_tables 9.
Definition fu_pair (mg : Z) (t : list (list drow * list (tup Z * tup Z))) : pair :=
  Pair mg 8 ex_c ov_mem ex_L co_NB [1; 4]%nat ov_R ov_D ov_MG ov_NG fu_M fu_N (fun r => fst (nth r t ([], []))) (fun r => snd (nth r t ([], []))).
Definition fu_ps : list pair := [fu_pair 7 fu_t7; fu_pair 9 fu_t9].

Lemma fu_once : stored_once ex_c.
Proof. intros d Hd. destruct d as [|[|[|d]]]; [| | |lia]; cbn; auto; discriminate. Qed.

Lemma fu_input : conn_input ex_c 5 ov_mem ex_L ov_R ov_D ov_MG ov_NG co_NB fu_M fu_N co_NL co_donor co_rm 9.
Proof.
  destruct co_input as [A B C D E F G _ I]. constructor; auto.
  intros q p Hq Hp X. unfold co_donor in X. unfold co_rm. destruct p as [x y z]. cbn [c0] in *.
  destruct (Z.eqb_spec x 1) as [->|]; [|destruct (x =? 3); discriminate]. split; [reflexivity|].
  destruct q as [|[|[|[|[|q]]]]]; try lia; unfold pt_in in Hp; cbn in Hp; try lia. cbn. right. left. f_equal; lia.
Qed.

Lemma fu_filled mg t : conn_input ex_c 5 ov_mem ex_L ov_R ov_D ov_MG ov_NG co_NB fu_M fu_N co_NL co_donor co_rm mg -> fu_tables mg = t ->
  match fu_run mg with Some s => forallb (fun r => Nat.eqb (n_pc s r) (length (fu_prog mg))) (seq 0 5) | None => false end = true ->
  filled 5 (fun _ => co_NL) (fun _ => co_donor) (fun _ => co_rm) (fu_pair mg t).
Proof.
  intros CI <- F. destruct (fill_computes ex_c 5 ov_mem ex_L ov_R ov_D ov_MG ov_NG co_NB fu_M fu_N co_NL co_donor co_rm mg (fun _ => isort) (T3 (-1) 0 0) (T3 (-1) (-1) 0) CI fu_once)
    as (S' & (b & C) & B1 & B2 & B3); [intros; apply isort_sorts|].
  assert (T : forall r, (r < 5)%nat -> nth r (fu_tables mg) ([], []) = (h_donors (f_h (S' r)), f_n (S' r))).
  { unfold fu_tables. destruct (fu_run mg) as [s|] eqn:Es; [|discriminate]. destruct (C true _ s Es) as (_ & C2 & _). rewrite forallb_forall in F.
    intros r Hr. assert (Er : n_st s r = S' r) by (apply C2; [exact Hr|]; apply Nat.eqb_eq, F, in_seq; lia). rewrite <- Er.
    destruct r as [|[|[|[|[|r]]]]]; try lia; reflexivity. }
  split; [exact CI|]. split; [exact fu_once|]. cbn [gp_dons gp_recv gp_mem gp_c gp_L gp_R fu_pair]. split.
  - intros i r Hi. assert (Hr : (r < 5)%nat) by (apply (oi_mem _ _ _ _ _ _ _ _ ov_input); eapply nth_error_In; eauto).
    rewrite (T r Hr). cbn [fst]. apply (B1 i r Hi).
  - intros q Hq. rewrite (T q Hq). cbn [snd]. apply (B3 q Hq).
Qed.

Lemma fu_made mg t : conn_input ex_c 5 ov_mem ex_L ov_R ov_D ov_MG ov_NG co_NB fu_M fu_N co_NL co_donor co_rm mg -> fu_tables mg = t ->
  match fu_run mg with Some s => forallb (fun r => Nat.eqb (n_pc s r) (length (fu_prog mg))) (seq 0 5) | None => false end = true ->
  made 5 (fun _ => co_NL) (fun _ => co_donor) (fun _ => co_rm) (fun _ => isort) (fun _ => isort) (T3 (-1) 0 0) (T3 (-1) (-1) 0) (fu_pair mg t).
Proof.
  intros CI <- F. destruct (fill_computes ex_c 5 ov_mem ex_L ov_R ov_D ov_MG ov_NG co_NB fu_M fu_N co_NL co_donor co_rm mg (fun _ => isort) (T3 (-1) 0 0) (T3 (-1) (-1) 0) CI fu_once)
    as (S' & C & _); [intros; apply isort_sorts|].
  assert (T : forall r, (r < 5)%nat -> nth r (fu_tables mg) ([], []) = (h_donors (f_h (S' r)), f_n (S' r))).
  { pose proof C as (b & C1). unfold fu_tables. destruct (fu_run mg) as [s|] eqn:Es; [|discriminate]. destruct (C1 true _ s Es) as (_ & C2 & _). rewrite forallb_forall in F.
    intros r Hr. assert (Er : n_st s r = S' r) by (apply C2; [exact Hr|]; apply Nat.eqb_eq, F, in_seq; lia). rewrite <- Er.
    destruct r as [|[|[|[|[|r]]]]]; try lia; reflexivity. }
  unfold made. cbn [gp_dons gp_recv gp_mem gp_c gp_L gp_R gp_D gp_MG gp_NG gp_NB gp_M gp_N gp_m gp_n fu_pair]. split; [exact ov_input|]. split; [exact fu_once|]. split; [exact co_neighbors|].
  split; [|split; [exact (ci_donor _ _ _ _ _ _ _ _ _ _ _ _ _ _ _ CI)|split; [exact (ci_many _ _ _ _ _ _ _ _ _ _ _ _ _ _ _ CI)|split]]].
  - intros q Hq. destruct (ci_local _ _ _ _ _ _ _ _ _ _ _ _ _ _ _ CI q Hq) as [X Y]. split; [exact X|]. split; [exact Y|]. exact (ci_order _ _ _ _ _ _ _ _ _ _ _ _ _ _ _ CI q Hq).
  - exists ov_S. split; [|intros; split; reflexivity]. apply prog_computes, OvlProof.fill_prog; [exact ov_input|intros; apply isort_sorts].
  - exists S'. split; [exact C|]. intros r Hr. rewrite (T r Hr). split; reflexivity.
Qed.

Lemma fu_made7 : made 5 (fun _ => co_NL) (fun _ => co_donor) (fun _ => co_rm) (fun _ => isort) (fun _ => isort) (T3 (-1) 0 0) (T3 (-1) (-1) 0) (fu_pair 7 fu_t7).
Proof. apply fu_made; [exact co_input|vm_compute; reflexivity|vm_compute; reflexivity]. Qed.

Theorem fu_assembled : assembled [(7, c_range ex_c); (8, ov_R); (9, c_range ex_c)] 5 (fun _ => co_NL) (fun _ => co_donor) (fun _ => co_rm) fu_ps.
Proof.
  constructor.
  - change (NoDup [(7, 8); (9, 8)]). repeat (apply NoDup_cons; [cbn; intuition congruence|]). apply NoDup_nil.
  - cbn. repeat (apply NoDup_cons; [cbn; intuition congruence|]). apply NoDup_nil.
  - intros P [<-|[<-|[]]]; cbn; auto.
  - intros P [<-|[<-|[]]]; (apply fu_filled; [first [exact co_input|exact fu_input]|vm_compute; reflexivity|vm_compute; reflexivity]).
  - intros P q [<-|[<-|[]]] Hq; cbn; destruct q as [|[|[|[|[|q]]]]]; try lia; intros H; try reflexivity; tauto.
  - intros _ q q' p Hq Hq' H H'. destruct q as [|[|[|[|[|q]]]]]; try lia; destruct q' as [|[|[|[|[|q']]]]]; try lia; unfold pt_in in H, H'; cbn in H, H'; try lia; reflexivity.
Qed.

(** Values 10 x + y on grid 7, and the sum over the vertices of a donor cell. *)
Definition fu_P : pair := fu_pair 7 fu_t7.
Definition fu_grids : list (Z * range) := [(7, c_range ex_c); (8, ov_R); (9, c_range ex_c)].
Definition fu_m (_ : Z) (p : tup Z) : Z := 10 * c0 p + c1 p.
Definition fu_fields (i : nat) : list (list Z) := rows_of ColMajor 1 (ex_L i) fu_m.
Definition fu_vv (i : nat) : list Z := repeat 0 (Z.to_nat (max_vertices (donor_cells fu_P i))).
Definition fu_sum (_ : nat) (_ : Z) (_ : range) (vals : list Z) : option Z := Some (fold_left Z.add vals 0).
Definition fu_out (r : nat) : list (list Z) := [repeat 0 (length (gp_recv fu_P r))].
Definition fu_old (r : nat) : list (list Z) := [map (fun p => - 1 - c0 p) (RangeModel.foreach_col (co_NL r))].

Lemma fu_hypotheses : 0 < total_points fu_grids /\
  (forall i, (i < 4)%nat -> has_values ColMajor 1 (ex_L i) (ex_L i) (fu_fields i) fu_m /\ Z.of_nat (length (fu_vv i)) = 1 * max_vertices (donor_cells fu_P i) /\
     reduces (fu_sum i) (donor_cells fu_P i)) /\
  (forall r, (r < 5)%nat -> shaped 1 (length (gp_recv fu_P r)) (fu_out r) /\ shaped 1 (Z.to_nat (rcount (co_NL r))) (fu_old r)) /\
  map (fun r => map e_point (gp_chosen (fun _ => co_donor) fu_P r)) (seq 0 5) = [[]; [T3 2 0 0]; []; []; [T3 0 0 0]].
Proof.
  split; [reflexivity|]. split; [|split; [|reflexivity]].
  - intros i Hi. split; [apply rows_values; [lia|intros p H; exact H]|]. split; [|intros j cell vals _ _; discriminate].
    unfold fu_vv. rewrite repeat_length. destruct i as [|[|[|[|i]]]]; try lia; vm_compute; reflexivity.
  - intros r Hr. destruct r as [|[|[|[|[|r]]]]]; try lia; (split; (split; [reflexivity|intros row I; repeat (destruct I as [<-|I]; [vm_compute; reflexivity|]); contradiction])).
Qed.

Lemma fu_execution :
  match final 5 (exchange 1 0 (fun _ => isort) (fun _ => isort) fu_grids ov_R 5 (m_conns fu_ps) (n_conns fu_ps) (7, 8) ColMajor ex_c ov_mem ex_L ex_L
      (fun i => map (fun q => (q, ex_L q)) (co_NB i)) (donor_cells fu_P) fu_sum ColMajor co_NL) 20 2000 (start (m_conns fu_ps) (n_conns fu_ps) ov_mem fu_fields fu_vv fu_out fu_old) with
  | Some s => map (fun r => p_n (n_st s r)) (seq 0 5) = [[[]]; [[70; -4]]; [[]]; [[]]; [[106; -2]]]
  | None => False
  end.
Proof. vm_compute. reflexivity. Qed.

(** The coordinates of the points are their indices; the receivers are where they were found. *)
Definition fu_X (p : tup Z) : tup Q := T3 (inject_Z (c0 p)) (inject_Z (c1 p)) 0%Q.
Definition fu_x (p : tup Z) : tup Q := (if (c0 p =? 0)%Z then T3 (5 # 2) 1 0 else T3 1 2 0)%Q.
Lemma fu_physical (a : Z -> nat -> R) (b : Z -> R) r e : (r < 5)%nat -> In e (gp_chosen (fun _ => co_donor) fu_P r) ->
  GeomSpec.parallel 2 fu_X (e_cell e) /\ GeomSpec.located 2 fu_X (e_cell e) (e_coords e) (fu_x (e_point e)) /\
  let cell := cell_box 2 (e_cell e) in
  forall q u, 0 <= q < 1 -> pt_in cell u -> affine 2 (a q) (b q) (fu_X (home ex_c cell u)) = affine 2 (a q) (b q) (fu_X u).
Proof.
  intros Hr He. assert (e = Entry (T3 1 2 0) (T3 0 0 0)%Q (T3 2 0 0) \/ e = Entry (T3 2 1 0) (T3 (1 # 2) 0 0)%Q (T3 0 0 0)) as X.
  { destruct r as [|[|[|[|[|r]]]]]; try lia; vm_compute in He; try contradiction; destruct He as [<-|[]]; auto. }
  destruct X as [-> | ->]; (split; [|split]).
  1,4: intros o [<-|[<-|[<-|[<-|[]]]]] d Hd; (destruct d as [|[|d]]; [vm_compute; reflexivity|vm_compute; reflexivity|lia]).
  1,3: intros d Hd; (destruct d as [|[|d]]; [vm_compute; reflexivity|vm_compute; reflexivity|lia]).
  all: intros cell q u Hq Hu; reflexivity.
Qed.
