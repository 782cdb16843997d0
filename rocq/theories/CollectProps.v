(** Properties of collecting a field at cells: C37, C38. *)
From Coq Require Import List ZArith QArith_base Bool Lia.
From Verif Require Import TupleModel RangeModel Base RangeProof CartModel CartProof IndexerModel ArrayModel HashModel ProtoModel ProtoSpec NetModel NetSpec DDecompProof.
From Verif Require Import NeighSpec HaloEx FieldSpec CollectModel CollectSpec CollectProof CollectLaws.
Import ListNotations.
Local Open Scope Z_scope.

(** C37. Fields with the values of [m] on the local ranges of n ranks, the cells listed by the owners of their
    vertices, in whatever order and as whatever periodic images, and reduced with any reduction: collecting ends, in
    whatever order messages arrive, and gives for each cell and each field the reduction of the values of [m] at the
    vertices, whoever owns them and whatever is in the buffer for the values before.  For row-major fields, cells
    that are wholly local only. *)
Theorem C37_collect_partial : forall V lay c cnt n L FR N cells red (fields : nat -> list (list V)) vv m,
  distributed c n L N cells ->
  (forall r cell, (r < n)%nat -> In cell (cells r) -> lay = ColMajor \/ whole c (L r) cell) ->
  (forall r, (r < n)%nat -> has_values lay cnt (L r) (FR r) (fields r) m /\ Z.of_nat (length (vv r)) = cnt * max_vertices (cells r) /\ reduces (red r) (cells r)) ->
  exists S', computes n (collect lay c cnt L FR (fun r => map (fun q => (q, L q)) (N r)) cells red) (fun r => CS0 (fields r) (vv r)) S' /\
  forall r, (r < n)%nat -> k_field (S' r) = fields r /\ reduced lay c cnt m (red r) (cells r) (k_out (S' r)).
Proof. exact collect_distributed. Qed.
Print Assumptions C37_collect_partial.

(** C37 for CollectNone, CollectAny, CollectNotAll and CollectAll. *)
Theorem C37_flags_partial : forall V (of_bool : bool -> V) truth op lay c cnt n L FR N cells fields vv m,
  (forall b, truth (of_bool b) = b) -> distributed c n L N cells ->
  (forall r cell, (r < n)%nat -> In cell (cells r) -> lay = ColMajor \/ whole c (L r) cell) ->
  (forall r, (r < n)%nat -> has_values lay cnt (L r) (FR r) (fields r) m /\ Z.of_nat (length (vv r)) = cnt * max_vertices (cells r)) ->
  exists S', computes n (collect lay c cnt L FR (fun r => map (fun q => (q, L q)) (N r)) cells (fun _ => red_flag of_bool truth op)) (fun r => CS0 (fields r) (vv r)) S' /\
  forall r, (r < n)%nat -> k_field (S' r) = fields r /\
    results cnt (cells r) (k_out (S' r)) (fun _ k cell x => truth x = true <-> flagged op truth (at_vertex c m k cell)).
Proof. exact collect_flags. Qed.
Print Assumptions C37_flags_partial.

(** C37 for CollectMin: numeric_limits<T>::max() is not below any value, of whatever type. *)
Theorem C37_min_partial : forall V lt (start : V) lay c cnt n L FR N cells fields vv m,
  linear lt -> (forall k p, lt start (m k p) = false) -> distributed c n L N cells ->
  (forall r cell, (r < n)%nat -> In cell (cells r) -> lay = ColMajor \/ whole c (L r) cell) ->
  (forall r, (r < n)%nat -> has_values lay cnt (L r) (FR r) (fields r) m /\ Z.of_nat (length (vv r)) = cnt * max_vertices (cells r)) ->
  exists S', computes n (collect lay c cnt L FR (fun r => map (fun q => (q, L q)) (N r)) cells (fun _ => red_min lt start)) (fun r => CS0 (fields r) (vv r)) S' /\
  forall r, (r < n)%nat -> k_field (S' r) = fields r /\
    results cnt (cells r) (k_out (S' r)) (fun _ k cell x => least lt (at_vertex c m k cell) x).
Proof. exact collect_min. Qed.
Print Assumptions C37_min_partial.

(** C37 for CollectInterp: the values at the vertices, weighted with the products of the coefficients, are added up
    in the order of the layout, with whatever multiplication and addition (rounded, say). *)
Theorem C37_interp_partial : forall V D (mul : D -> D -> D) (acc : V -> D -> V -> V) zero junk coefs lay c cnt n L FR N cells fields vv m
    (w : nat -> Z -> tup Z -> D),
  distributed c n L N cells ->
  (forall r cell, (r < n)%nat -> In cell (cells r) -> lay = ColMajor \/ whole c (L r) cell) ->
  (forall r, (r < n)%nat -> has_values lay cnt (L r) (FR r) (fields r) m /\ Z.of_nat (length (vv r)) = cnt * max_vertices (cells r)) ->
  (forall r i cell p, (r < n)%nat -> vread (cells r) i = Some cell -> pt_in cell p -> exists a b d,
     coefs r 0%nat (c0 p - c0 (rb cell)) i = Some a /\ coefs r 1%nat (c1 p - c1 (rb cell)) i = Some b /\
     coefs r 2%nat (c2 p - c2 (rb cell)) i = Some d /\ w r i p = mul (mul a b) d) ->
  exists S', computes n (collect lay c cnt L FR (fun r => map (fun q => (q, L q)) (N r)) cells (fun r => red_interp mul acc zero junk (coefs r) lay))
    (fun r => CS0 (fields r) (vv r)) S' /\
  forall r, (r < n)%nat -> k_field (S' r) = fields r /\
    results cnt (cells r) (k_out (S' r)) (fun i k cell x => x = fold_left (fun a p => acc a (w r i p) (m k (home c cell p))) (in_order lay cell) zero).
Proof. exact collect_interp. Qed.
Print Assumptions C37_interp_partial.

(** For cells of at most two points in each direction the neighbours are the owners of adjacent points: with
    [listed], which the other hypotheses do not imply, this is all [distributed] asks for. *)
Theorem C37_small_cells : forall c n L N cells, decomposed c n L -> stored_once c -> listed c n L cells ->
  (forall r cell, (r < n)%nat -> In cell (cells r) -> small cell) ->
  (forall r, (r < n)%nat -> NoDup (N r) /\ forall q, In q (N r) <-> adjacent c n L r q) -> distributed c n L N cells.
Proof. exact small_distributed. Qed.
Print Assumptions C37_small_cells.

(** A cell shared by four ranks and one shared by two of them across the periodic boundary, on one side as another
    periodic image. *)
Definition cl_A : range := mkR (T3 2 1 0) (T3 4 3 1).
Definition cl_cells (r : nat) : list range :=
  match r with O => [cl_A; mkR (T3 (-1) 0 0) (T3 1 2 1)] | 1%nat => [mkR (T3 5 0 0) (T3 7 2 1); cl_A] | 2%nat => [cl_A] | 3%nat => [cl_A] | _ => [] end.
Definition cl_N (r : nat) : list nat := filter (fun q => negb (Nat.eqb q r)) (seq 0 4).
Definition cl_m (k : Z) (p : tup Z) : Z := 100 * k + 10 * c0 p + c1 p - 30.
Definition cl_fields (r : nat) : list (list Z) := rows_of ColMajor 2 (ex_L r) cl_m.
Definition cl_vv (r : nat) : list Z := repeat 7 8.

Example C37_hypotheses : distributed ex_c 4 ex_L cl_N cl_cells /\
  (forall r, (r < 4)%nat -> has_values ColMajor 2 (ex_L r) (ex_L r) (cl_fields r) cl_m /\ Z.of_nat (length (cl_vv r)) = 2 * max_vertices (cl_cells r)) /\
  (forall r cell, (r < 4)%nat -> In cell (cl_cells r) -> small cell).
Proof.
  split; [|split].
  - split; [exact ex_decomposed|]. split; [|split; [apply listedb_ok; vm_compute; reflexivity|apply reachb_ok; vm_compute; reflexivity]].
    intros r Hr. split; [apply NoDup_filter, seq_NoDup|]. intros q Iq. apply filter_In in Iq as [Iq Nq]. apply in_seq in Iq.
    split; [lia|]. intros ->. rewrite Nat.eqb_refl in Nq. discriminate.
  - intros r Hr. split; [apply rows_values; [lia|intros p H; exact H]|]. ex_ranks r Hr; reflexivity.
  - intros r cell Hr I d Hd. ex_ranks r Hr; repeat (destruct I as [<-|I]; [ex_dims d|]); contradiction.
Qed.

Example C37_execution :
  match final 4 (collect ColMajor ex_c 2 ex_L ex_L (fun r => map (fun q => (q, ex_L q)) (cl_N r)) cl_cells (fun _ => red_min Z.ltb 1000)) 8 400
    (fun r => CS0 (cl_fields r) (cl_vv r)) with
  | Some s => (k_out (n_st s 0%nat), k_out (n_st s 1%nat), k_out (n_st s 3%nat)) = ([[-9; 91]; [-30; 70]], [[-30; 70]; [-9; 91]], [[-9; 91]])
  | None => False
  end.
Proof. vm_compute. reflexivity. Qed.

(** C37 fails for row-major fields: the map numbers the vertices of a cell in column-major order (CollectMap.cpp
    410, 440-450), the collect object in the layout of the field (CollectBase.cpp 69-104, 275), so that remote values
    are written over local ones.  One cell of 2 x 2 points on two ranks, and zeros in the buffer; the vertex
    (2,1) is forgotten. *)
Definition rm_cells (r : nat) : list range := match r with O | 1%nat => [mkR (T3 2 0 0) (T3 4 2 1)] | _ => [] end.
Definition rm_m (_ : Z) (p : tup Z) : Z := if teqb p (T3 2 1 0) then 1 else 0.
Definition rm_vv (r : nat) : list Z := match r with O | 1%nat => repeat 0 4 | _ => [] end.
Definition rm_truth (x : Z) : bool := negb (x =? 0).
Definition rm_prog : list (phase (cst Z) (list Z)) :=
  collect RowMajor ex_c 1 ex_L ex_L (fun r => map (fun q => (q, ex_L q)) (cl_N r)) rm_cells (fun _ => red_flag Z.b2z rm_truth AnyOf).
Definition rm_start (r : nat) : cst Z := CS0 (rows_of RowMajor 1 (ex_L r) rm_m) (rm_vv r).

Theorem C37_row_major_refuted : distributed ex_c 4 ex_L cl_N rm_cells /\
  (forall r, (r < 4)%nat -> has_values RowMajor 1 (ex_L r) (ex_L r) (k_field (rm_start r)) rm_m /\ Z.of_nat (length (k_vv (rm_start r))) = 1 * max_vertices (rm_cells r)) /\
  flagged AnyOf rm_truth (at_vertex ex_c rm_m 0 (mkR (T3 2 0 0) (T3 4 2 1))) /\
  exists ls s, run (nstep true 4 rm_prog) (net0 rm_start) ls = Some s /\ (forall r, (r < 4)%nat -> n_pc s r = length rm_prog) /\ k_out (n_st s 0%nat) = [[0]].
Proof.
  split; [|split; [|split]].
  - split; [exact ex_decomposed|]. split; [|split; [apply listedb_ok; vm_compute; reflexivity|apply reachb_ok; vm_compute; reflexivity]].
    intros r Hr. split; [apply NoDup_filter, seq_NoDup|]. intros q Iq. apply filter_In in Iq as [Iq Nq]. apply in_seq in Iq.
    split; [lia|]. intros ->. rewrite Nat.eqb_refl in Nq. discriminate.
  - intros r Hr. split; [apply rows_values; [lia|intros p H; exact H]|]. ex_ranks r Hr; reflexivity.
  - exists 1. split; [|reflexivity]. exists (T3 2 1 0). split; [unfold pt_in; cbn; lia|reflexivity].
  - destruct (stuck_run 4 rm_prog 8 400 rm_start (fun s => forallb (fun r => Nat.eqb (n_pc s r) 3) (seq 0 4) &&
      match k_out (n_st s 0%nat) with [[x]] => x =? 0 | _ => false end)) as (ls & s & R & _ & P); [vm_compute; reflexivity|].
    exists ls, s. split; [exact R|]. apply andb_prop in P as [P1 P2]. rewrite forallb_forall in P1. split.
    + intros r Hr. apply Nat.eqb_eq, P1, in_seq. lia.
    + destruct (k_out (n_st s 0%nat)) as [|[|x [|]] [|]]; try discriminate P2. apply Z.eqb_eq in P2. subst. reflexivity.
Qed.
Print Assumptions C37_row_major_refuted.

(** C37 fails for a wide cell one of whose owners is not a neighbour: three ranks on a line with [0,2), [2,3) and [3,6)
    and the cell [1,4).  Rank 0 gets nothing from rank 2, and the entry of RemoteVertices_ that stays 0 puts a value of
    rank 1 in the place of vertex 1. *)
Definition wd_cells (_ : nat) : list range := [mkR (T3 1 0 0) (T3 4 1 1)].
Definition wd_N (r : nat) : list nat := match r with O => [1%nat] | 1%nat => [0%nat; 2%nat] | _ => [1%nat] end.
Definition wd_m (_ : Z) (p : tup Z) : Z := c0 p.
Definition wd_prog : list (phase (cst Z) (list Z)) :=
  collect ColMajor ex_line 1 (ex_L1 2 3) (ex_L1 2 3) (fun r => map (fun q => (q, ex_L1 2 3 q)) (wd_N r)) wd_cells (fun _ => red_max Z.ltb (- 2 ^ 31)).
Definition wd_start (r : nat) : cst Z := CS0 (rows_of ColMajor 1 (ex_L1 2 3 r) wd_m) [0; 0; 0].

Theorem C37_wide_refuted : decomposed ex_line 3 (ex_L1 2 3) /\ stored_once ex_line /\ listed ex_line 3 (ex_L1 2 3) wd_cells /\
  (forall r, (r < 3)%nat -> has_values ColMajor 1 (ex_L1 2 3 r) (ex_L1 2 3 r) (k_field (wd_start r)) wd_m) /\
  (forall r q, (r < 3)%nat -> (In q (wd_N r) <-> adjacent ex_line 3 (ex_L1 2 3) r q)) /\
  exists ls s, run (nstep true 3 wd_prog) (net0 wd_start) ls = Some s /\ (forall r, (r < 3)%nat -> n_pc s r = length wd_prog) /\
    ~ results 1 (wd_cells 0) (k_out (n_st s 0%nat)) (fun _ k cell x => greatest Z.ltb (at_vertex ex_line wd_m k cell) x).
Proof.
  split; [apply ex_line_decomposed; lia|]. split; [apply ex_line_once|]. split; [apply listedb_ok; vm_compute; reflexivity|]. split; [|split].
  - intros r Hr. apply rows_values; [lia|intros p H; exact H].
  - intros r q Hr. unfold adjacent. split.
    + intros Iq. assert (W : forall a b : Z, Z.abs (a - b) <= 1 -> near ex_line (T3 a 0 0) (T3 b 0 0)).
      { intros a b H. exists (T3 b 0 0). split; [apply is_image_refl|]. intros d Hd. ex_dims d. }
      ex_ranks r Hr; repeat (destruct Iq as [<-|Iq]; [split; [lia|split; [lia|]]|]); try contradiction.
      * exists (T3 1 0 0), (T3 2 0 0). split; [unfold pt_in; cbn; lia|split; [unfold pt_in; cbn; lia|apply W; lia]].
      * exists (T3 2 0 0), (T3 1 0 0). split; [unfold pt_in; cbn; lia|split; [unfold pt_in; cbn; lia|apply W; lia]].
      * exists (T3 2 0 0), (T3 3 0 0). split; [unfold pt_in; cbn; lia|split; [unfold pt_in; cbn; lia|apply W; lia]].
      * exists (T3 3 0 0), (T3 2 0 0). split; [unfold pt_in; cbn; lia|split; [unfold pt_in; cbn; lia|apply W; lia]].
    + intros (Hq & Nq & p & u & Hp & Hu & v & Iv & Nv). destruct (Iv 0%nat ltac:(lia)) as [_ Iv']. specialize (Iv' eq_refl). specialize (Nv 0%nat ltac:(lia)).
      cbn [tget] in *. destruct r as [|[|[|r]]]; [| | |lia]; (destruct q as [|[|[|q]]]; [| | |lia]); cbn; auto; try contradiction; exfalso; unfold pt_in in *; cbn in *; lia.
  - destruct (stuck_run 3 wd_prog 8 400 wd_start (fun s => forallb (fun r => Nat.eqb (n_pc s r) 3) (seq 0 3) &&
      match k_out (n_st s 0%nat) with [[x]] => x =? 2 | _ => false end)) as (ls & s & R & _ & P); [vm_compute; reflexivity|].
    exists ls, s. split; [exact R|]. apply andb_prop in P as [P1 P2]. rewrite forallb_forall in P1. split.
    + intros r Hr. apply Nat.eqb_eq, P1, in_seq. lia.
    + destruct (k_out (n_st s 0%nat)) as [|[|x [|]] [|]]; try discriminate P2. apply Z.eqb_eq in P2. subst. intros [_ H].
      destruct (H 0 _ eq_refl) as (row & E & _ & H'). injection E as <-. destruct (H' 0 ltac:(lia)) as (x & E & _ & G). injection E as <-.
      specialize (G 3). cbn in G. assert (X : at_vertex ex_line wd_m 0 (mkR (T3 1 0 0) (T3 4 1 1)) 3) by (exists (T3 3 0 0); split; [unfold pt_in; cbn; lia|reflexivity]).
      specialize (G X). discriminate.
Qed.
Print Assumptions C37_wide_refuted.

(** C38. CollectMax gives the greatest of the values at the vertices if numeric_limits<T>::min() is above none of the
    values. *)
Theorem C38_max_partial : forall V lt (start : V) lay c cnt n L FR N cells fields vv m,
  linear lt -> (forall k p, lt (m k p) start = false) -> distributed c n L N cells ->
  (forall r cell, (r < n)%nat -> In cell (cells r) -> lay = ColMajor \/ whole c (L r) cell) ->
  (forall r, (r < n)%nat -> has_values lay cnt (L r) (FR r) (fields r) m /\ Z.of_nat (length (vv r)) = cnt * max_vertices (cells r)) ->
  exists S', computes n (collect lay c cnt L FR (fun r => map (fun q => (q, L q)) (N r)) cells (fun _ => red_max lt start)) (fun r => CS0 (fields r) (vv r)) S' /\
  forall r, (r < n)%nat -> k_field (S' r) = fields r /\
    results cnt (cells r) (k_out (S' r)) (fun _ k cell x => greatest lt (at_vertex c m k cell) x).
Proof. exact collect_max. Qed.
Print Assumptions C38_max_partial.

(** C38 for the integer types, whose numeric_limits<T>::min() is the least value [lo]. *)
Theorem C38_integer_partial : forall lo hi lay c cnt n L FR N cells fields vv m,
  (forall k p, lo <= m k p <= hi) -> distributed c n L N cells ->
  (forall r cell, (r < n)%nat -> In cell (cells r) -> lay = ColMajor \/ whole c (L r) cell) ->
  (forall r, (r < n)%nat -> has_values lay cnt (L r) (FR r) (fields r) m /\ Z.of_nat (length (vv r)) = cnt * max_vertices (cells r)) ->
  exists S', computes n (collect lay c cnt L FR (fun r => map (fun q => (q, L q)) (N r)) cells (fun _ => red_max Z.ltb lo)) (fun r => CS0 (fields r) (vv r)) S' /\
  forall r, (r < n)%nat -> k_field (S' r) = fields r /\
    results cnt (cells r) (k_out (S' r)) (fun _ k cell x => at_vertex c m k cell x /\ forall y, at_vertex c m k cell y -> y <= x).
Proof. exact collect_max_int. Qed.
Print Assumptions C38_integer_partial.

Example C38_hypotheses : linear Z.ltb /\ (forall k p, - 2 ^ 31 <= Z.max (- 2 ^ 31) (Z.min (2 ^ 31 - 1) (cl_m k p)) <= 2 ^ 31 - 1).
Proof. split; [exact Zltb_linear|]. intros k p. lia. Qed.

Example C38_execution :
  match final 4 (collect ColMajor ex_c 2 ex_L ex_L (fun r => map (fun q => (q, ex_L q)) (cl_N r)) cl_cells (fun _ => red_max Z.ltb (- 2 ^ 31))) 8 400
    (fun r => CS0 (cl_fields r) (cl_vv r)) with
  | Some s => (k_out (n_st s 0%nat), k_out (n_st s 1%nat), k_out (n_st s 3%nat)) = ([[2; 102]; [21; 121]], [[21; 121]; [2; 102]], [[2; 102]])
  | None => False
  end.
Proof. vm_compute. reflexivity. Qed.

(** C38 fails for the floating point types: CollectMax.hpp 83 starts with numeric_limits<T>::min(), the least
    positive normal number, which for negative values is greater than all of them.  A field that is -1 everywhere. *)
Definition fl_min : Q := 1 # (2 ^ 1022).
Definition fl_lt (a b : Q) : bool := negb (Qle_bool b a).
Definition fl_m (_ : Z) (_ : tup Z) : Q := (-1 # 1)%Q.
Definition fl_prog : list (phase (cst Q) (list Q)) :=
  collect ColMajor ex_c 1 ex_L ex_L (fun r => map (fun q => (q, ex_L q)) (cl_N r)) cl_cells (fun _ => red_max fl_lt fl_min).
Definition fl_start (r : nat) : cst Q := CS0 (rows_of ColMajor 1 (ex_L r) fl_m) (repeat 0%Q 4).

Theorem C38_float_refuted : distributed ex_c 4 ex_L cl_N cl_cells /\
  (forall r, (r < 4)%nat -> has_values ColMajor 1 (ex_L r) (ex_L r) (k_field (fl_start r)) fl_m /\ Z.of_nat (length (k_vv (fl_start r))) = 1 * max_vertices (cl_cells r)) /\
  exists S', computes 4 fl_prog fl_start S' /\
    forall r, (r < 4)%nat -> results 1 (cl_cells r) (k_out (S' r)) (fun _ k cell x => ~ greatest fl_lt (at_vertex ex_c fl_m k cell) x).
Proof.
  assert (HV : forall r, (r < 4)%nat -> has_values ColMajor 1 (ex_L r) (ex_L r) (k_field (fl_start r)) fl_m /\ Z.of_nat (length (k_vv (fl_start r))) = 1 * max_vertices (cl_cells r)).
  { intros r Hr. split; [apply rows_values; [lia|intros p H; exact H]|]. ex_ranks r Hr; reflexivity. }
  split; [apply C37_hypotheses|]. split; [exact HV|].
  destruct (collect_results Q ColMajor ex_c 1 4 ex_L ex_L cl_N cl_cells (fun _ => red_max fl_lt fl_min) (fun r => rows_of ColMajor 1 (ex_L r) fl_m) (fun _ => repeat 0%Q 4) fl_m
    (fun _ _ k cell x => ~ greatest fl_lt (at_vertex ex_c fl_m k cell) x)) as (S' & C & R).
  - apply C37_hypotheses.
  - auto.
  - exact HV.
  - intros r Hr i cell vals _ _. discriminate.
  - intros r i cell k _ _ _ _. eexists. split; [reflexivity|]. intros [(p & _ & E) _].
    enough (X : forall l, fold_left (fun a v => if fl_lt a v then v else a) (map (fun p => fl_m k (home ex_c cell p)) l) fl_min = fl_min) by (rewrite X in E; discriminate).
    induction l as [|q l IH]; [reflexivity|]. cbn [map fold_left]. replace (fl_lt fl_min (fl_m k (home ex_c cell q))) with false by (vm_compute; reflexivity). exact IH.
  - exists S'. split; [exact C|]. intros r Hr. apply R, Hr.
Qed.
Print Assumptions C38_float_refuted.
