(** Examples and counterexamples for the overlap data (C78). *)
From Coq Require Import List ZArith QArith Bool Lia Sorting.Sorted.
From Verif Require Import TupleModel RangeModel Base RangeProof CartModel CartProof DecompModel DecompProof IndexerModel ArrayModel HashModel.
From Verif Require Import ProtoModel ProtoSpec NetModel NetSpec NetProof DDecompProof NeighSpec NeighProof FieldSpec FieldProof HaloEx SendModel SendSpec SendLaws.
From Verif Require Import CollectModel CollectSpec EmbedModel CellModel CellSpec FragModel FragSpec FragProof OvlModel OvlSpec OvlProof OvlLaws.
Import ListNotations.
Local Open Scope Z_scope.

Lemma sides_fit : forall c n mem L R D MG NG M N,
  overlap_input c n mem L R D MG NG ->
  (forall i r, nth_error mem i = Some r -> m_side c n (L i) R D (M r)) -> (forall r, (r < n)%nat -> ~ In r mem -> M r = []) ->
  (forall q, (q < n)%nat -> n_side mem L (D q) (N q)) ->
  agreed n (fun r => map mr_rank (M r)) (fun q => map nr_rank (N q)) (fun r => map mr_dest (M r)) (fun q => map nr_point (N q)) /\
  (forall r, (r < n)%nat -> distinct (map mr_rank (M r)) (map mr_dest (M r)) /\ distinct (map nr_rank (N r)) (map nr_point (N r))) /\
  ((forall q, (q < n)%nat -> StronglySorted (fun p p' => rindex ColMajor R p < rindex ColMajor R p') (map e_point (D q))) ->
   SendSpec.paired n (fun r => map mr_rank (M r)) (fun q => map nr_rank (N q)) /\
   forall s r i j k a b, (s < n)%nat -> (r < n)%nat ->
     numbered (map mr_rank (M s)) (default_order (map mr_rank (M s))) (Z.of_nat r) i k ->
     numbered (map nr_rank (N r)) (default_order (map nr_rank (N r))) (Z.of_nat s) j k ->
     vread (M s) i = Some a -> vread (N r) j = Some b -> mr_dest a = nr_point b).
Proof.
  intros c n mem L R D MG NG M N HI HM HO HN. split; [exact (fit_agreed c n mem L R D MG NG M N HI HM HO HN)|].
  destruct (fit_distinct c n mem L R D MG NG M N HI HM HO HN) as [D1 D2]. split; [auto|]. intros HA.
  split; [exact (fit_paired c n mem L R D MG NG M N HI HM HO HN HA)|exact (fit_default c n mem L R D MG NG M N HI HM HO HN HA)].
Qed.

Lemma found_order : forall loc frags es R, lists_found loc frags es -> pt_subset loc R ->
  StronglySorted (fun p p' => rindex ColMajor R p < rindex ColMajor R p') (map e_point es).
Proof.
  intros loc frags es R [S0 H] Sub. eapply sorted_impl; [exact S0|]. intros a b Ha Hb.
  apply (proj1 (order_global loc R a b Sub (proj1 (proj1 (H a) Ha)) (proj1 (proj1 (H b) Hb)))).
Qed.

Lemma collect_cells : forall c n mem L R D MG NG M N,
  overlap_input c n mem L R D MG NG -> (forall i r, nth_error mem i = Some r -> m_side c n (L i) R D (M r)) -> stored_once c ->
  (forall i, (i < length mem)%nat -> NoDup (N i) /\ forall j, In j (N i) <-> adjacent c (length mem) L i j) ->
  distributed c (length mem) L N (fun i => match nth_error mem i with Some r => map (cell_extents (c_nd c)) (M r) | None => [] end).
Proof. intros c n mem L R D MG NG M N HI HM SO HN. exact (rows_distributed c n mem L R D MG NG M HI HM SO N HN). Qed.

Lemma vertex_told : forall c k L stop depth active X O tol, decomposed c k L -> (0 <= tol)%Q ->
  periodic_coords c X -> periodic_mask c active ->
  forall cell x xs i, pt_in (cells_of c) cell -> active cell = true -> in_cell (c_nd c) X cell x -> In x xs ->
  (forall v, corner (c_nd c) cell v -> pt_in (cells_of c) (wrap c v) /\ active (wrap c v) = true) ->
  (i < k)%nat -> has_vertex c (L i) cell -> In i (overlapping_ranks c L stop depth active X O tol k xs).
Proof.
  intros c k L stop depth active X O tol HD Ht PX PM cell x xs i Hc Ac Ic Ix Hv Hi (u & v & Im & Co & Lv & Bv).
  pose proof HD as (_ & _ & Ok & _).
  set (v' := tmake (fun d => tget v d + tget cell d - tget u d)).
  assert (C' : corner (c_nd c) cell v') by (apply corner_add, Co).
  assert (W : wrap c v' = v). { apply wrap_unique; [exact Ok| |exact Bv]. apply is_image_sym, (image_add c u cell v). apply is_image_sym, Im. }
  destruct (Hv v' C') as [V1 V2]. eapply (told c k L stop depth active X O tol HD Ht cell v' x xs i); eauto; rewrite W; exact Lv.
Qed.

(** A pair of grids *)
Definition ov_mem : list nat := [3; 0; 1; 2]%nat.
Definition ov_R : range := mkR (T3 0 0 0) (T3 4 1 1).
Definition ov_D (q : nat) : list entry :=
  match q with
  | 1%nat => [Entry (T3 1 2 0) (T3 0 0 0)%Q (T3 2 0 0)]
  | 4%nat => [Entry (T3 2 1 0) (T3 (1 # 2) 0 0)%Q (T3 0 0 0); Entry (T3 5 0 0) (T3 0 0 0)%Q (T3 1 0 0)]
  | _ => []
  end.
Definition ov_MG (q : nat) : list nat := match q with 1%nat | 4%nat => [0; 1; 2; 3]%nat | _ => [] end.
Definition ov_NG (r : nat) : list nat := if Nat.ltb r 4 then [1; 4]%nat else [].

Lemma ov_input : overlap_input ex_c 5 ov_mem ex_L ov_R ov_D ov_MG ov_NG.
Proof.
  constructor.
  - exact ex_decomposed.
  - split; [repeat constructor; cbn; intuition lia|]. intros r H. cbn in H. intuition lia.
  - intros q Hq. destruct q as [|[|[|[|[|q]]]]]; try lia; cbn; (split; [repeat constructor; cbn; intuition lia|]); intros r H; intuition lia.
  - intros r Hr. unfold ov_NG. destruct (Nat.ltb r 4); (split; [repeat constructor; cbn; intuition lia|]); intros q H; cbn in H; intuition lia.
  - intros q r Hq Hr. destruct q as [|[|[|[|[|q]]]]]; try lia; destruct r as [|[|[|[|[|r]]]]]; try lia; cbn; intuition lia.
  - intros q e Hq H. destruct q as [|[|[|[|[|q]]]]]; try lia; cbn in H; try contradiction; repeat destruct H as [<-|H]; try contradiction; split; unfold pt_in; cbn; lia.
  - intros q Hq. destruct q as [|[|[|[|[|q]]]]]; try lia; cbn; repeat constructor; cbn; intuition congruence.
  - intros q q' e e' Hq Hq' H H' E. destruct q as [|[|[|[|[|q]]]]]; try lia; cbn in H; try contradiction; destruct q' as [|[|[|[|[|q']]]]]; try lia; cbn in H'; try contradiction;
      repeat destruct H as [<-|H]; try contradiction; repeat destruct H' as [<-|H']; try contradiction; try reflexivity; discriminate E.
  - intros q e i r Hq H Hi _. assert (In r ov_mem) by (eapply nth_error_In; eauto). cbn in H0.
    destruct q as [|[|[|[|[|q]]]]]; try lia; cbn in H; try contradiction; cbn; intuition lia.
Qed.

Definition ov_M : list (list (tup Z * tup Z * Z)) :=
  [[(T3 2 1 0, T3 0 0 0, -1); (T3 5 0 0, T3 1 0 0, 4)];
   [(T3 2 1 0, T3 0 0 0, -1); (T3 1 2 0, T3 2 0 0, 1)];
   [(T3 2 1 0, T3 0 0 0, -1)];
   [(T3 2 1 0, T3 0 0 0, 4); (T3 (-1) 0 0, T3 1 0 0, -1)]; []].
Definition ov_N : list (list (tup Z * tup Z * Z)) :=
  [[]; [(T3 2 0 0, T3 1 2 0, 1)]; []; []; [(T3 0 0 0, T3 2 1 0, 3); (T3 1 0 0, T3 5 0 0, 0)]].

Lemma ov_example : overlap_input ex_c 5 ov_mem ex_L ov_R ov_D ov_MG ov_NG /\
  (forall r, (r < 5)%nat -> sorts isort) /\
  match final 5 (overlap_fill ex_c ov_mem ex_L ov_R (fun _ => isort)) 8 2000 (fun r => OS0 (ov_D r) (ov_MG r) (ov_NG r)) with
  | Some s => map (fun r => map (fun x => (mr_cell x, mr_dest x, mr_rank x)) (o_m (n_st s r))) (seq 0 5) = ov_M /\
              map (fun r => map (fun x => (nr_point x, nr_source x, nr_rank x)) (o_n (n_st s r))) (seq 0 5) = ov_N /\
              forallb (fun r => Nat.eqb (n_pc s r) 9) (seq 0 5) = true
  | None => False
  end.
Proof. split; [exact ov_input|]. split; [intros; apply isort_sorts|]. vm_compute. auto. Qed.

(** A ring that stores its first point twice *)
Definition du_D (q : nat) : list entry := match q with 0%nat => [Entry (T3 4 0 0) (T3 0 0 0)%Q (T3 0 0 0)] | _ => [] end.
Definition du_MG (q : nat) : list nat := match q with 0%nat => [0; 1; 2]%nat | _ => [] end.
Definition du_NG (r : nat) : list nat := [0%nat].
Definition du_c := ex_circle DUPLICATED.
Definition du_L := ex_L1 2 4.
Definition du_N (i : nat) : list nat := filter (fun j => negb (Nat.eqb j i)) (seq 0 3).

Lemma du_input : overlap_input du_c 3 [0; 1; 2]%nat du_L ov_R du_D du_MG du_NG.
Proof.
  constructor.
  - apply ex_circle_decomposed; lia.
  - split; [repeat constructor; cbn; intuition lia|]. intros r H. cbn in H. intuition lia.
  - intros q Hq. destruct q as [|[|[|q]]]; try lia; cbn; (split; [repeat constructor; cbn; intuition lia|]); intros r H; intuition lia.
  - intros r Hr. split; [repeat constructor; cbn; intuition lia|]; intros q H; cbn in H; intuition lia.
  - intros q r Hq Hr. destruct q as [|[|[|q]]]; try lia; destruct r as [|[|[|r]]]; try lia; cbn; intuition lia.
  - intros q e Hq H. destruct q as [|[|[|q]]]; try lia; cbn in H; try contradiction; repeat destruct H as [<-|H]; try contradiction; split; unfold pt_in; cbn; lia.
  - intros q Hq. destruct q as [|[|[|q]]]; try lia; cbn; repeat constructor; cbn; intuition congruence.
  - intros q q' e e' Hq Hq' H H' E. destruct q as [|[|[|q]]]; try lia; cbn in H; try contradiction; destruct q' as [|[|[|q']]]; try lia; cbn in H'; try contradiction;
      repeat destruct H as [<-|H]; try contradiction; repeat destruct H' as [<-|H']; try contradiction; try reflexivity; discriminate E.
  - intros q e i r Hq H Hi _. assert (In r [0; 1; 2]%nat) by (eapply nth_error_In; eauto). cbn in H0.
    destruct q as [|[|[|q]]]; try lia; cbn in H; try contradiction; cbn; intuition lia.
Qed.

Definition du_S := s9 du_c [0; 1; 2]%nat du_L ov_R du_D du_MG du_NG (fun _ => isort).

Lemma du_adjacent i j : (i < 3)%nat -> (j < 3)%nat -> i <> j -> adjacent du_c 3 du_L i j.
Proof.
  intros Hi Hj Ne. split; [exact Hj|]. split; [congruence|].
  assert (X : exists p u k, pt_in (du_L i) (T3 p 0 0) /\ pt_in (du_L j) (T3 u 0 0) /\ Z.abs (p - (u + k * 5)) <= 1).
  { destruct i as [|[|[|i]]]; try lia; destruct j as [|[|[|j]]]; try lia; unfold pt_in; cbn.
    - exists 1, 2, 0. lia.
    - exists 0, 4, (-1). lia.
    - exists 2, 1, 0. lia.
    - exists 3, 4, 0. lia.
    - exists 4, 0, 1. lia.
    - exists 4, 3, 0. lia. }
  destruct X as (p & u & k & P1 & P2 & P3). exists (T3 p 0 0), (T3 u 0 0). split; [exact P1|]. split; [exact P2|].
  exists (T3 (u + k * 5) 0 0). split.
  - intros d Hd. destruct d as [|[|[|d]]]; cbn; (split; intros; try discriminate; try reflexivity). exists k. reflexivity.
  - intros d Hd. destruct d as [|[|[|d]]]; cbn; lia.
Qed.

Lemma du_neighbors i : (i < 3)%nat -> NoDup (du_N i) /\ forall j, In j (du_N i) <-> adjacent du_c 3 du_L i j.
Proof.
  intros Hi. split; [apply NoDup_filter, seq_NoDup|]. intros j. unfold du_N. rewrite filter_In, in_seq, Bool.negb_true_iff, Nat.eqb_neq. split.
  - intros [H1 H2]. apply du_adjacent; lia.
  - intros (H1 & H2 & _). split; [lia|exact H2].
Qed.

Theorem duplicated_hangs : exists c n mem L R D MG NG sort S' N (fields : nat -> list (list Z)) vv ls s,
  overlap_input c n mem L R D MG NG /\ (forall r, (r < n)%nat -> sorts (sort r)) /\
  computes n (overlap_fill c mem L R sort) (fun r => OS0 (D r) (MG r) (NG r)) S' /\
  (forall i, (i < length mem)%nat -> NoDup (N i) /\ forall j, In j (N i) <-> adjacent c (length mem) L i j) /\
  mem = seq 0 n /\
  let prog := collect ColMajor c 1 L L (fun i => map (fun q => (q, L q)) (N i)) (fun i => map (cell_extents (c_nd c)) (o_m (S' i)))
                (fun _ => red_min Z.ltb 1000) in
  run (nstep true n prog) (net0 (fun r => CS0 (fields r) (vv r))) ls = Some s /\ stuck (nstep true n prog) s /\ (n_pc s 0%nat < length prog)%nat.
Proof.
  set (prog := collect (V := Z) ColMajor du_c 1 du_L du_L (fun i => map (fun q => (q, du_L q)) (du_N i))
    (fun i => map (cell_extents 1) (o_m (du_S i))) (fun _ => red_min Z.ltb 1000)).
  destruct (stuck_run 3 prog 6 1000 (fun _ => CS0 [[1; 2]] [0; 0]) (fun s => Nat.eqb (n_pc s 0%nat) 2)) as (ls & s & H1 & H2 & H3).
  { vm_compute. reflexivity. }
  exists du_c, 3%nat, [0; 1; 2]%nat, du_L, ov_R, du_D, du_MG, du_NG, (fun _ => isort), du_S, du_N, (fun _ => [[1; 2]]), (fun _ => [0; 0]), ls, s.
  split; [exact du_input|]. split; [intros; apply isort_sorts|].
  split; [apply prog_computes, (fill_prog _ _ _ _ _ _ _ _ _ du_input); intros; apply isort_sorts|].
  split; [exact du_neighbors|]. split; [reflexivity|].
  split; [exact H1|]. split; [exact H2|]. apply Nat.eqb_eq in H3. rewrite H3. cbn. lia.
Qed.
