(** A whole assembly: examples. *)
From Coq Require Import List ZArith QArith Bool Lia Sorting.Sorted.
From Verif Require Import TupleModel RangeModel RangeProof CartModel CartProof NeighSpec FieldModel FieldSpec ArrayModel HashModel AsmModel AsmSpec CellModel.
From Verif Require Import DecompProof HaloEx NeighSpec HaloModel FieldProof AsmMain OccModel OccEx HoleModel HoleSpec HoleLaws HoleEx DomModel DomSpec DomGeom DomProof DomLaws DomMain.
Import ListNotations.
Local Open Scope Z_scope.
Notation flag := AsmSpec.flag.

(** Cells that do not depend on activity, found where the point and all vertices are active. *)
Definition dcells (carts : Z -> cart) (pairs : list (Z * Z)) (cell : Z * Z -> tup Z -> option (tup Z * tup Z)) (A : fields bool) (k : Z * Z) (p : tup Z) : option (list (tup Z)) :=
  if existsb (pair_eqb k) pairs && (rcontains (c_range (carts (snd k))) p && value false (carts (snd k)) (values A (snd k)) p)
  then match cell k p with
       | Some (b, s) =>
         let vs := foreach_col (mkR b (tadd b s)) in
         if negb (match vs with [] => true | _ => false end) && forallb (fun v => rcontains (c_range (carts (fst k))) v && value false (carts (fst k)) (values A (fst k)) v) vs
         then Some vs else None
       | None => None
       end
  else None.
Definition dbuild grids carts pairs cell cut fringe occ minimize : ddata :=
  DD grids carts (fun _ _ => 1%Q) (fun A => Found pairs (dcells carts pairs cell A) (fun _ _ => 1%Q)) (fun _ => false) cut fringe occ (fun _ => 0) (fun _ => 0) minimize (fun _ => true) (fun _ => false).

Lemma pair_eqb_true a b : pair_eqb a b = true -> a = b.
Proof. destruct a, b. unfold pair_eqb. cbn. intros H. apply andb_true_iff in H as [H1 H2]. apply Z.eqb_eq in H1, H2. congruence. Qed.

Lemma dbuild_ok grids carts pairs cell cut fringe occ minimize :
  NoDup grids -> (forall g, In g grids -> 0 <= g) ->
  StronglySorted (fun a b => fst a < fst b \/ fst a = fst b /\ snd a < snd b) pairs ->
  (forall k, In k pairs -> In (fst k) grids /\ In (snd k) grids /\ fst k <> snd k) ->
  (forall g, 0 <= fringe g) ->
  (forall g, exists nd n m, 0 < n /\ 0 < m /\ (nd <= 3)%nat /\ ((nd < 2)%nat -> m = 1) /\ (1 <= nd)%nat /\ carts g = flat nd n m) ->
  ddata_ok (dbuild grids carts pairs cell cut fringe occ minimize).
Proof.
  intros ND NN SS PG FR Hc. constructor; cbn.
  - split; assumption.
  - intro g. destruct (Hc g) as (nd & n & m & Hn & Hm & H3 & H1 & H0 & ->). destruct (flat_ok nd n m Hn Hm) as (A & B & C).
    split; [cbn; lia|]. split; [exact A |]. split; [exact B |]. split; [intros d Hd; destruct d as [|[|[|d]]]; cbn; lia|]. intros d Hd. cbn [c_nd flat] in Hd.
    destruct d as [|[|[|d]]]; cbn; [lia| |auto|lia]. rewrite H1 by lia. auto.
  - intros A. constructor; cbn; [exact SS|exact PG|]. intros k p vs. unfold dcells. destruct (_ && _) eqn:E; [|discriminate]. apply andb_true_iff in E as [E1 E2].
    apply andb_true_iff in E2 as [E2 E3]. apply existsb_exists in E1 as (k' & E1 & E1'). apply pair_eqb_true in E1'. subst k'.
    destruct (cell k p) as [[b s]|]; [|discriminate]. destruct (_ && _) eqn:E in |- *; [|discriminate]. intros Q. injection Q as <-. apply andb_true_iff in E as [Q1 Q2].
    split; [exact E1|]. split; [destruct (foreach_col _); [discriminate|discriminate]|]. split; [apply rcontains_spec, E2|]. split; [exact E3|].
    intros v Hv. rewrite forallb_forall in Q2. specialize (Q2 v Hv). apply andb_true_iff in Q2 as [Q2 Q3]. split; [apply rcontains_spec, Q2|exact Q3].
  - exact FR.
  - intros _. lia.
  - intros _. lia.
Qed.

(** All points are active. *)
Definition all_active (X : ddata) (bnd : Z -> mask) : fields Z :=
  for_grids X (fun g => each (dd_cart X g) (fun p => if bnd g p then 2 ^ ACTIVE + 2 ^ DOMAIN_BOUNDARY else 2 ^ ACTIVE)).
(** The points where a flag is set. *)
Definition where_ (X : ddata) (F : fields Z) (g k : Z) : list Z := map c0 (filter (flag k (flags_of X F g)) (foreach_col (c_range (dd_cart X g)))).

(** Points i (0 <= i < 12) of a grid and j + 13/2 (0 <= j < 12) of another one. *)
Definition ln : ddata := dbuild [1; 2] (fun _ => flat 1 12 1) [(1, 2); (2, 1)]
  (fun k p => if fst k =? 1 then Some (tadd p (T3 6 0 0), T3 2 1 1) else Some (tsub p (T3 7 0 0), T3 2 1 1))
  (fun _ => false) (fun _ => 1) (fun k => if fst k =? 1 then O_ALL else O_NONE) (fun _ => true).
Definition ln_result := assembly ln (fun _ => false) 0 (all_active ln (fun _ _ => false)).

Lemma ln_ok : ddata_ok ln.
Proof.
  apply dbuild_ok.
  - repeat constructor; cbn; intuition lia.
  - cbn. intuition lia.
  - repeat (constructor; cbn; try lia).
  - cbn. intros k [<-|[<-|[]]]; cbn; intuition lia.
  - intros g. lia.
  - intros g. exists 1%nat, 12, 1. repeat split; lia.
Qed.
Lemma ln_some : exists R, ln_result = Some R /\
  map (fun k => map (fun g => where_ ln (as_flags R) g k) [1; 2]) [ACTIVE; OVERLAPPED; OCCLUDED; OVERLAP_MINIMIZED; INNER_FRINGE; OUTER_FRINGE; RECEIVER; ORPHAN] =
    [[[0; 1; 2; 3; 4; 5; 6; 7; 8; 9; 10; 11]; [3; 4; 5; 6; 7; 8; 9; 10; 11]]; [[7; 8; 9; 10; 11]; [0; 1; 2; 3; 4]]; [[]; [0; 1; 2; 3]]; [[]; [0; 1; 2]];
     [[]; [3]]; [[0; 11]; [11]]; [[0; 11]; [3; 11]]; [[0]; [11]]] /\
  as_distances R = [(1, [0; 1; 1; 1; 1; 1; 1; 1; 1; 1; 1; 0]); (2, [1; 1; 1; 0; 1; 1; 1; 1; 1; 1; 1; 0])] /\
  map (fun g => map (fun i => donor_at ln R g (T3 i 0 0)) [0; 3; 11]) [1; 2] = [[-1; -1; 2]; [-1; 1; -1]].
Proof.
  destruct ln_result as [R|] eqn:E; [|vm_compute in E; discriminate]. exists R. split; [reflexivity|].
  assert (Q : option_map (fun R => (map (fun k => map (fun g => where_ ln (as_flags R) g k) [1; 2]) [ACTIVE; OVERLAPPED; OCCLUDED; OVERLAP_MINIMIZED; INNER_FRINGE; OUTER_FRINGE; RECEIVER; ORPHAN],
    as_distances R, map (fun g => map (fun i => donor_at ln R g (T3 i 0 0)) [0; 3; 11]) [1; 2])) ln_result = Some (
    [[[0; 1; 2; 3; 4; 5; 6; 7; 8; 9; 10; 11]; [3; 4; 5; 6; 7; 8; 9; 10; 11]]; [[7; 8; 9; 10; 11]; [0; 1; 2; 3; 4]]; [[]; [0; 1; 2; 3]]; [[]; [0; 1; 2]];
     [[]; [3]]; [[0; 11]; [11]]; [[0; 11]; [3; 11]]; [[0]; [11]]],
    [(1, [0; 1; 1; 1; 1; 1; 1; 1; 1; 1; 1; 0]); (2, [1; 1; 1; 0; 1; 1; 1; 1; 1; 1; 1; 0])], [[-1; -1; 2]; [-1; 1; -1]])) by (vm_compute; reflexivity).
  rewrite E in Q. cbn [option_map] in Q. apply (f_equal (fun o => match o with Some x => x | None => ([], [], []) end)) in Q. apply pair_equal_spec in Q as [Q Q3]. apply pair_equal_spec in Q as [Q1 Q2]. auto.
Qed.

(** Three grids with the same points, each of which occludes the next. *)
Definition ring : ddata := dbuild [1; 2; 3] (fun _ => flat 1 3 1) [(1, 2); (1, 3); (2, 1); (2, 3); (3, 1); (3, 2)]
  (fun k p => Some (tmake (fun d => Z.min (tget p d) (if (d =? 0)%nat then 1 else 0)), T3 2 1 1))
  (fun _ => false) (fun _ => 0) (fun k => if snd k =? fst k mod 3 + 1 then O_ALL else O_NONE) (fun _ => true).
Definition ring_start := all_active ring (fun _ _ => false).
Lemma ring_ok : ddata_ok ring.
Proof.
  apply dbuild_ok.
  - repeat constructor; cbn; intuition lia.
  - cbn. intuition lia.
  - repeat (constructor; cbn; try lia).
  - cbn. intros k [<-|[<-|[<-|[<-|[<-|[<-|[]]]]]]]; cbn; intuition lia.
  - intros g. lia.
  - intros g. exists 1%nat, 3, 1. repeat split; lia.
Qed.

Definition none_left (X : ddata) (R : assembled) : bool := forallb (fun g => forallb (fun p => negb (flag ACTIVE (flags_of X (as_flags R) g) p)) (foreach_col (c_range (dd_cart X g)))) (dd_grids X).
Definition all_there (X : ddata) (F : fields Z) : bool := forallb (fun g => forallb (fun p => was_active (flags_of X F g) p) (foreach_col (c_range (dd_cart X g)))) (dd_grids X).
Lemma ring_refuted : exists X F R, ddata_ok X /\ (exists fuel, assembly X (fun _ => false) fuel F = Some R) /\ (exists g p, In g (dd_grids X) /\ pt_in (c_range (dd_cart X g)) p) /\
  (forall g, dd_smoothing X g = 0 /\ dd_fringe X g = 0) /\
  forall g p, In g (dd_grids X) -> pt_in (c_range (dd_cart X g)) p -> was_active (flags_of X F g) p = true /\ flag ACTIVE (flags_of X (as_flags R) g) p = false.
Proof.
  assert (Q : option_map (none_left ring) (assembly ring (fun _ => false) 0 ring_start) = Some true) by (vm_compute; reflexivity).
  destruct (assembly ring (fun _ => false) 0 ring_start) as [R|] eqn:E; [|discriminate]. injection Q as Q. exists ring, ring_start, R. split; [exact ring_ok|]. split; [exists 0%nat; exact E|].
  split; [exists 1, (T3 0 0 0); split; [left; reflexivity|unfold pt_in; cbn; lia]|]. split; [intros g; split; reflexivity|].
  assert (Q2 : all_there ring ring_start = true) by (vm_compute; reflexivity).
  unfold none_left in Q. unfold all_there in Q2. rewrite forallb_forall in Q, Q2. intros g p Hg Hp. specialize (Q g Hg). specialize (Q2 g Hg). rewrite forallb_forall in Q, Q2. apply foreach_col_In in Hp. split; [exact (Q2 p Hp)|].
  apply negb_true_iff. exact (Q p Hp).
Qed.

(** A grid whose sides are boundaries, in a grid with 8 x 8 points; a third grid has the same points as that. *)
Definition twice : ddata := dbuild [1; 2; 3] (fun g => if g =? 1 then flat 2 5 5 else flat 2 8 8) [(1, 2); (2, 1); (3, 2)]
  (fun k p => if fst k =? 3 then Some (T3 (Z.min (c0 p) 6) (Z.min (c1 p) 6) 0, T3 2 2 1) else bx_cell k p)
  (fun k => pair_eqb k (1, 2)) (fun _ => 0) (fun k => if pair_eqb k (3, 2) then O_ALL else O_NONE) (fun k => true).
Definition twice_start := all_active twice (fun g p => (g =? 1) && bx_sides 5 p).
Lemma twice_ok : ddata_ok twice.
Proof.
  apply dbuild_ok.
  - repeat constructor; cbn; intuition lia.
  - cbn. intuition lia.
  - repeat (constructor; cbn; try lia).
  - cbn. intros k [<-|[<-|[<-|[]]]]; cbn; intuition lia.
  - intros g. lia.
  - intros g. destruct (g =? 1); [exists 2%nat, 5, 5|exists 2%nat, 8, 8]; repeat split; lia.
Qed.
Lemma twice_refuted : exists X F R g p, ddata_ok X /\ (exists fuel, assembly X (fun _ => false) fuel F = Some R) /\ In g (dd_grids X) /\ pt_in (c_range (dd_cart X g)) p /\
  flag BOUNDARY_HOLE (flags_of X (as_flags R) g) p = true /\ flag OCCLUDED (flags_of X (as_flags R) g) p = true /\ flag OVERLAP_MINIMIZED (flags_of X (as_flags R) g) p = true.
Proof.
  assert (Q : option_map (fun R => map (fun k => flag k (flags_of twice (as_flags R) 2) (T3 0 0 0)) [BOUNDARY_HOLE; OCCLUDED; OVERLAP_MINIMIZED]) (assembly twice (fun _ => false) 1 twice_start) =
    Some [true; true; true]) by (vm_compute; reflexivity).
  destruct (assembly twice (fun _ => false) 1 twice_start) as [R|] eqn:E; [|discriminate]. injection Q as Q1 Q2 Q3.
  exists twice, twice_start, R, 2, (T3 0 0 0). split; [exact twice_ok|]. split; [exists 1%nat; exact E|]. split; [cbn; tauto|]. split; [unfold pt_in; cbn; lia|]. auto.
Qed.

(** The second grid on two processes. *)
Definition ln_L (r : nat) : range := match r with O => mkR (T3 0 0 0) (T3 5 1 1) | _ => mkR (T3 5 0 0) (T3 12 1 1) end.
Definition ln_E (r : nat) : range := match r with O => mkR (T3 0 0 0) (T3 6 1 1) | _ => mkR (T3 4 0 0) (T3 12 1 1) end.
Lemma ln_part : exists N H, partitioned (dd_cart ln 2) 2 ln_L ln_E N H.
Proof.
  assert (D : decomposed (flat 1 12 1) 2 ln_L).
  { split; [cbn; lia|]. split; [lia|]. split; [intros d Hd; ex_dims d|]. split; [intros d Hd; cbn in Hd; ex_dims d|]. split; [intros d Hd; cbn in Hd; ex_dims d; reflexivity|]. split.
    - split; [ex_subset|]. split; [|ex_disjoint]. intros p Hp. assert (Q : c0 p < 5 \/ 5 <= c0 p) by lia. destruct Q; [ex_in 0%nat|ex_in 1%nat].
    - intros r Hr. apply rempty_false. destruct r as [|r]; unfold pt_in; cbn; lia. }
  eexists _, _. apply (nb_partitioned (flat 1 12 1) 2 ln_L ln_E D); [intros d Hd; ex_dims d|]. intros r Hr. split.
  - intros d Hd. cbn in Hd. destruct r as [|[|r]]; ex_dims d.
  - intros d Hd Hn. cbn in Hn. unfold continues_below, continues_above. destruct r as [|[|r]]; destruct d as [|d]; cbn; try lia; repeat split; intros; try lia; try discriminate; exfalso; tauto.
Qed.
Lemma ln_loaded : exists L E N H ko overlaps o S R, ln_result = Some R /\
  partitioned (dd_cart ln 2) 2 L E N H /\ loaded (dd_cart ln 2) 2 L E N H ko overlaps o S (flags_of ln (all_active ln (fun _ _ => false)) 2) (contributed ln R 2).
Proof.
  destruct ln_some as (R & ER & _). destruct ln_part as (N & H & P).
  destruct (loaded_exists _ _ _ _ _ _ (flags_of ln (all_active ln (fun _ _ => false)) 2) (contributed ln R 2) P) as (ko & ov & o & S & Q).
  exists ln_L, ln_E, N, H, ko, ov, o, S, R. split; [exact ER|]. split; [exact P|exact Q].
Qed.
