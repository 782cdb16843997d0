(** The connectivities of all pairs of grids, as assembly leaves them (C80). *)
From Coq Require Import List ZArith QArith Bool Sorting.Sorted Reals Qreals.
From Verif Require Import TupleModel RangeModel RangeProof CartModel IndexerModel HashModel NeighSpec ArrayModel CellModel CollectSpec NetModel NetSpec EmbedModel XchModel.
From Verif Require Import OvlModel OvlSpec ConModel ConSpec.
Import ListNotations.
Local Open Scope Z_scope.

(** A pair of grids: the IDs, the M grid with its ranks and local ranges and the neighbours of these, the ranks and the range of the N
    grid, the cells found, which ranks know of each other, the two sides of the overlap and of the connectivity. *)
Record pair : Type := Pair {
  gp_m : Z; gp_n : Z; gp_c : cart; gp_mem : list nat; gp_L : nat -> range; gp_NB : nat -> list nat; gp_nmem : list nat; gp_R : range;
  gp_D : nat -> list entry; gp_MG : nat -> list nat; gp_NG : nat -> list nat; gp_M : nat -> list mrow; gp_N : nat -> list nrow;
  gp_dons : nat -> list drow; gp_recv : nat -> list (tup Z * tup Z) }.
Definition gp_id (P : pair) : Z * Z := (gp_m P, gp_n P).

(** The points of rank q that receive from the M grid; [donor g q p] is the donor grid of point p of grid g. *)
Definition gp_chosen (donor : Z -> nat -> tup Z -> Z) (P : pair) : nat -> list entry := chosen (gp_D P) (donor (gp_n P)) (gp_m P).

(** The pair is as the overlap (C78), the choice of donors (C71) and the connectivity (C79) leave it. *)
Definition filled (n : nat) (NL : Z -> nat -> range) (donor : Z -> nat -> tup Z -> Z) (rm : Z -> nat -> tup Z -> bool) (P : pair) : Prop :=
  conn_input (gp_c P) n (gp_mem P) (gp_L P) (gp_R P) (gp_D P) (gp_MG P) (gp_NG P) (gp_NB P) (gp_M P) (gp_N P) (NL (gp_n P)) (donor (gp_n P)) (rm (gp_n P)) (gp_m P) /\
  stored_once (gp_c P) /\
  (forall i r, nth_error (gp_mem P) i = Some r -> d_side (gp_c P) n (gp_L P i) (gp_R P) (gp_chosen donor P) (gp_dons P r)) /\
  (forall q, (q < n)%nat -> gp_recv P q = map (fun e => (e_point e, e_cell e)) (gp_chosen donor P q)).

(** All pairs: each once, the ranges of the grids, and the ranks of a grid have different points. *)
Record assembled (grids : list (Z * range)) (n : nat) (NL : Z -> nat -> range) (donor : Z -> nat -> tup Z -> Z) (rm : Z -> nat -> tup Z -> bool)
    (ps : list pair) : Prop := Assembled {
  as_ids : NoDup (map gp_id ps);
  as_grids : NoDup (map fst grids);
  as_range : forall P, In P ps -> In (gp_n P, gp_R P) grids;
  as_filled : forall P, In P ps -> filled n NL donor rm P;
  as_nmem : forall P q, In P ps -> (q < n)%nat -> ~ In q (gp_nmem P) -> gp_D P q = [];
  as_local : forall g q q' p, (q < n)%nat -> (q' < n)%nat -> pt_in (NL g q) p -> pt_in (NL g q') p -> q = q' }.

(** What the exchanger sees of them on rank r (XchModel). *)
Definition m_conns (ps : list pair) (r : nat) : list mconn :=
  flat_map (fun P => match position (gp_mem P) r with
                     | Some i => [MConn (gp_m P) (gp_n P) (gp_L P i) (map (fun d => Donor (rb (dr_ext d)) (dr_dest d) (dr_rank d)) (gp_dons P r))]
                     | None => []
                     end) ps.
Definition n_conns (ps : list pair) (r : nat) : list nconn :=
  flat_map (fun P => match position (gp_nmem P) r with
                     | Some _ => [NConn (gp_m P) (gp_n P) (map (fun x => Recvr (fst x) (-1)) (gp_recv P r))]
                     | None => []
                     end) ps.
Definition donor_cells (P : pair) (i : nat) : list range :=
  match nth_error (gp_mem P) i with Some r => map dr_ext (gp_dons P r) | None => [] end.

(** The pair is what the programs compute: the overlap from the cells found (C78), and the connectivity from it (C79). *)
Definition made (n : nat) (NL : Z -> nat -> range) (donor : Z -> nat -> tup Z -> Z) (rm : Z -> nat -> tup Z -> bool)
    (sort sort' : nat -> list Z -> list Z) (dp dc : tup Z) (P : pair) : Prop :=
  let c := gp_c P in let mem := gp_mem P in let L := gp_L P in let R := gp_R P in let D := gp_D P in
  let g := gp_n P in
  overlap_input c n mem L R D (gp_MG P) (gp_NG P) /\ stored_once c /\
  (forall i, (i < length mem)%nat -> NoDup (gp_NB P i) /\ forall j, In j (gp_NB P i) <-> adjacent c (length mem) L i j) /\
  (forall q, (q < n)%nat -> pt_subset (NL g q) R /\ (forall e, In e (D q) -> pt_in (NL g q) (e_point e)) /\
     StronglySorted (fun p p' => rindex ColMajor (NL g q) p < rindex ColMajor (NL g q) p') (map e_point (D q))) /\
  (forall q p, (q < n)%nat -> pt_in (NL g q) p -> donor g q p = gp_m P -> rm g q p = true /\ In p (map e_point (D q))) /\
  (forall r, (r < n)%nat -> Z.of_nat (length (gp_M P r)) <= 2 ^ 31 /\ Z.of_nat (length (gp_N P r)) <= 2 ^ 31) /\
  (exists S, computes n (overlap_fill c mem L R sort) (fun r => OS0 (D r) (gp_MG P r) (gp_NG P r)) S /\
     forall r, (r < n)%nat -> gp_M P r = o_m (S r) /\ gp_N P r = o_n (S r)) /\
  (exists S, computes n (conn_fill c n mem (fun i => map (fun q => (q, L q)) (gp_NB P i)) R sort' (gp_M P) (gp_N P) (NL g) (donor g) (rm g) (gp_m P) dp dc)
       (start_fill (gp_M P) (gp_N P) (donor g) (gp_m P)) S /\
     forall r, (r < n)%nat -> gp_dons P r = h_donors (f_h (S r)) /\ gp_recv P r = f_n (S r)).

(** The place of a cell and of coordinates in it, in the index space of the grid. *)
Definition place (nd : nat) (e : entry) (d : nat) : R :=
  if Nat.ltb d nd then (IZR (tget (e_cell e) d) + Q2R (tget (e_coords e) d))%R else IZR (tget (e_cell e) d).
(** The coordinates of the donors. *)
Definition donor_coords (P : pair) (i : nat) (j : Z) (d : nat) : R :=
  match nth_error (gp_mem P) i with
  | Some r => match vread (gp_dons P r) j with Some x => Q2R (tget (dr_coords x) d) | None => 0%R end
  | None => 0%R
  end.
(** An affine function of the first nd coordinates. *)
Definition affine (nd : nat) (a : nat -> R) (b : R) (x : tup Q) : R :=
  fold_right (fun d s => (a d * Q2R (tget x d) + s)%R) b (seq 0 nd).
