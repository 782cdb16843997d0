(** Occluded points: examples. *)
From Coq Require Import List ZArith QArith Bool Lia.
From Verif Require Import TupleModel RangeModel RangeProof CartModel CartProof NeighSpec OccModel OccSpec OccProof.
Import ListNotations.
Local Open Scope Z_scope.

(** Grids without periodic directions; [cell k p]: first vertex and size of the cell for p. *)
Definition flat (nd : nat) (n m : Z) : cart := mkC nd (mkR (T3 0 0 0) (T3 n m 1)) (T3 false false false) UNIQUE.
Definition found (carts : Z -> cart) (cell : Z * Z -> tup Z -> option (tup Z * tup Z)) (k : Z * Z) (p : tup Z) : option (list (tup Z)) :=
  match cell k p with
  | Some (b, s) => let vs := foreach_col (mkR b (tadd b s)) in
                   if rcontains (c_range (carts (snd k))) p && forallb (rcontains (c_range (carts (fst k)))) vs then Some vs else None
  | None => None
  end.
Definition build (grids : list Z) (carts : Z -> cart) (pairs : list (Z * Z)) (cell : Z * Z -> tup Z -> option (tup Z * tup Z))
    (cut : Z * Z -> mask) (interp : Z * Z -> tup Z -> Q) (vol : Z -> tup Z -> Q) (fringe active : Z -> mask) (occ : Z * Z -> occludes) (pad : Z * Z -> Z) (smooth : Z -> Z) : odata :=
  OD grids carts pairs (found carts cell)
    (fun k p => match found carts cell k p with Some _ => negb (cut k p) | None => false end) interp vol fringe active occ pad smooth.

Lemma flat_ok nd n m : 0 < n -> 0 < m -> cart_ok (flat nd n m) /\ stored_once (flat nd n m) /\ (forall d, (nd <= d < 3)%nat -> tget (c_per (flat nd n m)) d = false).
Proof.
  intros Hn Hm. split; [| split].
  - intros d Hd. unfold per_len, flat. destruct d as [| [| [| d]]]; cbn [c_range c_per c_stor rb re tget c0 c1 c2]; lia.
  - intros d Hd. unfold per_len, flat. destruct d as [| [| [| d]]]; cbn [c_range c_per c_stor rb re tget c0 c1 c2]; lia.
  - intros d Hd. destruct d as [| [| [| d]]]; reflexivity.
Qed.

Lemma build_ok grids carts pairs cell cut interp vol fringe active occ pad smooth :
  (forall g, exists nd n m, 0 < n /\ 0 < m /\ carts g = flat nd n m) -> NoDup pairs -> (forall k, In k pairs -> fst k <> snd k) ->
  (forall k, 0 <= pad k) -> (forall g, 0 <= smooth g) -> odata_ok (build grids carts pairs cell cut interp vol fringe active occ pad smooth).
Proof.
  intros Hc H1 H2 H3 H4. constructor; cbn; auto.
  - intro g. destruct (Hc g) as (nd & n & m & Hn & Hm & ->). apply flat_ok; assumption.
  - intros k p vs v H Hv. unfold found in H. destruct (cell k p) as [[b s] |]; [| discriminate].
    destruct (_ && _) eqn:E in H; [| discriminate]. injection H as <-. apply andb_true_iff in E. destruct E as [_ E].
    rewrite forallb_forall in E. apply rcontains_spec. apply E. exact Hv.
  - intros k p H E. rewrite E in H. discriminate.
Qed.

(** A grid with points (i,j), 0 <= i, j < 6, and a finer one, turned by 45 degrees, with points
    (3 + s + t, 10 + s - t) / 4, 0 <= s, t < 8.  The corner s = t = 0 lies in the cell from (0,2) to (1,3), none of whose vertices lies in
    the finer grid. *)
Definition dm_carts (g : Z) : cart := if g =? 1 then flat 2 6 6 else flat 2 8 8.
Definition dm_cell (k : Z * Z) (p : tup Z) : option (tup Z * tup Z) :=
  if fst k =? 1 then Some (T3 ((3 + c0 p + c1 p) / 4) ((10 + c0 p - c1 p) / 4) 0, T3 2 2 1)
  else let s := 4 * c0 p + 4 * c1 p - 13 in let t := 4 * c0 p - 4 * c1 p + 7 in Some (T3 (s / 2) (t / 2) 0, T3 2 2 1).
Definition dm_vol (g : Z) (p : tup Z) : Q := if g =? 1 then 1 else 1 # 8.
Definition dm_edge (g : Z) (p : tup Z) : bool := if g =? 2 then (c0 p =? 0) || (c0 p =? 7) || (c1 p =? 0) || (c1 p =? 7) else false.
Definition dm_pairs := [(1, 2); (2, 1)].
Definition diamond (occ : Z * Z -> occludes) (pad smooth : Z) : odata :=
  build [1; 2] dm_carts dm_pairs dm_cell (fun _ _ => false) (fun k => dm_vol (fst k)) dm_vol dm_edge (fun _ _ => true) occ (fun _ => pad) (fun _ => smooth).

Lemma dm_ok occ pad smooth : 0 <= pad -> 0 <= smooth -> odata_ok (diamond occ pad smooth).
Proof.
  intros Hp Hs. apply build_ok; auto.
  - intro g. unfold dm_carts. destruct (g =? 1); [exists 2%nat, 6, 6 | exists 2%nat, 8, 8]; repeat split; lia.
  - repeat constructor; cbn; intuition congruence.
  - intros k [<- | [<- | []]]; discriminate.
Qed.

Definition mutually (k : Z * Z) : occludes := O_COARSE.
(** Only the finer grid occludes. *)
Definition finer_only (k : Z * Z) : occludes := if fst k =? 2 then O_COARSE else O_NONE.

Definition points_of (c : cart) (m : mask) : list (Z * Z) := map (fun p => (c0 p, c1 p)) (filter m (foreach_col (c_range c))).
Definition masks_of (X : odata) (r : option (list (Z * mask))) : option (list (list (Z * Z))) :=
  option_map (map (fun e => points_of (od_cart X (fst e)) (snd e))) r.
Definition none : mask := fun _ => false.

(** A coarse cell with a fine grid inside. *)
Definition patch_cell (k : Z * Z) (p : tup Z) : option (tup Z * tup Z) := if fst k =? 1 then Some (T3 2 2 0, T3 2 2 1) else None.
Definition patch : odata :=
  build [1; 2] dm_carts [(1, 2)] patch_cell (fun _ _ => false) (fun k => dm_vol (fst k)) dm_vol dm_edge (fun _ _ => true) mutually (fun _ => 1) (fun _ => 0).
Lemma patch_ok : odata_ok patch.
Proof.
  apply build_ok; try (intros; lia).
  - intro g. unfold dm_carts. destruct (g =? 1); [exists 2%nat, 6, 6 | exists 2%nat, 8, 8]; repeat split; lia.
  - repeat constructor; cbn; intuition congruence.
  - intros k [<- | []]; discriminate.
Qed.

(** Two lines of points, one shifted by half a point; two points of the first are inactive, and the
    point of the second between them is not overlapped. *)
Definition ln_carts (g : Z) : cart := if g =? 1 then flat 1 10 1 else flat 1 9 1.
Definition ln_cell (k : Z * Z) (p : tup Z) : option (tup Z * tup Z) := if fst k =? 1 then Some (p, T3 2 1 1) else Some (tsub p (T3 1 0 0), T3 2 1 1).
Definition ln_active (g : Z) (p : tup Z) : bool := negb ((g =? 1) && ((c0 p =? 4) || (c0 p =? 5))).
Definition line : odata :=
  build [1; 2] ln_carts dm_pairs ln_cell (fun k p => if snd k =? 2 then (3 <=? c0 p) && (c0 p <=? 5) else (c0 p =? 4) || (c0 p =? 5))
    (fun _ _ => 1%Q) (fun _ _ => 1%Q) (fun _ _ => false) ln_active mutually (fun _ => 0) (fun _ => 2).
Lemma line_ok : odata_ok line.
Proof.
  apply build_ok; try (intros; lia).
  - intro g. unfold ln_carts. destruct (g =? 1); [exists 1%nat, 10, 1 | exists 1%nat, 9, 1]; repeat split; lia.
  - repeat constructor; cbn; intuition congruence.
  - intros k [<- | [<- | []]]; discriminate.
Qed.

(** Three grids with the same points, each of which occludes the next. *)
Definition cy_cell (k : Z * Z) (p : tup Z) : option (tup Z * tup Z) := Some (T3 (Z.min (c0 p) 4) (Z.min (c1 p) 4) 0, T3 2 2 1).
Definition cy_pairs := [(1, 2); (1, 3); (2, 1); (2, 3); (3, 1); (3, 2)].
Definition cy_occ (k : Z * Z) : occludes := if pair_eqb k (1, 2) || pair_eqb k (2, 3) || pair_eqb k (3, 1) then O_ALL else O_NONE.
Definition cycle : odata :=
  build [1; 2; 3] (fun _ => flat 2 6 6) cy_pairs cy_cell (fun _ _ => false) (fun _ _ => 1%Q) (fun _ _ => 1%Q) (fun _ _ => false) (fun _ _ => true) cy_occ (fun _ => 0) (fun _ => 0).
Lemma cycle_ok : odata_ok cycle.
Proof.
  apply build_ok; try (intros; lia).
  - intro g. exists 2%nat, 6, 6. repeat split; lia.
  - repeat constructor; cbn; intuition congruence.
  - intros k H. repeat (destruct H as [<- | H]; [discriminate |]). destruct H.
Qed.


Lemma mask_at X junk g p : (match detect_occluded X junk with
    | Some r => match find (fun e => fst e =? g) r with Some e => snd e p | None => false end | None => false end) = true ->
  exists r m, detect_occluded X junk = Some r /\ In (g, m) r /\ m p = true.
Proof.
  destruct (detect_occluded X junk) as [r |]; [| discriminate]. destruct (find _ r) as [[g' m] |] eqn:E; [| discriminate].
  intro H. exists r, m. split; [reflexivity |]. apply find_some in E. destruct E as [E1 E2]. cbn in E2. apply Z.eqb_eq in E2. subst g'. auto.
Qed.

Lemma dm_corner : exists r m, detect_occluded (diamond mutually 0 0) none = Some r /\ In (2, m) r /\ m (T3 0 0 0) = true.
Proof. apply mask_at. vm_compute. reflexivity. Qed.

Lemma line_hole : exists r m, detect_occluded line none = Some r /\ In (2, m) r /\ m (T3 4 0 0) = true.
Proof. apply mask_at. vm_compute. reflexivity. Qed.

Lemma cycle_all : exists r, detect_occluded cycle none = Some r /\ forall g m p, In (g, m) r -> pt_in (c_range (od_cart cycle g)) p -> m p = true.
Proof.
  assert (H : (match detect_occluded cycle none with
    | Some r => forallb (fun e => forallb (snd e) (foreach_col (c_range (od_cart cycle (fst e))))) r | None => false end) = true) by (vm_compute; reflexivity).
  destruct (detect_occluded cycle none) as [r |]; [| discriminate]. exists r. split; [reflexivity |]. intros g m p Hg Hp.
  rewrite forallb_forall in H. specialize (H (g, m) Hg). cbn [fst snd] in H. rewrite forallb_forall in H. apply H. apply foreach_col_In. exact Hp.
Qed.

Lemma patch_fails : detect_occluded patch none = None.
Proof. vm_compute. reflexivity. Qed.

Lemma dm_result : odata_ok (diamond finer_only 0 0) /\ masks_of (diamond finer_only 0 0) (detect_occluded (diamond finer_only 0 0) none) = Some [[(2, 2); (3, 2); (2, 3); (3, 3)]; []].
Proof. split; [apply dm_ok; lia | vm_compute; reflexivity]. Qed.

Lemma line_result : odata_ok line /\ masks_of line (detect_occluded line none) = Some [[]; map (fun i => (i, 0)) [0; 1; 2; 3; 4; 5; 6; 7; 8]] /\
  masks_of line (detect_occluded (unsmoothed line) none) = Some [[]; map (fun i => (i, 0)) [0; 1; 2; 6; 7; 8]].
Proof. split; [exact line_ok |]. split; vm_compute; reflexivity. Qed.

Lemma dm_finer : odata_ok (diamond mutually 0 0) /\ (forall k, occluding (diamond mutually 0 0) k -> od_occludes (diamond mutually 0 0) k = O_COARSE) /\
  (exists r m, detect_occluded (diamond mutually 0 0) none = Some r /\ In (2, m) r /\ m (T3 0 0 0) = true) /\
  (forall k, occluding (diamond mutually 0 0) (k, 2) -> Qlt (od_volume (diamond mutually 0 0) 2 (T3 0 0 0)) (od_interp (diamond mutually 0 0) (k, 2) (T3 0 0 0))).
Proof.
  split; [apply dm_ok; lia |]. split; [reflexivity |]. split; [exact dm_corner |].
  intros k [[H | [H | []]] _]; [injection H as <-; reflexivity | discriminate].
Qed.

Lemma line_inactive : forall k, occluding line (k, 2) -> od_overlap line (k, 2) (T3 4 0 0) = false /\ on_cell line (k, 2) (T3 4 0 0) (fun v => od_active line k v = false).
Proof.
  intros k [[H | [H | []]] _]; [injection H as <- | discriminate]. split; [reflexivity |].
  exists [T3 4 0 0; T3 5 0 0]. split; [vm_compute; reflexivity |]. intros v [<- | [<- | []]]; reflexivity.
Qed.

Lemma cycle_refuted : exists X junk r, odata_ok X /\ (forall g p, od_active X g p = true) /\ od_grids X <> [] /\ detect_occluded X junk = Some r /\
  forall g m p, In (g, m) r -> pt_in (c_range (od_cart X g)) p -> m p = true.
Proof. destruct cycle_all as (r & E & H). exists cycle, none, r. split; [exact cycle_ok |]. split; [reflexivity |]. split; [discriminate |]. auto. Qed.
