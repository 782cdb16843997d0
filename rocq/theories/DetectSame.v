(** The result of the detection does not depend on the decomposition; curvilinear grids. *)
From Coq Require Import List ZArith Bool QArith Qabs Qminmax Lia Lqa Psatz Sorting.Sorted.
From Verif Require Import TupleModel RangeModel Base RangeProof CartModel CartProof DecompModel DecompProof IndexerModel ArrayModel HashModel HashProof HashSpec.
From Verif Require Import NeighSpec NeighProof CellModel CellSpec CellProof GeomModel GeomSpec GeomProof GeomVolume GeomNewton GeomLattice AccelModel AccelSpec AccelProof FragModel FragSpec FragProof DetectModel DetectSpec DetectProof DetectGeo.
From Verif Require BoxModel BoxProof.
Import ListNotations.
Local Open Scope Q_scope.

Lemma cand_fun g c n L stop depth active X O Y tol p cell u v : decomposed c n L ->
  cand g c n L stop depth active X O Y tol p cell u -> cand g c n L stop depth active X O Y tol p cell v -> u = v.
Proof.
  intros HD (_ & r & f & Hr & Hf & Hc & _ & T) (_ & r' & f' & Hr' & Hf' & Hc' & _ & T').
  destruct (frag_unique c n L stop depth active HD r f r' f' cell Hr Hf Hc Hr' Hf' Hc') as [<- <-]. congruence.
Qed.

(** What [detect_ok] says determines the entries. *)
Definition best_entries rnd nd (cells loc : range) (nactive : tup Z -> bool) (K : tup Z -> tup Z -> tup Q -> Prop) (es : list entry) : Prop :=
  (forall p, In p (map e_point es) <-> pt_in loc p /\ nactive p = true /\ exists cell u, K p cell u) /\
  (forall e, In e es -> K (e_point e) (e_cell e) (e_coords e)) /\
  (forall e cell u, In e es -> K (e_point e) cell u ->
    better_cell rnd nd (e_coords e) u (rindex ColMajor cells (e_cell e)) (rindex ColMajor cells cell) = false).

Lemma best_same rnd nd cells loc loc' nactive K K' es es' : best_entries rnd nd cells loc nactive K es -> best_entries rnd nd cells loc' nactive K' es' ->
  (forall p cell u, K p cell u <-> K' p cell u) -> (forall p cell u, K p cell u -> pt_in cells cell) -> (forall p cell u v, K p cell u -> K p cell v -> u = v) ->
  forall e, pt_in loc (e_point e) -> pt_in loc' (e_point e) -> In e es -> In e es'.
Proof.
  intros (A1 & A2 & A3) (B1 & B2 & B3) HK HC HF e P P' He.
  pose proof (A2 e He) as Ke. assert (M : In (e_point e) (map e_point es')).
  { apply B1. split; [exact P'|]. split; [apply A1; apply in_map; exact He|]. exists (e_cell e), (e_coords e). apply HK, Ke. }
  apply in_map_iff in M as (e' & E & He'). pose proof (B2 e' He') as Ke'. rewrite E in Ke'. apply HK in Ke'.
  pose proof (A3 e _ _ He Ke') as C1. assert (C2 := B3 e' (e_cell e) (e_coords e) He'). rewrite E in C2. specialize (C2 (proj1 (HK _ _ _) Ke)).
  pose proof (better_antisym rnd nd _ _ _ _ C1 C2) as I. apply rindex_inj in I; [|apply (HC _ _ _ Ke)|apply (HC _ _ _ Ke')].
  assert (e_coords e = e_coords e') by (apply (HF (e_point e) (e_cell e)); [exact Ke|rewrite I; exact Ke']).
  destruct e, e'. cbn in *. subst. exact He'.
Qed.

(** *** Stencils *)

Definition full_extents (c : cart) : range :=
  dims_range (c_nd c)
    (fun d => if tget (c_per c) d then tget (rb (c_range c)) d - 2 else tget (rb (c_range (cart_point_to_cell c))) d)%Z
    (fun d => if tget (c_per c) d then tget (re (c_range c)) d + 3 else tget (re (c_range (cart_point_to_cell c))) d + 1)%Z.

Lemma fragment_stencil c n L stop depth active r f cell : decomposed c n L -> (r < n)%nat -> In f (fragments c L stop depth active r) -> pt_in f cell ->
  roomy c (c_range (cart_point_to_cell c)) f -> same_stencil (c_nd c) (full_extents c) (fragment_extents c f) cell.
Proof.
  intros HD Hr Hf Hc R d Hd. destruct (frag_cells c n L stop depth active HD r f cell Hr Hf Hc) as [C _].
  pose proof (HNd c n L HD) as Hnd.
  assert (S : pt_subset f (c_range (cart_point_to_cell c))).
  { intros p Hp. apply (frag_cells c n L stop depth active HD r f p Hr Hf Hp). }
  assert (NE : (tget (rb (c_range (cart_point_to_cell c))) d <= tget (rb f) d /\ tget (re f) d <= tget (re (c_range (cart_point_to_cell c))) d /\ tget (rb f) d <= tget cell d < tget (re f) d)%Z).
  { assert (Hc' := Hc). rewrite pt_in_tget in Hc'.
    pose (lo := tset cell d (tget (rb f) d)). pose (hi := tset cell d (tget (re f) d - 1)%Z).
    assert (Plo : pt_in f lo). { rewrite pt_in_tget. intros e He. unfold lo. rewrite tget_tset by exact He. pose proof (Hc' e He). destruct (Nat.eqb_spec e d); [subst; lia|lia]. }
    assert (Phi : pt_in f hi). { rewrite pt_in_tget. intros e He. unfold hi. rewrite tget_tset by exact He. pose proof (Hc' e He). destruct (Nat.eqb_spec e d); [subst; lia|lia]. }
    apply S in Plo. apply S in Phi. rewrite pt_in_tget in Plo, Phi. specialize (Plo d Hd). specialize (Phi d Hd). unfold lo, hi in Plo, Phi.
    rewrite tget_tset, Nat.eqb_refl in Plo, Phi by exact Hd. pose proof (Hc' d Hd). lia. }
  unfold fragment_extents, range_cell_to_point_all, full_extents.
  match goal with |- context [dims_range ?m ?b ?e] => destruct (dims_range_get m b e d Hd) as [G1 G2] end.
  rewrite G1, G2. clear G1 G2.
  match goal with |- context [dims_range ?m ?b ?e] => destruct (dims_range_get m b e d Hd) as [G1 G2] end.
  rewrite G1, G2. clear G1 G2.
  assert (K : (tget (re (c_range (cart_point_to_cell c))) d <= tget (re (c_range c)) d /\ tget (rb (c_range (cart_point_to_cell c))) d = tget (rb (c_range c)) d)%Z \/ (c_nd c <= d)%nat).
  { destruct (Nat.ltb_spec d (c_nd c)) as [Hn|Hn]; [left|right; exact Hn]. unfold cart_point_to_cell. cbn [c_range].
    match goal with |- context [dims_range ?m ?b ?e] => destruct (dims_range_get m b e d Hd) as [G1 G2] end. rewrite G1, G2.
    destruct (Nat.ltb_spec d (c_nd c)); [|lia]. destruct (_ && _); lia. }
  destruct (Nat.ltb_spec d (c_nd c)) as [Hn|Hn].
  - unfold extend_local_range. cbn [rb re]. rewrite !tget_tmake by exact Hd. change (c_nd (cart_point_to_cell c)) with (c_nd c). change (c_per (cart_point_to_cell c)) with (c_per c).
    destruct (Nat.ltb_spec d (c_nd c)); [|lia]. cbn [andb]. specialize (R d Hn). destruct (tget (c_per c) d) eqn:P.
    + rewrite !orb_true_r. destruct K as [K|K]; [|lia]. lia.
    + rewrite !orb_false_r. destruct (R eq_refl) as [R1 R2]. destruct K as [K|K]; [|lia].
      destruct (Z.eqb_spec (tget (rb f) d) (tget (rb (c_range (cart_point_to_cell c))) d)) as [E1|E1], (Z.eqb_spec (tget (re f) d) (tget (re (c_range (cart_point_to_cell c))) d)) as [E2|E2]; cbn [negb]; lia.
  - apply (cell_zero c cell C d). lia.
Qed.

(** ** Independence of the decomposition *)
Lemma detect_independent rnd g c n L stop depth active X O maxtol leaf scale levels loc nactive Y tol
  n' L' stop' depth' O' maxtol' leaf' scale' levels' loc' :
  rounding rnd -> (forall q, 0 < q -> 0 < rnd q) -> decomposed c n L -> decomposed c n' L' ->
  0 <= tol <= maxtol -> 0 <= tol <= maxtol' -> (forall r f, 0 < scale r f) -> (forall r f, 0 < scale' r f) ->
  (forall p, planar (c_nd c) (X p)) -> (forall p, nactive p = true -> planar (c_nd c) (Y p)) ->
  (forall r f, upright (O r f)) -> (forall r f, upright (O' r f)) ->
  (forall cell, pt_in (c_range (cart_point_to_cell c)) cell -> active cell = true -> regular g (c_nd c) X cell /\ parallel (c_nd c) X cell) ->
  (forall r f, (r < n)%nat -> In f (fragments c L stop depth active r) -> roomy c (c_range (cart_point_to_cell c)) f) ->
  (forall r f, (r < n')%nat -> In f (fragments c L' stop' depth' active r) -> roomy c (c_range (cart_point_to_cell c)) f) ->
  exists es es', detect rnd g c n L stop depth active X O maxtol leaf scale levels loc nactive Y tol = Some es /\
    detect rnd g c n' L' stop' depth' active X O' maxtol' leaf' scale' levels' loc' nactive Y tol = Some es' /\
    forall e, pt_in loc (e_point e) -> pt_in loc' (e_point e) -> (In e es <-> In e es').
Proof.
  intros R1 R2 HD HD' HT HT' HS HS' HX HY HO HO' HC RF RF'.
  destruct (detect_ok rnd g c n L stop depth active X O maxtol leaf scale levels loc nactive Y tol R1 HD) as (es & E & _ & A).
  { apply (regular_built g c n L stop depth active X O maxtol leaf scale levels tol HD HT HS HO HC rnd R1 R2). }
  { exact (regular_boxed g c n L stop depth active X O maxtol leaf scale levels loc nactive Y tol HD HT HS HX (fun p _ => HY p) HO HC). }
  destruct (detect_ok rnd g c n' L' stop' depth' active X O' maxtol' leaf' scale' levels' loc' nactive Y tol R1 HD') as (es' & E' & _ & A').
  { apply (regular_built g c n' L' stop' depth' active X O' maxtol' leaf' scale' levels' tol HD' HT' HS' HO' HC rnd R1 R2). }
  { exact (regular_boxed g c n' L' stop' depth' active X O' maxtol' leaf' scale' levels' loc' nactive Y tol HD' HT' HS' HX (fun p _ => HY p) HO' HC). }
  exists es, es'. split; [exact E|]. split; [exact E'|].
  pose proof (HNd c n L HD) as Hnd.
  assert (K : forall n L stop depth O, decomposed c n L -> (forall r f, upright (O r f)) ->
    (forall r f, (r < n)%nat -> In f (fragments c L stop depth active r) -> roomy c (c_range (cart_point_to_cell c)) f) ->
    forall p cell u, cand g c n L stop depth active X O Y tol p cell u <->
    pt_in (c_range (cart_point_to_cell c)) cell /\ active cell = true /\
    let I := T3 (T3 1 0 0) (T3 0 1 0) (T3 0 0 1) in
    overlaps_cell g (c_nd c) (fun q => oriented I (X q)) tol cell (oriented I (Y p)) = true /\
    coords_in_cell g (c_nd c) (full_extents c) (fun q => oriented I (X q)) cell (oriented I (Y p)) = Some u).
  { clear - Hnd. intros n L stop depth O HD HO RF p cell u. split.
    - intros (A & r & f & Hr & Hf & Hc & T1 & T2). split; [apply (frag_cells c n L stop depth active HD r f cell Hr Hf Hc)|]. split; [exact A|].
      unfold fragment_coords in T1, T2. pose proof (HO r f) as EO. set (M := O r f) in *. clearbody M. unfold upright in EO. subst M. split; [exact T1|]. rewrite <- T2. symmetry.
      apply coords_same; [exact Hnd|apply (fragment_stencil c n L stop depth active r f cell HD Hr Hf Hc (RF r f Hr Hf))|reflexivity].
    - intros (C & A & T1 & T2). split; [exact A|].
      pose proof (cell_cart_subset c (Hdims c n L HD) cell C) as Hgr. destruct (L_owner c n L HD cell Hgr) as (r & Hr & Hl).
      destruct (fragments_ok c n L stop depth active HD r Hr) as (_ & F2 & _). destruct (F2 cell) as (f & If & Hf); [apply (own_cells c n L HD r cell Hr); auto|auto|].
      exists r, f. split; [exact Hr|]. split; [exact If|]. split; [exact Hf|]. unfold accepted, fragment_coords. pose proof (HO r f) as EO. set (M := O r f) in *. clearbody M. unfold upright in EO. subst M. split; [exact T1|].
      rewrite <- T2. apply coords_same; [exact Hnd|apply (fragment_stencil c n L stop depth active r f cell HD Hr If Hf (RF r f Hr If))|reflexivity]. }
  intros e P P'.
  pose proof (K n L stop depth O HD HO RF) as K1. pose proof (K n' L' stop' depth' O' HD' HO' RF') as K2.
  assert (KK : forall p cell u, cand g c n L stop depth active X O Y tol p cell u <-> cand g c n' L' stop' depth' active X O' Y tol p cell u) by (intros; rewrite K1, K2; tauto).
  split; intros He.
  - eapply (best_same rnd (c_nd c) (c_range (cart_point_to_cell c)) loc loc' nactive); [exact A|exact A'|exact KK| | |exact P|exact P'|exact He].
    + intros p cell u H. apply K1 in H. tauto.
    + intros p cell u v H H'. exact (cand_fun g c n L stop depth active X O Y tol p cell u v HD H H').
  - eapply (best_same rnd (c_nd c) (c_range (cart_point_to_cell c)) loc' loc nactive); [exact A'|exact A| | | |exact P'|exact P|exact He].
    + intros. symmetry. apply KK.
    + intros p cell u H. apply K2 in H. tauto.
    + intros p cell u v H H'. exact (cand_fun g c n' L' stop' depth' active X O' Y tol p cell u v HD' H H').
Qed.
