(** A whole assembly: proofs about the masks of one grid. *)
From Coq Require Import List ZArith Bool Lia.
From Verif Require Import TupleModel RangeModel Base RangeProof DRangeProof CartModel CartProof DecompModel DecompProof IndexerModel ArrayModel HashModel.
From Verif Require Import NetModel NeighModel NeighSpec HaloModel FieldModel FieldSpec FieldProof EdgeProof ExtProof AsmModel AsmSpec AsmGeom AsmPhase AsmProof DonorProof.
From Verif Require Import OccModel OccProof HoleModel HoleProof DomModel DomSpec.
Import ListNotations.
Local Open Scope Z_scope.

(** ** Fields *)

Lemma value_each {A} (d : A) c f p : pt_in (c_range c) p -> value d c (each c f) p = f p.
Proof. intros Hp. unfold value, each. rewrite (proj2 (rcontains_spec _ _) Hp), (vread_points f _ p Hp). reflexivity. Qed.

Lemma value_out {A} (d : A) c l p : ~ pt_in (c_range c) p -> value d c l p = d.
Proof. intros Hp. unfold value. destruct (rcontains (c_range c) p) eqn:E; [|reflexivity]. apply rcontains_spec in E. contradiction. Qed.

(** ** A grid *)

Section Grid.
Variable c : cart.
Hypothesis G : grid_ok c.
Notation dom u := (pt_in (c_range c) u).
Notation c' := (cart_include_exterior c).

Lemma g_cart : cart_ok c. Proof. apply G. Qed.
Lemma g_once : stored_once c. Proof. apply G. Qed.
Lemma g_nd : (c_nd c <= 3)%nat. Proof. apply G. Qed.
Lemma g_per d : (c_nd c <= d < 3)%nat -> tget (c_per c) d = false. Proof. apply G. Qed.

Definition whole_E : range := mkR (tmake (fun d => if tget (c_per c) d then tget (rb (c_range c)) d - 1 else tget (rb (c_range c)) d))
                                  (tmake (fun d => if tget (c_per c) d then tget (re (c_range c)) d + 1 else tget (re (c_range c)) d)).

Lemma whole : exists N H, partitioned c 1 (fun _ => c_range c) (fun _ => whole_E) N H.
Proof.
  destruct G as (G1 & G2 & G3 & G4 & G5).
  assert (D : decomposed c 1 (fun _ => c_range c)).
  { split; [exact G1|]. split; [lia|]. split; [exact G2|]. split; [intros d Hd; apply (G5 d Hd)|]. split; [intros d Hd; apply (G5 d Hd)|]. split.
    - split; [|split].
      + intros i s H. destruct i as [|[|i]]; cbn in H; try discriminate. injection H as <-. intros p Hp. exact Hp.
      + intros p Hp. exists 0%nat, (c_range c). auto.
      + intros i j s t p Hi Hj _ _. destruct i as [|[|i]], j as [|[|j]]; cbn in *; congruence.
    - intros r _. apply rempty_false, pt_in_d. intros d Hd. pose proof (G4 d Hd). lia. }
  eexists _, _. apply (nb_partitioned c 1 (fun _ => c_range c) (fun _ => whole_E) D G3).
  intros r _. split.
  - intros d Hd. unfold whole_E. cbn [rb re]. rewrite !tget_tmake by lia. destruct (G5 d Hd) as (-> & _). auto.
  - intros d Hd Hn. unfold whole_E, continues_below, continues_above. cbn [rb re]. rewrite !tget_tmake by lia.
    destruct (tget (c_per c) d); repeat split; try lia; intros; try lia; exfalso; try tauto; lia.
Qed.

(** The domain with its exterior points. *)
Lemma c'_cart : cart_ok c'.
Proof.
  destruct whole as (N & H & P). intros d Hd. pose proof (c'_once c _ _ _ _ _ P d Hd) as E. rewrite E.
  destruct G as (_ & _ & _ & G4 & _). pose proof (G4 d Hd). destruct (le_lt_dec (c_nd c) d) as [L|L].
  - destruct (c'_get0 c d Hd L). lia.
  - destruct (c'_get c d Hd L) as [(_ & A & B)|(_ & A & B)]; lia.
Qed.

Lemma dom_c' u : dom u -> pt_in (c_range c') u.
Proof.
  intros Hu. apply pt_in_d. intros d Hd. pose proof (proj1 (pt_in_d _ _) Hu d Hd). destruct (le_lt_dec (c_nd c) d) as [L|L].
  - destruct (c'_get0 c d Hd L) as [-> ->]. destruct G as (_ & _ & _ & _ & G5). destruct (G5 d ltac:(lia)). lia.
  - destruct (c'_get c d Hd L) as [(_ & -> & ->)|(_ & -> & ->)]; lia.
Qed.

Lemma c'_wrap q : pt_in (c_range c') q -> wrap c q = q.
Proof.
  intros Hq. apply tup_ext. intros d Hd. unfold wrap. rewrite tget_tmake by exact Hd. destruct (tget (c_per c) d) eqn:E; [|reflexivity].
  assert (L : (d < c_nd c)%nat) by (destruct (le_lt_dec (c_nd c) d) as [L|L]; [rewrite (g_per d) in E by lia; discriminate|exact L]).
  pose proof (proj1 (pt_in_d _ _) Hq d Hd) as B. destruct (c'_get c d Hd L) as [(_ & E1 & E2)|(E0 & _)]; [|congruence]. rewrite E1, E2 in B.
  rewrite (g_once d Hd), Z.mod_small by lia. lia.
Qed.

Lemma exterior_ok m q : pt_in (c_range c') q -> edge_exterior c m q = true <-> is_edge c BC_FALSE m OUTER q.
Proof.
  intros Hq. destruct whole as (N & H & P). unfold edge_exterior, is_edge. rewrite andb_true_iff, negb_true_iff, existsb_exists.
  assert (E : continued c BC_FALSE m q = rcontains (c_range c) q && m q) by (unfold continued; rewrite (c'_wrap q Hq); destruct (rcontains _ q); reflexivity).
  rewrite E. cbn [negb]. split; intros [A B]; (split; [exact A|]).
  - destruct B as (v & Hv & Mv). destruct (near_pt c 1 q v) eqn:Nv; [|discriminate]. apply foreach_col_In in Hv.
    apply (near_pt_ok c g_cart g_per 1 q v ltac:(lia)) in Nv as (w & Iw & Aw). exists w. split; [exact Aw|].
    rewrite (continued_image_in c _ _ _ _ _ P BC_FALSE m v w Hv Iw). exact Mv.
  - destruct B as (w & Aw & Cw). destruct (continued_true c _ _ _ _ _ P m w Cw) as (v & Hv & Iv & Mv). exists v.
    split; [apply foreach_col_In, Hv|]. rewrite (proj2 (near_pt_ok c g_cart g_per 1 q v ltac:(lia))); [exact Mv|]. exists w. auto.
Qed.

(** The outer fringe. *)
Definition fringe_cover (act bnd : mask) : mask :=
  let e_act := array_of c' (edge_exterior c act) in
  let e_in := array_of c' (edge_exterior c (fun p => act p && negb (bnd p))) in
  let e_bnd := array_of c' (edge_exterior c bnd) in
  array_of c' (fun q => e_act q && (e_in q || negb (e_bnd q))).

Lemma bool_iff (a b : bool) : (a = true <-> b = true) -> a = b.
Proof. destruct a, b; intros H; try reflexivity; [symmetry|]; apply H; reflexivity. Qed.

Lemma fringe_cover_ok act bnd q : pt_in (c_range c') q -> fringe_cover act bnd q = AsmGeom.cover c act bnd q.
Proof.
  intros Hq. unfold fringe_cover, AsmGeom.cover. rewrite !array_ok by exact Hq.
  assert (E : forall m, edge_exterior c m q = edgeb c m BC_FALSE OUTER q).
  { intros m. apply bool_iff. rewrite (exterior_ok m q Hq). symmetry. apply edgeb_spec. intros d Hd.
    pose proof (proj1 (pt_in_d _ _) Hq d ltac:(lia)). destruct (c'_get0 c d ltac:(lia) ltac:(lia)). lia. }
  rewrite !E. reflexivity.
Qed.

Lemma outer_spec fringe act bnd u : 0 <= fringe -> dom u -> (forall x, dom x -> bnd x = true -> act x = true) ->
  (if fringe =? 0 then false else act u && dilate c' fringe (fringe_cover act bnd) u) = true <->
  act u = true /\ exists q, apart (c_nd c) fringe u q /\ opening c act bnd q.
Proof.
  intros Hf Hu BA. destruct whole as (N & H & P). destruct (Z.eqb_spec fringe 0) as [->|Nz].
  - split; [discriminate|]. intros (A & q & Aq & O & _). exfalso. assert (u = q).
    { apply tup_ext. intros d Hd. specialize (Aq d Hd). destruct (Nat.ltb d (c_nd c)); lia. }
    subst q. rewrite (continued_self c g_once g_nd g_per) in O by exact Hu. congruence.
  - rewrite andb_true_iff. pose proof (c'_once c _ _ _ _ _ P) as O'.
    rewrite (dilate_ok c' c'_cart O' g_per fringe _ u Hf (dom_c' u Hu)). rewrite <- (cover_reached c _ _ _ _ _ P act bnd BA fringe u). unfold reached.
    split; intros [A B]; (split; [exact A|]).
    + destruct B as (v & Hv & Mv & v' & Iv & Av). left. exists v, v'. rewrite fringe_cover_ok in Mv by exact Hv. auto.
    + destruct B as [(v & v' & Hv & Iv & Av & Mv)|[B _]]; [|discriminate]. exists v. rewrite fringe_cover_ok by exact Hv. split; [exact Hv|]. split; [exact Mv|]. exists v'. auto.
Qed.

(** The distances. *)
Lemma reached_dilate e i u : 0 <= i -> dom u -> reached c BC_FALSE e true i u <-> dilate c i e u = true.
Proof.
  intros Hi Hu. rewrite (dilate_ok c g_cart g_once g_per i e u Hi Hu). unfold reached. split.
  - intros [(v & v' & Hv & Iv & Av & Mv)|[B _]]; [|discriminate]. exists v. split; [exact Hv|]. split; [exact Mv|]. exists v'. auto.
  - intros (v & Hv & Mv & v' & Iv & Av). left. exists v, v'. auto.
Qed.

Lemma measure_ok recv e mx : 1 <= mx -> forall rounds j cover dist, 0 <= j -> mx = j + Z.of_nat rounds ->
  (forall u, dom u -> cover u = dilate c j e u) -> measured c mx recv e j (value 0 c dist) ->
  measured c mx recv e mx (value 0 c (measure c recv mx rounds j cover dist)).
Proof.
  intros Hmx. induction rounds as [|r IH]; intros j cover dist Hj Em Hc HM.
  - cbn [measure]. assert (E : mx = j) by lia. clear Em. subst mx. exact HM.
  - cbn [measure]. apply IH; [lia|lia| |].
    + intros u Hu. rewrite array_ok by exact Hu. apply (dilate_again c g_cart g_once g_nd g_per j e cover u Hj Hu). exact Hc.
    + intros u Hu. rewrite value_each by exact Hu. destruct (HM u Hu) as [[E Nr]|(i & Hi & Ri & Fi & Ei)].
      * rewrite E, Z.eqb_refl. cbn [andb]. rewrite (Hc u Hu). destruct (dilate c j e u) eqn:D.
        -- right. exists j. split; [lia|]. apply (reached_dilate e j u Hj Hu) in D. split; [exact D|]. split; [|reflexivity]. intros i' Hi'. apply Nr. lia.
        -- left. split; [reflexivity|]. intros i Hi Q. destruct (Z.eq_dec i j) as [->|]; [apply (reached_dilate e j u Hj Hu) in Q; congruence|]. apply (Nr i); [lia|exact Q].
      * right. exists i. split; [lia|]. split; [exact Ri|]. split; [exact Fi|]. rewrite Ei. destruct (Z.eqb_spec (if recv u then - i else i) mx) as [Q|Q]; [|reflexivity].
        exfalso. destruct (recv u); lia.
Qed.

Lemma measured_all recv mx : 1 <= mx ->
  measured c mx recv (edgeb c recv BC_FALSE INNER) mx
    (value 0 c (measure c recv mx (Z.to_nat mx) 0 (array_of c (inner_edge c recv)) (each c (fun _ => mx)))).
Proof.
  intros Hmx. destruct whole as (N & H & P). apply measure_ok; [exact Hmx|lia|lia| |].
  - intros u Hu. rewrite array_ok by exact Hu. unfold dilate. cbn [Z.eqb]. apply bool_iff.
    rewrite (inner_ok c g_cart g_once g_nd g_per recv u Hu). symmetry. apply edgeb_spec. apply (dom_dims c _ _ _ _ _ P u Hu).
  - intros u Hu. left. rewrite value_each by exact Hu. split; [reflexivity|]. intros i Hi. lia.
Qed.

Lemma outer_ext fringe fl v f f' u : (forall u, dom u -> f' u = f u) -> outer c fringe fl v f' u <-> outer c fringe fl v f u.
Proof.
  intros Ef. assert (Bd : forall u, dom u -> boundary f' u = boundary f u) by (intros x Hx; unfold boundary, AsmSpec.flag; rewrite (Ef x Hx); reflexivity).
  unfold outer. split; intros [A (q & w & A1 & A2 & A3 & A4)]; (split; [exact A|]); exists q, w; (split; [exact A1|]); (split; [exact A2|]); (split; [exact A3|]);
    rewrite <- A4; apply (continued_ext c); intros x Hx; rewrite (Bd x Hx); reflexivity.
Qed.

(** What an outcome says depends on the points of the grid only. *)
Lemma outcome_ext infer fringe fl v f f' max d d' : (forall u, dom u -> f' u = f u) -> (forall u, dom u -> d' u = d u) ->
  outcome c infer fringe fl v f max d -> outcome c infer fringe fl v f' max d'.
Proof.
  intros Ef Ed (O1 & O2 & O3 & O4 & O5 & O6 & O7).
  assert (Fk : forall k u, dom u -> AsmSpec.flag k f' u = AsmSpec.flag k f u) by (intros k u Hu; unfold AsmSpec.flag; rewrite (Ef u Hu); reflexivity).
  assert (Bd : forall u, dom u -> boundary f' u = boundary f u) by (intros u Hu; unfold boundary; rewrite !Fk by exact Hu; reflexivity).
  assert (Oe : forall u, dom u -> outer c fringe fl v f' u <-> outer c fringe fl v f u).
  { intros u Hu. unfold outer. split; intros [A (q & w & A1 & A2 & A3 & A4)]; (split; [exact A|]); exists q, w; (split; [exact A1|]); (split; [exact A2|]); (split; [exact A3|]);
      rewrite <- A4; apply (continued_ext c); intros x Hx; rewrite (Bd x Hx); reflexivity. }
  assert (Ee : forall k u, edge_within c f' k u <-> edge_within c f k u).
  { intros k u. unfold edge_within. split; intros (x & Hx & W & M); exists x; (split; [exact Hx|]); (split; [exact W|]);
      revert M; apply (is_edge_ext c); intros y Hy; rewrite (Fk _ y Hy); reflexivity. }
  split; [|split; [|split; [|split; [|split; [|split]]]]].
  - intros u k Hu Hk. rewrite (Fk k u Hu). apply O1; assumption.
  - intros u Hu. rewrite !Fk by exact Hu. apply O2, Hu.
  - intros u Hu. rewrite !Fk by exact Hu. apply O3, Hu.
  - intros u Hu. rewrite !Fk by exact Hu. rewrite (Oe u Hu). apply O4, Hu.
  - intros u Hu. rewrite !Fk by exact Hu. destruct (O5 u Hu) as (A & B & C & D). split; [exact A|]. split; [exact B|]. split; [exact C|].
    rewrite D. split; intros [P1 (x & Hx & W & M)]; (split; [exact P1|]); exists x; (split; [exact Hx|]); (split; [exact W|]); first [rewrite (Fk _ x Hx); exact M|rewrite <- (Fk _ x Hx); exact M].
  - intros u Hu. rewrite !Fk by exact Hu. apply O6, Hu.
  - intros u Hu. destruct (O7 u Hu) as [A B]. rewrite (Ed u Hu), (Fk _ u Hu). split.
    + intros k Hk E1 E2. apply A; [exact Hk|apply Ee, E1|]. intros j Hj Q. apply (E2 j Hj), Ee, Q.
    + intros Q. apply B. intros k Hk E1. apply (Q k Hk), Ee, E1.
Qed.
End Grid.
