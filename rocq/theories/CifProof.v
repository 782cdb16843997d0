(** Proofs about the arrays of connectivities and overlaps and their C interface (C102). *)
From Coq Require Import List ZArith Bool QArith Lia.
From Verif Require Import RangeModel IndexerModel ArrayModel FRefModel Base IndexerProof ArrayProof CifModel CifSpec.
Import ListNotations.
Local Open Scope Z_scope.

Lemma cfield_eqb_spec f g : reflect (f = g) (cfield_eqb f g).
Proof. destruct f, g; cbn; constructor; congruence. Qed.

Lemma updf_same {A} (h : cfield -> A) f x : updf h f x f = x.
Proof. unfold updf; destruct (cfield_eqb_spec f f); congruence. Qed.
Lemma updf_other {A} (h : cfield -> A) f g x : f <> g -> updf h f x g = h g.
Proof. unfold updf; destruct (cfield_eqb_spec f g); congruence. Qed.

Lemma has_field_In k f : has_field k f = true <-> In f (cfields k).
Proof.
  unfold has_field; rewrite existsb_exists; split.
  - intros (g & H & E). destruct (cfield_eqb_spec f g); [subst; auto|discriminate].
  - intros H; exists f; split; auto. destruct (cfield_eqb_spec f f); congruence.
Qed.

Lemma cfor_In {A} a b (g : Z -> list A) x : In x (cfor a b g) <-> exists i, a <= i < b /\ In x (g i).
Proof.
  unfold cfor; rewrite in_flat_map; split; intros (i & H & K); exists i; split; auto.
  - apply zseq_In in H; lia.
  - apply zseq_In; lia.
Qed.

(** Rows of an array are contiguous. *)
Lemma row_contiguous L n r i : length r = length L ->
  to_index (row_ix (L ++ [(0, n)])) (r ++ [i]) = to_index (row_ix (L ++ [(0, n)])) (r ++ [0]) + i.
Proof.
  revert r; induction L as [|x L IH]; intros [|y r] H; cbn [length] in H; try discriminate.
  - cbn [app row_ix to_index stride_elem fst]. lia.
  - cbn [app row_ix to_index]. rewrite (IH r) by lia. lia.
Qed.

Lemma in_ext_app L r n i : length r = length L ->
  (in_ext (L ++ [(0, n)]) (r ++ [i]) <-> in_ext L r /\ 0 <= i < n).
Proof.
  unfold in_ext; revert r; induction L as [|x L IH]; intros [|y r] H; cbn [length] in H; try discriminate; cbn [app].
  - split.
    + intros K; inversion K; subst; cbn in *. split; [constructor|lia].
    + intros [_ K]; constructor; [cbn; lia|constructor].
  - split.
    + intros K; inversion K; subst. apply IH in H5; [|lia]. destruct H5; split; auto.
    + intros [K1 K2]; inversion K1; subst. constructor; auto. apply IH; auto.
Qed.

Lemma in_ext_row L t n : in_ext (L ++ [(0, n)]) t ->
  exists r i, t = r ++ [i] /\ length r = length L /\ in_ext L r /\ 0 <= i < n.
Proof.
  intros H. pose proof (in_ext_length _ _ H) as E. rewrite app_length in E; cbn in E.
  assert (N : t <> []) by (intros ->; cbn in E; lia).
  destruct (exists_last N) as (r & i & ->).
  rewrite app_length in E; cbn in E. assert (length r = length L) by lia.
  exists r, i. apply in_ext_app in H; auto.
Qed.

(** ** Writes *)

Lemma row_index_inj ext t u : in_ext ext t -> in_ext ext u ->
  to_index (row_ix ext) t = to_index (row_ix ext) u -> t = u.
Proof.
  intros Ht Hu E. pose proof (row_split_index ext t Ht) as A. pose proof (row_split_index ext u Hu) as B.
  rewrite E in A. congruence.
Qed.

Lemma vwrite_get (a : array value) t v : array_wf a -> in_ext (a_ext a) t ->
  exists l, vwrite (a_vals a) (to_index (indexer RowMajor (a_ext a)) t) v = Some l /\
    array_wf (mkA (a_ext a) l) /\
    forall u, in_ext (a_ext a) u -> aget RowMajor (mkA (a_ext a) l) u = if tuple_eqb u t then Some v else aget RowMajor a u.
Proof.
  intros W I. rewrite indexer_row. pose proof (row_index_bounds _ _ I) as B.
  destruct (vwrite_spec (a_vals a) (to_index (row_ix (a_ext a)) t) v) as (l & E & L & N).
  { unfold array_wf in W; lia. }
  exists l; split; [exact E|]. split; [unfold array_wf in *; cbn; lia|].
  intros u U. unfold aget; cbn [a_vals a_ext]. rewrite indexer_row, N. unfold tuple_eqb.
  destruct (list_eq_dec Z.eq_dec u t) as [->|D].
  - now rewrite Z.eqb_refl.
  - destruct (Z.eqb_spec (to_index (row_ix (a_ext a)) u) (to_index (row_ix (a_ext a)) t)) as [F|]; auto.
    destruct D; now apply (row_index_inj (a_ext a)).
Qed.

Lemma puts_ok (fv : cfield -> list Z -> value) (W : list (cfield * list Z * value)) arr :
  (forall f, array_wf (arr f)) ->
  (forall f t v, In (f, t, v) W -> in_ext (a_ext (arr f)) t /\ v = fv f t) ->
  exists arr', fold_left put_one W (Some arr) = Some arr' /\ (forall f, array_wf (arr' f)) /\
    (forall f, a_ext (arr' f) = a_ext (arr f)) /\
    (forall f t, in_ext (a_ext (arr f)) t -> (exists v, In (f, t, v) W) \/ aget RowMajor (arr f) t = Some (fv f t) ->
       aget RowMajor (arr' f) t = Some (fv f t)).
Proof.
  revert arr; induction W as [|[[f t] v] W IH]; intros arr Hw HW.
  - exists arr; repeat split; auto. intros f t _ [[v []]|H]; auto.
  - destruct (HW f t v (or_introl eq_refl)) as [I ->].
    destruct (vwrite_get (arr f) t (fv f t) (Hw f) I) as (l & E & Wl & G).
    cbn [fold_left put_one]. unfold aput. rewrite E. cbn [option_map].
    set (arr1 := updf arr f (mkA (a_ext (arr f)) l)).
    assert (X1 : forall g, a_ext (arr1 g) = a_ext (arr g)).
    { intros g; unfold arr1, updf; destruct (cfield_eqb_spec f g); subst; auto. }
    destruct (IH arr1) as (arr' & E' & W' & X' & G').
    { intros g; unfold arr1, updf; destruct (cfield_eqb_spec f g); subst; auto. }
    { intros g u w H; rewrite X1. apply HW; right; auto. }
    exists arr'; split; [exact E'|]. split; [exact W'|]. split; [intros g; rewrite X', X1; auto|].
    intros g u U H. apply G'; [rewrite X1; auto|].
    assert (K : (g = f /\ u = t) \/ (exists v, In (g, u, v) W) \/ aget RowMajor (arr g) u = Some (fv g u)).
    { destruct H as [[w [H|H]]|H]; [inversion H; subst; auto|right; left; eauto|auto]. }
    destruct K as [[-> ->]|[K|K]]; [right|left; auto|right].
    + unfold arr1; rewrite updf_same, G by auto. unfold tuple_eqb.
      destruct (list_eq_dec Z.eq_dec t t); congruence.
    + unfold arr1, updf. destruct (cfield_eqb_spec f g) as [->|]; auto.
      rewrite G by auto. unfold tuple_eqb. destruct (list_eq_dec Z.eq_dec u t); congruence.
Qed.

(** ** Resizing *)

Definition arr_ok (arr : cfield -> array value) : Prop :=
  forall f, array_wf (arr f) /\ length (a_ext (arr f)) = length (field_ext f 0 0).

Lemma field_ext_length f s n : length (field_ext f s n) = length (field_ext f 0 0).
Proof. destruct f; reflexivity. Qed.

Lemma resizes_ok n s L arr : arr_ok arr ->
  exists arr', fold_left (resize_one n s) L (Some arr) = Some arr' /\ arr_ok arr' /\
    forall f, (In f L \/ a_ext (arr f) = field_ext f s n) -> a_ext (arr' f) = field_ext f s n.
Proof.
  revert arr; induction L as [|g L IH]; intros arr H.
  - exists arr; repeat split; auto; try apply H. intros f [[]|E]; auto.
  - cbn [fold_left resize_one]. destruct (H g) as [W Lg].
    destruct (aresize_correct RowMajor (arr g) (field_ext g s n) (dvalue g) W) as (a & E & X & Wa & _).
    { rewrite Lg; apply field_ext_length. }
    rewrite E. destruct (IH (updf arr g a)) as (arr' & E' & K' & X').
    { intros f; unfold updf; destruct (cfield_eqb_spec g f) as [<-|]; auto. rewrite X. split; auto.
      apply field_ext_length. }
    exists arr'; split; [exact E'|]. split; [exact K'|].
    intros f F. apply X'. unfold updf. destruct (cfield_eqb_spec g f) as [<-|D]; [right; auto|].
    destruct F as [[F|F]|F]; [congruence|left; auto|right; auto].
Qed.

Definition cfg_ok (c : ccfg) : Prop := 0 <= cc_nd c <= 3.

Ltac inv_f2 := repeat match goal with
  | H : Forall2 _ (_ :: _) _ |- _ => inversion H; subst; clear H
  | H : Forall2 _ [] _ |- _ => inversion H; subst; clear H
  | H : in_ext _ _ |- _ => unfold in_ext in H
  end; cbn [fst snd] in *.

Ltac in_cases := repeat match goal with
  | H : In _ (_ ++ _) |- _ => apply in_app_iff in H; destruct H as [H|H]
  | H : In _ (cfor _ _ _) |- _ => apply cfor_In in H; destruct H as (? & ? & H)
  | H : In _ (_ :: _) |- _ => destruct H as [H|H]
  | H : In _ [] |- _ => destruct H
  | H : (_, _, _) = (_, _, _) |- _ => inversion H; subst; clear H
  end.

Ltac f2 := unfold in_ext, field_ext; cbn [lead_ext app]; repeat (apply Forall2_cons; [cbn [fst snd]; lia|]); apply Forall2_nil.

Lemma writes_valid c n s f t v : cfg_ok c -> 0 <= n -> (cc_kind c = ConnM -> 0 < s) -> In (f, t, v) (init_writes c n s) ->
  In f (cfields (cc_kind c)) /\ in_ext (field_ext f s n) t /\ v = fresh_value c f t.
Proof.
  unfold cfg_ok; intros C Hn Hs H. unfold init_writes in H. apply cfor_In in H; destruct H as (i & Hi & H).
  destruct (cc_kind c); try specialize (Hs eq_refl); in_cases;
  (split; [cbn [cfields In]; tauto|split; [f2|]]); cbn [fresh_value];
  repeat match goal with
  | |- context[?a <? ?b] => destruct (Z.ltb_spec a b); try lia
  | |- context[?a <=? ?b] => destruct (Z.leb_spec a b); try lia
  | |- context[?a =? ?b] => destruct (Z.eqb_spec a b); try lia
  end; cbn [andb]; auto; lia.
Qed.

Ltac in_for := apply cfor_In; eexists; split; [|first [left; reflexivity | right; left; reflexivity
  | right; apply cfor_In; eexists; split; [|left; reflexivity]; lia
  | apply cfor_In; eexists; split; [|left; reflexivity]; lia]]; lia.
Ltac in_search := first
  [ solve [in_for] | solve [left; reflexivity]
  | apply in_app_iff; left; solve [in_for] | apply in_app_iff; right; in_search ].

Lemma writes_cover c n s f t : cfg_ok c -> 0 <= n -> (cc_kind c = ConnM -> 0 < s) -> In f (cfields (cc_kind c)) ->
  in_ext (field_ext f s n) t -> In (f, t, fresh_value c f t) (init_writes c n s).
Proof.
  unfold cfg_ok; intros C Hn Hs F T. unfold init_writes.
  apply in_ext_row in T; destruct T as (r & i & -> & _ & R & Hi).
  apply cfor_In; exists i; split; [exact Hi|].
  destruct (cc_kind c); cbn [cfields In] in F;
    repeat match goal with H : _ \/ _ |- _ => destruct H as [H|H] end; try contradiction; subst f;
    cbn [lead_ext] in R; inv_f2; cbn [app fresh_value];
    repeat match goal with
    | |- context[?a <? ?b] => destruct (Z.ltb_spec a b)
    | |- context[?a <=? ?b] => destruct (Z.leb_spec a b)
    | |- context[?a =? ?b] => destruct (Z.eqb_spec a b)
    end; cbn [andb]; subst; try in_search.
  all: assert (Y : y = 0 \/ y = 1) by lia; destruct Y; subst y; in_search.
Qed.

(** ** The storage holds what the specification says *)

Definition agree (c : ccfg) (a : sside) (x : cside) : Prop :=
  ss_num a = cs_num x /\ ss_sten a = cs_sten x /\ arr_ok (cs_arr x) /\
  (cs_num x = 0 \/ forall f, In f (cfields (cc_kind c)) ->
     a_ext (cs_arr x f) = field_ext f (cs_sten x) (cs_num x) /\
     forall t, in_ext (field_ext f (cs_sten x) (cs_num x)) t -> aget RowMajor (cs_arr x f) t = Some (ss_val a f t)) /\
  (forall f, cs_cnt x f = Z.of_nat (ss_depth a f) /\ cs_act x f = Nat.ltb 0 (ss_depth a f)) /\
  ss_log a = cs_log x /\ 0 < cs_sten x /\ 0 <= cs_num x /\
  (forall v f lead, ss_var a v = Some (f, lead) ->
     has_field (cc_kind c) f = true /\ lead_ok f (cs_sten x) lead = true /\
     cs_var x v = Some (f, cs_gen x, map (ptr_offset (cs_arr x f)) (places f lead))).

Lemma agree0 c : agree c sside0 cside0.
Proof.
  unfold agree, sside0, cside0; cbn [ss_num ss_sten ss_val ss_depth ss_log ss_var cs_num cs_sten cs_arr cs_gen cs_cnt
    cs_act cs_log cs_var].
  split; [reflexivity|]. split; [reflexivity|]. split; [intros f; destruct f; split; reflexivity|].
  split; [left; reflexivity|]. split; [intros f; split; reflexivity|]. split; [reflexivity|].
  split; [lia|]. split; [lia|]. discriminate.
Qed.

Lemma lead_ok_ext f s lead : lead_ok f s lead = true <->
  econtains (lead_ext f s) (match f with FExtents => 0 :: lead | _ => lead end) = true.
Proof.
  destruct f; destruct lead as [|d [|p [|q r]]]; cbn [lead_ok lead_ext econtains];
    rewrite ?andb_true_r, ?andb_false_r, <- ?andb_assoc; try reflexivity; try tauto.
Qed.

Lemma rows_places f lead : places f lead = map (fun r => r ++ [0]) (rows f lead).
Proof. destruct f; reflexivity. Qed.

Lemma rows_in f s lead j r : lead_ok f s lead = true -> nth_error (rows f lead) j = Some r ->
  in_ext (lead_ext f s) r /\ length r = length (lead_ext f s).
Proof.
  intros H N. apply lead_ok_ext in H. apply econtains_spec in H.
  assert (K : in_ext (lead_ext f s) r).
  { destruct f; cbn [rows] in N; try (destruct j as [|[|j]]; cbn in N; inversion N; subst; exact H).
    destruct j as [|[|[|j]]]; cbn in N; inversion N; subst; [exact H|].
    unfold in_ext in *; inversion H; subst. constructor; [cbn; lia|auto]. }
  split; auto. now apply in_ext_length in K.
Qed.

Lemma tuple_eqb_refl t : tuple_eqb t t = true.
Proof. unfold tuple_eqb; destruct (list_eq_dec Z.eq_dec t t); congruence. Qed.

Lemma sten_lead_ok k f s s' lead : k <> ConnM -> has_field k f = true -> lead_ok f s lead = lead_ok f s' lead.
Proof. intros K H; destruct k; try congruence; destruct f; try discriminate; reflexivity. Qed.

Lemma forallb_inactive a x L : (forall f, cs_act x f = Nat.ltb 0 (ss_depth a f)) ->
  forallb (fun f => Nat.eqb (ss_depth a f) 0) L = forallb (fun f => negb (cs_act x f)) L.
Proof.
  intros H; induction L as [|f L IH]; cbn [forallb]; auto. rewrite IH, H. destruct (ss_depth a f); reflexivity.
Qed.

Lemma step_agree c a x o a' : cfg_ok c -> agree c a x -> sstep c a o = Some a' ->
  exists x', cstep c x o = Some x' /\ agree c a' x'.
Proof.
  intros C (En & Es & Ok & Arr & Cnt & Lg & Sp & Np & Var) S.
  destruct o as [n s|v f lead|v f lead|v j i y]; cbn [sstep cstep] in *.
  - destruct ((0 <=? n) && (0 <? s) && forallb (fun f => Nat.eqb (ss_depth a f) 0) (cfields (cc_kind c))) eqn:G;
      [|discriminate]. inversion S; subst a'; clear S.
    apply andb_true_iff in G; destruct G as [G G3]. apply andb_true_iff in G; destruct G as [G1 G2].
    rewrite (forallb_inactive a x) in G3 by (intros; apply Cnt). unfold c_resize.
    rewrite G1, G2, G3, orb_true_r. cbn [andb]. apply Z.leb_le in G1. apply Z.ltb_lt in G2.
    set (s' := if is_connm (cc_kind c) then s else cs_sten x).
    assert (Sp' : 0 < s') by (unfold s'; destruct (is_connm (cc_kind c)); lia).
    destruct (resizes_ok n s' (cfields (cc_kind c)) (cs_arr x) Ok) as (arr1 & E1 & Ok1 & X1).
    rewrite E1.
    destruct (puts_ok (fresh_value c) (init_writes c n s') arr1) as (arr2 & E2 & W2 & X2 & G2').
    { intros; apply Ok1. }
    { intros f t v I. destruct (writes_valid c n s' f t v C G1 (fun _ => Sp') I) as (F & T & V).
      split; auto. rewrite X1 by auto. exact T. }
    rewrite E2. eexists; split; [reflexivity|].
    unfold agree; cbn [ss_num ss_sten ss_val ss_depth ss_log ss_var cs_num cs_sten cs_arr cs_gen cs_cnt cs_act cs_log cs_var].
    split; [auto|]. split; [unfold s'; destruct (cc_kind c); cbn; auto|].
    split; [intros f; rewrite X2; split; [auto|apply Ok1]|].
    split; [right; intros f F; rewrite X2, X1 by auto; split; auto|].
    { intros t T. apply G2'; [rewrite X1 by auto; exact T|]. left; eexists. apply writes_cover; auto. }
    split; [exact Cnt|]. split; [now rewrite Lg|]. split; [auto|]. split; [auto|]. discriminate.
  - destruct (has_field (cc_kind c) f && _) eqn:G in S; [|discriminate]. inversion S; subst a'; clear S.
    apply andb_true_iff in G; destruct G as [G1 G2]. apply lead_ok_ext in G2. rewrite Es in G2.
    unfold c_edit. rewrite G1, G2; cbn [andb]. eexists; split; [reflexivity|].
    unfold agree; cbn [ss_num ss_sten ss_val ss_depth ss_log ss_var cs_num cs_sten cs_arr cs_gen cs_cnt cs_act cs_log cs_var].
    repeat (split; [solve [auto]|]).
    split; [|split; [auto|split; [auto|split; [auto|]]]].
    + intros g; destruct (Cnt g) as [A B]. unfold updf; destruct (cfield_eqb_spec f g) as [<-|]; [|auto].
      split; [lia|reflexivity].
    + intros w g l. unfold upd. destruct (Nat.eqb_spec w v) as [->|].
      * intros E; inversion E; subst g l. split; [auto|]. split; auto.
      * apply Var.
  - destruct (ss_var a v) as [[g lead']|] eqn:V; [|discriminate].
    destruct (cfield_eqb_spec f g) as [<-|]; [|discriminate]. cbn [andb] in S.
    unfold tuple_eqb in S; destruct (list_eq_dec Z.eq_dec lead lead') as [<-|]; [|discriminate].
    destruct (ss_depth a f) as [|m] eqn:D; [discriminate|]. inversion S; subst a'; clear S.
    destruct (Var v f lead V) as (H1 & H2 & H3). destruct (Cnt f) as [A B]. rewrite D in A, B.
    unfold c_restore. rewrite H1, H2, B; cbn [andb Nat.ltb Nat.leb]. eexists; split; [reflexivity|].
    assert (Q : (cs_cnt x f - 1 =? 0) = Nat.eqb m 0).
    { destruct (Z.eqb_spec (cs_cnt x f - 1) 0), (Nat.eqb_spec m 0); auto; lia. }
    unfold agree; cbn [ss_num ss_sten ss_val ss_depth ss_log ss_var cs_num cs_sten cs_arr cs_gen cs_cnt cs_act cs_log cs_var].
    repeat (split; [solve [auto]|]). rewrite Q.
    split; [|split; [|split; [auto|split; [auto|]]]].
    + intros g; destruct (Cnt g) as [A' B']. unfold updf; destruct (cfield_eqb_spec f g) as [<-|N].
      * split; [lia|]. destruct m; cbn [Nat.eqb]; [|exact B].
        destruct (cfield_eqb_spec f f); [reflexivity|congruence].
      * split; auto. destruct (Nat.eqb m 0); auto. destruct (cfield_eqb_spec f g); [congruence|auto].
    + rewrite Lg. destruct m; reflexivity.
    + intros w g l. unfold upd. destruct (Nat.eqb_spec w v) as [->|]; [discriminate|apply Var].
  - destruct (ss_var a v) as [[f lead]|] eqn:V; [|discriminate].
    destruct (nth_error (rows f lead) j) as [r|] eqn:R; [|discriminate].
    destruct ((0 <=? i) && (i <? ss_num a)) eqn:I; [|discriminate]. inversion S; subst a'; clear S.
    destruct (Var v f lead V) as (H1 & H2 & H3). rewrite En in I.
    apply andb_true_iff in I; destruct I as [I1 I2]; apply Z.leb_le in I1; apply Z.ltb_lt in I2.
    destruct Arr as [Z0|Arr]; [lia|].
    pose proof (proj1 (has_field_In _ _) H1) as F. destruct (Arr f F) as [X G]. destruct (Ok f) as [W Lf].
    destruct (rows_in _ _ _ _ _ H2 R) as [Rin Rl].
    assert (T : in_ext (a_ext (cs_arr x f)) (r ++ [i])).
    { rewrite X. apply in_ext_app; auto. }
    unfold c_write. rewrite H3, rows_places, map_map, nth_error_map, R; cbn [option_map].
    rewrite Nat.eqb_refl. unfold ptr_offset at 1.
    assert (O : to_index (indexer RowMajor (a_ext (cs_arr x f))) (r ++ [0]) + i
                = to_index (indexer RowMajor (a_ext (cs_arr x f))) (r ++ [i])).
    { rewrite X, indexer_row. unfold field_ext. symmetry; apply row_contiguous; auto. }
    rewrite O. destruct (vwrite_get (cs_arr x f) (r ++ [i]) y W T) as (l & E & Wl & Gl). rewrite E.
    eexists; split; [reflexivity|].
    unfold agree; cbn [ss_num ss_sten ss_val ss_depth ss_log ss_var cs_num cs_sten cs_arr cs_gen cs_cnt cs_act cs_log cs_var].
    split; [auto|]. split; [auto|].
    split; [intros g; unfold updf; destruct (cfield_eqb_spec f g) as [<-|]; auto|].
    split; [|split; [auto|split; [auto|split; [auto|split; [auto|]]]]].
    + right; intros g Hg. destruct (Arr g Hg) as [Xg Gg].
      unfold updf; destruct (cfield_eqb_spec f g) as [<-|]; [|auto].
      cbn [a_ext]. split; auto. intros t Ht. rewrite Gl by (rewrite X; auto).
      destruct (tuple_eqb t (r ++ [i])); auto.
    + intros w g l' Vw. destruct (Var w g l' Vw) as (K1 & K2 & K3). split; [auto|]. split; [auto|]. rewrite K3.
      unfold updf; destruct (cfield_eqb_spec f g) as [<-|]; auto.
Qed.

Lemma run_agree c a x ops a' : cfg_ok c -> agree c a x -> srun c a ops = Some a' ->
  exists x', crun c x ops = Some x' /\ agree c a' x'.
Proof.
  intros C; revert a x; induction ops as [|o r IH]; intros a x A S; cbn [srun crun] in *.
  - inversion S; subst; eauto.
  - destruct (sstep c a o) as [a1|] eqn:E; [|discriminate].
    destruct (step_agree c a x o a1 C A E) as (x1 & E1 & A1). rewrite E1. eauto.
Qed.

Lemma get_agree c a x f lead j r i : agree c a x -> has_field (cc_kind c) f = true ->
  lead_ok f (cs_sten x) lead = true -> nth_error (rows f lead) j = Some r -> 0 <= i < ss_num a ->
  c_get c x f lead j i = Some (ss_val a f (r ++ [i])).
Proof.
  intros (En & Es & Ok & Arr & _) H1 H2 R I. destruct Arr as [Z0|Arr]; [lia|].
  pose proof (proj1 (has_field_In _ _) H1) as F. destruct (Arr f F) as [X G].
  destruct (rows_in _ _ _ _ _ H2 R) as [Rin Rl].
  unfold c_get. rewrite H1, H2, rows_places, nth_error_map, R; cbn [andb option_map].
  rewrite <- (G (r ++ [i])) by (apply in_ext_app; [auto|split; [auto|lia]]). unfold aget, ptr_offset. f_equal.
  rewrite X, indexer_row. unfold field_ext. symmetry; apply row_contiguous; auto.
Qed.

(** C102, main theorem. *)
Lemma client_sees : forall c ops a, cfg_ok c -> srun c sside0 ops = Some a ->
  exists x, crun c cside0 ops = Some x /\
    cs_num x = ss_num a /\ cs_sten x = ss_sten a /\ cs_log x = ss_log a /\
    (forall f, cs_act x f = Nat.ltb 0 (ss_depth a f)) /\
    (forall f lead j r i, has_field (cc_kind c) f = true -> lead_ok f (ss_sten a) lead = true ->
       nth_error (rows f lead) j = Some r -> 0 <= i < ss_num a ->
       c_get c x f lead j i = Some (ss_val a f (r ++ [i]))).
Proof.
  intros c ops a C S. destruct (run_agree c _ _ ops a C (agree0 c) S) as (x & E & A).
  exists x; split; [exact E|]. pose proof A as (En & Es & _ & _ & Cnt & Lg & _).
  split; [auto|]. split; [auto|]. split; [auto|]. split; [intros; apply Cnt|].
  intros f lead j r i H1 H2 H3 H4. rewrite Es in H2. now apply get_agree.
Qed.

(** ** Linking *)

Lemma crun_app c x ops1 ops2 : crun c x (ops1 ++ ops2) =
  match crun c x ops1 with Some y => crun c y ops2 | None => None end.
Proof.
  revert x; induction ops1 as [|o r IH]; intros x; cbn [app crun]; auto. destruct (cstep c x o); auto.
Qed.

(** An edit of the source ranks cannot be ended: the arrays can not be resized afterwards, and the change is not
    announced. *)
Lemma stuck_step c x o x' : cs_act x FSourceRanks = true -> has_field (cc_kind c) FSourceRanks = true ->
  forallb (defined (cc_kind c)) (fun_of o) = true ->
  cstep c x o = Some x' -> cs_act x' FSourceRanks = true /\
    exists evs, cs_log x' = cs_log x ++ evs /\ ~ In (EvField FSourceRanks) evs.
Proof.
  intros A H D S. destruct o as [n s|v f lead|v f lead|v j i y]; cbn [cstep fun_of forallb] in *.
  - exfalso. unfold c_resize in S.
    destruct (forallb (fun f => negb (cs_act x f)) (cfields (cc_kind c))) eqn:G.
    + rewrite forallb_forall in G. specialize (G FSourceRanks (proj1 (has_field_In _ _) H)). rewrite A in G. discriminate.
    + rewrite andb_false_r in S. discriminate.
  - unfold c_edit in S. destruct (has_field (cc_kind c) f && lead_ok f (cs_sten x) lead); inversion S; subst; cbn [cs_act cs_log].
    split; [unfold updf; destruct (cfield_eqb_spec f FSourceRanks); auto|]. exists []; split; [now rewrite app_nil_r|auto].
  - unfold c_restore in S. destruct (has_field (cc_kind c) f && lead_ok f (cs_sten x) lead && cs_act x f); inversion S; subst; cbn [cs_act cs_log].
    assert (N : f <> FSourceRanks) by (intros ->; discriminate).
    destruct (cs_cnt x f - 1 =? 0).
    + split; [rewrite updf_other; auto|]. exists [EvField f]; split; [auto|]. intros [E|[]]; congruence.
    + split; [auto|]. exists []; split; [now rewrite app_nil_r|auto].
  - unfold c_write in S. destruct (cs_var x v) as [[[f g] offs]|]; [|discriminate].
    destruct (nth_error offs j); [|discriminate]. destruct (Nat.eqb g (cs_gen x)); [|discriminate].
    destruct (vwrite _ _ _); inversion S; subst; cbn [cs_act cs_log].
    split; [auto|]. exists []; split; [now rewrite app_nil_r|auto].
Qed.

Lemma stuck_run c ops : forall x x', cs_act x FSourceRanks = true -> has_field (cc_kind c) FSourceRanks = true ->
  links (cc_kind c) ops = true -> crun c x ops = Some x' -> cs_act x' FSourceRanks = true /\
    exists evs, cs_log x' = cs_log x ++ evs /\ ~ In (EvField FSourceRanks) evs.
Proof.
  induction ops as [|o r IH]; intros x x' A H L S; cbn [crun] in S.
  - inversion S; subst. split; auto. exists []; split; [now rewrite app_nil_r|auto].
  - unfold links in L; cbn [forallb] in L. apply andb_true_iff in L; destruct L as [L1 L2].
    destruct (cstep c x o) as [x1|] eqn:E; [|discriminate].
    destruct (stuck_step c x o x1 A H L1 E) as (A1 & e1 & G1 & N1).
    destruct (IH x1 x' A1 H L2 S) as (A2 & e2 & G2 & N2). split; auto.
    exists (e1 ++ e2). rewrite G2, G1, app_assoc. split; auto. rewrite in_app_iff. tauto.
Qed.

Lemma source_ranks_stuck : forall c ops1 v ops2 x y,
  has_field (cc_kind c) FSourceRanks = true -> links (cc_kind c) ops2 = true ->
  crun c cside0 (ops1 ++ [COEdit v FSourceRanks []]) = Some x -> crun c x ops2 = Some y ->
  cs_act y FSourceRanks = true /\ (forall n s, cstep c y (COResize n s) = None) /\
  exists evs, cs_log y = cs_log x ++ evs /\ ~ In (EvField FSourceRanks) evs.
Proof.
  intros c ops1 v ops2 x y H L R1 R2. rewrite crun_app in R1.
  destruct (crun c cside0 ops1) as [x0|]; [|discriminate]. cbn [crun cstep] in R1. unfold c_edit in R1.
  destruct (has_field (cc_kind c) FSourceRanks && lead_ok FSourceRanks (cs_sten x0) []); [|discriminate].
  assert (A : cs_act x FSourceRanks = true) by (inversion R1; reflexivity).
  destruct (stuck_run c ops2 x y A H L R2) as (B & E). split; [exact B|]. split; [|exact E].
  intros n s. destruct (cstep c y (COResize n s)) as [z|] eqn:G; auto. exfalso.
  cbn [cstep] in G; unfold c_resize in G.
  destruct (forallb (fun f => negb (cs_act y f)) (cfields (cc_kind c))) eqn:F.
  - rewrite forallb_forall in F. specialize (F FSourceRanks (proj1 (has_field_In _ _) H)). rewrite B in F. discriminate.
  - rewrite andb_false_r in G. discriminate.
Qed.

Definition link_cfg : ccfg := mkCC ConnN 2 (fun _ => 1) (fun _ => 1) (fun _ => 1) (fun _ => 1).
Definition link_prog : list cop :=
  [COResize 2 1; COEdit 0 FSourceRanks []; COWrite 0 0 0 (VI 3); COWrite 0 0 1 (VI 4); CORestore 0 FSourceRanks []].

Lemma link_refuted : exists c ops a, cfg_ok c /\ srun c sside0 ops = Some a /\
  (forall o g, In o ops -> In g (fun_of o) -> declared (cc_kind c) g = true) /\ links (cc_kind c) ops = false.
Proof.
  exists link_cfg, link_prog. eexists. split; [unfold cfg_ok; cbn; lia|]. split; [vm_compute; reflexivity|].
  split; [|reflexivity]. intros o g H G. cbn [link_prog In] in H.
  repeat (destruct H as [<-|H]; [cbn [fun_of In] in G; intuition subst; reflexivity|]). destruct H.
Qed.

(** All programs that do not restore source ranks link. *)
Lemma links_other : forall k ops,
  (forall o g, In o ops -> In g (fun_of o) -> declared k g = true) ->
  (forall v lead, ~ In (CORestore v FSourceRanks lead) ops) -> links k ops = true.
Proof.
  intros k ops D N. unfold links. apply forallb_forall; intros o O. apply forallb_forall; intros g G.
  specialize (D o g O G). destruct g as [|f|f]; auto. destruct o; cbn [fun_of In] in G; intuition try discriminate.
  inversion H; subst. destruct f; auto. exfalso; eapply N; eauto.
Qed.

Lemma no_resize_while_editing : forall c ops a f n s, cfg_ok c -> srun c sside0 ops = Some a ->
  has_field (cc_kind c) f = true -> (0 < ss_depth a f)%nat ->
  exists x, crun c cside0 ops = Some x /\ cstep c x (COResize n s) = None.
Proof.
  intros c ops a f n s C S H D. destruct (run_agree c _ _ ops a C (agree0 c) S) as (x & E & A).
  exists x; split; [exact E|]. destruct A as (_ & _ & _ & _ & Cnt & _). destruct (Cnt f) as [_ B].
  cbn [cstep]; unfold c_resize. destruct (forallb (fun f => negb (cs_act x f)) (cfields (cc_kind c))) eqn:F.
  - rewrite forallb_forall in F. specialize (F f (proj1 (has_field_In _ _) H)). rewrite B in F.
    destruct (Nat.ltb_spec 0 (ss_depth a f)); [discriminate|lia].
  - now rewrite andb_false_r.
Qed.
