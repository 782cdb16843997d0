(** Proofs about sending the donors and receivers of files to ranks. *)
From Coq Require Import List ZArith QArith Bool Lia.
From Verif Require Import TupleModel RangeModel CartModel Base RangeProof CartProof DecompModel DecompProof.
From Verif Require Import ContModel ContSpec ContProof OMap PairMap HashModel HashSpec HashProof.
From Verif Require Import ProtoModel ProtoSpec HandProof NetModel NetSpec NetProof NetPhase NetTools XchProof.
From Verif Require Import DHashModel DRangeProof DDecompProof LiftModel LiftProof NeighModel NeighSpec NeighProof XinModel MatModel DistModel DistSpec DistBox.
Import ListNotations.
Local Open Scope Z_scope.

Lemma unique_In l q : In q (unique_ranks l) <-> In q l.
Proof. unfold unique_ranks. destruct (set_of_In Nat.ltb nltb_swo nEQ l [] (sok_nil _)) as [_ H]. rewrite H. cbn. tauto. Qed.
Lemma unique_NoDup l : NoDup (unique_ranks l).
Proof.
  unfold unique_ranks. destruct (set_of_In Nat.ltb nltb_swo nEQ l [] (sok_nil _)) as [[H _] _].
  induction H as [|x k H IH F]; constructor; auto. intros I. rewrite Forall_forall in F. specialize (F x I). rewrite Nat.ltb_irrefl in F. discriminate.
Qed.
Lemma for_rank_flat {A V} (f : A -> list nat) (h : A -> V) (q : nat) l : (forall a, NoDup (f a)) ->
  for_rank (Z.of_nat q) (flat_map (fun a => map (fun k => (k, h a)) (f a)) l) = map h (filter (fun a => existsb (Nat.eqb q) (f a)) l).
Proof.
  intros N. induction l as [|a l IH]; [reflexivity|]. cbn [flat_map filter]. rewrite for_rank_app, IH. specialize (N a).
  assert (X : for_rank (Z.of_nat q) (map (fun k => (k, h a)) (f a)) = if existsb (Nat.eqb q) (f a) then [h a] else []).
  { clear IH. induction N as [|k t I N IH]; [reflexivity|]. cbn [map existsb]. unfold for_rank in *. cbn [filter fst].
    destruct (Z.eqb_spec (Z.of_nat k) (Z.of_nat q)) as [E|E].
    - assert (k = q) as -> by lia. rewrite Nat.eqb_refl. cbn [map snd orb]. rewrite IH. destruct (existsb (Nat.eqb q) t) eqn:M; [|reflexivity].
      exfalso. apply I. apply existsb_exists in M as (y & Hy & Ey). apply Nat.eqb_eq in Ey. now subst.
    - destruct (Nat.eqb_spec q k); [lia|]. cbn [orb]. exact IH. }
  rewrite X. destruct (existsb (Nat.eqb q) (f a)); reflexivity.
Qed.
Lemma flat_map_map {A B C} (f : A -> B) (g : B -> list C) l : flat_map g (map f l) = flat_map (fun a => g (f a)) l.
Proof. induction l; cbn; [reflexivity|]. now f_equal. Qed.

Lemma omap_two {A B} (f : A -> option B) l k x y : omap f l = Some x -> omap f k = Some y -> omap f (l ++ k) = Some (x ++ y).
Proof.
  revert x. induction l as [|a l IH]; intros x E F; [cbn in E; injection E as <-; exact F|]. cbn [app]. rewrite omap_cons in E |- *. destruct (f a); [|discriminate].
  destruct (omap f l) as [z|]; [|discriminate]. injection E as <-. rewrite (IH z eq_refl F). reflexivity.
Qed.
Lemma combine_two {A B C} (f : A -> B) (g : A -> C) l : combine (map f l) (map g l) = map (fun a => (f a, g a)) l.
Proof. induction l; cbn; [reflexivity|]. now f_equal. Qed.

Section Dist.
Context (c : cart) (n : nat) (L : nat -> range).
Hypothesis D : decomposed c n L.
Context (mx : nat -> Z) (ds : nat -> list dval).
Hypothesis HD : forall r v, (r < n)%nat -> In v (ds r) -> donor_fits c (mx r) v.

Definition dpts (v : dval) : list (tup Z) := match cell_points c v with Some l => l | None => [] end.
Lemma dpts_ok r v : (r < n)%nat -> In v (ds r) -> cell_points c v = Some (dpts v) /\ (forall u, In u (dpts v) -> pt_in (c_range c) u) /\
  forall own, (exists u, In u (dpts v) /\ pt_in own u) <-> reached c own (extents v).
Proof.
  intros Hr Hv. destruct (HD r v Hr Hv) as [F1 F2]. pose proof D as D'. destruct D' as (Hnd & Hn & Hok & HDim & Hper & _ & NE).
  unfold dpts. destruct (cell_points c v) as [pts|] eqn:E; unfold cell_points in E; rewrite foreach_col_length in E.
  2:{ exfalso. assert (C : rcount (extents v) = cell_size (extents v) 0 * cell_size (extents v) 1 * cell_size (extents v) 2).
      { pose proof (F2 0%nat ltac:(lia)) as [[G0 _] _]. pose proof (F2 1%nat ltac:(lia)) as [[G1 _] _]. pose proof (F2 2%nat ltac:(lia)) as [[G2 _] _].
        unfold rcount, cell_size, extents, rsize1. cbn [rb re]. rewrite !Z.max_l by assumption. now rewrite Z.mul_assoc. }
      rewrite C, Z.eqb_refl in E. destruct (rincludes (c_range c) (extents v)); [discriminate|].
      destruct (omap_total (periodic_adjust c) (RangeModel.foreach_col (extents v))) as [x Ex]; [|congruence].
      intros p _. destruct (periodic_adjust_full c p Hok) as (u & Eu & _). eauto. }
  split; [reflexivity|]. destruct (rcount (extents v) =? _); [|discriminate]. destruct (rincludes (c_range c) (extents v)) eqn:I.
  - injection E as <-. apply includes_spec in I. split.
    + intros u Hu. apply foreach_col_In in Hu. apply I, Hu.
    + intros own. split.
      * intros (u & A & B). apply foreach_col_In in A. left. eauto.
      * intros [(A & p & B & C)|(A & _)]; [|contradiction]. exists p. split; [now apply foreach_col_In|exact C].
  - assert (NI : ~ pt_subset (extents v) (c_range c)) by (rewrite <- includes_spec; congruence). split.
    + intros u Hu. apply (omap_In _ _ _ E) in Hu as (p & Hp & Ep). apply foreach_col_In in Hp. apply (periodic_adjust_iff c p u Hok) in Ep as [Im Ba].
      apply pt_in_tget. intros d Hd. destruct (Im d Hd) as [I1 I2]. destruct (tget (c_per c) d) eqn:P.
      * specialize (Ba d Hd P). unfold per_len in Ba. destruct (c_stor c); rewrite ?P in Ba; lia.
      * rewrite (I2 eq_refl). apply F1; auto.
    + intros own. split.
      * intros (u & A & B). apply (omap_In _ _ _ E) in A as (p & Hp & Ep). apply foreach_col_In in Hp. apply (periodic_adjust_iff c p u Hok) in Ep as [Im Ba].
        right. split; [exact NI|]. exists p, u. auto.
      * intros [(A & _)|(_ & p & u & A & B & C & Ho)]; [contradiction|]. exists u. split; [|exact Ho]. apply (omap_In _ _ _ E). exists p.
        split; [now apply foreach_col_In|]. now apply periodic_adjust_iff.
Qed.

Local Notation own := (ownerf n L).
Lemma own_in u : pt_in (c_range c) u -> (own u < n)%nat /\ pt_in (L (own u)) u.
Proof. intros H. destruct (L_owner c n L D u H) as (s & Hs & I). rewrite (ownerf_spec c n L D u s Hs I). auto. Qed.

(** The ranks of a donor. *)
Definition ranks (v : dval) : list nat := unique_ranks (map own (dpts v)).
Lemma ranks_In r v q : (r < n)%nat -> In v (ds r) -> (In q (ranks v) <-> (q < n)%nat /\ reached c (L q) (extents v)).
Proof.
  intros Hr Hv. destruct (dpts_ok r v Hr Hv) as (_ & P & H). unfold ranks. rewrite unique_In, in_map_iff, <- H. split.
  - intros (u & <- & Hu). destruct (own_in u (P u Hu)) as [A B]. split; [exact A|]. eauto.
  - intros (Hq & u & Hu & I). exists u. split; [apply (ownerf_spec c n L D u q Hq I)|exact Hu].
Qed.

(** Coefficients. *)
Definition mxr (r : nat) : Z := Z.max 0 (mx r).
Definition padv (m : Z) (v : dval) : dval := match pad m v with Some x => x | None => v end.
Lemma pad1_ok m s l : 0 <= s <= m -> Z.of_nat (length l) = s -> pad1 m s l = Some (l ++ repeat 0 (Z.to_nat (m - s))).
Proof. intros A B. unfold pad1. destruct (Z.ltb_spec s 0); [lia|]. destruct (Z.ltb_spec m s); [lia|]. rewrite B, Z.eqb_refl. reflexivity. Qed.
Lemma pad_ok r v : (r < n)%nat -> In v (ds r) -> pad (mxr r) v = Some (padv (mxr r) v) /\ fills (mxr r) (padv (mxr r) v) = true /\ unpad (padv (mxr r) v) = v.
Proof.
  intros Hr Hv. destruct (HD r v Hr Hv) as [_ F]. unfold padv. pose proof (F 0%nat ltac:(lia)) as [A0 B0]. pose proof (F 1%nat ltac:(lia)) as [A1 B1]. pose proof (F 2%nat ltac:(lia)) as [A2 B2].
  destruct v as [[b e co cf] pl]. cbn [fst snd e_begin e_end e_coefs] in *. unfold pad. cbn [fst snd e_begin e_end e_coefs e_coords].
  unfold cell_size, extents. cbn [fst rb re e_begin e_end]. unfold mxr.
  cbn [tget] in *. rewrite (pad1_ok _ _ (c0 cf)), (pad1_ok _ _ (c1 cf)), (pad1_ok _ _ (c2 cf)) by lia. split; [reflexivity|]. split.
  - unfold fills. cbn [fst e_coefs c0 c1 c2]. rewrite !app_length, !repeat_length, !andb_true_iff, !Z.eqb_eq. lia.
  - unfold unpad, cell_size, extents. cbn [fst snd rb re e_begin e_end e_coords e_coefs c0 c1 c2 tget]. rewrite <- B0, <- B1, <- B2.
    assert (X : forall (l k : list Z), firstn (Z.to_nat (Z.of_nat (length l))) (l ++ k) = l).
    { intros l k. rewrite Nat2Z.id, firstn_app, Nat.sub_diag, firstn_all. cbn. apply app_nil_r. }
    rewrite !X. destruct cf; reflexivity.
Qed.

Context (rs : nat -> list rval).
Hypothesis HR : forall r v, (r < n)%nat -> In v (rs r) -> pt_in (c_range c) (fst v).

(** What is sent. *)
Definition dl (r : nat) : list (nat * dval) := flat_map (fun v => map (fun q => (q, padv (mxr r) v)) (ranks v)) (ds r).
Definition rl (r : nat) : list (nat * rval) := flat_map (fun v => map (fun q => (q, v)) [own (fst v)]) (rs r).
Lemma dl_rank r x : (r < n)%nat -> In x (dl r) -> (fst x < n)%nat.
Proof. intros Hr H. apply in_flat_map in H as (v & Hv & H). apply in_map_iff in H as (q & <- & H). apply (ranks_In r v q Hr Hv) in H. apply H. Qed.
Lemma rl_rank r x : (r < n)%nat -> In x (rl r) -> (fst x < n)%nat.
Proof. intros Hr H. apply in_flat_map in H as (v & Hv & H). apply in_map_iff in H as (q & <- & [<-|[]]). cbn [fst]. apply (own_in (fst v) (HR r v Hr Hv)). Qed.
Definition dmap (r : nat) : smap Z (list dval) := match ofoldl push (dl r) map_empty with Some m => m | None => map_empty end.
Definition rmap (r : nat) : smap Z (list rval) := match ofoldl push (rl r) map_empty with Some m => m | None => map_empty end.
Lemma dmap_ok r : ofoldl push (dl r) map_empty = Some (dmap r) /\ by_rank (dl r) (dmap r).
Proof. destruct (push_all (dl r)) as (m & E & B). unfold dmap. rewrite E. auto. Qed.
Lemma rmap_ok r : ofoldl push (rl r) map_empty = Some (rmap r) /\ by_rank (rl r) (rmap r).
Proof. destruct (push_all (rl r)) as (m & E & B). unfold rmap. rewrite E. auto. Qed.

Definition y1 (r : nat) : xst := XSend (mxr r) (Box (dmap r) [] [] []) (Box (rmap r) [] [] []).
Definition y2 (r : nat) : xst := XSend (mxr r) (Box (dmap r) (bsrc n dmap r) [] []) (Box (rmap r) [] [] []).
Definition y3 (r : nat) : xst := XSend (mxr r) (Box (dmap r) (bsrc n dmap r) [] []) (Box (rmap r) (bsrc n rmap r) [] []).
Definition dcnt (r : nat) : list (Z * Z) := map (fun s => (Z.of_nat (length (given dl s r)), mxr s)) (bsrc n dmap r).
Definition rcnt (r : nat) : list (Z * Z) := map (fun s => (Z.of_nat (length (given rl s r)), 0)) (bsrc n rmap r).
Definition y4 (r : nat) : xst := XSend (mxr r) (Box (dmap r) (bsrc n dmap r) (dcnt r) []) (Box (rmap r) (bsrc n rmap r) (rcnt r) []).
Definition y5 (r : nat) : xst := XSend (mxr r) (Box (dmap r) (bsrc n dmap r) (dcnt r) (map (fun s => given dl s r) (bsrc n dmap r)))
  (Box (rmap r) (bsrc n rmap r) (rcnt r) (map (fun s => given rl s r) (bsrc n rmap r))).
Definition takes (q : nat) (v : dval) : bool := existsb (Nat.eqb q) (ranks v).
Definition owns (q : nat) (v : rval) : bool := Nat.eqb q (own (fst v)).
Definition dmax (r : nat) : Z := fold_left Z.max (map snd (dcnt r)) 0.
Definition y6 (r : nat) : xst := XDone (dmax r) (all_of n ds (takes r)) (all_of n rs (owns r)).

Lemma given_d s r : (s < n)%nat -> given dl s r = map (padv (mxr s)) (filter (takes r) (ds s)).
Proof. intros Hs. unfold given, dl. apply (for_rank_flat ranks). intros v. apply unique_NoDup. Qed.
Lemma given_r s r : (s < n)%nat -> given rl s r = filter (owns r) (rs s).
Proof.
  intros Hs. unfold given, rl. rewrite (for_rank_flat (fun v : rval => [own (fst v)]) (fun v => v)) by (intros v; repeat constructor; intros []).
  rewrite map_id. apply filter_ext. intros v. cbn. apply orb_false_r.
Qed.

Lemma send_ok : prog_ok n [Coll (x_dhandshake n); Coll (x_rhandshake n); two_wait x_nums x_num x_numbers; two_wait x_dons x_recs x_data; Local x_merge] y1 y6.
Proof.
  assert (LD : linked n (bsrc n dmap) (bdst dmap)) by (apply (blinks n dl dmap); [intros r Hr; apply dmap_ok|exact dl_rank]).
  assert (LR : linked n (bsrc n rmap) (bdst rmap)) by (apply (blinks n rl rmap); [intros r Hr; apply rmap_ok|exact rl_rank]).
  cbn [prog_ok]. exists y2. split.
  { intros r Hr. unfold x_dhandshake. rewrite nth_map_seq by exact Hr. unfold y1 at 1, y2. do 2 f_equal. unfold bsrc, named. f_equal. apply filter_ext_in. intros q Hq.
    apply in_seq in Hq. rewrite nth_map_seq by lia. reflexivity. }
  exists y3. split.
  { intros r Hr. unfold x_rhandshake. rewrite nth_map_seq by exact Hr. unfold y2 at 1, y3. do 2 f_equal. unfold bsrc, named. f_equal. apply filter_ext_in. intros q Hq.
    apply in_seq in Hq. rewrite nth_map_seq by lia. reflexivity. }
  exists y4. split.
  { apply two_wait_ok with (sm := bsrc n dmap) (dm := bdst dmap) (gm := fun s d => XNums (Z.of_nat (length (given dl s d))) (mxr s))
      (sn := bsrc n rmap) (dn := bdst rmap) (gn := fun s d => XNum (Z.of_nat (length (given rl s d)))); auto.
    - intros r Hr. split.
      + cbn [x_nums y3 bx_send]. apply (bentries n dl dmap) with (h := fun l => XNums (Z.of_nat (length l)) (mxr r)); [intros; apply dmap_ok|exact dl_rank|exact Hr].
      + cbn [x_num y3 bx_send]. apply (bentries n rl rmap) with (h := fun l => XNum (Z.of_nat (length l))); [intros; apply rmap_ok|exact rl_rank|exact Hr].
    - intros r Hr. cbn [x_numbers y3]. rewrite omap_comp with (h := fun s => (Z.of_nat (length (given dl s r)), mxr s)) by reflexivity.
      rewrite omap_comp with (h := fun s => (Z.of_nat (length (given rl s r)), 0)) by reflexivity. reflexivity. }
  exists y5. split.
  { apply two_wait_ok with (sm := bsrc n dmap) (dm := bdst dmap) (gm := fun s d => XDons (given dl s d))
      (sn := bsrc n rmap) (dn := bdst rmap) (gn := fun s d => XRecs (given rl s d)); auto.
    - intros r Hr. split.
      + cbn [x_dons y4 bx_send]. apply (bentries n dl dmap) with (h := XDons); [intros; apply dmap_ok|exact dl_rank|exact Hr].
      + cbn [x_recs y4 bx_send]. apply (bentries n rl rmap) with (h := XRecs); [intros; apply rmap_ok|exact rl_rank|exact Hr].
    - intros r Hr. cbn [x_data y4 bx_cnt]. unfold dcnt, rcnt. rewrite !combine_two.
      rewrite omap_comp with (h := fun s => given dl s r).
      + rewrite omap_comp with (h := fun s => given rl s r); [reflexivity|]. intros s _. cbn [fst snd]. now rewrite Z.eqb_refl.
      + intros s Hs. cbn [fst snd]. rewrite Z.eqb_refl. cbn [andb]. apply (bsrc_In n dl dmap ltac:(intros; apply dmap_ok) dl_rank) in Hs as [Hs _].
        replace (forallb (fills (mxr s)) (given dl s r)) with true; [reflexivity|]. symmetry. apply forallb_forall. intros v Hv. rewrite given_d in Hv by exact Hs.
        apply in_map_iff in Hv as (w & <- & Hw). apply filter_In in Hw as [Hw _]. apply (pad_ok s w Hs Hw). }
  exists y6. split; [|reflexivity]. intros r Hr. cbn [x_merge y5 bx_recv bx_cnt]. unfold y6, dmax. do 2 f_equal.
  - rewrite (brecv n dl dmap (fun r _ => proj2 (dmap_ok r)) dl_rank r Hr). unfold all_of.
    assert (X : forall k, (forall s, In s k -> (s < n)%nat) -> map unpad (flat_map (fun s => given dl s r) k) = flat_map (fun s => filter (takes r) (ds s)) k).
    { induction k as [|s k IH]; intros Hk; [reflexivity|]. cbn [flat_map]. rewrite map_app, IH by (intros; apply Hk; now right). f_equal.
      assert (Hs : (s < n)%nat) by (apply Hk; now left). rewrite given_d by exact Hs. rewrite map_map. rewrite <- (map_id (filter (takes r) (ds s))) at 2. apply map_ext_in.
      intros v Hv. apply filter_In in Hv as [Hv _]. apply (pad_ok s v Hs Hv). }
    apply X. intros s Hs. apply in_seq in Hs. lia.
  - rewrite (brecv n rl rmap (fun r _ => proj2 (rmap_ok r)) rl_rank r Hr). unfold all_of.
    assert (X : forall k, (forall s, In s k -> (s < n)%nat) -> flat_map (fun s => given rl s r) k = flat_map (fun s => filter (owns r) (rs s)) k).
    { induction k as [|s k IH]; intros Hk; [reflexivity|]. cbn [flat_map]. rewrite IH by (intros; apply Hk; now right). f_equal. apply given_r. apply Hk. now left. }
    apply X. intros s Hs. apply in_seq in Hs. lia.
Qed.

(** The whole program. *)
Section Prog.
Variables (guess : list Q -> Z -> Z) (rnd : Q -> Q).
Hypothesis G : forall l m, 1 <= m -> guess l m <= m.
Hypothesis HRnd : rounding rnd.
Hypothesis R1 : (rnd 1 == 1)%Q.

Theorem distribute_ok : prog_ok n (distribute c n (range_decomp guess (c_nd c)) (range_ratio rnd (c_nd c))) (fun r => X0 (L r) (mx r) (ds r) (rs r)) y6.
Proof.
  pose proof D as D'. destruct D' as (Hnd & Hn & Hok & HDim & Hper & _ & NE).
  destruct (range_dhash_complete (c_nd c) n (range_decomp guess (c_nd c)) (range_ratio rnd (c_nd c)) (fun r => [L r])) as (H & HB & HS & HM & HRet); auto.
  { intros r g Hr [<-|[]]. apply (L_grid c n L D), Hr. }
  { intros x. apply range_decomp_ok; auto. }
  { intros. apply range_ratio_ok; auto. }
  set (mapf := fun r u => match dh_map zcoords (c_nd c) (H r) u with Some x => x | None => (0%nat, 0) end).
  assert (MF : forall r u, (r < n)%nat -> pt_in (c_range c) u -> dh_map zcoords (c_nd c) (H r) u = Some (mapf r u)).
  { intros r u Hr Hu. destruct (own_in u Hu) as [Hs I].
    destruct (HM r (L (own u)) (own u) u Hr Hs ltac:(left; reflexivity) I) as (q & b & E). unfold mapf. rewrite E. reflexivity. }
  set (binned := fun r u => (u, mapf r u)).
  set (dp := fun r => map (fun v => map (binned r) (dpts v)) (ds r)).
  set (rp := fun r => map (fun v : rval => binned r (fst v)) (rs r)).
  set (ids := fun r => fold_left (set_insert bin_less) (map snd (concat (dp r)) ++ map snd (rp r)) []).
  assert (Iids : forall r x, (r < n)%nat -> In x (ids r) -> exists u, pt_in (c_range c) u /\ mapf r u = x).
  { intros r x Hr Hx. unfold ids in Hx. rewrite bset_In in Hx. apply in_app_or in Hx as [Hx|Hx].
    - apply in_map_iff in Hx as (y & <- & Hy). apply in_concat in Hy as (l & Hl & Hy). apply in_map_iff in Hl as (v & <- & Hv). apply in_map_iff in Hy as (u & <- & Hu).
      exists u. split; [|reflexivity]. apply (dpts_ok r v Hr Hv), Hu.
    - apply in_map_iff in Hx as (y & <- & Hy). apply in_map_iff in Hy as (v & <- & Hv). exists (fst v). split; [apply (HR r v Hr Hv)|reflexivity]. }
  assert (Ids_d : forall r v u, In v (ds r) -> In u (dpts v) -> In (mapf r u) (ids r)).
  { intros r v u Hv Hu. unfold ids. rewrite bset_In. apply in_or_app. left. apply in_map_iff. exists (binned r u). split; [reflexivity|]. apply in_concat.
    exists (map (binned r) (dpts v)). split; [|apply in_map, Hu]. unfold dp. apply in_map_iff. eauto. }
  assert (Ids_r : forall r v, In v (rs r) -> In (mapf r (fst v)) (ids r)).
  { intros r v Hv. unfold ids. rewrite bset_In. apply in_or_app. right. apply in_map_iff. exists (binned r (fst v)). split; [reflexivity|]. unfold rp. apply in_map_iff. eauto. }
  destruct (HRet ids) as (res & RB & RR).
  { intros r q b Hr Hx. apply (Iids r _ Hr) in Hx as (u & Hu & E). pose proof (MF r u Hr Hu) as Mu. rewrite E in Mu.
    split; [eauto|]. destruct (own_in u Hu) as [Hs I]. exists (L (own u)), (own u), u, b. split; [exact Hs|]. split; [left; reflexivity|]. auto. }
  assert (PO : forall r u, (r < n)%nat -> pt_in (c_range c) u -> In (mapf r u) (ids r) -> point_owner (res r) (binned r u) = Some (own u)).
  { intros r u Hr Hu Hi. unfold point_owner, binned. cbn [fst snd]. destruct (RR r (fst (mapf r u)) (snd (mapf r u)) Hr) as (f & Ef & Hf).
    { rewrite <- surjective_pairing. exact Hi. }
    rewrite Ef. destruct (own_in u Hu) as [Hs I].
    rewrite (find_unique _ _ (L (own u), own u)).
    - reflexivity.
    - apply filter_In. split.
      + unfold contributions. apply in_flat_map. exists (own u). split; [apply in_seq; lia|left; reflexivity].
      + apply (Hf (L (own u)) (own u) u Hs ltac:(left; reflexivity) I). rewrite <- surjective_pairing. apply MF; auto.
    - cbn [fst]. apply rcontains_spec, I.
    - intros [g s'] Hy Cy. cbn [fst] in Cy. apply filter_In in Hy as [Hy _]. unfold contributions in Hy.
      apply in_flat_map in Hy as (s'' & Hs'' & Hy). apply in_map_iff in Hy as (g' & E1 & [<-|[]]).
      injection E1 as <- <-. apply in_seq in Hs''. apply rcontains_spec in Cy.
      rewrite (L_unique c n L D s'' (own u) u) by (auto; lia). reflexivity. }
  unfold distribute.
  apply prog_ok_app. exists (fun r => XBuild (mx r) (ds r) (rs r) (D0 [L r])). split.
  { eexists. split; [|cbn [prog_ok]; reflexivity]. intros r Hr. reflexivity. }
  apply prog_ok_app. exists (fun r => XBuild (mx r) (ds r) (rs r) (DH (H r))). split.
  { apply remsg_ok; [reflexivity|]. apply (lift_ok x_hash x_put_hash n _ (fun r => XBuild (mx r) (ds r) (rs r) (D0 []))) in HB; [exact HB|reflexivity|reflexivity]. }
  apply prog_ok_app. exists (fun r => XRetr (mx r) (ds r) (rs r) (dp r) (rp r) (R0 (H r) (ids r))). split.
  { eexists. split; [|cbn [prog_ok]; reflexivity]. intros r Hr. cbn [x_query]. cbv zeta.
    rewrite (omap_map _ (fun v => map (binned r) (dpts v))).
    2:{ intros v Hv. destruct (dpts_ok r v Hr Hv) as (E & P & _). rewrite E. apply omap_map. intros u Hu. rewrite (MF r u Hr (P u Hu)). reflexivity. }
    rewrite (omap_map _ (fun v : rval => binned r (fst v))); [reflexivity|]. intros v Hv. rewrite (MF r (fst v) Hr (HR r v Hr Hv)). reflexivity. }
  apply prog_ok_app. exists (fun r => XRetr (mx r) (ds r) (rs r) (dp r) (rp r) (RH (H r) (res r))). split.
  { apply remsg_ok; [reflexivity|]. apply (lift_ok x_retr x_put_retr n _ (fun r => XRetr (mx r) (ds r) (rs r) (dp r) (rp r) (R0 (H r) []))) in RB;
      [exact RB|reflexivity|reflexivity]. }
  match goal with |- prog_ok n (?a :: ?l) _ _ => change (prog_ok n ([a] ++ l) (fun r => XRetr (mx r) (ds r) (rs r) (dp r) (rp r) (RH (H r) (res r))) y6) end.
  apply prog_ok_app. exists y1. split; [|exact send_ok]. eexists. split; [|cbn [prog_ok]; reflexivity]. intros r Hr. cbn [x_sort]. unfold dp, rp.
  rewrite omap_comp with (h := fun v => map own (dpts v)).
  2:{ intros v Hv. apply omap_comp. intros u Hu. apply PO; [exact Hr|apply (dpts_ok r v Hr Hv), Hu|eapply Ids_d; eauto]. }
  rewrite omap_comp with (h := fun v : rval => own (fst v)).
  2:{ intros v Hv. apply PO; [exact Hr|apply (HR r v Hr Hv)|auto]. }
  cbv zeta. change (Z.max 0 (mx r)) with (mxr r).
  assert (ED : omap (fun x : nat * dval => let! v := pad (mxr r) (snd x) in Some (fst x, v))
    (flat_map (fun x : list nat * dval => map (fun q => (q, snd x)) (unique_ranks (fst x))) (combine (map (fun v => map own (dpts v)) (ds r)) (ds r))) = Some (dl r)).
  { assert (X : forall k, (forall v, In v k -> In v (ds r)) -> omap (fun x : nat * dval => let! v := pad (mxr r) (snd x) in Some (fst x, v))
      (flat_map (fun x : list nat * dval => map (fun q => (q, snd x)) (unique_ranks (fst x))) (combine (map (fun v => map own (dpts v)) k) k))
      = Some (flat_map (fun v => map (fun q => (q, padv (mxr r) v)) (ranks v)) k)).
    { induction k as [|v k IH]; intros Hk; [reflexivity|]. cbn [map combine flat_map fst snd]. apply omap_two.
      - apply omap_comp. intros q _. cbn [fst snd]. rewrite (proj1 (pad_ok r v Hr (Hk v ltac:(now left)))). reflexivity.
      - apply IH. intros; apply Hk; now right. }
    apply X. auto. }
  rewrite ED. rewrite (proj1 (dmap_ok r)).
  assert (ER : combine (map (fun v : rval => own (fst v)) (rs r)) (rs r) = rl r).
  { unfold rl. generalize (rs r). intros k. induction k as [|v k IH]; [reflexivity|]. cbn [map combine flat_map app]. now f_equal. }
  rewrite ER, (proj1 (rmap_ok r)). reflexivity.
Qed.
End Prog.

Lemma dmax_ok r s v : (r < n)%nat -> (s < n)%nat -> In v (ds s) -> takes r v = true -> mx s <= dmax r.
Proof.
  intros Hr Hs Hv T. assert (I : In s (bsrc n dmap r)).
  { apply (bsrc_In n dl dmap ltac:(intros; apply dmap_ok) dl_rank). split; [exact Hs|].
    destruct (in_dec Nat.eq_dec r (bdst dmap s)) as [Y|Y]; [exact Y|]. apply (given_none n dl dmap (fun r _ => proj2 (dmap_ok r)) dl_rank s r Hs) in Y as E. rewrite given_d in E by exact Hs.
    assert (X : In v (filter (takes r) (ds s))) by (apply filter_In; auto). destruct (filter (takes r) (ds s)); [contradiction|discriminate E]. }
  unfold dmax, dcnt. rewrite map_map. cbn [snd].
  assert (M : forall k a, In s k \/ mx s <= a -> mx s <= fold_left Z.max (map mxr k) a).
  { clear. induction k as [|x k IH]; intros a [Y|Y]; cbn [map fold_left]; try (now destruct Y); [| |]; auto.
    - destruct Y as [->|Y]; apply IH; [right; unfold mxr; lia|now left].
    - apply IH. right. lia. }
  apply M. now left.
Qed.
End Dist.

Theorem distribute_spec c n L mx ds rs guess rnd : decomposed c n L ->
  (forall r v, (r < n)%nat -> In v (ds r) -> donor_fits c (mx r) v) -> (forall r v, (r < n)%nat -> In v (rs r) -> pt_in (c_range c) (fst v)) ->
  (forall l m, 1 <= m -> guess l m <= m) -> rounding rnd -> (rnd 1 == 1)%Q ->
  exists mx' f k, computes n (distribute c n (range_decomp guess (c_nd c)) (range_ratio rnd (c_nd c))) (fun r => X0 (L r) (mx r) (ds r) (rs r))
      (fun r => XDone (mx' r) (all_of n ds (f r)) (all_of n rs (k r))) /\
    forall r s, (r < n)%nat -> (s < n)%nat ->
      (forall v, In v (ds s) -> (f r v = true <-> reached c (L r) (extents v)) /\ (f r v = true -> mx s <= mx' r)) /\
      (forall v, In v (rs s) -> (k r v = true <-> pt_in (L r) (fst v))).
Proof.
  intros D HD HR G R R1. exists (dmax c n L mx ds), (takes c n L), (owns n L). split.
  { apply prog_computes. now apply distribute_ok. }
  intros r s Hr Hs. split; intros v Hv.
  - split; [|intros T; eapply dmax_ok; eauto]. unfold takes. rewrite existsb_exists. split.
    + intros (q & Hq & E). apply Nat.eqb_eq in E. subst q. apply (ranks_In c n L D mx ds HD s v r Hs Hv) in Hq. apply Hq.
    + intros H. exists r. split; [|apply Nat.eqb_refl]. apply (ranks_In c n L D mx ds HD s v r Hs Hv). auto.
  - unfold owns. rewrite Nat.eqb_eq. pose proof (HR s v Hs Hv) as I. destruct (own_in c n L D (fst v) I) as [A B]. split; [intros ->; exact B|].
    intros H. symmetry. now apply (ownerf_spec c n L D).
Qed.

Lemma all_of_In {A} n (D : nat -> list A) f v : In v (all_of n D f) <-> exists s, (s < n)%nat /\ In v (D s) /\ f v = true.
Proof.
  unfold all_of. rewrite in_flat_map. split.
  - intros (s & Hs & H). apply in_seq in Hs. apply filter_In in H as [H1 H2]. exists s. split; [lia|auto].
  - intros (s & Hs & H1 & H2). exists s. split; [apply in_seq; lia|]. now apply filter_In.
Qed.

Definition xdonors (s : xst) : list dval := match s with XDone _ ds _ => ds | _ => [] end.
Definition xreceivers (s : xst) : list rval := match s with XDone _ _ rs => rs | _ => [] end.

Theorem distribute_places c n L mx ds rs guess rnd : decomposed c n L ->
  (forall r v, (r < n)%nat -> In v (ds r) -> donor_fits c (mx r) v) -> (forall r v, (r < n)%nat -> In v (rs r) -> pt_in (c_range c) (fst v)) ->
  (forall l m, 1 <= m -> guess l m <= m) -> rounding rnd -> (rnd 1 == 1)%Q ->
  exists S', computes n (distribute c n (range_decomp guess (c_nd c)) (range_ratio rnd (c_nd c))) (fun r => X0 (L r) (mx r) (ds r) (rs r)) S' /\
    forall s, (s < n)%nat ->
      (forall v, In v (rs s) -> exists r, (r < n)%nat /\ pt_in (L r) (fst v) /\ forall q, (q < n)%nat -> (In v (xreceivers (S' q)) <-> q = r)) /\
      (forall v, In v (ds s) -> (exists r, (r < n)%nat /\ In v (xdonors (S' r))) <-> exists p, pt_in (extents v) p).
Proof.
  intros D HD HR G R R1. destruct (distribute_spec c n L mx ds rs guess rnd D HD HR G R R1) as (mx' & f & k & C & H).
  eexists. split; [exact C|]. intros s Hs. split; intros v Hv.
  - destruct (own_in c n L D (fst v) (HR s v Hs Hv)) as [A B]. exists (ownerf n L (fst v)). split; [exact A|]. split; [exact B|]. intros q Hq. cbn [xreceivers]. rewrite all_of_In. split.
    + intros (s' & Hs' & Iv & K). apply (proj2 (H q s' Hq Hs') v Iv) in K. symmetry. now apply (ownerf_spec c n L D).
    + intros ->. exists s. split; [exact Hs|]. split; [exact Hv|]. now apply (proj2 (H _ s A Hs) v Hv).
  - cbn [xdonors]. split.
    + intros (r & Hr & I). apply all_of_In in I as (s' & Hs' & Iv & F). apply (proj1 (H r s' Hr Hs') v Iv) in F as [(_ & p & P & _)|(_ & p & u & P & _)]; eauto.
    + intros (p & Hp). destruct (dpts_ok c n L D mx ds HD s v Hs Hv) as (E & P & Q).
      assert (X : exists u, In u (dpts c v)).
      { pose proof D as D'. destruct D' as (Hnd & Hn & Hok & HDim & Hper & _ & NE). clear P Q. unfold dpts in *. unfold cell_points in *. destruct (Z.of_nat _ =? _); [|discriminate].
        destruct (rincludes (c_range c) (extents v)); [exists p; now apply foreach_col_In|]. destruct (omap (periodic_adjust c) (foreach_col (extents v))) as [l|] eqn:F; [|discriminate].
        destruct (periodic_adjust_full c p Hok) as (u & Eu & _). exists u. apply (omap_In _ _ _ F). exists p. split; [now apply foreach_col_In|exact Eu]. }
      destruct X as (u & Hu). destruct (own_in c n L D u (P u Hu)) as [A B]. exists (ownerf n L u). split; [exact A|]. apply all_of_In. exists s. split; [exact Hs|]. split; [exact Hv|].
      apply (proj1 (H _ s A Hs) v Hv). apply Q. eauto.
Qed.
