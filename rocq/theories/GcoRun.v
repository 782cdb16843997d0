(** The model of geometry and state components refines the specification. *)
From Coq Require Import List ZArith NArith Bool Lia Sorting.Sorted.
From Verif Require Import DomainModel DomainSpec DomainProof GcoModel GcoSpec GcoProof.
Import ListNotations.
Local Open Scope Z_scope.

Lemma NoDup_app_intro_z (l1 l2 : list Z) : NoDup l1 -> NoDup l2 -> (forall g, In g l1 -> In g l2 -> False) -> NoDup (l1 ++ l2).
Proof.
  induction 1 as [|a l Hn ND IH]; intros N2 D; cbn; [exact N2|]. constructor; [|apply IH; [exact N2|intros g A B; apply (D g); [right; exact A|exact B]]].
  intros H. apply in_app_or in H. destruct H as [H|H]; [contradiction|]. apply (D a); [left; reflexivity|exact H].
Qed.
Definition placed (G : list (Z * (nat -> bool))) (g : Z) (r : nat) : Prop := exists at_, In (g, at_) G /\ at_ r = true.
Record cinv (n : nat) (c : cdom) (s : sp) (recs : list Z) : Prop := {
  i_len : length (cd_ranks c) = n;
  i_grids : cd_grids c = p_grids s;
  i_nd : NoDup (map fst (p_grids s));
  i_pos : forall g, In g (map fst (p_grids s)) -> 0 <= g;
  i_sub : forall g, p_ids s g -> In g (map fst (p_grids s));
  i_ss : StronglySorted Z.lt recs;
  i_recs : forall g, In g recs <-> p_ids s g;
  i_rank : forall r k, nth_error (cd_ranks c) r = Some k -> cr_recs k = recs /\ forall g, In g (map fst (cr_loc k)) <-> p_ids s g /\ placed (p_grids s) g r;
  i_pend : forall g, p_pend s g = zor (cd_ranks c) g }.
Definition logs (c : cdom) (l : list (Z * N * bool)) : Prop := forall k, In k (cd_ranks c) -> cr_log k = l.

Lemma told_ext p q l : (forall g, p g = q g) -> told p l = told q l.
Proof. intros H. unfold told. f_equal. rewrite (filter_ext (fun g => nonzero (p g)) (fun g => nonzero (q g))) by (intros; rewrite H; reflexivity). apply map_ext. intros g. rewrite H. reflexivity. Qed.
Lemma told_events recs (ids : Z -> Prop) p : StronglySorted Z.lt recs -> (forall g, In g recs <-> ids g) -> edit_events_of ids p (told p recs).
Proof.
  intros S H. exists (filter (fun g => nonzero (p g)) recs). split; [reflexivity|]. split; [apply ss_filter, S|]. intros g. rewrite filter_In, H, nonzero_iff. tauto.
Qed.
Lemma events_told recs (ids : Z -> Prop) p ed : StronglySorted Z.lt recs -> (forall g, In g recs <-> ids g) -> edit_events_of ids p ed -> ed = told p recs.
Proof.
  intros S H (es & -> & S' & I). unfold told. do 2 f_equal. apply ss_eq; [exact S'|apply ss_filter, S|]. intros g. rewrite I, filter_In, H, nonzero_iff. tauto.
Qed.
Lemma in_rank {A} (l : list A) k : In k l -> exists r, nth_error l r = Some k. Proof. intros H. apply In_nth_error in H. exact H. Qed.

Lemma inv_sync n c s recs : cinv n c s recs -> csync (cd_ranks c) = Some (map (synced (zor (cd_ranks c))) (cd_ranks c)).
Proof.
  intros I. apply (csync_ok _ recs); [apply ss_nodup, (i_ss _ _ _ _ I)|]. intros k Hk. destruct (in_rank _ _ Hk) as [r Hr]. destruct (i_rank _ _ _ _ I r k Hr) as [E L]. split; [exact E|].
  intros e He. apply (i_recs _ _ _ _ I). apply (L (fst e)), in_map, He.
Qed.
Lemma zeroed_zero l : zero_loc (zeroed l). Proof. intros e H. unfold zeroed in H. apply in_map_iff in H. destruct H as (x & <- & _). reflexivity. Qed.
Lemma zeroed_keys l : map fst (zeroed l) = map fst l. Proof. unfold zeroed. rewrite map_map. reflexivity. Qed.
Lemma zero_pend ks : (forall k, In k ks -> zero_loc (cr_loc k)) -> forall g, 0%N = zor ks g.
Proof. intros H g. symmetry. apply zor_zero. intros k Hk. apply zflag_zero. exact (H k Hk). Qed.
Lemma memz_In g l : memz g l = true <-> In g l.
Proof. unfold memz. rewrite existsb_exists. split; [intros (x & I & E); apply Z.eqb_eq in E; subst; exact I|intros I; exists g; split; [exact I|apply Z.eqb_refl]]. Qed.
Lemma memz_not g l : memz g l = false <-> ~ In g l.
Proof. rewrite <- memz_In. destruct (memz g l); intuition congruence. Qed.

Lemma here_ok c g r : NoDup (map fst (cd_grids c)) -> In g (map fst (cd_grids c)) -> (exists b, here c g r = Some b) /\ (here c g r = Some true <-> placed (cd_grids c) g r).
Proof.
  unfold here, placed. induction (cd_grids c) as [|[x at_] G IH]; intros ND H; [destruct H|]. cbn [map fst] in ND. inversion ND as [|? ? Hn ND']; subst. cbn [find fst].
  destruct (Z.eqb_spec x g) as [->|N].
  - split; [eexists; reflexivity|]. cbn [snd]. split.
    + intros E. injection E as E. exists at_. split; [left; reflexivity|exact E].
    + intros (a & [E|I] & T); [injection E as ->; congruence|]. exfalso. apply Hn. apply (in_map fst) in I. exact I.
  - cbn in H. destruct H as [H|H]; [congruence|]. destruct (IH ND' H) as [A B]. split; [exact A|]. rewrite B. split.
    + intros (a & I & T). exists a. split; [right; exact I|exact T].
    + intros (a & [E|I] & T); [congruence|]. exists a. auto.
Qed.

(** The ranks after SyncEdits_ and a step without pending edits *)
Lemma mk_inv n G recs (ids : Z -> Prop) log ks : length ks = n -> NoDup (map fst G) -> (forall g, In g (map fst G) -> 0 <= g) -> (forall g, ids g -> In g (map fst G)) ->
  StronglySorted Z.lt recs -> (forall g, In g recs <-> ids g) ->
  (forall r k, nth_error ks r = Some k -> cr_recs k = recs /\ zero_loc (cr_loc k) /\ forall g, In g (map fst (cr_loc k)) <-> ids g /\ placed G g r) ->
  cinv n (CD G ks) (SP G ids (fun _ => 0%N) log) recs.
Proof.
  intros L ND P Sb S R K. constructor; cbn [cd_ranks cd_grids p_grids p_ids p_pend]; auto.
  - intros r k Hk. destruct (K r k Hk) as (A & _ & B). auto.
  - apply zero_pend. intros k Hk. destruct (in_rank _ _ Hk) as [r Hr]. apply (K r k Hr).
Qed.

Lemma cd_eta c : CD (cd_grids c) (cd_ranks c) = c. Proof. destruct c; reflexivity. Qed.

Section Step.
Variable debug : bool.

Lemma inv_destroy n c s recs G ids : cinv n c s recs ->
  (debug = true -> forall g, In g ids -> p_ids s g /\ In g (map fst G)) -> (forall g, In g (map fst G) -> 0 <= g) ->
  cdestroy debug (CD G (cd_ranks c)) ids = Some (CD G (map (fun k => cerase ids (ctell GDESTROY ids k)) (map (synced (zor (cd_ranks c))) (cd_ranks c)))).
Proof.
  intros I D P. unfold cdestroy. cbn [cd_ranks cd_grids].
  match goal with |- context [if ?b then None else _] => replace b with false end.
  2:{ symmetry. destruct debug; [|reflexivity]. cbn. apply negb_false_iff, forallb_forall. intros g Hg. destruct (D eq_refl g Hg) as [A B].
      apply andb_true_iff. split; [apply andb_true_iff; split; [specialize (P g B); lia|unfold is_grid; apply memz_In; exact B]|].
      apply forallb_forall. intros k Hk. destruct (in_rank _ _ Hk) as [r Hr]. destruct (i_rank _ _ _ _ I r k Hr) as [E _]. rewrite memz_In, E. apply (i_recs _ _ _ _ I). exact A. }
  rewrite (inv_sync n c s recs I). reflexivity.
Qed.

(** What a rank looks like after DestroyGeometries *)
Lemma destroyed_rank n c s recs ids r k : cinv n c s recs -> nth_error (cd_ranks c) r = Some k ->
  let k' := cerase ids (ctell GDESTROY ids (synced (zor (cd_ranks c)) k)) in
  cr_recs k' = fold_left (fun l g => erasez g l) ids recs /\ zero_loc (cr_loc k') /\
  (forall g, In g (map fst (cr_loc k')) <-> (p_ids s g /\ placed (p_grids s) g r) /\ ~ In g ids) /\
  cr_log k' = (cr_log k ++ told (p_pend s) recs) ++ mark_last (map (fun g => (g, GDESTROY)) ids).
Proof.
  intros I Hk. cbv zeta. rewrite ctell_ok. unfold cerase, synced. cbn [cr_recs cr_loc cr_log]. destruct (i_rank _ _ _ _ I r k Hk) as [E L]. rewrite E.
  destruct (erasee_all ids (zeroed (cr_loc k)) (zeroed_zero _)) as [A B]. split; [reflexivity|]. split; [exact A|]. split.
  - intros g. rewrite B, zeroed_keys, L. tauto.
  - rewrite (told_ext _ _ recs (i_pend _ _ _ _ I)). reflexivity.
Qed.

Lemma nth_map2 {A B C} (f : B -> C) (g : A -> B) l r k' : nth_error (map f (map g l)) r = Some k' -> exists k, nth_error l r = Some k /\ k' = f (g k).
Proof. rewrite map_map, nth_error_map. destruct (nth_error l r) as [k|]; [|discriminate]. cbn. intros E. injection E as <-. exists k. auto. Qed.

Lemma zor_edit ks : forall r k (g : Z) f, nth_error ks r = Some k -> In g (map fst (cr_loc k)) -> forall x,
  zor (firstn r ks ++ CR (cr_recs k) (map (fun e => if Z.eqb (fst e) g then (fst e, N.lor (snd e) f) else e) (cr_loc k)) (cr_log k) :: skipn (S r) ks) x
  = if Z.eqb x g then N.lor (zor ks x) f else zor ks x.
Proof.
  assert (F : forall E g f x, zflag (map (fun e : Z * N => if Z.eqb (fst e) g then (fst e, N.lor (snd e) f) else e) E) x = if Z.eqb x g && memz g (map fst E) then N.lor (zflag E x) f else zflag E x).
  { intros E g f x. induction E as [|[y u] E IH]; [cbn; rewrite andb_false_r; reflexivity|]. cbn [map]. unfold zflag at 1. cbn [fold_right fst snd]. fold (zflag (map (fun e : Z * N => if Z.eqb (fst e) g then (fst e, N.lor (snd e) f) else e) E) x). rewrite IH.
    cbn [zflag fold_right fst snd]. fold (zflag E x). unfold memz. cbn [existsb]. fold (memz g (map fst E)).
    destruct (Z.eqb_spec y g) as [Ey|Ny]; cbn [fst snd].
    - subst y. rewrite Z.eqb_refl. cbn [orb]. destruct (Z.eqb x g); cbn [andb]; [|reflexivity].
      destruct (memz g (map fst E)); cbn [andb].
      + rewrite <- !N.lor_assoc. f_equal. rewrite (N.lor_comm (zflag E x) f), N.lor_assoc, N.lor_diag. reflexivity.
      + rewrite <- !N.lor_assoc. f_equal. apply N.lor_comm.
    - destruct (Z.eqb_spec g y) as [Eg|_]; [congruence|]. cbn [orb]. destruct (Z.eqb_spec x g) as [Ex|Nx]; cbn [andb].
      + subst x. destruct (Z.eqb_spec g y); [congruence|]. reflexivity.
      + reflexivity. }
  induction ks as [|a ks IH]; intros [|r] k g f Hk Hg x; try discriminate Hk.
  - cbn in Hk. injection Hk as <-. cbn [firstn skipn app]. cbn [zor fold_right cr_loc]. fold (zor ks x). rewrite F. apply memz_In in Hg. rewrite Hg, andb_true_r. destruct (Z.eqb x g); [|reflexivity].
    rewrite <- !N.lor_assoc. f_equal. apply N.lor_comm.
  - cbn in Hk. cbn [firstn app]. cbn [zor fold_right]. fold (zor ks x). match goal with |- context [fold_right ?F0 0%N (firstn r ks ++ ?t)] => fold (zor (firstn r ks ++ t) x) end.
    specialize (IH r k g f Hk Hg x). cbn [skipn] in *. rewrite IH. destruct (Z.eqb x g); [rewrite N.lor_assoc|]; reflexivity.
Qed.
Lemma nth_set {A} (l : list A) r k0 k' : forall i, nth_error l r = Some k0 -> nth_error (firstn r l ++ k' :: skipn (S r) l) i = if Nat.eqb i r then Some k' else nth_error l i.
Proof.
  revert r. induction l as [|a l IH]; intros [|r] i H; try discriminate H; destruct i as [|i]; cbn; try reflexivity. cbn in H. apply (IH r i H).
Qed.

Lemma step_ok n c s recs o s' : cinv n c s recs -> clegal n s o ->
  (debug = true -> forall ids, o = DropGrids ids -> forall g, In g ids -> p_ids s g) -> sp_step s o s' ->
  exists c' recs', cstep debug c o = Some c' /\ cinv n c' s' recs' /\
    ((forall ids, o = DropGrids ids -> forall g, In g ids -> p_ids s g) -> logs c (p_log s) -> logs c' (p_log s')).
Proof.
  intros I L C St. pose proof (i_ss _ _ _ _ I) as SS. pose proof (i_recs _ _ _ _ I) as RR. pose proof (i_grids _ _ _ _ I) as GG. pose proof (i_len _ _ _ _ I) as LL.
  destruct St as [l ed Ed|ids ed gone Ed Sg Hg|ids ed Ed|ids ed Ed|ed all Ed Sa Ha|r g f|ed Ed]; cbn [clegal] in L.
  - (* NewGrids *) pose proof (events_told recs _ _ _ SS RR Ed) as ->. destruct L as (_ & NDl & Ll).
    assert (ND' : NoDup (map fst (p_grids s ++ l))).
    { rewrite map_app. apply NoDup_app_intro_z; [apply (i_nd _ _ _ _ I)|exact NDl|]. intros g A B. exact (proj2 (Ll g B) A). }
    assert (P' : forall g, In g (map fst (p_grids s ++ l)) -> 0 <= g).
    { intros g H. rewrite map_app in H. apply in_app_or in H. destruct H as [H|H]; [apply (i_pos _ _ _ _ I), H|apply Ll, H]. }
    eexists _, recs. split; [cbn [cstep]; unfold cgrids; rewrite GG; apply (inv_destroy n c s recs); [exact I|intros _ g []|exact P']|]. split.
    + apply mk_inv; auto.
      * rewrite !map_length. exact LL.
      * intros g H. rewrite map_app. apply in_or_app. left. apply (i_sub _ _ _ _ I), H.
      * intros r k' Hk'. destruct (nth_map2 _ _ _ _ _ Hk') as (k & Hk & ->). destruct (destroyed_rank n c s recs [] r k I Hk) as (A & B & D & _). split; [exact A|]. split; [exact B|].
        intros g. rewrite D. split.
        -- intros [[X (a & Y & T)] _]. split; [exact X|]. exists a. split; [apply in_or_app; left; exact Y|exact T].
        -- intros [X (a & Y & T)]. split; [|intros []]. split; [exact X|]. exists a. split; [|exact T]. apply in_app_or in Y. destruct Y as [Y|Y]; [exact Y|]. exfalso.
           apply (in_map fst) in Y. exact (proj2 (Ll g Y) (i_sub _ _ _ _ I g X)).
    + intros _ LG k' Hk'. cbn [cd_ranks p_log] in *. destruct (in_rank _ _ Hk') as [r Hr]. destruct (nth_map2 _ _ _ _ _ Hr) as (k & Hk & ->). destruct (destroyed_rank n c s recs [] r k I Hk) as (_ & _ & _ & E).
      rewrite E, (LG k (nth_error_In _ _ Hk)). cbn. rewrite app_nil_r. reflexivity.
  - (* DropGrids *) pose proof (events_told recs _ _ _ SS RR Ed) as ->. destruct L as (_ & NDl & Ll).
    destruct (insz_all ids [] (SSorted_nil _)) as [Sx Ix]. set (dy := fold_left (fun l g => insz g l) ids []) in *.
    assert (Idy : forall g, In g dy <-> In g ids) by (intros g; rewrite Ix; cbn; tauto).
    set (G' := filter (fun x : Z * (nat -> bool) => negb (memz (fst x) ids)) (p_grids s)).
    assert (InG : forall x, In x G' <-> In x (p_grids s) /\ ~ In (fst x) ids) by (intros x; unfold G'; rewrite filter_In, negb_true_iff, memz_not; tauto).
    destruct (erasez_all dy recs SS) as [Se Ie].
    eexists _, _. split.
    { cbn [cstep]. unfold cdying. fold dy. pose proof (inv_destroy n c s recs (cd_grids c) dy I) as E. rewrite cd_eta in E. rewrite E; [reflexivity| |].
      - intros Db g H. apply Idy in H. split; [apply (C Db ids eq_refl g H)|]. rewrite GG. apply Ll, H.
      - rewrite GG. apply (i_pos _ _ _ _ I). }
    cbn [cd_grids cd_ranks]. rewrite GG. fold G'. split.
    + apply mk_inv with (recs := fold_left (fun l g => erasez g l) dy recs); auto.
      * rewrite !map_length. exact LL.
      * pose proof (i_nd _ _ _ _ I) as ND. unfold G'. clear - ND. induction (p_grids s) as [|x G IH]; [constructor|]. cbn in *. inversion ND as [|? ? Hn ND']; subst. destruct (negb (memz (fst x) ids)); cbn; [|apply IH, ND'].
        constructor; [|apply IH, ND']. intros H. apply Hn. apply in_map_iff in H. destruct H as (y & <- & H). apply filter_In in H. apply in_map, H.
      * intros g H. apply in_map_iff in H. destruct H as (x & <- & H). apply InG in H. apply (i_pos _ _ _ _ I), in_map, H.
      * intros g [H N]. apply (i_sub _ _ _ _ I) in H. apply in_map_iff in H. destruct H as (x & <- & H). apply in_map, InG. auto.
      * intros g. rewrite Ie, RR, Idy. tauto.
      * intros r k' Hk'. destruct (nth_map2 _ _ _ _ _ Hk') as (k & Hk & ->). destruct (destroyed_rank n c s recs dy r k I Hk) as (A & B & D & _). split; [exact A|]. split; [exact B|].
        intros g. rewrite D, Idy. split.
        -- intros [[X (a & Y & T)] N]. split; [auto|]. exists a. split; [apply InG; auto|exact T].
        -- intros [[X N] (a & Y & T)]. split; [|exact N]. split; [exact X|]. exists a. split; [apply InG in Y; apply Y|exact T].
    + intros Cv LG k' Hk'. cbn [cd_ranks p_log] in *. destruct (in_rank _ _ Hk') as [r Hr]. destruct (nth_map2 _ _ _ _ _ Hr) as (k & Hk & ->). destruct (destroyed_rank n c s recs dy r k I Hk) as (_ & _ & _ & E).
      rewrite E, (LG k (nth_error_In _ _ Hk)), <- app_assoc. do 4 f_equal. apply ss_eq; [exact Sx|exact Sg|]. intros g. rewrite Idy, Hg. specialize (Cv ids eq_refl g). tauto.
  - (* Make *) pose proof (events_told recs _ _ _ SS RR Ed) as ->. destruct L as [NDl Ll]. destruct (insz_all ids recs SS) as [Sx Ix].
    assert (NDg : NoDup (map fst (cd_grids c))) by (rewrite GG; apply (i_nd _ _ _ _ I)).
    assert (HG : forall g r, In g ids -> (exists b, here c g r = Some b) /\ (here c g r = Some true <-> placed (p_grids s) g r)).
    { intros g r H. rewrite <- GG. apply here_ok; [exact NDg|]. rewrite GG. apply Ll, H. }
    destruct (on_ranks_spec (fun r k =>
        let? loc := ofold (fun l g => let? b := here c g r in Some (if b : bool then inse (g, 0%N) l else l)) ids (cr_loc k) in
        Some (ctell GCREATE ids (CR (fold_left (fun l g => insz g l) ids (cr_recs k)) loc (cr_log k))))
      (fun r k k' => cr_recs k' = fold_left (fun l g => insz g l) ids (cr_recs k) /\ zero_loc (cr_loc k') /\ (forall g, In g (map fst (cr_loc k')) <-> In g (map fst (cr_loc k)) \/ In g ids /\ placed (p_grids s) g r) /\
         cr_log k' = cr_log k ++ mark_last (map (fun g => (g, GCREATE)) ids)) (map (synced (zor (cd_ranks c))) (cd_ranks c)) 0%nat) as (ks' & Ek & El & Hks).
    { intros r k Hk. rewrite nth_error_map in Hk. destruct (nth_error (cd_ranks c) r) as [k0|]; [|discriminate]. cbn in Hk. injection Hk as <-. cbn [Nat.add].
      destruct (inse_all c r ids (zeroed (cr_loc k0)) (zeroed_zero _)) as (l' & E & Z' & IL); [intros g H; apply (HG g r H)|].
      eexists. cbn [synced cr_loc cr_recs cr_log]. rewrite E. split; [reflexivity|]. rewrite ctell_ok. cbn [cr_loc cr_recs cr_log]. split; [reflexivity|]. split; [exact Z'|]. split; [|reflexivity].
      intros g. rewrite IL. split; (intros [A|[A B]]; [left; exact A|right; split; [exact A|apply (HG g r A); exact B]]). }
    eexists _, _. split.
    { cbn [cstep]. unfold ccreate.
      match goal with |- context [if ?b then None else _] => replace b with false end.
      2:{ symmetry. destruct debug; [|reflexivity]. cbn. apply negb_false_iff, forallb_forall. intros g H. destruct (Ll g H) as [A B].
          apply andb_true_iff. split; [apply andb_true_iff; split; [pose proof (i_pos _ _ _ _ I g A); lia|unfold is_grid; rewrite GG; apply memz_In, A]|].
          apply negb_true_iff. apply not_true_iff_false. intros T. apply existsb_exists in T. destruct T as (k & Hk & T). destruct (in_rank _ _ Hk) as [r Hr]. destruct (i_rank _ _ _ _ I r k Hr) as [E _]. rewrite E in T.
          apply memz_In, RR in T. contradiction. }
      rewrite (inv_sync n c s recs I), Ek. reflexivity. }
    rewrite GG. split.
    + apply mk_inv with (recs := fold_left (fun l g => insz g l) ids recs); auto.
      * rewrite El, map_length. exact LL.
      * apply (i_nd _ _ _ _ I).
      * apply (i_pos _ _ _ _ I).
      * intros g [H|H]; [apply (i_sub _ _ _ _ I), H|apply Ll, H].
      * intros g. rewrite Ix, RR. tauto.
      * intros r k' Hk'. destruct (nth_error (cd_ranks c) r) as [k|] eqn:Hk.
        2:{ exfalso. apply nth_error_None in Hk. assert (X : nth_error ks' r <> None) by congruence. apply nth_error_Some in X. rewrite El, map_length in X. lia. }
        assert (Hm : nth_error (map (synced (zor (cd_ranks c))) (cd_ranks c)) r = Some (synced (zor (cd_ranks c)) k)) by (rewrite nth_error_map, Hk; reflexivity).
        destruct (Hks r _ Hm) as (k2 & Hk2 & A & B & D & _). assert (k2 = k') by congruence. subst k2. destruct (i_rank _ _ _ _ I r k Hk) as [E Lo]. cbn [synced cr_recs cr_loc] in A, D.
        split; [rewrite A, E; reflexivity|]. split; [exact B|]. intros g. rewrite D, zeroed_keys, Lo. tauto.
    + intros _ LG k' Hk'. cbn [cd_ranks p_log] in *. destruct (in_rank _ _ Hk') as [r Hr]. destruct (nth_error (cd_ranks c) r) as [k|] eqn:Hk.
      2:{ exfalso. apply nth_error_None in Hk. assert (X : nth_error ks' r <> None) by congruence. apply nth_error_Some in X. rewrite El, map_length in X. lia. }
      assert (Hm : nth_error (map (synced (zor (cd_ranks c))) (cd_ranks c)) r = Some (synced (zor (cd_ranks c)) k)) by (rewrite nth_error_map, Hk; reflexivity).
      destruct (Hks r _ Hm) as (k2 & Hk2 & _ & _ & _ & E). assert (k2 = k') by congruence. subst k2. rewrite E. cbn [synced cr_log]. destruct (i_rank _ _ _ _ I r k Hk) as [Er _].
      rewrite Er, (LG k (nth_error_In _ _ Hk)), <- app_assoc, (told_ext _ _ recs (i_pend _ _ _ _ I)). reflexivity.
  - (* Drop *) pose proof (events_told recs _ _ _ SS RR Ed) as ->. destruct L as [NDl Ll]. destruct (erasez_all ids recs SS) as [Se Ie].
    eexists _, _. split.
    { cbn [cstep]. pose proof (inv_destroy n c s recs (cd_grids c) ids I) as E. rewrite cd_eta in E. apply E.
      - intros _ g H. split; [apply Ll, H|]. rewrite GG. apply (i_sub _ _ _ _ I), Ll, H.
      - rewrite GG. apply (i_pos _ _ _ _ I). }
    rewrite GG. split.
    + apply mk_inv with (recs := fold_left (fun l g => erasez g l) ids recs); auto.
      * rewrite !map_length. exact LL.
      * apply (i_nd _ _ _ _ I).
      * apply (i_pos _ _ _ _ I).
      * intros g [H _]. apply (i_sub _ _ _ _ I), H.
      * intros g. rewrite Ie, RR. tauto.
      * intros r k' Hk'. destruct (nth_map2 _ _ _ _ _ Hk') as (k & Hk & ->). destruct (destroyed_rank n c s recs ids r k I Hk) as (A & B & D & _). split; [exact A|]. split; [exact B|]. intros g. rewrite D. tauto.
    + intros _ LG k' Hk'. cbn [cd_ranks p_log] in *. destruct (in_rank _ _ Hk') as [r Hr]. destruct (nth_map2 _ _ _ _ _ Hr) as (k & Hk & ->). destruct (destroyed_rank n c s recs ids r k I Hk) as (_ & _ & _ & E).
      rewrite E, (LG k (nth_error_In _ _ Hk)), <- app_assoc. reflexivity.
  - (* DropAll *) pose proof (events_told recs _ _ _ SS RR Ed) as ->. assert (all = recs) by (apply ss_eq; [exact Sa|exact SS|intros g; rewrite Ha, RR; tauto]). subst all.
    eexists _, []. split; [cbn [cstep]; unfold cclear; rewrite (inv_sync n c s recs I); reflexivity|]. rewrite GG. split.
    + apply mk_inv; auto.
      * rewrite !map_length. exact LL.
      * apply (i_nd _ _ _ _ I).
      * apply (i_pos _ _ _ _ I).
      * intros g [].
      * constructor.
      * intros g. cbn. tauto.
      * intros r k' Hk'. destruct (nth_map2 _ _ _ _ _ Hk') as (k & Hk & ->). cbn. split; [reflexivity|]. split; [intros e []|]. intros g. tauto.
    + intros _ LG k' Hk'. cbn [cd_ranks p_log] in *. destruct (in_rank _ _ Hk') as [r Hr]. destruct (nth_map2 _ _ _ _ _ Hr) as (k & Hk & ->). destruct (i_rank _ _ _ _ I r k Hk) as [Er _].
      rewrite ctell_ok. cbn [cr_log cr_recs synced]. rewrite Er, (LG k (nth_error_In _ _ Hk)), <- app_assoc, (told_ext _ _ recs (i_pend _ _ _ _ I)). reflexivity.
  - (* Edit *) destruct L as (Hr & Hg & Pl). destruct (nth_error (cd_ranks c) r) as [k|] eqn:Hk; [|exfalso; apply nth_error_None in Hk; lia].
    destruct (i_rank _ _ _ _ I r k Hk) as [E Lo]. assert (Hin : In g (map fst (cr_loc k))) by (apply Lo; split; [exact Hg|exact Pl]).
    eexists _, recs. split.
    { cbn [cstep]. unfold cedit. rewrite Hk. replace (existsb (fun e => Z.eqb (fst e) g) (cr_loc k)) with true; [reflexivity|]. symmetry. apply existsb_exists. apply in_map_iff in Hin. destruct Hin as (e & Ee & He).
      exists e. split; [exact He|]. apply Z.eqb_eq, Ee. }
    split.
    + constructor; cbn [cd_ranks cd_grids p_grids p_ids p_pend].
      * rewrite app_length, firstn_length. cbn [length]. rewrite skipn_length. lia.
      * exact GG.
      * apply (i_nd _ _ _ _ I).
      * apply (i_pos _ _ _ _ I).
      * apply (i_sub _ _ _ _ I).
      * exact SS.
      * exact RR.
      * intros i k' Hi. rewrite (nth_set _ _ k _ i Hk) in Hi. destruct (Nat.eqb_spec i r) as [->|N]; [|apply (i_rank _ _ _ _ I), Hi]. injection Hi as <-. cbn [cr_recs cr_loc]. split; [exact E|].
        intros x. rewrite <- Lo, map_map. erewrite map_ext; [reflexivity|]. intros e. cbn. destruct (Z.eqb (fst e) g); reflexivity.
      * intros x. rewrite (zor_edit _ r k g f Hk Hin x), (i_pend _ _ _ _ I). reflexivity.
    + intros _ LG k' Hk'. cbn [cd_ranks p_log] in *. destruct (in_rank _ _ Hk') as [i Hi]. rewrite (nth_set _ _ k _ i Hk) in Hi. destruct (Nat.eqb i r); [injection Hi as <-; cbn; apply LG, (nth_error_In _ _ Hk)|apply LG, (nth_error_In _ _ Hi)].
  - (* Sync *) pose proof (events_told recs _ _ _ SS RR Ed) as ->. eexists _, recs. split; [cbn [cstep]; rewrite (inv_sync n c s recs I); reflexivity|]. rewrite GG. split.
    + apply mk_inv; auto.
      * rewrite map_length. exact LL.
      * apply (i_nd _ _ _ _ I).
      * apply (i_pos _ _ _ _ I).
      * apply (i_sub _ _ _ _ I).
      * intros r k' Hk'. rewrite nth_error_map in Hk'. destruct (nth_error (cd_ranks c) r) as [k|] eqn:Hk; [|discriminate]. cbn in Hk'. injection Hk' as <-. destruct (i_rank _ _ _ _ I r k Hk) as [Er Lo]. cbn [synced cr_recs cr_loc].
        split; [exact Er|]. split; [apply zeroed_zero|]. intros g. rewrite zeroed_keys. apply Lo.
    + intros _ LG k' Hk'. cbn [cd_ranks p_log] in *. apply in_map_iff in Hk'. destruct Hk' as (k & <- & Hk). destruct (in_rank _ _ Hk) as [r Hr]. destruct (i_rank _ _ _ _ I r k Hr) as [Er _]. cbn [synced cr_log].
      rewrite Er, (LG k Hk), (told_ext _ _ recs (i_pend _ _ _ _ I)). reflexivity.
Qed.

(** The specification never gets stuck. *)
Lemma step_total n c s recs o : cinv n c s recs -> clegal n s o -> exists s', sp_step s o s'.
Proof.
  intros I L. pose proof (told_events recs (p_ids s) (p_pend s) (i_ss _ _ _ _ I) (i_recs _ _ _ _ I)) as Ed. destruct o as [l|ids|ids|ids| |r g f| ].
  - eexists. apply SNew, Ed.
  - eexists. apply (SDropGrids s ids _ (filter (fun g => memz g ids) recs) Ed); [apply ss_filter, (i_ss _ _ _ _ I)|]. intros g. rewrite filter_In, memz_In, (i_recs _ _ _ _ I). tauto.
  - eexists. apply SMake, Ed.
  - eexists. apply SDrop, Ed.
  - eexists. apply (SDropAll s _ recs Ed (i_ss _ _ _ _ I) (i_recs _ _ _ _ I)).
  - eexists. apply SEdit.
  - eexists. apply SSync, Ed.
Qed.
End Step.

Lemma inv0 n : cinv n (cdom0 n) sp0 [].
Proof.
  constructor; cbn; try tauto.
  - apply repeat_length.
  - constructor.
  - constructor.
  - intros r k H. apply nth_error_In, repeat_spec in H. subst k. cbn. split; [reflexivity|]. intros g. tauto.
  - apply zero_pend. intros k H. apply repeat_spec in H. subst k. intros e [].
Qed.
Lemma inv_shows n c s recs : cinv n c s recs -> logs c (p_log s) -> shows n c s.
Proof.
  intros I LG. split; [apply (i_len _ _ _ _ I)|]. split; [apply (i_grids _ _ _ _ I)|]. intros r k Hk. destruct (i_rank _ _ _ _ I r k Hk) as [E L]. rewrite E. split; [apply (i_ss _ _ _ _ I)|]. split; [apply (i_recs _ _ _ _ I)|].
  split; [exact L|apply LG, (nth_error_In _ _ Hk)].
Qed.

Lemma run_covered debug n h s : covered_run n h s -> exists c recs, crun debug n h = Some c /\ cinv n c s recs /\ logs c (p_log s).
Proof.
  induction 1 as [|h s o s' R (c & recs & E & I & LG) L C St].
  - exists (cdom0 n), []. split; [reflexivity|]. split; [apply inv0|]. intros k H. cbn in H. apply repeat_spec in H. subst k. reflexivity.
  - destruct (step_ok debug n c s recs o s' I L (fun _ => C) St) as (c' & recs' & E' & I' & LG'). exists c', recs'. split; [|split; [exact I'|exact (LG' C LG)]].
    unfold crun in *. rewrite ofold_app, E. cbn [ofold]. rewrite E'. reflexivity.
Qed.
Lemma run_release n h s : sp_run n h s -> exists c recs, crun false n h = Some c /\ cinv n c s recs.
Proof.
  induction 1 as [|h s o s' R (c & recs & E & I) L St].
  - exists (cdom0 n), []. split; [reflexivity|]. apply inv0.
  - destruct (step_ok false n c s recs o s' I L ltac:(discriminate) St) as (c' & recs' & E' & I' & _). exists c', recs'. split; [|exact I'].
    unfold crun in *. rewrite ofold_app, E. cbn [ofold]. rewrite E'. reflexivity.
Qed.
