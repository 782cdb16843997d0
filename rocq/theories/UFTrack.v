(** Which element represents a class depends only on the sequence of unions, not on the other elements
    that were inserted: used when several ranks perform the same unions. *)
From Coq Require Import List ZArith Bool Arith Lia Relations.
From Verif Require Import HashModel ArrayModel ArrayProof ContModel ContSpec ContProof MapProof UFModel UFSpec UFProof CompModel.
Import ListNotations.
Local Open Scope Z_scope.

(** The root and the rank of every class; elements not present count as single. *)
Definition ast : Type := (Z -> Z) * (Z -> nat).
Definition a0 : ast := (fun x => x, fun _ => 0%nat).
Definition aunion (s : ast) (p : Z * Z) : ast :=
  let rt := fst s in let kr := snd s in
  let ra := rt (fst p) in let rb := rt (snd p) in
  if ra =? rb then s
  else if (kr ra <? kr rb)%nat then (fun x => if rt x =? ra then rb else rt x, kr)
  else if (kr rb <? kr ra)%nat then (fun x => if rt x =? rb then ra else rt x, kr)
  else (fun x => if rt x =? rb then ra else rt x, fun z => if z =? ra then S (kr ra) else kr z).

Record tracks (u : uf) (s : ast) : Prop := {
  tk_in : forall i x, nth_error (uf_el u) i = Some x -> exists r, root (uf_par u) i r /\
            nth_error (uf_el u) r = Some (fst s x) /\ rk (uf_rank u) r = snd s (fst s x);
  tk_out : forall x, ~ In x (uf_el u) -> fst s x = x /\ snd s x = 0%nat }.

Lemma tracks_empty : tracks uf_empty a0.
Proof. split; [intros [|i] x H; discriminate|]. intros x _. split; reflexivity. Qed.

Lemma uf_insert_cases u ops x : uinv u ops ->
  (In x (uf_el u) /\ uf_insert u x = u) \/
  (~ In x (uf_el u) /\ exists n, (n <= length (uf_el u))%nat /\
     uf_insert u x = mkUF (insert_at (uf_el u) n x) (insert_at (map (shift n) (uf_par u)) n n) (insert_at (uf_rank u) n 0%nat)).
Proof.
  intros U. pose proof (ui_good u ops U) as G. destruct (In_dec Z.eq_dec x (uf_el u)) as [Hin|Hout]; [left|right]; (split; [assumption|]).
  - unfold uf_insert.
    destruct (placed anyZ Z.ltb zltb_swo (uf_el u) x (g_inc _ _ _ G) (g_D _ _ _ G) I)
      as [s1 s2 Es A B|s1 y s2 Es A Ey B].
    + exfalso. rewrite Es in Hin. apply in_app_iff in Hin.
      destruct Hin as [H|H]; [apply A in H|apply B in H]; rewrite Z.ltb_irrefl in H; discriminate.
    + pose proof (g_D _ _ _ G) as GD. rewrite Es in *.
      rewrite (lower_present anyZ Z.ltb zltb_swo) by (auto; exact I).
      rewrite nth_app_mid.
      unfold eqv in Ey. rewrite andb_true_iff, !negb_true_iff, !Z.ltb_ge in Ey.
      rewrite Z.gtb_ltb. destruct (Z.ltb_spec x y); [lia|reflexivity].
  - exists (set_lower Z.ltb (uf_el u) x). unfold uf_insert. set (n := set_lower Z.ltb (uf_el u) x) in *.
    assert (Hn : (n <= length (uf_el u))%nat) by (apply partition_point_stop).
    split; [exact Hn|]. unfold set_insert_hint. destruct (nth_error (uf_el u) n) as [y|] eqn:Ey; [|reflexivity].
    assert (Hy : Z.ltb x y = true).
    { apply Z.ltb_lt. assert (y <> x) by (intros ->; apply Hout; eapply nth_error_In; eauto).
      destruct (partition_point_stop (fun z => Z.ltb z x) (uf_el u)) as [_ P].
      apply P in Ey. apply Z.ltb_ge in Ey. lia. }
    rewrite Z.gtb_ltb, Hy. reflexivity.
Qed.

Lemma shift_root par n : (n <= length par)%nat -> forall i r, root par i r -> root (insert_at (map (shift n) par) n n) (shift n i) (shift n r).
Proof.
  intros Hn i r H.
  assert (P : forall i p, nth_error par i = Some p -> nth_error (insert_at (map (shift n) par) n n) (shift n i) = Some (shift n p)).
  { intros j p Hj. rewrite nth_shift by (rewrite map_length; assumption). apply map_nth_error, Hj. }
  induction H as [i Hi|i p r Hi Hp H IH].
  - constructor. apply P, Hi.
  - apply (root_up _ _ (shift n p)); [apply P, Hi| |exact IH]. intros E. apply shift_inj in E. congruence.
Qed.

Lemma shift_rk rank n i : (n <= length rank)%nat -> rk (insert_at rank n 0%nat) (shift n i) = rk rank i.
Proof.
  intros Hn. unfold rk. destruct (nth_error rank i) as [k|] eqn:Ek.
  - rewrite (nth_error_nth _ _ 0%nat Ek). apply nth_error_nth. rewrite nth_shift; assumption.
  - pose proof Ek as Ek2. apply nth_error_None in Ek2. rewrite (nth_overflow _ _ Ek2).
    apply nth_overflow. apply nth_error_None. rewrite nth_shift; assumption.
Qed.

Lemma tracks_insert u ops s x : uinv u ops -> tracks u s -> tracks (uf_insert u x) s.
Proof.
  intros U T. destruct (uf_insert_cases u ops x U) as [[_ ->]|(Hout & n & Hn & ->)]; [exact T|].
  pose proof (ui_len u ops U) as L. pose proof (ui_forest u ops U) as F. pose proof (fo_len _ _ F) as LR.
  split; cbn [uf_el uf_par uf_rank].
  - intros i y Hi. destruct (Nat.eq_dec i n) as [->|Ne].
    + rewrite nth_here in Hi by assumption. injection Hi as <-. exists n. destruct (tk_out u s T x Hout) as [E1 E2].
      rewrite E1, E2. split; [constructor; apply nth_here; rewrite map_length; lia|]. split; [apply nth_here; assumption|].
      unfold rk. apply nth_error_nth, nth_here. lia.
    + destruct (unshift n i Ne) as [j ->]. rewrite nth_shift in Hi by assumption.
      destruct (tk_in u s T j y Hi) as (r & R & N & K). exists (shift n r).
      split; [apply shift_root; [lia|exact R]|]. split; [rewrite nth_shift by assumption; exact N|].
      rewrite shift_rk by lia. exact K.
  - intros y Hy. apply (tk_out u s T). intros H. apply Hy. destruct (In_nth_error _ _ H) as [j Hj].
    apply (nth_error_In _ (shift n j)). rewrite nth_shift by assumption. exact Hj.
Qed.

Lemma tracks_reparent u s par' : tracks u s -> (forall j r, root (uf_par u) j r -> root par' j r) ->
  tracks (mkUF (uf_el u) par' (uf_rank u)) s.
Proof.
  intros T H. split; cbn; [|apply T]. intros i x Hi. destruct (tk_in u s T i x Hi) as (r & R & N & K). exists r. auto.
Qed.

Lemma tracks_find u ops s x : uinv u ops -> tracks u s -> In x (uf_el u) ->
  exists u', uf_find u x = Some (u', fst s x) /\ uinv u' ops /\ tracks u' s /\ uf_el u' = uf_el u.
Proof.
  intros U T Hx. apply (ui_mem u ops U) in Hx.
  destruct (uf_find_spec u ops x U Hx) as (i & u' & r & z & Hi & E & R & Hz & U' & El & Rk & Rt).
  destruct (tk_in u s T i x Hi) as (r' & R' & N & _). rewrite (root_fun _ _ _ _ R R') in Hz. rewrite Hz in N. injection N as ->.
  exists u'. split; [exact E|]. split; [exact U'|]. split; [|exact El].
  destruct u' as [el' par' rank']. cbn in El, Rk, Rt. subst el' rank'. apply tracks_reparent; assumption.
Qed.

Lemma tracks_link u s par' rank' a b za zb kr' : tracks u s ->
  nth_error (uf_par u) a = Some a -> nth_error (uf_par u) b = Some b -> a <> b ->
  nth_error (uf_el u) a = Some za -> nth_error (uf_el u) b = Some zb -> (forall i j x, nth_error (uf_el u) i = Some x -> nth_error (uf_el u) j = Some x -> i = j) ->
  (forall j, nth_error par' j = if Nat.eqb j a then Some b else nth_error (uf_par u) j) ->
  (forall r z, nth_error (uf_el u) r = Some z -> r <> a -> rk (uf_rank u) r = snd s z -> rk rank' r = kr' z) ->
  (forall z, ~ In z (uf_el u) -> kr' z = snd s z) ->
  rk (uf_rank u) b = snd s zb ->
  tracks (mkUF (uf_el u) par' rank') (fun x => if fst s x =? za then zb else fst s x, kr').
Proof.
  intros T Ha Hb Hn Za Zb Inj N K1 K2 Kb. split; cbn [uf_el uf_par uf_rank fst snd].
  - intros i x Hi. destruct (tk_in u s T i x Hi) as (r & R & Nr & K).
    pose proof (link_roots _ _ _ _ Ha Hb Hn N i r R) as R'. destruct (Nat.eqb_spec r a) as [->|Ne].
    + exists b. rewrite Nr in Za. injection Za as ->. rewrite Z.eqb_refl. split; [exact R'|]. split; [exact Zb|].
      apply (K1 b zb Zb); auto.
    + exists r. destruct (Z.eqb_spec (fst s x) za) as [E|_].
      * exfalso. apply Ne. apply (Inj r a za); congruence.
      * split; [exact R'|]. split; [exact Nr|]. apply (K1 r); auto.
  - intros x Hx. destruct (tk_out u s T x Hx) as [E1 E2]. rewrite E1. split; [|rewrite K2; auto].
    destruct (Z.eqb_spec x za) as [->|_]; [|reflexivity]. exfalso. apply Hx. eapply nth_error_In; eauto.
Qed.

Lemma tracks_union u ops s a b : uinv u ops -> tracks u s -> In a (uf_el u) -> In b (uf_el u) ->
  exists u' z, uf_union u a b = Some (u', z) /\ uinv u' (ops ++ [UUnion a b]) /\ tracks u' (aunion s (a, b)) /\ uf_el u' = uf_el u.
Proof.
  intros U T Ia Ib. destruct (uf_union_spec u ops a b U) as (u' & z & E & U' & _). exists u', z. split; [exact E|]. split; [exact U'|].
  revert E. unfold uf_union.
  destruct (zfind_in (uf_el u) a (ui_good u ops U) Ia) as [Hx Lx].
  destruct (zfind_in (uf_el u) b (ui_good u ops U) Ib) as [Hy Ly].
  set (ix := set_find Z.ltb (uf_el u) a) in *. set (iy := set_find Z.ltb (uf_el u) b) in *.
  destruct (Nat.eqb_spec ix (length (uf_el u))) as [E|_]; [lia|].
  destruct (Nat.eqb_spec iy (length (uf_el u))) as [E|_]; [lia|].
  pose proof (ui_len u ops U) as L.
  destruct (find_spec (uf_par u) (uf_rank u) ix (ui_forest u ops U)) as (par1 & ra & -> & Hra & F1 & L1 & R1 & _); [lia|].
  destruct (find_spec par1 (uf_rank u) iy F1) as (par2 & rb & -> & Hrb & F2 & L2 & R2 & _); [lia|].
  pose proof (R2 _ _ (R1 _ _ Hra)) as Ha2. pose proof (R2 _ _ Hrb) as Hb2.
  assert (T2 : tracks (mkUF (uf_el u) par2 (uf_rank u)) s) by (apply tracks_reparent; auto).
  destruct (tk_in _ s T2 ix a Hx) as (ra' & Ra' & Na & Ka). cbn [uf_el uf_par uf_rank] in Ra', Na, Ka. rewrite <- (root_fun _ _ _ _ Ha2 Ra') in *. clear ra' Ra'.
  destruct (tk_in _ s T2 iy b Hy) as (rb' & Rb' & Nb & Kb). cbn [uf_el uf_par uf_rank] in Rb', Nb, Kb. rewrite <- (root_fun _ _ _ _ Hb2 Rb') in *. clear rb' Rb'.
  assert (Inj : forall i j x, nth_error (uf_el u) i = Some x -> nth_error (uf_el u) j = Some x -> i = j).
  { intros i j x Hi Hj. apply (nth_distinct (uf_el u) i j x); auto. apply U. }
  pose proof (root_fix _ _ _ Ha2) as Fa. pose proof (root_fix _ _ _ Hb2) as Fb.
  rewrite Na, Nb. unfold aunion. cbn [fst snd].
  destruct (Nat.eqb_spec ra rb) as [E|Ne].
  - subst rb. assert (fst s a = fst s b) as -> by congruence. rewrite Z.eqb_refl. intros E. injection E as <- <-. auto.
  - destruct (Z.eqb_spec (fst s a) (fst s b)) as [E|Nz]; [exfalso; apply Ne; apply (Inj ra rb (fst s b)); congruence|].
    pose proof (fo_len _ _ F2) as LR. rewrite L2, L1, L in LR.
    pose proof (root_lt _ _ _ _ F2 Ha2) as Lra. pose proof (root_lt _ _ _ _ F2 Hb2) as Lrb. rewrite L2, L1, L in Lra, Lrb.
    destruct (nth_error (uf_rank u) ra) as [ka|] eqn:Eka; [|apply nth_error_None in Eka; lia].
    destruct (nth_error (uf_rank u) rb) as [kb|] eqn:Ekb; [|apply nth_error_None in Ekb; lia].
    assert (Rka : rk (uf_rank u) ra = ka) by (apply nth_error_nth, Eka).
    assert (Rkb : rk (uf_rank u) rb = kb) by (apply nth_error_nth, Ekb).
    rewrite <- Ka, <- Kb, Rka, Rkb.
    destruct (Nat.ltb_spec ka kb) as [Lt|Ge]; [|destruct (Nat.ltb_spec kb ka) as [Gt|Eq]].
    + destruct (vset_ok par2 ra rb) as [par3 E3]; [lia|]. rewrite E3.
      destruct (nth_error_upd _ _ _ _ E3) as (L3 & _ & N3). intros E. injection E as <- <-. split; [|reflexivity].
      apply (tracks_link (mkUF (uf_el u) par2 (uf_rank u)) s par3 (uf_rank u) ra rb); cbn [uf_el uf_par uf_rank]; auto.
    + destruct (vset_ok par2 rb ra) as [par3 E3]; [lia|]. rewrite E3.
      destruct (nth_error_upd _ _ _ _ E3) as (L3 & _ & N3). intros E. injection E as <- <-. split; [|reflexivity].
      apply (tracks_link (mkUF (uf_el u) par2 (uf_rank u)) s par3 (uf_rank u) rb ra); cbn [uf_el uf_par uf_rank]; auto.
    + destruct (vset_ok par2 rb ra) as [par3 E3]; [lia|]. rewrite E3.
      destruct (nth_error_upd _ _ _ _ E3) as (L3 & _ & N3).
      destruct (vset_ok (uf_rank u) ra (S ka)) as [rank3 E4]; [lia|]. rewrite E4.
      pose proof (rk_upd _ _ _ _ E4) as R4. intros E. injection E as <- <-. split; [|reflexivity].
      apply (tracks_link (mkUF (uf_el u) par2 (uf_rank u)) s par3 rank3 rb ra); cbn [uf_el uf_par uf_rank]; auto.
      * intros r zz Hr _ K. rewrite R4. destruct (Nat.eqb_spec r ra) as [->|Nr].
        -- rewrite Na in Hr. injection Hr as <-. rewrite Z.eqb_refl. congruence.
        -- destruct (Z.eqb_spec zz (fst s a)) as [->|_]; [exfalso; apply Nr; apply (Inj r ra (fst s a)); auto|exact K].
      * intros zz Hz. destruct (Z.eqb_spec zz (fst s a)) as [->|_]; [|reflexivity]. exfalso. apply Hz. eapply nth_error_In; eauto.
Qed.

(** Relabelling: the greatest element of the class that is smaller than its root, or the root. *)
Definition is_rep (el : list Z) (rt : Z -> Z) (x z : Z) : Prop :=
  (z = rt x /\ forall y, In y el -> rt y = rt x -> ~ y < rt x) \/
  (In z el /\ rt z = rt x /\ z < rt x /\ forall y, In y el -> rt y = rt x -> z < y -> ~ y < rt x).

Lemma is_rep_unique el el' rt x z z' : (forall y, In y el -> rt y = rt x -> y < rt x -> In y el') ->
  (forall y, In y el' -> rt y = rt x -> y < rt x -> In y el) ->
  is_rep el rt x z -> is_rep el' rt x z' -> z = z'.
Proof.
  intros I1 I2 [[-> H]|(Iz & Rz & Lz & H)] [[-> H']|(Iz' & Rz' & Lz' & H')].
  - reflexivity.
  - exfalso. apply (H z'); auto.
  - exfalso. apply (H' z); auto.
  - destruct (Z.lt_trichotomy z z') as [C|[C|C]]; [|exact C|].
    + exfalso. apply (H z'); auto.
    + exfalso. apply (H' z); auto.
Qed.

Lemma relabel_finds u ops : uinv u ops -> exists u' (rep : Z -> Z) (Inv : uf -> Prop),
  uf_relabel u = Some u' /\ Inv u' /\ (forall v, Inv v -> uf_el v = uf_el u) /\
  (forall v x, Inv v -> In x (uf_el u) -> exists v', uf_find v x = Some (v', rep x) /\ Inv v') /\
  (forall x, In x (uf_el u) -> In (rep x) (uf_el u)) /\
  (forall x y, In x (uf_el u) -> In y (uf_el u) -> (rep x = rep y <-> connected ops x y)) /\
  (forall s, tracks u s -> forall x, In x (uf_el u) -> is_rep (uf_el u) (fst s) x (rep x)).
Proof.
  intros U. destruct (uf_relabel_spec u ops U) as (u' & E & U' & El & H).
  set (ops' := ops ++ [URelabel]) in *.
  assert (Inj : forall i j x, nth_error (uf_el u) i = Some x -> nth_error (uf_el u) j = Some x -> i = j).
  { intros a b y Ha Hb. apply (nth_distinct (uf_el u) a b y); auto. apply U. }
  assert (RT : forall i x, nth_error (uf_el u) i = Some x -> exists q, root (uf_par u') i q).
  { intros i x Hi. apply (root_total _ _ (ui_forest u' ops' U')). rewrite (ui_len u' ops' U'), El. apply nth_error_Some. congruence. }
  set (Inv := fun v => uinv v ops' /\ uf_el v = uf_el u /\ (forall j r, root (uf_par u') j r -> root (uf_par v) j r)).
  assert (FS : forall v i x, Inv v -> nth_error (uf_el u) i = Some x ->
    exists v' q z, uf_find v x = Some (v', z) /\ Inv v' /\ root (uf_par u') i q /\ nth_error (uf_el u) q = Some z).
  { intros v i x (V & Ev & Rv) Hi.
    destruct (uf_find_spec v ops' x V) as (i' & v' & q & z & Hi' & Ef & R & Hz & V' & El' & _ & Rt).
    { apply (ui_mem v ops' V). rewrite Ev. eapply nth_error_In; eauto. }
    rewrite Ev in Hi', Hz. assert (i' = i) by (eapply Inj; eauto). subst i'. destruct (RT i x Hi) as [q' R'].
    rewrite (root_fun _ _ _ _ R (Rv _ _ R')) in *. exists v', q', z. split; [exact Ef|].
    split; [|auto]. split; [exact V'|]. split; [congruence|auto]. }
  assert (I0 : Inv u') by (split; [exact U'|split; [exact El|auto]]).
  set (rep := fun x => match uf_find u' x with Some (_, z) => z | None => x end).
  assert (RP : forall i x, nth_error (uf_el u) i = Some x -> exists q, root (uf_par u') i q /\ nth_error (uf_el u) q = Some (rep x)).
  { intros i x Hi. destruct (FS u' i x I0 Hi) as (v' & q & z & Ef & _ & R & Hz). exists q. unfold rep. rewrite Ef. auto. }
  exists u', rep, Inv. split; [exact E|]. split; [exact I0|]. split; [intros v (_ & A & _); exact A|]. split; [|split; [|split]].
  - intros v x V Hx. destruct (In_nth_error _ _ Hx) as [i Hi]. destruct (FS v i x V Hi) as (v' & q & z & Ef & V' & R & Hz).
    destruct (RP i x Hi) as (q' & R' & Hz'). rewrite (root_fun _ _ _ _ R R') in Hz. rewrite Hz in Hz'. injection Hz' as <-.
    exists v'. auto.
  - intros x Hx. destruct (In_nth_error _ _ Hx) as [i Hi]. destruct (RP i x Hi) as (q & _ & Hq). eapply nth_error_In; eauto.
  - intros x y Hx Hy. destruct (In_nth_error _ _ Hx) as [i Hi]. destruct (In_nth_error _ _ Hy) as [j Hj].
    destruct (RP i x Hi) as (q & R & Hq). destruct (RP j y Hj) as (q' & R' & Hq').
    assert (C : connected ops' x y <-> connected ops x y) by (apply connected_snoc_same; discriminate).
    rewrite <- C. rewrite <- (ui_same u' ops' U' i j x y) by congruence. rewrite (same_iff _ _ _ _ _ R R'). split.
    + intros Er. apply (Inj q q' (rep y)); congruence.
    + intros ->. congruence.
  - intros s T x Hx. destruct (In_nth_error _ _ Hx) as [i Hi]. destruct (RP i x Hi) as (q & R & Hz).
    set (z := rep x) in *. destruct (tk_in u s T i x Hi) as (r & Rr & Nr & _).
    destruct (H i r Rr) as (q' & R1 & R2 & C). rewrite <- (root_fun _ _ _ _ R R1) in *. clear q' R1.
    assert (Sm : forall j y, nth_error (uf_el u) j = Some y -> fst s y = fst s x -> y < fst s x -> smaller (uf_par u) (uf_el u) r j).
    { intros j y Hj Ey Ly. destruct (tk_in u s T j y Hj) as (r' & R' & N' & _).
      assert (r' = r) by (apply (Inj r' r (fst s x)); congruence). subst r'. split; [exact R'|]. exists y, (fst s x). auto. }
    pose proof (ui_good u ops U) as G. destruct G as [Gi _]. apply increasing_Zlt in Gi.
    destruct C as [[-> C]|(Lq & (Rq & xq & yq & Hxq & Hyq & Lxq) & C)].
    + left. split; [congruence|]. intros y Hy Ey Ly. destruct (In_nth_error _ _ Hy) as [j Hj].
      apply (C j); [apply nth_error_Some; congruence|]. apply (Sm j y); auto.
    + right. rewrite Hz in Hxq. injection Hxq as <-. rewrite Nr in Hyq. injection Hyq as <-.
      split; [eapply nth_error_In; eauto|]. destruct (tk_in u s T q z Hz) as (r' & R' & N' & _).
      rewrite (root_fun _ _ _ _ R' Rq) in N'. split; [congruence|]. split; [exact Lxq|].
      intros y Hy Ey Lzy Ly. destruct (In_nth_error _ _ Hy) as [j Hj].
      apply (C j); [|apply (Sm j y); auto]. split; [|apply nth_error_Some; congruence].
      assert (SL : forall l a b xa xb, Sorted.StronglySorted Z.lt l -> nth_error l a = Some xa -> nth_error l b = Some xb -> xa < xb -> (a < b)%nat).
      { clear. induction l as [|h t IH]; intros a b xa xb S Ha Hb Hlt; [destruct a; discriminate|].
        inversion S; subst. rewrite Forall_forall in H2. destruct a as [|a], b as [|b]; cbn in *.
        - injection Ha as ->. injection Hb as ->. lia.
        - lia.
        - injection Hb as ->. apply nth_error_In, H2 in Ha. lia.
        - pose proof (IH a b xa xb H1 Ha Hb Hlt). lia. }
      apply (SL (uf_el u) q j z y); auto.
Qed.

(** Several elements and unions at once. *)
Definition ins_ops (xs : list Z) : list uf_op := map UInsert xs.
Definition join_ops (ps : list (Z * Z)) : list uf_op :=
  flat_map (fun p => [UInsert (fst p); UInsert (snd p); UUnion (fst p) (snd p)]) ps.
Definition ends (ps : list (Z * Z)) : list Z := flat_map (fun p => [fst p; snd p]) ps.

Lemma insert_el u ops x y : uinv u ops -> (In y (uf_el (uf_insert u x)) <-> In y (uf_el u) \/ y = x).
Proof.
  intros U. pose proof (uf_insert_inv u ops x U) as U'. rewrite (ui_mem _ _ U'), inserted_snoc, (ui_mem u ops U).
  split; (intros [A|A]; [auto|right; congruence]).
Qed.

Lemma ins_all_ok xs : forall u ops s, uinv u ops -> tracks u s ->
  uinv (fold_left uf_insert xs u) (ops ++ ins_ops xs) /\ tracks (fold_left uf_insert xs u) s.
Proof.
  induction xs as [|x xs IH]; intros u ops s U T; cbn; [rewrite app_nil_r; auto|].
  destruct (IH (uf_insert u x) (ops ++ [UInsert x]) s) as [A B]; [apply uf_insert_inv, U|eapply tracks_insert; eauto|].
  rewrite <- app_assoc in A. auto.
Qed.

Lemma join_all_ok ps : forall u ops s, uinv u ops -> tracks u s ->
  exists u', join_all u ps = Some u' /\ uinv u' (ops ++ join_ops ps) /\ tracks u' (fold_left aunion ps s).
Proof.
  induction ps as [|[a b] ps IH]; intros u ops s U T; cbn [join_all ofoldl join_ops flat_map fold_left].
  - exists u. rewrite app_nil_r. auto.
  - unfold join. cbn [fst snd].
    pose proof (uf_insert_inv u ops a U) as U1. pose proof (tracks_insert u ops s a U T) as T1.
    pose proof (uf_insert_inv _ _ b U1) as U2. pose proof (tracks_insert _ _ s b U1 T1) as T2.
    destruct (tracks_union _ _ s a b U2 T2) as (u' & z & E & U3 & T3 & _).
    { apply (insert_el _ _ _ _ U1). left. apply (insert_el _ _ _ _ U). auto. }
    { apply (insert_el _ _ _ _ U1). auto. }
    rewrite E. cbn [option_map fst]. destruct (IH u' _ _ U3 T3) as (u'' & E' & U' & T'). exists u''. split; [exact E'|].
    split; [|exact T']. rewrite <- !app_assoc in U'. exact U'.
Qed.

Lemma join_ops_inserted ps x : inserted (join_ops ps) x <-> In x (ends ps).
Proof.
  unfold inserted, join_ops, ends. rewrite !in_flat_map. split; intros (p & Hp & H); exists p; (split; [exact Hp|]); cbn in *; intuition congruence.
Qed.

Lemma ins_ops_inserted xs x : inserted (ins_ops xs) x <-> In x xs.
Proof.
  unfold inserted, ins_ops. rewrite in_map_iff. split; [intros (y & E & H); congruence|eauto].
Qed.

Lemma inserted_app a b x : inserted (a ++ b) x <-> inserted a x \/ inserted b x.
Proof. apply in_app_iff. Qed.

Lemma joined xs ps x y : linked (ins_ops xs ++ join_ops ps) x y <-> In (x, y) ps.
Proof.
  split.
  - intros (l1 & l2 & E & _). assert (H : In (UUnion x y) (ins_ops xs ++ join_ops ps)) by (rewrite E; apply in_or_app; right; left; reflexivity).
    apply in_app_or in H. destruct H as [H|H].
    + apply in_map_iff in H. destruct H as (z & H & _). discriminate.
    + apply in_flat_map in H. destruct H as ([a b] & Hp & H). cbn in H. destruct H as [H|[H|[H|[]]]]; try discriminate. injection H as -> ->. exact Hp.
  - intros H. apply in_split in H. destruct H as (p1 & p2 & ->).
    exists (ins_ops xs ++ join_ops p1 ++ [UInsert x; UInsert y]), (join_ops p2). split.
    + unfold join_ops. rewrite flat_map_app. cbn. rewrite <- !app_assoc. reflexivity.
    + rewrite !inserted_app. unfold inserted. cbn. auto 10.
Qed.

Definition linked_by (ps : list (Z * Z)) : Z -> Z -> Prop := clos_refl_sym_trans Z (fun a b => In (a, b) ps).

Lemma joined_connected xs ps x y : connected (ins_ops xs ++ join_ops ps) x y <-> linked_by ps x y.
Proof. unfold connected, linked_by. split; apply clos_mono; intros a b; apply joined. Qed.

(** The element which represents x after the unions ps. *)
Definition repf (ps : list (Z * Z)) (x : Z) : Z :=
  if In_dec Z.eq_dec x (ends ps)
  then match join_all uf_empty ps with
       | Some u => match uf_relabel u with
                   | Some u' => match uf_find u' x with Some (_, z) => z | None => x end
                   | None => x
                   end
       | None => x
       end
  else x.

Theorem repf_ok xs ps : exists u u' (Inv : uf -> Prop),
  join_all (fold_left uf_insert xs uf_empty) ps = Some u /\ uf_relabel u = Some u' /\ Inv u' /\
  (forall v x, Inv v -> In x xs \/ In x (ends ps) -> exists v', uf_find v x = Some (v', repf ps x) /\ Inv v') /\
  (forall x y, In x xs \/ In x (ends ps) -> In y xs \/ In y (ends ps) -> (repf ps x = repf ps y <-> linked_by ps x y)) /\
  (forall x, In x xs \/ In x (ends ps) -> In (repf ps x) xs \/ In (repf ps x) (ends ps)).
Proof.
  assert (GEN : forall xs, exists u, join_all (fold_left uf_insert xs uf_empty) ps = Some u /\
    uinv u (ins_ops xs ++ join_ops ps) /\ tracks u (fold_left aunion ps a0) /\ forall x, In x (uf_el u) <-> In x xs \/ In x (ends ps)).
  { intros ys. destruct (ins_all_ok ys uf_empty [] a0 empty_inv tracks_empty) as [U T].
    destruct (join_all_ok ps _ _ _ U T) as (u & E & U' & T'). exists u. split; [exact E|]. split; [exact U'|]. split; [exact T'|].
    intros x. rewrite (ui_mem _ _ U'), inserted_app. cbn [app]. rewrite ins_ops_inserted, join_ops_inserted. tauto. }
  destruct (GEN []) as (u0 & E0 & U0 & T0 & M0). cbn [fold_left] in E0.
  destruct (relabel_finds u0 _ U0) as (u0' & rep0 & Inv0 & R0 & I0 & _ & F0 & _ & _ & P0).
  destruct (GEN xs) as (u & E & U & T & M).
  destruct (relabel_finds u _ U) as (u' & rep & Inv & R & I' & El & F & Fi & C & P).
  set (s := fold_left aunion ps a0) in *.
  assert (Moved : forall y, fst s y <> y -> In y (ends ps)).
  { intros y Hy. destruct (In_dec Z.eq_dec y (uf_el u0)) as [H|H]; [apply M0 in H; destruct H as [[]|H]; exact H|].
    destruct (tk_out u0 s T0 y H) as [H1 _]. contradiction. }
  assert (EQ : forall x, In x (uf_el u) -> rep x = repf ps x).
  { intros x Hx. pose proof (P s T x Hx) as IR. unfold repf. destruct (In_dec Z.eq_dec x (ends ps)) as [H|H].
    - rewrite E0, R0. assert (Hx0 : In x (uf_el u0)) by (apply M0; auto).
      destruct (F0 u0' x I0 Hx0) as (v & Ef & _). rewrite Ef. pose proof (P0 s T0 x Hx0) as IR0.
      apply (is_rep_unique (uf_el u) (uf_el u0) (fst s) x); auto.
      + intros y Hy Ey Ly. apply M0. right. apply Moved. lia.
      + intros y Hy Ey Ly. apply M. right. apply Moved. lia.
    - assert (Ex : fst s x = x) by (destruct (Z.eq_dec (fst s x) x) as [|Ne]; [assumption|apply Moved in Ne; contradiction]).
      destruct IR as [[-> _]|(Iz & Rz & Lz & _)]; [exact Ex|]. rewrite Ex in *. exfalso.
      (* z is in the class of x, which is single *)
      assert (L : connected (ins_ops xs ++ join_ops ps) (rep x) x).
      { destruct (In_nth_error _ _ Iz) as [i Hi]. destruct (In_nth_error _ _ Hx) as [j Hj].
        apply (ui_same u _ U i j _ _ Hi Hj). destruct (tk_in u s T i _ Hi) as (r1 & A1 & B1 & _). destruct (tk_in u s T j _ Hj) as (r2 & A2 & B2 & _).
        assert (r1 = r2) as -> by (apply (nth_distinct (uf_el u) r1 r2 x); [apply U|congruence|congruence]). exists r2. auto. }
      apply joined_connected in L. assert (X : forall a b, linked_by ps a b -> a = b \/ (In a (ends ps) /\ In b (ends ps))).
      { intros a b Hab. induction Hab as [a b Hab|a|a b _ IH|a b c _ IH1 _ IH2].
        - right. unfold ends. rewrite !in_flat_map. split; exists (a, b); (split; [exact Hab|cbn; auto]).
        - auto.
        - intuition congruence.
        - intuition congruence. }
      apply X in L. destruct L as [L|[_ L]]; [lia|contradiction]. }
  exists u, u', Inv. split; [exact E|]. split; [exact R|]. split; [exact I'|]. split; [|split].
  - intros v x V Hx. apply M in Hx. destruct (F v x V Hx) as (v' & Ef & V'). rewrite (EQ x Hx) in Ef. eauto.
  - intros x y Hx Hy. apply M in Hx, Hy. rewrite <- (EQ x Hx), <- (EQ y Hy), (C x y Hx Hy). apply joined_connected.
  - intros x Hx. apply M in Hx. apply M. rewrite <- (EQ x Hx). apply Fi, Hx.
Qed.
