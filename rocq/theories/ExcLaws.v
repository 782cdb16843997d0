(** The exchanger after each kind of sequence of events. *)
From Coq Require Import List ZArith NArith Bool Lia.
From Verif Require Import TupleModel RangeModel ContModel DomainModel DomainSpec OMap PairMap DomainProof XchModel ExcModel ExcSpec ExcProof.
Import ListNotations.

(** ** Delivery *)
Lemma on_ranks_repeat {A B} (f : nat -> A -> option B) a b n : forall i, (forall r, f r a = Some b) -> on_ranks f i (repeat a n) = Some (repeat b n).
Proof. induction n as [|n IH]; intros i H; cbn; [reflexivity|]. rewrite H, IH; auto. Qed.
Lemma zip_repeat e n : forall xs, length xs = n -> zip_noted xs (repeat e n) = map (fun x => noted x e) xs.
Proof. induction n as [|n IH]; intros [|x xs] H; cbn in *; try lia; [reflexivity|]. f_equal. apply IH. lia. Qed.
Lemma map_repeat {A B} (f : A -> B) a n : map f (repeat a n) = repeat (f a) n.
Proof. induction n as [|n IH]; cbn; congruence. Qed.
Lemma forallb_repeat {A} (p : A -> bool) a n : forallb p (repeat a (S n)) = p a.
Proof. induction n as [|n IH]; [cbn; apply andb_true_r|]. change (repeat a (S (S n))) with (a :: repeat a (S n)). cbn [forallb]. rewrite IH. destruct (p a); reflexivity. Qed.
Lemma existsb_repeat {A} (p : A -> bool) a n : existsb p (repeat a (S n)) = p a.
Proof. induction n as [|n IH]; [cbn; apply orb_false_r|]. change (repeat a (S (S n))) with (a :: repeat a (S n)). cbn [existsb]. rewrite IH. destruct (p a); reflexivity. Qed.

(** Everything an event says but whether it is the last one. *)
Definition note (x : xrank) (e : oid * N) : xrank := noted x (fst e, snd e, false).
Lemma noted_note x (e : oevent) : noted x e = note x (fst e).
Proof. destruct e as [[k f] b]. reflexivity. Qed.

Section Deliver.
Context (t : tables) (n : nat) (c : dom) (em : nat -> oid -> list donor) (en : nat -> oid -> list receiver).

Lemma deliver_cons e l xs : (0 < n)%nat -> length xs = n ->
  deliver t n c em en (S (length l)) (repeat (e :: l) n) xs =
  (let? xs := (if snd e then update t n c em en (map (fun x => note x (fst e)) xs) else Some (map (fun x => note x (fst e)) xs)) in
   deliver t n c em en (length l) (repeat l n) xs).
Proof.
  intros Hn L. cbn [deliver]. rewrite (on_ranks_repeat (fun _ l => hd_error l) (e :: l) e n 0); [|reflexivity].
  rewrite (zip_repeat e n xs L), map_repeat. cbn [tl].
  rewrite (map_ext (fun x => noted x e) (fun x => note x (fst e))) by (intros; apply noted_note).
  destruct n as [|m]; [lia|]. rewrite forallb_repeat, existsb_repeat. destruct (snd e); reflexivity.
Qed.

Lemma deliver_marked l rest : (0 < n)%nat -> forall xs, length xs = n ->
  deliver t n c em en (length (mark_last l ++ rest)) (repeat (mark_last l ++ rest) n) xs =
  match l with
  | [] => deliver t n c em en (length rest) (repeat rest n) xs
  | _ => let? xs := update t n c em en (map (fun x => fold_left note l x) xs) in deliver t n c em en (length rest) (repeat rest n) xs
  end.
Proof.
  intros Hn. induction l as [|e l IH]; intros xs L; [reflexivity|]. rewrite mark_last_cons. cbn [app length].
  rewrite deliver_cons by assumption. cbn [fst snd]. destruct l as [|e' l].
  - cbn [mark_last app fold_left]. reflexivity.
  - rewrite IH by (rewrite map_length; exact L). rewrite map_map. reflexivity.
Qed.
Lemma deliver_end xs : deliver t n c em en 0 (repeat [] n) xs = Some xs.
Proof. cbn [deliver]. assert (forallb (fun l : list oevent => match l with [] => true | _ => false end) (repeat [] n) = true) as ->; [|reflexivity]. clear. induction n; cbn; auto. Qed.
End Deliver.

(** ** Manifests *)
Definition add_if (p : N -> bool) (s : list oid) (e : oid * N) : list oid := if p (snd e) then set_insert pair_less s (fst e) else s.
Definition is_create (f : N) := nonzero (N.land f OVERLAP_CREATE).
Definition is_destroy (f : N) := nonzero (N.land f OVERLAP_DESTROY).
Definition is_ranks (f : N) := is_create f || nonzero (N.land f EDIT_M_DESTINATIONS) || nonzero (N.land f EDIT_N_SOURCES).
Definition is_reset (f : N) := is_create f || nonzero (N.land f ALL_EDITS).

Lemma fold_note l : forall x, x_ms (fold_left note l x) = x_ms x /\ x_ns (fold_left note l x) = x_ns x /\
  man (fold_left note l x) = (fold_left (add_if is_create) l (x_create x), fold_left (add_if is_destroy) l (x_destroy x),
    fold_left (add_if is_ranks) l (x_ranks x), fold_left (add_if is_reset) l (x_reset x)).
Proof.
  induction l as [|[k f] l IH]; intros x; [split; [reflexivity|]; split; reflexivity|]. cbn [fold_left].
  destruct (IH (note x (k, f))) as (A & B & C). rewrite A, B, C. split; [reflexivity|]. split; reflexivity.
Qed.
Lemma fold_add p l : forall s, sok pair_less s -> sok pair_less (fold_left (add_if p) l s) /\
  forall k, In k (fold_left (add_if p) l s) <-> In k s \/ exists f, In (k, f) l /\ p f = true.
Proof.
  induction l as [|[j g] l IH]; intros s G; [split; [exact G|]; intros k; cbn; firstorder|]. cbn [fold_left].
  assert (G' : sok pair_less (add_if p s (j, g))) by (unfold add_if; cbn; destruct (p g); [apply (sok_insert pair_less pair_swo); exact G|exact G]).
  destruct (IH _ G') as [A B]. split; [exact A|]. intros k. rewrite B. unfold add_if. cbn [fst snd].
  destruct (p g) eqn:E.
  - rewrite (In_set_insert pair_less pair_swo pEQ s j k G). split.
    + intros [[->|I]|(f & I & F)]; [right; exists g; split; [left; reflexivity|exact E]|left; exact I|right; exists f; split; [right; exact I|exact F]].
    + intros [I|(f & [H|I] & F)]; [left; right; exact I|injection H as <- <-; left; left; reflexivity|right; exists f; split; assumption].
  - split.
    + intros [I|(f & I & F)]; [left; exact I|right; exists f; split; [right; exact I|exact F]].
    + intros [I|(f & [H|I] & F)]; [left; exact I|injection H as <- <-; congruence|right; exists f; split; assumption].
Qed.
(** The part of the manifest that comes from [l] by [p]. *)
Definition noted_ids (p : N -> bool) (l : list (oid * N)) : list oid := fold_left (add_if p) l [].
Lemma noted_NoDup p l : NoDup (noted_ids p l).
Proof. eapply sok_NoDup; [exact pair_swo|]. apply fold_add, sok_nil. Qed.
Lemma noted_In p l k : In k (noted_ids p l) <-> exists f, In (k, f) l /\ p f = true.
Proof. unfold noted_ids. rewrite (proj2 (fold_add p l [] (sok_nil _))). cbn [In]. tauto. Qed.
Lemma noted_none p l : (forall k f, In (k, f) l -> p f = false) -> noted_ids p l = [].
Proof.
  intros H. destruct (noted_ids p l) as [|k s] eqn:E; [reflexivity|]. assert (I : In k (noted_ids p l)) by (rewrite E; left; reflexivity).
  apply noted_In in I as (f & I & F). rewrite (H k f I) in F. discriminate.
Qed.

(** ** The exchanger *)

(** What the exchanger has between calls: for the connectivities [ov] whose grids are on the rank, the ranks [rm] and
    [rn], the operations [om] and [on], and maps made from the arrays unless edits are pending. *)
Record xinv (n : nat) (loc : Z -> nat -> bool) (ov : list oid) (pend : oid -> N) (em : nat -> oid -> list donor) (en : nat -> oid -> list receiver)
    (rm rn om on : nat -> oid -> list Z) (xs : list xrank) : Prop := XInv {
  xi_n : length xs = n;
  xi_good : forall r x, nth_error xs r = Some x -> xgood x /\ man x = ([], [], [], []);
  xi_m : forall r x k, nth_error xs r = Some x -> (mget pair_less (x_ms x) k <> None <-> In k ov /\ loc (fst k) r = true);
  xi_ns : forall r x k, nth_error xs r = Some x -> (mget pair_less (x_ns x) k <> None <-> In k ov /\ loc (snd k) r = true);
  xi_lm : forall r x k l, nth_error xs r = Some x -> mget pair_less (x_ms x) k = Some l -> lm_ranks l = rm r k /\ lm_ops l = om r k /\
    (pend k = 0%N -> lm_maps l = Some (map d_lower (em r k), map d_point (em r k), lm_ranks l));
  xi_ln : forall r x k l, nth_error xs r = Some x -> mget pair_less (x_ns x) k = Some l -> ln_ranks l = rn r k /\ ln_ops l = on r k /\
    (pend k = 0%N -> ln_maps l = Some (map r_point (en r k), ln_ranks l)) }.

Section Stages.
Context (t : tables) (n : nat) (c : dom) (em : nat -> oid -> list donor) (en : nat -> oid -> list receiver).
Context (loc : Z -> nat -> bool) (known : Z -> Prop).
Hypothesis HL : forall g r, known g -> grid_local c g r = Some (loc g r).

Lemma update_noted l xs rest : (0 < n)%nat -> length xs = n ->
  (forall r x, nth_error xs r = Some x -> xgood x /\ man x = ([], [], [], [])) ->
  (forall k f, In (k, f) l -> known (fst k) /\ known (snd k)) ->
  (forall r x, nth_error xs r = Some x -> there loc (noted_ids is_create l) (noted_ids is_destroy l) (noted_ids is_ranks l) (noted_ids is_reset l) r x) ->
  exists xs', deliver t n c em en (length (mark_last l ++ rest)) (repeat (mark_last l ++ rest) n) xs =
      deliver t n c em en (length rest) (repeat rest n) xs' /\ length xs' = n /\
    forall r x, nth_error xs r = Some x -> exists x', nth_error xs' r = Some x' /\ xgood x' /\ man x' = ([], [], [], []) /\ forall k,
      mget pair_less (x_ms x') k = after_m t n em en loc (noted_ids is_create l) (noted_ids is_destroy l) (noted_ids is_ranks l) (noted_ids is_reset l) r k (mget pair_less (x_ms x) k) /\
      mget pair_less (x_ns x') k = after_n t n em en loc (noted_ids is_create l) (noted_ids is_destroy l) (noted_ids is_ranks l) (noted_ids is_reset l) r k (mget pair_less (x_ns x) k).
Proof.
  intros Hn Ln HX HK HT. rewrite (deliver_marked t n c em en l rest Hn xs Ln). destruct l as [|e l'] eqn:El.
  { exists xs. split; [reflexivity|]. split; [exact Ln|]. intros r x Hx. exists x. split; [exact Hx|]. destruct (HX r x Hx) as [G M].
    split; [exact G|]. split; [exact M|]. intros k. split; reflexivity. }
  rewrite <- El in *. clear e l' El.
  assert (KO : forall p, ok_ids known (noted_ids p l)).
  { intros p. split; [apply noted_NoDup|]. intros k Ik. apply noted_In in Ik as (f & I & _). apply (HK k f I). }
  destruct (update_ok t n c em en loc known HL (noted_ids is_create l) (noted_ids is_destroy l) (noted_ids is_ranks l) (noted_ids is_reset l)
    (KO _) (KO _) (KO _) (map (fun x => fold_left note l x) xs)) as (xs' & E & L' & H').
  - rewrite map_length. exact Ln.
  - intros r x Hx. rewrite nth_error_map in Hx. destruct (nth_error xs r) as [x0|] eqn:E0; [|discriminate]. injection Hx as <-.
    destruct (HX r x0 E0) as [G M]. destruct (fold_note l x0) as (A & B & C). split; [unfold xgood; rewrite A, B; exact G|].
    split; [rewrite C; unfold man in M; injection M as -> -> -> ->; reflexivity|]. unfold there. rewrite A, B. apply (HT r x0 E0).
  - exists xs'. rewrite E. split; [reflexivity|]. split; [exact L'|]. intros r x Hx.
    destruct (H' r (fold_left note l x)) as (x' & N' & G' & M' & A'); [apply (map_nth_error _ r xs Hx)|].
    exists x'. split; [exact N'|]. split; [exact G'|]. split; [exact M'|]. destruct (fold_note l x) as (A & B & _). rewrite A, B in A'. exact A'.
Qed.

Lemma kin_iff k l b : (In k l <-> b = true) -> kin k l = b.
Proof. intros H. apply eq_true_iff_eq. rewrite kin_spec. exact H. Qed.

(** *** Ended edits *)
Lemma stage_sync ov pend rm rn om on xs rest : (0 < n)%nat -> NoDup ov ->
  (forall k, In k ov -> known (fst k) /\ known (snd k)) -> (forall k, N.land (pend k) ALL_EDITS = pend k) ->
  xinv n loc ov pend em en rm rn om on xs ->
  let l := map (fun k => (k, pend k)) (filter (fun k => nonzero (pend k)) ov) in
  let again := fun k => kin k ov && nonzero (N.land (pend k) (EDIT_M_DESTINATIONS + EDIT_N_SOURCES)) in
  let ms := fun q => map (conn_m t em q) (filter (fun k => again k && loc (fst k) q) ov) in
  let ns := fun q => map (conn_n en q) (filter (fun k => again k && loc (snd k) q) ov) in
  exists xs', deliver t n c em en (length (mark_last l ++ rest)) (repeat (mark_last l ++ rest) n) xs =
      deliver t n c em en (length rest) (repeat rest n) xs' /\
    xinv n loc ov (fun _ => 0%N) em en
      (fun r k => if again k then map (find_dest n ns (conn_m t em r k)) (em r k) else rm r k)
      (fun r k => if again k then map (find_src n ms (conn_n en r k)) (en r k) else rn r k)
      (fun r k => if kin k ov && nonzero (pend k) then [] else om r k)
      (fun r k => if kin k ov && nonzero (pend k) then [] else on r k) xs'.
Proof.
  intros Hn ND HK HP X l again ms ns.
  assert (Il : forall k f, In (k, f) l <-> In k ov /\ f = pend k /\ pend k <> 0%N).
  { intros k f. unfold l. rewrite in_map_iff. split.
    - intros (j & E & I). injection E as <- <-. apply filter_In in I as [I N0]. apply nonzero_iff in N0. auto.
    - intros (I & -> & N0). exists k. split; [reflexivity|]. apply filter_In. split; [exact I|]. apply nonzero_iff. exact N0. }
  assert (NC : forall k, N.land (pend k) 1 = 0%N /\ N.land (pend k) 2 = 0%N).
  { intros k. rewrite <- (HP k). unfold ALL_EDITS. rewrite <- !N.land_assoc. cbn. rewrite !N.land_0_r. auto. }
  assert (Cr : noted_ids is_create l = []).
  { apply noted_none. intros k f I. apply Il in I as (_ & -> & _). unfold is_create, OVERLAP_CREATE. rewrite (proj1 (NC k)). reflexivity. }
  assert (De : noted_ids is_destroy l = []).
  { apply noted_none. intros k f I. apply Il in I as (_ & -> & _). unfold is_destroy, OVERLAP_DESTROY. rewrite (proj2 (NC k)). reflexivity. }
  assert (Sp : forall f, nonzero (N.land f EDIT_M_DESTINATIONS) || nonzero (N.land f EDIT_N_SOURCES) = nonzero (N.land f (EDIT_M_DESTINATIONS + EDIT_N_SOURCES))).
  { intros f. apply eq_true_iff_eq. rewrite orb_true_iff, !nonzero_iff. change (EDIT_M_DESTINATIONS + EDIT_N_SOURCES)%N with (N.lor EDIT_M_DESTINATIONS EDIT_N_SOURCES).
    rewrite N.land_lor_distr_r. destruct (N.eq_dec (N.land f EDIT_M_DESTINATIONS) 0) as [E|E], (N.eq_dec (N.land f EDIT_N_SOURCES) 0) as [E'|E'];
      split; intros H; try tauto; try (intros H'; apply N.lor_eq_0_iff in H'; tauto). rewrite E, E' in H. elim H; reflexivity. }
  assert (Rk : forall k, kin k (noted_ids is_ranks l) = again k).
  { intros k. apply kin_iff. rewrite noted_In. unfold again. rewrite andb_true_iff, kin_spec. split.
    - intros (f & I & P). apply Il in I as (I & -> & _). split; [exact I|]. unfold is_ranks, is_create, OVERLAP_CREATE in P. rewrite (proj1 (NC k)) in P.
      cbn [nonzero N.eqb negb orb] in P. rewrite Sp in P. exact P.
    - intros [I P]. exists (pend k). split; [apply Il; split; [exact I|]; split; [reflexivity|]; intros E; rewrite E in P; discriminate|].
      unfold is_ranks. rewrite <- orb_assoc, Sp, P. apply orb_true_r. }
  assert (Rs : forall k, kin k (noted_ids is_reset l) = kin k ov && nonzero (pend k)).
  { intros k. apply kin_iff. rewrite noted_In, andb_true_iff, kin_spec, nonzero_iff. split.
    - intros (f & I & P). apply Il in I as (I & -> & N0). auto.
    - intros [I N0]. exists (pend k). split; [apply Il; auto|]. unfold is_reset. rewrite HP. apply orb_true_iff. right. apply nonzero_iff, N0. }
  destruct X as [X1 X2 X3 X4 X5 X6].
  destruct (update_noted l xs rest Hn X1 X2) as (xs' & E & L' & H').
  { intros k f I. apply Il in I as (I & _). apply HK, I. }
  { intros r x Hx k Hk. assert (Iov : In k ov).
    { destruct Hk as [Hk|Hk]; apply noted_In in Hk as (f & I & _); apply Il in I; apply I. }
    split; [intros Lk; right; apply (X3 r x k Hx); auto|]. split; [intros Lk; right; apply (X4 r x k Hx); auto|]. rewrite De. intros []. }
  exists xs'. split; [exact E|].
  assert (PM : forall q, (q < n)%nat -> forall p, In p (part_m t em loc (noted_ids is_ranks l) q) <-> In p (ms q)).
  { intros q Hq p. unfold part_m, ms. rewrite !in_map_iff. split; intros (k & <- & I); exists k; (split; [reflexivity|]); apply filter_In in I as [I Lk]; apply filter_In.
    - apply kin_spec in I. rewrite Rk in I. pose proof I as I'. unfold again in I'. apply andb_true_iff in I' as [I' _]. apply kin_spec in I'. rewrite I, Lk. auto.
    - apply andb_true_iff in Lk as [A Lk]. rewrite Lk. split; [|reflexivity]. apply kin_spec. rewrite Rk. exact A. }
  assert (PN : forall q, (q < n)%nat -> forall p, In p (part_n en loc (noted_ids is_ranks l) q) <-> In p (ns q)).
  { intros q Hq p. unfold part_n, ns. rewrite !in_map_iff. split; intros (k & <- & I); exists k; (split; [reflexivity|]); apply filter_In in I as [I Lk]; apply filter_In.
    - apply kin_spec in I. rewrite Rk in I. pose proof I as I'. unfold again in I'. apply andb_true_iff in I' as [I' _]. apply kin_spec in I'. rewrite I, Lk. auto.
    - apply andb_true_iff in Lk as [A Lk]. rewrite Lk. split; [|reflexivity]. apply kin_spec. rewrite Rk. exact A. }
  assert (EX : forall {A} (p : A -> bool) l1 l2, (forall x, In x l1 <-> In x l2) -> existsb p l1 = existsb p l2).
  { intros A p l1 l2 H. apply eq_true_iff_eq. rewrite !existsb_exists. split; intros (x & I & P); exists x; (split; [apply H, I|exact P]). }
  assert (FD : forall mc d, find_dest n (part_n en loc (noted_ids is_ranks l)) mc d = find_dest n ns mc d).
  { intros mc d. unfold find_dest. rewrite (rank_of_ext n _ (fun q => has_receiver (ns q) (mc_grid mc) (d_point d))); [reflexivity|].
    intros q Hq. unfold has_receiver. apply EX, PN, Hq. }
  assert (FS : forall nc y, find_src n (part_m t em loc (noted_ids is_ranks l)) nc y = find_src n ms nc y).
  { intros nc y. unfold find_src. rewrite (rank_of_ext n _ (fun q => has_donor (ms q) (nc_grid nc) (r_point y))); [reflexivity|].
    intros q Hq. unfold has_donor. apply EX, PM, Hq. }
  assert (B : forall r x', nth_error xs' r = Some x' -> exists x, nth_error xs r = Some x /\ xgood x' /\ man x' = ([], [], [], []) /\ forall k,
    mget pair_less (x_ms x') k = after_m t n em en loc (noted_ids is_create l) (noted_ids is_destroy l) (noted_ids is_ranks l) (noted_ids is_reset l) r k (mget pair_less (x_ms x) k) /\
    mget pair_less (x_ns x') k = after_n t n em en loc (noted_ids is_create l) (noted_ids is_destroy l) (noted_ids is_ranks l) (noted_ids is_reset l) r k (mget pair_less (x_ns x) k)).
  { intros r x' Hx'. assert (Hr : (r < n)%nat) by (rewrite <- L'; apply nth_error_Some; congruence).
    destruct (nth_error xs r) as [x|] eqn:Ex; [|apply nth_error_None in Ex; lia]. destruct (H' r x Ex) as (y & Hy & R). rewrite Hx' in Hy. injection Hy as <-. exists x. auto. }
  assert (AM : forall r x k, nth_error xs r = Some x -> after_m t n em en loc (noted_ids is_create l) (noted_ids is_destroy l) (noted_ids is_ranks l) (noted_ids is_reset l) r k (mget pair_less (x_ms x) k) =
    option_map (fun l0 => let rk := if again k then map (find_dest n ns (conn_m t em r k)) (em r k) else lm_ranks l0 in
      if kin k ov && nonzero (pend k) then LocM rk (Some (map d_lower (em r k), map d_point (em r k), rk)) [] else LocM rk (lm_maps l0) (lm_ops l0)) (mget pair_less (x_ms x) k)).
  { intros r x k Hx. unfold after_m. rewrite Cr, De, Rk, Rs. cbn [kin existsb andb]. cbv zeta.
    destruct (mget pair_less (x_ms x) k) as [l0|] eqn:E0.
    - assert (Lk : loc (fst k) r = true) by (apply (X3 r x k Hx); congruence). rewrite Lk, !andb_true_r. unfold option_map.
      destruct (again k) eqn:Ea.
      + assert (kin k ov && nonzero (pend k) = true) as ->.
        { unfold again in Ea. apply andb_true_iff in Ea as [-> Ea]. apply nonzero_iff in Ea. apply nonzero_iff. intros Z0. rewrite Z0 in Ea. elim Ea; reflexivity. }
        cbn [lm_ranks lm_maps lm_ops]. do 2 f_equal; [|do 2 f_equal]; apply map_ext; intros d; apply FD.
      + destruct (kin k ov && nonzero (pend k)); [reflexivity|]. destruct l0; reflexivity.
    - destruct (again k && loc (fst k) r), (kin k ov && nonzero (pend k) && loc (fst k) r); reflexivity. }
  assert (AN : forall r x k, nth_error xs r = Some x -> after_n t n em en loc (noted_ids is_create l) (noted_ids is_destroy l) (noted_ids is_ranks l) (noted_ids is_reset l) r k (mget pair_less (x_ns x) k) =
    option_map (fun l0 => let rk := if again k then map (find_src n ms (conn_n en r k)) (en r k) else ln_ranks l0 in
      if kin k ov && nonzero (pend k) then LocN rk (Some (map r_point (en r k), rk)) [] else LocN rk (ln_maps l0) (ln_ops l0)) (mget pair_less (x_ns x) k)).
  { intros r x k Hx. unfold after_n. rewrite Cr, De, Rk, Rs. cbn [kin existsb andb]. cbv zeta.
    destruct (mget pair_less (x_ns x) k) as [l0|] eqn:E0.
    - assert (Lk : loc (snd k) r = true) by (apply (X4 r x k Hx); congruence). rewrite Lk, !andb_true_r. unfold option_map.
      destruct (again k) eqn:Ea.
      + assert (kin k ov && nonzero (pend k) = true) as ->.
        { unfold again in Ea. apply andb_true_iff in Ea as [-> Ea]. apply nonzero_iff in Ea. apply nonzero_iff. intros Z0. rewrite Z0 in Ea. elim Ea; reflexivity. }
        cbn [ln_ranks ln_maps ln_ops]. do 2 f_equal; [|do 2 f_equal]; apply map_ext; intros d; apply FS.
      + destruct (kin k ov && nonzero (pend k)); [reflexivity|]. destruct l0; reflexivity.
    - destruct (again k && loc (snd k) r), (kin k ov && nonzero (pend k) && loc (snd k) r); reflexivity. }
  split.
  - exact L'.
  - intros r x' Hx'. destruct (B r x' Hx') as (x & _ & G & M & _). auto.
  - intros r x' k Hx'. destruct (B r x' Hx') as (x & Hx & _ & _ & A). rewrite (proj1 (A k)), (AM r x k Hx), <- (X3 r x k Hx).
    destruct (mget pair_less (x_ms x) k); cbn [option_map]; split; congruence.
  - intros r x' k Hx'. destruct (B r x' Hx') as (x & Hx & _ & _ & A). rewrite (proj2 (A k)), (AN r x k Hx), <- (X4 r x k Hx).
    destruct (mget pair_less (x_ns x) k); cbn [option_map]; split; congruence.
  - intros r x' k l0 Hx' Hl. destruct (B r x' Hx') as (x & Hx & _ & _ & A). rewrite (proj1 (A k)), (AM r x k Hx) in Hl.
    destruct (mget pair_less (x_ms x) k) as [l1|] eqn:E1; [|discriminate]. cbn [option_map] in Hl. injection Hl as <-. cbv zeta.
    destruct (X5 r x k l1 Hx E1) as (P & Q & S).
    assert (Iov : In k ov) by (apply (X3 r x k Hx); congruence). apply kin_spec in Iov. rewrite Iov. cbn [andb]. rewrite P, Q.
    destruct (nonzero (pend k)) eqn:E2.
    + cbn [lm_ranks lm_ops lm_maps]. split; [reflexivity|]. split; [reflexivity|]. intros _. reflexivity.
    + apply nonzero_false in E2. assert (again k = false) as -> by (unfold again; rewrite E2, Iov; reflexivity).
      cbn [lm_ranks lm_ops lm_maps]. split; [reflexivity|]. split; [reflexivity|]. intros _. rewrite (S E2), P. reflexivity.
  - intros r x' k l0 Hx' Hl. destruct (B r x' Hx') as (x & Hx & _ & _ & A). rewrite (proj2 (A k)), (AN r x k Hx) in Hl.
    destruct (mget pair_less (x_ns x) k) as [l1|] eqn:E1; [|discriminate]. cbn [option_map] in Hl. injection Hl as <-. cbv zeta.
    destruct (X6 r x k l1 Hx E1) as (P & Q & S).
    assert (Iov : In k ov) by (apply (X4 r x k Hx); congruence). apply kin_spec in Iov. rewrite Iov. cbn [andb]. rewrite P, Q.
    destruct (nonzero (pend k)) eqn:E2.
    + cbn [ln_ranks ln_ops ln_maps]. split; [reflexivity|]. split; [reflexivity|]. intros _. reflexivity.
    + apply nonzero_false in E2. assert (again k = false) as -> by (unfold again; rewrite E2, Iov; reflexivity).
      cbn [ln_ranks ln_ops ln_maps]. split; [reflexivity|]. split; [reflexivity|]. intros _. rewrite (S E2), P. reflexivity.
Qed.

(** *** Creation *)
Lemma stage_create ov ov' pend ids rm rn om on xs rest : (0 < n)%nat ->
  (forall k, In k ids -> known (fst k) /\ known (snd k)) -> (forall r k, In k ids -> em r k = [] /\ en r k = []) ->
  (forall k, In k ov' <-> In k ov \/ In k ids) ->
  xinv n loc ov pend em en rm rn om on xs ->
  let l := map (fun k => (k, 1%N)) ids in
  exists xs', deliver t n c em en (length (mark_last l ++ rest)) (repeat (mark_last l ++ rest) n) xs =
      deliver t n c em en (length rest) (repeat rest n) xs' /\
    xinv n loc ov' pend em en
      (fun r k => if kin k ids then [] else rm r k) (fun r k => if kin k ids then [] else rn r k)
      (fun r k => if kin k ids then [] else om r k) (fun r k => if kin k ids then [] else on r k) xs'.
Proof.
  intros Hn HK HE HO X l.
  assert (Il : forall k f, In (k, f) l <-> In k ids /\ f = 1%N).
  { intros k f. unfold l. rewrite in_map_iff. split; [intros (j & E & I); injection E as <- <-; auto|intros [I ->]; exists k; auto]. }
  assert (Cr : forall p, p 1%N = true -> forall k, kin k (noted_ids p l) = kin k ids).
  { intros p Hp k. apply kin_iff. rewrite noted_In, kin_spec. split; [intros (f & I & _); apply Il in I; apply I|intros I; exists 1%N; split; [apply Il; auto|exact Hp]]. }
  assert (De : noted_ids is_destroy l = []) by (apply noted_none; intros k f I; apply Il in I as [_ ->]; reflexivity).
  destruct X as [X1 X2 X3 X4 X5 X6].
  destruct (update_noted l xs rest Hn X1 X2) as (xs' & E & L' & H').
  { intros k f I. apply Il in I as (I & _). apply HK, I. }
  { intros r x Hx k Hk. assert (I : In k ids) by (destruct Hk as [Hk|Hk]; apply noted_In in Hk as (f & I & _); apply Il in I; apply I).
    assert (In k (noted_ids is_create l)) by (apply noted_In; exists 1%N; split; [apply Il; auto|reflexivity]).
    split; [auto|]. split; [auto|]. rewrite De. intros []. }
  exists xs'. split; [exact E|].
  assert (B : forall r x', nth_error xs' r = Some x' -> exists x, nth_error xs r = Some x /\ xgood x' /\ man x' = ([], [], [], []) /\ forall k,
    mget pair_less (x_ms x') k = (if kin k ids && loc (fst k) r then Some (LocM [] (Some ([], [], [])) []) else mget pair_less (x_ms x) k) /\
    mget pair_less (x_ns x') k = (if kin k ids && loc (snd k) r then Some (LocN [] (Some ([], [])) []) else mget pair_less (x_ns x) k)).
  { intros r x' Hx'. assert (Hr : (r < n)%nat) by (rewrite <- L'; apply nth_error_Some; congruence).
    destruct (nth_error xs r) as [x|] eqn:Ex; [|apply nth_error_None in Ex; lia]. destruct (H' r x Ex) as (y & Hy & G & M & A). rewrite Hx' in Hy. injection Hy as <-.
    exists x. split; [reflexivity|]. split; [exact G|]. split; [exact M|]. intros k. destruct (A k) as [-> ->]. unfold after_m, after_n.
    rewrite !De, !(Cr is_create eq_refl), !(Cr is_ranks eq_refl), !(Cr is_reset eq_refl). cbn [kin existsb]. cbv zeta.
    destruct (kin k ids) eqn:Ek; cbn [andb]; [|split; reflexivity]. apply kin_spec in Ek. destruct (HE r k Ek) as [-> ->].
    split; [destruct (loc (fst k) r)|destruct (loc (snd k) r)]; reflexivity. }
  split.
  - exact L'.
  - intros r x' Hx'. destruct (B r x' Hx') as (x & _ & G & M & _). auto.
  - intros r x' k Hx'. destruct (B r x' Hx') as (x & Hx & _ & _ & A). rewrite (proj1 (A k)), HO. destruct (kin k ids) eqn:Ek; cbn [andb].
    + apply kin_spec in Ek. destruct (loc (fst k) r) eqn:El; [split; [auto|congruence]|]. rewrite (X3 r x k Hx), El. intuition congruence.
    + rewrite (X3 r x k Hx). assert (~ In k ids) by (rewrite <- kin_spec; congruence). tauto.
  - intros r x' k Hx'. destruct (B r x' Hx') as (x & Hx & _ & _ & A). rewrite (proj2 (A k)), HO. destruct (kin k ids) eqn:Ek; cbn [andb].
    + apply kin_spec in Ek. destruct (loc (snd k) r) eqn:El; [split; [auto|congruence]|]. rewrite (X4 r x k Hx), El. intuition congruence.
    + rewrite (X4 r x k Hx). assert (~ In k ids) by (rewrite <- kin_spec; congruence). tauto.
  - intros r x' k l0 Hx' Hl. destruct (B r x' Hx') as (x & Hx & _ & _ & A). rewrite (proj1 (A k)) in Hl. destruct (kin k ids) eqn:Ek; cbn [andb] in Hl.
    + apply kin_spec in Ek. destruct (HE r k Ek) as [-> _]. destruct (loc (fst k) r) eqn:El.
      * injection Hl as <-. cbn. auto.
      * assert (In k ov /\ loc (fst k) r = true) as [_ F] by (apply (X3 r x k Hx); congruence). congruence.
    + apply (X5 r x k l0 Hx Hl).
  - intros r x' k l0 Hx' Hl. destruct (B r x' Hx') as (x & Hx & _ & _ & A). rewrite (proj2 (A k)) in Hl. destruct (kin k ids) eqn:Ek; cbn [andb] in Hl.
    + apply kin_spec in Ek. destruct (HE r k Ek) as [_ ->]. destruct (loc (snd k) r) eqn:El.
      * injection Hl as <-. cbn. auto.
      * assert (In k ov /\ loc (snd k) r = true) as [_ F] by (apply (X4 r x k Hx); congruence). congruence.
    + apply (X6 r x k l0 Hx Hl).
Qed.

(** *** Destruction *)
Lemma stage_destroy ov ov' pend ids rm rn om on xs rest : (0 < n)%nat ->
  (forall k, In k ids -> known (fst k) /\ known (snd k)) ->
  (forall k, In k ov' <-> In k ov /\ ~ In k ids) ->
  xinv n loc ov pend em en rm rn om on xs ->
  let l := map (fun k => (k, 2%N)) ids in
  exists xs', deliver t n c em en (length (mark_last l ++ rest)) (repeat (mark_last l ++ rest) n) xs =
      deliver t n c em en (length rest) (repeat rest n) xs' /\
    xinv n loc ov' pend em en rm rn om on xs'.
Proof.
  intros Hn HK HO X l.
  assert (Il : forall k f, In (k, f) l <-> In k ids /\ f = 2%N).
  { intros k f. unfold l. rewrite in_map_iff. split; [intros (j & E & I); injection E as <- <-; auto|intros [I ->]; exists k; auto]. }
  assert (No : forall p, p 2%N = false -> noted_ids p l = []) by (intros p Hp; apply noted_none; intros k f I; apply Il in I as [_ ->]; exact Hp).
  assert (De : forall k, kin k (noted_ids is_destroy l) = kin k ids).
  { intros k. apply kin_iff. rewrite noted_In, kin_spec. split; [intros (f & I & _); apply Il in I; apply I|intros I; exists 2%N; split; [apply Il; auto|reflexivity]]. }
  destruct X as [X1 X2 X3 X4 X5 X6].
  destruct (update_noted l xs rest Hn X1 X2) as (xs' & E & L' & H').
  { intros k f I. apply Il in I as (I & _). apply HK, I. }
  { intros r x Hx k Hk. rewrite !No in Hk by reflexivity. destruct Hk as [[]|[]]. }
  exists xs'. split; [exact E|].
  assert (B : forall r x', nth_error xs' r = Some x' -> exists x, nth_error xs r = Some x /\ xgood x' /\ man x' = ([], [], [], []) /\ forall k,
    mget pair_less (x_ms x') k = (if kin k ids then None else mget pair_less (x_ms x) k) /\
    mget pair_less (x_ns x') k = (if kin k ids then None else mget pair_less (x_ns x) k)).
  { intros r x' Hx'. assert (Hr : (r < n)%nat) by (rewrite <- L'; apply nth_error_Some; congruence).
    destruct (nth_error xs r) as [x|] eqn:Ex; [|apply nth_error_None in Ex; lia]. destruct (H' r x Ex) as (y & Hy & G & M & A). rewrite Hx' in Hy. injection Hy as <-.
    exists x. split; [reflexivity|]. split; [exact G|]. split; [exact M|]. intros k. destruct (A k) as [-> ->]. unfold after_m, after_n.
    rewrite !De, !(No is_create), !(No is_ranks), !(No is_reset) by reflexivity. cbn [kin existsb andb]. split; reflexivity. }
  split.
  - exact L'.
  - intros r x' Hx'. destruct (B r x' Hx') as (x & _ & G & M & _). auto.
  - intros r x' k Hx'. destruct (B r x' Hx') as (x & Hx & _ & _ & A). rewrite (proj1 (A k)), HO, <- (kin_spec k ids). destruct (kin k ids); [intuition congruence|].
    rewrite (X3 r x k Hx). intuition congruence.
  - intros r x' k Hx'. destruct (B r x' Hx') as (x & Hx & _ & _ & A). rewrite (proj2 (A k)), HO, <- (kin_spec k ids). destruct (kin k ids); [intuition congruence|].
    rewrite (X4 r x k Hx). intuition congruence.
  - intros r x' k l0 Hx' Hl. destruct (B r x' Hx') as (x & Hx & _ & _ & A). rewrite (proj1 (A k)) in Hl. destruct (kin k ids); [discriminate|]. apply (X5 r x k l0 Hx Hl).
  - intros r x' k l0 Hx' Hl. destruct (B r x' Hx') as (x & Hx & _ & _ & A). rewrite (proj2 (A k)) in Hl. destruct (kin k ids); [discriminate|]. apply (X6 r x k l0 Hx Hl).
Qed.

(** *** Binding *)
Lemma bind_fold ids : forall x, (sok pair_less (x_create x) /\ sok pair_less (x_ranks x) /\ sok pair_less (x_reset x)) ->
  let x' := fold_left (fun x k => XR (x_ms x) (x_ns x) (set_insert pair_less (x_create x) k) (x_destroy x)
                          (set_insert pair_less (x_ranks x) k) (set_insert pair_less (x_reset x) k)) ids x in
  let add := fold_left (set_insert pair_less) ids in
  x_ms x' = x_ms x /\ x_ns x' = x_ns x /\ man x' = (add (x_create x), x_destroy x, add (x_ranks x), add (x_reset x)).
Proof.
  induction ids as [|k ids IH]; intros x H; [cbn; auto|]. cbn [fold_left]. destruct H as (H1 & H2 & H3).
  destruct (IH (XR (x_ms x) (x_ns x) (set_insert pair_less (x_create x) k) (x_destroy x) (set_insert pair_less (x_ranks x) k) (set_insert pair_less (x_reset x) k))) as (A & B & C0).
  - cbn. split; [|split]; apply (sok_insert pair_less pair_swo); assumption.
  - cbn in A, B, C0 |- *. auto.
Qed.
Lemma add_fold ids : forall s, sok pair_less s -> sok pair_less (fold_left (set_insert pair_less) ids s) /\
  forall k, In k (fold_left (set_insert pair_less) ids s) <-> In k s \/ In k ids.
Proof.
  induction ids as [|j ids IH]; intros s H; [cbn; split; [exact H|]; tauto|]. cbn [fold_left].
  destruct (IH (set_insert pair_less s j)) as [A B]; [apply (sok_insert pair_less pair_swo); exact H|]. split; [exact A|]. intros k.
  rewrite B, (In_set_insert pair_less pair_swo pEQ s j k H). cbn [In]. intuition congruence.
Qed.

Lemma stage_bind ov pend rss xs : length xs = n -> length rss = n ->
  (forall k, In k ov -> known (fst k) /\ known (snd k)) ->
  (forall r x, nth_error xs r = Some x -> xgood x /\ man x = ([], [], [], []) /\ forall k, mget pair_less (x_ms x) k = None /\ mget pair_less (x_ns x) k = None) ->
  (forall r rs, nth_error rss r = Some rs -> m_keys (r_recs rs) = ov) ->
  let ms := fun q => map (conn_m t em q) (filter (fun k => loc (fst k) q) ov) in
  let ns := fun q => map (conn_n en q) (filter (fun k => loc (snd k) q) ov) in
  exists xs', update t n c em en (map bind_noted (combine rss xs)) = Some xs' /\
    xinv n loc ov pend em en (fun r k => map (find_dest n ns (conn_m t em r k)) (em r k)) (fun r k => map (find_src n ms (conn_n en r k)) (en r k))
      (fun _ _ => []) (fun _ _ => []) xs'.
Proof.
  intros Ln Lr HK HX HR ms ns. set (I := fold_left (set_insert pair_less) ov []).
  destruct (add_fold ov [] (sok_nil _)) as [GI II]. fold I in GI, II.
  assert (Ki : forall k, kin k I = kin k ov) by (intros k; apply kin_iff; rewrite II, kin_spec; cbn; tauto).
  assert (KO : ok_ids known I).
  { split; [eapply sok_NoDup; [exact pair_swo|exact GI]|]. intros k Ik. apply II in Ik as [[]|Ik]. apply HK, Ik. }
  assert (Hc : forall r y, nth_error (map bind_noted (combine rss xs)) r = Some y -> exists x, nth_error xs r = Some x /\ x_ms y = x_ms x /\ x_ns y = x_ns x /\ man y = (I, [], I, I)).
  { intros r y Hy. rewrite nth_error_map in Hy. destruct (nth_error (combine rss xs) r) as [[rs x]|] eqn:E; [|discriminate]. injection Hy as <-.
    assert (E1 : nth_error rss r = Some rs /\ nth_error xs r = Some x).
    { clear -E. revert xs r E. induction rss as [|a l IH]; intros [|b xs] [|r] E; cbn in *; try discriminate; [injection E as <- <-; auto|apply IH, E]. }
    destruct E1 as [E1 E2]. exists x. split; [exact E2|]. unfold bind_noted. cbn [fst snd]. rewrite (HR r rs E1). destruct (HX r x E2) as (_ & M & _). unfold man in M. injection M as M1 M2 M3 M4.
    destruct (bind_fold ov x) as (A & B & C0); [rewrite M1, M3, M4; split; [|split]; apply sok_nil|]. rewrite C0, M1, M2, M3, M4. auto. }
  destruct (update_ok t n c em en loc known HL I [] I I KO KO KO (map bind_noted (combine rss xs))) as (xs' & E & L' & H').
  - rewrite map_length, combine_length. lia.
  - intros r y Hy. destruct (Hc r y Hy) as (x & Hx & A & B & M). destruct (HX r x Hx) as (G & _ & _). split; [unfold xgood; rewrite A, B; exact G|]. split; [exact M|].
    intros k [Hk|Hk]; (split; [auto|]; split; [auto|intros []]).
  - exists xs'. split; [exact E|].
    assert (EX : forall {A} (p : A -> bool) l1 l2, (forall x, In x l1 <-> In x l2) -> existsb p l1 = existsb p l2).
    { intros A p l1 l2 H. apply eq_true_iff_eq. rewrite !existsb_exists. split; intros (x & J & P); exists x; (split; [apply H, J|exact P]). }
    assert (FD : forall mc d, find_dest n (part_n en loc I) mc d = find_dest n ns mc d).
    { intros mc d. unfold find_dest. rewrite (rank_of_ext n _ (fun q => has_receiver (ns q) (mc_grid mc) (d_point d))); [reflexivity|].
      intros q Hq. unfold has_receiver. apply EX. intros p. unfold part_n, ns. rewrite !in_map_iff. split; intros (k & <- & J); exists k; (split; [reflexivity|]);
        apply filter_In in J as [J Lk]; apply filter_In; (split; [|exact Lk]); apply II in J || apply II; cbn in *; tauto. }
    assert (FS : forall nc y, find_src n (part_m t em loc I) nc y = find_src n ms nc y).
    { intros nc y. unfold find_src. rewrite (rank_of_ext n _ (fun q => has_donor (ms q) (nc_grid nc) (r_point y))); [reflexivity|].
      intros q Hq. unfold has_donor. apply EX. intros p. unfold part_m, ms. rewrite !in_map_iff. split; intros (k & <- & J); exists k; (split; [reflexivity|]);
        apply filter_In in J as [J Lk]; apply filter_In; (split; [|exact Lk]); apply II in J || apply II; cbn in *; tauto. }
    assert (Lc : length (map bind_noted (combine rss xs)) = n) by (rewrite map_length, combine_length; lia).
    assert (B : forall r x', nth_error xs' r = Some x' -> xgood x' /\ man x' = ([], [], [], []) /\ forall k,
      mget pair_less (x_ms x') k = (if kin k ov && loc (fst k) r then let rk := map (find_dest n ns (conn_m t em r k)) (em r k) in Some (LocM rk (Some (map d_lower (em r k), map d_point (em r k), rk)) []) else None) /\
      mget pair_less (x_ns x') k = (if kin k ov && loc (snd k) r then let rk := map (find_src n ms (conn_n en r k)) (en r k) in Some (LocN rk (Some (map r_point (en r k), rk)) []) else None)).
    { intros r x' Hx'. assert (Hr : (r < n)%nat) by (rewrite <- L'; apply nth_error_Some; congruence).
      destruct (nth_error (map bind_noted (combine rss xs)) r) as [y|] eqn:Ey; [|apply nth_error_None in Ey; lia].
      destruct (H' r y Ey) as (y' & Hy & G & M & A). rewrite Hx' in Hy. injection Hy as <-. destruct (Hc r y Ey) as (x & Hx & Am & An & _). destruct (HX r x Hx) as (_ & _ & N0).
      split; [exact G|]. split; [exact M|]. intros k. destruct (A k) as [-> ->]. unfold after_m, after_n. rewrite Am, An, (proj1 (N0 k)), (proj2 (N0 k)), Ki. cbn [kin existsb]. cbv zeta.
      rewrite (map_ext _ _ (FD (conn_m t em r k))), (map_ext _ _ (FS (conn_n en r k))).
      split; [destruct (kin k ov && loc (fst k) r)|destruct (kin k ov && loc (snd k) r)]; reflexivity. }
    split.
    + exact L'.
    + intros r x' Hx'. destruct (B r x' Hx') as (G & M & _). auto.
    + intros r x' k Hx'. destruct (B r x' Hx') as (_ & _ & A). rewrite (proj1 (A k)), <- (kin_spec k ov). destruct (kin k ov), (loc (fst k) r); cbn; intuition congruence.
    + intros r x' k Hx'. destruct (B r x' Hx') as (_ & _ & A). rewrite (proj2 (A k)), <- (kin_spec k ov). destruct (kin k ov), (loc (snd k) r); cbn; intuition congruence.
    + intros r x' k l0 Hx' Hl. destruct (B r x' Hx') as (_ & _ & A). rewrite (proj1 (A k)) in Hl. destruct (kin k ov && loc (fst k) r); [|discriminate]. injection Hl as <-. cbn. auto.
    + intros r x' k l0 Hx' Hl. destruct (B r x' Hx') as (_ & _ & A). rewrite (proj2 (A k)) in Hl. destruct (kin k ov && loc (snd k) r); [|discriminate]. injection Hl as <-. cbn. auto.
Qed.
End Stages.

(** What is said of connectivities that are there. *)
Lemma xinv_ext n loc loc' ov ov' pend pend' em em' en en' rm rm' rn rn' om om' on on' xs :
  (forall k, In k ov <-> In k ov') ->
  (forall k r, In k ov -> loc (fst k) r = loc' (fst k) r /\ loc (snd k) r = loc' (snd k) r) ->
  (forall k, In k ov -> pend' k = 0%N -> pend k = 0%N /\ forall r, em' r k = em r k /\ en' r k = en r k) ->
  (forall k r, In k ov -> rm' r k = rm r k /\ rn' r k = rn r k /\ om' r k = om r k /\ on' r k = on r k) ->
  xinv n loc ov pend em en rm rn om on xs -> xinv n loc' ov' pend' em' en' rm' rn' om' on' xs.
Proof.
  intros HO HLc HP HR [X1 X2 X3 X4 X5 X6]. split; [exact X1|exact X2| | | |].
  - intros r x k Hx. rewrite (X3 r x k Hx), <- HO. split; intros [I L]; (split; [exact I|]); destruct (HLc k r I) as [A _]; congruence.
  - intros r x k Hx. rewrite (X4 r x k Hx), <- HO. split; intros [I L]; (split; [exact I|]); destruct (HLc k r I) as [_ A]; congruence.
  - intros r x k l Hx Hl. assert (I : In k ov) by (apply (X3 r x k Hx); congruence). destruct (X5 r x k l Hx Hl) as (A & B & C).
    destruct (HR k r I) as (-> & _ & -> & _). split; [exact A|]. split; [exact B|]. intros P0. destruct (HP k I P0) as [P1 E]. destruct (E r) as [-> _]. apply C, P1.
  - intros r x k l Hx Hl. assert (I : In k ov) by (apply (X4 r x k Hx); congruence). destruct (X6 r x k l Hx Hl) as (A & B & C).
    destruct (HR k r I) as (_ & -> & _ & ->). split; [exact A|]. split; [exact B|]. intros P0. destruct (HP k I P0) as [P1 E]. destruct (E r) as [_ ->]. apply C, P1.
Qed.
