(** Proofs about texts. *)
From Coq Require Import List ZArith Bool Ascii String Lia.
From Verif Require Import HashModel TxtModel TxtSpec.
Import ListNotations.
Local Open Scope Z_scope.

(** * StringPrint *)
Lemma is_pct_iff c : is_pct c = true <-> c = "%"%char.
Proof. unfold is_pct. apply Ascii.eqb_eq. Qed.
Lemma pct_eqb c : Ascii.eqb "%" c = is_pct c.
Proof. unfold is_pct. rewrite Ascii.eqb_sym. reflexivity. Qed.

Definition at_pct (g : str) : Prop := match g with [] => True | c :: _ => is_pct c = true end.

Lemma span_pct l : exists b g, l = b ++ g /\ plain b /\ at_pct g.
Proof.
  induction l as [|c l (b & g & E & P & G)]; [exists [], []; cbn; split; [reflexivity|]; split; [intros c []|exact Logic.I]|]. destruct (is_pct c) eqn:Ec.
  - exists [], (c :: l). split; [reflexivity|]. split; [intros x []|exact Ec].
  - exists (c :: b), g. split; [rewrite E; reflexivity|]. split; [|exact G]. intros x [<-|Hx]; [exact Ec|apply P, Hx].
Qed.
Lemma plain_cons c l : plain (c :: l) -> is_pct c = false /\ plain l.
Proof. intros P. split; [apply P; left; reflexivity|]. intros x Hx. apply P. right. exact Hx. Qed.

Section Print.
Context {A : Type}.
Variable conv : str -> A -> option str.

Lemma printf_literal l : forall g args, plain l -> printf conv None (l ++ g) args = let! t := printf conv None g args in Some (l ++ t).
Proof.
  induction l as [|c l IH]; intros g args P; cbn [app printf]; [destruct (printf conv None g args); reflexivity|]. apply plain_cons in P. destruct P as [Pc P]. rewrite Pc, (IH g args P).
  destruct (printf conv None g args); reflexivity.
Qed.
Lemma printf_conversion b : forall acc g a rest, plain b -> at_pct g -> (acc <> [] \/ b <> []) ->
  printf conv (Some acc) (b ++ g) (a :: rest) = let! x := printf conv (Some acc) b [a] in let! t := printf conv None g rest in Some (x ++ t).
Proof.
  induction b as [|c b IH]; intros acc g a rest P G N.
  - destruct N as [N|N]; [|congruence]. cbn [app printf]. destruct g as [|c g]; [reflexivity|]. cbn [at_pct] in G. cbn [printf]. rewrite G. destruct acc; [congruence|reflexivity].
  - apply plain_cons in P. destruct P as [Pc P]. cbn [app printf]. rewrite Pc. destruct (is_flag c).
    + apply IH; [exact P|exact G|]. left. destruct acc; discriminate.
    + destruct (is_letter c); [|reflexivity]. destruct (conv (acc ++ [c]) a) as [x|]; [|reflexivity]. rewrite (printf_literal b g rest P).
      pose proof (printf_literal b [] [] P) as L. rewrite app_nil_r in L. cbn [printf] in L. rewrite L. destruct (printf conv None g rest); [|reflexivity]. rewrite app_nil_r, app_assoc. reflexivity.
Qed.

Lemma no_escapes_cons c l : no_escapes (c :: l) -> no_escapes l.
Proof. intros N a b E. apply (N (c :: a) b). rewrite E. reflexivity. Qed.
Lemma no_escapes_app a l : no_escapes (a ++ l) -> no_escapes l.
Proof. induction a as [|c a IH]; intros N; [exact N|]. apply IH, (no_escapes_cons c). exact N. Qed.
Lemma no_escapes_split c l : no_escapes (c :: l) -> splits_at c l = is_pct c.
Proof.
  intros N. unfold splits_at. destruct (is_pct c) eqn:E; [|reflexivity]. cbn [andb]. destruct l as [|d l]; [reflexivity|]. destruct (is_pct d) eqn:D; [|reflexivity].
  apply is_pct_iff in E. apply is_pct_iff in D. subst. exfalso. apply (N [] l). reflexivity.
Qed.
Lemma num_splits_percents fmt : no_escapes fmt -> num_splits fmt = percents fmt.
Proof.
  unfold percents. induction fmt as [|c l IH]; intros N; [reflexivity|]. cbn [num_splits filter]. rewrite pct_eqb. pose proof (no_escapes_split c l N) as Sp. rewrite Sp. specialize (IH (no_escapes_cons _ _ N)). destruct (is_pct c); cbn [List.length]; rewrite IH; reflexivity.
Qed.
Lemma first_split_plain b : forall k i g, plain b -> no_escapes (b ++ g) -> first_split k i (b ++ g) = first_split k (i + List.length b) g.
Proof.
  induction b as [|c b IH]; intros k i g P N; cbn [app List.length]; [rewrite Nat.add_0_r; reflexivity|]. apply plain_cons in P. destruct P as [Pc P]. cbn [first_split].
  rewrite (no_escapes_split c (b ++ g) N), Pc, andb_false_r. rewrite IH; [|exact P|apply (no_escapes_cons c (b ++ g) N)]. f_equal. lia.
Qed.
Lemma first_split_here k i g : no_escapes g -> (k <= i)%nat -> at_pct g -> first_split k i g = match g with [] => None | _ => Some i end.
Proof.
  intros N K G. destruct g as [|c g]; [reflexivity|]. cbn [first_split]. cbn in G. rewrite (no_escapes_split c g N), G. destruct (Nat.leb_spec k i); [reflexivity|lia].
Qed.
Lemma percents_plain b g : plain b -> percents (b ++ g) = percents g.
Proof. unfold percents. induction b as [|c b IH]; intros P; [reflexivity|]. apply plain_cons in P. destruct P as [Pc P]. cbn [app filter]. rewrite pct_eqb, Pc. apply IH, P. Qed.

Lemma print_append_cons fmt a a2 rest : print_append conv fmt (a :: a2 :: rest) =
  let i := match first_split 1 0 fmt with Some i => i | None => O end in
  let! x := printf conv None (firstn i fmt) [a] in let! t := print_append conv (skipn i fmt) (a2 :: rest) in Some (x ++ t).
Proof. reflexivity. Qed.
Lemma print_append_ok args : forall c t, is_pct c = true -> no_escapes (c :: t) -> percents (c :: t) = List.length args -> print_append conv (c :: t) args = printf conv None (c :: t) args.
Proof.
  induction args as [|a rest IH]; intros c t Hc N Hn; [unfold percents in Hn; cbn [filter] in Hn; rewrite pct_eqb, Hc in Hn; discriminate|].
  destruct (span_pct t) as (b & g & -> & P & G). assert (Ng : no_escapes g) by (apply (no_escapes_app b), (no_escapes_cons c), N).
  assert (Hb : g <> [] -> b <> []).
  { intros Hg ->. destruct g as [|d g]; [congruence|]. cbn in G. apply is_pct_iff in G. apply is_pct_iff in Hc. subst. apply (N [] g). reflexivity. }
  assert (Hg : percents g = List.length rest). { unfold percents in *. cbn [filter] in Hn. rewrite pct_eqb, Hc in Hn. cbn [List.length] in Hn. injection Hn as Hn. rewrite <- Hn. symmetry. apply (percents_plain b g P). }
  destruct rest as [|a2 rest]; [reflexivity|].
  destruct g as [|d g]; [cbn in Hg; discriminate|]. rewrite print_append_cons. cbv zeta.
  assert (F : first_split 1 0 (c :: b ++ d :: g) = Some (S (List.length b))).
  { cbn [first_split]. change (Nat.leb 1 0) with false. cbn [andb]. rewrite first_split_plain; [|exact P|apply (no_escapes_cons c), N]. rewrite first_split_here; [f_equal; lia|exact Ng|lia|exact G]. }
  rewrite F. cbn [firstn skipn]. rewrite firstn_app, Nat.sub_diag, firstn_all, app_nil_r, skipn_app, skipn_all, Nat.sub_diag. cbn [app firstn skipn]. rewrite (IH d g G Ng Hg).
  cbn [printf]. rewrite Hc. rewrite (printf_conversion b [] (d :: g) a (a2 :: rest) P G); [|right; apply Hb; discriminate]. reflexivity.
Qed.

Theorem string_print_ok debug fmt args : no_escapes fmt -> percents fmt = List.length args -> string_print conv debug fmt args = printf conv None fmt args.
Proof.
  intros N Hn. destruct (span_pct fmt) as (b & g & -> & P & G). assert (Ng : no_escapes g) by (apply (no_escapes_app b), N). destruct args as [|a args].
  - rewrite percents_plain in Hn by exact P. destruct g as [|c g]; [|unfold percents in Hn; cbn [filter] in Hn; rewrite pct_eqb in Hn; cbn in G; rewrite G in Hn; discriminate].
    cbn [string_print]. rewrite (printf_literal b [] [] P). cbn. reflexivity.
  - unfold string_print. rewrite (num_splits_percents _ N), Hn, Nat.eqb_refl, andb_false_r, (first_split_plain b 0 0 g P N), (first_split_here 0 _ g Ng ltac:(lia) G).
    rewrite percents_plain in Hn by exact P. destruct g as [|c g]; [discriminate Hn|]. cbn [Nat.add]. rewrite firstn_app, Nat.sub_diag, firstn_all, skipn_app, skipn_all, Nat.sub_diag. cbn [firstn skipn app].
    rewrite app_nil_r, (print_append_ok _ c g G Ng Hn), (printf_literal b (c :: g) _ P). reflexivity.
Qed.
End Print.

(** * StringReplace *)
Lemma starts_iff sub : forall s, starts sub s = true <-> exists t, s = sub ++ t.
Proof.
  induction sub as [|a sub IH]; intros s; cbn; [split; [intros _; exists s; reflexivity|reflexivity]|]. destruct s as [|b s]; [split; [discriminate|intros (t & E); discriminate]|].
  rewrite andb_true_iff, Ascii.eqb_eq, IH. split.
  - intros [-> (t & ->)]. exists t. reflexivity.
  - intros (t & E). injection E as -> ->. split; [reflexivity|]. exists t. reflexivity.
Qed.
Lemma occurs_0 sub s : occurs_at sub s 0 <-> starts sub s = true.
Proof.
  rewrite starts_iff. split; [intros ([|c p] & t & E & L); [exists t; exact E|discriminate]|intros (t & ->); exists [], t; auto].
Qed.
Lemma occurs_S sub c s i : occurs_at sub (c :: s) (S i) <-> occurs_at sub s i.
Proof.
  split.
  - intros ([|d p] & t & E & L); [discriminate|]. injection E as _ E. exists p, t. cbn in L. split; [exact E|lia].
  - intros (p & t & -> & <-). exists (c :: p), t. auto.
Qed.
Lemma find_sub_ok sub s : match find_sub sub s with
  | None => forall i, ~ occurs_at sub s i
  | Some i => s = firstn i s ++ sub ++ skipn (i + List.length sub) s /\ List.length (firstn i s) = i /\ forall j, occurs_at sub s j -> (i <= j)%nat
  end.
Proof.
  induction s as [|c s IH]; cbn [find_sub].
  - destruct (starts sub []) eqn:E.
    + apply starts_iff in E. destruct E as (t & E). destruct sub; [|discriminate]. split; [reflexivity|]. split; [reflexivity|]. intros j _. lia.
    + intros i (p & t & Ht & _). destruct p; [|discriminate]. destruct sub; discriminate.
  - destruct (starts sub (c :: s)) eqn:E.
    + apply starts_iff in E. destruct E as (t & E). rewrite E. cbn [firstn app Nat.add]. rewrite skipn_app, skipn_all, Nat.sub_diag. split; [reflexivity|]. split; [reflexivity|]. intros j _. lia.
    + destruct (find_sub sub s) as [i|].
      * destruct IH as (E1 & E2 & E3). cbn [firstn Nat.add skipn app List.length]. split; [rewrite <- E1; reflexivity|]. split; [rewrite E2; reflexivity|].
        intros [|j] O; [pose proof (proj1 (occurs_0 sub (c :: s)) O); congruence|]. specialize (E3 j (proj1 (occurs_S sub c s j) O)). lia.
      * intros [|i] O; [pose proof (proj1 (occurs_0 sub (c :: s)) O); congruence|]. exact (IH i (proj1 (occurs_S sub c s i) O)).
Qed.
Lemma replace_loop_ok sub rep : sub <> [] -> forall turns s, (List.length s < turns)%nat -> exists t, replace_loop turns sub rep s = Some t /\ replaced sub rep s t.
Proof.
  intros Hs. induction turns as [|turns IH]; intros s L; [lia|]. cbn [replace_loop]. pose proof (find_sub_ok sub s) as F. destruct (find_sub sub s) as [i|]; [|exists s; split; [reflexivity|apply RNone, F]].
  destruct F as (E1 & E2 & E3). destruct (IH (skipn (i + List.length sub) s)) as (t & Et & R).
  { rewrite skipn_length. assert (List.length sub <> 0%nat) by (destruct sub; [congruence|discriminate]). assert (List.length s = List.length (firstn i s ++ sub ++ skipn (i + List.length sub) s)) as Le by (rewrite <- E1; reflexivity).
    rewrite !app_length, E2 in Le. lia. }
  rewrite Et. eexists. split; [reflexivity|]. rewrite E1 at 1. apply ROne; [|exact R]. rewrite <- E1, E2. exact E3.
Qed.
Lemma replaced_unique sub rep s t : sub <> [] -> replaced sub rep s t -> forall t', replaced sub rep s t' -> t = t'.
Proof.
  intros Hs R. induction R as [s N|p s t M R IH]; intros t' R'.
  - inversion R' as [|p s2 t2 M R2 E1 E2]; subst; [reflexivity|]. exfalso. apply (N (List.length p)). exists p, s2. auto.
  - remember (p ++ sub ++ s) as w eqn:Ew. destruct R' as [w N|p2 s2 t2 M2 R2].
    + exfalso. apply (N (List.length p)). exists p, s. rewrite Ew. auto.
    + assert (L1 : (List.length p <= List.length p2)%nat) by (apply M; exists p2, s2; auto).
      assert (L2 : (List.length p2 <= List.length p)%nat) by (apply M2; exists p, s; auto).
      assert (Lp : List.length p2 = List.length p) by lia.
      assert (Ep : p2 = p). { apply (f_equal (firstn (List.length p))) in Ew. rewrite !firstn_app, Lp, !Nat.sub_diag in Ew. cbn [firstn] in Ew. rewrite !app_nil_r, firstn_all, <- Lp, firstn_all in Ew. exact Ew. }
      subst p2. apply app_inv_head in Ew. apply app_inv_head in Ew. subst s2. rewrite (IH t2 R2). reflexivity.
Qed.
Lemma replace_empty rep s : forall turns, replace_loop turns [] rep s = None.
Proof.
  induction turns as [|turns IH]; [reflexivity|]. cbn [replace_loop]. assert (E : find_sub [] s = Some O) by (destruct s; reflexivity). rewrite E. cbn [Nat.add List.length skipn]. rewrite IH. reflexivity.
Qed.

Lemma replace_all sub rep s : sub <> [] -> exists t, replace_loop (S (List.length s)) sub rep s = Some t /\ replaced sub rep s t /\ forall t', replaced sub rep s t' -> t' = t.
Proof.
  intros H. destruct (replace_loop_ok sub rep H (S (List.length s)) s ltac:(lia)) as (t & E & R). exists t. split; [exact E|]. split; [exact R|]. intros t' R'. exact (replaced_unique sub rep s t' H R' t R).
Qed.

(** * FormatNumber *)
Lemma digit_ok d : 0 <= d <= 9 -> digit_value (digit d) = d.
Proof. intros H. unfold digit_value, digit. rewrite nat_ascii_embedding by lia. lia. Qed.
Lemma digit_is d : 0 <= d <= 9 -> is_digit (digit d).
Proof. intros H. unfold is_digit. rewrite digit_ok by exact H. exact H. Qed.
Lemma value_snoc s c : value (s ++ [c]) = 10 * value s + digit_value c.
Proof. unfold value. rewrite fold_left_app. reflexivity. Qed.
Lemma digit_zero d : 0 <= d <= 9 -> digit d = "0"%char -> d = 0.
Proof. intros H E. pose proof (digit_ok d H) as X. rewrite E in X. rewrite <- X. reflexivity. Qed.

Lemma digits_ok fuel : forall n, 0 <= n < 2 ^ Z.of_nat fuel -> (0 < fuel)%nat ->
  value (digits fuel n) = n /\ Forall is_digit (digits fuel n) /\ digits fuel n <> [] /\ (hd "0"%char (digits fuel n) = "0"%char -> n = 0 /\ digits fuel n = ["0"%char]).
Proof.
  induction fuel as [|fuel IH]; intros n Hn Hf; [lia|]. cbn [digits]. destruct (Z.ltb_spec n 10) as [L|L].
  - split; [unfold value; cbn -[digit digit_value]; rewrite digit_ok by lia; lia|]. split; [constructor; [apply digit_is; lia|constructor]|]. split; [discriminate|]. cbn [hd]. intros E. assert (n = 0) by (apply digit_zero; [lia|exact E]). subst n. split; [reflexivity|]. rewrite E. reflexivity.
  - assert (P : 2 ^ Z.of_nat (S fuel) = 2 * 2 ^ Z.of_nat fuel) by (rewrite Nat2Z.inj_succ, Z.pow_succ_r; lia).
    pose proof (Z.div_mod n 10 ltac:(lia)) as D. pose proof (Z.mod_pos_bound n 10 ltac:(lia)) as Mb.
    destruct (IH (n / 10)) as (V & F & Ne & Hd); [rewrite P in Hn; split; [apply Z.div_pos; lia|]; lia| |].
    { destruct fuel; [cbn in Hn; lia|lia]. }
    split; [rewrite value_snoc, V, digit_ok by lia; lia|]. split; [apply Forall_app; split; [exact F|constructor; [apply digit_is; lia|constructor]]|]. split; [intros E; apply app_eq_nil in E; destruct E; discriminate|].
    destruct (digits fuel (n / 10)) as [|c l] eqn:E; [congruence|]. cbn [app hd]. intros Ec. destruct (Hd Ec) as [Z0 _]. nia.
Qed.
Lemma decimal_ok n : 0 <= n -> value (decimal n) = n /\ Forall is_digit (decimal n) /\ decimal n <> [] /\ (hd "0"%char (decimal n) = "0"%char -> n = 0 /\ decimal n = ["0"%char]).
Proof.
  intros H. unfold decimal. apply digits_ok; [|lia]. split; [exact H|]. rewrite Nat2Z.inj_succ, Z2Nat.id by apply Z.log2_nonneg.
  destruct (Z.eq_dec n 0) as [->|]; [cbn; lia|]. apply Z.log2_spec. lia.
Qed.
Lemma commas_ok k : forall l j, List.length l = (3 * k)%nat -> j mod 3 = 0 -> exists gs, with_commas j l = List.concat (map (cons ","%char) gs) /\ List.concat gs = l /\ forall x, In x gs -> List.length x = 3%nat.
Proof.
  induction k as [|k IH]; intros l j L J.
  - destruct l; [|discriminate]. exists []. split; [reflexivity|]. split; [reflexivity|]. intros x [].
  - destruct l as [|a [|b [|c l]]]; cbn [List.length] in L; try lia. destruct (IH l (j + 1 + 1 + 1)) as (gs & E1 & E2 & E3); [lia|replace (j + 1 + 1 + 1) with (j + 1 * 3) by lia; rewrite Z.mod_add by lia; exact J|].
    exists ([a; b; c] :: gs). cbn [with_commas]. rewrite J, (Z.add_mod j 1 3), (Z.add_mod (j + 1) 1 3), (Z.add_mod j 1 3), J by lia. cbn. rewrite E1, E2. split; [reflexivity|]. split; [reflexivity|]. intros x [<-|Hx]; [reflexivity|apply E3, Hx].
Qed.
Lemma format_size_ok n : 0 <= n -> reads (format_size n) n.
Proof.
  intros H. destruct (decimal_ok n H) as (V & F & Ne & Hd). unfold format_size. set (s := decimal n) in *. cbv zeta. set (b := Z.to_nat ((Z.of_nat (List.length s) - 1) mod 3 + 1)).
  assert (Ls : (1 <= List.length s)%nat) by (destruct s; [congruence|cbn; lia]).
  pose proof (Z.mod_pos_bound (Z.of_nat (List.length s) - 1) 3 ltac:(lia)) as Mb. pose proof (Z.div_mod (Z.of_nat (List.length s) - 1) 3 ltac:(lia)) as Dm.
  set (q := (Z.of_nat (List.length s) - 1) / 3) in *. assert (Q : 0 <= q) by (apply Z.div_pos; lia).
  destruct (commas_ok (Z.to_nat q) (skipn b s) 0) as (gs & E1 & E2 & E3); [rewrite skipn_length; unfold b; lia|reflexivity|].
  exists (firstn b s), gs. rewrite E1, E2, firstn_skipn. assert (Lb : List.length (firstn b s) = b) by (rewrite firstn_length; unfold b; lia).
  split; [reflexivity|]. split; [rewrite Lb; unfold b; lia|]. split; [exact E3|]. split; [exact F|]. split; [exact V|].
  intros Hz. assert (B1 : exists b', b = S b') by (exists (pred b); unfold b; lia). destruct B1 as [b' B1].
  destruct (Hd ltac:(rewrite <- Hz, B1; destruct s; reflexivity)) as [N0 S0]. split; [exact N0|]. rewrite S0 in *. rewrite B1 in *. cbn [firstn skipn] in *. destruct b'; cbn [firstn skipn] in *; (split; [reflexivity|]);
    (destruct gs as [|x gs]; [reflexivity|exfalso; specialize (E3 x (or_introl eq_refl)); destruct x; [discriminate|discriminate]]).
Qed.

Lemma no_comma c : is_digit c -> c <> ","%char. Proof. intros H ->. destruct H as [H _]. vm_compute in H. apply H. reflexivity. Qed.
Lemma filter_digits l : Forall is_digit l -> filter (fun c => negb (Ascii.eqb c ",")) l = l.
Proof. induction 1 as [|c l H F IH]; [reflexivity|]. cbn. destruct (Ascii.eqb_spec c ","); [exfalso; apply (no_comma c H); assumption|]. cbn. rewrite IH. reflexivity. Qed.
Lemma filter_groups gs : Forall is_digit (List.concat gs) -> filter (fun c => negb (Ascii.eqb c ",")) (List.concat (map (cons ","%char) gs)) = List.concat gs.
Proof.
  induction gs as [|g gs IH]; intros F; [reflexivity|]. cbn [map List.concat] in *. apply Forall_app in F. destruct F as [F1 F2]. cbn [app filter]. change (negb (Ascii.eqb "," ",")) with false. cbn iota.
  rewrite filter_app, (filter_digits g F1), (IH F2). reflexivity.
Qed.
Lemma reads_strip s n : reads s n -> value (filter (fun c => negb (Ascii.eqb c ",")) s) = n.
Proof.
  intros (g & gs & -> & _ & _ & F & V & _). pose proof F as F'. apply Forall_app in F'. destruct F' as [F1 F2]. rewrite filter_app, (filter_digits g F1), (filter_groups gs F2). exact V.
Qed.
Lemma reads_unique s n m : reads s n -> reads s m -> n = m.
Proof. intros A B. rewrite <- (reads_strip s n A). apply reads_strip, B. Qed.
Lemma reads_no_sign s n : reads s n -> forall t, s <> "-"%char :: t.
Proof.
  intros (g & gs & -> & L & _ & F & _) t E. destruct g as [|c g]; [cbn in L; lia|]. injection E as -> _. cbn [app] in F. inversion F as [|? ? D _]; subst. destruct D as [D _]. vm_compute in D. apply D. reflexivity.
Qed.
