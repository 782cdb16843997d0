(** Numbers and messages; cases and counterexamples for texts. *)
From Coq Require Import List ZArith Bool Ascii String Lia.
From Verif Require Import HashModel TxtModel TxtSpec TxtProof.
Import ListNotations.
Local Open Scope Z_scope.

Lemma number_ok m n : m < 0 -> m < n -> exists s, format_number m n = Some s /\ (0 <= n -> reads s n) /\ (n < 0 -> exists t, s = "-"%char :: t /\ reads t (- n)).
Proof.
  intros Hm H. unfold format_number. destruct (Z.leb_spec 0 n).
  - eexists. split; [reflexivity|]. split; [intros _; apply format_size_ok; assumption|lia].
  - destruct (Z.eqb_spec n m); [lia|]. eexists. split; [reflexivity|]. split; [lia|]. intros _. eexists. split; [reflexivity|]. replace (- n) with (Z.abs n) by lia. apply format_size_ok. lia.
Qed.
Lemma number_inj m n n' s : m < 0 -> m < n -> m < n' -> format_number m n = Some s -> format_number m n' = Some s -> n = n'.
Proof.
  intros Hm H H' E E'. destruct (number_ok m n Hm H) as (t & Et & P & Ng). destruct (number_ok m n' Hm H') as (t' & Et' & P' & Ng'). assert (t = s) by congruence. assert (t' = s) by congruence. subst t t'.
  destruct (Z_lt_le_dec n 0) as [L|L]; destruct (Z_lt_le_dec n' 0) as [L'|L'].
  - destruct (Ng L) as (u & -> & R). destruct (Ng' L') as (u' & E2 & R'). injection E2 as <-. pose proof (reads_unique u _ _ R R'). lia.
  - destruct (Ng L) as (u & -> & R). exfalso. exact (reads_no_sign _ _ (P' L') u eq_refl).
  - destruct (Ng' L') as (u & -> & R). exfalso. exact (reads_no_sign _ _ (P L) u eq_refl).
  - exact (reads_unique s _ _ (P L) (P' L')).
Qed.
Lemma labels_ok m n p s : m < 0 -> 0 <= n -> exists t, reads t n /\ format_labelled m n p s = Some (t ++ [" "%char] ++ if n =? 1 then s else p).
Proof.
  intros Hm H. exists (format_size n). split; [apply format_size_ok, H|]. unfold format_labelled, format_number. destruct (Z.leb_spec 0 n); [|lia]. do 3 f_equal.
  destruct (Z.eqb_spec n 1) as [->|]; [reflexivity|]. destruct (Z.ltb_spec 1 n); [reflexivity|]. destruct (Z.eqb_spec n 0); [reflexivity|lia].
Qed.

Lemma message_ok {A} (conv : str -> A -> option str) debug rank fmt args m : 0 <= rank -> no_escapes fmt -> percents fmt = List.length args -> printf conv None fmt args = Some m ->
  exists r t, reads r rank /\ log_message conv debug rank fmt args = Some t /\ replaced (text "@rank@") r m t /\ ((forall i, ~ occurs_at (text "@rank@") m i) -> t = m).
Proof.
  intros Hr N Hn E. unfold log_message. rewrite (string_print_ok conv debug fmt args N Hn), E. unfold format_number. destruct (Z.leb_spec 0 rank); [|lia].
  destruct (replace_loop_ok (text "@rank@") (format_size rank) ltac:(discriminate) (S (List.length m)) m ltac:(lia)) as (t & Et & R). exists (format_size rank), t.
  split; [apply format_size_ok, Hr|]. split; [exact Et|]. split; [exact R|]. intros No. symmetry. apply (replaced_unique (text "@rank@") (format_size rank) m m ltac:(discriminate)); [apply RNone, No|exact R].
Qed.

(** * Escapes *)
Lemma plain_splits a g : plain a -> num_splits (a ++ g) = num_splits g.
Proof. induction a as [|c a IH]; intros P; [reflexivity|]. apply plain_cons in P. destruct P as [Pc P]. cbn [app num_splits]. unfold splits_at at 1. rewrite Pc. cbn [andb]. apply IH, P. Qed.
Lemma escape_none {A} (conv : str -> A -> option str) debug a b : plain a -> plain b ->
  printf conv None (a ++ ["%"; "%"]%char ++ b) [] = Some (a ++ "%"%char :: b) /\ string_print conv debug (a ++ ["%"; "%"]%char ++ b) [] = Some (a ++ ["%"; "%"]%char ++ b).
Proof.
  intros Pa Pb. split; [|reflexivity]. rewrite (printf_literal conv a _ [] Pa). cbn [app printf]. change (is_pct "%") with true. cbn iota. cbn [printf]. change (is_pct "%") with true. cbn iota.
  pose proof (printf_literal conv b [] [] Pb) as L. rewrite app_nil_r in L. rewrite L. cbn. rewrite app_nil_r. reflexivity.
Qed.
Lemma escape_stops {A} (conv : str -> A -> option str) a b c v : plain a -> plain b -> b <> [] -> plain c -> string_print conv true (a ++ ["%"; "%"]%char ++ b ++ "%"%char :: c) [v] = None.
Proof.
  intros Pa Pb Nb Pc. unfold string_print. rewrite (plain_splits a _ Pa). cbn [app num_splits]. destruct b as [|x b]; [congruence|]. pose proof Pb as Px. apply plain_cons in Px. destruct Px as [Px _].
  unfold splits_at at 1. cbn [app]. change (is_pct "%") with true. cbn [negb andb]. cbn iota. unfold splits_at at 1. change (is_pct "%") with true. rewrite Px. cbn [negb andb]. cbn iota.
  change (x :: b ++ "%"%char :: c) with ((x :: b) ++ "%"%char :: c). rewrite (plain_splits (x :: b) _ Pb). cbn [num_splits]. assert (Sc : splits_at "%" c = true).
  { unfold splits_at. change (is_pct "%") with true. cbn [andb]. destruct c as [|y c]; [reflexivity|]. apply plain_cons in Pc. destruct Pc as [Py _]. rewrite Py. reflexivity. }
  rewrite Sc. reflexivity.
Qed.

(** Arguments that are texts *)
Definition conv_s (spec : str) (a : str) : option str := match spec with ["s"%char] => Some a | _ => None end.
Lemma txt_escape_refuted : exists fmt args, printf conv_s None fmt args = Some (text "100% of a") /\
  string_print conv_s true fmt args = None /\ string_print conv_s false fmt args = None.
Proof. exists (text "100%% of %s"), [text "a"]. repeat split; reflexivity. Qed.
Lemma txt_escape_odd_refuted : exists fmt args, printf conv_s None fmt args = Some (text "100%a") /\ string_print conv_s true fmt args = Some (text "100%%a").
Proof. exists (text "100%%%s"), [text "a"]. split; reflexivity. Qed.
Lemma txt_label_refuted : exists n, n <> 1 /\ format_labelled int_min n (text "points") (text "point") = Some (text "-5 point").
Proof. exists (-5). split; [lia|reflexivity]. Qed.
(** A grid that is called a@rank@ *)
Lemma txt_name_refuted : exists fmt args, printf conv_s None fmt args = Some (text "Created grid a@rank@.") /\ log_message conv_s true 3 fmt args = Some (text "Created grid a3.").
Proof. exists (text "Created grid %s."), [text "a@rank@"]. split; vm_compute; reflexivity. Qed.

(** A case *)
Lemma txt_case : no_escapes (text "Rank @rank@: %s and %s.") /\ percents (text "Rank @rank@: %s and %s.") = 2%nat /\
  log_message conv_s true 1234567 (text "Rank @rank@: %s and %s.") [text "a%s"; text "b"] = Some (text "Rank 1,234,567: a%s and b.").
Proof.
  split; [|split; vm_compute; reflexivity]. intros a b E. assert (D : forall l, existsb (fun p => is_pct (fst p) && is_pct (snd p)) (combine l (tl l)) = false -> l <> a ++ ["%"; "%"]%char ++ b).
  { clear E. intros l H ->. induction a as [|c a IH]; cbn [app] in H; [cbn in H; discriminate|]. apply IH. cbn [tl app] in H |- *. destruct (a ++ "%"%char :: "%"%char :: b) as [|d l] eqn:El; [destruct a; discriminate|].
    cbn [combine existsb] in H. apply orb_false_iff in H. destruct H as [_ H]. exact H. }
  refine (D (text "Rank @rank@: %s and %s.") _ E). vm_compute. reflexivity.
Qed.
