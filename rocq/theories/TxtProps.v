(** C101: texts of messages. *)
From Coq Require Import List ZArith Bool Ascii String.
From Verif Require Import TxtModel TxtSpec TxtProof TxtEx.
Import ListNotations.
Local Open Scope Z_scope.

(** Formatting piece by piece gives what formatting at once gives, if no percent signs are escaped and the number of arguments is right. *)
Theorem C101_print : forall A (conv : str -> A -> option str) debug fmt args, no_escapes fmt -> percents fmt = List.length args -> string_print conv debug fmt args = printf conv None fmt args.
Proof. exact @string_print_ok. Qed.
Print Assumptions C101_print.

(** Occurrences of a substring are replaced from left to right; the result is unique. *)
Theorem C101_replace : forall sub rep s, sub <> [] -> exists t, replace_loop (S (List.length s)) sub rep s = Some t /\ replaced sub rep s t /\ forall t', replaced sub rep s t' -> t' = t.
Proof. exact replace_all. Qed.
Print Assumptions C101_replace.

(** Numbers are written with commas between groups of three digits. *)
Theorem C101_number : forall m n, m < 0 -> m < n -> exists s, format_number m n = Some s /\ (0 <= n -> reads s n) /\ (n < 0 -> exists t, s = "-"%char :: t /\ reads t (- n)).
Proof. exact number_ok. Qed.
Print Assumptions C101_number.

(** Different numbers have different texts. *)
Theorem C101_number_inj : forall m n n' s, m < 0 -> m < n -> m < n' -> format_number m n = Some s -> format_number m n' = Some s -> n = n'.
Proof. exact number_inj. Qed.
Print Assumptions C101_number_inj.

Theorem C101_labels : forall m n p s, m < 0 -> 0 <= n -> exists t, reads t n /\ format_labelled m n p s = Some (t ++ [" "%char] ++ if n =? 1 then s else p).
Proof. exact labels_ok. Qed.
Print Assumptions C101_labels.

(** Messages say what they are given, with the rank in the place of @rank@. *)
Theorem C101_message : forall A (conv : str -> A -> option str) debug rank fmt args m,
  0 <= rank -> no_escapes fmt -> percents fmt = List.length args -> printf conv None fmt args = Some m ->
  exists r t, reads r rank /\ log_message conv debug rank fmt args = Some t /\ replaced (text "@rank@") r m t /\ ((forall i, ~ occurs_at (text "@rank@") m i) -> t = m).
Proof. exact @message_ok. Qed.
Print Assumptions C101_message.

(** Escaped percent signs are not understood: without arguments both are written, *)
Theorem C101_escape : forall A (conv : str -> A -> option str) debug a b, plain a -> plain b ->
  printf conv None (a ++ ["%"; "%"]%char ++ b) [] = Some (a ++ "%"%char :: b) /\ string_print conv debug (a ++ ["%"; "%"]%char ++ b) [] = Some (a ++ ["%"; "%"]%char ++ b).
Proof. exact @escape_none. Qed.
Print Assumptions C101_escape.

(** and with an argument debug builds stop. *)
Theorem C101_escape_stops : forall A (conv : str -> A -> option str) a b c v, plain a -> plain b -> b <> [] -> plain c -> string_print conv true (a ++ ["%"; "%"]%char ++ b ++ "%"%char :: c) [v] = None.
Proof. exact @escape_stops. Qed.
Print Assumptions C101_escape_stops.

Theorem C101_escape_refuted : exists fmt args, printf conv_s None fmt args = Some (text "100% of a") /\
  string_print conv_s true fmt args = None /\ string_print conv_s false fmt args = None.
Proof. exact txt_escape_refuted. Qed.
Print Assumptions C101_escape_refuted.

Theorem C101_escape_odd_refuted : exists fmt args, printf conv_s None fmt args = Some (text "100%a") /\ string_print conv_s true fmt args = Some (text "100%%a").
Proof. exact txt_escape_odd_refuted. Qed.
Print Assumptions C101_escape_odd_refuted.

(** Replacing the empty string never ends. *)
Theorem C101_replace_empty : forall rep s turns, replace_loop turns [] rep s = None.
Proof. exact replace_empty. Qed.
Print Assumptions C101_replace_empty.

(** Negative numbers are given the singular. *)
Theorem C101_label_refuted : exists n, n <> 1 /\ format_labelled int_min n (text "points") (text "point") = Some (text "-5 point").
Proof. exact txt_label_refuted. Qed.
Print Assumptions C101_label_refuted.

(** Names that contain @rank@ are changed. *)
Theorem C101_name_refuted : exists fmt args, printf conv_s None fmt args = Some (text "Created grid a@rank@.") /\ log_message conv_s true 3 fmt args = Some (text "Created grid a3.").
Proof. exact txt_name_refuted. Qed.
Print Assumptions C101_name_refuted.

Example C101_case : no_escapes (text "Rank @rank@: %s and %s.") /\ percents (text "Rank @rank@: %s and %s.") = 2%nat /\
  log_message conv_s true 1234567 (text "Rank @rank@: %s and %s.") [text "a%s"; text "b"] = Some (text "Rank 1,234,567: a%s and b.").
Proof. exact txt_case. Qed.
