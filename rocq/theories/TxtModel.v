(** Texts of messages: src/core/TextProcessing.inl 7-157 (FormatNumber, StringPrint), TextProcessing.cpp 11-29 (StringReplace),
    Logger.inl 29-40, 59-70, 85-107, 163-174 (what the log functions do with formats).

    Simplifications: strings have no null characters; llabs is abs on a wider type, and size_t holds all values; snprintf and sprintf are [printf], the formatting
    of single values ([conv]) a parameter.  None is undefined behaviour or a failed assertion. *)
From Coq Require Import List ZArith Bool Ascii String.
From Verif Require Import HashModel.
Import ListNotations.
Local Open Scope Z_scope.

Definition str := list ascii.
Definition text (s : string) : str := list_ascii_of_string s.
Definition is_pct (c : ascii) : bool := Ascii.eqb c "%".

(** ** The C library *)

(** ISO C 7.21.6.1: flags, widths, precisions and length modifiers (without asterisks), then the letter of the conversion *)
Definition is_flag (c : ascii) : bool := existsb (Ascii.eqb c) (text "0123456789.-+ #lhzjtLq'").
Definition is_letter (c : ascii) : bool := existsb (Ascii.eqb c) (text "diouxXeEfFgGaAcsp").

Section Printf.
Context {A : Type}.
(** The text of a value; None if it is not of the type that the conversion needs *)
Variable conv : str -> A -> option str.
(** [st]: the characters after a percent sign; arguments that are left are ignored. *)
Fixpoint printf (st : option str) (fmt : str) (args : list A) : option str :=
  match fmt, st with
  | [], None => Some []
  | [], Some _ => None
  | c :: fmt, None => if is_pct c then printf (Some []) fmt args else let! t := printf None fmt args in Some (c :: t)
  | c :: fmt, Some acc =>
      if is_pct c then match acc with [] => let! t := printf None fmt args in Some (c :: t) | _ => None end
      else if is_flag c then printf (Some (acc ++ [c])) fmt args
      else if is_letter c then
        match args with
        | [] => None
        | a :: args => let! x := conv (acc ++ [c]) a in let! t := printf None fmt args in Some (x ++ t)
        end
      else None
  end.

(** ** StringPrint *)

(** TextProcessing.inl 131-140, 146-152: positions of percent signs that are not followed by another; the character after the last is null. *)
Definition splits_at (c : ascii) (rest : str) : bool := is_pct c && negb (match rest with [] => false | d :: _ => is_pct d end).
Fixpoint num_splits (fmt : str) : nat :=
  match fmt with [] => O | c :: r => if splits_at c r then S (num_splits r) else num_splits r end.
(** The first one from position [k] *)
Fixpoint first_split (k i : nat) (fmt : str) : option nat :=
  match fmt with [] => None | c :: r => if Nat.leb k i && splits_at c r then Some i else first_split k (S i) r end.

(** 81-118: StringPrintAppend; iSplitPos stays 0 if there is none. *)
Fixpoint print_append (fmt : str) (args : list A) : option str :=
  match args with
  | [] => Some []
  | [a] => printf None fmt [a]
  | a :: rest =>
      let i := match first_split 1 0 fmt with Some i => i | None => O end in
      let! x := printf None (firstn i fmt) [a] in
      let! t := print_append (skipn i fmt) rest in
      Some (x ++ t)
  end.
(** 123-157 *)
Definition string_print (debug : bool) (fmt : str) (args : list A) : option str :=
  match args with
  | [] => Some fmt
  | _ =>
      if debug && negb (Nat.eqb (num_splits fmt) (List.length args)) then None else
      let i := match first_split 0 0 fmt with Some i => i | None => List.length fmt end in
      let! t := print_append (skipn i fmt) args in
      Some (firstn i fmt ++ t)
  end.
End Printf.

(** ** StringReplace *)

Fixpoint starts (sub s : str) : bool :=
  match sub, s with [], _ => true | a :: sub, b :: s => Ascii.eqb a b && starts sub s | _, _ => false end.
(** std::string::find *)
Fixpoint find_sub (sub s : str) : option nat :=
  if starts sub s then Some O else match s with [] => None | _ :: s => match find_sub sub s with Some i => Some (S i) | None => None end end.
(** TextProcessing.cpp 11-29; [s]: the string from PrevPos; None: not done after so many turns *)
Fixpoint replace_loop (turns : nat) (sub rep s : str) : option str :=
  match turns with
  | O => None
  | S turns =>
      match find_sub sub s with
      | None => Some s
      | Some i => let! t := replace_loop turns sub rep (skipn (i + List.length sub) s) in Some (firstn i s ++ rep ++ t)
      end
  end.

(** ** FormatNumber *)

Definition digit (d : Z) : ascii := ascii_of_nat (Z.to_nat (48 + d)).
(** %zu *)
Fixpoint digits (fuel : nat) (n : Z) : str :=
  match fuel with O => [] | S fuel => if n <? 10 then [digit n] else digits fuel (n / 10) ++ [digit (n mod 10)] end.
Definition decimal (n : Z) : str := digits (S (Z.to_nat (Z.log2 n))) n.
(** 20-23 *)
Fixpoint with_commas (j : Z) (l : str) : str :=
  match l with [] => [] | c :: l => (if j mod 3 =? 0 then [","%char] else []) ++ c :: with_commas (j + 1) l end.
(** 7-27 *)
Definition format_size (n : Z) : str :=
  let s := decimal n in
  let before := Z.to_nat ((Z.of_nat (List.length s) - 1) mod 3 + 1) in
  firstn before s ++ with_commas 0 (skipn before s).
(** 29-57: [m] is the smallest value of the type, whose absolute value is not defined. *)
Definition format_number (m n : Z) : option str :=
  if 0 <=? n then Some (format_size n) else if n =? m then None else Some ("-"%char :: format_size (Z.abs n)).
(** 59-70 *)
Definition format_labelled (m n : Z) (plural singular : str) : option str :=
  let! s := format_number m n in
  Some (s ++ [" "%char] ++ if (1 <? n) || (n =? 0) then plural else singular).

Definition int_min : Z := - 2147483648.

(** ** Logger.inl 33-35, 63-65, 100-102, 166-168 *)
Definition log_message {A} (conv : str -> A -> option str) (debug : bool) (rank : Z) (fmt : str) (args : list A) : option str :=
  let! m := string_print conv debug fmt args in
  let! r := format_number int_min rank in
  replace_loop (S (List.length m)) (text "@rank@") r m.
