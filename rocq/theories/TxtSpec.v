(** What texts must be. *)
From Coq Require Import List ZArith Bool Ascii String.
From Verif Require Import TxtModel.
Import ListNotations.
Local Open Scope Z_scope.

(** No percent sign follows a percent sign *)
Definition no_escapes (fmt : str) : Prop := forall a b, fmt <> a ++ ["%"; "%"]%char ++ b.
(** No percent signs at all *)
Definition plain (l : str) : Prop := forall c, In c l -> is_pct c = false.
Definition percents (fmt : str) : nat := List.length (filter (Ascii.eqb "%") fmt).

(** Occurrences *)
Definition occurs_at (sub s : str) (i : nat) : Prop := exists p t, s = p ++ sub ++ t /\ List.length p = i.
(** Occurrences are replaced from left to right; what has been replaced is not looked at again. *)
Inductive replaced (sub rep : str) : str -> str -> Prop :=
  | RNone s : (forall i, ~ occurs_at sub s i) -> replaced sub rep s s
  | ROne p s t : (forall i, occurs_at sub (p ++ sub ++ s) i -> (List.length p <= i)%nat) -> replaced sub rep s t -> replaced sub rep (p ++ sub ++ s) (p ++ rep ++ t).

(** Values of digits *)
Definition digit_value (c : ascii) : Z := Z.of_nat (nat_of_ascii c) - 48.
Definition is_digit (c : ascii) : Prop := 0 <= digit_value c <= 9.
Definition value (s : str) : Z := fold_left (fun v c => 10 * v + digit_value c) s 0.

(** One to three digits without leading zeros, then commas, each followed by three digits *)
Definition reads (s : str) (n : Z) : Prop := exists g gs,
  s = g ++ List.concat (map (cons ","%char) gs) /\ (1 <= List.length g <= 3)%nat /\ (forall x, In x gs -> List.length x = 3%nat) /\
  Forall is_digit (g ++ List.concat gs) /\ value (g ++ List.concat gs) = n /\ (hd "0"%char g = "0"%char -> n = 0 /\ g = ["0"%char] /\ gs = []).
