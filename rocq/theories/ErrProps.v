(** C96: XINTOUT files that cannot be read for some grids. *)
From Coq Require Import List Arith Bool.
From Verif Require Import ProtoModel ProtoSpec ErrModel ErrSpec ErrProof ErrEx.
Import ListNotations.

(** Every execution is finite, and what becomes of each rank is determined: it waits for a grid, or goes on to the end, where it waits iff another one does. *)
Theorem C96_exact : forall n G mem fails, exists bound, forall rs s, run (estep n G mem fails) ers0 rs = Some s ->
  length rs <= bound /\ (stuck (estep n G mem fails) s -> forall r, r < n ->
    match fate_before n mem fails G r with
    | Waits g => e_pc s r = g
    | _ => (e_pc s r = S G /\ (forall q g, q < n -> fate_before n mem fails G q <> Waits g) /\
            (e_fail s r = true <-> exists q g, q < n /\ fate_before n mem fails G q = Stopped g)) \/
           (e_pc s r = G /\ exists q g, q < n /\ fate_before n mem fails G q = Waits g)
    end).
Proof. exact err_exact. Qed.
Print Assumptions C96_exact.

(** If no grid fails, reading ends on all ranks without error. *)
Theorem C96_none : forall n G mem fails, (forall g, g < G -> fails g = false) -> finishes n G mem fails False.
Proof. exact err_none. Qed.
Print Assumptions C96_none.

(** If later grids that share a rank with a grid that fails are on ranks of that grid only, reading ends on all ranks, with an error on each of them iff some grid fails. *)
Theorem C96_nested : forall n G mem fails,
  (forall g h q r, g < h -> h < G -> q < n -> r < n -> fails g = true -> mem g q = true -> mem h q = true -> mem h r = true -> mem g r = true) ->
  finishes n G mem fails (exists g r, g < G /\ r < n /\ mem g r = true /\ fails g = true).
Proof. exact err_nested. Qed.
Print Assumptions C96_nested.

(** So it does if each rank has one grid at most, *)
Theorem C96_single : forall n G mem fails, (forall g h r, g < G -> h < G -> r < n -> mem g r = true -> mem h r = true -> g = h) ->
  finishes n G mem fails (exists g r, g < G /\ r < n /\ mem g r = true /\ fails g = true).
Proof. exact err_single. Qed.
Print Assumptions C96_single.

(** and if each grid is on all ranks. *)
Theorem C96_shared : forall n G mem fails, (forall g r, g < G -> r < n -> mem g r = true) ->
  finishes n G mem fails (exists g r, g < G /\ r < n /\ mem g r = true /\ fails g = true).
Proof. exact err_shared. Qed.
Print Assumptions C96_shared.

(** If one grid fails, ranks wait forever iff a later grid is on ranks that are on it and on ranks that are not. *)
Theorem C96_one : forall n G mem fails g, g < G -> fails g = true -> (forall h, h < G -> fails h = true -> h = g) ->
  (hangs n G mem fails <-> exists h q r, g < h /\ h < G /\ q < n /\ r < n /\ mem g q = true /\ mem h q = true /\ mem h r = true /\ mem g r = false).
Proof. exact err_one. Qed.
Print Assumptions C96_one.

(** So a file that cannot be read is not always an error. *)
Theorem C96_any_refuted : exists n G mem fails, (forall r, r < n -> exists g, g < G /\ mem g r = true) /\ (forall g, g < G -> exists r, r < n /\ mem g r = true) /\ hangs n G mem fails.
Proof. exact ex_hangs. Qed.
Print Assumptions C96_any_refuted.

(** Grids as in the hypotheses: three ranks, the second grid on the last two of them, the first on all and failing. *)
Example C96_example : let mem := fun g r => match g with 0 => true | _ => 1 <=? r end in
  (forall g h q r, g < h -> h < 2 -> q < 3 -> r < 3 -> ex_fails g = true -> mem g q = true -> mem h q = true -> mem h r = true -> mem g r = true) /\
  mem 1 0 = false /\ ex_fails 0 = true /\ finishes 3 2 mem ex_fails (exists g r, g < 2 /\ r < 3 /\ mem g r = true /\ ex_fails g = true).
Proof.
  assert (H : forall g h q r : nat, g < h -> h < 2 -> q < 3 -> r < 3 -> ex_fails g = true -> (match g with 0 => true | _ => 1 <=? q end) = true ->
    (match h with 0 => true | _ => 1 <=? q end) = true -> (match h with 0 => true | _ => 1 <=? r end) = true -> (match g with 0 => true | _ => 1 <=? r end) = true).
  { intros [|g] h q r _ _ _ _ F; [reflexivity|discriminate]. }
  split; [exact H|]. split; [reflexivity|]. split; [reflexivity|]. exact (err_nested 3 2 _ ex_fails H).
Qed.
