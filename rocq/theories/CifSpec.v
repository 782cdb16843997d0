(** Specification of the arrays of connectivities and overlaps as seen by a client: every array is a map from its
    tuples to values, without storage, offsets or counted shares. *)
From Coq Require Import List ZArith Bool QArith Lia.
From Verif Require Import IndexerModel IndexerProof FRefModel CifModel.
Import ListNotations.
Local Open Scope Z_scope.

(** What an element of a new array is: one before the first cell or point of the grid in the grid's dimensions, and the
    values that make the unused dimensions neutral. *)
Definition fresh_value (c : ccfg) (f : cfield) (t : list Z) : value :=
  match f, t with
  | FExtents, [e; d; _] => if d <? cc_nd c then VI (cc_cell c d - 1) else VI e
  | FCoefs, [d; p; _] => if (cc_nd c <=? d) && (p =? 0) then VD 1 else VD 0
  | FCoords, _ => VD 0
  | FDests, [d; _] => if d <? cc_nd c then VI (cc_opoint c d - 1) else VI 0
  | FPoints, [d; _] => if d <? cc_nd c then VI (cc_point c d - 1) else VI 0
  | FSources, [d; _] => if d <? cc_nd c then VI (cc_ocell c d - 1) else VI 0
  | FCells, [d; _] => if d <? cc_nd c then VI (cc_cell c d - 1) else VI 0
  | _, _ => VI (-1)
  end.

(** A variable of the client holds the arrays' rows it was given for: the tuples without the last element. *)
Record sside : Type := mkSS {
  ss_num : Z; ss_sten : Z; ss_val : cfield -> list Z -> value;
  ss_depth : cfield -> nat; ss_log : list cev; ss_var : nat -> option (cfield * list Z) }.

Definition rows (f : cfield) (lead : list Z) : list (list Z) :=
  match f with FExtents => [0 :: lead; 1 :: lead] | _ => [lead] end.

Definition tuple_eqb (t u : list Z) : bool := if list_eq_dec Z.eq_dec t u then true else false.

(** The correct uses and what they do.  An edit and its restore name the same array, dimension and point and the same
    variable; writes go through a variable that holds pointers, and stay in 0 .. number of connections - 1. *)
Definition sstep (c : ccfg) (x : sside) (o : cop) : option sside :=
  match o with
  | COResize n s =>
      if (0 <=? n) && (0 <? s) && forallb (fun f => Nat.eqb (ss_depth x f) 0) (cfields (cc_kind c)) then
        Some (mkSS n (match cc_kind c with ConnM => s | _ => ss_sten x end) (fresh_value c) (ss_depth x)
                (ss_log x ++ EvResize :: map EvField (cfields (cc_kind c))) (fun _ => None))
      else None
  | COEdit v f lead =>
      if has_field (cc_kind c) f && econtains (lead_ext f (ss_sten x)) (match f with FExtents => 0 :: lead | _ => lead end)
      then Some (mkSS (ss_num x) (ss_sten x) (ss_val x) (updf (ss_depth x) f (S (ss_depth x f))) (ss_log x)
                   (upd (ss_var x) v (Some (f, lead))))
      else None
  | CORestore v f lead =>
      match ss_var x v with
      | Some (g, lead') =>
          if cfield_eqb f g && tuple_eqb lead lead' then
            match ss_depth x f with
            | O => None
            | S m => Some (mkSS (ss_num x) (ss_sten x) (ss_val x) (updf (ss_depth x) f m)
                             (match m with O => ss_log x ++ [EvField f] | S _ => ss_log x end)
                             (upd (ss_var x) v None))
            end
          else None
      | None => None
      end
  | COWrite v j i y =>
      match ss_var x v with
      | Some (f, lead) =>
          match nth_error (rows f lead) j with
          | Some r =>
              if (0 <=? i) && (i <? ss_num x) then
                Some (mkSS (ss_num x) (ss_sten x)
                        (updf (ss_val x) f (fun t => if tuple_eqb t (r ++ [i]) then y else ss_val x f t))
                        (ss_depth x) (ss_log x) (ss_var x))
              else None
          | None => None
          end
      | None => None
      end
  end.

Fixpoint srun (c : ccfg) (x : sside) (ops : list cop) : option sside :=
  match ops with
  | [] => Some x
  | o :: r => match sstep c x o with Some x' => srun c x' r | None => None end
  end.

Definition sside0 : sside := mkSS 0 1 (fun _ _ => VI 0) (fun _ => O) [] (fun _ => None).
