(** Using a sequence of phases inside a larger program (a function that communicates, called by
    another one): the state of the inner program is a part of the state of the outer one. *)
From Coq Require Import List.
From Verif Require Import HashModel NetModel.
Import ListNotations.

Section Lift.
Context {A B Msg : Type} (get : B -> option A) (put : B -> A -> B).

Definition lift1 (ph : phase A Msg) : phase B Msg :=
  match ph with
  | Local f => Local (fun r b => let! a := get b in let! a' := f r a in Some (put b a'))
  | Exch p => Exch (P2P
      (fun r b => match get b with Some a => p_recvs p r a | None => [] end)
      (fun r b => match get b with Some a => p_sends p r a | None => [] end)
      (fun r b l => let! a := get b in let! a' := p_done p r a l in Some (put b a')))
  | Coll f => Coll (fun l r => let! l' := omap get l in let! a' := f l' r in
                               let! b := nth_error l r in Some (put b a'))
  end.

Definition lift (prog : list (phase A Msg)) : list (phase B Msg) := map lift1 prog.
End Lift.

(** Messages of several kinds in one program. *)
Section Remsg.
Context {A M N : Type} (inj : M -> N) (prj : N -> option M).

Definition remsg1 (ph : phase A M) : phase A N :=
  match ph with
  | Local f => Local f
  | Exch p => Exch (P2P (p_recvs p) (fun r s => map (fun x => (fst x, inj (snd x))) (p_sends p r s))
      (fun r s l => let! l' := omap (fun x => let! m := prj (snd x) in Some (fst x, m)) l in p_done p r s l'))
  | Coll f => Coll f
  end.

Definition remsg (prog : list (phase A M)) : list (phase A N) := map remsg1 prog.
End Remsg.
