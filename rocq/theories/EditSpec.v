(** Edit sessions as users see them: a session of an editor lasts as long as somebody
    has a share of it. *)
From Coq Require Import List Bool Arith.
From Verif Require Import EditModel.
Import ListNotations.

(** Handles in scope with the editor they share (if any), and for each editor the
    shares that were released from their handles and not yet restored. *)
Record sst : Type := mkSh { sh_h : list (nat * option nat); sh_raw : nat -> nat }.
Definition sst0 : sst := mkSh [] (fun _ => 0).

Fixpoint look (l : list (nat * option nat)) (h : nat) : option (option nat) :=
  match l with
  | [] => None
  | (k, v) :: r => if Nat.eqb k h then Some v else look r h
  end.
Definition put (l : list (nat * option nat)) (h : nat) (v : option nat) : list (nat * option nat) :=
  map (fun p => if Nat.eqb (fst p) h then (h, v) else p) l.
Definition drop (l : list (nat * option nat)) (h : nat) : list (nat * option nat) :=
  filter (fun p => negb (Nat.eqb (fst p) h)) l.

Definition shares_in (e : nat) (v : option nat) : nat :=
  match v with Some e' => if Nat.eqb e' e then 1 else 0 | None => 0 end.
(** Number of shares of editor [e]. *)
Definition shares (t : sst) (e : nat) : nat :=
  fold_right (fun p n => shares_in e (snd p) + n) 0 (sh_h t) + sh_raw t e.

(** Effect of an operation on the shares; None if the program is not allowed to do it.
    Restore and Release give the handle's share away. *)
Definition sstep (t : sst) (o : eop) : option sst :=
  match o with
  | EdNew h => match look (sh_h t) h with
               | None => Some (mkSh ((h, None) :: sh_h t) (sh_raw t)) | Some _ => None end
  | EdEdit h e => match look (sh_h t) h with
                  | None => Some (mkSh ((h, Some e) :: sh_h t) (sh_raw t)) | Some _ => None end
  | EdCopyNew h g => match look (sh_h t) h, look (sh_h t) g with
                     | None, Some v => Some (mkSh ((h, v) :: sh_h t) (sh_raw t)) | _, _ => None end
  | EdMoveNew h g => match look (sh_h t) h, look (sh_h t) g with
                     | None, Some v => Some (mkSh ((h, v) :: put (sh_h t) g None) (sh_raw t))
                     | _, _ => None end
  | EdCopyAssign h g => match look (sh_h t) h, look (sh_h t) g with
                        | Some _, Some v => Some (mkSh (put (sh_h t) h v) (sh_raw t))
                        | _, _ => None end
  | EdMoveAssign h g => match look (sh_h t) h, look (sh_h t) g with
                        | Some _, Some v => Some (mkSh (put (put (sh_h t) g None) h v) (sh_raw t))
                        | _, _ => None end
  | EdDestroy h => match look (sh_h t) h with
                   | Some _ => Some (mkSh (drop (sh_h t) h) (sh_raw t)) | None => None end
  | EdRestore h => match look (sh_h t) h with
                   | Some _ => Some (mkSh (put (sh_h t) h None) (sh_raw t)) | None => None end
  | EdRelease h => match look (sh_h t) h with
                   | Some v => Some (mkSh (put (sh_h t) h None)
                                          (fun e => shares_in e v + sh_raw t e))
                   | None => None end
  | EdEditorRestore e =>
      if Nat.eqb (sh_raw t e) 0 then None
      else Some (mkSh (sh_h t) (fun e' => if Nat.eqb e' e then sh_raw t e - 1 else sh_raw t e'))
  end.

Fixpoint srun (t : sst) (l : list eop) : option sst :=
  match l with
  | [] => Some t
  | o :: r => match sstep t o with None => None | Some t' => srun t' r end
  end.

(** How many times the last share of [e] went away. *)
Fixpoint ends (e : nat) (t : sst) (l : list eop) : nat :=
  match l with
  | [] => 0
  | o :: r => match sstep t o with
              | None => 0
              | Some t' => (if Nat.ltb 0 (shares t e) && Nat.eqb (shares t' e) 0 then 1 else 0)
                           + ends e t' r
              end
  end.

(** The actions run for editor [e]. *)
Definition ran (e : nat) (log : list (nat * nat)) : list nat :=
  map snd (filter (fun p => Nat.eqb (fst p) e) log).

Definition no_restore (o : eop) : Prop := match o with EdRestore _ => False | _ => True end.

(** Every h.Restore() is immediately followed by h.Release(). *)
Inductive paired : list eop -> Prop :=
| pr_nil : paired []
| pr_other o l : no_restore o -> paired l -> paired (o :: l)
| pr_pair h l : paired l -> paired (EdRestore h :: EdRelease h :: l).
