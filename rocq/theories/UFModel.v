(** Union-find: model of src/core/UnionFind.hpp.
    Simplifications: indices are natural numbers; None stands for an access outside
    an array or a parent chain that never reaches a root (unbounded recursion). *)
From Coq Require Import List ZArith Bool Arith.
From Verif Require Import ArrayModel ContModel.
Import ListNotations.
Open Scope nat_scope.

(** UnionFind.hpp 125-127. *)
Record uf : Type := mkUF { uf_el : list Z; uf_par : list nat; uf_rank : list nat }.

Definition uf_empty : uf := mkUF [] [] [].

(** UnionFind.hpp 129-134: Find_, with path compression. *)
Fixpoint find_idx (fuel : nat) (par : list nat) (i : nat) : option (list nat * nat) :=
  match fuel with
  | O => None
  | S f =>
      match nth_error par i with
      | None => None
      | Some p =>
          if Nat.eqb p i then Some (par, p)
          else match find_idx f par p with
               | None => None
               | Some (par', r) =>
                   match vset par' i r with
                   | None => None
                   | Some par'' => Some (par'', r)
                   end
               end
      end
  end.

Definition find_ (par : list nat) (i : nat) : option (list nat * nat) :=
  find_idx (S (length par)) par i.

(** UnionFind.hpp 35-48: Insert. *)
Definition uf_insert (u : uf) (x : Z) : uf :=
  let n := set_lower Z.ltb (uf_el u) x in
  let ins := mkUF (set_insert_hint Z.ltb (uf_el u) n x)
               (insert_at (map (fun p => if Nat.leb n p then S p else p) (uf_par u)) n n)
               (insert_at (uf_rank u) n 0) in
  match nth_error (uf_el u) n with
  | None => ins
  | Some y => if Z.gtb y x then ins else u
  end.

(** UnionFind.hpp 50-59: Find. *)
Definition uf_find (u : uf) (x : Z) : option (uf * Z) :=
  let i := set_find Z.ltb (uf_el u) x in
  if Nat.eqb i (length (uf_el u)) then Some (u, (-1)%Z)
  else match find_ (uf_par u) i with
       | None => None
       | Some (par, r) => match nth_error (uf_el u) r with
                          | Some z => Some (mkUF (uf_el u) par (uf_rank u), z)
                          | None => None
                          end
       end.

(** UnionFind.hpp 61-95: Union. *)
Definition uf_union (u : uf) (a b : Z) : option (uf * Z) :=
  let n := length (uf_el u) in
  let ia := set_find Z.ltb (uf_el u) a in
  let ib := set_find Z.ltb (uf_el u) b in
  match Nat.eqb ia n, Nat.eqb ib n with
  | false, false =>
      match find_ (uf_par u) ia with
      | None => None
      | Some (par1, ra) =>
          match find_ par1 ib with
          | None => None
          | Some (par2, rb) =>
              let ret par rank r :=
                match nth_error (uf_el u) r with
                | Some z => Some (mkUF (uf_el u) par rank, z)
                | None => None
                end in
              if Nat.eqb ra rb then ret par2 (uf_rank u) ra
              else
                match nth_error (uf_rank u) ra, nth_error (uf_rank u) rb with
                | Some ka, Some kb =>
                    if Nat.ltb ka kb then
                      match vset par2 ra rb with
                      | Some par3 => ret par3 (uf_rank u) rb
                      | None => None
                      end
                    else if Nat.ltb kb ka then
                      match vset par2 rb ra with
                      | Some par3 => ret par3 (uf_rank u) ra
                      | None => None
                      end
                    else
                      match vset par2 rb ra, vset (uf_rank u) ra (S ka) with
                      | Some par3, Some rank3 => ret par3 rank3 ra
                      | _, _ => None
                      end
                | _, _ => None
                end
          end
      end
  | false, true => uf_find u a
  | true, false => uf_find u b
  | true, true => Some (u, (-1)%Z)
  end.

(** UnionFind.hpp 100-106: first loop of Relabel. *)
Definition relabel_step1 (el : list Z) (acc : option (list nat * smap nat nat)) (i : nat)
    : option (list nat * smap nat nat) :=
  match acc with
  | None => None
  | Some (par, m) =>
      match find_ par i with
      | None => None
      | Some (par', r) =>
          let '(m', n) := map_fetch Nat.ltb m r r in
          match nth_error el i, nth_error el r with
          | Some x, Some y => Some (par', if Z.ltb x y then map_write m' n i else m')
          | _, _ => None
          end
      end
  end.

(** UnionFind.hpp 107-110: second loop. *)
Definition relabel_step2 (m : smap nat nat) (acc : option (list nat * list nat)) (i : nat)
    : option (list nat * list nat) :=
  match acc with
  | None => None
  | Some (par, rank) =>
      match nth_error par i with
      | None => None
      | Some p =>
          match map_at Nat.ltb m p with
          | None => None
          | Some q =>
              match vset par i q, vset rank i (if Nat.eqb q i then 1 else 0) with
              | Some par', Some rank' => Some (par', rank')
              | _, _ => None
              end
          end
      end
  end.

(** UnionFind.hpp 98-111: Relabel. *)
Definition uf_relabel (u : uf) : option uf :=
  let idx := seq 0 (length (uf_el u)) in
  match fold_left (relabel_step1 (uf_el u)) idx (Some (uf_par u, map_empty)) with
  | None => None
  | Some (par, m) =>
      match fold_left (relabel_step2 m) idx (Some (par, uf_rank u)) with
      | None => None
      | Some (par', rank') => Some (mkUF (uf_el u) par' rank')
      end
  end.

(** Histories. *)
Inductive uf_op : Type := UInsert (x : Z) | UUnion (a b : Z) | UFind (x : Z) | URelabel.

Definition uf_step (u : uf) (o : uf_op) : option uf :=
  match o with
  | UInsert x => Some (uf_insert u x)
  | UUnion a b => option_map fst (uf_union u a b)
  | UFind x => option_map fst (uf_find u x)
  | URelabel => uf_relabel u
  end.

Fixpoint uf_run_from (u : uf) (ops : list uf_op) : option uf :=
  match ops with
  | [] => Some u
  | o :: r => match uf_step u o with None => None | Some u' => uf_run_from u' r end
  end.
Definition uf_run (ops : list uf_op) : option uf := uf_run_from uf_empty ops.
