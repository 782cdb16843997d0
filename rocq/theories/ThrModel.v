(** Interpolation with threads: src/core/CollectInterpThreaded.hpp 48-152, with GetLocalCellInfo_ and AssembleVertexValues_ (CollectBase.cpp 27-51, 69-104, 242-278).

    Each thread has a program of loads and stores of array elements, which interleave in whatever way.  What is read only (cells, map, received values,
    fields, coefficients) is in the programs.  Simplifications: sequentially consistent memory (C98_exact: there are no races); integers are unbounded. *)
From Coq Require Import List ZArith Bool.
From Verif Require Import TupleModel RangeModel CartModel IndexerModel ArrayModel HashModel SendModel CollectModel.
Import ListNotations.
Local Open Scope Z_scope.

(** 102: the iterations, with the remote vertices of each cell *)
Definition items (cm : cmap) : list (Z * (range * list (Z * (Z * Z)))) := combine (zseq 0 (length (cm_cells cm))) (combine (cm_cells cm) (cm_remote cm)).

(** Elements of arrays: LocalVertexCellIndices_(t)(i), LocalVertexFieldValuesIndices_(t)(i), VertexValues_(t)(k,v), VertexCoefs_(t)(v), PackedValues_(k)(iCell),
    and the variable NumThreads of GetThreadCount_ *)
Inductive loc : Type := LCi (t i : Z) | LFi (t i : Z) | LVal (t k v : Z) | LCo (t v : Z) | LOut (k icell : Z) | LNum.
Definition loc_eqb (a b : loc) : bool :=
  match a, b with
  | LCi t i, LCi u j => (t =? u) && (i =? j)
  | LFi t i, LFi u j => (t =? u) && (i =? j)
  | LVal t k v, LVal u l w => (t =? u) && (k =? l) && (v =? w)
  | LCo t v, LCo u w => (t =? u) && (v =? w)
  | LOut k i, LOut l j => (k =? l) && (i =? j)
  | LNum, LNum => true
  | _, _ => false
  end.

Section Threads.
Context {V D : Type}.
Inductive word : Type := WZ (z : Z) | WV (v : V) | WD (d : D).
Definition mem : Type := loc -> word.
Definition mset (m : mem) (l : loc) (w : word) : mem := fun l' => if loc_eqb l l' then w else m l'.

(** An assignment: elements that are loaded, then an element that is stored; None: an index into read-only data is out of bounds *)
Record instr : Type := Ins { i_loads : list loc; i_store : list word -> option (loc * word) }.

(** ** The programs *)
Variables (lay : layout) (c : cart) (cnt : Z) (lr fr : range) (field : list (list V)) (cm : cmap) (bufs : list (list V)).
Variables (mul : D -> D -> D) (acc : V -> D -> V -> V) (zero : V) (coefs : nat -> Z -> Z -> option D).
Definition fail : instr := Ins [] (fun _ => None).
Definition put (l : loc) (w : word) : instr := Ins [] (fun _ => Some (l, w)).
Definition counts : list Z := zseq 0 (Z.to_nat cnt).

(** CollectBase.cpp 69-104 *)
Definition prog_info (t : Z) (info : list (Z * Z)) : list instr :=
  flat_map (fun x => [put (LCi t (fst x)) (WZ (fst (snd x))); put (LFi t (fst x)) (WZ (snd (snd x)))]) (combine (zseq 0 (length info)) info).
(** CollectBase.cpp 253-259 *)
Definition fill (t k i : Z) : instr :=
  Ins [LCi t i; LFi t i] (fun ws =>
    match ws with
    | [WZ ci; WZ fi] => let! v := vals_at field k fi in Some (LVal t k ci, WV v)
    | _ => None
    end).
Definition prog_local (t : Z) (info : list (Z * Z)) : list instr := flat_map (fun k => map (fill t k) (zseq 0 (length info))) counts.
(** CollectBase.cpp 261-276 *)
Definition from_recv (x : Z * (Z * Z)) (k : Z) : option V :=
  let! v := vread (cm_recvs cm) (fst (snd x)) in
  let! b := vread bufs (fst (snd x)) in
  buf_read cnt (v_num v) b k (snd (snd x)).
Definition prog_remote (t : Z) (rem : list (Z * (Z * Z))) : list instr :=
  flat_map (fun x => map (fun k => match from_recv x k with Some w => put (LVal t k (fst x)) (WV w) | None => fail end) counts) rem.
(** CollectInterpThreaded.hpp 111-121 *)
Definition prog_coefs (t icell : Z) (cell : range) : list instr :=
  map (fun p => match vertex_coef mul coefs icell cell p with Some w => put (LCo t (rindex lay cell p)) (WD w) | None => fail end) (RangeModel.foreach_col cell).
(** 123-128 *)
Definition add (t k icell v : Z) : instr :=
  Ins [LOut k icell; LCo t v; LVal t k v] (fun ws =>
    match ws with
    | [WV a; WD w; WV x] => Some (LOut k icell, WV (acc a w x))
    | _ => None
    end).
Definition prog_sum (t icell nv : Z) : list instr :=
  flat_map (fun k => put (LOut k icell) (WV zero) :: map (add t k icell) (zseq 0 (Z.to_nat nv))) counts.
(** 104-128: the body of the loop *)
Definition prog_cell (t : Z) (x : Z * (range * list (Z * (Z * Z)))) : list instr :=
  let cell := fst (snd x) in
  match local_cell_info lay c lr fr cell with
  | None => [fail]
  | Some info => prog_info t info ++ prog_local t info ++ prog_remote t (snd (snd x)) ++ prog_coefs t (fst x) cell ++ prog_sum t (fst x) (rcount cell)
  end.
(** 93-132: the iterations of a thread *)
Definition prog_thread (t : Z) (xs : list (Z * (range * list (Z * (Z * Z))))) : list instr := flat_map (prog_cell t) xs.
(** 145-152: GetThreadCount_, in all threads *)
Definition prog_count (n : Z) : list instr := [put LNum (WZ n)].

(** ** Execution *)

(** 63-70, CollectBase.cpp 45-50: the arrays for [alloc] threads, and the result *)
Definition valid (alloc ncells : Z) (l : loc) : bool :=
  let is_in z n := (0 <=? z) && (z <? n) in
  match l with
  | LCi t i | LFi t i => is_in t alloc && is_in i (cm_max cm)
  | LVal t k v => is_in t alloc && is_in k cnt && is_in v (cm_max cm)
  | LCo t v => is_in t alloc && is_in v (cm_max cm)
  | LOut k i => is_in k cnt && is_in i ncells
  | LNum => true
  end.

(** The memory, and for each thread its program and the words it has loaded *)
Record thst : Type := TS { t_mem : mem; t_prog : nat -> list instr; t_regs : nat -> list word }.
Definition set {A} (f : nat -> A) (t : nat) (a : A) : nat -> A := fun u => if Nat.eqb u t then a else f u.
(** What a thread does next: the element, and whether it is stored *)
Definition access (s : thst) (t : nat) : option (loc * bool) :=
  match t_prog s t with
  | [] => None
  | i :: _ => match nth_error (i_loads i) (length (t_regs s t)) with
              | Some l => Some (l, false)
              | None => option_map (fun lw => (fst lw, true)) (i_store i (t_regs s t))
              end
  end.
(** None: the thread has finished; Some None: undefined *)
Definition tstep (ok : loc -> bool) (n : nat) (s : thst) (t : nat) : option (option thst) :=
  if Nat.ltb t n then
    match t_prog s t with
    | [] => None
    | i :: p =>
        match nth_error (i_loads i) (length (t_regs s t)) with
        | Some l => Some (if ok l then Some (TS (t_mem s) (t_prog s) (set (t_regs s) t (t_regs s t ++ [t_mem s l]))) else None)
        | None => Some (match i_store i (t_regs s t) with
                        | Some (l, w) => if ok l then Some (TS (mset (t_mem s) l w) (set (t_prog s) t p) (set (t_regs s) t [])) else None
                        | None => None
                        end)
        end
    end
  else None.
(** An execution in which threads take turns as listed *)
Fixpoint truns (ok : loc -> bool) (n : nat) (s : thst) (ts : list nat) : option (option thst) :=
  match ts with
  | [] => Some (Some s)
  | t :: ts => match tstep ok n s t with
               | None => None
               | Some None => match ts with [] => Some None | _ => None end
               | Some (Some s) => truns ok n s ts
               end
  end.
Definition start (m : mem) (prog : nat -> list instr) : thst := TS m prog (fun _ => []).
End Threads.
Arguments word : clear implicits.
Arguments mem : clear implicits.
Arguments instr : clear implicits.
Arguments thst : clear implicits.
