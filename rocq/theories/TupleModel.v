(** Tuples of MAX_DIMS = 3 components.
    Model of ovk::tuple<T> = elem<T,MAX_DIMS> (src/core/Tuple.hpp, src/core/Elem.hpp;
    MAX_DIMS is 3, src/core/Global.hpp). *)
From Coq Require Import List ZArith Bool.
Import ListNotations.
Open Scope Z_scope.

(** Elem.hpp: elem<T,3>, storage of three values. *)
Record tup (A : Type) : Type := T3 { c0 : A; c1 : A; c2 : A }.
Arguments T3 {A} _ _ _.
Arguments c0 {A} _.
Arguments c1 {A} _.
Arguments c2 {A} _.

(** Elem.hpp: operator()(int iDim).  Simplification: iDim is 0, 1 or 2 in every
    use; every value above 1 reads component 2. *)
Definition tget {A} (t : tup A) (d : nat) : A :=
  match d with 0%nat => c0 t | 1%nat => c1 t | _ => c2 t end.

(** A loop [for (int iDim = 0; iDim < MAX_DIMS; ++iDim) Result(iDim) = f(iDim)]. *)
Definition tmake {A} (f : nat -> A) : tup A := T3 (f 0%nat) (f 1%nat) (f 2%nat).

(** Conjunction of a condition over all dimensions (EqualityHelper, Elem.inl 37-52). *)
Definition tall (f : nat -> bool) : bool := f 0%nat && f 1%nat && f 2%nat.

(** Disjunction of a condition over all dimensions. *)
Definition tany (f : nat -> bool) : bool := f 0%nat || f 1%nat || f 2%nat.

(** Elem.inl 49-52: operator== on integer tuples. *)
Definition teqb (a b : tup Z) : bool := tall (fun d => tget a d =? tget b d).

(** operator== on boolean tuples (same template). *)
Definition tbeqb (a b : tup bool) : bool := tall (fun d => Bool.eqb (tget a d) (tget b d)).

(** Elem.inl 65-68: operator+. *)
Definition tadd (a b : tup Z) : tup Z := tmake (fun d => tget a d + tget b d).

(** Elem.inl 87-90: operator-. *)
Definition tsub (a b : tup Z) : tup Z := tmake (fun d => tget a d - tget b d).

(** Tuple.hpp: MakeUniformTuple<T>(NumDims, Value, Default): the first NumDims
    components get Value, the others Default. *)
Definition tuniform {A} (nd : nat) (v dflt : A) : tup A :=
  tmake (fun d => if Nat.ltb d nd then v else dflt).
