(** Dispersing packed values to the points of a field: model of src/core/DisperseMap.hpp,
    DisperseBase.cpp 40-64, DisperseOverwrite.hpp 55-75 and DisperseAppend.hpp 49-69. *)
From Coq Require Import List ZArith Bool.
From Verif Require Import TupleModel RangeModel IndexerModel ArrayModel HashModel SendModel.
Import ListNotations.
Local Open Scope Z_scope.

Section Values.
Context {V : Type}.

(** The loop over iCount: [op old v] is the new value. *)
Definition disperse_point (op : V -> V -> V) (cnt : Z) (lay : layout) (R : range) (pts : list (tup Z))
    (packed : list (list V)) (fields : list (list V)) (ip : Z) : option (list (list V)) :=
  let! p := vread pts ip in
  let i := rindex lay R p in
  ofoldl (fun fields c =>
    let! v := vals_at packed c ip in
    let! old := vals_at fields c i in
    let! row := vread fields c in
    let! row' := vwrite row i (op old v) in
    vwrite fields c row') (zseq 0 (Z.to_nat cnt)) fields.

Definition disperse (op : V -> V -> V) (cnt : Z) (lay : layout) (R : range) (pts : list (tup Z))
    (packed fields : list (list V)) : option (list (list V)) :=
  ofoldl (disperse_point op cnt lay R pts packed) (zseq 0 (length pts)) fields.

(** DisperseOverwrite.hpp 55-75 *)
Definition disperse_overwrite := disperse (fun _ v => v).
(** DisperseAppend.hpp 49-69, with the addition of the value type. *)
Definition disperse_append (add : V -> V -> V) := disperse add.

End Values.
