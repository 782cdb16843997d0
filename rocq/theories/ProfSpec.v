(** What a profiler measures, read off the history of calls, newest first. *)
From Coq Require Import List ZArith Bool.
From Verif Require Import ProfModel.
Import ListNotations.
Local Open Scope Z_scope.

Fixpoint enabled (h : list (Z * pop)) : bool :=
  match h with
  | (_, PEnable) :: _ => true
  | (_, PDisable) :: _ => false
  | _ :: h' => enabled h'
  | [] => false
  end.

(** The number of recorded starts of a timer without their stop. *)
Fixpoint depth (id : Z) (h : list (Z * pop)) : Z :=
  match h with
  | (_, PStart i) :: h' | (_, PStartSync i) :: h' => if enabled h' && Z.eqb i id then depth id h' + 1 else depth id h'
  | (_, PStop i) :: h' => if enabled h' && Z.eqb i id then depth id h' - 1 else depth id h'
  | _ :: h' => depth id h'
  | [] => 0
  end.

(** The time, up to [now], during which a start is unmatched: the intervals between consecutive
    calls are either entirely inside or entirely outside. *)
Fixpoint busy (id : Z) (now : Z) (h : list (Z * pop)) : Z :=
  match h with
  | [] => 0
  | e :: h' => (if 0 <? depth id h then now - fst e else 0) + busy id (fst e) h'
  end.

(** Was the timer ever started? *)
Fixpoint started (id : Z) (h : list (Z * pop)) : bool :=
  match h with
  | (_, PStart i) :: h' | (_, PStartSync i) :: h' => (enabled h' && Z.eqb i id) || started id h'
  | _ :: h' => started id h'
  | [] => false
  end.

(** Calls with valid identifiers; a recorded stop has an unmatched start. *)
Definition plegal (h : list (Z * pop)) (e : Z * pop) : Prop :=
  match snd e with
  | PStart i | PStartSync i => 0 <= i < Z.of_nat TIMER_ID_COUNT
  | PStop i => enabled h = true -> 0 < depth i h
  | _ => True
  end.
Fixpoint plegal_history (h : list (Z * pop)) : Prop :=
  match h with [] => True | e :: h' => plegal h' e /\ plegal_history h' end.

(** A profile: for every timer used by some rank, the least, the greatest and the sum of the busy
    times of the ranks.  [hs] gives for each rank its history and the clock at which the time of
    each timer is read. *)
Definition folded (f : Z -> Z -> Z) (l : list Z) : Z :=
  match l with [] => 0 | a :: r => fold_left f r a end.
Definition profile (hs : list (list (Z * pop) * (Z -> Z))) : list (Z * (Z * Z * Z)) :=
  map (fun id => let ts := map (fun hc => busy id (snd hc id) (fst hc)) hs in
                 (id, (folded Z.min ts, folded Z.max ts, folded Z.add ts)))
    (filter (fun id => existsb (fun hc => started id (fst hc)) hs)
       (map Z.of_nat (seq 0 TIMER_ID_COUNT))).
