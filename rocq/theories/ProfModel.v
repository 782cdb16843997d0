(** Model of src/core/Profiler.hpp, Profiler.inl and Profiler.cpp: timers and profilers.

    Times are integers (clock ticks); rounding of doubles is not represented.  The clock is read
    once per call, and its value is an argument.  None is undefined behaviour: the use of a time
    that was never set, or a missing element. *)
From Coq Require Import List ZArith Bool.
From Verif Require Import ContModel DomainModel.
Import ListNotations.
Local Open Scope Z_scope.

(** Profiler.hpp 21-43: class timer; LastStartTime_ and LastEndTime_ are not initialised. *)
Record timer := mkTimer { t_active : bool; t_acc : Z; t_start : option Z; t_end : option Z }.
Definition timer_init : timer := mkTimer false 0 None None.

(** Profiler.inl 7-15. *)
Definition timer_start (t : timer) (now : Z) : timer :=
  mkTimer true (t_acc t) (if t_active t then t_start t else Some now) (t_end t).

(** Profiler.inl 17-26. *)
Definition timer_stop (t : timer) (now : Z) : option timer :=
  if t_active t then
    let? s := t_start t in Some (mkTimer false (t_acc t + (now - s)) (Some s) (Some now))
  else Some t.

(** Profiler.inl 34-42: Elapsed. *)
Definition timer_elapsed (t : timer) (now : Z) : option Z :=
  let? s := t_start t in
  if t_active t then Some (now - s) else let? e := t_end t in Some (e - s).

(** Profiler.inl 44-52: Accumulated. *)
Definition timer_accumulated (t : timer) (now : Z) : option Z :=
  if t_active t then let? s := t_start t in Some (t_acc t + (now - s)) else Some (t_acc t).

(** Profiler.hpp 151-162: timer_entry, and the members of profiler. *)
Record prof := mkProf { p_on : bool; p_timers : smap Z (timer * Z) }.
Definition prof_init : prof := mkProf false map_empty.

(** Profiler.cpp 134-141 and 143-152: Start_ and StartSync_ (the barrier only makes time pass). *)
Definition prof_start (p : prof) (id now : Z) : option prof :=
  let mf := map_fetch Z.ltb (p_timers p) id (timer_init, 0) in
  let? e := option_map snd (nth_error (m_entries (fst mf)) (snd mf)) in
  Some (mkProf (p_on p) (map_write (fst mf) (snd mf) (timer_start (fst e) now, snd e + 1))).

(** Profiler.cpp 154-170: Stop_. *)
Definition prof_stop (p : prof) (id now : Z) : option prof :=
  if map_contains Z.ltb (p_timers p) id then
    let? e := map_at Z.ltb (p_timers p) id in
    let c := snd e - 1 in
    let? t := (if Z.eqb c 0 then timer_stop (fst e) now else Some (fst e)) in
    Some (mkProf (p_on p) (map_write (p_timers p) (set_lower Z.ltb (m_keys (p_timers p)) id) (t, c)))
  else None.

Inductive pop := PEnable | PDisable | PStart (id : Z) | PStartSync (id : Z) | PStop (id : Z).

(** Profiler.cpp 122-132 and Profiler.inl 54-80. *)
Definition prof_step (p : prof) (e : Z * pop) : option prof :=
  match snd e with
  | PEnable => Some (mkProf true (p_timers p))
  | PDisable => Some (mkProf false (p_timers p))
  | PStart id | PStartSync id => if p_on p then prof_start p id (fst e) else Some p
  | PStop id => if p_on p then prof_stop p id (fst e) else Some p
  end.
Definition prof_run (h : list (Z * pop)) : option prof := ofold prof_step h prof_init.

(** The accumulated time of a timer as WriteProfile (197-203) reads it. *)
Definition accumulated (p : prof) (id now : Z) : option Z :=
  if map_contains Z.ltb (p_timers p) id then
    let? e := map_at Z.ltb (p_timers p) id in timer_accumulated (fst e) now
  else Some 0.

(** Profiler.hpp 49-132: the number of timers. *)
Definition TIMER_ID_COUNT : nat := 82.

(** Profiler.cpp 180-183: TimerWasUsed before the reduction. *)
Definition was_used (p : prof) : option (list bool) :=
  ofold (fun a id => if (0 <=? id) && (id <? Z.of_nat TIMER_ID_COUNT)
                     then Some (replace_at a (Z.to_nat id) true) else None)
    (m_keys (p_timers p)) (repeat false TIMER_ID_COUNT).

(** MPI_Allreduce with an associative operation, of arrays of equal length. *)
Fixpoint zip2 {A} (f : A -> A -> A) (a b : list A) : option (list A) :=
  match a, b with
  | [], [] => Some []
  | x :: a', y :: b' => let? r := zip2 f a' b' in Some (f x y :: r)
  | _, _ => None
  end.
Definition allreduce {A} (f : A -> A -> A) (l : list (list A)) : option (list A) :=
  match l with [] => Some [] | a :: r => ofold (zip2 f) r a end.

(** 185-189: GlobalTimerIDs. *)
Definition global_ids (used : list bool) : list Z :=
  fold_left (fun s id => match nth_error used id with
                         | Some true => set_insert Z.ltb s (Z.of_nat id)
                         | _ => s
                         end) (seq 0 TIMER_ID_COUNT) [].

(** 193-204: Times of a rank; [clock] gives the value read for each timer. *)
Definition times (p : prof) (clock : Z -> Z) (ids : list Z) : option (list Z) :=
  on_ranks (fun _ id => accumulated p id (clock id)) 0 ids.

(** 172-230: WriteProfile on all ranks of the communicator: for every timer its ID, the minimum,
    the maximum and the sum of the accumulated times (the mean is the sum over the size). *)
Fixpoint zip4 (a b c d : list Z) : list (Z * (Z * Z * Z)) :=
  match a, b, c, d with
  | x :: a', y :: b', z :: c', w :: d' => (x, (y, z, w)) :: zip4 a' b' c' d'
  | _, _, _, _ => []
  end.
Definition write_profile (ranks : list (prof * (Z -> Z))) : option (list (Z * (Z * Z * Z))) :=
  let? used := on_ranks (fun _ pc => was_used (fst pc)) 0 ranks in
  let? all := allreduce orb used in
  let ids := global_ids all in
  let? ts := on_ranks (fun _ pc => times (fst pc) (snd pc) ids) 0 ranks in
  let? mins := allreduce Z.min ts in
  let? maxs := allreduce Z.max ts in
  let? sums := allreduce Z.add ts in
  Some (zip4 ids mins maxs sums).
