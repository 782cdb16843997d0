(** Non-blocking requests: model of src/core/Request.hpp and src/core/Request.cpp.

    One process.  An operation (the object a request wraps) is a number with an array
    of MPI requests, in which None is MPI_REQUEST_NULL and Some h a handle.  MPI keeps
    the set of outstanding handles; passing it a handle that is neither null nor
    outstanding is undefined behaviour (None).  MPI_Waitany may report any outstanding
    handle of its argument: the choice is made by an arbitrary schedule.
    Simplifications: request objects are variables numbered by natural numbers, a
    variable that is not in scope holds no operation; callbacks are recorded in a trace
    and do nothing else; messages are assumed to complete eventually. *)
From Coq Require Import List Bool Arith.
From Verif Require Import ContModel.
Import ListNotations.

(** Request.hpp 70-97: the wrapped operation. *)
Record rq : Type := mkRq { rq_id : nat; rq_mpi : list (option nat) }.

(** Calls made on operation [k]: OnMPIRequestComplete(i), OnComplete(), and the four
    timing functions. *)
Inductive ev : Type :=
| EMsg (k i : nat) | EDone (k : nat)
| EWaitStart (k : nat) | EWaitStop (k : nat) | EMPIStart (k : nat) | EMPIStop (k : nat).

(** [slots] are the request variables; [live] the outstanding MPI handles; [ops] the
    operations started so far with their initial arrays (for stating properties);
    [tick] counts calls of MPI_Waitany. *)
Record rst : Type := mkRS {
  slots : nat -> option rq; live : list nat; tr : list ev;
  ops : list (list (option nat)); nexth : nat; tick : nat }.

Definition rst0 : rst := mkRS (fun _ => None) [] [] [] 0 0.

Definition set_slot (s : rst) (n : nat) (v : option rq) : rst :=
  mkRS (fun m => if Nat.eqb m n then v else slots s m) (live s) (tr s) (ops s) (nexth s) (tick s).
Definition emit (s : rst) (e : ev) : rst :=
  mkRS (slots s) (live s) (tr s ++ [e]) (ops s) (nexth s) (tick s).

Definition is_some {A} (x : option A) : bool := match x with Some _ => true | None => false end.

(** Positions of the non-null entries. *)
Definition nonnull (a : list (option nat)) : list nat :=
  filter (fun i => is_some (nth i a None)) (seq 0 (length a)).

Definition mem (h : nat) (l : list nat) : bool := existsb (Nat.eqb h) l.
Definition remove_h (h : nat) (l : list nat) : list nat := filter (fun x => negb (Nat.eqb h x)) l.

(** MPI_Waitany(cnt, arr, ...): the new array and the index (None = MPI_UNDEFINED). *)
Definition waitany (sched : nat -> nat) (s : rst) (cnt : nat) (arr : list (option nat))
    : option (rst * list (option nat) * option nat) :=
  if length arr <? cnt then None
  else
    let a := firstn cnt arr in
    if existsb (fun x => match x with Some h => negb (mem h (live s)) | None => false end) a
    then None
    else match nonnull a with
         | [] => Some (mkRS (slots s) (live s) (tr s) (ops s) (nexth s) (S (tick s)), arr, None)
         | ps =>
             let p := nth (sched (tick s) mod length ps) ps 0 in
             match nth p arr None with
             | None => None
             | Some h =>
                 Some (mkRS (slots s) (remove_h h (live s)) (tr s) (ops s) (nexth s) (S (tick s)),
                       replace_at arr p None, Some p)
             end
         end.

(** Request.cpp 27-37: the loop of Wait; MPI_Waitany works on the operation's own array. *)
Fixpoint wait_loop (sched : nat -> nat) (fuel : nat) (n : nat) (s : rst) : option rst :=
  match fuel with
  | O => None
  | S f =>
      match slots s n with
      | None => None
      | Some r =>
          let s1 := emit s (EMPIStart (rq_id r)) in
          match waitany sched s1 (length (rq_mpi r)) (rq_mpi r) with
          | None => None
          | Some (s2, arr, idx) =>
              let s3 := emit (set_slot s2 n (Some (mkRq (rq_id r) arr))) (EMPIStop (rq_id r)) in
              match idx with
              | None => Some s3
              | Some i => wait_loop sched f n (emit s3 (EMsg (rq_id r) i))
              end
          end
      end
  end.

(** Request.cpp 19-46: Wait. *)
Definition wait (sched : nat -> nat) (n : nat) (s : rst) : option rst :=
  match slots s n with
  | None => Some s
  | Some r =>
      let k := rq_id r in
      match wait_loop sched (S (length (rq_mpi r))) n (emit s (EWaitStart k)) with
      | None => None
      | Some s1 => Some (set_slot (emit (emit s1 (EDone k)) (EWaitStop k)) n None)
      end
  end.

(** "Request && *Request": the operation of an entry of the array of pointers. *)
Definition active (s : rst) (p : option nat) : option rq :=
  match p with Some n => slots s n | None => None end.

(** Request.cpp 108-112, 116-130 (212-216, 220-234): a timing call on every active request. *)
Definition emit_all (e : nat -> ev) (ps : list (option nat)) (s : rst) : rst :=
  fold_left (fun s p => match active s p with Some r => emit s (e (rq_id r)) | None => s end) ps s.

(** Request.cpp 134-151 (238-255): NumRemainingMPIRequests; entries of inactive
    requests are never read. *)
Definition remaining (ps : list (option nat)) (s : rst) : list nat :=
  map (fun p => match active s p with
                | Some r => length (nonnull (rq_mpi r))
                | None => 0
                end) ps.

(** OnComplete_, StopWaitTime_, Reset_. *)
Definition finish (n : nat) (r : rq) (s : rst) : rst :=
  set_slot (emit (emit s (EDone (rq_id r))) (EWaitStop (rq_id r))) n None.

(** Request.cpp 153-162: complete every active request without messages. *)
Fixpoint finish_empty (ps : list (option nat)) (rem : list nat) (s : rst) : rst :=
  match ps, rem with
  | p :: ps', k :: rem' =>
      finish_empty ps' rem'
        (match p with
         | Some n => match slots s n with
                     | Some r => if Nat.eqb k 0 then finish n r s else s
                     | None => s
                     end
         | None => s
         end)
  | _, _ => s
  end.

(** Request.cpp 257-268: WaitAny returns after completing the first of them. *)
Fixpoint finish_first (i : nat) (ps : list (option nat)) (rem : list nat) (s : rst)
    : option (rst * nat) :=
  match ps, rem with
  | p :: ps', k :: rem' =>
      match active s p, p with
      | Some r, Some n => if Nat.eqb k 0 then Some (finish n r s, i)
                          else finish_first (S i) ps' rem' s
      | _, _ => finish_first (S i) ps' rem' s
      end
  | _, _ => None
  end.

(** Request.cpp 164-185 (270-291): AllMPIRequests and AllMPIRequestToRequest. *)
Fixpoint gather (i : nat) (ps : list (option nat)) (s : rst)
    : list (option nat) * list (nat * nat) :=
  match ps with
  | [] => ([], [])
  | p :: ps' =>
      let '(hs, ix) := gather (S i) ps' s in
      match active s p with
      | Some r => (map (fun j => nth j (rq_mpi r) None) (nonnull (rq_mpi r)) ++ hs,
                   map (fun j => (i, j)) (nonnull (rq_mpi r)) ++ ix)
      | None => (hs, ix)
      end
  end.

(** Request.cpp 187-206 (293-314): the loop; [any] says whether to return after the
    first completed request (WaitAny). The result is the index of that request. *)
Fixpoint wait_many_loop (sched : nat -> nat) (any : bool) (fuel : nat) (ps : list (option nat))
    (total : nat) (all : list (option nat)) (ix : list (nat * nat)) (rem : list nat) (s : rst)
    : option (rst * option nat) :=
  match fuel with
  | O => None
  | S f =>
      match waitany sched (emit_all EMPIStart ps s) total all with
      | None => None
      | Some (s2, all', None) => Some (emit_all EMPIStop ps s2, None)
      | Some (s2, all', Some c) =>
          let s3 := emit_all EMPIStop ps s2 in
          match nth_error ix c with
          | None => None
          | Some (i, j) =>
              match nth_error ps i with
              | Some (Some n) =>
                  match slots s3 n, nth_error rem i with
                  | Some r, Some k =>
                      if length (rq_mpi r) <=? j then None
                      else
                        let r' := mkRq (rq_id r) (replace_at (rq_mpi r) j None) in
                        let s4 := emit (set_slot s3 n (Some r')) (EMsg (rq_id r) j) in
                        let rem' := replace_at rem i (k - 1) in
                        if Nat.eqb (k - 1) 0 then
                          let s5 := finish n r' s4 in
                          if any then Some (s5, Some i)
                          else wait_many_loop sched any f ps total all' ix rem' s5
                        else wait_many_loop sched any f ps total all' ix rem' s4
                  | _, _ => None
                  end
              | _ => None
              end
          end
      end
  end.

Definition sum (l : list nat) : nat := fold_right plus 0 l.

(** Request.cpp 104-206: WaitAll. *)
Definition wait_all (sched : nat -> nat) (ps : list (option nat)) (s : rst) : option rst :=
  let s1 := emit_all EWaitStart ps s in
  let rem := remaining ps s1 in
  let s2 := finish_empty ps rem s1 in
  let '(hs, ix) := gather 0 ps s2 in
  match wait_many_loop sched false (S (length hs)) ps (sum rem) hs ix rem s2 with
  | Some (s3, _) => Some s3
  | None => None
  end.

(** Request.cpp 208-315: WaitAny; the index is None for -1. *)
Definition wait_any (sched : nat -> nat) (ps : list (option nat)) (s : rst)
    : option (rst * option nat) :=
  let s1 := emit_all EWaitStart ps s in
  let rem := remaining ps s1 in
  match finish_first 0 ps rem s1 with
  | Some (s2, i) => Some (s2, Some i)
  | None => let '(hs, ix) := gather 0 ps s1 in
            wait_many_loop sched true (S (length hs)) ps (sum rem) hs ix rem s1
  end.

(** A new operation: for each entry of its array, whether a message is posted. *)
Fixpoint fresh_handles (bs : list bool) (h : nat) : list (option nat) :=
  match bs with
  | [] => []
  | true :: r => Some h :: fresh_handles r (S h)
  | false :: r => None :: fresh_handles r h
  end.
Definition posted (a : list (option nat)) : list nat :=
  flat_map (fun x => match x with Some h => [h] | None => [] end) a.
Definition start (bs : list bool) (s : rst) : rst * rq :=
  let a := fresh_handles bs (nexth s) in
  (mkRS (slots s) (live s ++ posted a) (tr s) (ops s ++ [a]) (nexth s + length (posted a)) (tick s),
   mkRq (length (ops s)) a).

(** Histories.  [RNew n bs]: variable n goes out of scope if it held a request
    (Request.hpp 31-33: ~request waits) and a new request is constructed in it
    (26-29).  [RMoveNew n m]: the same, move-constructed from m (36).
    [RAssign n bs], [RMoveAssign n m]: assignments (38-42, 45), which reset the
    unique_ptr and do not wait. [RDestroy n]: the destructor. *)
Inductive rop : Type :=
| RNew (n : nat) (bs : list bool) | RMoveNew (n m : nat)
| RAssign (n : nat) (bs : list bool) | RMoveAssign (n m : nat) | RDestroy (n : nat)
| RWait (n : nat) | RWaitAll (ps : list (option nat)) | RWaitAny (ps : list (option nat)).

Definition construct (n : nat) (bs : list bool) (s : rst) : rst :=
  let '(s1, r) := start bs s in set_slot s1 n (Some r).
Definition move_into (n m : nat) (s : rst) : rst :=
  if Nat.eqb n m then s else set_slot (set_slot s n (slots s m)) m None.

Definition rstep (sched : nat -> nat) (s : rst) (o : rop) : option rst :=
  match o with
  | RNew n bs => option_map (construct n bs) (wait sched n s)
  | RMoveNew n m => if Nat.eqb n m then None else option_map (move_into n m) (wait sched n s)
  | RAssign n bs => Some (construct n bs s)
  | RMoveAssign n m => Some (move_into n m s)
  | RDestroy n | RWait n => wait sched n s
  | RWaitAll ps => wait_all sched ps s
  | RWaitAny ps => option_map fst (wait_any sched ps s)
  end.

Fixpoint rrun (sched : nat -> nat) (s : rst) (l : list rop) : option rst :=
  match l with
  | [] => Some s
  | o :: r => match rstep sched s o with None => None | Some s' => rrun sched s' r end
  end.
