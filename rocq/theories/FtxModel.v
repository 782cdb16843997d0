(** Transfer of the fragments of grids during the detection of overlap: model of
    src/core/AssemblerAssembly.cpp 1422-1644.

    Each process has a sorted list of the fragments it sends, one of those it receives
    (elem_set<int,3> FragmentSends and FragmentRecvs, 1155-1175) and a number of local
    fragments.  A process asks for a fragment by a signal without content once it has
    posted the receives of its four arrays (three of coordinates and the mask); all
    signals have one tag and all arrays another.  The loop tests for completed
    operations with MPI_Testsome, and handles one fragment per iteration.

    Processes run in arbitrary interleaving; the positions of one process are the three
    tests and the handling.  The arrays are represented by one value each.
    MPI: receives posted for one source match its messages in the order of sending
    (MPI 3.5); a completed receive is reported by any later MPI_Testsome, in any order.
    Simplifications: a send may complete at any time; the MPI_Waitall on the signals
    (1637) completes, as all of them have been answered; the search that uses a fragment
    (1540-1612) is represented by an entry of a log holding its data. *)
From Coq Require Import ZArith List Bool Arith.
From Verif Require Import FRefModel.
Import ListNotations.
Local Open Scope nat_scope.

(** elem<int,3>: grid, rank, fragment. *)
Record ent : Type := mkE { e_grid : Z; e_rank : nat; e_frag : Z }.

Section Transfer.
Context {V : Type}.

(** A receive: none active, active for the [k]-th message from [p], or completed with a
    value.  TransferRecvFinished is false for active ones only. *)
Inductive part : Type := PFree | PWait (p k : nat) | PGot (v : V).
Definition finished (x : part) : bool := match x with PWait _ _ => false | _ => true end.
Definition value (x : part) : option V := match x with PGot v => Some v | _ => None end.

(** A transfer: TransferredFragmentRecvIndices (None is -1), TransferMPIRecvRequests,
    TransferredFragmentData. *)
Record slot : Type := mkSl { sl_recv : option nat; sl_parts : list part }.

Inductive event : Type := ERemote (i : nat) (vs : list (option V)) | ELocal (i : nat).

Inductive pos : Type := PInit | PSignals | PSends | PRecvs | PHandle.

(** [k_sig]: sends whose signal was reported, in that order; [k_fin]: TransferSendFinished;
    [k_sent p], [k_posted p]: signals sent to p, receives posted for p; [k_chan q]: the
    arrays sent to q; [k_sd], [k_rd], [k_ld]: SendsDone, RecvsDone, LocalsDone. *)
Record rank : Type := mkRk {
  k_pos : pos; k_sig : list nat; k_fin : list (nat * nat); k_chan : nat -> list V;
  k_slots : list slot; k_next : nat; k_sent : nat -> nat; k_posted : nat -> nat;
  k_loc : nat; k_sd : bool; k_rd : bool; k_ld : bool; k_log : list event }.

Definition replace {A} (l : list A) (t : nat) (x : A) : list A := firstn t l ++ x :: skipn (S t) l.

(** What is transferred: number of processes, sends, receives and number of local
    fragments of each, and the arrays of the fragments. *)
Record job : Type := mkJ {
  j_n : nat; j_sends : nat -> list ent; j_recvs : nat -> list ent; j_locals : nat -> nat;
  j_data : nat -> Z -> Z -> nat -> V }.

(** MAX_SIMULTANEOUS_TRANSFERS, 1427. *)
Definition max_transfers : nat := 10.

Variable J : job.

Definition sends := j_sends J.
Definition recvs := j_recvs J.

(** 1459-1476 and 1614-1634: posting the receives of the next fragment, and the signal. *)
Definition post (q t : nat) (k : rank) : rank :=
  match nth_error (recvs q) (k_next k) with
  | Some e =>
      let p := e_rank e in let c := k_posted k p in
      mkRk (k_pos k) (k_sig k) (k_fin k) (k_chan k)
        (replace (k_slots k) t (mkSl (Some (k_next k)) [PWait p c; PWait p (c + 1); PWait p (c + 2); PWait p (c + 3)]))
        (S (k_next k)) (upd (k_sent k) p (S (k_sent k p))) (upd (k_posted k) p (c + 4))
        (k_loc k) (k_sd k) (k_rd k) (k_ld k) (k_log k)
  | None => k
  end.

(** 1422-1438, 1483-1485. *)
Definition blank (r : nat) : rank :=
  mkRk PInit [] [] (fun _ => []) (repeat (mkSl None [PFree; PFree; PFree; PFree]) max_transfers)
    0 (fun _ => 0) (fun _ => 0) 0 (Nat.eqb (length (sends r)) 0) (Nat.eqb (length (recvs r)) 0)
    (Nat.eqb (j_locals J r) 0) [].

Definition move (k : rank) (x : pos) : rank :=
  mkRk x (k_sig k) (k_fin k) (k_chan k) (k_slots k) (k_next k) (k_sent k) (k_posted k)
    (k_loc k) (k_sd k) (k_rd k) (k_ld k) (k_log k).

(** 1443-1477: the receives of the signals, and the first transfers. *)
Definition init (q : nat) : rank :=
  move (fold_left (fun k t => post q t k) (seq 0 max_transfers) (blank q)) PSignals.

Definition rank_at (l : list ent) (i : nat) : option nat := option_map e_rank (nth_error l i).
(** How many entries before the [i]-th one have its rank. *)
Definition before (l : list ent) (i : nat) : nat :=
  length (filter (fun e => match rank_at l i with Some r => Nat.eqb (e_rank e) r | None => false end) (firstn i l)).

Definition arrays (p : nat) (e : ent) : list V := map (j_data J p (e_grid e) (e_frag e)) [0; 1; 2; 3].

(** The signal of the [i]-th send has arrived: receives of signals are posted in the
    order of the sends (1443-1447), and match in that order. *)
Definition arrived (g : nat -> rank) (p i : nat) : bool :=
  match rank_at (sends p) i with
  | Some q => Nat.ltb (before (sends p) i) (k_sent (g q) p)
  | None => false
  end.
Definition same_rank (l : list ent) (i j : nat) : bool :=
  match rank_at l i, rank_at l j with Some a, Some b => Nat.eqb a b | _, _ => false end.
(** All earlier signals of the same process have been reported. *)
Definition in_turn (p : nat) (sig : list nat) (i : nat) : bool :=
  forallb (fun j => implb (same_rank (sends p) i j) (existsb (Nat.eqb j) sig)) (seq 0 i).

(** 1490-1506: what MPI_Testsome may report; with [ord], it reports the signals of each
    process in the order in which they were sent. *)
Fixpoint signals_ok (ord : bool) (g : nat -> rank) (p : nat) (sig out : list nat) : bool :=
  match out with
  | [] => true
  | i :: out' => negb (existsb (Nat.eqb i) sig) && arrived g p i && implb ord (in_turn p sig i) &&
                 signals_ok ord g p (sig ++ [i]) out'
  end.
Definition answer (p : nat) (k : rank) (i : nat) : rank :=
  match nth_error (sends p) i with
  | Some e =>
      mkRk (k_pos k) (k_sig k ++ [i]) (k_fin k) (upd (k_chan k) (e_rank e) (k_chan k (e_rank e) ++ arrays p e))
        (k_slots k) (k_next k) (k_sent k) (k_posted k) (k_loc k) (k_sd k) (k_rd k) (k_ld k) (k_log k)
  | None => k
  end.

Definition pair_eqb (a b : nat * nat) : bool := Nat.eqb (fst a) (fst b) && Nat.eqb (snd a) (snd b).
(** 1507-1515. *)
Fixpoint sends_ok (k : rank) (fin out : list (nat * nat)) : bool :=
  match out with
  | [] => true
  | x :: out' => existsb (Nat.eqb (fst x)) (k_sig k) && Nat.ltb (snd x) 4 && negb (existsb (pair_eqb x) fin) &&
                 sends_ok k (fin ++ [x]) out'
  end.
Definition all_sent (p : nat) (fin : list (nat * nat)) : bool :=
  forallb (fun i => forallb (fun d => existsb (pair_eqb (i, d)) fin) [0; 1; 2; 3]) (seq 0 (length (sends p))).
Definition send_done (p : nat) (k : rank) (out : list (nat * nat)) : rank :=
  mkRk (k_pos k) (k_sig k) (k_fin k ++ out) (k_chan k) (k_slots k) (k_next k) (k_sent k) (k_posted k) (k_loc k)
    (match out with [] => k_sd k | _ => all_sent p (k_fin k ++ out) end) (k_rd k) (k_ld k) (k_log k).

(** 1517-1527: the completed receives that are reported; None: not completed. *)
Definition receive (g : nat -> rank) (q : nat) (sl : list slot) (x : nat * nat) : option (list slot) :=
  match nth_error sl (fst x) with
  | Some s =>
      match nth_error (sl_parts s) (snd x) with
      | Some (PWait p c) =>
          match nth_error (k_chan (g p) q) c with
          | Some v => Some (replace sl (fst x) (mkSl (sl_recv s) (replace (sl_parts s) (snd x) (PGot v))))
          | None => None
          end
      | _ => None
      end
  | None => None
  end.
Fixpoint receives (g : nat -> rank) (q : nat) (sl : list slot) (out : list (nat * nat)) : option (list slot) :=
  match out with
  | [] => Some sl
  | x :: out' => match receive g q sl x with Some sl' => receives g q sl' out' | None => None end
  end.
Definition with_slots (k : rank) (sl : list slot) : rank :=
  mkRk (k_pos k) (k_sig k) (k_fin k) (k_chan k) sl (k_next k) (k_sent k) (k_posted k)
    (k_loc k) (k_sd k) (k_rd k) (k_ld k) (k_log k).

(** 1528-1541: the first transfer that has finished. *)
Definition ready (s : slot) : bool :=
  match sl_recv s with Some _ => forallb finished (sl_parts s) | None => false end.
Fixpoint first_ready (sl : list slot) (t : nat) : option (nat * nat * list (option V)) :=
  match sl with
  | [] => None
  | s :: sl' => if ready s then match sl_recv s with Some i => Some (t, i, map value (sl_parts s)) | None => None end
                else first_ready sl' (S t)
  end.
Definition logged (k : rank) (e : event) : rank :=
  mkRk (k_pos k) (k_sig k) (k_fin k) (k_chan k) (k_slots k) (k_next k) (k_sent k) (k_posted k)
    (k_loc k) (k_sd k) (k_rd k) (k_ld k) (k_log k ++ [e]).
Definition is_none {A} (o : option A) : bool := match o with None => true | Some _ => false end.
(** 1633-1639. *)
Definition release (k : rank) (t : nat) : rank :=
  let sl := match nth_error (k_slots k) t with
            | Some s => replace (k_slots k) t (mkSl None (sl_parts s))
            | None => k_slots k
            end in
  mkRk (k_pos k) (k_sig k) (k_fin k) (k_chan k) sl (k_next k) (k_sent k) (k_posted k)
    (k_loc k) (k_sd k) (forallb (fun s => is_none (sl_recv s)) sl) (k_ld k) (k_log k).
(** 1528-1644. *)
Definition handle (q : nat) (k : rank) : rank :=
  match (if k_rd k then None else first_ready (k_slots k) 0) with
  | Some (t, i, vs) =>
      let k1 := logged k (ERemote i vs) in
      if Nat.ltb (k_next k) (length (recvs q)) then post q t k1 else release k1 t
  | None =>
      if k_ld k then k
      else mkRk (k_pos k) (k_sig k) (k_fin k) (k_chan k) (k_slots k) (k_next k) (k_sent k) (k_posted k)
             (S (k_loc k)) (k_sd k) (k_rd k) (Nat.eqb (S (k_loc k)) (j_locals J q)) (k_log k ++ [ELocal (k_loc k)])
  end.

(** The condition of the loop (1486). *)
Definition done (k : rank) : bool := k_sd k && k_rd k && k_ld k.

(** What MPI reports to a process in each test. *)
Inductive act : Type :=
| AInit | ASignals (out : list nat) | ASends (out : list (nat * nat)) | ARecvs (out : list (nat * nat)) | AHandle.

(** One move of process [r]; None: not possible. *)
Definition step (ord : bool) (g : nat -> rank) (r : nat) (a : act) : option (nat -> rank) :=
  let k := g r in
  if negb (Nat.ltb r (j_n J)) then None else
  match k_pos k, a with
  | PInit, AInit => Some (upd g r (init r))
  | PSignals, ASignals out =>
      if done k then None
      else if k_sd k then match out with [] => Some (upd g r (move k PRecvs)) | _ => None end
      else if signals_ok ord g r (k_sig k) out
           then Some (upd g r (move (fold_left (answer r) out k) PSends)) else None
  | PSends, ASends out =>
      if sends_ok k (k_fin k) out then Some (upd g r (move (send_done r k out) PRecvs)) else None
  | PRecvs, ARecvs out =>
      if k_rd k then match out with [] => Some (upd g r (move k PHandle)) | _ => None end
      else match receives g r (k_slots k) out with
           | Some sl => Some (upd g r (move (with_slots k sl) PHandle))
           | None => None
           end
  | PHandle, AHandle => Some (upd g r (move (handle r k) PSignals))
  | _, _ => None
  end.

Definition start : nat -> rank := blank.

Fixpoint exec (ord : bool) (g : nat -> rank) (l : list (nat * act)) : option (nat -> rank) :=
  match l with
  | [] => Some g
  | (r, a) :: l' => match step ord g r a with Some g' => exec ord g' l' | None => None end
  end.

End Transfer.
Arguments PFree {V}.
Arguments PWait {V} _ _.
Arguments ELocal {V} _.
