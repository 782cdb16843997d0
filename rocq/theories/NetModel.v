(** Programs in which all ranks of a communicator go through the same phases: the
    communication pattern of src/core/Halo.inl 75-176, Send.cpp 70-151, Recv.cpp 44-159,
    CollectBase.cpp 54-278, Decomp.cpp 28-102 and 214-269, DistributedRegionHash.inl 21-297 and
    334-607 and DistributedFieldOps.cpp.

    A phase is purely local; or it posts non-blocking receives and sends and then waits for
    all of them (MPI_Irecv, MPI_Isend, then MPI_Waitall or MPI_Waitany in a loop); or it is a
    collective operation whose result needs a contribution of every rank.
    MPI is modelled by its standard: the k-th message from one rank to another matches the
    k-th receive posted for that sender (all messages have the same tag), messages may
    arrive at any later time, and receives may complete in any order.  Simplification: the
    non-blocking calls of one phase are posted in one step. *)
From Coq Require Import List Arith Bool.
From Verif Require Import FRefModel ProtoModel.
Import ListNotations.

Section Net.
Context {St Msg : Type}.

(** [p_recvs r s]: the senders rank r posts receives for when its state is s, in the order of
    posting; [p_sends r s]: destinations and contents of the messages it sends, in the
    order of posting; [p_done r s l]: what it does with the messages received, [l] being the
    numbers of the receives and the messages in the order of completion. *)
Record p2p : Type := P2P {
  p_recvs : nat -> St -> list nat;
  p_sends : nat -> St -> list (nat * Msg);
  p_done : nat -> St -> list (nat * Msg) -> option St }.

(** [Coll f]: [f l r] is the state of rank r after the collective operation, from the list
    of all ranks' states when they called it. *)
Inductive phase : Type :=
| Local (f : nat -> St -> option St)
| Exch (p : p2p)
| Coll (f : list St -> nat -> option St).

(** [n_pc r]: the phase rank r is in; [n_in r]: if it has posted the calls of that phase, the
    receives completed so far; [n_log s d]: all messages sent from s to d so far;
    [n_posted d s]: the number of receives d has posted for s so far; [n_arr t r]: the state
    with which r called the collective operation of phase t. *)
Record net : Type := mkNet {
  n_pc : nat -> nat; n_st : nat -> St; n_in : nat -> option (list (nat * Msg));
  n_log : nat -> nat -> list Msg; n_posted : nat -> nat -> nat;
  n_arr : nat -> nat -> option St }.

Definition net0 (S : nat -> St) : net :=
  mkNet zero S (fun _ => None) (fun _ _ => []) (fun _ _ => 0) (fun _ _ => None).

Inductive nlabel : Type :=
| NLocal (r : nat) | NPost (r : nat) | NRecv (r i : nat) | NWait (r : nat)
| NArrive (r : nat) | NLeave (r : nat).

Definition nrank (l : nlabel) : nat :=
  match l with
  | NLocal r => r | NPost r => r | NRecv r _ => r | NWait r => r | NArrive r => r | NLeave r => r
  end.

(** The messages for rank d among those sent. *)
Definition msgs_to (d : nat) (l : list (nat * Msg)) : list Msg :=
  map snd (filter (fun x => Nat.eqb (fst x) d) l).

Definition count (s : nat) (l : list nat) : nat := length (filter (Nat.eqb s) l).

Fixpoint all_some {A} (l : list (option A)) : option (list A) :=
  match l with
  | [] => Some []
  | Some a :: l => match all_some l with Some r => Some (a :: r) | None => None end
  | None :: _ => None
  end.

(** One step of rank r, with phase ph.  With [sy], a send is complete only when the matching
    receive has been posted; without, it may be complete at any time. *)
Definition nstep1 (sy : bool) (n : nat) (ph : phase) (c : net) (l : nlabel) (r : nat) : option net :=
  let (pc, st, inn, log, posted, arr) := c in
  match ph, l with
  | Local f, NLocal _ =>
      match f r (st r) with
      | Some s => Some (mkNet (inc pc r) (upd st r s) inn log posted arr)
      | None => None
      end
  | Exch p, NPost _ =>
      match inn r with
      | Some _ => None
      | None =>
          let rs := p_recvs p r (st r) in
          let ss := p_sends p r (st r) in
          if forallb (fun s => Nat.ltb s n) rs && forallb (fun x => Nat.ltb (fst x) n) ss then
            Some (mkNet pc st (upd inn r (Some []))
                        (fun s d => if Nat.eqb s r then log s d ++ msgs_to d ss else log s d)
                        (fun d s => if Nat.eqb d r then posted d s + count s rs else posted d s) arr)
          else None
      end
  | Exch p, NRecv _ i =>
      match inn r with
      | None => None
      | Some done =>
          let rs := p_recvs p r (st r) in
          match nth_error rs i with
          | None => None
          | Some s =>
              if existsb (fun x => Nat.eqb (fst x) i) done then None
              else match nth_error (log s r) (posted r s - count s rs + count s (firstn i rs)) with
                   | None => None
                   | Some m => Some (mkNet pc st (upd inn r (Some (done ++ [(i, m)]))) log posted arr)
                   end
          end
      end
  | Exch p, NWait _ =>
      match inn r with
      | None => None
      | Some done =>
          if Nat.eqb (length done) (length (p_recvs p r (st r))) &&
             (negb sy || forallb (fun d => Nat.leb (length (log r d)) (posted d r)) (seq 0 n))
          then match p_done p r (st r) done with
               | Some s => Some (mkNet (inc pc r) (upd st r s) (upd inn r None) log posted arr)
               | None => None
               end
          else None
      end
  | Coll f, NArrive _ =>
      match arr (pc r) r with
      | Some _ => None
      | None => Some (mkNet pc st inn log posted
                            (fun t q => if Nat.eqb t (pc r) && Nat.eqb q r then Some (st r) else arr t q))
      end
  | Coll f, NLeave _ =>
      match all_some (map (arr (pc r)) (seq 0 n)) with
      | None => None
      | Some l =>
          match f l r with
          | Some s => Some (mkNet (inc pc r) (upd st r s) inn log posted arr)
          | None => None
          end
      end
  | _, _ => None
  end.

Definition nstep (sy : bool) (n : nat) (prog : list phase) (c : net) (l : nlabel) : option net :=
  let r := nrank l in
  if Nat.ltb r n then
    match nth_error prog (n_pc c r) with
    | Some ph => nstep1 sy n ph c l r
    | None => None
    end
  else None.

(** MPI_Waitall: the messages as they lie in the receive buffers when all receives are
    complete. *)
Definition buffers (k : nat) (l : list (nat * Msg)) : option (list Msg) :=
  all_some (map (fun i => option_map snd (find (fun x => Nat.eqb (fst x) i) l)) (seq 0 k)).

(** Receives and sends completed by one MPI_Waitall, after which [f] uses the buffers. *)
Definition wait_all (recvs : nat -> St -> list nat) (sends : nat -> St -> list (nat * Msg))
    (f : nat -> St -> list Msg -> option St) : phase :=
  Exch (P2P recvs sends (fun r s l =>
    match buffers (length (recvs r s)) l with Some ms => f r s ms | None => None end)).

End Net.
Arguments p2p : clear implicits.
Arguments phase : clear implicits.
Arguments net : clear implicits.
