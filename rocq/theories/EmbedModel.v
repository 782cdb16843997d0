(** A program of the ranks of a sub-communicator (MPI_Comm_split, Comm.cpp; the communicator of a grid), run inside a
    program of all ranks: [mem] lists the ranks of the sub-communicator, rank i of it is the i-th of them.  The other
    ranks do nothing.  Collective operations on a sub-communicator are not modelled (they do not occur in the
    programs this is used for). *)
From Coq Require Import List Arith Bool.
From Verif Require Import HashModel NetModel.
Import ListNotations.

(** The position of rank r. *)
Fixpoint position (mem : list nat) (r : nat) : option nat :=
  match mem with
  | [] => None
  | q :: mem => if Nat.eqb q r then Some 0 else option_map S (position mem r)
  end.

Section Embed.
Context {A Msg : Type} (n : nat) (mem : list nat).

(** Rank i of the sub-communicator; n, which is not a rank, if there is none. *)
Definition world_rank (i : nat) : nat := nth i mem n.

Definition embed1 (ph : phase A Msg) : phase A Msg :=
  match ph with
  | Local f => Local (fun r s => match position mem r with Some i => f i s | None => Some s end)
  | Exch p => Exch (P2P
      (fun r s => match position mem r with Some i => map world_rank (p_recvs p i s) | None => [] end)
      (fun r s => match position mem r with
                  | Some i => map (fun x => (world_rank (fst x), snd x)) (p_sends p i s)
                  | None => []
                  end)
      (fun r s l => match position mem r with Some i => p_done p i s l | None => Some s end))
  | Coll _ => Local (fun _ _ => None)
  end.

Definition embed (prog : list (phase A Msg)) : list (phase A Msg) := map embed1 prog.
End Embed.
