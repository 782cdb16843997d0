(** Setting up a decomposed domain and exchanging the halos of a field: the calls made by the grid
    constructor (src/core/Grid.cpp 78-98: DetectNeighbors, then two partitions), the partition
    constructor (src/core/Partition.cpp 50-64: RetrieveDecompInfo, then the halo map) and
    partition::Exchange (src/core/Partition.hpp).
    Simplification: one partition, not two (they use separate communicators' traffic one after the
    other); the field is exchanged once. *)
From Coq Require Import List ZArith Bool.
From Verif Require Import TupleModel RangeModel CartModel ContModel HashModel.
From Verif Require Import NetModel DHashModel LiftModel NeighModel HaloModel.
Import ListNotations.

Section Part.
Context {V : Type}.

(** A rank before the first call, within DetectNeighbors, within RetrieveDecompInfo, and with its
    halo map. *)
Inductive pst : Type :=
| P0 (loc ext : range) (data : list V)
| PNeigh (s : nst) (ext : range) (data : list V)
| PInfo (s : ist) (data : list V)
| PHalo (s : hmap * list V).

Inductive pmsg : Type :=
| MHash (m : hmsg) | MInfo (m : info) | MData (m : list V).

Definition p_neigh (s : pst) : option nst := match s with PNeigh a _ _ => Some a | _ => None end.
Definition p_put_neigh (s : pst) (a : nst) : pst := match s with PNeigh _ e d => PNeigh a e d | _ => s end.
Definition p_info (s : pst) : option ist := match s with PInfo a _ => Some a | _ => None end.
Definition p_put_info (s : pst) (a : ist) : pst := match s with PInfo _ d => PInfo a d | _ => s end.
Definition p_halo (s : pst) : option (hmap * list V) := match s with PHalo a => Some a | _ => None end.
Definition p_put_halo (s : pst) (a : hmap * list V) : pst := match s with PHalo _ => PHalo a | _ => s end.

Definition m_hash (m : pmsg) : option hmsg := match m with MHash a => Some a | _ => None end.
Definition m_info (m : pmsg) : option info := match m with MInfo a => Some a | _ => None end.
Definition m_data (m : pmsg) : option (list V) := match m with MData a => Some a | _ => None end.

Definition part_start (r : nat) (s : pst) : option pst :=
  match s with P0 loc ext data => Some (PNeigh (N0 loc) ext data) | _ => None end.

Definition part_info (r : nat) (s : pst) : option pst :=
  match s with
  | PNeigh (NDone loc ranks) ext data => Some (PInfo (I0 (loc, ext) ranks) data)
  | _ => None
  end.

Definition part_map (c : cart) (r : nat) (s : pst) : option pst :=
  match s with
  | PInfo (I2 self m) data => let! h := halo_map c self m in Some (PHalo (h, data))
  | _ => None
  end.

(** [c]: the domain decomposed, from whose local ranges the neighbours are found; the halo map is
    for the same domain. *)
Definition setup_and_exchange (c : cart) (n : nat) (decomp : range -> Z -> tup Z)
    (ratio : tup Z -> list range -> option Z) : list (phase pst pmsg) :=
  [Local part_start] ++
  lift p_neigh p_put_neigh (remsg MHash m_hash (detect_neighbors c n decomp ratio)) ++
  [Local part_info] ++
  lift p_info p_put_info (remsg MInfo m_info (retrieve_info n)) ++
  [Local (part_map c)] ++
  lift p_halo p_put_halo (remsg MData m_data [halo_exchange]).
End Part.
Arguments pst : clear implicits.
Arguments pmsg : clear implicits.
