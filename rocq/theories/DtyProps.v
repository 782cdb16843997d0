(** Property theorems C105. *)
From Coq Require Import List Arith Lia.
From Verif Require Import DtyModel DtySpec DtyProof.
Import ListNotations.

(** C105. Messages of any number of numbers, tuples, ranges, boxes or tuples and intervals of those, with the datatypes
    the library makes for them: after the message every number of every item is, byte by byte, what was sent, no other
    byte of the receiver has changed, and no byte is received twice (MPI forbids it). *)
Theorem C105_regions : forall B t count (src : nat -> B) p dst q,
  arrived (member t) (size_of t) count src p dst q (transfer src p dst q count (mpi_type t)) /\
  NoDup (message_bytes count (mpi_type t)).
Proof. exact region_arrives. Qed.
Print Assumptions C105_regions.

(** Two boxes of three doubles of 8 bytes: End(1) of the second is at offset 48 + 32, and there is a byte behind. *)
Example C105_regions_case : member (CInterval 3 (CNum 8)) 32 8 /\ size_of (CInterval 3 (CNum 8)) = 48 /\
  transfer (fun a => a) 100 (fun _ => 7) 1000 2 (mpi_type (CInterval 3 (CNum 8))) 1081 = 181 /\
  transfer (fun a => a) 100 (fun _ => 7) 1000 2 (mpi_type (CInterval 3 (CNum 8))) 1096 = 7.
Proof.
  split; [|vm_compute; auto]. change 32 with (3 * size_of (CNum 8) + (1 * size_of (CNum 8) + 0)). apply m_end; [lia|constructor].
Qed.

(** C105. The same of fragments, for every layout a compiler may choose that has the two integers next to each other,
    with or without padding: all members of all fragments of a message arrive. *)
Theorem C105_fragments : forall B L count (src : nat -> B) p dst q, layout_ok L ->
  arrived (fmember L) (fl_size L) count src p dst q (transfer src p dst q count (fragment_type L)) /\
  NoDup (message_bytes count (fragment_type L)).
Proof. exact fragment_arrives. Qed.
Print Assumptions C105_fragments.

(** The usual layout, and one with padding between members and at the end. *)
Example C105_fragments_case :
  layout_ok (mkFL 4 8 152 0 4 8 32 104) /\ layout_ok (mkFL 4 8 176 0 4 16 48 120) /\
  transfer (fun a => a) 0 (fun _ => 7) 1000 2 (fragment_type (mkFL 4 8 176 0 4 16 48 120)) (1000 + 176 + 4) = 180 /\
  transfer (fun a => a) 0 (fun _ => 7) 1000 2 (fragment_type (mkFL 4 8 176 0 4 16 48 120)) (1000 + 176 + 10) = 7 /\
  transfer (fun a => a) 0 (fun _ => 7) 1000 2 (fragment_type (mkFL 4 8 176 0 4 16 48 120)) (1000 + 176 + 160) = 336.
Proof. split; [|split]; [unfold layout_ok; cbn; lia..|vm_compute; auto]. Qed.
