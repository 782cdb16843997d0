(** Exchanges in progress at the same time: a case on a partition. *)
From Coq Require Import List ZArith Bool Lia.
From Verif Require Import TupleModel RangeModel Base RangeProof CartModel IndexerModel ArrayModel HashModel NetModel NetSpec NeighSpec NeighProof HaloModel HaloProof HaloEx PartProof.
From Verif Require Import FieldModel FieldSpec FieldProof FieldLaws FieldProps AsmRep AsmEx HexModel HexSpec HexEx.
Import ListNotations.
Local Open Scope nat_scope.

Lemma ex_part_nodup : exists N H, partitioned ex_c 4 ex_L fx_E N H /\ (forall r, r < 4 -> NoDup (h_ranks (H r))).
Proof.
  assert (X : forall r, r < 4 -> extended_ok ex_c (ex_L r) (fx_E r)).
  { intros r Hr. apply (extended_ranges_ok ex_c 4 ex_L r 1 ex_decomposed ex_once Hr ltac:(lia)). }
  eexists _, _. split; [exact (nb_partitioned ex_c 4 ex_L fx_E ex_decomposed ex_once X)|]. intros r _. cbn [hm h_ranks]. apply K_NoDup.
Qed.

Definition plus1 (l : list (list nat)) : list nat := map S (hd [] l).
Definition progs5 (r : nat) : list (cmd nat) := [Start 0; Start 1; Wait [0]; Comp 2 [0] plus1; Start 2; Wait [1; 2]].
Lemma ex_hex : exists N H, partitioned ex_c 4 ex_L fx_E N H /\ (forall r, r < 4 -> NoDup (h_ranks (H r))) /\
  (forall r, r < 4 -> starts (progs5 r) = [0; 1; 2]) /\ (forall r, r < 4 -> orderly 0 [] (progs5 r)) /\
  (forall r, r < 4 -> keeps (Z.to_nat (rcount (fx_E r))) (progs5 r)) /\
  (forall r f : nat, r < 4 -> Z.of_nat (length (repeat (10 * r + f) (Z.to_nat (rcount (fx_E r))))) = rcount (fx_E r)) /\
  (forall f, In f [0; 1; 2] -> forall r, r < 4 -> last_op f (progs5 r) = Some true).
Proof.
  destruct ex_part_nodup as (N & H & P & Nd). exists N, H. split; [exact P|]. split; [exact Nd|]. split; [reflexivity|]. split; [|split; [|split]].
  - intros r _. cbn. intuition (try discriminate); subst; intuition discriminate.
  - intros r _ f fs g I ls Ln Q. cbn in I. repeat (destruct I as [I|I]; [try discriminate|]); [|destruct I]. injection I as <- <- <-.
    destruct ls as [|l [|]]; try discriminate. unfold plus1. cbn [hd]. rewrite map_length. apply Q. now left.
  - intros r f _. rewrite repeat_length. pose proof (count_nonneg (fx_E r)). lia.
  - intros f [<-|[<-|[<-|[]]]] r _; reflexivity.
Qed.
