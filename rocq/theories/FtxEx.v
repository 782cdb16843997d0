(** Transfers of fragments from one process to another. *)
From Coq Require Import ZArith List Bool Arith Lia Permutation Sorting.Sorted.
From Verif Require Import FRefModel FtxModel FtxSpec.
Import ListNotations.
Local Open Scope nat_scope.

(** Process 0 sends the fragments 0, ..., m - 1 of grid 7 to process 1, which has two
    local fragments; the arrays of a fragment are numbers that tell it apart. *)
Definition one_way (m : nat) : job (V := Z) :=
  mkJ 2 (fun r => if Nat.eqb r 0 then map (fun f => mkE 7 1 (Z.of_nat f)) (seq 0 m) else [])
    (fun r => if Nat.eqb r 1 then map (fun f => mkE 7 0 (Z.of_nat f)) (seq 0 m) else [])
    (fun r => if Nat.eqb r 1 then 2 else 0)
    (fun p g f d => (1000 * Z.of_nat p + 100 * g + 10 * f + Z.of_nat d)%Z).

Lemma sorted_ents r m : forall a, StronglySorted ent_lt (map (fun f => mkE 7 r (Z.of_nat f)) (seq a m)).
Proof.
  induction m as [|m IH]; intros a; cbn [seq map]; constructor; [apply IH|].
  apply Forall_forall. intros e He. apply in_map_iff in He. destruct He as (f & <- & Hf). apply in_seq in Hf.
  right. split; [reflexivity|]. right. cbn [e_rank e_frag]. split; [reflexivity|]. apply Nat2Z.inj_lt. lia.
Qed.
Lemma one_way_agreed m : agreed (one_way m).
Proof.
  split.
  - intros r Hr. cbn [one_way j_n j_sends j_recvs] in *. destruct r as [|[|r]]; [| |lia]; cbn [Nat.eqb].
    + split; [apply sorted_ents|]. split; [constructor|]. intros e [He|[]]. apply in_map_iff in He. destruct He as (f & <- & _). cbn. lia.
    + split; [constructor|]. split; [apply sorted_ents|]. intros e [[]|He]. apply in_map_iff in He. destruct He as (f & <- & _). cbn. lia.
  - intros p q g f Hp Hq. cbn [one_way j_n j_sends j_recvs] in *.
    destruct p as [|[|p]]; [| |lia]; destruct q as [|[|q]]; try lia; cbn [Nat.eqb]; try (split; intros []).
    + split; [|intros []]. intros H. apply in_map_iff in H. destruct H as (x & [=] & _).
    + split; intros H; apply in_map_iff in H; destruct H as (x & [= <- <-] & Hx); apply in_map_iff; exists x; auto.
    + split; [intros []|]. intros H. apply in_map_iff in H. destruct H as (x & [=] & _).
Qed.

Definition pairs (a b : nat) : list (nat * nat) := list_prod (seq a b) (seq 0 4).
(** A turn of process 1 in which nothing is reported. *)
Definition turn : list (nat * act) := [(1, ASignals []); (1, ARecvs []); (1, AHandle)].
(** Twelve fragments, ten of them at a time. *)
Definition twelve : list (nat * act) :=
  [(1, AInit); (0, AInit);
   (0, ASignals (seq 0 10)); (0, ASends (pairs 0 10)); (0, ARecvs []); (0, AHandle);
   (1, ASignals []); (1, ARecvs (rev (pairs 0 10))); (1, AHandle)] ++ turn ++
  [(0, ASignals (seq 10 2)); (0, ASends (pairs 10 2)); (0, ARecvs []); (0, AHandle);
   (1, ASignals []); (1, ARecvs (pairs 0 2)); (1, AHandle)] ++ concat (repeat turn 11).
(** Two fragments, whose signals are reported in the other order. *)
Definition swapped : list (nat * act) :=
  [(1, AInit); (0, AInit);
   (0, ASignals [1; 0]); (0, ASends (pairs 0 2)); (0, ARecvs []); (0, AHandle);
   (1, ASignals []); (1, ARecvs (pairs 0 2)); (1, AHandle)] ++ concat (repeat turn 3).

Definition both_done (g : option (nat -> rank (V := Z))) : bool :=
  match g with Some g => done (g 0) && done (g 1) | None => false end.
Lemma twelve_done : both_done (exec (one_way 12) true (start (one_way 12)) twelve) = true.
Proof. vm_compute. reflexivity. Qed.
Definition first_value (g : option (nat -> rank (V := Z))) : option (option Z) :=
  match g with
  | Some g => match remote (k_log (g 1)) with (0, v :: _) :: _ => Some v | _ => None end
  | None => None
  end.
Lemma swapped_done : both_done (exec (one_way 2) false (start (one_way 2)) swapped) = true.
Proof. vm_compute. reflexivity. Qed.
Lemma swapped_value : first_value (exec (one_way 2) false (start (one_way 2)) swapped) = Some (Some 710%Z).
Proof. vm_compute. reflexivity. Qed.

Lemma swapped_wrong : exists (J : job (V := Z)) l g, agreed J /\ exec J false (start J) l = Some g /\
  (forall q, q < j_n J -> done (g q) = true) /\ exists q, q < j_n J /\ ~ right J q (k_log (g q)).
Proof.
  pose proof swapped_done as D. pose proof swapped_value as W.
  destruct (exec (one_way 2) false (start (one_way 2)) swapped) as [g|] eqn:E; [|discriminate D].
  exists (one_way 2), swapped, g. split; [apply one_way_agreed|]. split; [exact E|]. clear E. split.
  - cbn [both_done] in D. apply andb_true_iff in D. destruct D as (D0 & D1).
    intros q Hq. cbn [one_way j_n] in Hq. destruct q as [|[|q]]; [exact D0|exact D1|lia].
  - exists 1. split; [cbn; lia|]. intros (_ & F & _). cbn [first_value] in W.
    destruct (remote (k_log (g 1))) as [|[i vs] l]; [discriminate|]. destruct i; [|discriminate].
    destruct vs as [|v vs]; [discriminate|]. injection W as ->. inversion F as [|x y (e & Ee & Hv) Fr]; subst. cbn in Ee. injection Ee as <-.
    cbn in Hv. discriminate.
Qed.
Lemma twelve_run : exists g, exec (one_way 12) true (start (one_way 12)) twelve = Some g /\ forall q, q < 2 -> done (g q) = true.
Proof.
  pose proof twelve_done as D. destruct (exec (one_way 12) true (start (one_way 12)) twelve) as [g|]; [|discriminate D].
  exists g. split; [reflexivity|]. cbn [both_done] in D. apply andb_true_iff in D. destruct D as (D0 & D1).
  intros q Hq. destruct q as [|[|q]]; [exact D0|exact D1|lia].
Qed.
Lemma one_single : single (one_way 1).
Proof.
  intros p i j a b Ha Hb _. cbn [one_way j_sends] in *. destruct (Nat.eqb p 0); [|destruct i; discriminate].
  cbn in *. destruct i as [|[|i]], j as [|[|j]]; try discriminate. reflexivity.
Qed.
