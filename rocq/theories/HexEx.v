(** Exchanges in progress at the same time: cases. *)
From Coq Require Import List ZArith Bool Lia.
From Verif Require Import ArrayModel HashModel HaloModel NetModel NetSpec HexModel HexSpec.
Import ListNotations.
Local Open Scope nat_scope.

Lemma run_ex {A} (o : option (option A)) (Q : A -> Prop) : match o with Some (Some s) => Q s | _ => False end -> exists s, o = Some (Some s) /\ Q s.
Proof. destruct o as [[s|]|]; intros H; try contradiction. eauto. Qed.
Lemma done2 (s : hex nat) : k_prog (x_rank s 0) = [] /\ k_prog (x_rank s 1) = [] -> all_done 2 s.
Proof. intros [A B] [|[|r]] L; [exact A|exact B|lia]. Qed.

(** Two ranks with three values each: the last value of rank 0 is a copy of the second of rank 1, the first value of rank 1 a copy of the second of rank 0. *)
Definition H2 (r : nat) : hmap := match r with 0 => HMap [1] [[1%Z]] [[2%Z]] [] | _ => HMap [0] [[1%Z]] [[0%Z]] [] end.
Definition swap (a b : list nat) : list nat * list nat :=
  (match a, b with [x; y; z], [u; v; w] => [x; y; v] | _, _ => [] end, match a, b with [x; y; z], [u; v; w] => [y; v; w] | _, _ => [] end).

Lemma swap_ok (D : nat -> list nat) : length (D 0) = 3 -> length (D 1) = 3 ->
  phase_ok 2 halo_exchange (fun r => (H2 r, D r)) (fun r => (H2 r, match r with 0 => fst (swap (D 0) (D 1)) | _ => snd (swap (D 0) (D 1)) end)).
Proof.
  intros L0 L1. destruct (D 0) as [|x [|y [|z [|]]]] eqn:E0; try discriminate. destruct (D 1) as [|u [|v [|w [|]]]] eqn:E1; try discriminate. split.
  - intros [|[|r]] Hr; [| |lia]; cbn [p_recvs p_sends fst snd H2 h_ranks]; rewrite ?E0, ?E1; cbn.
    + split; [intros s [<-|[]]; lia|]. split; [intros d m [e|[]]; injection e; lia|]. intros [|[|s]] Hs; [| |lia]; rewrite ?E0, ?E1; reflexivity.
    + split; [intros s [<-|[]]; lia|]. split; [intros d m [e|[]]; injection e; lia|]. intros [|[|s]] Hs; [| |lia]; rewrite ?E0, ?E1; reflexivity.
  - intros [|[|r]] l Hr (_ & Ln & A); [| |lia]; cbn [p_recvs fst H2 h_ranks length] in Ln; destruct l as [|[i m] [|]]; try discriminate;
      specialize (A i m (or_introl eq_refl)); unfold recv_msg in A; cbn [p_recvs fst H2 h_ranks] in A; (destruct i as [|i]; [|destruct i; discriminate]); cbn in A; rewrite ?E0, ?E1 in A; cbn in A; injection A as <-;
      cbn [p_done fst snd]; rewrite ?E0, ?E1; reflexivity.
Qed.

(** Fields 0 and 1 are exchanged, with field 2 computed from field 1 while field 0 is still in progress; waits in another order on the other rank *)
Definition twice (l : list (list nat)) : list nat := map (fun x => 2 * x) (concat l).
Definition progs2 (r : nat) : list (cmd nat) :=
  match r with
  | 0 => [Start 0; Start 1; Wait [1]; Comp 2 [1] twice; Wait [0]]
  | _ => [Start 0; Comp 2 [1] twice; Start 1; Wait [0; 1]]
  end.
Definition F2 (r f : nat) : list nat := [100 * r + 10 * f; 100 * r + 10 * f + 1; 100 * r + 10 * f + 2].
Definition res2 (r : nat) : nat -> list nat :=
  match r with
  | 0 => fset (fset (fset (F2 0) 0 [0; 1; 101]) 1 [10; 11; 111]) 2 [20; 22; 222]
  | _ => fset (fset (fset (F2 1) 0 [1; 101; 102]) 2 [220; 222; 224]) 1 [11; 111; 112]
  end.
Lemma progs2_ok : (forall r, r < 2 -> NoDup (h_ranks (H2 r))) /\ (forall r, r < 2 -> orderly 0 [] (progs2 r)) /\ blocking 2 H2 progs2 F2 res2.
Proof.
  split; [|split].
  - intros [|[|r]] L; [| |lia]; repeat constructor; intros [].
  - intros [|[|r]] L; [| |lia]; cbn; intuition (try discriminate); subst; intuition discriminate.
  - eapply (BExchange 2 H2 progs2 F2 F2 0 (fun r => match r with 0 => tl (progs2 0) | _ => tl (progs2 1) end)).
    + intros [|[|r]] L; [| |lia]; reflexivity.
    + apply swap_ok; reflexivity.
    + eapply (BExchange 2 H2 _ _ (fun r => match r with 0 => fset (F2 0) 0 [0; 1; 101] | _ => fset (fset (F2 1) 0 [1; 101; 102]) 2 [220; 222; 224] end) 1
               (fun r => match r with 0 => tl (tl (progs2 0)) | _ => tl (tl (tl (progs2 1))) end)).
      * intros [|[|r]] L; [| |lia]; reflexivity.
      * apply swap_ok; reflexivity.
      * apply BDone. intros [|[|r]] L; [| |lia]; reflexivity.
Qed.

(** An execution to the end *)
Definition sched2 : list lab := [LCmd 0; LCmd 0; LCmd 1; LCmd 1; LCmd 1; LMatch 1 0; LMatch 1 0; LMatch 0 1; LUnpack 0 1 0; LMatch 0 1; LCmd 0; LUnpack 1 1 0; LCmd 0; LUnpack 0 0 0; LCmd 0; LUnpack 1 0 0; LCmd 1].
Lemma sched2_ok : exists s, xruns H2 false 2 (hex0 progs2 F2) sched2 = Some (Some s) /\ all_done 2 s /\
  k_fields (x_rank s 0) 0 = [0; 1; 101] /\ k_fields (x_rank s 0) 2 = [20; 22; 222] /\ k_fields (x_rank s 1) 1 = [11; 111; 112].
Proof.
  destruct (run_ex (xruns H2 false 2 (hex0 progs2 F2) sched2) (fun s => (k_prog (x_rank s 0) = [] /\ k_prog (x_rank s 1) = []) /\
    k_fields (x_rank s 0) 0 = [0; 1; 101] /\ k_fields (x_rank s 0) 2 = [20; 22; 222] /\ k_fields (x_rank s 1) 1 = [11; 111; 112])) as (s & E & D & R);
    [vm_compute; repeat split|]. exists s. split; [exact E|]. split; [apply done2, D|exact R].
Qed.

(** ** Exchanges started in different orders *)
Definition progs3 (r : nat) : list (cmd nat) := match r with 0 => [Start 0; Start 1; Wait [0; 1]] | _ => [Start 1; Start 0; Wait [0; 1]] end.
Definition sched3 : list lab := [LCmd 0; LCmd 0; LCmd 1; LCmd 1; LMatch 1 0; LMatch 1 0; LMatch 0 1; LMatch 0 1; LUnpack 0 0 0; LUnpack 0 1 0; LCmd 0; LUnpack 1 0 0; LUnpack 1 1 0; LCmd 1].
Lemma mixed_up : exists (progs : nat -> list (cmd nat)) F s ls, (forall r, r < 2 -> orderly 0 [] (progs r)) /\ xruns H2 false 2 (hex0 progs F) ls = Some (Some s) /\ all_done 2 s /\
  nth 2 (k_fields (x_rank s 0) 0) 0 = nth 1 (F 1 1) 0 /\ nth 1 (F 1 1) 0 <> nth 1 (F 1 0) 0.
Proof.
  destruct (run_ex (xruns H2 false 2 (hex0 progs3 F2) sched3) (fun s => (k_prog (x_rank s 0) = [] /\ k_prog (x_rank s 1) = []) /\ nth 2 (k_fields (x_rank s 0) 0) 0 = nth 1 (F2 1 1) 0)) as (s & E & D & R);
    [vm_compute; repeat split|]. exists progs3, F2, s, sched3. split; [|split; [exact E|split; [apply done2, D|split; [exact R|discriminate]]]].
  intros [|[|r]] L; [| |lia]; cbn; intuition (try discriminate); subst; intuition discriminate.
Qed.

(** ** An exchange started again before the wait *)
Definition incr (l : list (list nat)) : list nat := map S (concat l).
Definition progs4 (r : nat) : list (cmd nat) := [Start 0; Comp 0 [0] incr; Start 0; Wait [1]; Wait [0]].
Definition sched4 : list lab := [LCmd 0; LCmd 0; LCmd 0; LCmd 1; LCmd 1; LCmd 1; LMatch 1 0; LMatch 1 0; LMatch 0 1; LMatch 0 1; LUnpack 0 1 0; LCmd 0; LUnpack 0 0 0; LCmd 0;
  LUnpack 1 1 0; LCmd 1; LUnpack 1 0 0; LCmd 1].
Lemma overwritten : exists (progs : nat -> list (cmd nat)) F F' s ls, (forall r q, r < 2 -> q < 2 -> progs r = progs q) /\ blocking 2 H2 progs F F' /\
  xruns H2 false 2 (hex0 progs F) ls = Some (Some s) /\ all_done 2 s /\ nth 2 (F' 0 0) 0 = nth 1 (F' 1 0) 0 /\
  nth 2 (k_fields (x_rank s 0) 0) 0 = nth 1 (F 1 0) 0 /\ nth 1 (k_fields (x_rank s 1) 0) 0 <> nth 1 (F 1 0) 0.
Proof.
  destruct (run_ex (xruns H2 false 2 (hex0 progs4 F2) sched4) (fun s => (k_prog (x_rank s 0) = [] /\ k_prog (x_rank s 1) = []) /\
    nth 2 (k_fields (x_rank s 0) 0) 0 = nth 1 (F2 1 0) 0 /\ nth 1 (k_fields (x_rank s 1) 0) 0 = 102)) as (s & E & D & R1 & R2);
    [vm_compute; repeat split|].
  exists progs4, F2, (fun r => match r with 0 => fset (fset (fset (F2 0) 0 [0; 1; 101]) 0 [1; 2; 102]) 0 [1; 2; 102] | _ => fset (fset (fset (F2 1) 0 [1; 101; 102]) 0 [2; 102; 103]) 0 [2; 102; 103] end).
  exists s, sched4. split; [reflexivity|]. split; [|split; [exact E|split; [apply done2, D|split; [reflexivity|split; [exact R1|rewrite R2; discriminate]]]]].
  - eapply (BExchange 2 H2 progs4 F2 F2 0 (fun r => tl (progs4 r))).
    + intros [|[|r]] L; [| |lia]; reflexivity.
    + apply swap_ok; reflexivity.
    + eapply (BExchange 2 H2 _ _ (fun r => match r with 0 => fset (fset (F2 0) 0 [0; 1; 101]) 0 [1; 2; 102] | _ => fset (fset (F2 1) 0 [1; 101; 102]) 0 [2; 102; 103] end) 0
               (fun r => tl (tl (tl (progs4 r))))).
      * intros [|[|r]] L; [| |lia]; reflexivity.
      * apply swap_ok; reflexivity.
      * apply BDone. intros [|[|r]] L; [| |lia]; reflexivity.
Qed.
