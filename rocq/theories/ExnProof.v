(** Proofs about errors known to some ranks. *)
From Coq Require Import List ZArith Bool Lia.
From Verif Require Import HashModel ProtoModel ProtoSpec NetModel NetSpec NetProof NetTools ExnModel ExnSpec.
Import ListNotations.
Local Open Scope Z_scope.

Lemma zmin_In l m : In (fold_right Z.min m l) (m :: l).
Proof. induction l as [|a l IH]; [now left|]. cbn [fold_right]. destruct (Z.min_spec a (fold_right Z.min m l)) as [[_ ->]|[_ ->]]; [right; now left|]. destruct IH as [X|IH]; [left; exact X|right; right; exact IH]. Qed.
Lemma zmin_le l m x : In x (m :: l) -> fold_right Z.min m l <= x.
Proof. induction l as [|a l IH]; [intros [->|[]]; cbn; lia|]. intros [->|[->|H]]; cbn [fold_right]; [specialize (IH (or_introl eq_refl)); lia|lia|specialize (IH (or_intror H)); lia]. Qed.
Lemma nmin_In l m : In (fold_right Nat.min m l) (m :: l).
Proof. induction l as [|a l IH]; [now left|]. cbn [fold_right]. destruct (Nat.min_spec a (fold_right Nat.min m l)) as [[_ ->]|[_ ->]]; [right; now left|]. destruct IH as [X|IH]; [left; exact X|right; right; exact IH]. Qed.
Lemma nmin_le l m x : In x (m :: l) -> (fold_right Nat.min m l <= x)%nat.
Proof. induction l as [|a l IH]; [intros [->|[]]; cbn; lia|]. intros [->|[->|H]]; cbn [fold_right]; [specialize (IH (or_introl eq_refl)); lia|lia|specialize (IH (or_intror H)); lia]. Qed.

Section Sync.
Context (n : nat) (E : nat -> option err).
Definition code (r : nat) : Z := match E r with Some e => fst e | None => max_code end.
Definition low : Z := fold_right Z.min max_code (map code (seq 0 n)).
Definition mine (r : nat) : nat := if code r =? low then r else n.
Definition root : nat := fold_right Nat.min n (map mine (seq 0 n)).
Hypothesis Hok : errs_ok n E.
Lemma code_max r : (r < n)%nat -> (code r = max_code <-> E r = None) /\ code r <= max_code.
Proof.
  intros Hr. unfold code. destruct (E r) as [[c p]|] eqn:F; [|split; [tauto|lia]]. destruct (Hok r c p Hr F) as [B _]. cbn [fst]. unfold max_code. split; [split; [lia|discriminate]|lia].
Qed.
Lemma low_le r : (r < n)%nat -> low <= code r.
Proof. intros Hr. apply zmin_le. right. apply in_map, in_seq. lia. Qed.
Lemma low_cases : (low = max_code /\ forall r, (r < n)%nat -> E r = None) \/ exists k c p, first_lowest n E k c p /\ low = c /\ root = k /\ low <> max_code.
Proof.
  destruct (Z.eq_dec low max_code) as [H|H].
  - left. split; [exact H|]. intros r Hr. apply (code_max r Hr). pose proof (low_le r Hr). destruct (code_max r Hr) as [_ B]. lia.
  - right. destruct (zmin_In (map code (seq 0 n)) max_code) as [F|F]; [exfalso; apply H; symmetry; exact F|]. fold low in F. apply in_map_iff in F as (q & Eq & Hq). apply in_seq in Hq.
    assert (RI : In root (map mine (seq 0 n))).
    { destruct (nmin_In (map mine (seq 0 n)) n) as [G|G]; [|exact G]. fold root in G.
      assert (root <= mine q)%nat by (apply nmin_le; right; apply in_map, in_seq; lia). unfold mine in *. rewrite Eq, Z.eqb_refl in H0. lia. }
    assert (Rlt : (root < n)%nat).
    { assert (root <= mine q)%nat by (apply nmin_le; right; apply in_map, in_seq; lia). unfold mine in H0. rewrite Eq, Z.eqb_refl in H0. lia. }
    apply in_map_iff in RI as (k & Ek & Hk). apply in_seq in Hk. unfold mine in Ek. destruct (Z.eqb_spec (code k) low) as [El|]; [|lia]. subst k.
    destruct (E root) as [[c p]|] eqn:Er; [|unfold code in El; rewrite Er in El; congruence]. exists root, c, p.
    assert (low = c) as Ec by (unfold code in El; rewrite Er in El; cbn in El; congruence). split; [|auto]. split; [exact Rlt|]. split; [exact Er|]. intros s c' p' Hs Es.
    pose proof (low_le s Hs) as LB. assert (C : code s = c') by (unfold code; rewrite Es; reflexivity). split; [lia|]. intros ->.
    assert (M : mine s = s) by (unfold mine; rewrite C, Ec, Z.eqb_refl; reflexivity). rewrite <- M. apply nmin_le. right. apply in_map, in_seq. lia.
Qed.
(** The states after each step. *)
Definition cap (r : nat) : option err := match E r with Some e => Some e | None => if low =? max_code then None else Some (low, []) end.
Definition S1 (r : nat) : est := Est (E r) (code r) (code r) 0.
Definition S2 (r : nat) : est := Est (E r) (code r) low 0.
Definition S3 (r : nat) : est := Est (cap r) (code r) low (if low =? max_code then 0 else mine r).
Definition S4 (r : nat) : est := Est (cap r) (code r) low (if low =? max_code then 0 else root).
Lemma up_to_four S5 : (forall r, (r < n)%nat -> x_aux (map S4 (seq 0 n)) r = Some (S5 r)) -> prog_ok n (sync n) (fun r => est0 (E r)) S5.
Proof.
  intros H. unfold sync. cbn [prog_ok phase_ok]. exists S1. split; [intros r Hr; reflexivity|]. exists S2. split.
  { intros r Hr. unfold x_lowest. rewrite nth_map_seq by exact Hr. rewrite map_map. reflexivity. }
  exists S3. split.
  { intros r Hr. unfold x_capture, S2, S3, cap, mine. cbn [x_low x_err x_code x_root]. destruct (Z.eqb_spec low max_code) as [Em|Em]; [now destruct (E r)|].
    destruct (E r) as [e|]; [reflexivity|]. destruct low_cases as [[F _]|(k & c & p & (Hk & Ek & _) & Hl & _)]; [congruence|]. destruct (Hok k c p Hk Ek) as [B _]. rewrite Hl.
    assert (X : from_code c = Some (c, [])) by (unfold from_code, MPI_NOT_INITIALIZED, FILE_OPEN, FILE_READ, FILE_WRITE; assert (c = 1 \/ c = 2 \/ c = 3 \/ c = 4) as [->|[->|[->| ->]]] by lia; reflexivity).
    rewrite X. reflexivity. }
  exists S4. split.
  { intros r Hr. unfold x_roots. rewrite nth_map_seq by exact Hr. rewrite map_map. unfold S3, S4. cbn [x_err x_code x_low x_root]. destruct (Z.eqb_spec low max_code); reflexivity. }
  exists S5. split; [exact H|]. reflexivity.
Qed.
End Sync.

Theorem sync_exact n E : errs_ok n E -> one_kind n E -> exists S', computes n (sync n) (fun r => est0 (E r)) S' /\
  (((forall r, (r < n)%nat -> E r = None) /\ forall r, (r < n)%nat -> x_err (S' r) = None) \/
   exists k c p, first_lowest n E k c p /\ forall r, (r < n)%nat -> x_err (S' r) = Some (match E r with Some e => fst e | None => c end, p)).
Proof.
  intros Hok H1. destruct (low_cases n E Hok) as [[HL HN]|(k & c & p & HF & HL & HR & HM)].
  - exists (S4 n E). split.
    + apply prog_computes. apply up_to_four; [exact Hok|]. intros r Hr. unfold x_aux. rewrite nth_map_seq by exact Hr. unfold takes_part at 1, S4 at 1. cbn [x_err]. unfold cap at 1. rewrite (HN r Hr), HL, Z.eqb_refl. reflexivity.
    + left. split; [exact HN|]. intros r Hr. unfold S4, cap. cbn [x_err]. now rewrite (HN r Hr), HL, Z.eqb_refl.
  - pose proof HF as (Hk & Ek & Hmin). destruct (Hok k c p Hk Ek) as [Bc Pc].
    assert (CAP : forall r, (r < n)%nat -> exists x y, cap n E r = Some (x, y) /\ x = match E r with Some e => fst e | None => c end /\ 1 <= x <= 4 /\ (x = 1 <-> c = 1) /\ (x = 1 -> y = [])).
    { intros r Hr. unfold cap. destruct (E r) as [[x y]|] eqn:Er.
      - exists x, y. destruct (Hok r x y Hr Er) as [B P]. pose proof (H1 r k x c y p Hr Hk Er Ek). tauto.
      - exists c, []. destruct (Z.eqb_spec (low n E) max_code); [contradiction|]. rewrite HL. tauto. }
    destruct (Z.eq_dec c 1) as [C1|C1].
    + exists (S4 n E). split.
      * apply prog_computes. apply up_to_four; [exact Hok|]. intros r Hr. unfold x_aux. rewrite nth_map_seq by exact Hr. destruct (CAP r Hr) as (x & y & Ex & _ & _ & X1 & _).
        unfold takes_part at 1, S4 at 1. cbn [x_err]. rewrite Ex. assert (x = 1) as -> by tauto. reflexivity.
      * right. exists k, c, p. split; [exact HF|]. intros r Hr. unfold S4. cbn [x_err]. destruct (CAP r Hr) as (x & y & Ex & Ex' & _ & X1 & X2). rewrite Ex, <- Ex'. rewrite X2 by tauto. rewrite Pc by exact C1. reflexivity.
    + exists (fun r => Est (Some (match E r with Some e => fst e | None => c end, p)) (code E r) (low n E) k). split.
      * apply prog_computes. apply up_to_four; [exact Hok|]. assert (T : forall r, (r < n)%nat -> takes_part (S4 n E r) = true).
        { intros r Hr. destruct (CAP r Hr) as (x & y & Ex & _ & B & X1 & _). unfold takes_part, S4. cbn [x_err x_low]. rewrite Ex. destruct (Z.eqb_spec (low n E) max_code); [contradiction|].
          unfold has_path, FILE_OPEN, FILE_READ, FILE_WRITE. cbn [fst]. assert (x = 2 \/ x = 3 \/ x = 4) as [->|[->| ->]] by lia; reflexivity. }
        intros r Hr. unfold x_aux. rewrite nth_map_seq by exact Hr. rewrite (T r Hr).
        assert (F : forallb takes_part (map (S4 n E) (seq 0 n)) = true).
        { apply forallb_forall. intros s Hs. apply in_map_iff in Hs as (q & <- & Hq). apply in_seq in Hq. apply T. lia. }
        rewrite F. unfold S4 at 2. cbn [x_root]. destruct (Z.eqb_spec (low n E) max_code); [contradiction|]. rewrite HR. rewrite nth_map_seq by exact Hk.
        unfold S4. cbn [x_err x_code x_low x_root]. destruct (CAP r Hr) as (x & y & Ex & Ex' & _). rewrite Ex. unfold cap at 1. rewrite Ek. cbn [fst snd]. rewrite Ex'. destruct (Z.eqb_spec (low n E) max_code); [contradiction|]. rewrite HR. reflexivity.
      * right. exists k, c, p. split; [exact HF|]. intros r Hr. reflexivity.
Qed.
