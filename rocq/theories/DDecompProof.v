(** The process grid of a distributed region hash, and executions of building and using one. *)
From Coq Require Import List ZArith QArith Bool Lia.
From Verif Require Import TupleModel RangeModel Base RangeProof ContModel HashModel HashSpec HashProof.
From Verif Require Import ProtoModel ProtoSpec NetModel NetSpec NetProof DHashModel DRangeProof.
Import ListNotations.
Local Open Scope Z_scope.

Definition zprod (l : list Z) : Z := fold_right Z.mul 1 l.

Lemma zprod_app l1 l2 : zprod (l1 ++ l2) = zprod l1 * zprod l2.
Proof. induction l1; cbn [app zprod fold_right] in *; [unfold zprod; lia|]. unfold zprod in *. rewrite IHl1. lia. Qed.

Lemma zprod_insert d x l : zprod (firstn d l ++ x :: skipn d l) = x * zprod l.
Proof.
  rewrite zprod_app. cbn [zprod fold_right]. rewrite <- (firstn_skipn d l) at 3. rewrite zprod_app.
  unfold zprod. lia.
Qed.

Lemma bin_decomp_ok guess : (forall l m, 1 <= m -> guess l m <= m) -> forall fuel lens max,
  (1 <= fuel)%nat -> 1 <= max ->
  length (bin_decomp guess fuel lens max) = fuel /\
  Forall (fun z => 1 <= z) (bin_decomp guess fuel lens max) /\
  zprod (bin_decomp guess fuel lens max) <= max.
Proof.
  intros G. induction fuel as [|f IH]; intros lens max F M; [lia|]. destruct f as [|f].
  - cbn. split; [reflexivity|]. split; [constructor; [lia|constructor]|lia].
  - cbn [bin_decomp]. set (d := min_length lens 0 0 None). set (nb := Z.max (guess lens max) 1).
    pose proof (G lens max M). assert (N : 1 <= nb <= max) by (unfold nb; lia).
    assert (Q1 : 1 <= max ÷ nb).
    { rewrite Z.quot_div_nonneg by lia. apply Z.div_le_lower_bound; lia. }
    destruct (IH (firstn d lens ++ skipn (S d) lens) (max ÷ nb) ltac:(lia) Q1) as (A & B & C).
    change (match f with O => [max ÷ nb] | S _ => _ end) with (bin_decomp guess (S f) (firstn d lens ++ skipn (S d) lens) (max ÷ nb)).
    remember (bin_decomp guess (S f) (firstn d lens ++ skipn (S d) lens) (max ÷ nb)) as rest.
    split; [|split].
    + rewrite <- (firstn_skipn d rest) in A. rewrite !app_length in *. cbn [length]. lia.
    + rewrite <- (firstn_skipn d rest) in B. apply Forall_app in B as [B1 B2]. apply Forall_app. split; [exact B1|].
      constructor; [lia|exact B2].
    + rewrite zprod_insert. assert (nb * (max ÷ nb) <= max).
      { rewrite Z.quot_div_nonneg by lia. apply Z.mul_div_le. lia. }
      nia.
Qed.

Lemma range_decomp_ok guess nd x n : (1 <= nd <= 3)%nat -> (1 <= n)%nat ->
  (forall l m, 1 <= m -> guess l m <= m) ->
  (forall d, (d < 3)%nat -> 1 <= tget (range_decomp guess nd x (Z.of_nat n)) d) /\
  rcount (range_of (range_decomp guess nd x (Z.of_nat n))) <= Z.of_nat n.
Proof.
  intros Hnd Hn G. unfold range_decomp.
  destruct (bin_decomp_ok guess G nd (map (fun d => inject_Z (rsize1 x d)) (seq 0 nd)) (Z.of_nat n) ltac:(lia) ltac:(lia))
    as (A & B & C).
  remember (bin_decomp guess nd (map (fun d => inject_Z (rsize1 x d)) (seq 0 nd)) (Z.of_nat n)) as l. clear Heql.
  assert (P : forall d, (d < 3)%nat -> 1 <= tget (tuple_of l) d).
  { intros d Hd. rewrite Forall_forall in B. unfold tuple_of.
    destruct d as [|[|[|d]]]; [| | |lia]; cbn [tget c0 c1 c2];
      match goal with |- 1 <= nth ?i l 1 => destruct (Nat.lt_ge_cases i (length l));
        [apply B, nth_In; assumption|rewrite nth_overflow; lia] end. }
  split; [exact P|].
  pose proof (P 0%nat ltac:(lia)) as P0. pose proof (P 1%nat ltac:(lia)) as P1. pose proof (P 2%nat ltac:(lia)) as P2.
  assert (E : zprod l = nth 0 l 1 * nth 1 l 1 * nth 2 l 1).
  { destruct l as [|a [|b [|c [|e l]]]]; cbn in *; lia. }
  unfold rcount, range_of. unfold tuple_of in *. cbn [tget c0 c1 c2] in *.
  unfold rempty, rsize1. cbn. repeat match goal with |- context[?a <=? ?b] => destruct (Z.leb_spec a b) end; cbn; try lia.
Qed.

Lemma fold_add l : forall a, fold_left Z.add l a = a + fold_left Z.add l 0.
Proof. induction l as [|x l IH]; intros a; cbn; [lia|]. rewrite IH, (IH x). lia. Qed.

Lemma fold_add_ge l : (forall x, In x l -> 1 <= x) -> Z.of_nat (length l) <= fold_left Z.add l 0.
Proof.
  induction l as [|x l IH]; intros H; cbn [fold_left length]; [lia|]. rewrite fold_add.
  specialize (IH ltac:(intros; apply H; right; assumption)). specialize (H x ltac:(left; reflexivity)). lia.
Qed.

Lemma range_ratio_ok rnd nd size l : rounding rnd -> (rnd 1 == 1)%Q -> (1 <= nd <= 3)%nat -> l <> [] ->
  (forall g, In g l -> grid_range nd g) -> exists z, range_ratio rnd nd size l = Some z.
Proof.
  intros [Mono _] R1 Hnd Hl HG. unfold range_ratio.
  set (lens := flat_map (fun g => map (rsize1 g) (seq 0 nd)) l).
  assert (Len : length lens = (nd * length l)%nat).
  { unfold lens. clear. induction l as [|g l IH]; cbn [flat_map length]; [lia|].
    rewrite app_length, IH, map_length, seq_length. lia. }
  assert (1 <= rnd (inject_Z (fold_left Z.add lens 0%Z) / inject_Z (Z.of_nat (nd * length l))))%Q as G.
  { eapply Qle_trans; [|apply Mono with (x := 1%Q)].
    - rewrite R1. apply Qle_refl.
    - assert (0 < Z.of_nat (nd * length l)) by (destruct l; [congruence|cbn [length]; nia]).
      apply Qle_shift_div_l; [unfold Qlt; cbn; lia|]. rewrite Qmult_1_l. rewrite <- Zle_Qle, <- Len.
      apply fold_add_ge. intros x Hx. unfold lens in Hx. apply in_flat_map in Hx as (g & Ig & Hx).
      apply in_map_iff in Hx as (d & <- & Hd). apply in_seq in Hd. destruct (HG g Ig) as [A _].
      specialize (A d ltac:(lia)). unfold rsize1. lia. }
  destruct (Qeq_bool _ 0) eqn:E; [|eauto]. apply Qeq_bool_iff in E. rewrite E in G. unfold Qle in G. cbn in G. lia.
Qed.

Theorem range_dhash_computes guess rnd nd n L : (1 <= nd <= 3)%nat -> (1 <= n)%nat ->
  (forall l m, 1 <= m -> guess l m <= m) ->
  rounding rnd -> (rnd 1 == 1)%Q ->
  (forall r g, (r < n)%nat -> In g (L r) -> grid_range nd g) ->
  exists H,
  computes n (dh_build zcoords range_traits nd n (range_decomp guess nd) (range_ratio rnd nd))
    (fun r => D0 (L r)) (fun r => DH (H r)) /\
  (forall r r' p, (r < n)%nat -> (r' < n)%nat -> dh_map zcoords nd (H r) p = dh_map zcoords nd (H r') p) /\
  (forall r g s p, (r < n)%nat -> (s < n)%nat -> In g (L s) -> pt_in g p ->
     exists q b, dh_map zcoords nd (H r) p = Some (q, b)) /\
  forall ids,
    (forall r q b, (r < n)%nat -> In (q, b) (ids r) -> (exists p, dh_map zcoords nd (H r) p = Some (q, b)) /\
       exists g s p b', (s < n)%nat /\ In g (L s) /\ pt_in g p /\ dh_map zcoords nd (H r) p = Some (q, b')) ->
    exists res, computes n (dh_retrieve n) (fun r => R0 (H r) (ids r)) (fun r => RH (H r) (res r)) /\
      forall r q b, (r < n)%nat -> In (q, b) (ids r) ->
        exists f, retrieved (res r) q b = Some (filter f (contributions n L)) /\
          forall g s p, (s < n)%nat -> In g (L s) -> pt_in g p -> dh_map zcoords nd (H r) p = Some (q, b) ->
          f (g, s) = true.
Proof.
  intros Hnd Hn G Hr R1 HL.
  destruct (range_dhash_complete nd n (range_decomp guess nd) (range_ratio rnd nd) L) as (H & A & B & C & D); auto.
  { intros x. apply range_decomp_ok; auto. }
  { intros. apply range_ratio_ok; auto. }
  exists H. split; [apply prog_computes, A|]. split; [exact B|]. split; [exact C|].
  intros ids Hid. destruct (D ids Hid) as (res & E & F). exists res. split; [apply prog_computes, E|exact F].
Qed.

(** ** One execution *)

(** A label that is enabled, if there is one. *)
Section Sched.
Context {St Msg : Type} (n : nat) (prog : list (phase St Msg)).

Definition labels (k : nat) : list nlabel :=
  flat_map (fun r => NLocal r :: NPost r :: NWait r :: NArrive r :: NLeave r :: map (NRecv r) (seq 0 k)) (seq 0 n).

(** A schedule of at most [fuel] steps; ranks have at most [k] open receives. *)
Fixpoint schedule (k fuel : nat) (c : net St Msg) : list nlabel :=
  match fuel with
  | O => []
  | S f =>
      match find (fun l => match nstep true n prog c l with Some _ => true | None => false end) (labels k) with
      | None => []
      | Some l => match nstep true n prog c l with Some c' => l :: schedule k f c' | None => [] end
      end
  end.

Definition open_recvs (c : net St Msg) (r : nat) : nat :=
  match nth_error prog (n_pc c r) with Some (Exch p) => length (p_recvs p r (n_st c r)) | _ => 0%nat end.

Definition stuck_check (k : nat) (c : net St Msg) : bool :=
  forallb (fun r => Nat.leb (open_recvs c r) k) (seq 0 n) &&
  forallb (fun l => match nstep true n prog c l with Some _ => false | None => true end) (labels k).

Lemma stuck_check_ok k c : stuck_check k c = true -> stuck (nstep true n prog) c.
Proof.
  intros H l. apply andb_prop in H as [A B]. rewrite forallb_forall in A, B.
  destruct (Nat.lt_ge_cases (nrank l) n) as [Hr|Hr].
  2: { unfold nstep. destruct (Nat.ltb_spec (nrank l) n); [lia|reflexivity]. }
  assert (I : In (nrank l) (seq 0 n)) by (apply in_seq; lia).
  assert (In l (labels k) \/ exists r i, l = NRecv r i /\ (k <= i)%nat) as [J|(r & i & -> & Hi)].
  { destruct l as [r|r|r i|r|r|r]; cbn [nrank] in *;
      try (left; apply in_flat_map; exists r; cbn; auto 8; fail).
    destruct (Nat.lt_ge_cases i k) as [Hi|Hi]; [left|right; eauto].
    apply in_flat_map. exists r. split; [exact I|]. cbn [In]. do 5 right. apply in_map, in_seq. lia. }
  - specialize (B l J). destruct (nstep true n prog c l); [discriminate|reflexivity].
  - cbn [nrank] in *. specialize (A r I). apply Nat.leb_le in A. unfold open_recvs in A.
    unfold nstep. cbn [nrank]. destruct (Nat.ltb_spec r n); [|reflexivity].
    destruct (nth_error prog (n_pc c r)) as [ph|] eqn:E; [|reflexivity]. destruct c as [pc st inn log posted arr].
    cbn [n_pc n_st] in *. destruct ph as [f|p|f]; cbn [nstep1]; try reflexivity.
    destruct (inn r); [|reflexivity]. rewrite (proj2 (nth_error_None _ _)) by lia. reflexivity.
Qed.

Definition final (k fuel : nat) (S : nat -> St) : option (net St Msg) :=
  run (nstep true n prog) (net0 S) (schedule k fuel (net0 S)).
End Sched.

Lemma none_not_some {A} (x : option A) : match x with Some _ => true | None => false end = true -> x = None -> False.
Proof. intros H E. rewrite E in H. discriminate. Qed.

(** An execution that ends stuck in a state with property [P]. *)
Lemma stuck_run {St Msg} n (prog : list (phase St Msg)) k fuel S (P : net St Msg -> bool) :
  match final n prog k fuel S with Some c => stuck_check n prog k c && P c | None => false end = true ->
  exists ls c, run (nstep true n prog) (net0 S) ls = Some c /\ stuck (nstep true n prog) c /\ P c = true.
Proof.
  unfold final. intros H. exists (schedule n prog k fuel (net0 S)).
  destruct (run (nstep true n prog) (net0 S) (schedule n prog k fuel (net0 S))) as [c|]; [|discriminate].
  exists c. apply andb_prop in H as [H1 H2]. split; [reflexivity|]. split; [exact (stuck_check_ok _ _ _ _ H1)|exact H2].
Qed.
