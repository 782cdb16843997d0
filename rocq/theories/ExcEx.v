(** The history of C81's examples, and C81 for whole histories. *)
From Coq Require Import List ZArith NArith Bool Lia Permutation.
From Verif Require Import TupleModel RangeModel Base RangeProof IndexerModel ArrayModel ContModel HashModel ProtoModel ProtoSpec NetModel NetSpec NetProof NetPhase DDecompProof.
From Verif Require Import SendModel SendSpec SendProof SendLaws DomainModel DomainSpec DomainProof.
From Verif Require Import XchModel XchSpec XchMain XchProps ExcModel ExcSpec ExcRun ExcSnap.
Import ListNotations.
Local Open Scope Z_scope.

Theorem follows t n h : (0 < n)%nat -> elegal_history n h ->
  exists st, erun t n h = Some st /\ let s := espec_run h in
  forall r k, (r < n)%nat ->
  (local_m st r k <> None <-> q_bound s = true /\ In k (s_over (q_d s)) /\ livesb (q_d s) (fst k) r = true) /\
  (local_n st r k <> None <-> q_bound s = true /\ In k (s_over (q_d s)) /\ livesb (q_d s) (snd k) r = true) /\
  (forall l, local_m st r k = Some l -> lm_ops l = q_om s r k /\
    (s_pend (q_d s) k = 0%N -> lm_maps l = Some (map d_lower (q_m s r k), map d_point (q_m s r k), lm_ranks l))) /\
  (forall l, local_n st r k = Some l -> ln_ops l = q_on s r k /\
    (s_pend (q_d s) k = 0%N -> ln_maps l = Some (map r_point (q_n s r k), ln_ranks l))).
Proof.
  intros Hn HL. destruct (erun_from t n h espec0 (fun _ _ => []) (fun _ _ => []) (est0 n) Hn (einv_init n _ _) HL) as (st & E & I).
  exists st. split; [exact E|]. cbv zeta. intros r k Hr. destruct (einv_seen n _ _ _ st I r k Hr) as (A & B & C & D).
  split; [exact A|]. split; [exact B|]. split; [intros l Hl; destruct (C l Hl) as (_ & X & Y); auto|intros l Hl; destruct (D l Hl) as (_ & X & Y); auto].
Qed.

Theorem exchange t n h : (0 < n)%nat -> elegal_history n h ->
  always (consistent t n) espec0 h -> always careful espec0 h ->
  exists st, erun t n h = Some st /\ let s := espec_run h in
  forall k, q_bound s = true -> In k (s_over (q_d s)) -> s_pend (q_d s) k = 0%N ->
  (forall r j y, (r < n)%nat -> livesb (q_d s) (snd k) r = true -> vread (q_n s r k) j = Some y ->
     exists a i d, (a < n)%nat /\ livesb (q_d s) (fst k) a = true /\ vread (q_m s a k) i = Some d /\
       rcontains (t_local t (fst k) a) (d_lower d) = true /\ r_point y = d_point d) /\
  forall V cnt (junk : V) R ssort rsort vals out,
  0 <= cnt ->
  (forall r, (r < n)%nat -> sorts (ssort r) /\ sorts (rsort r)) ->
  (forall r d, (r < n)%nat -> In d (q_m s r k) -> pt_in R (d_point d)) -> (forall r y, (r < n)%nat -> In y (q_n s r k) -> pt_in R (r_point y)) ->
  (forall r, (r < n)%nat -> Z.of_nat (length (dest_ranks st k r)) <= 2 ^ 31 /\ Z.of_nat (length (source_ranks st k r)) <= 2 ^ 31) ->
  (forall r, (r < n)%nat -> shaped cnt (length (dest_ranks st k r)) (vals r) /\ shaped cnt (length (source_ranks st k r)) (out r)) ->
  exists S' out',
  computes n (send_recv cnt junk (dest_ranks st k) (fun r => send_recv_order (ssort r) R (dest_points st k r))
                                 (source_ranks st k) (fun r => send_recv_order (rsort r) R (source_points st k r)))
    (fun r => SS0 (vals r) (out r)) S' /\
  (forall r, (r < n)%nat -> s_out (S' r) = out' r /\ shaped cnt (length (source_ranks st k r)) (out' r)) /\
  (forall a r i j d y c, (a < n)%nat -> (r < n)%nat -> 0 <= c < cnt ->
     livesb (q_d s) (fst k) a = true -> livesb (q_d s) (snd k) r = true ->
     vread (q_m s a k) i = Some d -> rcontains (t_local t (fst k) a) (d_lower d) = true -> vread (q_n s r k) j = Some y -> r_point y = d_point d ->
     vals_at (out' r) c j = vals_at (vals a) c i).
Proof.
  intros Hn HL HF HC. destruct (follows t n h Hn HL) as (st & E & _). exists st. split; [exact E|]. cbv zeta. intros k Hb Ik Pk. split.
  - intros r j y. eapply stored_donor; eauto.
  - intros V cnt junk R ssort rsort vals out. eapply stored_exchange; eauto.
Qed.

(** ** The example *)
Definition ee_k : oid := (1, 2).
Definition ee_t : tables := Tables (fun g => if g =? 1 then xx_line 0 6 else xx_line 0 2)
  (fun g r => if g =? 1 then match r with 0%nat => xx_line 0 3 | _ => xx_line 3 6 end else xx_line 0 2).
Definition ee_fill : list eop :=
  [Comp (CreateGrid 1 (fun r => Nat.ltb r 2)); Comp (CreateGrid 2 (fun r => Nat.eqb r 2)); Bind; Comp (CreateOverlap ee_k);
   SetM 0 ee_k 76 [xx_d 1 0]; SetM 1 ee_k 76 [xx_d 4 1]; SetN 2 ee_k 896 [xx_r 0; xx_r 1]; Comp EndEdit; AddM 0 ee_k 7].
Definition ee_edit (f : N) : list eop := ee_fill ++ [SetN 2 ee_k f [xx_r 1; xx_r 0]; Comp EndEdit].

Lemma fitting_none n : fitting n (fun _ => []) (fun _ => []).
Proof.
  split; try (intros; contradiction).
  - intros. constructor.
  - intros. constructor.
  - intros id p. split; intros (r & mc & _ & [] & _).
Qed.
Definition ee_m (r : nat) : list mconn :=
  match r with 0%nat => [MConn 1 2 (xx_line 0 3) [xx_d 1 0]] | 1%nat => [MConn 1 2 (xx_line 3 6) [xx_d 4 1]] | _ => [] end.
Definition ee_n (l : list receiver) (r : nat) : list nconn := match r with 2%nat => [NConn 1 2 l] | _ => [] end.
Lemma ee_fitting l : l = [xx_r 0; xx_r 1] \/ l = [xx_r 1; xx_r 0] -> fitting 3 ee_m (ee_n l).
Proof.
  intros HB. constructor.
  - intros r mc d Hr I J. destruct r as [|[|[|r]]]; [| | |lia]; xx_in I; xx_in J; reflexivity.
  - intros r mc d Hr I J. destruct HB as [-> | ->]; (destruct r as [|[|[|r]]]; [| | |lia]); xx_in I; xx_in J; reflexivity.
  - intros r Hr. destruct r as [|[|[|r]]]; [| | |lia]; vm_compute; xx_nd.
  - intros r Hr. destruct r as [|[|[|r]]]; [| | |lia]; vm_compute; xx_nd.
  - intros id p; split; intros (r & mc & Hr & I & <- & P); destruct HB as [-> | ->]; (destruct r as [|[|[|r]]]; [| | |lia]); xx_in I; vm_compute in P;
      repeat (destruct P as [<-|P]; [first [exists 0%nat; eexists; split; [lia|]; split; [left; reflexivity|]; split; [reflexivity|]; vm_compute; tauto
        |exists 1%nat; eexists; split; [lia|]; split; [left; reflexivity|]; split; [reflexivity|]; vm_compute; tauto
        |exists 2%nat; eexists; split; [lia|]; split; [left; reflexivity|]; split; [reflexivity|]; vm_compute; tauto]|]); contradiction.
  - intros r r' mc mc' p Hr Hr' I I' G P P'. destruct r as [|[|[|r]]]; [| | |lia]; (destruct r' as [|[|[|r']]]; [| | |lia]); xx_in I; xx_in I'; cbn in G; try discriminate G;
      vm_compute in P, P'; (split; [|try reflexivity]); intuition congruence.
  - intros r r' mc mc' p Hr Hr' I I' G P P'. destruct r as [|[|[|r]]]; [| | |lia]; (destruct r' as [|[|[|r']]]; [| | |lia]); xx_in I; xx_in I'; auto.
  - intros r mc Hr I. destruct r as [|[|[|r]]]; [| | |lia]; xx_in I; vm_compute; xx_nd.
  - intros r mc Hr I. destruct HB as [-> | ->]; (destruct r as [|[|[|r]]]; [| | |lia]); xx_in I; vm_compute; xx_nd.
Qed.
Lemma ee_empty : fitting 3 (fun r => match r with 0%nat => [MConn 1 2 (xx_line 0 3) []] | 1%nat => [MConn 1 2 (xx_line 3 6) []] | _ => [] end) (ee_n []).
Proof.
  constructor.
  - intros r mc d Hr I J. destruct r as [|[|[|r]]]; [| | |lia]; xx_in I; xx_in J.
  - intros r mc d Hr I J. destruct r as [|[|[|r]]]; [| | |lia]; xx_in I; xx_in J.
  - intros r Hr. destruct r as [|[|[|r]]]; [| | |lia]; vm_compute; xx_nd.
  - intros r Hr. destruct r as [|[|[|r]]]; [| | |lia]; vm_compute; xx_nd.
  - intros id p; split; intros (r & mc & Hr & I & <- & P); (destruct r as [|[|[|r]]]; [| | |lia]); xx_in I; destruct P.
  - intros r r' mc mc' p Hr Hr' I I' G P P'. destruct r as [|[|[|r]]]; [| | |lia]; xx_in I; destruct P.
  - intros r r' mc mc' p Hr Hr' I I' G P P'. destruct r as [|[|[|r]]]; [| | |lia]; xx_in I; destruct P.
  - intros r mc Hr I. destruct r as [|[|[|r]]]; [| | |lia]; xx_in I; constructor.
  - intros r mc Hr I. destruct r as [|[|[|r]]]; [| | |lia]; xx_in I; constructor.
Qed.

Ltac ee_ranks := intros r Hr; destruct r as [|[|[|r]]]; [| | |lia]; split; reflexivity.

Lemma ee_legal f : f = 768%N \/ f = 256%N -> elegal_history 3 (ee_edit f).
Proof.
  intros Hf. cbn [ee_edit ee_fill app elegal_history always].
  split; [split; [intros []|exact I]|].
  split; [split; [intros [E|[]]; discriminate|exact I]|].
  split; [reflexivity|].
  split; [split; [cbn; intuition discriminate|exact I]|].
  split; [split; [split; [lia|split; [left; reflexivity|eexists; split; [right; left; reflexivity|reflexivity]]]|split; [reflexivity|split; discriminate]]|].
  split; [split; [split; [lia|split; [left; reflexivity|eexists; split; [right; left; reflexivity|reflexivity]]]|split; [reflexivity|split; discriminate]]|].
  split; [split; [split; [lia|split; [left; reflexivity|eexists; split; [left; reflexivity|reflexivity]]]|split; [reflexivity|split; discriminate]]|].
  split; [split; exact I|].
  split; [split; [reflexivity|split; [lia|split; [left; reflexivity|reflexivity]]]|].
  split; [split; [split; [lia|split; [left; reflexivity|eexists; split; [left; reflexivity|reflexivity]]]|]|].
  - destruct Hf as [-> | ->]; (split; [reflexivity|]); split; try discriminate; intros _; reflexivity.
  - split; [split; exact I|exact I].
Qed.
Lemma ee_consistent f : always (consistent ee_t 3) espec0 (ee_edit f).
Proof.
  cbn [ee_edit ee_fill app always]. repeat (split; [try (intros H; discriminate H)|]).
  all: try exact I; intros _.
  - eapply fitting_ext; [|apply fitting_none]. ee_ranks.
  - eapply fitting_ext; [|apply fitting_none]. ee_ranks.
  - eapply fitting_ext; [|apply fitting_none]. ee_ranks.
  - eapply fitting_ext; [|apply fitting_none]. ee_ranks.
  - eapply fitting_ext; [|apply ee_fitting; left; reflexivity]. ee_ranks.
  - eapply fitting_ext; [|apply ee_fitting; right; reflexivity]. ee_ranks.
Qed.
Lemma ee_careful : always careful espec0 (ee_edit 768).
Proof.
  cbn [ee_edit ee_fill app always]. repeat (split; [try (intros H; discriminate H)|]).
  all: try exact I; intros _ B k Ik; try discriminate B; cbn in Ik; try contradiction.
  all: destruct Ik as [<-|[]]; vm_compute; congruence.
Qed.

Lemma ee_example :
  elegal_history 3 (ee_edit 768) /\ always (consistent ee_t 3) espec0 (ee_edit 768) /\ always careful espec0 (ee_edit 768) /\
  q_bound (espec_run (ee_edit 768)) = true /\ In ee_k (s_over (q_d (espec_run (ee_edit 768)))) /\ s_pend (q_d (espec_run (ee_edit 768))) ee_k = 0%N /\
  match erun ee_t 3 (ee_edit 768) with
  | Some st => map (dest_ranks st ee_k) [0; 1; 2]%nat = [[2]; [2]; []] /\ map (source_ranks st ee_k) [0; 1; 2]%nat = [[]; []; [1; 0]] /\
               map (source_points st ee_k) [0; 1; 2]%nat = [[]; []; [xx_pt 1; xx_pt 0]]
  | None => False
  end /\
  match erun ee_t 3 ee_fill with Some st => option_map lm_ops (local_m st 0 ee_k) = Some [7] | None => False end /\
  match erun ee_t 3 (ee_edit 768) with Some st => option_map lm_ops (local_m st 0 ee_k) = Some [] | None => False end.
Proof.
  split; [apply ee_legal; left; reflexivity|]. split; [apply ee_consistent|]. split; [apply ee_careful|]. split; [reflexivity|]. split; [left; reflexivity|]. split; [reflexivity|].
  split; [vm_compute; repeat split|]. split; vm_compute; reflexivity.
Qed.

Lemma ee_stale : exists t n h st k, (0 < n)%nat /\ elegal_history n h /\ always (consistent t n) espec0 h /\
  let s := espec_run h in
  fitting n (all_m t s) (all_n s) /\ erun t n h = Some st /\ q_bound s = true /\ In k (s_over (q_d s)) /\ s_pend (q_d s) k = 0%N /\
  exists R vals out S',
  computes n (send_recv 1 0 (dest_ranks st k) (fun r => send_recv_order isort R (dest_points st k r))
                            (source_ranks st k) (fun r => send_recv_order isort R (source_points st k r)))
    (fun r => SS0 (vals r) (out r)) S' /\
  exists a r i j d y, (a < n)%nat /\ (r < n)%nat /\ livesb (q_d s) (fst k) a = true /\ livesb (q_d s) (snd k) r = true /\
    vread (q_m s a k) i = Some d /\ rcontains (t_local t (fst k) a) (d_lower d) = true /\ vread (q_n s r k) j = Some y /\ r_point y = d_point d /\
    vals_at (s_out (S' r)) 0 j <> vals_at (vals a) 0 i.
Proof.
  destruct (follows ee_t 3 (ee_edit 256) ltac:(lia) (ee_legal 256 (or_intror eq_refl))) as (st & E & _).
  exists ee_t, 3%nat, (ee_edit 256), st, ee_k. split; [lia|]. split; [apply ee_legal; right; reflexivity|]. split; [apply ee_consistent|]. cbv zeta.
  split; [eapply fitting_ext; [|apply ee_fitting; right; reflexivity]; ee_ranks|]. split; [exact E|]. split; [reflexivity|]. split; [left; reflexivity|]. split; [reflexivity|].
  assert (D : forall r, (r < 3)%nat -> dest_ranks st ee_k r = match r with 2%nat => [] | _ => [2] end /\ source_ranks st ee_k r = match r with 2%nat => [0; 1] | _ => [] end /\
    dest_points st ee_k r = match r with 0%nat => [xx_pt 0] | 1%nat => [xx_pt 1] | _ => [] end /\ source_points st ee_k r = match r with 2%nat => [xx_pt 1; xx_pt 0] | _ => [] end).
  { assert (D : match erun ee_t 3 (ee_edit 256) with Some st => map (fun r => (dest_ranks st ee_k r, source_ranks st ee_k r, dest_points st ee_k r, source_points st ee_k r)) [0; 1; 2]%nat
        = [([2], [], [xx_pt 0], []); ([2], [], [xx_pt 1], []); ([], [0; 1], [], [xx_pt 1; xx_pt 0])] | None => False end) by (vm_compute; reflexivity).
    rewrite E in D. cbn [map] in D. injection D as A1 A2 A3 A4 B1 B2 B3 B4 C1 C2 C3 C4.
    intros r Hr. destruct r as [|[|[|r]]]; [| | |lia]; auto. }
  exists (xx_line 0 2), (fun r => match r with 0%nat => [[10]] | 1%nat => [[20]] | _ => [[]] end), (fun r => match r with 2%nat => [[0; 0]] | _ => [[]] end).
  assert (P : forall r, (r < 3)%nat -> is_order (dest_ranks st ee_k r) (send_recv_order isort (xx_line 0 2) (dest_points st ee_k r)) /\
    is_order (source_ranks st ee_k r) (send_recv_order isort (xx_line 0 2) (source_points st ee_k r))).
  { intros r Hr. destruct (D r Hr) as (-> & -> & -> & ->). unfold is_order. split; (destruct r as [|[|[|r]]]; [| | |lia]); vm_compute; try apply Permutation_refl; apply perm_swap. }
  destruct (@exchange_ok Z 1 0 3 (dest_ranks st ee_k) (fun r => send_recv_order isort (xx_line 0 2) (dest_points st ee_k r)) (source_ranks st ee_k) (fun r => send_recv_order isort (xx_line 0 2) (source_points st ee_k r))
    (fun r => match r with 0%nat => [[10]] | 1%nat => [[20]] | _ => [[]] end) (fun r => match r with 2%nat => [[0; 0]] | _ => [[]] end)) as (S' & out' & C & O & V & _).
  - lia.
  - split; [|split].
    + intros r q Hr. destruct (D r Hr) as (-> & _). destruct r as [|[|[|r]]]; [| | |lia]; cbn; intuition lia.
    + intros r q Hr. destruct (D r Hr) as (_ & -> & _). destruct r as [|[|[|r]]]; [| | |lia]; cbn; intuition lia.
    + intros a r Ha Hr. destruct (D a Ha) as (-> & _). destruct (D r Hr) as (_ & -> & _).
      destruct a as [|[|[|a]]]; [| | |lia]; (destruct r as [|[|[|r]]]; [| | |lia]); reflexivity.
  - intros r Hr. split; [apply P, Hr|]. destruct (D r Hr) as (-> & _). destruct r as [|[|[|r]]]; [| | |lia]; (split; [vm_compute; discriminate|]); split; try reflexivity; intros row [<-|[]]; reflexivity.
  - intros r Hr. split; [apply P, Hr|]. destruct (D r Hr) as (_ & -> & _). destruct r as [|[|[|r]]]; [| | |lia]; (split; [vm_compute; discriminate|]); split; try reflexivity; intros row [<-|[]]; reflexivity.
  - exists S'. split; [exact C|]. exists 1%nat, 2%nat, 0, 0, (xx_d 4 1), (xx_r 1).
    split; [lia|]. split; [lia|]. split; [reflexivity|]. split; [reflexivity|]. split; [reflexivity|]. split; [reflexivity|]. split; [reflexivity|]. split; [reflexivity|].
    destruct (O 2%nat ltac:(lia)) as (_ & -> & _). assert (X : vals_at (out' 2%nat) 0 0 = Some 10).
    { rewrite (V 0%nat 2%nat 0 0 0%nat 0); [reflexivity|lia|lia|lia| |].
      - destruct (D 0%nat ltac:(lia)) as (-> & _ & -> & _). split; [reflexivity|]. exists [], []. split; reflexivity.
      - destruct (D 2%nat ltac:(lia)) as (_ & -> & _ & ->). split; [reflexivity|]. exists [1], []. split; reflexivity. }
    rewrite X. discriminate.
Qed.
