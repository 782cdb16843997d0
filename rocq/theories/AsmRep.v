(** Programs over the fields of one grid: each statement of AsmModel.v, run on all ranks, does to the
    fields what the corresponding operation does to the values on the whole domain. *)
From Coq Require Import List ZArith Bool Lia.
From Verif Require Import TupleModel RangeModel Base RangeProof CartModel CartProof DecompModel DecompProof IndexerModel ArrayModel ArrayProof.
From Verif Require Import ContModel HashModel HashProof ProtoModel ProtoSpec NetModel NetSpec NetPhase LiftModel LiftProof.
From Verif Require Import NeighModel NeighSpec NeighProof HaloModel HaloProof PartModel FieldModel FieldSpec FieldProof EdgeProof ExtProof.
From Verif Require Import SendProof CollectProof AsmModel.
Import ListNotations.
Local Open Scope Z_scope.

(** ** Generalities *)

Lemma recv_msg_ext {St Msg} n (p : p2p St Msg) S T r i : (r < n)%nat -> (forall k, (k < n)%nat -> S k = T k) ->
  (forall s, In s (p_recvs p r (S r)) -> (s < n)%nat) -> recv_msg p S r i = recv_msg p T r i.
Proof.
  intros Hr X B. unfold recv_msg. rewrite <- (X r Hr). destruct (nth_error (p_recvs p r (S r)) i) as [s|] eqn:Q; [|reflexivity].
  rewrite (X s); [reflexivity|]. apply B, (nth_error_In _ _ Q).
Qed.

Lemma phase_ok_start {St Msg} n (ph : phase St Msg) S T S' : (forall k, (k < n)%nat -> S k = T k) ->
  phase_ok n ph S S' -> phase_ok n ph T S'.
Proof.
  intros X. destruct ph as [f|p|f]; cbn [phase_ok].
  - intros Q r Hr. rewrite <- (X r Hr). apply Q, Hr.
  - intros [M D]. split.
    + intros r Hr. destruct (M r Hr) as (M1 & M2 & M3). rewrite <- (X r Hr). split; [exact M1|]. split; [exact M2|].
      intros s Hs. rewrite <- (X s Hs). apply M3, Hs.
    + intros r l Hr (A1 & A2 & A3). rewrite <- (X r Hr). apply (D r l Hr). split; [exact A1|]. rewrite <- (X r Hr) in A2. split; [exact A2|].
      intros i m Hi. rewrite (recv_msg_ext n p S T r i Hr X); [apply A3, Hi|]. apply (M r Hr).
  - intros Q r Hr. replace (map T (seq 0 n)) with (map S (seq 0 n)); [apply Q, Hr|].
    apply map_ext_in. intros k Hk. apply in_seq in Hk. apply X. lia.
Qed.

Lemma prog_ok_start {St Msg} n (prog : list (phase St Msg)) S T S' : (forall k, (k < n)%nat -> S k = T k) ->
  prog_ok n prog S S' -> prog_ok n prog T S'.
Proof.
  intros X. destruct prog as [|ph prog]; cbn [prog_ok].
  - intros Q r Hr. rewrite <- (X r Hr). apply Q, Hr.
  - intros (S1 & Q & R). exists S1. split; [apply (phase_ok_start n ph S T S1 X Q)|exact R].
Qed.

Lemma prog_ok_end {St Msg} n (prog : list (phase St Msg)) : forall S S' T', (forall k, (k < n)%nat -> S' k = T' k) ->
  prog_ok n prog S S' -> exists T, (forall k, (k < n)%nat -> T k = T' k) /\ prog_ok n prog S T.
Proof. intros S S' T' X Q. exists S'. auto. Qed.

Lemma local_phase {St Msg} n (f : nat -> St -> option St) (S : nat -> St) (Q : nat -> St -> Prop) :
  (forall r, (r < n)%nat -> exists s, f r (S r) = Some s /\ Q r s) ->
  exists S', prog_ok n [Local f : phase St Msg] S S' /\ forall r, (r < n)%nat -> Q r (S' r).
Proof.
  intros X. exists (fun r => match f r (S r) with Some s => s | None => S r end). split.
  - eexists. split; [|intros r Hr; reflexivity]. cbn [phase_ok]. intros r Hr. destruct (X r Hr) as (s & -> & _). reflexivity.
  - intros r Hr. destruct (X r Hr) as (s & -> & Q1). exact Q1.
Qed.

Lemma prog_ok_seq {St Msg} n (p1 p2 : list (phase St Msg)) S S1 S' :
  prog_ok n p1 S S1 -> prog_ok n p2 S1 S' -> prog_ok n (p1 ++ p2) S S'.
Proof. intros A B. apply prog_ok_app. eauto. Qed.

Lemma prog_ok_nil {St Msg} n (S : nat -> St) : prog_ok n ([] : list (phase St Msg)) S S.
Proof. intros r Hr. reflexivity. Qed.

(** *** Registers *)
Lemma rput_length {A} (v : A) l : forall k, length (rput k v l) = length l.
Proof. induction l as [|x l IH]; intros k; [reflexivity|]. destruct k; cbn; [reflexivity|]. rewrite IH. reflexivity. Qed.
Lemma rput_same {A} (d v : A) l : forall k, (k < length l)%nat -> nth k (rput k v l) d = v.
Proof. induction l as [|x l IH]; intros k Hk; cbn in Hk; [lia|]. destruct k; cbn; [reflexivity|]. apply IH. lia. Qed.
Lemma rput_other {A} (d v : A) l : forall j k, j <> k -> nth j (rput k v l) d = nth j l d.
Proof.
  induction l as [|x l IH]; intros j k Hjk; [reflexivity|]. destruct j, k; cbn; try reflexivity; [congruence|]. apply IH. congruence.
Qed.
Lemma rput_put {A} (v w : A) l : forall k, rput k w (rput k v l) = rput k w l.
Proof. induction l as [|x l IH]; intros k; [reflexivity|]. destruct k; cbn; [reflexivity|]. rewrite IH. reflexivity. Qed.
Lemma rput_id {A} (d : A) l : forall k, (k < length l)%nat -> rput k (nth k l d) l = l.
Proof. induction l as [|x l IH]; intros k Hk; cbn in Hk; [lia|]. destruct k; cbn; [reflexivity|]. rewrite IH by lia. reflexivity. Qed.
Lemma rput_swap {A} (v w : A) l : forall j k, j <> k -> rput j v (rput k w l) = rput k w (rput j v l).
Proof.
  induction l as [|x l IH]; intros j k Hjk; [reflexivity|]. destruct j, k; cbn; try reflexivity; [congruence|]. rewrite IH by congruence. reflexivity.
Qed.
Lemma nth_error_reg {A} (d : A) l k : (k < length l)%nat -> nth_error l k = Some (nth k l d).
Proof. intros Hk. apply nth_error_nth'. exact Hk. Qed.

(** *** Fields *)
Section Agrees.
Context {V : Type} (c : cart) (n : nat) (L E : nat -> range) (N : nat -> list nat).

Lemma agrees_fields (F F' : nat -> list V) m : (forall r, (r < n)%nat -> F r = F' r) -> agrees c n L E N F m -> agrees c n L E N F' m.
Proof.
  intros X [A B]. split.
  - intros r Hr. rewrite <- (X r Hr). apply A, Hr.
  - intros r p q u Hr. rewrite <- (X r Hr). apply B, Hr.
Qed.

Lemma agrees_values (F : nat -> list V) m m' : decomposed c n L -> (forall u, pt_in (c_range c) u -> m u = m' u) ->
  agrees c n L E N F m -> agrees c n L E N F m'.
Proof.
  intros D X [A B]. split.
  - intros r Hr. destruct (A r Hr) as [A1 A2]. split; [exact A1|]. intros p Hp. rewrite (A2 p Hp). f_equal. apply X.
    apply (L_sub c n L D r Hr), Hp.
  - intros r p q u Hr Hq Hp Hu I O. rewrite (B r p q u Hr Hq Hp Hu I O). f_equal. apply X. apply (L_sub c n L D q Hq), Hu.
Qed.
End Agrees.

(** The values of several fields at an index. *)
Definition reads {A} (fs : list (list A)) (ks : list nat) (l : Z) : option (list A) :=
  omap (fun k => let! v := nth_error fs k in vread v l) ks.

Lemma reads_total {A} (fs : list (list A)) ks l b : 0 <= l < b ->
  (forall k, In k ks -> (k < length fs)%nat /\ Z.of_nat (length (nth k fs [])) = b) -> exists xs, reads fs ks l = Some xs.
Proof.
  intros Hl X. apply omap_total. intros k Hk. destruct (X k Hk) as [K1 K2]. rewrite (nth_error_reg [] fs k K1).
  apply vread_some. lia.
Qed.

Lemma reads_values {A} (fs : list (list A)) ks ms l : Forall2 (fun k m => (k < length fs)%nat /\ vread (nth k fs []) l = Some m) ks ms ->
  reads fs ks l = Some ms.
Proof.
  unfold reads. induction 1 as [|k m ks ms [K1 K2] X IH]; [reflexivity|]. rewrite omap_cons, (nth_error_reg [] fs k K1), K2, IH. reflexivity.
Qed.

Lemma pointwise_ok {V} e ms zs km kz (f : list bool -> list Z -> V) :
  (forall k, In k km -> (k < length ms)%nat /\ Z.of_nat (length (nth k ms [])) = rcount e) ->
  (forall k, In k kz -> (k < length zs)%nat /\ Z.of_nat (length (nth k zs [])) = rcount e) ->
  0 <= rcount e ->
  exists d, pointwise e ms zs km kz f = Some d /\ Z.of_nat (length d) = rcount e /\
    forall l x y, 0 <= l < rcount e -> reads ms km l = Some x -> reads zs kz l = Some y -> vread d l = Some (f x y).
Proof.
  intros Xm Xz He. unfold pointwise.
  match goal with |- context [omap ?g ?z] => destruct (omap_total g z) as [d Q] end.
  { intros l Hl. apply zseq_In in Hl. destruct (reads_total ms km l (rcount e) ltac:(lia) Xm) as [x Hx].
    destruct (reads_total zs kz l (rcount e) ltac:(lia) Xz) as [y Hy]. unfold reads in Hx, Hy. rewrite Hx, Hy. eauto. }
  exists d. split; [exact Q|]. split; [rewrite (omap_length _ _ _ Q), zseq_length; lia|].
  intros l x y Hl Hx Hy. pose proof (zseq_nth (Z.to_nat (rcount e)) 0 (Z.to_nat l) ltac:(lia)) as Zl.
  destruct (omap_nth _ _ _ _ _ Q Zl) as (w & Ew & Fw). replace (0 + Z.of_nat (Z.to_nat l)) with l in Fw by lia.
  unfold reads in Hx, Hy. rewrite Hx, Hy in Fw. injection Fw as <-. unfold vread. destruct (Z.ltb_spec l 0); [lia|exact Ew].
Qed.

(** ** Programs *)

Section Rep.
Variables (c : cart) (n : nat) (L E : nat -> range) (N : nat -> list nat) (H : nat -> hmap).
Hypothesis P : partitioned c n L E N H.
Notation c' := (cart_include_exterior c).
Notation L' := (fun r => range_include_exterior c (L r)).
Notation E' := (fun r => range_include_exterior c (E r)).
Notation H' := (hm c' L' E' N).

Lemma P' : partitioned c' n L' E' N H'.
Proof. apply (exterior_partitioned c n L E N H P). Qed.

Definition mask := tup Z -> bool.
Definition ints := tup Z -> Z.

(** What is known about the fields: the value at each point of the domain. *)
Record env : Type := Env {
  g_m : nat -> option mask; g_x : nat -> option mask; g_z : nat -> option ints; g_o : nat -> option mask;
  g_pool : bool; g_cnt : nat -> option Z }.

Definition upd {A} (f : nat -> option A) (k : nat) (v : A) : nat -> option A := fun j => if Nat.eqb j k then Some v else f j.
Definition g_set_m (k : nat) (m : mask) (g : env) : env := Env (upd (g_m g) k m) (g_x g) (g_z g) (g_o g) (g_pool g) (g_cnt g).
Definition g_set_x (k : nat) (m : mask) (g : env) : env := Env (g_m g) (upd (g_x g) k m) (g_z g) (g_o g) (g_pool g) (g_cnt g).
Definition g_set_z (k : nat) (m : ints) (g : env) : env := Env (g_m g) (g_x g) (upd (g_z g) k m) (g_o g) (g_pool g) (g_cnt g).
Definition g_set_cnt (k : nat) (v : Z) (g : env) : env := Env (g_m g) (g_x g) (g_z g) (g_o g) (g_pool g) (upd (g_cnt g) k v).
Definition g_set_pool (g : env) : env := Env (g_m g) (g_x g) (g_z g) (g_o g) true (g_cnt g).

Definition mreg (S : nat -> ast) (k r : nat) : list bool := nth k (a_m (S r)) [].
Definition xreg (S : nat -> ast) (k r : nat) : list bool := nth k (a_x (S r)) [].
Definition zreg (S : nat -> ast) (k r : nat) : list Z := nth k (a_z (S r)) [].
Definition oreg (S : nat -> ast) (k r : nat) : list bool := nth k (a_o (S r)) [].

Variables (KO : nat).

(** The state of one rank is well formed. *)
Definition wf1 (r : nat) (s : ast) : Prop :=
  a_map s = H r /\ a_ranks s = N r /\ length (a_m s) = NUM_M /\ length (a_x s) = NUM_X /\ length (a_z s) = NUM_Z /\
  length (a_o s) = KO /\ length (a_cnt s) = 2%nat /\
  (forall k, (k < NUM_M)%nat -> Z.of_nat (length (nth k (a_m s) [])) = rcount (E r)).

Record rep (S : nat -> ast) (g : env) : Prop := Rep {
  r_wf : forall r, (r < n)%nat -> wf1 r (S r);
  r_m : forall k m, g_m g k = Some m -> (k < NUM_M)%nat /\ agrees c n L E N (mreg S k) m;
  r_x : forall k m, g_x g k = Some m -> (k < NUM_X)%nat /\ agrees c' n L' E' N (xreg S k) m;
  r_z : forall k m, g_z g k = Some m -> (k < NUM_Z)%nat /\ agrees c n L E N (zreg S k) m;
  r_o : forall k m, g_o g k = Some m -> (k < KO)%nat /\ FieldSpec.holds n L L (oreg S k) m;
  r_pool : g_pool g = true -> forall r, (r < n)%nat -> a_pool (S r) = Some (H' r);
  r_cnt : forall k v, g_cnt g k = Some v -> forall r, (r < n)%nat -> nth_error (a_cnt (S r)) k = Some (CCount v) }.

Lemma decomp : decomposed c n L.
Proof. apply P. Qed.
Lemma dom_L r p : (r < n)%nat -> pt_in (L r) p -> pt_in (c_range c) p.
Proof. intros Hr Hp. apply (L_sub c n L decomp r Hr), Hp. Qed.
Lemma L_in_E r p : (r < n)%nat -> pt_in (L r) p -> pt_in (E r) p.
Proof. intros Hr Hp. pose proof P as (D & _ & X & _). apply (extended_sub c n L (E r) r D Hr (X r Hr)), Hp. Qed.
Lemma count_nonneg e : 0 <= rcount e.
Proof. unfold rcount, rsize1. nia. Qed.

(** *** Changing the knowledge *)

Lemma rep_values_m S g k m m' : rep S g -> g_m g k = Some m -> (forall u, pt_in (c_range c) u -> m u = m' u) ->
  rep S (g_set_m k m' g).
Proof.
  intros R Hk X. destruct R as [R1 R2 R3 R4 R5 R6 R7]. split; auto. intros j mj. cbn [g_m g_set_m]. unfold upd.
  destruct (Nat.eqb_spec j k) as [->|Hj]; [|apply R2]. intros Q. injection Q as <-. destruct (R2 k m Hk) as [K A].
  split; [exact K|]. apply (agrees_values c n L E N _ m m' decomp X A).
Qed.
Lemma rep_values_x S g k m m' : rep S g -> g_x g k = Some m -> (forall u, pt_in (c_range c') u -> m u = m' u) ->
  rep S (g_set_x k m' g).
Proof.
  intros R Hk X. destruct R as [R1 R2 R3 R4 R5 R6 R7]. split; auto. intros j mj. cbn [g_x g_set_x]. unfold upd.
  destruct (Nat.eqb_spec j k) as [->|Hj]; [|apply R3]. intros Q. injection Q as <-. destruct (R3 k m Hk) as [K A].
  split; [exact K|]. destruct P' as (D' & _). apply (agrees_values c' n L' E' N _ m m' D' X A).
Qed.
Lemma rep_values_z S g k m m' : rep S g -> g_z g k = Some m -> (forall u, pt_in (c_range c) u -> m u = m' u) ->
  rep S (g_set_z k m' g).
Proof.
  intros R Hk X. destruct R as [R1 R2 R3 R4 R5 R6 R7]. split; auto. intros j mj. cbn [g_z g_set_z]. unfold upd.
  destruct (Nat.eqb_spec j k) as [->|Hj]; [|apply R4]. intros Q. injection Q as <-. destruct (R4 k m Hk) as [K A].
  split; [exact K|]. apply (agrees_values c n L E N _ m m' decomp X A).
Qed.

(** *** Updates *)

Lemma rep_set_m S S' g k m : rep S g -> (k < NUM_M)%nat -> (forall r, (r < n)%nat -> exists d, S' r = set_m k d (S r)) ->
  agrees c n L E N (mreg S' k) m -> rep S' (g_set_m k m g).
Proof.
  intros R Hk X A. destruct R as [R1 R2 R3 R4 R5 R6 R7]. split.
  - intros r Hr. destruct (R1 r Hr) as (W1 & W2 & W3 & W4 & W5 & W6 & W7 & W8). pose proof (X r Hr) as [d Q].
    split; [rewrite Q; exact W1|]. split; [rewrite Q; exact W2|]. split; [rewrite Q; cbn [a_m set_m]; rewrite rput_length; exact W3|].
    split; [rewrite Q; exact W4|]. split; [rewrite Q; exact W5|]. split; [rewrite Q; exact W6|]. split; [rewrite Q; exact W7|].
    intros j Hj. destruct (Nat.eq_dec j k) as [->|Nk]; [apply (proj1 A r Hr)|].
    rewrite Q. cbn [a_m set_m]. rewrite rput_other by exact Nk. apply W8, Hj.
  - intros j mj. cbn [g_m g_set_m]. unfold upd. destruct (Nat.eqb_spec j k) as [->|Nk].
    + intros Q. injection Q as <-. auto.
    + intros Q. destruct (R2 j mj Q) as [Kj Aj]. split; [exact Kj|]. apply (agrees_fields c n L E N (mreg S j)); [|exact Aj].
      intros r Hr. unfold mreg. destruct (X r Hr) as [d ->]. cbn [a_m set_m]. rewrite rput_other by exact Nk. reflexivity.
  - intros j mj Q. destruct (R3 j mj Q) as [Kj Aj]. split; [exact Kj|]. apply (agrees_fields c' n L' E' N (xreg S j)); [|exact Aj].
    intros r Hr. unfold xreg. destruct (X r Hr) as [d ->]. reflexivity.
  - intros j mj Q. destruct (R4 j mj Q) as [Kj Aj]. split; [exact Kj|]. apply (agrees_fields c n L E N (zreg S j)); [|exact Aj].
    intros r Hr. unfold zreg. destruct (X r Hr) as [d ->]. reflexivity.
  - intros j mj Q. destruct (R5 j mj Q) as [Kj Aj]. split; [exact Kj|]. intros r Hr. specialize (Aj r Hr).
    unfold oreg in *. destruct (X r Hr) as [d ->]. exact Aj.
  - intros Q r Hr. destruct (X r Hr) as [d ->]. apply R6; auto.
  - intros j v Q r Hr. destruct (X r Hr) as [d ->]. apply R7; auto.
Qed.

Lemma rep_set_x S S' g k m : rep S g -> (k < NUM_X)%nat -> (forall r, (r < n)%nat -> exists d, S' r = set_x k d (S r)) ->
  agrees c' n L' E' N (xreg S' k) m -> rep S' (g_set_x k m g).
Proof.
  intros R Hk X A. destruct R as [R1 R2 R3 R4 R5 R6 R7]. split.
  - intros r Hr. destruct (R1 r Hr) as (W1 & W2 & W3 & W4 & W5 & W6 & W7 & W8). pose proof (X r Hr) as [d Q]. rewrite Q.
    split; [exact W1|]. split; [exact W2|]. split; [exact W3|]. split; [cbn [a_x set_x]; rewrite rput_length; exact W4|].
    repeat split; assumption.
  - intros j mj Q. destruct (R2 j mj Q) as [Kj Aj]. split; [exact Kj|]. apply (agrees_fields c n L E N (mreg S j)); [|exact Aj].
    intros r Hr. unfold mreg. destruct (X r Hr) as [d ->]. reflexivity.
  - intros j mj. cbn [g_x g_set_x]. unfold upd. destruct (Nat.eqb_spec j k) as [->|Nk].
    + intros Q. injection Q as <-. auto.
    + intros Q. destruct (R3 j mj Q) as [Kj Aj]. split; [exact Kj|]. apply (agrees_fields c' n L' E' N (xreg S j)); [|exact Aj].
      intros r Hr. unfold xreg. destruct (X r Hr) as [d ->]. cbn [a_x set_x]. rewrite rput_other by exact Nk. reflexivity.
  - intros j mj Q. destruct (R4 j mj Q) as [Kj Aj]. split; [exact Kj|]. apply (agrees_fields c n L E N (zreg S j)); [|exact Aj].
    intros r Hr. unfold zreg. destruct (X r Hr) as [d ->]. reflexivity.
  - intros j mj Q. destruct (R5 j mj Q) as [Kj Aj]. split; [exact Kj|]. intros r Hr. specialize (Aj r Hr).
    unfold oreg in *. destruct (X r Hr) as [d ->]. exact Aj.
  - intros Q r Hr. destruct (X r Hr) as [d ->]. apply R6; auto.
  - intros j v Q r Hr. destruct (X r Hr) as [d ->]. apply R7; auto.
Qed.

Lemma rep_set_z S S' g k m : rep S g -> (k < NUM_Z)%nat -> (forall r, (r < n)%nat -> exists d, S' r = set_z k d (S r)) ->
  agrees c n L E N (zreg S' k) m -> rep S' (g_set_z k m g).
Proof.
  intros R Hk X A. destruct R as [R1 R2 R3 R4 R5 R6 R7]. split.
  - intros r Hr. destruct (R1 r Hr) as (W1 & W2 & W3 & W4 & W5 & W6 & W7 & W8). pose proof (X r Hr) as [d Q]. rewrite Q.
    split; [exact W1|]. split; [exact W2|]. split; [exact W3|]. split; [exact W4|].
    split; [cbn [a_z set_z]; rewrite rput_length; exact W5|]. repeat split; assumption.
  - intros j mj Q. destruct (R2 j mj Q) as [Kj Aj]. split; [exact Kj|]. apply (agrees_fields c n L E N (mreg S j)); [|exact Aj].
    intros r Hr. unfold mreg. destruct (X r Hr) as [d ->]. reflexivity.
  - intros j mj Q. destruct (R3 j mj Q) as [Kj Aj]. split; [exact Kj|]. apply (agrees_fields c' n L' E' N (xreg S j)); [|exact Aj].
    intros r Hr. unfold xreg. destruct (X r Hr) as [d ->]. reflexivity.
  - intros j mj. cbn [g_z g_set_z]. unfold upd. destruct (Nat.eqb_spec j k) as [->|Nk].
    + intros Q. injection Q as <-. auto.
    + intros Q. destruct (R4 j mj Q) as [Kj Aj]. split; [exact Kj|]. apply (agrees_fields c n L E N (zreg S j)); [|exact Aj].
      intros r Hr. unfold zreg. destruct (X r Hr) as [d ->]. cbn [a_z set_z]. rewrite rput_other by exact Nk. reflexivity.
  - intros j mj Q. destruct (R5 j mj Q) as [Kj Aj]. split; [exact Kj|]. intros r Hr. specialize (Aj r Hr).
    unfold oreg in *. destruct (X r Hr) as [d ->]. exact Aj.
  - intros Q r Hr. destruct (X r Hr) as [d ->]. apply R6; auto.
  - intros j v Q r Hr. destruct (X r Hr) as [d ->]. apply R7; auto.
Qed.

(** *** Pointwise statements *)

Definition vals {A} (fs : list (tup Z -> A)) (u : tup Z) : list A := map (fun f => f u) fs.
Definition known {A} (f : nat -> option A) (ks : list nat) (ms : list A) : Prop := Forall2 (fun k m => f k = Some m) ks ms.

Lemma known_In {A} f ks (ms : list A) k : known f ks ms -> In k ks -> exists m, f k = Some m.
Proof. induction 1 as [|x y ks ms Q X IH]; intros I; [contradiction|]. destruct I as [->|I]; eauto. Qed.

Lemma pointwise_rep {V} S g km kz gms gzs (f : list bool -> list Z -> V) : rep S g -> known (g_m g) km gms -> known (g_z g) kz gzs ->
  forall r, (r < n)%nat -> exists d, pointwise (E r) (a_m (S r)) (a_z (S r)) km kz f = Some d /\ Z.of_nat (length d) = rcount (E r) /\
    (forall p, pt_in (L r) p -> vread d (rindex ColMajor (E r) p) = Some (f (vals gms p) (vals gzs p))) /\
    (forall p q u, (q < n)%nat -> pt_in (E r) p -> pt_in (L q) u -> is_image c p u -> q = r \/ In q (N r) ->
       vread d (rindex ColMajor (E r) p) = Some (f (vals gms u) (vals gzs u))).
Proof.
  intros R Km Kz r Hr. destruct (r_wf S g R r Hr) as (W1 & W2 & W3 & W4 & W5 & W6 & W7 & W8).
  destruct (pointwise_ok (E r) (a_m (S r)) (a_z (S r)) km kz f) as (d & Q & Ld & V1).
  - intros k Hk. destruct (known_In _ _ _ k Km Hk) as [m Hm]. destruct (r_m S g R k m Hm) as [K A]. rewrite W3. split; [exact K|].
    apply (proj1 A r Hr).
  - intros k Hk. destruct (known_In _ _ _ k Kz Hk) as [m Hm]. destruct (r_z S g R k m Hm) as [K A]. rewrite W5. split; [exact K|].
    apply (proj1 A r Hr).
  - apply count_nonneg.
  - assert (RD : forall p u, pt_in (E r) p -> (forall k m, g_m g k = Some m -> vread (mreg S k r) (rindex ColMajor (E r) p) = Some (m u)) ->
        (forall k m, g_z g k = Some m -> vread (zreg S k r) (rindex ColMajor (E r) p) = Some (m u)) ->
        vread d (rindex ColMajor (E r) p) = Some (f (vals gms u) (vals gzs u))).
    { intros p u Hp Am Az. apply V1; [apply (rindex_bounds ColMajor (E r) p Hp)| |].
      - apply reads_values. unfold vals. clear -Km R Am W3. induction Km as [|k m ks ms Q X IH]; cbn [map]; constructor; [|exact IH].
        rewrite W3. split; [apply (r_m S g R k m Q)|apply (Am k m Q)].
      - apply reads_values. unfold vals. clear -Kz R Az W5. induction Kz as [|k m ks ms Q X IH]; cbn [map]; constructor; [|exact IH].
        rewrite W5. split; [apply (r_z S g R k m Q)|apply (Az k m Q)]. }
    exists d. split; [exact Q|]. split; [exact Ld|]. split.
    + intros p Hp. apply RD; [apply (L_in_E r p Hr Hp)| |]; intros k m Hm.
      * destruct (r_m S g R k m Hm) as [_ A]. apply (proj1 A r Hr), Hp.
      * destruct (r_z S g R k m Hm) as [_ A]. apply (proj1 A r Hr), Hp.
    + intros p q u Hq Hp Hu I O. apply RD; [exact Hp| |]; intros k m Hm.
      * destruct (r_m S g R k m Hm) as [_ A]. apply (proj2 A r p q u Hr Hq Hp Hu I O).
      * destruct (r_z S g R k m Hm) as [_ A]. apply (proj2 A r p q u Hr Hq Hp Hu I O).
Qed.

Lemma masks_of_rep S g km kz gms gzs f dst : rep S g -> known (g_m g) km gms -> known (g_z g) kz gzs -> (dst < NUM_M)%nat ->
  exists S', (forall r, (r < n)%nat -> masks_of E r dst km kz f (S r) = Some (S' r)) /\
    rep S' (g_set_m dst (fun u => f (vals gms u) (vals gzs u)) g).
Proof.
  intros R Km Kz Hd. pose proof (pointwise_rep S g km kz gms gzs f R Km Kz) as X.
  exists (fun r => match pointwise (E r) (a_m (S r)) (a_z (S r)) km kz f with Some d => set_m dst d (S r) | None => S r end). split.
  - intros r Hr. unfold masks_of. destruct (X r Hr) as (d & -> & _). reflexivity.
  - apply (rep_set_m S); auto.
    + intros r Hr. destruct (X r Hr) as (d & -> & _). eauto.
    + assert (F : forall r d, (r < n)%nat -> nth dst (a_m (set_m dst d (S r))) [] = d).
      { intros r d Hr. cbn [a_m set_m]. apply rput_same. destruct (r_wf S g R r Hr) as (_ & _ & -> & _). exact Hd. }
      split.
      * intros r Hr. unfold mreg. destruct (X r Hr) as (d & -> & Ld & V1 & _). rewrite F by exact Hr. auto.
      * intros r p q u Hr. unfold mreg. destruct (X r Hr) as (d & -> & Ld & _ & V2). rewrite F by exact Hr. intros. apply (V2 p q u); auto.
Qed.

Lemma ints_of_rep S g km kz gms gzs f dst : rep S g -> known (g_m g) km gms -> known (g_z g) kz gzs -> (dst < NUM_Z)%nat ->
  exists S', (forall r, (r < n)%nat -> ints_of E r dst km kz f (S r) = Some (S' r)) /\
    rep S' (g_set_z dst (fun u => f (vals gms u) (vals gzs u)) g).
Proof.
  intros R Km Kz Hd. pose proof (pointwise_rep S g km kz gms gzs f R Km Kz) as X.
  exists (fun r => match pointwise (E r) (a_m (S r)) (a_z (S r)) km kz f with Some d => set_z dst d (S r) | None => S r end). split.
  - intros r Hr. unfold ints_of. destruct (X r Hr) as (d & -> & _). reflexivity.
  - apply (rep_set_z S); auto.
    + intros r Hr. destruct (X r Hr) as (d & -> & _). eauto.
    + assert (F : forall r d, (r < n)%nat -> nth dst (a_z (set_z dst d (S r))) [] = d).
      { intros r d Hr. cbn [a_z set_z]. apply rput_same. destruct (r_wf S g R r Hr) as (_ & _ & _ & _ & -> & _). exact Hd. }
      split.
      * intros r Hr. unfold zreg. destruct (X r Hr) as (d & -> & Ld & V1 & _). rewrite F by exact Hr. auto.
      * intros r p q u Hr. unfold zreg. destruct (X r Hr) as (d & -> & Ld & _ & V2). rewrite F by exact Hr. intros. apply (V2 p q u); auto.
Qed.

Lemma mask_from_rep S g km kz gms gzs f dst : rep S g -> known (g_m g) km gms -> known (g_z g) kz gzs -> (dst < NUM_M)%nat ->
  exists S', prog_ok n (mask_from E dst km kz f) S S' /\ rep S' (g_set_m dst (fun u => f (vals gms u) (vals gzs u)) g).
Proof.
  intros R Km Kz Hd. destruct (masks_of_rep S g km kz gms gzs f dst R Km Kz Hd) as (S' & Q & R'). exists S'. split; [|exact R'].
  exists S'. split; [|intros r Hr; reflexivity]. intros r Hr. apply Q, Hr.
Qed.
Lemma int_from_rep S g km kz gms gzs f dst : rep S g -> known (g_m g) km gms -> known (g_z g) kz gzs -> (dst < NUM_Z)%nat ->
  exists S', prog_ok n (int_from E dst km kz f) S S' /\ rep S' (g_set_z dst (fun u => f (vals gms u) (vals gzs u)) g).
Proof.
  intros R Km Kz Hd. destruct (ints_of_rep S g km kz gms gzs f dst R Km Kz Hd) as (S' & Q & R'). exists S'. split; [|exact R'].
  exists S'. split; [|intros r Hr; reflexivity]. intros r Hr. apply Q, Hr.
Qed.

(** Masks with exterior points. *)
Lemma ext_from_rep S g kx gxs f dst : rep S g -> known (g_x g) kx gxs -> (dst < NUM_X)%nat ->
  exists S', prog_ok n (ext_from c E dst kx f) S S' /\ rep S' (g_set_x dst (fun u => f (vals gxs u)) g).
Proof.
  intros R Kx Hd.
  assert (X : forall r, (r < n)%nat -> exists d, pointwise (E' r) (a_x (S r)) [] kx [] (fun x _ => f x) = Some d /\ Z.of_nat (length d) = rcount (E' r) /\
    (forall p, pt_in (L' r) p -> vread d (rindex ColMajor (E' r) p) = Some (f (vals gxs p))) /\
    (forall p q u, (q < n)%nat -> pt_in (E' r) p -> pt_in (L' q) u -> is_image c' p u -> q = r \/ In q (N r) ->
       vread d (rindex ColMajor (E' r) p) = Some (f (vals gxs u)))).
  { intros r Hr. destruct (r_wf S g R r Hr) as (W1 & W2 & W3 & W4 & W5 & W6 & W7 & W8).
    destruct (pointwise_ok (E' r) (a_x (S r)) [] kx [] (fun x _ => f x)) as (d & Q & Ld & V1).
    - intros k Hk. destruct (known_In _ _ _ k Kx Hk) as [m Hm]. destruct (r_x S g R k m Hm) as [K A]. rewrite W4. split; [exact K|].
      apply (proj1 A r Hr).
    - intros k [].
    - apply count_nonneg.
    - assert (RD : forall p u, pt_in (E' r) p -> (forall k m, g_x g k = Some m -> vread (xreg S k r) (rindex ColMajor (E' r) p) = Some (m u)) ->
          vread d (rindex ColMajor (E' r) p) = Some (f (vals gxs u))).
      { intros p u Hp Am. apply (V1 _ (vals gxs u) []); [apply (rindex_bounds ColMajor (E' r) p Hp)| |reflexivity].
        apply reads_values. unfold vals. clear -Kx R Am W4. induction Kx as [|k m ks ms Q X IH]; cbn [map]; constructor; [|exact IH].
        rewrite W4. split; [apply (r_x S g R k m Q)|apply (Am k m Q)]. }
      pose proof P' as (D' & _ & X' & _).
      exists d. split; [exact Q|]. split; [exact Ld|]. split.
      + intros p Hp. apply RD; [apply (extended_sub c' n L' (E' r) r D' Hr (X' r Hr)), Hp|]; intros k m Hm.
        destruct (r_x S g R k m Hm) as [_ A]. apply (proj1 A r Hr), Hp.
      + intros p q u Hq Hp Hu I O. apply RD; [exact Hp|]; intros k m Hm.
        destruct (r_x S g R k m Hm) as [_ A]. apply (proj2 A r p q u Hr Hq Hp Hu I O). }
  set (S' := fun r => match pointwise (E' r) (a_x (S r)) [] kx [] (fun x _ => f x) with Some d => set_x dst d (S r) | None => S r end).
  exists S'. split.
  - exists S'. split; [|intros r Hr; reflexivity]. intros r Hr. cbn beta. unfold S'. destruct (X r Hr) as (d & -> & _). reflexivity.
  - apply (rep_set_x S); auto.
    + intros r Hr. unfold S'. destruct (X r Hr) as (d & -> & _). eauto.
    + assert (F : forall r d, (r < n)%nat -> nth dst (a_x (set_x dst d (S r))) [] = d).
      { intros r d Hr. cbn [a_x set_x]. apply rput_same. destruct (r_wf S g R r Hr) as (_ & _ & _ & -> & _). exact Hd. }
      split.
      * intros r Hr. unfold xreg, S'. destruct (X r Hr) as (d & -> & Ld & V1 & _). rewrite F by exact Hr. auto.
      * intros r p q u Hr. unfold xreg, S'. destruct (X r Hr) as (d & -> & Ld & _ & V2). rewrite F by exact Hr. intros. apply (V2 p q u); auto.
Qed.
End Rep.
