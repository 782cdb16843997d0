(** Proofs about MPI datatypes (C105). *)
From Coq Require Import List Arith Lia.
From Verif Require Import DtyModel DtySpec.
Import ListNotations.

Lemma in_copies e n l x : In x (copies e n l) <-> exists k o, k < n /\ In o l /\ x = k * e + o.
Proof.
  unfold copies. rewrite in_flat_map. split.
  - intros (k & K & I). apply in_seq in K. apply in_map_iff in I. destruct I as (o & <- & O). exists k, o. repeat split; auto; lia.
  - intros (k & o & K & O & ->). exists k. split; [apply in_seq; lia|]. apply in_map_iff. eauto.
Qed.

Lemma nodup_app {A} (l r : list A) : NoDup l -> NoDup r -> (forall x, In x l -> ~ In x r) -> NoDup (l ++ r).
Proof.
  induction l as [|a l IH]; cbn; auto. intros N M D. inversion N; subst. constructor.
  - rewrite in_app_iff. intros [?|?]; [auto|eapply D; eauto].
  - apply IH; auto.
Qed.
Lemma nodup_shift l c : NoDup l -> NoDup (map (fun o => c + o) l).
Proof.
  intros N. induction N; cbn; constructor; auto. rewrite in_map_iff. intros (y & E & I). assert (y = x) by lia. congruence.
Qed.
Lemma nodup_copies_from e l : NoDup l -> (forall x, In x l -> x < e) -> forall n a,
  NoDup (flat_map (fun k => map (fun o => k * e + o) l) (seq a n)).
Proof.
  intros N B n; induction n as [|n IH]; intros a; cbn; [constructor|]. apply nodup_app; auto.
  - apply nodup_shift; auto.
  - intros x I J. apply in_map_iff in I. destruct I as (o & <- & O). apply in_flat_map in J. destruct J as (k & K & J).
    apply in_seq in K. apply in_map_iff in J. destruct J as (o' & E & _). apply B in O. nia.
Qed.
Lemma nodup_copies e n l : NoDup l -> (forall x, In x l -> x < e) -> NoDup (copies e n l).
Proof. intros; apply nodup_copies_from; auto. Qed.

Lemma extent_size t : extent (mpi_type t) = size_of t.
Proof. induction t; cbn [mpi_type extent size_of]; auto; rewrite ?IHt; lia. Qed.

Lemma bytes_members t : forall x, In x (bytes_of (mpi_type t)) <-> exists o s j, member t o s /\ j < s /\ x = o + j.
Proof.
  induction t as [s|n t IH|n t IH]; intros x; cbn [mpi_type bytes_of extent].
  - rewrite in_seq. split.
    + intros H. exists 0, s, x. repeat split; [constructor|lia].
    + intros (o & s' & j & M & J & ->). inversion M; subst. lia.
  - rewrite in_copies, extent_size. split.
    + intros (k & o & K & O & ->). apply IH in O. destruct O as (o' & s & j & M & J & ->).
      exists (k * size_of t + o'), s, j. repeat split; [constructor; auto|auto|lia].
    + intros (o & s & j & M & J & ->). inversion M; subst. exists i, (o0 + j). split; [auto|]. split; [apply IH; exists o0, s, j; auto|lia].
  - rewrite in_copies, extent_size. split.
    + intros (k & o & K & O & ->). apply in_copies in O. destruct O as (i & o1 & Hi & O & ->). apply IH in O.
      destruct O as (o' & s & j & M & J & ->). destruct k as [|[|k]]; [| |lia].
      * exists (i * size_of t + o'), s, j. repeat split; [apply m_begin; auto|auto|lia].
      * exists (n * size_of t + (i * size_of t + o')), s, j. repeat split; [apply m_end; auto|auto|lia].
    + intros (o & s & j & M & J & ->). inversion M; subst.
      * exists 0, (i * size_of t + (o0 + j)). repeat split; [lia| |lia]. apply in_copies. exists i, (o0 + j).
        repeat split; auto. apply IH; exists o0, s, j; auto.
      * exists 1, (i * size_of t + (o0 + j)). repeat split; [lia| |lia]. apply in_copies. exists i, (o0 + j).
        repeat split; auto. apply IH; exists o0, s, j; auto.
Qed.

Lemma member_inside t o s : member t o s -> o + s <= size_of t.
Proof.
  induction 1; cbn [size_of]; auto.
  - assert (i * size_of t + size_of t <= n * size_of t) by nia. lia.
  - assert (i * size_of t + size_of t <= n * size_of t) by nia. lia.
  - assert (i * size_of t + size_of t <= n * size_of t) by nia. lia.
Qed.
Lemma bytes_inside t x : In x (bytes_of (mpi_type t)) -> x < size_of t.
Proof. intros I. apply bytes_members in I. destruct I as (o & s & j & M & J & ->). apply member_inside in M. lia. Qed.

Lemma bytes_nodup t : NoDup (bytes_of (mpi_type t)).
Proof.
  induction t as [s|n t IH|n t IH]; cbn [mpi_type bytes_of extent].
  - apply seq_NoDup.
  - apply nodup_copies; auto. intros x I. rewrite extent_size. apply bytes_inside; auto.
  - apply nodup_copies.
    + apply nodup_copies; auto. intros x I. rewrite extent_size. apply bytes_inside; auto.
    + intros x I. apply in_copies in I. destruct I as (k & o & K & O & ->). apply bytes_inside in O. rewrite extent_size. nia.
Qed.

(** ** Messages *)

Lemma deliver_at {B} (f : nat -> B) q os : forall m a,
  deliver m q os (map f os) a = if in_dec Nat.eq_dec (a - q) os then (if le_dec q a then f (a - q) else m a) else m a.
Proof.
  induction os as [|o os IH]; intros m a; cbn [deliver map]; [reflexivity|]. rewrite IH. unfold write_byte.
  destruct (in_dec Nat.eq_dec (a - q) os) as [I|I], (in_dec Nat.eq_dec (a - q) (o :: os)) as [J|J], (le_dec q a) as [Le|Le],
    (Nat.eqb_spec a (q + o)) as [E|E]; auto; try lia; try (exfalso; apply J; right; exact I).
  - f_equal; lia.
  - destruct J as [J|J]; [lia|contradiction].
  - exfalso; apply J; left; lia.
Qed.

Lemma transfer_arrives {B} (mem : nat -> nat -> Prop) size t : extent t = size ->
  (forall x, In x (bytes_of t) <-> exists o s j, mem o s /\ j < s /\ x = o + j) ->
  forall count (src : nat -> B) p dst q, arrived mem size count src p dst q (transfer src p dst q count t).
Proof.
  intros E M count src p dst q. unfold transfer, message_bytes. rewrite E. split.
  - intros k o s j K Mo J. rewrite deliver_at.
    replace (q + (k * size + (o + j)) - q) with (k * size + (o + j)) by lia.
    destruct (in_dec Nat.eq_dec _ _) as [I|I].
    + destruct (le_dec _ _); [auto|lia].
    + exfalso; apply I. apply in_copies. exists k, (o + j). repeat split; auto. apply M; exists o, s, j; auto.
  - intros a H. rewrite deliver_at. destruct (in_dec Nat.eq_dec _ _) as [I|I]; auto. destruct (le_dec q a); auto.
    apply in_copies in I. destruct I as (k & x & K & X & A). apply M in X. destruct X as (o & s & j & Mo & J & ->).
    exfalso. apply (H k o s j K Mo J). lia.
Qed.

Lemma region_arrives : forall B t count (src : nat -> B) p dst q,
  arrived (member t) (size_of t) count src p dst q (transfer src p dst q count (mpi_type t)) /\
  NoDup (message_bytes count (mpi_type t)).
Proof.
  intros. split.
  - apply transfer_arrives; [apply extent_size|apply bytes_members].
  - apply nodup_copies; [apply bytes_nodup|]. intros x I. rewrite extent_size. apply bytes_inside; auto.
Qed.

Definition block_bytes (b : nat * nat * dty) : list nat :=
  map (fun o => fst (fst b) + o) (copies (extent (snd b)) (snd (fst b)) (bytes_of (snd b))).

Lemma in_block1 off t x : In x (block_bytes (off, 1, mpi_type t)) <-> exists o s j, member t o s /\ j < s /\ x = (off + o) + j.
Proof.
  unfold block_bytes; cbn [fst snd]. rewrite in_map_iff. split.
  - intros (y & <- & Y). apply in_copies in Y. destruct Y as (k & o & K & O & ->). apply bytes_members in O.
    destruct O as (o' & s & j & M & J & ->). exists o', s, j. repeat split; auto. assert (k = 0) by lia; subst; lia.
  - intros (o & s & j & M & J & ->). exists (o + j). split; [lia|]. apply in_copies. exists 0, (o + j).
    repeat split; auto. apply bytes_members; exists o, s, j; auto.
Qed.
Lemma in_ints off si x : In x (block_bytes (off, 2, DBasic si)) <-> off <= x < off + 2 * si.
Proof.
  unfold block_bytes; cbn [fst snd extent bytes_of]. rewrite in_map_iff. split.
  - intros (y & <- & Y). apply in_copies in Y. destruct Y as (k & o & K & O & ->). apply in_seq in O. nia.
  - intros H. exists (x - off). split; [lia|]. apply in_copies. destruct (le_lt_dec si (x - off)).
    + exists 1, (x - off - si). repeat split; [lia|apply in_seq; lia|lia].
    + exists 0, (x - off). split; [lia|]. split; [apply in_seq; lia|lia].
Qed.

Lemma fragment_bytes L : bytes_of (fragment_type L) =
  block_bytes (fl_grid L, 2, DBasic (fl_int L)) ++ block_bytes (fl_range L, 1, mpi_type (range_ty L)) ++
  block_bytes (fl_orient L, 1, mpi_type (orient_ty L)) ++ block_bytes (fl_box L, 1, mpi_type (box_ty L)) ++ [].
Proof. reflexivity. Qed.

Lemma fragment_members L : layout_ok L -> forall x,
  In x (bytes_of (fragment_type L)) <-> exists o s j, fmember L o s /\ j < s /\ x = o + j.
Proof.
  intros (E & _) x. rewrite fragment_bytes, !in_app_iff, in_ints, !in_block1. split.
  - intros [H|[(o & s & j & M & J & ->)|[(o & s & j & M & J & ->)|[(o & s & j & M & J & ->)|[]]]]].
    + destruct (le_lt_dec (fl_id L) x).
      * exists (fl_id L), (fl_int L), (x - fl_id L). repeat split; [apply f_id|lia|lia].
      * exists (fl_grid L), (fl_int L), (x - fl_grid L). repeat split; [apply f_grid|lia|lia].
    + exists (fl_range L + o), s, j. repeat split; auto. apply f_range; auto.
    + exists (fl_orient L + o), s, j. repeat split; auto. apply f_orient; auto.
    + exists (fl_box L + o), s, j. repeat split; auto. apply f_box; auto.
  - intros (o & s & j & M & J & ->). inversion M; subst.
    + left; lia.
    + left; lia.
    + right; left; exists o0, s, j; auto.
    + right; right; left; exists o0, s, j; auto.
    + right; right; right; left; exists o0, s, j; auto.
Qed.

Lemma block1_range off t x : In x (block_bytes (off, 1, mpi_type t)) -> off <= x < off + size_of t.
Proof. intros I. apply in_block1 in I. destruct I as (o & s & j & M & J & ->). apply member_inside in M. lia. Qed.
Lemma block1_nodup off t : NoDup (block_bytes (off, 1, mpi_type t)).
Proof.
  apply nodup_shift, nodup_copies; [apply bytes_nodup|]. cbn [snd]. intros x I. rewrite extent_size. apply bytes_inside; auto.
Qed.

Lemma fragment_nodup L : layout_ok L ->
  NoDup (bytes_of (fragment_type L)) /\ forall x, In x (bytes_of (fragment_type L)) -> x < fl_size L.
Proof.
  intros (E & A & B & C & D). rewrite fragment_bytes. split.
  - apply nodup_app; [apply nodup_shift, nodup_copies; [apply seq_NoDup|cbn; intros x I; apply in_seq in I; lia]| |].
    + apply nodup_app; [apply block1_nodup| |].
      * apply nodup_app; [apply block1_nodup| |].
        -- rewrite app_nil_r. apply block1_nodup.
        -- intros x I J. rewrite app_nil_r in J. apply block1_range in I, J. lia.
      * intros x I J. apply in_app_iff in J. rewrite app_nil_r in J. apply block1_range in I.
        destruct J as [J|J]; apply block1_range in J; lia.
    + intros x I J. apply in_ints in I. rewrite !in_app_iff in J. destruct J as [J|[J|[J|[]]]]; apply block1_range in J; lia.
  - intros x I. rewrite !in_app_iff in I. destruct I as [I|[I|[I|[I|[]]]]]; [apply in_ints in I; lia| | |]; apply block1_range in I; lia.
Qed.

Lemma fragment_arrives : forall B L count (src : nat -> B) p dst q, layout_ok L ->
  arrived (fmember L) (fl_size L) count src p dst q (transfer src p dst q count (fragment_type L)) /\
  NoDup (message_bytes count (fragment_type L)).
Proof.
  intros B L count src p dst q H. split.
  - apply transfer_arrives; [reflexivity|apply fragment_members; auto].
  - destruct (fragment_nodup L H) as [N In]. apply nodup_copies; auto.
Qed.
