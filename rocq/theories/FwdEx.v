(** Examples and counterexamples for values sent over an overlap (C85). *)
From Coq Require Import List ZArith QArith Bool Lia Sorting.Sorted.
From Verif Require Import TupleModel RangeModel Base RangeProof CartModel CartProof DecompModel DecompProof IndexerModel ArrayModel HashModel HashProof.
From Verif Require Import ProtoModel ProtoSpec NetModel NetSpec NetProof DDecompProof NeighSpec NeighProof FieldSpec FieldProof HaloEx SendModel SendSpec SendLaws.
From Verif Require Import SendProof XchMain CollectModel CollectSpec CollectProof CollectLaws EmbedModel CellModel GeomModel PipeModel PipeSpec OvlModel OvlSpec OvlProof OvlLaws OvlEx ConModel ConSpec ConProof ConLaws ConEx.
From Verif Require Import FwdModel FwdSpec FwdProof FwdLaws.
Import ListNotations.
Local Open Scope Z_scope.

(** ** Arrays with the values of a function *)
Section Of.
Context {V : Type}.
Definition field_of (R : range) (f : tup Z -> V) : list (list V) := [map f (foreach_col R)].

Lemma field_at R (f : tup Z -> V) p : pt_in R p -> vread (map f (foreach_col R)) (rindex ColMajor R p) = Some (f p).
Proof.
  intros Hp. rewrite vread_fmap. pose proof (proj2 (foreach_col_In R p) Hp) as I. apply In_nth_error in I as (k & Hk).
  assert (X : nth_error (map (rindex ColMajor R) (foreach_col R)) k = Some (rindex ColMajor R p)) by (rewrite nth_error_map, Hk; reflexivity).
  pose proof (foreach_col_length R) as Lf. assert (k < length (foreach_col R))%nat by (apply nth_error_Some; congruence).
  rewrite rindex_foreach, zseq_nth in X by lia. injection X as X. rewrite <- X. unfold vread. destruct (Z.ltb_spec (Z.of_nat k) 0); [lia|].
  rewrite Nat2Z.id, Hk. reflexivity.
Qed.

Lemma arrays_of c n mem L NB R D M N (NR : nat -> range) (red : nat -> Z -> range -> list V -> option V) (junk : V) (f : tup Z -> V) (g : nat -> tup Z -> V) :
  overlapped c n mem L NB R D M N -> (forall r e, (r < n)%nat -> In e (D r) -> pt_in (NR r) (e_point e)) ->
  (forall i, (i < length mem)%nat -> reduces (red i) (overlap_cells c mem M i)) ->
  fwd_arrays c n mem L L M N NR red (fun i => field_of (L i) f) (fun i => repeat junk (Z.to_nat (max_vertices (overlap_cells c mem M i)))) (fun _ => f)
    (fun r => [repeat junk (length (N r))]) (fun r => field_of (NR r) (g r)).
Proof.
  intros HV HP HR. split.
  - intros i Hi. split; [|split; [|apply HR, Hi]].
    + split; [reflexivity|]. split; [intros p Hp; exact Hp|]. intros k row p Hk Hp. unfold field_of, vread in Hk. destruct (k <? 0); [discriminate|].
      destruct (Z.to_nat k) as [|x]; [|destruct x; discriminate]. injection Hk as <-. apply field_at, Hp.
    + rewrite repeat_length, Z2Nat.id; [reflexivity|]. unfold max_vertices.
      assert (X : forall l a, 0 <= a -> 0 <= fold_left (fun m cell => Z.max m (extent_product cell)) l a) by (induction l as [|y l IH]; intros a Ha; cbn; [exact Ha|apply IH; lia]). apply X. lia.
  - intros r Hr. split; [|split].
    + split; [reflexivity|]. intros row [<-|[]]. apply repeat_length.
    + split; [reflexivity|]. intros row [<-|[]]. rewrite map_length. pose proof (foreach_col_length (NR r)). lia.
    + intros x Hx. apply (in_map nr_point) in Hx. rewrite (n_points_same c n mem L NB R D M N HV r Hr) in Hx. apply in_map_iff in Hx as (e & <- & He). apply HP; auto.
Qed.
End Of.

(** ** The pair of grids of C78 and C79 *)
Definition fw_M (r : nat) := o_m (ov_S r).
Definition fw_N (r : nat) := o_n (ov_S r).
Lemma fw_overlapped : overlapped ex_c 5 ov_mem ex_L co_NB ov_R ov_D fw_M fw_N.
Proof.
  destruct (fill_sides ex_c 5 ov_mem ex_L ov_R ov_D ov_MG ov_NG (fun _ => isort) ov_input) as (A & B & C); [intros; apply isort_sorts|].
  constructor; auto.
  - exists ov_MG, ov_NG. exact ov_input.
  - intros q Hq. destruct q as [|[|[|[|[|q]]]]]; try lia; cbn; repeat constructor; vm_compute; reflexivity.
  - intros r Hr. destruct r as [|[|[|[|[|r]]]]]; try lia; vm_compute; split; discriminate.
  - exact ex_once.
  - exact co_neighbors.
Qed.
Lemma fw_points r e : (r < 5)%nat -> In e (ov_D r) -> pt_in (co_NL r) (e_point e).
Proof. intros Hr He. destruct r as [|[|[|[|[|r]]]]]; try lia; cbn in He; try contradiction; repeat destruct He as [<-|He]; try contradiction; unfold pt_in; cbn; lia. Qed.

(** Volumes 1 + x of the grid; interpolated at the three points.  The cell of the second point is at the periodic
    boundary: its vertices are those with x = 5 and x = 0. *)
Definition fw_vol (p : tup Z) : Q := inject_Z (1 + c0 p).
Definition fw_red (i : nat) := red_interp Qmult (fun a w v => a + w * v)%Q 0%Q 0%Q (volume_coefs (c_nd ex_c) (match nth_error ov_mem i with Some r => fw_M r | None => [] end)) ColMajor.
Definition fw_work {V} (junk : V) (i : nat) : list V := repeat junk (Z.to_nat (max_vertices (overlap_cells ex_c ov_mem fw_M i))).

Lemma fw_example : overlapped ex_c 5 ov_mem ex_L co_NB ov_R ov_D fw_M fw_N /\
  fwd_arrays ex_c 5 ov_mem ex_L ex_L fw_M fw_N co_NL fw_red (fun i => field_of (ex_L i) fw_vol) (fw_work 0%Q) (fun _ => fw_vol)
    (fun r => [repeat 0%Q (length (fw_N r))]) (fun r => field_of (co_NL r) (fun _ => 0%Q)) /\
  match final 5 (forward_volumes ex_c 5 ov_mem fw_M fw_N ex_L ex_L (fun i => map (fun q => (q, ex_L q)) (co_NB i))) 8 2000
      (fwd0 ov_mem (fun i => field_of (ex_L i) fw_vol) (fw_work 0%Q) (fun r => [repeat 0%Q (length (fw_N r))]) (fun r => field_of (co_NL r) (fun _ => 0%Q))) with
  | Some s => map (fun r => map (map Qred) (s_out (w_s (n_st s r)))) (seq 0 5) = [[[]]; [[2]]; [[]]; [[]]; [[7 # 2; 6]]]%Q
  | None => False
  end.
Proof.
  split; [exact fw_overlapped|]. split.
  - apply (arrays_of ex_c 5 ov_mem ex_L co_NB ov_R ov_D fw_M fw_N co_NL fw_red 0%Q fw_vol (fun _ _ => 0%Q) fw_overlapped fw_points).
    intros i Hi. apply (volumes_reduce ex_c 5 ov_mem ex_L co_NB ov_R ov_D fw_M fw_N fw_overlapped i Hi).
  - vm_compute. reflexivity.
Qed.

(** ** A point that became inactive is overlapped again *)
Theorem inactive_overlapped : exists c n mem L NB R D M N FR NR fields vv m out nfields act S' r e,
  overlapped c n mem L NB R D M N /\ fwd_arrays c n mem L FR M N NR (fun _ => red_all (fun b : bool => b) (fun b => b)) fields vv m out nfields /\
  (forall r, (r < n)%nat -> length (act r) = Z.to_nat (rcount (NR r))) /\
  computes n (update_overlap c n mem M N L FR (fun i => map (fun q => (q, L q)) (NB i)) NR act) (fwd0 mem fields vv out nfields) S' /\
  (r < n)%nat /\ In e (D r) /\ vread (act r) (rindex ColMajor (NR r) (e_point e)) = Some false /\
  vals_at (w_n (S' r)) 0 (rindex ColMajor (NR r) (e_point e)) = Some true.
Proof.
  set (act := fun r => map (fun _ : tup Z => false) (foreach_col (co_NL r))).
  assert (HF : fwd_arrays ex_c 5 ov_mem ex_L ex_L fw_M fw_N co_NL (fun _ => red_all (fun b : bool => b) (fun b => b)) (fun i => field_of (ex_L i) (fun _ => true)) (fw_work false)
    (fun _ _ => true) (fun r => [repeat false (length (fw_N r))]) (fun r => field_of (co_NL r) (fun _ => true))).
  { apply (arrays_of ex_c 5 ov_mem ex_L co_NB ov_R ov_D fw_M fw_N co_NL _ false (fun _ => true) (fun _ _ => true) fw_overlapped fw_points).
    intros i _. apply (flag_reduces ex_c ov_mem fw_M AllOf i). }
  assert (HL : forall r, (r < 5)%nat -> length (act r) = Z.to_nat (rcount (co_NL r))).
  { intros r Hr. unfold act. rewrite map_length. pose proof (foreach_col_length (co_NL r)). lia. }
  destruct (update_ok ex_c 5 ov_mem ex_L co_NB ov_R ov_D fw_M fw_N fw_overlapped ex_L co_NL _ _ _ _ _ act HF HL) as (S' & C & G).
  set (e := Entry (T3 2 1 0) (T3 (1 # 2) 0 0)%Q (T3 0 0 0)). assert (He : In e (ov_D 4)) by (left; reflexivity).
  exists ex_c, 5%nat, ov_mem, ex_L, co_NB, ov_R, ov_D, fw_M, fw_N, ex_L, co_NL. do 5 eexists. exists act, S', 4%nat, e.
  split; [exact fw_overlapped|]. split; [exact HF|]. split; [exact HL|]. split; [exact C|]. split; [lia|]. split; [exact He|]. split.
  - unfold act. apply field_at. apply fw_points; [lia|exact He].
  - destruct (G 4%nat ltac:(lia)) as (_ & _ & G1 & _). destruct (G1 e He) as (v & Hv & Tv). rewrite Hv. f_equal. apply Tv. reflexivity.
Qed.
