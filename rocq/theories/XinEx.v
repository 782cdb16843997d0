(** Examples of XINTOUT files. *)
From Coq Require Import List ZArith Bool Lia.
From Verif Require Import TupleModel XinModel XinSpec XinBytes XinChunk XinMain XinFile.
Import ListNotations.
Local Open Scope Z_scope.

Definition ex_donor (c s : tup Z) (a : Z) : donor :=
  Donor c s (T3 a (a + 1) (a + 2)) (T3 (map (fun i => Z.of_nat i + a) (seq 5 (Z.to_nat (c0 s)))) (map (fun i => Z.of_nat i + a) (seq 7 (Z.to_nat (c1 s)))) (map (fun i => Z.of_nat i + a) (seq 9 (Z.to_nat (c2 s))))).
Definition ex_grid1 : grid_data := GridData (T3 5 4 1)
  [ex_donor (T3 0 1 0) (T3 2 2 1) 1000; ex_donor (T3 (-1) 1 0) (T3 2 1 1) 2000; ex_donor (T3 3 1 0) (T3 3 3 1) 4611686018427387904]
  [Receiver (T3 4 0 0) 3] 0 0 (T3 1 1 1) (repeat 0 20).
Definition ex_grid2 : grid_data := GridData (T3 3 3 1) [ex_donor (T3 0 1 0) (T3 2 2 1) 17]
  [Receiver (T3 2 0 0) 0; Receiver (T3 2 1 0) 1; Receiver (T3 2 2 0) 2] 3 0 (T3 1 1 1) (repeat 1 9).
Definition ex_domain : list (tup Z * Z) := [(T3 5 4 1, 8); (T3 3 3 1, 3)].
Definition ex_grids : list grid_data := [ex_grid1; ex_grid2].
Definition ex_other : list Z := [7; -1; 0; 12].

(** A grid of seven points before another one, without blanking. *)
Definition seven_grid : grid_data := GridData (T3 7 1 1) [ex_donor (T3 0 0 0) (T3 2 1 1) 5] [Receiver (T3 6 0 0) 1] 0 0 (T3 1 1 1) (repeat 0 7).
Definition after_grid : grid_data := GridData (T3 9 1 1) [ex_donor (T3 0 0 0) (T3 2 1 1) 5] [Receiver (T3 8 0 0) 0] 1 0 (T3 1 1 1) (repeat 0 9).
(** Five donors on a grid of sixteen points with four ranks, and eight ranks. *)
Definition five_grid : grid_data := GridData (T3 4 1 1) (map (fun k => ex_donor (T3 (Z.of_nat k) 0 0) (T3 2 1 1) (Z.of_nat k)) (seq 0 5))
  (map (fun k => Receiver (T3 (Z.of_nat k mod 4) 0 0) (Z.of_nat k)) (seq 0 5)) 0 0 (T3 1 1 1) (repeat 0 4).
Ltac okay := repeat match goal with |- _ /\ _ => split | |- Forall _ (_ :: _) => apply Forall_cons | |- Forall _ [] => apply Forall_nil end.
Lemma ex_donor_ok c s a : int_ok (c0 c + 1) -> int_ok (c1 c + 1) -> int_ok (c2 c + 1) -> 0 <= c0 s < 100 -> 0 <= c1 s < 100 -> 0 <= c2 s < 100 -> 0 <= a < 2 ^ 63 -> donor_ok (ex_donor c s a).
Proof.
  intros A1 A2 A3 A4 A5 A6 A7. unfold donor_ok, ex_donor; cbn [d_cell d_size d_coords d_coefs]. unfold tup_ok, bits_ok; cbn [c0 c1 c2]; cbv beta.
  assert (P : 2 ^ 64 = 2 ^ 63 + 2 ^ 63) by reflexivity. assert (P' : 1000 < 2 ^ 63) by reflexivity. assert (P2 : 1000 < 2 ^ 31) by reflexivity.
  repeat match goal with |- _ /\ _ => split end; auto; try lia;
    try (apply Forall_map, Forall_forall; intros i Hi; apply in_seq in Hi; lia); unfold len; rewrite map_length, seq_length; lia.
Qed.
Lemma ex_grid_ok fmt iblank g : (fmt = EXTENDED -> iblank = false) -> Forall donor_ok (g_donors g) -> Forall (fun r => tup_ok (fun v => 0 <= v < 100) (r_point r) /\ 0 <= r_connection r < 100) (g_receivers g) ->
  tup_ok (fun v => 0 <= v < 100) (g_size g) -> 0 <= g_first g < 100 -> 0 <= g_other g < 100 -> len (g_donors g) < 100 -> len (g_receivers g) < 100 -> len (coefs_of g) < 100 ->
  len (g_blank g) = num_points (g_size g) -> grid_ok fmt iblank g.
Proof.
  intros H HD HR (S0 & S1 & S2) H1 H2 H3 H4 H5 H6. pose proof (len_nonneg (g_donors g)). pose proof (len_nonneg (g_receivers g)). pose proof (len_nonneg (coefs_of g)).
  assert (X : forall v, 0 <= v <= 1000 -> id_ok fmt v) by (intros v Hv; destruct fmt; unfold id_ok, int_ok, long_ok; lia).
  split; [exact HD|]. split.
  { eapply Forall_impl; [|exact HR]. intros r ((R0 & R1 & R2) & R3). split; [unfold tup_ok, int_ok; lia|]. apply X; lia. }
  cbv beta in S0, S1, S2. split; [unfold tup_ok, int_ok; lia|]. split; [apply X; lia|]. split; [apply X; lia|]. split; [apply X; lia|]. split; [apply X; lia|].
  destruct fmt; [split; [lia|]; intros _; split; auto; rewrite H6; unfold num_points; assert (c0 (g_size g) * c1 (g_size g) <= 99 * 99) by nia; assert (c0 (g_size g) * c1 (g_size g) * c2 (g_size g) <= 99 * 99 * 99) by nia; lia|]. split; [unfold long_ok; lia|auto].
Qed.
Ltac ex_grid := apply ex_grid_ok;
  [solve [auto | discriminate]
  |match goal with |- Forall _ ?l => let x := eval cbv [g_donors ex_grid1 ex_grid2 seven_grid after_grid five_grid] in l in let y := eval cbn [map seq] in x in change l with y end;
   okay; apply ex_donor_ok; unfold int_ok; cbn; lia
  |match goal with |- Forall _ ?l => let x := eval cbv [g_receivers ex_grid1 ex_grid2 seven_grid after_grid five_grid] in l in let y := eval cbn [map seq] in x in change l with y end;
   okay; unfold tup_ok; cbn; lia
  |unfold tup_ok; cbn; lia|cbn; lia|cbn; lia|cbn; lia|cbn; lia|vm_compute; reflexivity|reflexivity].
Lemma ex_ok fmt iblank : (fmt = EXTENDED -> iblank = false) -> file_ok fmt iblank ex_other ex_grids.
Proof.
  intros H. split; [|split; [reflexivity|split; [unfold int_ok; cbn; lia|destruct fmt, iblank; cbn; lia || exact I]]].
  unfold ex_grids. okay; ex_grid.
Qed.
Lemma ex_matches : matches ex_grids ex_domain.
Proof. unfold matches. repeat apply Forall2_cons; try apply Forall2_nil; cbn; repeat split; lia. Qed.

Lemma in_parts_eq count d adjust n c : in_parts count d adjust n c -> option_map (fun r => (snd (fst r), snd r)) (chunkify count (snd d) (bin_divide (num_points (fst d)) (snd d)) adjust) = Some (n, c).
Proof. intros (i & ->). reflexivity. Qed.
Ltac small_parts := intros [|[|[|[|[|[|[|[|k]]]]]]]] Hk; vm_compute in Hk; try (exfalso; lia); lazymatch goal with |- _ /\ _ => (split; [vm_compute; reflexivity|]; intros [|[|[|d]]] Hd; [vm_compute; reflexivity|vm_compute; reflexivity|vm_compute; reflexivity|exfalso; lia]) | |- _ => vm_compute; reflexivity end.
Lemma ex_readable : readable ex_grids ex_domain 0.
Proof.
  unfold readable. repeat apply Forall2_cons; try apply Forall2_nil; split; intros n c H; apply in_parts_eq in H; vm_compute in H; injection H as <- <-;
    (split; [unfold fits; cbn; lia|small_parts]).
Qed.
Example ex_parts : in_parts (len (g_donors ex_grid1)) (T3 5 4 1, 8) 0 1 3.
Proof. eexists; reflexivity. Qed.
Example ex_read m e fmt iblank : (fmt = EXTENDED -> iblank = false) -> exists L,
  read_xintout m ex_domain 0 (ho_file fmt e iblank ex_other ex_grids) (x_file fmt e ex_other ex_grids) = Done L /\
  concat (map dc_data (fst (nth 0 L ([], [])))) = map donor_read (g_donors ex_grid1) /\ concat (map rc_data (snd (nth 1 L ([], [])))) = map receiver_read (g_receivers ex_grid2).
Proof.
  intros H. destruct fmt, iblank; try (now specialize (H eq_refl)); destruct m, e; eexists; (split; [vm_compute; reflexivity|split; reflexivity]).
Qed.

Lemma seven_misread : exists gs domain, Forall (grid_ok STANDARD false) gs /\ matches gs domain /\ readable gs domain 0 /\
  read_xintout LITTLE domain 0 (ho_file STANDARD LITTLE false ex_other gs) (x_file STANDARD LITTLE ex_other gs) = Failed.
Proof.
  exists [seven_grid; after_grid], [(T3 7 1 1, 1); (T3 9 1 1, 1)]. split; [|split; [|split]].
  - okay; ex_grid.
  - unfold matches. repeat apply Forall2_cons; try apply Forall2_nil; cbn; repeat split; lia.
  - unfold readable. repeat apply Forall2_cons; try apply Forall2_nil; split; intros n c H; apply in_parts_eq in H; vm_compute in H; injection H as <- <-;
    (split; [unfold fits; cbn; lia|small_parts]).
  - vm_compute. reflexivity.
Qed.
Lemma short_file : exists m domain ho x, (length ho < 4)%nat /\ read_xintout m domain 0 ho x = Undefined.
Proof. exists LITTLE, [(T3 1 1 1, 1)], [], []. split; [cbn; lia|reflexivity]. Qed.

Lemma refused_file : exists gs domain, file_ok STANDARD false ex_other gs /\ matches gs domain /\
  (forall g, In g gs -> small (len (g_donors g)) /\ small (len (g_receivers g)) /\ small (len (coefs_of g))) /\
  read_xintout LITTLE domain 0 (ho_file STANDARD LITTLE false ex_other gs) (x_file STANDARD LITTLE ex_other gs) = Failed.
Proof.
  exists [five_grid], [(T3 4 1 1, 4)]. split; [|split; [|split]].
  - split; [|split; [reflexivity|split; [unfold int_ok; cbn; lia|cbn; exact I]]].
    okay; ex_grid.
  - unfold matches. repeat apply Forall2_cons; try apply Forall2_nil; cbn; repeat split; lia.
  - intros g [<-|[]]. repeat split; vm_compute; reflexivity.
  - vm_compute. reflexivity.
Qed.
Example refused_parts : in_parts 5 (T3 4 1 1, 4) 0 4 2 /\ ~ fits 5 2 4.
Proof. split; [eexists; reflexivity|unfold fits; lia]. Qed.
