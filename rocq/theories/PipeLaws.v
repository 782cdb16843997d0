(** Interpolation in an exchange: what the receivers get. *)
From Coq Require Import List ZArith Bool Lia Reals Lra.
From Verif Require Import TupleModel RangeModel RangeProof CartModel CartProof IndexerModel IndexerProof ArrayModel HashModel NetModel NetSpec NetProof.
From Verif Require Import FieldSpec SendModel SendSpec SendLaws DisperseModel CollectModel CollectSpec CollectProof CollectLaws.
From Verif Require Import Base SendProof XchModel XchSpec EmbedModel PipeModel PipeSpec PipeProof MathModel MathProof.
Import ListNotations.
Local Open Scope Z_scope.

(** ** Sums *)

Definition rsum {A} (l : list A) (f : A -> R) : R := fold_right (fun x a => f x + a)%R 0%R l.

Lemma rsum_nil {A} (f : A -> R) : rsum [] f = 0%R.
Proof. reflexivity. Qed.
Lemma rsum_cons {A} (x : A) l f : (rsum (x :: l) f = f x + rsum l f)%R.
Proof. reflexivity. Qed.
Lemma rsum_app {A} (l l' : list A) f : (rsum (l ++ l') f = rsum l f + rsum l' f)%R.
Proof. induction l as [|x l IH]; [rewrite rsum_nil; cbn [app]; ring|]. cbn [app]. rewrite !rsum_cons, IH. ring. Qed.
Lemma rsum_ext {A} (l : list A) f g : (forall x, In x l -> f x = g x) -> rsum l f = rsum l g.
Proof. induction l as [|x l IH]; intros H; [reflexivity|]. rewrite !rsum_cons, (H x (in_eq _ _)), IH; [reflexivity|]. intros y I. apply H. right. exact I. Qed.
Lemma rsum_scale {A} (l : list A) f a : (rsum l (fun x => a * f x) = a * rsum l f)%R.
Proof. induction l as [|x l IH]; [rewrite !rsum_nil; ring|]. rewrite !rsum_cons, IH. ring. Qed.
Lemma rsum_flat {A B} (l : list A) (g : A -> list B) f : rsum (flat_map g l) f = rsum l (fun x => rsum (g x) f).
Proof. induction l as [|x l IH]; [reflexivity|]. cbn [flat_map]. rewrite rsum_app, IH. reflexivity. Qed.
Lemma rsum_map {A B} (l : list A) (g : A -> B) f : rsum (map g l) f = rsum l (fun x => f (g x)).
Proof. induction l as [|x l IH]; [reflexivity|]. cbn [map]. rewrite !rsum_cons, IH. reflexivity. Qed.
Lemma rsum_add {A} (l : list A) f g : (rsum l (fun x => f x + g x) = rsum l f + rsum l g)%R.
Proof. induction l as [|x l IH]; [rewrite !rsum_nil; ring|]. rewrite !rsum_cons, IH. ring. Qed.
Lemma rsum_zero {A} (l : list A) : rsum l (fun _ => 0%R) = 0%R.
Proof. induction l as [|x l IH]; [reflexivity|]. rewrite rsum_cons, IH. ring. Qed.
Lemma rsum_swap {A B} (l : list A) (l' : list B) f : rsum l (fun x => rsum l' (f x)) = rsum l' (fun y => rsum l (fun x => f x y)).
Proof.
  induction l as [|x l IH]; [rewrite rsum_nil; symmetry; apply rsum_zero|]. rewrite rsum_cons, IH, <- rsum_add. apply rsum_ext. intros y _. rewrite rsum_cons. reflexivity.
Qed.
Lemma rsum_fold {A} (l : list A) f : forall a, fold_left (fun a x => a + f x)%R l a = (a + rsum l f)%R.
Proof. induction l as [|x l IH]; intros a; [rewrite rsum_nil; cbn [fold_left]; ring|]. cbn [fold_left]. rewrite IH, rsum_cons. ring. Qed.

(** The sum over a cell of a product is the product of the sums over its sides. *)
Lemma rsum_cell lay cell (a b d : Z -> R) : (rsum (in_order lay cell) (fun p => a (c0 p) * b (c1 p) * d (c2 p)) =
  rsum (zrange (c0 (rb cell)) (c0 (re cell))) a * rsum (zrange (c1 (rb cell)) (c1 (re cell))) b * rsum (zrange (c2 (rb cell)) (c2 (re cell))) d)%R.
Proof.
  destruct lay; unfold in_order, foreach_row, foreach_col; rewrite rsum_flat.
  - transitivity (rsum (zrange (c0 (rb cell)) (c0 (re cell))) (fun i => (rsum (zrange (c1 (rb cell)) (c1 (re cell))) b * rsum (zrange (c2 (rb cell)) (c2 (re cell))) d) * a i)%R); [|rewrite rsum_scale; ring].
    apply rsum_ext. intros i _. rewrite rsum_flat.
    transitivity (rsum (zrange (c1 (rb cell)) (c1 (re cell))) (fun j => (a i * rsum (zrange (c2 (rb cell)) (c2 (re cell))) d) * b j)%R); [|rewrite rsum_scale; ring].
    apply rsum_ext. intros j _. rewrite rsum_map. cbn [c0 c1 c2]. rewrite rsum_scale. ring.
  - transitivity (rsum (zrange (c2 (rb cell)) (c2 (re cell))) (fun i => (rsum (zrange (c1 (rb cell)) (c1 (re cell))) b * rsum (zrange (c0 (rb cell)) (c0 (re cell))) a) * d i)%R); [|rewrite rsum_scale; ring].
    apply rsum_ext. intros i _. rewrite rsum_flat.
    transitivity (rsum (zrange (c1 (rb cell)) (c1 (re cell))) (fun j => (d i * rsum (zrange (c0 (rb cell)) (c0 (re cell))) a) * b j)%R); [|rewrite rsum_scale; ring].
    apply rsum_ext. intros j _. rewrite rsum_map. cbn [c0 c1 c2].
    rewrite (rsum_ext _ _ (fun x => (b j * d i) * a x)%R); [rewrite rsum_scale; ring|]. intros; ring.
Qed.

(** ** One side of a cell *)

Definition coef (ct : connection) (nd : nat) (u : nat -> R) (d : nat) (o : Z) : R := match interp_coefs ct nd u d o with Some x => x | None => 0%R end.

Lemma coef_ok ct nd u d o : 0 <= o < stencil_size ct -> interp_coefs ct nd u d o = Some (coef ct nd u d o).
Proof. intros H. unfold coef, interp_coefs. destruct (Z.leb_spec 0 o); [|lia]. destruct (Z.ltb_spec o (stencil_size ct)); [reflexivity|lia]. Qed.

Lemma stencil_pos ct : 1 <= stencil_size ct.
Proof. destruct ct; cbn; lia. Qed.

Lemma zrange_1 b : zrange b (b + 1) = [b].
Proof. unfold zrange. replace (b + 1 - b) with 1 by lia. reflexivity. Qed.
Lemma zrange_2 b : zrange b (b + 2) = [b; b + 1].
Proof. unfold zrange. replace (b + 2 - b) with 2 by lia. reflexivity. Qed.
Lemma zrange_4 b : zrange b (b + 4) = [b; b + 1; b + 2; b + 3].
Proof. unfold zrange. replace (b + 4 - b) with 4 by lia. change (zseq b (Z.to_nat 4)) with [b; b + 1; b + 1 + 1; b + 1 + 1 + 1]. replace (b + 1 + 1) with (b + 2) by lia. replace (b + 2 + 1) with (b + 3) by lia. reflexivity. Qed.

Lemma side_pow ct nd u cell d i : fits_stencil ct nd cell -> (d < 3)%nat -> (i <= exact_degree ct)%nat ->
  rsum (zrange (tget (rb cell) d) (tget (re cell) d)) (fun x => coef ct nd u d (x - tget (rb cell) d) * IZR x ^ i)%R = (located ct nd cell u d ^ i)%R.
Proof.
  intros F Hd Hi. rewrite (F d Hd). set (b := tget (rb cell) d). unfold located. fold b. unfold coef, interp_coefs. destruct (Nat.ltb d nd) eqn:E.
  - destruct ct; cbn [stencil_size exact_degree] in *.
    + rewrite zrange_2, !rsum_cons, rsum_nil. replace (b - b) with 0 by lia. replace (b + 1 - b) with 1 by lia.
      replace i with 0%nat by lia. rewrite !pow_O. cbn [Z.leb Z.ltb Z.eqb Z.compare Pos.compare Pos.compare_cont andb]. destruct (Rle_dec (u d) (1 / 2)); ring.
    + rewrite zrange_2, !rsum_cons, rsum_nil. replace (b - b) with 0 by lia. replace (b + 1 - b) with 1 by lia.
      cbn [Z.leb Z.ltb Z.eqb Z.compare Pos.compare Pos.compare_cont andb interp_linear x0 x1]. rewrite plus_IZR.
      destruct i as [|[|i]]; [rewrite !pow_O; ring|rewrite !pow_1; ring|lia].
    + rewrite zrange_4, !rsum_cons, rsum_nil. replace (b - b) with 0 by lia. replace (b + 1 - b) with 1 by lia. replace (b + 2 - b) with 2 by lia. replace (b + 3 - b) with 3 by lia.
      cbn [Z.leb Z.ltb Z.eqb Z.compare Pos.compare Pos.compare_cont Pos.eqb andb interp_cubic w0 w1 w2 w3]. rewrite !plus_IZR. unfold pow.
      destruct i as [|[|[|[|i]]]]; [field|field|field|field|lia].
  - rewrite zrange_1, rsum_cons, rsum_nil. replace (b - b) with 0 by lia. destruct ct; cbn [stencil_size Z.leb Z.ltb Z.eqb Z.compare andb]; ring.
Qed.

Lemma cell_poly ct nd u lay cell P : fits_stencil ct nd cell -> pdegree (exact_degree ct) P ->
  (rsum (in_order lay cell) (fun p => coef ct nd u 0 (c0 p - c0 (rb cell)) * coef ct nd u 1 (c1 p - c1 (rb cell)) * coef ct nd u 2 (c2 p - c2 (rb cell)) *
     peval P (IZR (c0 p)) (IZR (c1 p)) (IZR (c2 p))) = peval P (located ct nd cell u 0) (located ct nd cell u 1) (located ct nd cell u 2))%R.
Proof.
  intros F D.
  change (rsum (in_order lay cell) (fun p => coef ct nd u 0 (c0 p - c0 (rb cell)) * coef ct nd u 1 (c1 p - c1 (rb cell)) * coef ct nd u 2 (c2 p - c2 (rb cell)) *
     rsum P (fun t => fst t * (IZR (c0 p) ^ fst (fst (snd t)) * IZR (c1 p) ^ snd (fst (snd t)) * IZR (c2 p) ^ snd (snd t)))) =
     rsum P (fun t => fst t * (located ct nd cell u 0 ^ fst (fst (snd t)) * located ct nd cell u 1 ^ snd (fst (snd t)) * located ct nd cell u 2 ^ snd (snd t))))%R.
  rewrite (rsum_ext _ _ (fun p => rsum P (fun t => fst t * ((coef ct nd u 0 (c0 p - c0 (rb cell)) * IZR (c0 p) ^ fst (fst (snd t))) *
    (coef ct nd u 1 (c1 p - c1 (rb cell)) * IZR (c1 p) ^ snd (fst (snd t))) * (coef ct nd u 2 (c2 p - c2 (rb cell)) * IZR (c2 p) ^ snd (snd t)))))%R)
    by (intros p _; rewrite <- rsum_scale; apply rsum_ext; intros t _; ring).
  rewrite rsum_swap. apply rsum_ext. intros t It. destruct (D t It) as (D0 & D1 & D2). rewrite rsum_scale. f_equal.
  rewrite (rsum_cell lay cell (fun x => coef ct nd u 0 (x - c0 (rb cell)) * IZR x ^ fst (fst (snd t)))%R (fun x => coef ct nd u 1 (x - c1 (rb cell)) * IZR x ^ snd (fst (snd t)))%R
    (fun x => coef ct nd u 2 (x - c2 (rb cell)) * IZR x ^ snd (snd t))%R).
  f_equal; [f_equal|].
  - exact (side_pow ct nd u cell 0 _ F ltac:(lia) D0).
  - exact (side_pow ct nd u cell 1 _ F ltac:(lia) D1).
  - exact (side_pow ct nd u cell 2 _ F ltac:(lia) D2).
Qed.

Lemma rsum_single {A} (l : list A) (x : A) f : NoDup l -> In x l -> (forall y, In y l -> y <> x -> f y = 0%R) -> rsum l f = f x.
Proof.
  induction l as [|a l IH]; intros N I H; [destruct I|]. inversion N as [|a' l' Na Nl]; subst. rewrite rsum_cons. destruct I as [->|I].
  - rewrite (rsum_ext _ _ (fun _ => 0%R)), rsum_zero; [ring|]. intros y Iy. apply H; [right; exact Iy|]. intros ->. contradiction.
  - rewrite IH; [|exact Nl|exact I|intros y Iy; apply H; right; exact Iy]. rewrite (H a (in_eq _ _)); [ring|]. intros ->. contradiction.
Qed.

Lemma near_coef nd u cell d x : fits_stencil NEAREST nd cell -> (d < 3)%nat -> tget (rb cell) d <= x < tget (re cell) d ->
  coef NEAREST nd u d (x - tget (rb cell) d) = if x =? tget (nearest nd cell u) d then 1%R else 0%R.
Proof.
  intros F Hd H. rewrite (F d Hd) in H. cbn [stencil_size] in H. unfold coef, interp_coefs, nearest.
  assert (E : forall g : nat -> Z, tget (tmake g) d = g d) by (intros g; destruct d as [|[|[|d]]]; [reflexivity|reflexivity|reflexivity|lia]). rewrite E.
  destruct (Nat.ltb d nd); cbn [stencil_size] in *; (destruct (Z.leb_spec 0 (x - tget (rb cell) d)); [|lia]); (destruct (Z.ltb_spec (x - tget (rb cell) d) 2); [|lia]); cbn [andb].
  - destruct (Rle_dec (u d) (1 / 2)).
    + destruct (Z.eqb_spec (x - tget (rb cell) d) 0), (Z.eqb_spec x (tget (rb cell) d)); reflexivity || lia.
    + destruct (Z.eqb_spec (x - tget (rb cell) d) 0), (Z.eqb_spec x (tget (rb cell) d + 1)); reflexivity || lia.
  - destruct (Z.eqb_spec (x - tget (rb cell) d) 0), (Z.eqb_spec x (tget (rb cell) d)); reflexivity || lia.
Qed.

Lemma nearest_in nd u cell : fits_stencil NEAREST nd cell -> pt_in cell (nearest nd cell u).
Proof.
  intros F. pose proof (F 0%nat ltac:(lia)) as F0. pose proof (F 1%nat ltac:(lia)) as F1. pose proof (F 2%nat ltac:(lia)) as F2. unfold pt_in, nearest, tmake. cbn [tget c0 c1 c2 stencil_size] in *.
  destruct (Nat.ltb 0 nd), (Nat.ltb 1 nd), (Nat.ltb 2 nd); repeat (destruct (Rle_dec _ _)); lia.
Qed.

Lemma cell_nearest nd u lay cell f : fits_stencil NEAREST nd cell ->
  (rsum (in_order lay cell) (fun p => coef NEAREST nd u 0 (c0 p - c0 (rb cell)) * coef NEAREST nd u 1 (c1 p - c1 (rb cell)) * coef NEAREST nd u 2 (c2 p - c2 (rb cell)) * f p) =
    f (nearest nd cell u))%R.
Proof.
  intros F. pose proof (nearest_in nd u cell F) as NI.
  assert (E : forall p, pt_in cell p -> (coef NEAREST nd u 0 (c0 p - c0 (rb cell)) * coef NEAREST nd u 1 (c1 p - c1 (rb cell)) * coef NEAREST nd u 2 (c2 p - c2 (rb cell)) * f p =
    (if c0 p =? c0 (nearest nd cell u) then 1 else 0) * (if c1 p =? c1 (nearest nd cell u) then 1 else 0) * (if c2 p =? c2 (nearest nd cell u) then 1 else 0) * f p)%R).
  { intros p (P0 & P1 & P2). change (c0 (rb cell)) with (tget (rb cell) 0). change (c1 (rb cell)) with (tget (rb cell) 1). change (c2 (rb cell)) with (tget (rb cell) 2). rewrite (near_coef nd u cell 0 (c0 p) F ltac:(lia) P0), (near_coef nd u cell 1 (c1 p) F ltac:(lia) P1), (near_coef nd u cell 2 (c2 p) F ltac:(lia) P2). reflexivity. }
  rewrite (rsum_single _ (nearest nd cell u)).
  - rewrite E by exact NI. rewrite !Z.eqb_refl. ring.
  - apply (NoDup_map_inv (rindex lay cell)). rewrite rindex_order. apply zseq_NoDup.
  - apply in_order_In, NI.
  - intros p Ip Ne. rewrite E by (apply in_order_In in Ip; exact Ip).
    destruct (Z.eqb_spec (c0 p) (c0 (nearest nd cell u))), (Z.eqb_spec (c1 p) (c1 (nearest nd cell u))), (Z.eqb_spec (c2 p) (c2 (nearest nd cell u))); try ring.
    exfalso. apply Ne. destruct p, (nearest nd cell u); cbn in *; congruence.
Qed.

(** ** The receivers *)

Theorem exchange_computes V cnt (junk : V) ssort rsort grids R n ms ns id lay c mem L FR N cells red nlay NR fields vv m out nfields :
  0 <= cnt -> (0 < n)%nat -> 0 < total_points grids ->
  exchangeable grids n ms ns id R mem L cells NR ->
  distributed c (length mem) L N cells ->
  (forall i cell, (i < length mem)%nat -> In cell (cells i) -> lay = ColMajor \/ whole c (L i) cell) ->
  (forall i, (i < length mem)%nat ->
     has_values lay cnt (L i) (FR i) (fields i) m /\ Z.of_nat (length (vv i)) = cnt * max_vertices (cells i) /\ reduces (red i) (cells i)) ->
  (forall r, (r < n)%nat -> sorts (ssort r) /\ sorts (rsort r)) ->
  (forall r, (r < n)%nat -> shaped cnt (length (n_points id (ns r))) (out r)) ->
  (forall r, (r < n)%nat -> shaped cnt (Z.to_nat (rcount (NR r))) (nfields r)) ->
  exists S',
    computes n (exchange cnt junk ssort rsort grids R n ms ns id lay c mem L FR (fun i => map (fun q => (q, L q)) (N i)) cells red nlay NR)
      (start ms ns mem fields vv out nfields) S' /\
    forall r, (r < n)%nat -> k_field (p_c (S' r)) = at_member mem fields r /\
      forall p, pt_in (NR r) p ->
        (receiver_at (ns r) id p -> exists i j cell, donor_of ms id mem L cells p i j cell /\
           forall q, 0 <= q < cnt -> vals_at (p_n (S' r)) q (rindex nlay (NR r) p) =
             red i j cell (map (fun u => m q (home c cell u)) (in_order lay cell))) /\
        (~ receiver_at (ns r) id p -> forall q, 0 <= q < cnt ->
           vals_at (p_n (S' r)) q (rindex nlay (NR r) p) = vals_at (nfields r) q (rindex nlay (NR r) p)).
Proof.
  intros HC Hn Ht HX HD HW HM HS HO HF.
  destruct (exchange_prog cnt junk ssort rsort grids R n ms ns id lay c mem L FR N cells red nlay NR fields vv m out nfields HC Hn Ht HX HD HW HM HS HO HF) as (S' & PO & H).
  exists S'. split; [apply prog_computes, PO|]. intros r Hr. destruct (H r Hr) as (H1 & _ & H2). split; assumption.
Qed.

Section Interp.
Variables (cnt : Z) (junk : R) (ssort rsort : nat -> list Z -> list Z) (grids : list (Z * range)) (gr : range) (n : nat)
  (ms : nat -> list mconn) (ns : nat -> list nconn) (id : Z * Z) (lay : layout) (c : cart) (mem : list nat) (L FR : nat -> range)
  (N : nat -> list nat) (cells : nat -> list range) (nlay : layout) (NR : nat -> range)
  (fields : nat -> list (list R)) (vv : nat -> list R) (m : Z -> tup Z -> R) (out nfields : nat -> list (list R))
  (ct : connection) (nd : nat) (coords : nat -> Z -> nat -> R).
Notation k := (length mem).
Hypothesis HC : 0 <= cnt.
Hypothesis Hn : (0 < n)%nat.
Hypothesis Ht : 0 < total_points grids.
Hypothesis HX : exchangeable grids n ms ns id gr mem L cells NR.
Hypothesis HD : distributed c k L N cells.
Hypothesis HW : forall i cell, (i < k)%nat -> In cell (cells i) -> lay = ColMajor \/ whole c (L i) cell.
Hypothesis HM : forall i, (i < k)%nat -> has_values lay cnt (L i) (FR i) (fields i) m /\ Z.of_nat (length (vv i)) = cnt * max_vertices (cells i).
Hypothesis HS : forall r, (r < n)%nat -> sorts (ssort r) /\ sorts (rsort r).
Hypothesis HO : forall r, (r < n)%nat -> shaped cnt (length (n_points id (ns r))) (out r).
Hypothesis HF : forall r, (r < n)%nat -> shaped cnt (Z.to_nat (rcount (NR r))) (nfields r).
Hypothesis HI : forall i cell, (i < k)%nat -> In cell (cells i) -> fits_stencil ct nd cell.

Definition interp_red (i : nat) : Z -> range -> list R -> option R :=
  red_interp Rmult (fun a w v => (a + w * v)%R) 0%R junk (fun d o j => interp_coefs ct nd (coords i j) d o) lay.

Lemma interp_sum i j cell f : (i < k)%nat -> In cell (cells i) ->
  interp_red i j cell (map f (in_order lay cell)) =
  Some (rsum (in_order lay cell) (fun p => coef ct nd (coords i j) 0 (c0 p - c0 (rb cell)) * coef ct nd (coords i j) 1 (c1 p - c1 (rb cell)) *
    coef ct nd (coords i j) 2 (c2 p - c2 (rb cell)) * f p)%R).
Proof.
  intros Hi Ic. unfold interp_red. pose proof (HI i cell Hi Ic) as F. pose proof (stencil_pos ct) as SP.
  assert (B : forall d, (d < 3)%nat -> tget (re cell) d <= tget (rb cell) d + stencil_size ct) by (intros d Hd; rewrite (F d Hd); destruct (Nat.ltb d nd); lia).
  pose proof (B 0%nat ltac:(lia)) as B0. pose proof (B 1%nat ltac:(lia)) as B1. pose proof (B 2%nat ltac:(lia)) as B2. cbn [tget] in B0, B1, B2.
  rewrite (interp_ok _ _ _ _ _ lay j cell (fun p => coef ct nd (coords i j) 0 (c0 p - c0 (rb cell)) * coef ct nd (coords i j) 1 (c1 p - c1 (rb cell)) *
    coef ct nd (coords i j) 2 (c2 p - c2 (rb cell)))%R).
  - rewrite (interp_fold (fun a w v => (a + w * v)%R)), (rsum_fold (in_order lay cell)). f_equal. ring.
  - intros p (P0 & P1 & P2). unfold vertex_coef. rewrite !coef_ok by lia. reflexivity.
  - rewrite map_length. apply in_order_length.
Qed.

Theorem exchange_interp : exists S',
  computes n (exchange cnt junk ssort rsort grids gr n ms ns id lay c mem L FR (fun i => map (fun q => (q, L q)) (N i)) cells interp_red nlay NR)
    (start ms ns mem fields vv out nfields) S' /\
  forall r, (r < n)%nat -> k_field (p_c (S' r)) = at_member mem fields r /\
    forall p, pt_in (NR r) p ->
      (receiver_at (ns r) id p -> exists i j cell, donor_of ms id mem L cells p i j cell /\ forall q, 0 <= q < cnt ->
        (forall P, pdegree (exact_degree ct) P -> (forall u, pt_in cell u -> m q (home c cell u) = peval P (IZR (c0 u)) (IZR (c1 u)) (IZR (c2 u))) ->
          vals_at (p_n (S' r)) q (rindex nlay (NR r) p) = Some (peval P (located ct nd cell (coords i j) 0) (located ct nd cell (coords i j) 1) (located ct nd cell (coords i j) 2))) /\
        (ct = NEAREST -> vals_at (p_n (S' r)) q (rindex nlay (NR r) p) = Some (m q (home c cell (nearest nd cell (coords i j)))))) /\
      (~ receiver_at (ns r) id p -> forall q, 0 <= q < cnt ->
         vals_at (p_n (S' r)) q (rindex nlay (NR r) p) = vals_at (nfields r) q (rindex nlay (NR r) p)).
Proof.
  assert (HM' : forall i, (i < k)%nat -> has_values lay cnt (L i) (FR i) (fields i) m /\ Z.of_nat (length (vv i)) = cnt * max_vertices (cells i) /\ reduces (interp_red i) (cells i)).
  { intros i Hi. destruct (HM i Hi) as [A B]. split; [exact A|]. split; [exact B|]. intros j cell vals Ej Lv. pose proof (vread_In _ _ _ Ej) as Ic.
    unfold interp_red. pose proof (HI i cell Hi Ic) as F. pose proof (stencil_pos ct) as SP.
    assert (Bd : forall d, (d < 3)%nat -> tget (re cell) d <= tget (rb cell) d + stencil_size ct) by (intros d Hd; rewrite (F d Hd); destruct (Nat.ltb d nd); lia).
    pose proof (Bd 0%nat ltac:(lia)) as B0. pose proof (Bd 1%nat ltac:(lia)) as B1. pose proof (Bd 2%nat ltac:(lia)) as B2. cbn [tget] in B0, B1, B2.
    rewrite (interp_ok _ _ _ _ _ lay j cell (fun p => coef ct nd (coords i j) 0 (c0 p - c0 (rb cell)) * coef ct nd (coords i j) 1 (c1 p - c1 (rb cell)) *
      coef ct nd (coords i j) 2 (c2 p - c2 (rb cell)))%R); [discriminate| |exact Lv].
    intros p (P0 & P1 & P2). unfold vertex_coef. rewrite !coef_ok by lia. reflexivity. }
  destruct (exchange_prog cnt junk ssort rsort grids gr n ms ns id lay c mem L FR N cells interp_red nlay NR fields vv m out nfields HC Hn Ht HX HD HW HM' HS HO HF) as (S' & PO & H).
  exists S'. split; [apply prog_computes, PO|]. intros r Hr. destruct (H r Hr) as (H1 & _ & H2). split; [exact H1|].
  intros p Hp. destruct (H2 p Hp) as [Y Z]. split; [|exact Z]. intros Rp. destruct (Y Rp) as (i & j & cell & Dn & Vn). exists i, j, cell. split; [exact Dn|].
  destruct Dn as (r0 & mc & d & Er & _ & _ & _ & _ & Ec & _). assert (Hi : (i < k)%nat) by (apply nth_error_Some; rewrite Er; discriminate).
  pose proof (vread_In _ _ _ Ec) as Ic. pose proof (HI i cell Hi Ic) as F. intros q Hq. rewrite (Vn q Hq), (interp_sum i j cell _ Hi Ic). split.
  - intros P DP EP. f_equal. rewrite <- (cell_poly ct nd (coords i j) lay cell P F DP). apply rsum_ext. intros u Iu. rewrite EP by (apply in_order_In in Iu; exact Iu). reflexivity.
  - intros ->. f_equal. exact (cell_nearest nd (coords i j) lay cell (fun u => m q (home c cell u)) F).
Qed.
End Interp.
