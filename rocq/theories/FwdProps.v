(** C85: values sent over an overlap (statements; see DESIGN.md). *)
From Coq Require Import List ZArith QArith Bool.
From Verif Require Import TupleModel RangeModel RangeProof CartModel IndexerModel ArrayModel HashModel NetModel NetSpec DDecompProof SendModel SendSpec CollectModel CollectSpec CollectProof CollectLaws CellModel HaloEx.
From Verif Require Import PipeModel PipeSpec OvlModel OvlSpec OvlEx ConModel ConSpec ConEx FwdModel FwdSpec FwdProof FwdLaws FwdEx.
Import ListNotations.
Local Open Scope Z_scope.

(** C85 for masks, with each of the collect operations on flags: in every execution each rank of the N grid ends up
    with a mask that says, at each of its overlapped points, whether the flags of the M grid at the vertices of the cell
    that was found for the point are none, any, not all, or all set; the other points keep their values. *)
Theorem C85_flags : forall c n mem L NB R D M N, overlapped c n mem L NB R D M N ->
  forall FR NR op fields vv m out nfields, fwd_arrays c n mem L FR M N NR (fun _ => red_flag (fun b : bool => b) (fun b => b) op) fields vv m out nfields ->
  exists S', computes n (forward_mask false c n mem M N L FR (fun i => map (fun q => (q, L q)) (NB i)) (fun _ => red_flag (fun b => b) (fun b => b) op) NR)
      (fwd0 mem fields vv out nfields) S' /\
  forall r, (r < n)%nat -> k_field (w_c (S' r)) = at_member mem fields r /\ written (NR r) (D r) (nfields r) (w_n (S' r)) (flag_value op c (m 0)).
Proof. exact forward_flags. Qed.
Print Assumptions C85_flags.

(** C85 for distances: each overlapped point gets the least of the values at the vertices. *)
Theorem C85_least : forall c n mem L NB R D M N, overlapped c n mem L NB R D M N ->
  forall FR NR start fields vv m out nfields, (forall p, m 0 p <= start) ->
  fwd_arrays c n mem L FR M N NR (fun _ => red_min Z.ltb start) fields vv m out nfields ->
  exists S', computes n (forward 0 c n mem M N L FR (fun i => map (fun q => (q, L q)) (NB i)) (fun _ => red_min Z.ltb start)) (fwd0 mem fields vv out nfields) S' /\
  forall r, (r < n)%nat -> k_field (w_c (S' r)) = at_member mem fields r /\
    values_for (D r) (s_out (w_s (S' r))) (fun e v => (exists p, In p (vertices c e) /\ v = m 0 p) /\ forall p, In p (vertices c e) -> v <= m 0 p).
Proof. exact forward_least. Qed.
Print Assumptions C85_least.

(** C85 for volumes: each overlapped point gets the volume of the M grid interpolated at its place in the cell. *)
Theorem C85_volumes : forall c n mem L NB R D M N, overlapped c n mem L NB R D M N ->
  forall FR NR fields vv m out nfields,
  fwd_arrays c n mem L FR M N NR
    (fun i => red_interp Qmult (fun a w v => a + w * v)%Q 0%Q 0%Q (volume_coefs (c_nd c) (match nth_error mem i with Some r => M r | None => [] end)) ColMajor)
    fields vv m out nfields ->
  exists S', computes n (forward_volumes c n mem M N L FR (fun i => map (fun q => (q, L q)) (NB i))) (fwd0 mem fields vv out nfields) S' /\
  forall r, (r < n)%nat -> k_field (w_c (S' r)) = at_member mem fields r /\
    values_for (D r) (s_out (w_s (S' r))) (fun e v => v == interpolated c (m 0%Z) e)%Q.
Proof. exact forward_interpolated. Qed.
Print Assumptions C85_volumes.

(** It is between the least and the greatest volume at the vertices, for a point in the cell. *)
Theorem C85_volume_bounds : forall c f e lo hi, (1 <= c_nd c <= 3)%nat -> (forall d, (d < c_nd c)%nat -> 0 <= tget (e_coords e) d <= 1)%Q ->
  (forall p, In p (vertices c e) -> lo <= f p <= hi)%Q -> (lo <= interpolated c f e <= hi)%Q.
Proof. exact interpolated_bounds. Qed.
Print Assumptions C85_volume_bounds.

(** The overlap mask after points of the grids became inactive: at a point with a cell it says whether all vertices of
    the cell are active.  Elsewhere it stays as it was, where the point is active. *)
Theorem C85_update : forall c n mem L NB R D M N, overlapped c n mem L NB R D M N ->
  forall FR NR fields vv m out nfields act, fwd_arrays c n mem L FR M N NR (fun _ => red_all (fun b : bool => b) (fun b => b)) fields vv m out nfields ->
  (forall r, (r < n)%nat -> length (act r) = Z.to_nat (rcount (NR r))) ->
  exists S', computes n (update_overlap c n mem M N L FR (fun i => map (fun q => (q, L q)) (NB i)) NR act) (fwd0 mem fields vv out nfields) S' /\
  forall r, (r < n)%nat -> k_field (w_c (S' r)) = at_member mem fields r /\ shaped 1 (Z.to_nat (rcount (NR r))) (w_n (S' r)) /\
    (forall e, In e (D r) -> exists v, vals_at (w_n (S' r)) 0 (rindex ColMajor (NR r) (e_point e)) = Some v /\ (v = true <-> forall p, In p (vertices c e) -> m 0 p = true)) /\
    (forall p, pt_in (NR r) p -> ~ In p (map e_point (D r)) -> exists a b, vals_at (nfields r) 0 (rindex ColMajor (NR r) p) = Some a /\
       vread (act r) (rindex ColMajor (NR r) p) = Some b /\ vals_at (w_n (S' r)) 0 (rindex ColMajor (NR r) p) = Some (a && b)).
Proof. exact update_ok. Qed.
Print Assumptions C85_update.

(** So a point that is inactive itself is marked as overlapped again, although the mask had just been cleared there. *)
Theorem C85_inactive_refuted : exists c n mem L NB R D M N FR NR fields vv m out nfields act S' r e,
  overlapped c n mem L NB R D M N /\ fwd_arrays c n mem L FR M N NR (fun _ => red_all (fun b : bool => b) (fun b => b)) fields vv m out nfields /\
  (forall r, (r < n)%nat -> length (act r) = Z.to_nat (rcount (NR r))) /\
  computes n (update_overlap c n mem M N L FR (fun i => map (fun q => (q, L q)) (NB i)) NR act) (fwd0 mem fields vv out nfields) S' /\
  (r < n)%nat /\ In e (D r) /\ vread (act r) (rindex ColMajor (NR r) (e_point e)) = Some false /\
  vals_at (w_n (S' r)) 0 (rindex ColMajor (NR r) (e_point e)) = Some true.
Proof. exact inactive_overlapped. Qed.
Print Assumptions C85_inactive_refuted.

(** Five ranks; the M grid on four of them in an order of its own, three points on the others; one cell is shared by four
    ranks, one lies across the periodic boundary. *)
Example C85_example : overlapped ex_c 5 ov_mem ex_L co_NB ov_R ov_D fw_M fw_N /\
  fwd_arrays ex_c 5 ov_mem ex_L ex_L fw_M fw_N co_NL fw_red (fun i => field_of (ex_L i) fw_vol) (fw_work 0%Q) (fun _ => fw_vol)
    (fun r => [repeat 0%Q (length (fw_N r))]) (fun r => field_of (co_NL r) (fun _ => 0%Q)) /\
  match final 5 (forward_volumes ex_c 5 ov_mem fw_M fw_N ex_L ex_L (fun i => map (fun q => (q, ex_L q)) (co_NB i))) 8 2000
      (fwd0 ov_mem (fun i => field_of (ex_L i) fw_vol) (fw_work 0%Q) (fun r => [repeat 0%Q (length (fw_N r))]) (fun r => field_of (co_NL r) (fun _ => 0%Q))) with
  | Some s => map (fun r => map (map Qred) (s_out (w_s (n_st s r)))) (seq 0 5) = [[[]]; [[2]]; [[]]; [[]]; [[7 # 2; 6]]]%Q
  | None => False
  end.
Proof. exact fw_example. Qed.
