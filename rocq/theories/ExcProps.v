(** Properties of an exchanger that is bound while connectivities change: C81. *)
From Coq Require Import List ZArith NArith Bool Lia.
From Verif Require Import TupleModel RangeModel Base RangeProof IndexerModel ArrayModel ContModel HashModel ProtoModel ProtoSpec NetModel NetSpec DDecompProof.
From Verif Require Import SendModel SendSpec SendProof SendLaws DomainModel DomainSpec.
From Verif Require Import XchModel XchSpec XchMain XchProps ExcModel ExcSpec ExcRun ExcSnap ExcEx.
Import ListNotations.
Local Open Scope Z_scope.

(** C81. n ranks; any legal history of creating and destroying grids and connectivities, editing arrays, binding and
    unbinding the exchanger, creating exchange operations.  The history runs without undefined behaviour and without
    ranks missing each other in a collective call.  While the exchanger is bound it has an entry on a rank for exactly
    the connectivities that exist and whose grid is on the rank.  The operations of a connectivity are those created
    since its last announced edit.  Unless edits of the connectivity are pending, the maps are made from its
    current arrays. *)
Theorem C81_follows : forall t n h, (0 < n)%nat -> elegal_history n h ->
  exists st, erun t n h = Some st /\ let s := espec_run h in
  forall r k, (r < n)%nat ->
  (local_m st r k <> None <-> q_bound s = true /\ In k (s_over (q_d s)) /\ livesb (q_d s) (fst k) r = true) /\
  (local_n st r k <> None <-> q_bound s = true /\ In k (s_over (q_d s)) /\ livesb (q_d s) (snd k) r = true) /\
  (forall l, local_m st r k = Some l -> lm_ops l = q_om s r k /\
    (s_pend (q_d s) k = 0%N -> lm_maps l = Some (map d_lower (q_m s r k), map d_point (q_m s r k), lm_ranks l))) /\
  (forall l, local_n st r k = Some l -> ln_ops l = q_on s r k /\
    (s_pend (q_d s) k = 0%N -> ln_maps l = Some (map r_point (q_n s r k), ln_ranks l))).
Proof. exact follows. Qed.
Print Assumptions C81_follows.

(** C81. The messages of UpdateSourceDestRanks_ (C68) have the outcome that the model of the exchanger takes for
    them. *)
Theorem C81_matching : forall grids n ms ns, (0 < n)%nat -> 0 < total_points grids -> known_points grids n ms ns ->
  exists S', computes n (find_ranks grids n) (fun r => XS0 (ms r) (ns r)) S' /\
  forall r, (r < n)%nat ->
    sd_out (xm (S' r)) = map (fun mc => map (find_dest n ns mc) (mc_donors mc)) (ms r) /\
    sd_out (xn (S' r)) = map (fun nc => map (find_src n ms nc) (nc_receivers nc)) (ns r).
Proof. exact matching. Qed.
Print Assumptions C81_matching.

Example C81_matching_example : known_points xx_grids 3 xx_ms xx_ns /\ 0 < total_points xx_grids /\
  map (fun mc => map (find_dest 3 xx_ns mc) (mc_donors mc)) (xx_ms 0) = [[1; -1; 2]] /\ map (fun nc => map (find_src 3 xx_ms nc) (nc_receivers nc)) (xx_ns 1) = [[1; 0]; [1]].
Proof. split; [apply C68_fitting|]. split; [reflexivity|]. split; reflexivity. Qed.

(** C81. If in addition the connectivities fit together whenever edits end, and edits of extents or points do not end
    without edits of destinations or sources of the same connectivity, then an exchange of a connectivity without
    pending edits ends, in whatever order messages arrive, and gives each receiver the value of its donor; and each
    receiver has one.  No matter what has been created, edited and destroyed before.  Partial: the hypothesis
    [careful] is needed (C81_stale_refuted), at most 2^31 positions. *)
Theorem C81_exchange_partial : forall t n h, (0 < n)%nat -> elegal_history n h ->
  always (consistent t n) espec0 h -> always careful espec0 h ->
  exists st, erun t n h = Some st /\ let s := espec_run h in
  forall k, q_bound s = true -> In k (s_over (q_d s)) -> s_pend (q_d s) k = 0%N ->
  (forall r j y, (r < n)%nat -> livesb (q_d s) (snd k) r = true -> vread (q_n s r k) j = Some y ->
     exists a i d, (a < n)%nat /\ livesb (q_d s) (fst k) a = true /\ vread (q_m s a k) i = Some d /\
       rcontains (t_local t (fst k) a) (d_lower d) = true /\ r_point y = d_point d) /\
  forall V cnt (junk : V) R ssort rsort vals out,
  0 <= cnt ->
  (forall r, (r < n)%nat -> sorts (ssort r) /\ sorts (rsort r)) ->
  (forall r d, (r < n)%nat -> In d (q_m s r k) -> pt_in R (d_point d)) -> (forall r y, (r < n)%nat -> In y (q_n s r k) -> pt_in R (r_point y)) ->
  (forall r, (r < n)%nat -> Z.of_nat (length (dest_ranks st k r)) <= 2 ^ 31 /\ Z.of_nat (length (source_ranks st k r)) <= 2 ^ 31) ->
  (forall r, (r < n)%nat -> shaped cnt (length (dest_ranks st k r)) (vals r) /\ shaped cnt (length (source_ranks st k r)) (out r)) ->
  exists S' out',
  computes n (send_recv cnt junk (dest_ranks st k) (fun r => send_recv_order (ssort r) R (dest_points st k r))
                                 (source_ranks st k) (fun r => send_recv_order (rsort r) R (source_points st k r)))
    (fun r => SS0 (vals r) (out r)) S' /\
  (forall r, (r < n)%nat -> s_out (S' r) = out' r /\ shaped cnt (length (source_ranks st k r)) (out' r)) /\
  (forall a r i j d y c, (a < n)%nat -> (r < n)%nat -> 0 <= c < cnt ->
     livesb (q_d s) (fst k) a = true -> livesb (q_d s) (snd k) r = true ->
     vread (q_m s a k) i = Some d -> rcontains (t_local t (fst k) a) (d_lower d) = true -> vread (q_n s r k) j = Some y -> r_point y = d_point d ->
     vals_at (out' r) c j = vals_at (vals a) c i).
Proof. exact exchange. Qed.
Print Assumptions C81_exchange_partial.

(** Three ranks; grid 1 on ranks 0 and 1, grid 2 on rank 2.  The exchanger is bound, the connectivity created and
    filled, a send created, then the receivers are listed in another order. *)
Example C81_example :
  elegal_history 3 (ee_edit 768) /\ always (consistent ee_t 3) espec0 (ee_edit 768) /\ always careful espec0 (ee_edit 768) /\
  q_bound (espec_run (ee_edit 768)) = true /\ In ee_k (s_over (q_d (espec_run (ee_edit 768)))) /\ s_pend (q_d (espec_run (ee_edit 768))) ee_k = 0%N /\
  match erun ee_t 3 (ee_edit 768) with
  | Some st => map (dest_ranks st ee_k) [0; 1; 2]%nat = [[2]; [2]; []] /\ map (source_ranks st ee_k) [0; 1; 2]%nat = [[]; []; [1; 0]] /\
               map (source_points st ee_k) [0; 1; 2]%nat = [[]; []; [xx_pt 1; xx_pt 0]]
  | None => False
  end /\
  match erun ee_t 3 ee_fill with Some st => option_map lm_ops (local_m st 0 ee_k) = Some [7] | None => False end /\
  match erun ee_t 3 (ee_edit 768) with Some st => option_map lm_ops (local_m st 0 ee_k) = Some [] | None => False end.
Proof. exact ee_example. Qed.

(** C81 fails without [careful]: only the points of the receivers are edited (connectivity_n::EditPoints), their order
    is changed.  The connectivities fit together before and after.  The edit is announced without EDIT_N_SOURCES, so
    Exchanger.cpp 212-218 makes new maps but does not find the ranks again, and the new receive map pairs the new
    points with the old source ranks: each of the two receivers gets the value of the other. *)
Theorem C81_stale_refuted : exists t n h st k, (0 < n)%nat /\ elegal_history n h /\ always (consistent t n) espec0 h /\
  let s := espec_run h in
  fitting n (all_m t s) (all_n s) /\ erun t n h = Some st /\ q_bound s = true /\ In k (s_over (q_d s)) /\ s_pend (q_d s) k = 0%N /\
  exists R vals out S',
  computes n (send_recv 1 0 (dest_ranks st k) (fun r => send_recv_order isort R (dest_points st k r))
                            (source_ranks st k) (fun r => send_recv_order isort R (source_points st k r)))
    (fun r => SS0 (vals r) (out r)) S' /\
  exists a r i j d y, (a < n)%nat /\ (r < n)%nat /\ livesb (q_d s) (fst k) a = true /\ livesb (q_d s) (snd k) r = true /\
    vread (q_m s a k) i = Some d /\ rcontains (t_local t (fst k) a) (d_lower d) = true /\ vread (q_n s r k) j = Some y /\ r_point y = d_point d /\
    vals_at (s_out (S' r)) 0 j <> vals_at (vals a) 0 i.
Proof. exact ee_stale. Qed.
Print Assumptions C81_stale_refuted.
