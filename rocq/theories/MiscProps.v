(** Properties of process grids and of the profiler. *)
From Coq Require Import ZArith List Bool Lia.
From Verif Require Import TupleModel DomainModel DimsModel DimsSpec DimsProof ProfModel ProfSpec ProfProof.
Import ListNotations.
Local Open Scope Z_scope.

(** C54. If MPI's suggestion has as many slots as processes, positive dimensions, and the
    dimensions fixed by the caller, then so has the result; its other dimensions do not
    increase, and it is not more uneven than MPI's suggestion. *)
Theorem C54_process_grid : forall nd size input mpi, (1 <= nd <= 3)%nat -> good_dims nd size input mpi ->
  exists r, decomp_dims nd input mpi = Some r /\ good_dims nd size input r /\ free_sorted input r /\
    unevenness (firsts nd r) <= unevenness (firsts nd mpi).
Proof. exact decomp_dims_ok. Qed.
Print Assumptions C54_process_grid.
Example C54_example :
  good_dims 3 294 (T3 0 3 0) (T3 49 3 2) /\
  decomp_dims 3 (T3 0 3 0) (T3 49 3 2) = Some (T3 14 3 7) /\
  good_dims 2 98 (T3 0 0 1) (T3 1 98 1) /\ decomp_dims 2 (T3 0 0 1) (T3 1 98 1) = Some (T3 14 7 1).
Proof.
  split; [|split; [vm_compute; reflexivity|split; [|vm_compute; reflexivity]]];
  (split; [reflexivity|]); intros [|[|[|d]]] Hd; cbn; lia.
Qed.

(** C55. After any history of calls to start and stop timers (and to enable and disable the
    profiler) in which no stop is recorded without a recorded start, the accumulated time of a
    timer is the time during which it had a recorded start without its stop. *)
Theorem C55_accumulated : forall h id now, plegal_history (rev h) ->
  exists p, prof_run h = Some p /\ accumulated p id now = Some (busy id now (rev h)).
Proof. exact accumulated_correct. Qed.
Print Assumptions C55_accumulated.

Definition ex_prof2 : list (Z * pop) :=
  [(1, PStart 4); (2, PEnable); (3, PStart 4); (5, PStartSync 7); (6, PStart 4); (10, PStop 4);
   (12, PStop 7); (20, PStop 4); (30, PStart 4); (31, PDisable); (33, PStop 4)].
Example C55_example : plegal_history (rev ex_prof2) /\
  (busy 4 40 (rev ex_prof2), busy 7 40 (rev ex_prof2)) = (27, 7) /\
  match prof_run ex_prof2 with
  | Some p => accumulated p 4 40 = Some 27 /\ accumulated p 7 40 = Some 7 /\ accumulated p 8 40 = Some 0
  | None => False
  end.
Proof.
  split; [|split; [vm_compute; reflexivity|vm_compute; repeat split; reflexivity]].
  cbn [rev app ex_prof2 plegal_history plegal snd].
  repeat split; first [discriminate | reflexivity | intros _; vm_compute; reflexivity | intros X; vm_compute in X; discriminate X].
Qed.

(** C60. The profile written by the ranks of a communicator lists, in increasing order, the timers
    that some rank started, with the least and the greatest of the ranks' times and their sum
    (a rank that did not use the timer counts as 0). *)
Theorem C60_profile : forall hs : list (list (Z * pop) * (Z -> Z)), hs <> [] ->
  (forall h cl, In (h, cl) hs -> plegal_history (rev h)) ->
  exists ps, on_ranks (fun _ hc => prof_run (fst hc)) 0 hs = Some ps /\
    write_profile (combine ps (map snd hs)) = Some (profile (map (fun hc => (rev (fst hc), snd hc)) hs)).
Proof. exact profile_correct. Qed.
Print Assumptions C60_profile.
Example C60_example :
  profile [(rev ex_prof2, fun _ => 40); (rev [(0, PEnable); (1, PStart 7); (2, PStart 81); (4, PStop 7)], fun _ => 9)] =
  [(4, (0, 27, 27)); (7, (3, 7, 10)); (81, (0, 7, 7))].
Proof. vm_compute. reflexivity. Qed.
