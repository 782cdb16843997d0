(** Property theorems C07, C08, C09. *)
From Coq Require Import List ZArith Bool Lia.
From Verif Require Import TupleModel RangeModel CartModel Base RangeProof CartProof.
Import ListNotations.
Open Scope Z_scope.

(** C07. Periodic adjustment is defined, and returns [u] exactly when [u] is the
    periodic image of [t] in the base period. *)
Theorem C07_periodic_adjust : forall c t, cart_ok c ->
  (exists u, periodic_adjust c t = Some u) /\
  (forall u, periodic_adjust c t = Some u <-> is_image c t u /\ in_base c u) /\
  (forall t', is_image c t t' -> periodic_adjust c t' = periodic_adjust c t) /\
  (forall u, periodic_adjust c t = Some u -> periodic_adjust c u = Some u).
Proof. exact periodic_adjust_laws. Qed.
Print Assumptions C07_periodic_adjust.

(** C07. The period index counts whole periods from the domain's start. *)
Theorem C07_get_period : forall c t, cart_ok c ->
  exists p, get_period c t = Some p /\
    forall d, (d < 3)%nat ->
      (tget (c_per c) d = true ->
         let b := tget (rb (c_range c)) d in
         b + tget p d * per_len c d <= tget t d < b + (tget p d + 1) * per_len c d) /\
      (tget (c_per c) d = false -> tget p d = 0).
Proof. exact get_period_spec. Qed.
Print Assumptions C07_get_period.

(** A 3D domain, periodic in the first two dimensions, with duplicated storage. *)
Definition ex_cart : cart :=
  mkC 3 (mkR (T3 1 0 0) (T3 12 5 4)) (T3 true true false) DUPLICATED.

Example C07_example : cart_ok ex_cart /\
  periodic_adjust ex_cart (T3 (-3) 8 2) = Some (T3 7 0 2) /\
  get_period ex_cart (T3 (-3) 8 2) = Some (T3 (-1) 2 0).
Proof.
  split; [|vm_compute; auto].
  intros d Hd; destruct d as [|[|[|d]]]; [vm_compute; auto ..|lia].
Qed.

(** C08, full statement: for every domain, range and tuple, the answer is an
    image inside the range whenever there is one.  It is false: in a
    non-periodic dimension a tuple below the range is moved up by the size of the
    domain (Cart.inl line 91). *)
Theorem C08_map_tuple_refuted : exists c r t m,
  cart_ok c /\ map_tuple_to_range c r t = Some (Some m) /\ ~ is_image c t m.
Proof. exact map_tuple_refuted. Qed.
Print Assumptions C08_map_tuple_refuted.

(** C08, restricted to targets and tuples that do not leave the domain in
    non-periodic dimensions.  Missing with respect to the full statement:
    tuples below, or ranges reaching above, a non-periodic boundary. *)
Theorem C08_map_tuple_partial : forall c r t, cart_ok c -> nonper_ok c r t ->
  exists res, map_tuple_to_range c r t = Some res /\
    match res with
    | Some m => pt_in r m /\ is_image c t m /\
        forall u, pt_in r u -> is_image c t u -> forall d, (d < 3)%nat -> tget m d <= tget u d
    | None => forall u, is_image c t u -> ~ pt_in r u
    end.
Proof. exact map_tuple_correct. Qed.
Print Assumptions C08_map_tuple_partial.

Example C08_example :
  let r := mkR (T3 9 (-2) 1) (T3 15 3 3) in
  nonper_ok ex_cart r (T3 2 2 2) /\
  map_tuple_to_range ex_cart r (T3 2 2 2) = Some (Some (T3 12 (-2) 2)) /\
  map_tuple_to_range ex_cart r (T3 6 2 2) = Some None.
Proof.
  split; [|vm_compute; auto].
  intros d Hd; destruct d as [|[|[|d]]]; cbn; try discriminate; try lia.
Qed.

(** C09, full statement: a result overlaps the target and is an image of the
    input, and absence means no image overlaps.  It is false in three ways. *)
Theorem C09_map_range_refuted :
  (exists c r o s, cart_ok c /\ rempty r = false /\ rempty o = false /\
     map_range_to_range c r o = Some (Some s) /\ ranges_overlap r s = false) /\
  (exists c r o s, cart_ok c /\ rempty r = false /\ rempty o = false /\
     map_range_to_range c r o = Some None /\ range_image c o s /\
     ranges_overlap r s = true) /\
  (exists c r o, cart_ok c /\ rempty r = false /\ rempty o = false /\
     map_range_to_range c r o = None).
Proof. exact map_range_refuted. Qed.
Print Assumptions C09_map_range_refuted.

(** C09, restricted to targets inside the base period with both ranges inside
    the domain in non-periodic dimensions.  Missing: targets that extend past
    the base period. *)
Theorem C09_map_range_partial : forall c r o,
  cart_ok c -> (c_nd c <= 3)%nat -> map_range_pre c r o ->
  exists res, map_range_to_range c r o = Some res /\
    match res with
    | Some s => range_image c o s /\ ranges_overlap r s = true
    | None => forall s, range_image c o s -> ranges_overlap r s = false
    end.
Proof. exact map_range_correct. Qed.
Print Assumptions C09_map_range_partial.

Example C09_example :
  let c := mkC 2 (mkR (T3 0 0 0) (T3 10 10 1)) (T3 true false false) UNIQUE in
  let r := mkR (T3 0 0 0) (T3 4 5 1) in let o := mkR (T3 8 2 0) (T3 12 4 1) in
  cart_ok c /\ map_range_pre c r o /\
  map_range_to_range c r o = Some (Some (mkR (T3 (-2) 2 0) (T3 2 4 1))).
Proof.
  cbn zeta; split; [|split; [split; [reflexivity|split; [reflexivity|]]|reflexivity]];
    intros d Hd; destruct d as [|[|[|d]]]; try lia; try (vm_compute; reflexivity);
    cbn; repeat split; try discriminate; try lia.
Qed.
