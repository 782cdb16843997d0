(** C82: destroying a component unbinds the objects bound to it. *)
From Coq Require Import ZArith List Bool Arith.
From Verif Require Import BindModel BindSpec BindProof.
Import ListNotations.
Local Open Scope nat_scope.

(** C82. Whatever was created, bound, unbound and destroyed before, calls that return
    leave bound exactly the objects the user expects: those bound and not unbound since,
    and whose components all still exist. *)
Theorem C82_unbinds : forall l s, brun bst0 l = Some s -> exists u, urun ust0 l = Some u /\ agree s u.
Proof. exact runs_agree. Qed.
Print Assumptions C82_unbinds.

(** They all return if, whenever a component in use is destroyed, the object using it is
    the only one bound to the domain. *)
Theorem C82_alone : forall l u, urun ust0 l = Some u -> alone ust0 l -> exists s, brun bst0 l = Some s /\ agree s u.
Proof. exact runs_alone. Qed.
Print Assumptions C82_alone.

Definition bind_ops : list bop :=
  [BCreate 3; BCreate 7; BBind 0 [3; 7]%Z; BBind 1 [7]%Z; BUnbind 0; BDestroy 7; BBind 0 [3]%Z].
Example C82_alone_example :
  (exists u, urun ust0 bind_ops = Some u /\ u_on u 0 = Some [3%Z] /\ u_on u 1 = None) /\ alone ust0 bind_ops.
Proof.
  split; [eexists; split; [reflexivity|split; reflexivity]|].
  cbn. repeat split. intros [|[|o]] [|[|o']]; cbn; try discriminate; try congruence.
Qed.

(** In general, destroying a component is defined exactly when every object bound to it
    has the largest listener ID of those bound to the domain. *)
Theorem C82_defined : forall l s c, brun bst0 l = Some s -> In c (b_comps s) ->
  ((exists s', bstep s (BDestroy c) = Some s') <->
   (forall o o' h h', bound_to s c o = true -> slot s o = Some h -> slot s o' = Some h' -> (h' <= h)%Z)).
Proof. exact destroy_defined. Qed.
Print Assumptions C82_defined.

(** It is never defined with two objects bound to the component: two exchangers, or an
    exchanger and an assembler. *)
Theorem C82_two : forall l s c o o', brun bst0 l = Some s -> o <> o' ->
  bound_to s c o = true -> bound_to s c o' = true -> bstep s (BDestroy c) = None.
Proof. exact destroy_two. Qed.
Print Assumptions C82_two.

Example C82_two_example : exists s, brun bst0 [BCreate 7; BBind 0 [7]%Z; BBind 1 [7]%Z] = Some s /\
  bound_to s 7 0 = true /\ bound_to s 7 1 = true /\ In 7%Z (b_comps s).
Proof. eexists. split; [reflexivity|]. repeat split; cbn; auto. Qed.

(** So the property is false of the code: two objects, and valid calls only. *)
Theorem C82_unbinds_refuted : exists l u, urun ust0 l = Some u /\ brun bst0 l = None.
Proof. exists [BCreate 7; BBind 0 [7]%Z; BBind 1 [7]%Z; BDestroy 7]. eexists. split; reflexivity. Qed.
Print Assumptions C82_unbinds_refuted.

(** Nor does it help that only one of the two uses the component. *)
Theorem C82_other_refuted : exists l s c, brun bst0 l = Some s /\ In c (b_comps s) /\
  (forall o o', bound_to s c o = true -> bound_to s c o' = true -> o = o') /\ bstep s (BDestroy c) = None.
Proof.
  exists [BCreate 3; BCreate 7; BBind 0 [7]%Z; BBind 1 [3]%Z]. eexists. exists 7%Z.
  split; [reflexivity|]. split; [cbn; auto|]. split; [|reflexivity].
  intros [|[|o]] [|[|o']]; cbn; try discriminate; reflexivity.
Qed.
Print Assumptions C82_other_refuted.
