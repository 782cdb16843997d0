(** Association lists keyed by numbers, used in specifications for "the variables in
    scope and what they hold", with their lemmas. *)
From Coq Require Import List Bool Arith Lia Permutation.
Import ListNotations.

Section Assoc.
Context {V : Type}.

Fixpoint aget (l : list (nat * V)) (h : nat) : option V :=
  match l with
  | [] => None
  | (k, v) :: r => if Nat.eqb k h then Some v else aget r h
  end.
Definition aput (l : list (nat * V)) (h : nat) (v : V) : list (nat * V) :=
  map (fun p => if Nat.eqb (fst p) h then (h, v) else p) l.
Definition adrop (l : list (nat * V)) (h : nat) : list (nat * V) :=
  filter (fun p => negb (Nat.eqb (fst p) h)) l.

Definition akeys_nd (l : list (nat * V)) : Prop := NoDup (map fst l).

Lemma aget_In l h v : aget l h = Some v -> In (h, v) l.
Proof.
  induction l as [|[k w] l IH]; cbn; [discriminate|]. destruct (Nat.eqb_spec k h) as [->|].
  - intros [= ->]. auto.
  - auto.
Qed.
Lemma aget_None l h : aget l h = None <-> ~ In h (map fst l).
Proof.
  induction l as [|[k w] l IH]; cbn; [tauto|]. destruct (Nat.eqb_spec k h) as [->|N].
  - split; [discriminate|]. intros H. exfalso. auto.
  - rewrite IH. tauto.
Qed.
Lemma In_aget l h v : akeys_nd l -> In (h, v) l -> aget l h = Some v.
Proof.
  unfold akeys_nd. induction l as [|[k w] l IH]; cbn; [tauto|]. intros D [E|E]; inversion D as [|? ? N D']; subst.
  - injection E as -> ->. rewrite Nat.eqb_refl. reflexivity.
  - destruct (Nat.eqb_spec k h) as [->|]; [|auto]. exfalso. apply N.
    change h with (fst (h, v)). apply in_map, E.
Qed.
Lemma map_fst_aput l h v : map fst (aput l h v) = map fst l.
Proof.
  unfold aput. rewrite map_map. apply map_ext. intros [k w]. cbn.
  destruct (Nat.eqb_spec k h); cbn; congruence.
Qed.
Lemma aget_aput l h v g : aget (aput l h v) g =
  if Nat.eqb g h then option_map (fun _ => v) (aget l h) else aget l g.
Proof.
  induction l as [|[k w] l IH]; [cbn; destruct (Nat.eqb g h); reflexivity|]. cbn.
  destruct (Nat.eqb_spec g h) as [Eg|N].
  - subst g. destruct (Nat.eqb_spec k h) as [->|]; cbn.
    + rewrite Nat.eqb_refl. reflexivity.
    + apply Nat.eqb_neq in n. rewrite n. exact IH.
  - destruct (Nat.eqb_spec k h) as [->|]; cbn.
    + destruct (Nat.eqb_spec h g); [congruence|]. exact IH.
    + destruct (Nat.eqb k g); [reflexivity|exact IH].
Qed.
Lemma aput_absent l h v : aget l h = None -> aput l h v = l.
Proof.
  induction l as [|[k w] l IH]; cbn; auto. destruct (Nat.eqb_spec k h); [discriminate|].
  intros H. f_equal. apply IH, H.
Qed.
Lemma aget_adrop l h g : aget (adrop l h) g = if Nat.eqb g h then None else aget l g.
Proof.
  induction l as [|[k w] l IH]; cbn; [destruct (Nat.eqb g h); reflexivity|].
  destruct (Nat.eqb_spec k h) as [->|]; cbn; fold (adrop l h).
  - rewrite IH. destruct (Nat.eqb_spec g h) as [Eg|]; [reflexivity|].
    destruct (Nat.eqb_spec h g); [congruence|reflexivity].
  - rewrite IH. destruct (Nat.eqb_spec g h) as [Eg|]; [subst g|reflexivity].
    apply Nat.eqb_neq in n. rewrite n. reflexivity.
Qed.
Lemma adrop_absent l h : aget l h = None -> adrop l h = l.
Proof.
  induction l as [|[k w] l IH]; cbn; auto. destruct (Nat.eqb_spec k h); [discriminate|].
  intros H. cbn. f_equal. apply IH, H.
Qed.
Lemma akeys_adrop l h : akeys_nd l -> akeys_nd (adrop l h).
Proof.
  unfold akeys_nd. induction l as [|[k x] l IH]; cbn; auto. intros D. inversion D as [|? ? Nk D']; subst.
  destruct (Nat.eqb_spec k h); cbn; [apply IH, D'|]. constructor; [|apply IH, D'].
  intros H. apply Nk. apply in_map_iff in H. destruct H as (p & <- & Hp). apply filter_In in Hp.
  apply in_map, Hp.
Qed.
Lemma akeys_aput l h v : akeys_nd l -> akeys_nd (aput l h v).
Proof. unfold akeys_nd. rewrite map_fst_aput. auto. Qed.
Lemma akeys_cons l h v : akeys_nd l -> aget l h = None -> akeys_nd ((h, v) :: l).
Proof. intros K H. constructor; [apply aget_None, H|exact K]. Qed.

(** Contents of all variables. *)
Context {W : Type} (f : V -> list W).
Definition contents (l : list (nat * V)) : list W := flat_map (fun p => f (snd p)) l.

Lemma contents_aput l h v w : akeys_nd l -> aget l h = Some w ->
  Permutation (f w ++ contents (aput l h v)) (f v ++ contents l).
Proof.
  unfold akeys_nd. induction l as [|[k x] l IH]; cbn; [discriminate|]. intros D.
  inversion D as [|? ? Nk D']; subst. destruct (Nat.eqb_spec k h) as [->|N]; cbn.
  - intros [= ->]. fold (aput l h v). rewrite aput_absent by (apply aget_None, Nk).
    fold (contents l). rewrite !app_assoc. apply Permutation_app_tail, Permutation_app_comm.
  - intros H. fold (aput l h v). fold (contents (aput l h v)) (contents l). specialize (IH D' H).
    rewrite (Permutation_app_swap_app (f w)), (Permutation_app_swap_app (f v)).
    apply Permutation_app_head, IH.
Qed.
Lemma contents_adrop l h w : akeys_nd l -> aget l h = Some w ->
  Permutation (contents l) (f w ++ contents (adrop l h)).
Proof.
  unfold akeys_nd. induction l as [|[k x] l IH]; cbn; [discriminate|]. intros D.
  inversion D as [|? ? Nk D']; subst. destruct (Nat.eqb_spec k h) as [->|N]; cbn.
  - intros [= ->]. fold (adrop l h). rewrite adrop_absent by (apply aget_None, Nk). reflexivity.
  - intros H. fold (adrop l h). fold (contents (adrop l h)) (contents l). specialize (IH D' H).
    rewrite IH, (Permutation_app_swap_app (f x)). reflexivity.
Qed.
End Assoc.

Lemma aget_map {V W} (f : V -> W) l h :
  aget (map (fun p => (fst p, f (snd p))) l) h = option_map f (aget l h).
Proof. induction l as [|[k v] l IH]; cbn; [reflexivity|]. destruct (Nat.eqb k h); auto. Qed.
Lemma aput_map {V W} (f : V -> W) l h v :
  aput (map (fun p => (fst p, f (snd p))) l) h (f v) = map (fun p => (fst p, f (snd p))) (aput l h v).
Proof.
  unfold aput. rewrite !map_map. apply map_ext. intros [k w]. cbn. destruct (Nat.eqb k h); reflexivity.
Qed.
Lemma adrop_map {V W} (f : V -> W) l h :
  adrop (map (fun p => (fst p, f (snd p))) l) h = map (fun p => (fst p, f (snd p))) (adrop l h).
Proof.
  induction l as [|[k v] l IH]; cbn; [reflexivity|]. destruct (Nat.eqb k h); cbn; [exact IH|].
  f_equal. exact IH.
Qed.
