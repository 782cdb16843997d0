(** What the transfer of fragments should do, in terms of the lists of fragments only. *)
From Coq Require Import ZArith List Bool Arith Permutation Sorting.Sorted.
From Verif Require Import FtxModel.
Import ListNotations.
Local Open Scope nat_scope.

(** Order of the sets of fragments: by grid, rank, fragment. *)
Definition ent_lt (a b : ent) : Prop :=
  (e_grid a < e_grid b)%Z \/ (e_grid a = e_grid b /\
    (e_rank a < e_rank b \/ (e_rank a = e_rank b /\ (e_frag a < e_frag b)%Z))).

(** Every process sends what the others expect from it. *)
Definition agreed {V} (J : job (V := V)) : Prop :=
  (forall r, r < j_n J -> StronglySorted ent_lt (j_sends J r) /\ StronglySorted ent_lt (j_recvs J r) /\
     (forall e, In e (j_sends J r) \/ In e (j_recvs J r) -> e_rank e < j_n J)) /\
  (forall p q g f, p < j_n J -> q < j_n J ->
     (In (mkE g q f) (j_sends J p) <-> In (mkE g p f) (j_recvs J q))).

Section Log.
Context {V : Type}.
Fixpoint remote (l : list (event (V := V))) : list (nat * list (option V)) :=
  match l with [] => [] | ERemote i vs :: l' => (i, vs) :: remote l' | ELocal _ :: l' => remote l' end.
Fixpoint local (l : list (event (V := V))) : list nat :=
  match l with [] => [] | ERemote _ _ :: l' => local l' | ELocal i :: l' => i :: local l' end.

(** The data that was used for the [i]-th fragment is that of the process it is from. *)
Definition true_data (J : job (V := V)) (q i : nat) (vs : list (option V)) : Prop :=
  exists e, nth_error (j_recvs J q) i = Some e /\
    vs = map (fun d => Some (j_data J (e_rank e) (e_grid e) (e_frag e) d)) [0; 1; 2; 3].

(** All fragments were used once, each with its data. *)
Definition right (J : job (V := V)) (q : nat) (l : list (event (V := V))) : Prop :=
  Permutation (map fst (remote l)) (seq 0 (length (j_recvs J q))) /\
  Forall (fun x => true_data J q (fst x) (snd x)) (remote l) /\
  local l = seq 0 (j_locals J q).
End Log.

(** No two fragments are sent between the same two processes. *)
Definition single {V} (J : job (V := V)) : Prop :=
  forall p i j a b, nth_error (j_sends J p) i = Some a -> nth_error (j_sends J p) j = Some b ->
    e_rank a = e_rank b -> i = j.

(** Number of completed operations reported to process [r]. *)
Fixpoint reports (r : nat) (l : list (nat * act)) : nat :=
  match l with
  | [] => 0
  | (x, a) :: l' =>
      (if Nat.eqb x r then match a with ASignals o => length o | ASends o => length o | ARecvs o => length o | _ => 0 end
       else 0) + reports r l'
  end.
