(** Halo exchanges of several fields that are in progress at the same time: src/core/Halo.inl 16-54, 78-176 (halo::Exchange, halo_exchanger_for_type),
    Request.cpp 19-45, 110-180 (Wait, WaitAll), Request.hpp 31-33 (a request that is destroyed is waited for).

    All fields have the same halo map and communicator, and all messages tag 0, so that messages from one rank to another are received in the order in which
    they are sent and receives are posted (the non-overtaking rule of MPI).  Simplifications: messages are values from when they are sent, and are
    unpacked from the buffer they arrive in: the buffers belong to one exchange while it is in progress (C99_pool); one value type; requests are known by
    their numbers; an exchange is no longer in progress when the wait ends, rather than when its last message is unpacked. *)
From Coq Require Import List ZArith Bool.
From Verif Require Import ArrayModel HashModel HaloModel.
Import ListNotations.
Local Open Scope nat_scope.

Section Hex.
Context {V : Type}.

(** What a rank does: start the exchange of a field, wait for the requests with these numbers, compute a field from fields *)
Inductive cmd : Type :=
  | Start (f : nat)
  | Wait (js : list nat)
  | Comp (f : nat) (fs : list nat) (g : list (list V) -> list V).

(** A request: its number, its field, and the receives that are not yet unpacked *)
Record req : Type := RQ { q_id : nat; q_field : nat; q_todo : list nat }.
Record rank : Type := RK { k_prog : list cmd; k_num : nat; k_fields : nat -> list V; k_reqs : list req }.
(** The ranks; the messages sent from one rank to another, in order; and how many of them have been matched with a receive *)
Record hex : Type := HX { x_rank : nat -> rank; x_sent : nat -> nat -> list (list V); x_mt : nat -> nat -> nat }.

Definition fset {A} (f : nat -> A) (i : nat) (a : A) : nat -> A := fun j => if Nat.eqb j i then a else f j.
Definition memb (i : nat) (l : list nat) : bool := existsb (Nat.eqb i) l.

Variable H : nat -> hmap.
(** Whether sends complete without a receive *)
Variable eager : bool.

(** Halo.inl 88-125: receives are posted, then the messages packed and sent, then the local copies made *)
Definition start (r : nat) (f : nat) (p : list cmd) (s : hex) : option hex :=
  let k := x_rank s r in
  let d := k_fields k f in
  let! ms := halo_messages (H r, d) in
  let! d' := copy_local d (h_local (H r)) in
  Some (HX (fset (x_rank s) r (RK p (S (k_num k)) (fset (k_fields k) f d') (k_reqs k ++ [RQ (k_num k) f (seq 0 (length (h_ranks (H r))))])))
           (fset (x_sent s) r (fold_left (fun sent qm => fset sent (fst qm) (sent (fst qm) ++ [snd qm])) (combine (h_ranks (H r)) ms) (x_sent s r)))
           (x_mt s)).

(** Request.cpp 19-45: all messages of the request are sent and unpacked *)
Definition complete (r : nat) (s : hex) (q : req) : bool :=
  match q_todo q with [] => true | _ => false end && (eager || forallb (fun d => Nat.ltb (q_id q) (x_mt s r d)) (h_ranks (H r))).

(** Rank r goes on; None: it cannot; Some None: undefined *)
Definition step_cmd (n r : nat) (s : hex) : option (option hex) :=
  if Nat.ltb r n then
    let k := x_rank s r in
    match k_prog k with
    | [] => None
    | Start f :: p => Some (start r f p s)
    | Wait js :: p =>
        if forallb (fun q => negb (memb (q_id q) js) || complete r s q) (k_reqs k)
        then Some (Some (HX (fset (x_rank s) r (RK p (k_num k) (k_fields k) (filter (fun q => negb (memb (q_id q) js)) (k_reqs k)))) (x_sent s) (x_mt s)))
        else None
    | Comp f fs g :: p => Some (Some (HX (fset (x_rank s) r (RK p (k_num k) (fset (k_fields k) f (g (map (k_fields k) fs))) (k_reqs k))) (x_sent s) (x_mt s)))
    end
  else None.

(** The next message from q to r is matched with the next receive. *)
Definition step_match (n q r : nat) (s : hex) : option (option hex) :=
  if Nat.ltb q n && Nat.ltb r n && memb q (h_ranks (H r)) && Nat.ltb (x_mt s q r) (length (x_sent s q r)) && Nat.ltb (x_mt s q r) (k_num (x_rank s r))
  then Some (Some (HX (x_rank s) (x_sent s) (fset (x_mt s) q (fset (x_mt s q) r (S (x_mt s q r))))))
  else None.

(** 139-160: in a wait, a message that has arrived is unpacked. *)
Definition unpack1 (r i : nat) (m : list V) (q : req) (k : rank) : option rank :=
  let! d := unpack (h_recv (H r)) (k_fields k (q_field q)) (i, m) in
  Some (RK (k_prog k) (k_num k) (fset (k_fields k) (q_field q) d)
    (map (fun x => if Nat.eqb (q_id x) (q_id q) then RQ (q_id x) (q_field x) (filter (fun u => negb (Nat.eqb u i)) (q_todo x)) else x) (k_reqs k))).
Definition step_unpack (n r j i : nat) (s : hex) : option (option hex) :=
  let k := x_rank s r in
  match k_prog k, find (fun q => Nat.eqb (q_id q) j) (k_reqs k), nth_error (h_ranks (H r)) i with
  | Wait js :: _, Some q, Some d =>
      if Nat.ltb r n && memb j js && memb i (q_todo q) && Nat.ltb j (x_mt s d r)
      then Some (let! m := nth_error (x_sent s d r) j in
                 let! k' := unpack1 r i m q k in
                 Some (HX (fset (x_rank s) r k') (x_sent s) (x_mt s)))
      else None
  | _, _, _ => None
  end.

Inductive lab : Type := LCmd (r : nat) | LMatch (q r : nat) | LUnpack (r j i : nat).
Definition xstep (n : nat) (s : hex) (l : lab) : option (option hex) :=
  match l with LCmd r => step_cmd n r s | LMatch q r => step_match n q r s | LUnpack r j i => step_unpack n r j i s end.
Fixpoint xruns (n : nat) (s : hex) (ls : list lab) : option (option hex) :=
  match ls with
  | [] => Some (Some s)
  | l :: ls => match xstep n s l with
               | None => None
               | Some None => match ls with [] => Some None | _ => None end
               | Some (Some s) => xruns n s ls
               end
  end.
Definition hex0 (progs : nat -> list cmd) (F : nat -> nat -> list V) : hex := HX (fun r => RK (progs r) 0 (F r) []) (fun _ _ => []) (fun _ _ => 0).
End Hex.
Arguments cmd : clear implicits.
Arguments rank : clear implicits.
Arguments hex : clear implicits.

(** ** The pool of exchangers *)

(** Halo.inl 30-52: Active_ of the exchangers for the type; the first that is not active is taken, or another is appended *)
Fixpoint take (pool : list bool) : nat * list bool :=
  match pool with
  | [] => (0, [true])
  | false :: l => (0, true :: l)
  | true :: l => let (i, l') := take l in (S i, true :: l')
  end.
(** 166-170: OnComplete *)
Fixpoint give (pool : list bool) (i : nat) : list bool :=
  match pool, i with
  | [], _ => []
  | _ :: l, O => false :: l
  | b :: l, S i => b :: give l i
  end.
(** Requests in progress with their exchangers: exchanges are started (None) and completed (Some: position among those in progress). *)
Definition pool_step (s : list bool * list nat) (e : option nat) : list bool * list nat :=
  match e with
  | None => let (i, p) := take (fst s) in (p, snd s ++ [i])
  | Some k => match nth_error (snd s) k with
              | Some i => (give (fst s) i, firstn k (snd s) ++ skipn (S k) (snd s))
              | None => s
              end
  end.
