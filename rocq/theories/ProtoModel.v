(** Communication protocols: model of src/core/CommunicationOps.cpp and
    CommunicationOps.inl.

    Ranks are the natural numbers below [n].  Each protocol is a transition system whose
    labels are the MPI calls and their outcomes; a schedule is any list of labels and a
    label that is not enabled gives None.  MPI is modelled by its standard: messages
    between two ranks with the same tag are neither lost nor reordered, an MPI_Iprobe may
    miss a message in flight, a standard send may complete at any time, and a synchronous
    send completes only once the matching receive has been posted.
    Simplifications: messages carry no payload where the code sends a dummy byte; the
    branch for OVK_HAVE_MPI_IBARRIER, which hands the signal over to MPI_Ibarrier, is not
    modelled; exceptions and time-outs are not modelled. *)
From Coq Require Import List Arith Bool.
From Verif Require Import ContModel FRefModel.
Import ListNotations.

(** Running a schedule. *)
Fixpoint run {S L} (step : S -> L -> option S) (s : S) (ls : list L) : option S :=
  match ls with
  | [] => Some s
  | l :: ls => match step s l with Some s' => run step s' ls | None => None end
  end.

(** * signal (CommunicationOps.cpp 72-140, without MPI_Ibarrier) *)

(** Where the root is: outside of Check, in its polling loop, or about to receive the
    second message of rank i. *)
Inductive rpc : Type := ROut | RPoll | RTake (i : nat).

(** [g_started r], [g_done r]: how often Start was called and Check returned true on rank
    r.  [g_sent0], [g_recv0]: messages with tag 0 sent by a rank and received by the root;
    [g_sent1], [g_recv1]: those with tag 1.  [g_nc]: NumCompleted_ of the root. *)
Record sig : Type := mkSig {
  g_started : nat -> nat; g_done : nat -> nat;
  g_sent0 : nat -> nat; g_recv0 : nat -> nat;
  g_sent1 : nat -> nat; g_recv1 : nat -> nat;
  g_pc : rpc; g_nc : nat }.

Definition inc (f : nat -> nat) (r : nat) : nat -> nat := upd f r (S (f r)).

Definition zero : nat -> nat := fun _ => 0.
Definition sig0 : sig := mkSig zero zero zero zero zero zero ROut 0.

(** [SStart r]: Start.  [STest r]: MPI_Testall succeeds on a rank other than the root.
    [SCall]: the root calls Check.  [SProbe q]: its MPI_Iprobe finds a message of rank q,
    which is received.  [SMiss]: MPI_Iprobe finds nothing and Check returns false.
    [SAll]: the loop ends because all first messages are there.  [STake]: one iteration
    of the loop over the second messages, or its end, when Check returns true. *)
Inductive slabel : Type :=
| SStart (r : nat) | STest (r : nat) | SCall | SProbe (q : nat) | SMiss | SAll | STake.

(** The rank executing a label. *)
Definition srank (l : slabel) : nat :=
  match l with SStart r => r | STest r => r | _ => 0 end.

(** CommunicationOps.cpp 87-98 and 100-140.  The caller's side of the contract is built
    in: Start is called when no signal is pending on that rank, Check only while one is
    (hang_detector::operator() 206-217, DynamicHandshake 178-193). *)
Definition sstep (n : nat) (s : sig) (l : slabel) : option sig :=
  let (started, done, sent0, recv0, sent1, recv1, pc, nc) := s in
  match l with
  | SStart r =>
      if Nat.ltb r n && Nat.eqb (started r) (done r) then
        if Nat.eqb r 0 then Some (mkSig (inc started r) done sent0 recv0 sent1 recv1 pc nc)
        else Some (mkSig (inc started r) done (inc sent0 r) recv0 (inc sent1 r) recv1 pc nc)
      else None
  | STest r =>
      if Nat.ltb 0 r && Nat.ltb r n && Nat.ltb (done r) (started r) &&
         Nat.leb (sent1 r) (recv1 r)
      then Some (mkSig started (inc done r) sent0 recv0 sent1 recv1 pc nc)
      else None
  | SCall =>
      match pc with
      | ROut => if Nat.ltb (done 0) (started 0)
                then Some (mkSig started done sent0 recv0 sent1 recv1 RPoll nc) else None
      | _ => None
      end
  | SProbe q =>
      match pc with
      | RPoll => if Nat.ltb nc (n - 1) && Nat.ltb 0 q && Nat.ltb q n && Nat.ltb (recv0 q) (sent0 q)
                 then Some (mkSig started done sent0 (inc recv0 q) sent1 recv1 RPoll (S nc))
                 else None
      | _ => None
      end
  | SMiss =>
      match pc with
      | RPoll => if Nat.ltb nc (n - 1)
                 then Some (mkSig started done sent0 recv0 sent1 recv1 ROut nc) else None
      | _ => None
      end
  | SAll =>
      match pc with
      | RPoll => if Nat.eqb nc (n - 1)
                 then Some (mkSig started done sent0 recv0 sent1 recv1 (RTake 1) nc) else None
      | _ => None
      end
  | STake =>
      match pc with
      | RTake i =>
          if Nat.ltb i n then
            if Nat.ltb (recv1 i) (sent1 i)
            then Some (mkSig started done sent0 recv0 sent1 (inc recv1 i) (RTake (S i)) nc)
            else None
          else Some (mkSig started (inc done 0) sent0 recv0 sent1 recv1 ROut 0)
      | _ => None
      end
  end.

(** * DynamicHandshake (CommunicationOps.cpp 142-198) *)

(** Before the call; at MPI_Iprobe (line 175); at the if (line 183); in Check (line 184);
    returned. *)
Inductive hpc : Type := HBefore | HProbe | HIf | HCheck | HEnd.

(** [h_sent s d], [h_recv s d]: synchronous sends from s to d posted by s, and matching
    receives posted by d; [h_matched]: MatchedRanksSet; [h_sends_done]: SendsDone. *)
Record hst : Type := mkH {
  h_pc : nat -> hpc; h_sends_done : nat -> bool; h_matched : nat -> list nat;
  h_sent : nat -> nat -> nat; h_recv : nat -> nat -> nat; h_sig : sig }.

Definition hst0 : hst :=
  mkH (fun _ => HBefore) (fun _ => false) (fun _ => []) (fun _ _ => 0) (fun _ _ => 0) sig0.

(** [HBegin r]: lines 145-166.  [HHit r q]: MPI_Iprobe finds a message of rank q (lines
    175-180).  [HMiss r]: it finds nothing.  [HTest r b]: MPI_Testall at line 186 gives b.
    [HFail r]: Check returns false at once on a rank other than the root.  [HSig l]: a
    step inside Check. *)
Inductive hlabel : Type :=
| HBegin (r : nat) | HHit (r q : nat) | HMiss (r : nat) | HTest (r : nat) (b : bool)
| HFail (r : nat) | HSig (l : slabel).

(** Lines 159-164: the number of messages rank r sends to d. *)
Definition send_count (ranks : list nat) (r d : nat) : nat :=
  if Nat.eqb d r then 0 else length (filter (Nat.eqb d) ranks).

(** Lines 151-156. *)
Definition self_match (ranks : list nat) (r : nat) : list nat :=
  fold_left (fun s o => if Nat.eqb o r then set_insert Nat.ltb s r else s) ranks [].

Definition upd2 (f : nat -> nat -> nat) (a b v : nat) : nat -> nat -> nat :=
  fun x y => if Nat.eqb x a && Nat.eqb y b then v else f x y.

(** Line 186: all synchronous sends of rank r are matched. *)
Definition all_matched (n : nat) (s : hst) (r : nat) : bool :=
  forallb (fun d => Nat.leb (h_sent s r d) (h_recv s r d)) (seq 0 n).

(** The result of Check, seen from rank r: 184 and 173. *)
Definition after_check (g g' : sig) (r : nat) : hpc :=
  if Nat.ltb (g_done g r) (g_done g' r) then HEnd
  else match g_pc g' with ROut => HProbe | _ => HCheck end.

(** [ranks r]: the argument Ranks on rank r; sending to a rank that does not exist is an
    MPI error. *)
Definition hstep (n : nat) (ranks : nat -> list nat) (s : hst) (l : hlabel) : option hst :=
  let (pc, sd, mt, sent, recv, g) := s in
  match l with
  | HBegin r =>
      match pc r with
      | HBefore =>
          if Nat.ltb r n && forallb (fun d => Nat.ltb d n) (ranks r) then
            Some (mkH (upd pc r HProbe) sd (upd mt r (self_match (ranks r) r))
                      (fun a d => if Nat.eqb a r then send_count (ranks r) r d else sent a d)
                      recv g)
          else None
      | _ => None
      end
  | HHit r q =>
      match pc r with
      | HProbe =>
          if Nat.ltb (recv q r) (sent q r) then
            Some (mkH pc sd (upd mt r (set_insert Nat.ltb (mt r) q)) sent
                      (upd2 recv q r (S (recv q r))) g)
          else None
      | _ => None
      end
  | HMiss r =>
      match pc r with
      | HProbe => Some (mkH (upd pc r HIf) sd mt sent recv g)
      | _ => None
      end
  | HTest r b =>
      match pc r with
      | HIf =>
          if sd r then None
          else if b then
            if all_matched n s r then
              match sstep n g (SStart r) with
              | Some g' => Some (mkH (upd pc r HProbe) (upd sd r true) mt sent recv g')
              | None => None
              end
            else None
          else Some (mkH (upd pc r HProbe) sd mt sent recv g)
      | _ => None
      end
  | HFail r =>
      match pc r with
      | HIf => if sd r && Nat.ltb 0 r then Some (mkH (upd pc r HProbe) sd mt sent recv g) else None
      | _ => None
      end
  | HSig (SStart _) => None
  | HSig sl =>
      let r := srank sl in
      match pc r with
      | HIf | HCheck =>
          if sd r then
            match sstep n g sl with
            | Some g' => Some (mkH (upd pc r (after_check g g' r)) sd mt sent recv g')
            | None => None
            end
          else None
      | _ => None
      end
  end.

(** * Serialize (CommunicationOps.inl 7-22) *)

(** Before the function, inside it, after it. *)
Inductive zphase : Type := ZBefore | ZInside | ZAfter.
Inductive zevent : Type := ZB (r : nat) | ZE (r : nat).

(** [z_in r], [z_out r]: barriers entered and left by rank r; [z_log]: the executions of
    the function, newest event first. *)
Record zst : Type := mkZ {
  z_ph : nat -> zphase; z_in : nat -> nat; z_out : nat -> nat; z_log : list zevent }.

Definition zst0 : zst := mkZ (fun _ => ZBefore) zero zero [].

Inductive zlabel : Type := ZEnter (r : nat) | ZLeave (r : nat) | ZCall (r : nat) | ZReturn (r : nat).

(** Lines 10-12: barriers for OtherRank from 0 to Rank-1 before the function; 14-18:
    for OtherRank from Rank to Size-1 on leaving the scope, however the function ends. *)
Definition zstep (n : nat) (s : zst) (l : zlabel) : option zst :=
  let (ph, en, out, log) := s in
  match l with
  | ZEnter r =>
      if Nat.ltb r n && Nat.eqb (en r) (out r) &&
         match ph r with
         | ZBefore => Nat.ltb (out r) r
         | ZInside => false
         | ZAfter => Nat.ltb (out r) n
         end
      then Some (mkZ ph (inc en r) out log) else None
  | ZLeave r =>
      if Nat.ltb r n && Nat.ltb (out r) (en r) &&
         forallb (fun q => Nat.leb (en r) (en q)) (seq 0 n)
      then Some (mkZ ph en (inc out r) log) else None
  | ZCall r =>
      if Nat.ltb r n && Nat.eqb (en r) (out r) && Nat.eqb (out r) r &&
         match ph r with ZBefore => true | _ => false end
      then Some (mkZ (upd ph r ZInside) en out (ZB r :: log)) else None
  | ZReturn r =>
      if Nat.ltb r n && match ph r with ZInside => true | _ => false end
      then Some (mkZ (upd ph r ZAfter) en out (ZE r :: log)) else None
  end.

(** * Broadcasts from an unnamed source (CommunicationOps.cpp 20-70) *)

(** The sequence of calls of one rank: each entry is one MPI call.  [BSend]: MPI_Send to
    rank 0; [BRecv]: MPI_Recv from MPI_ANY_SOURCE on rank 0; [BBcast]: MPI_Bcast with
    root 0. *)
Inductive bcall : Type := BSend | BRecv | BBcast.

(** Lines 41-47. *)
Definition bcalls (r : nat) (src : bool) : list bcall :=
  (if Nat.eqb r 0 then if src then [] else [BRecv] else if src then [BSend] else []) ++ [BBcast].

Section Any.
Context {A : Type}.

(** [b_val r]: the caller's buffer; [b_todo r]: remaining calls; [b_chan]: messages to
    rank 0 (from any source, oldest first); [b_bc]: what the root has broadcast. *)
Record bst : Type := mkB {
  b_val : nat -> A; b_todo : nat -> list bcall; b_chan : list A; b_bc : option A }.

(** One call of rank r; MPI_Bcast returns on a rank other than the root only after the
    root has called it. *)
Definition bstep (n : nat) (s : bst) (r : nat) : option bst :=
  let (val, todo, ch, bc) := s in
  if Nat.ltb r n then
    match todo r with
    | [] => None
    | BSend :: t => Some (mkB val (upd todo r t) (ch ++ [val r]) bc)
    | BRecv :: t =>
        match ch with
        | [] => None
        | m :: ch => Some (mkB (upd val r m) (upd todo r t) ch bc)
        end
    | BBcast :: t =>
        if Nat.eqb r 0 then Some (mkB val (upd todo r t) ch (Some (val r)))
        else match bc with
             | None => None
             | Some m => Some (mkB (upd val r m) (upd todo r t) ch bc)
             end
    end
  else None.

Definition bst0 (val : nat -> A) (src : nat -> bool) : bst :=
  mkB val (fun r => bcalls r (src r)) [] None.

(** The version for strings, lines 20-35 and 51-70: every transfer is a length followed
    by that many characters.  Messages are counted in characters; receiving more than the
    announced length is an error (None), as is receiving a message of the wrong kind. *)
Inductive smsg : Type := MLen (k : nat) | MChars (l : list A).
Inductive scall : Type :=
| CSendLen | CSendChars | CRecvLen | CRecvChars | CBcastLen | CBcastChars.

(** Lines 54-69 with BroadcastString inlined. *)
Definition scalls (r : nat) (src : bool) : list scall :=
  (if Nat.eqb r 0 then if src then [] else [CRecvLen; CRecvChars]
   else if src then [CSendLen; CSendChars] else []) ++ [CBcastLen; CBcastChars].

(** [t_str]: String; [t_len]: StringLength; [t_bc]: broadcasts of the root so far, oldest
    first, and [t_nb r] how many of them rank r has taken part in. *)
Record tst : Type := mkT {
  t_str : nat -> list A; t_len : nat -> nat; t_todo : nat -> list scall;
  t_chan : list smsg; t_bc : list smsg; t_nb : nat -> nat }.

Definition tst0 (str : nat -> list A) (src : nat -> bool) : tst :=
  mkT str zero (fun r => scalls r (src r)) [] [] zero.

Definition tstep (n : nat) (s : tst) (r : nat) : option tst :=
  let (str, len, todo, ch, bc, nb) := s in
  if Nat.ltb r n then
    match todo r with
    | [] => None
    | CSendLen :: t =>
        Some (mkT str (upd len r (length (str r))) (upd todo r t) (ch ++ [MLen (length (str r))]) bc nb)
    | CSendChars :: t =>
        Some (mkT str len (upd todo r t) (ch ++ [MChars (str r)]) bc nb)
    | CRecvLen :: t =>
        match ch with
        | MLen k :: ch => Some (mkT str (upd len r k) (upd todo r t) ch bc nb)
        | _ => None
        end
    | CRecvChars :: t =>
        match ch with
        | MChars l :: ch =>
            if Nat.eqb (length l) (len r)
            then Some (mkT (upd str r l) len (upd todo r t) ch bc nb) else None
        | _ => None
        end
    | CBcastLen :: t =>
        if Nat.eqb r 0 then
          Some (mkT str (upd len r (length (str r))) (upd todo r t) ch
                    (bc ++ [MLen (length (str r))]) (inc nb r))
        else match nth_error bc (nb r) with
             | Some (MLen k) => Some (mkT str (upd len r k) (upd todo r t) ch bc (inc nb r))
             | _ => None
             end
    | CBcastChars :: t =>
        if Nat.eqb r 0 then
          Some (mkT str len (upd todo r t) ch (bc ++ [MChars (str r)]) (inc nb r))
        else match nth_error bc (nb r) with
             | Some (MChars l) =>
                 if Nat.eqb (length l) (len r)
                 then Some (mkT (upd str r l) len (upd todo r t) ch bc (inc nb r)) else None
             | _ => None
             end
    end
  else None.

End Any.
Arguments bst : clear implicits.
Arguments tst : clear implicits.
Arguments smsg : clear implicits.
