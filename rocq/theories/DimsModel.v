(** Model of CreateCartesianDecompDims (src/core/Comm.cpp 43-136).

    MPI_Dims_create is an oracle: its result is an argument.  The debug check of lines 65-77 has
    no effect.  Machine overflow is not represented.  None: a loop does not end. *)
From Coq Require Import List ZArith Bool.
From Verif Require Import TupleModel DecompModel DomainModel.
Import ListNotations.
Local Open Scope Z_scope.

(** 53-63: SmallPrimes. *)
Definition small_primes : list Z :=
  [2; 3; 5; 7; 11; 13; 17; 19; 23; 29; 31; 37; 41; 43; 47; 53; 59; 61; 67;
   71; 73; 79; 83; 89; 97; 101; 103; 107; 109; 113; 127; 131; 137; 139; 149; 151; 157; 163;
   167; 173; 179; 181; 191; 193; 197; 199; 211; 223; 227; 229; 233; 239; 241; 251; 257; 263; 269;
   271; 277; 281; 283; 293; 307; 311; 313; 317; 331; 337; 347; 349; 353; 359; 367; 373; 379; 383;
   389; 397; 401; 409; 419; 421; 431; 433; 439; 443; 449; 457; 461; 463; 467; 479; 487; 491; 499;
   503; 509; 521; 523; 541; 547; 557; 563; 569; 571; 577; 587; 593; 599; 601; 607; 613; 617; 619;
   631; 641; 643; 647; 653; 659; 661; 673; 677; 683; 691; 701; 709; 719; 727; 733; 739; 743; 751;
   757; 761; 769; 773; 787; 797; 809; 811; 821; 823; 827; 829; 839; 853; 857; 859; 863; 877; 881;
   883; 887; 907; 911; 919; 929; 937; 941; 947; 953; 967; 971; 977; 983; 991; 997].

(** 79-91: DimsVariance; std::round of a non-negative quotient. *)
Definition dims_variance (nd : nat) (dims : tup Z) : Z :=
  let sum := fold_left (fun m d => m + tget dims d) (seq 0 nd) 0 in
  let mean := Z.quot (2 * sum + Z.of_nat nd) (2 * Z.of_nat nd) in
  fold_left (fun v d => v + (tget dims d - mean) * (tget dims d - mean)) (seq 0 nd) 0.

(** 100-103: the factors [p] of [r]. *)
Fixpoint divide_out (fuel : nat) (p r : Z) (acc : list Z) : option (list Z * Z) :=
  match fuel with
  | O => None
  | S f => if Z.eqb (Z.rem r p) 0 then divide_out f p (Z.quot r p) (acc ++ [p]) else Some (acc, r)
  end.
(** 95-104: PrimeFactors. *)
Fixpoint prime_factors (primes : list Z) (r : Z) (acc : list Z) : option (list Z) :=
  match primes with
  | [] => Some acc
  | p :: ps => if r <? p then Some acc
               else match divide_out (S (Z.to_nat r)) p r acc with
                    | Some (acc', r') => prime_factors ps r' acc'
                    | None => None
                    end
  end.

(** 105-121: the best place for one factor. *)
Definition move_factor (nd : nat) (input : tup Z) (i : nat) (dims : tup Z) (f : Z) : tup Z :=
  fst (fold_left (fun best c =>
         let o := Nat.modulo c nd in
         if Z.eqb (tget input o) 0 then
           let d1 := tset dims i (Z.quot (tget dims i) f) in
           let new := tset d1 o (tget d1 o * f) in
           let v := dims_variance nd new in
           if v <? snd best then (new, v) else best
         else best)
       (seq (i + 1) (nd - 1)) (dims, dims_variance nd dims)).

(** 93-122. *)
Definition rebalance (nd : nat) (input : tup Z) (dims : tup Z) : option (tup Z) :=
  ofold (fun dims i => if Z.eqb (tget input i) 0 then
                         let? fs := prime_factors small_primes (tget dims i) [] in
                         Some (fold_left (move_factor nd input i) fs dims)
                       else Some dims) (seq 0 nd) dims.

(** 124-132: the conditional swaps. *)
Definition swap_if (input : tup Z) (i j : nat) (dims : tup Z) : tup Z :=
  if Z.eqb (tget input i) 0 && Z.eqb (tget input j) 0 && (tget dims i <? tget dims j)
  then tset (tset dims i (tget dims j)) j (tget dims i) else dims.

(** 43-136: CreateCartesianDecompDims; [mpi] is the result of MPI_Dims_create. *)
Definition decomp_dims (nd : nat) (input mpi : tup Z) : option (tup Z) :=
  let? d := rebalance nd input mpi in
  Some (swap_if input 1 2 (swap_if input 0 2 (swap_if input 0 1 d))).
