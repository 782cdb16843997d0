(** XINTOUT files and what is read from them: the format, written down independently of the code that reads it. *)
From Coq Require Import List ZArith Bool.
From Verif Require Import TupleModel XinModel.
Import ListNotations.
Local Open Scope Z_scope.

(** A number in [n] bytes (two's complement) in the given order. *)
Fixpoint digits (n : nat) (v : Z) : bytes := match n with O => [] | S n => v mod 256 :: digits n (v / 256) end.
Definition put (e : endian) (n : nat) (v : Z) : bytes := match e with LITTLE => digits n v | BIG => rev (digits n v) end.
Definition ints (e : endian) (l : list Z) : bytes := flat_map (put e 4) l.
Definition longs (e : endian) (l : list Z) : bytes := flat_map (put e 8) l.

(** The contents: zero-based cells, points and connections; doubles as 64-bit numbers. *)
Record donor : Type := Donor { d_cell : tup Z; d_size : tup Z; d_coords : tup Z; d_coefs : tup (list Z) }.
Record receiver : Type := Receiver { r_point : tup Z; r_connection : Z }.
(** [g_first] is the connection of the first donor, the following donors have the following ones; [g_other], [g_tail] and [g_blank] are not used. *)
Record grid_data : Type := GridData {
  g_size : tup Z; g_donors : list donor; g_receivers : list receiver; g_first : Z; g_other : Z; g_tail : tup Z; g_blank : list Z }.

Definition len {A} (l : list A) : Z := Z.of_nat (length l).
Definition columns {A} (f : A -> tup Z) (l : list A) : list Z := map (fun x => c0 (f x)) l ++ map (fun x => c1 (f x)) l ++ map (fun x => c2 (f x)) l.
Definition one_based (t : tup Z) : tup Z := T3 (c0 t + 1) (c1 t + 1) (c2 t + 1).
Definition listed (t : tup Z) : list Z := [c0 t; c1 t; c2 t].

(** A record: in the standard format between two copies of its length. *)
Definition record (fmt : format) (e : endian) (b : bytes) : bytes :=
  match fmt with STANDARD => put e 4 (len b) ++ b ++ put e 4 (len b) | EXTENDED => b end.
(** The start of both files: number of grids and four more numbers. *)
Definition file_header (fmt : format) (e : endian) (n : Z) (o : list Z) : bytes :=
  match fmt with
  | STANDARD => put e 4 20 ++ ints e (n :: o) ++ put e 4 20
  | EXTENDED => put e 4 36 ++ ints e [n] ++ longs e o
  end.
Definition coefs_of (g : grid_data) : list Z :=
  flat_map (fun d => c0 (d_coefs d)) (g_donors g) ++ flat_map (fun d => c1 (d_coefs d)) (g_donors g) ++ flat_map (fun d => c2 (d_coefs d)) (g_donors g).
Definition ho_grid (fmt : format) (e : endian) (iblank : bool) (g : grid_data) : bytes :=
  record fmt e (let h := [len (g_receivers g); len (g_donors g); g_other g; g_first g + 1] in
                match fmt with
                | STANDARD => ints e (h ++ listed (g_size g))
                | EXTENDED => longs e h ++ ints e (listed (g_size g)) ++ longs e [len (coefs_of g)]
                end) ++
  record fmt e (ints e (columns (fun d => one_based (d_cell d)) (g_donors g)) ++ longs e (columns d_coords (g_donors g))) ++
  record fmt e (ints e (columns (fun r => one_based (r_point r)) (g_receivers g)) ++
                (let l := map (fun r => r_connection r + 1) (g_receivers g) in match fmt with STANDARD => ints e l | EXTENDED => longs e l end)) ++
  (if iblank then record fmt e (ints e (g_blank g)) else []).
Definition x_grid (fmt : format) (e : endian) (g : grid_data) : bytes :=
  record fmt e (ints e (columns d_size (g_donors g))) ++ record fmt e (longs e (coefs_of g)) ++ record fmt e (ints e (listed (g_tail g))).
Definition ho_file (fmt : format) (e : endian) (iblank : bool) (o : list Z) (gs : list grid_data) : bytes :=
  file_header fmt e (len gs) o ++ flat_map (ho_grid fmt e iblank) gs.
Definition x_file (fmt : format) (e : endian) (o : list Z) (gs : list grid_data) : bytes :=
  file_header fmt e (len gs) o ++ flat_map (x_grid fmt e) gs.

(** Numbers that fit. *)
Definition int_ok (v : Z) : Prop := - 2 ^ 31 <= v < 2 ^ 31.
Definition long_ok (v : Z) : Prop := - 2 ^ 63 <= v < 2 ^ 63.
Definition bits_ok (v : Z) : Prop := 0 <= v < 2 ^ 64.
Definition tup_ok {A} (P : A -> Prop) (t : tup A) : Prop := P (c0 t) /\ P (c1 t) /\ P (c2 t).
Definition id_ok (fmt : format) (v : Z) : Prop := match fmt with STANDARD => int_ok v | EXTENDED => long_ok v end.
Definition donor_ok (d : donor) : Prop :=
  tup_ok (fun v => int_ok (v + 1)) (d_cell d) /\ tup_ok (fun v => 0 <= v < 2 ^ 31) (d_size d) /\ tup_ok bits_ok (d_coords d) /\
  tup_ok (Forall bits_ok) (d_coefs d) /\
  len (c0 (d_coefs d)) = c0 (d_size d) /\ len (c1 (d_coefs d)) = c1 (d_size d) /\ len (c2 (d_coefs d)) = c2 (d_size d).
Definition receiver_ok (fmt : format) (r : receiver) : Prop := tup_ok (fun v => int_ok (v + 1)) (r_point r) /\ id_ok fmt (r_connection r + 1).
(** In the standard format the lengths of the two records that are looked up when reading must be ints. *)
Definition grid_ok (fmt : format) (iblank : bool) (g : grid_data) : Prop :=
  Forall donor_ok (g_donors g) /\ Forall (receiver_ok fmt) (g_receivers g) /\ tup_ok int_ok (g_size g) /\
  id_ok fmt (g_first g + 1) /\ id_ok fmt (g_other g) /\ id_ok fmt (len (g_donors g)) /\ id_ok fmt (len (g_receivers g)) /\
  match fmt with
  | STANDARD => 8 * len (coefs_of g) < 2 ^ 31 /\ (iblank = true -> len (g_blank g) = num_points (g_size g) /\ 4 * len (g_blank g) < 2 ^ 31)
  | EXTENDED => long_ok (len (coefs_of g)) /\ iblank = false
  end.
(** The first grid of a standard file without blanking must not have seven points if there are more grids (C89_seven_points_refuted). *)
Definition file_ok (fmt : format) (iblank : bool) (o : list Z) (gs : list grid_data) : Prop :=
  Forall (grid_ok fmt iblank) gs /\ length o = 4%nat /\ int_ok (len gs) /\
  match fmt, iblank, gs with STANDARD, false, g :: _ :: _ => num_points (g_size g) <> 7 | _, _, _ => True end.

(** What a process has of a donor: zero-based extents, coordinates, coefficients. *)
Definition donor_read (d : donor) : donor_entry := DonorEntry (d_cell d) (tadd (d_cell d) (d_size d)) (d_coords d) (d_coefs d).
Definition receiver_read (r : receiver) : receiver_entry := ReceiverEntry (r_point r) (r_connection r).

(** [count] elements in parts of [chunk] on [chunks] processes. *)
Definition fits (count chunk chunks : Z) : Prop := chunk * (chunks - 1) <= count <= chunk * chunks.
(** The elements of part [k]. *)
Definition part {A} (chunk : Z) (l : list A) (k : nat) : list A := firstn (Z.to_nat chunk) (skipn (Z.to_nat chunk * k) l).
(** The largest size of the donors of a part. *)
Definition max_extent (l : list donor) : Z := fold_right (fun d a => Z.max (c0 (d_size d)) (Z.max (c1 (d_size d)) (Z.max (c2 (d_size d)) a))) 0 l.
(** Number of coefficients in a direction. *)
Definition coefs_in (d : nat) (l : list donor) : Z := fold_right (fun x a => tget (d_size x) d + a) 0 l.
(** The donors can be read in such parts: they fit, and the number of bytes of a column of a part is an int. *)
Definition small (v : Z) : Prop := 8 * v < 2 ^ 31.
Definition donors_fit (chunk chunks : Z) (l : list donor) : Prop :=
  fits (len l) chunk chunks /\ forall k, (k < Z.to_nat chunks)%nat -> small (len (part chunk l k)) /\ forall d, (d < 3)%nat -> small (coefs_in d (part chunk l k)).
Definition receivers_fit (chunk chunks : Z) (l : list receiver) : Prop :=
  fits (len l) chunk chunks /\ forall k, (k < Z.to_nat chunks)%nat -> small (len (part chunk l k)).

(** What is read, part by part. *)
Definition donors_read (first chunk chunks : Z) (l : list donor) : list donor_chunk :=
  map (fun k => DonorChunk (chunk * Z.of_nat k) (chunk * Z.of_nat k + len (part chunk l k)) (first + chunk * Z.of_nat k) (max_extent (part chunk l k))
    (map donor_read (part chunk l k))) (seq 0 (Z.to_nat chunks)).
Definition receivers_read (chunk chunks : Z) (l : list receiver) : list receiver_chunk :=
  map (fun k => ReceiverChunk (chunk * Z.of_nat k) (chunk * Z.of_nat k + len (part chunk l k)) (map receiver_read (part chunk l k))) (seq 0 (Z.to_nat chunks)).

(** Number and size of the parts in which [count] elements of a grid with that size and number of ranks are read (C90). *)
Definition in_parts (count : Z) (grid : tup Z * Z) (adjust : Z) (chunks chunk : Z) : Prop :=
  exists i, chunkify count (snd grid) (bin_divide (num_points (fst grid)) (snd grid)) adjust = Some (i, chunks, chunk).
(** The grids of the domain are those of the file. *)
Definition matches (gs : list grid_data) (domain : list (tup Z * Z)) : Prop :=
  Forall2 (fun g d => fst d = g_size g /\ 1 <= snd d < 2 ^ 31) gs domain.
(** All of it can be read in the parts chosen. *)
Definition readable (gs : list grid_data) (domain : list (tup Z * Z)) (adjust : Z) : Prop :=
  Forall2 (fun g d =>
    (forall n c, in_parts (len (g_donors g)) d adjust n c -> donors_fit c n (g_donors g)) /\
    (forall n c, in_parts (len (g_receivers g)) d adjust n c -> receivers_fit c n (g_receivers g))) gs domain.
(** [L] is what the file has for each grid. *)
Definition contents_read (gs : list grid_data) (domain : list (tup Z * Z)) (adjust : Z) (L : list (list donor_chunk * list receiver_chunk)) : Prop :=
  length L = length gs /\ forall i g d, nth_error gs i = Some g -> nth_error domain i = Some d ->
  exists n c n' c', in_parts (len (g_donors g)) d adjust n c /\ in_parts (len (g_receivers g)) d adjust n' c' /\
  nth_error L i = Some (donors_read (g_first g) c n (g_donors g), receivers_read c' n' (g_receivers g)).

(** [c] is n / b rounded up. *)
Definition ceiling (n b c : Z) : Prop := (c - 1) * b < n <= c * b.
(** An error, or the same result. *)
Definition refines {A} (r r' : res A) : Prop := r = Failed \/ r = r'.
