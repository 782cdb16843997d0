(** Reading XINTOUT files (C89) and how the reading is divided among processes (C90): theorems.

    [read_xintout m domain adjust ho x] is the result of reading the files [ho] and [x], of bytes, on machines of byte order [m], into a domain of which [domain] has
    the size and the number of processes of each grid; [adjust] is the granularity adjustment. *)
From Coq Require Import List ZArith Bool.
From Verif Require Import TupleModel XinModel XinSpec XinBytes XinChunk XinMain XinFile XinEx.
Import ListNotations.
Local Open Scope Z_scope.

(** Files of either format, byte order and blanking are read, whatever the byte order of the machine: each process that reads gets its part of the donors and
    receivers of its grid, in the order of the file, with the cells and points counted from zero. *)
Theorem C89_read : forall m e fmt iblank oh ox gs domain adjust, file_ok fmt iblank oh gs -> length ox = 4%nat -> gs <> [] -> matches gs domain -> readable gs domain adjust ->
  exists L, read_xintout m domain adjust (ho_file fmt e iblank oh gs) (x_file fmt e ox gs) = Done L /\ contents_read gs domain adjust L.
Proof. exact file_read. Qed.
Print Assumptions C89_read.

(** Together the parts are all donors and receivers of the grid, once each and in order. *)
Theorem C89_parts : forall gs domain adjust L, matches gs domain -> readable gs domain adjust -> contents_read gs domain adjust L -> forall i g, nth_error gs i = Some g ->
  exists D R, nth_error L i = Some (D, R) /\ concat (map dc_data D) = map donor_read (g_donors g) /\ concat (map rc_data R) = map receiver_read (g_receivers g).
Proof. exact contents_all. Qed.
Print Assumptions C89_parts.

(** Files that end early are not read as something else: the result is an error or the one for the whole files, whatever bytes are in them. *)
Theorem C89_truncated : forall m domain adjust ho x th tx, (4 <= length ho)%nat -> refines (read_xintout m domain adjust ho x) (read_xintout m domain adjust (ho ++ th) (x ++ tx)).
Proof. exact truncated. Qed.
Print Assumptions C89_truncated.

(** That every file of the format is read is false: if there is no blanking and the first of several grids has seven points, the file is taken to have blanking,
    because the record that follows has as many bytes as seven flags. *)
Theorem C89_seven_points_refuted : exists gs domain, Forall (grid_ok STANDARD false) gs /\ matches gs domain /\ readable gs domain 0 /\
  read_xintout LITTLE domain 0 (ho_file STANDARD LITTLE false ex_other gs) (x_file STANDARD LITTLE ex_other gs) = Failed.
Proof. exact seven_misread. Qed.
Print Assumptions C89_seven_points_refuted.

(** That a file that ends early always gives an error is false of files of less than four bytes: bytes that were never read decide what happens. *)
Theorem C89_short_refuted : exists m domain ho x, (length ho < 4)%nat /\ read_xintout m domain 0 ho x = Undefined.
Proof. exact short_file. Qed.
Print Assumptions C89_short_refuted.

(** Two grids on eight and on three processes; the last coordinates and coefficients have all kinds of bytes. *)
Example C89_example : file_ok EXTENDED false ex_other ex_grids /\ file_ok STANDARD true ex_other ex_grids /\ matches ex_grids ex_domain /\ readable ex_grids ex_domain 0.
Proof. repeat split; try apply ex_ok; try apply ex_matches; try apply ex_readable; auto; discriminate. Qed.
Example C89_example_read : forall m e fmt iblank, (fmt = EXTENDED -> iblank = false) -> exists L,
  read_xintout m ex_domain 0 (ho_file fmt e iblank ex_other ex_grids) (x_file fmt e ex_other ex_grids) = Done L /\
  concat (map dc_data (fst (nth 0 L ([], [])))) = map donor_read (g_donors ex_grid1) /\ concat (map rc_data (snd (nth 1 L ([], [])))) = map receiver_read (g_receivers ex_grid2).
Proof. exact ex_read. Qed.
Example C89_example_truncated : read_xintout LITTLE ex_domain 0 (firstn 200 (ho_file STANDARD BIG true ex_other ex_grids)) (x_file STANDARD BIG ex_other ex_grids) = Failed.
Proof. vm_compute. reflexivity. Qed.

(** Some of the processes read: those whose rank is a multiple of a number. Each is given equally many elements, rounded up, and unless more readers are asked
    for, at least as many as a process has points, or all of them. *)
Theorem C90_division : forall count p t adjust, 0 <= count -> 1 <= p -> exists i n c, chunkify count p t adjust = Some (i, n, c) /\
  1 <= i <= p /\ readers p i = map (fun k => i * Z.of_nat k) (seq 0 (Z.to_nat n)) /\ ceiling p i n /\ ceiling count n c /\ (adjust <= 0 -> t <= c \/ n = 1).
Proof. exact chunkify_readers. Qed.
Print Assumptions C90_division.

(** Without adjustment there are no fewer readers than needed: all processes read, or with half the interval a reader would have too few elements. *)
Theorem C90_least : forall count p t i n c, 0 <= count -> 1 <= p -> chunkify count p t 0 = Some (i, n, c) ->
  n = p \/ exists i0 n0 c0, i = Z.min (i0 * 2) p /\ 1 <= i0 <= p /\ ceiling p i0 n0 /\ n < n0 /\ ceiling count n0 c0 /\ c0 < t.
Proof. exact chunkify_least. Qed.
Print Assumptions C90_least.

(** The higher the adjustment, the more readers, with fewer elements each. *)
Theorem C90_adjust : forall count p t adjust adjust' i n c i' n' c', 0 <= count -> 1 <= p -> adjust <= adjust' ->
  chunkify count p t adjust = Some (i, n, c) -> chunkify count p t adjust' = Some (i', n', c') -> n <= n' /\ c' <= c.
Proof. exact chunkify_adjust. Qed.
Print Assumptions C90_adjust.

(** The parts cover the elements, and no part starts after the end, if there are at least as many elements as the square of one less than the readers, ... *)
Theorem C90_fits : forall count n c, 1 <= n -> ceiling count n c -> (n - 1) * (n - 1) <= count -> fits count c n.
Proof. exact fits_square. Qed.
Print Assumptions C90_fits.

(** ... or if no more readers are asked for, and the processes have at least one point for each of the others. *)
Theorem C90_usual : forall count p t adjust i n c, 0 <= count -> 1 <= p -> adjust <= 0 -> p - 1 <= t -> chunkify count p t adjust = Some (i, n, c) -> fits count c n.
Proof. exact chunkify_usual. Qed.
Print Assumptions C90_usual.

(** If a part starts after the end, the file is not read. *)
Theorem C90_refused : forall m e fmt iblank oh ox gs domain adjust, file_ok fmt iblank oh gs -> length ox = 4%nat -> gs <> [] -> matches gs domain ->
  forall i g d n c, nth_error gs i = Some g -> nth_error domain i = Some d ->
  in_parts (len (g_donors g)) d adjust n c /\ ~ fits (len (g_donors g)) c n \/ in_parts (len (g_receivers g)) d adjust n c /\ ~ fits (len (g_receivers g)) c n ->
  ~ exists L, read_xintout m domain adjust (ho_file fmt e iblank oh gs) (x_file fmt e ox gs) = Done L.
Proof. exact file_refused. Qed.
Print Assumptions C90_refused.

(** So that every file of moderate size can be read on any number of processes is false: five donors on four processes are refused. *)
Theorem C90_refused_refuted : exists gs domain, file_ok STANDARD false ex_other gs /\ matches gs domain /\
  (forall g, In g gs -> small (len (g_donors g)) /\ small (len (g_receivers g)) /\ small (len (coefs_of g))) /\
  read_xintout LITTLE domain 0 (ho_file STANDARD LITTLE false ex_other gs) (x_file STANDARD LITTLE ex_other gs) = Failed.
Proof. exact refused_file. Qed.
Print Assumptions C90_refused_refuted.

Example C90_example : chunkify 100 12 30 0 = Some (4, 3, 34) /\ chunkify 100 12 30 1 = Some (2, 6, 17) /\ chunkify 100 12 30 (-5) = Some (12, 1, 100) /\ readers 12 4 = [0; 4; 8].
Proof. repeat split; reflexivity. Qed.
Example C90_example_refused : in_parts (len (g_donors five_grid)) (T3 4 1 1, 4) 0 4 2 /\ ~ fits (len (g_donors five_grid)) 2 4.
Proof. exact refused_parts. Qed.
