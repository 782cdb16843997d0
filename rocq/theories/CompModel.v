(** Connected components and flood fill on distributed masks: model of ConnectedComponents and
    FloodMask, src/core/DistributedFieldOps.cpp 204-500.  Fields and partitions as in FieldModel.v. *)
From Coq Require Import List ZArith Bool Arith.
From Verif Require Import TupleModel RangeModel CartModel DecompModel IndexerModel ArrayModel ContModel UFModel HashModel.
From Verif Require Import NetModel LiftModel HaloModel FieldModel.
Import ListNotations.
Local Open Scope Z_scope.

(** ** Labelling of the local points, 221-262 *)

(** The points of the range with third coordinate o. *)
Definition slab (r : range) (o : Z) : range := mkR (tset (rb r) 2%nat o) (tset (re r) 2%nat (o + 1)).

(** 238-251: the label of the first neighbour that has the same value and a label. *)
Fixpoint first_label (e : range) (mask : list bool) (lab : list Z) (value : bool) (qs : list (tup Z)) : option (option Z) :=
  match qs with
  | [] => Some None
  | q :: qs =>
      let! nv := fread e mask q in
      if Bool.eqb nv value then
        let! nl := fread e lab q in
        if 0 <=? nl then Some (Some nl) else first_label e mask lab value qs
      else first_label e mask lab value qs
  end.

(** ComponentLabels, NumLocalComponents, LocalComponentSets. *)
Record lst : Type := LS { l_lab : list Z; l_num : Z; l_sets : uf }.

(** 237-258: one iteration of the loop over o; the jump leaves the two inner loops only. *)
Definition label_slab (e : range) (mask : list bool) (p : tup Z) (value : bool) (nr : range) (s : lst) (o : Z) : option lst :=
  let! f := first_label e mask (l_lab s) value (RangeModel.foreach_col (slab nr o)) in
  let! lab := match f with Some l => fwrite e (l_lab s) p l | None => Some (l_lab s) end in
  let! x := fread e lab p in
  if x <? 0
  then let! lab' := fwrite e lab p (l_num s) in
       Some (LS lab' (l_num s + 1) (uf_insert (l_sets s) (l_num s)))
  else Some (LS lab (l_num s) (l_sets s)).

(** 224-258 *)
Definition label_point (nd : nat) (loc e : range) (mask : list bool) (s : lst) (p : tup Z) : option lst :=
  let! value := fread e mask p in
  let nr := intersect_ranges (neighbor_range nd p) loc in
  ofoldl (label_slab e mask p value nr)
         (zseq (tget (rb nr) 2%nat) (Z.to_nat (tget (re nr) 2%nat - tget (rb nr) 2%nat))) s.

(** 264-296: joining the labels of adjacent points. *)
Definition join_neighbor (e : range) (mask : list bool) (lab : list Z) (value : bool) (label : Z) (u : uf) (q : tup Z) : option uf :=
  let! nv := fread e mask q in
  if Bool.eqb nv value then
    let! nl := fread e lab q in
    if 0 <=? nl then option_map fst (uf_union u label nl) else Some u
  else Some u.

Definition join_point (nd : nat) (loc e : range) (mask : list bool) (lab : list Z) (u : uf) (p : tup Z) : option uf :=
  let! value := fread e mask p in
  let! label := fread e lab p in
  ofoldl (join_neighbor e mask lab value label) (RangeModel.foreach_col (intersect_ranges (neighbor_range nd p) loc)) u.

(** 300-309: the roots, numbered in ascending order. *)
Definition add_root (s : uf * smap Z Z) (x : Z) : option (uf * smap Z Z) :=
  let! f := uf_find (fst s) x in
  Some (fst f, fst (map_fetch Z.ltb (snd s) (snd f) (-1))).

Definition number_roots (m : smap Z Z) : smap Z Z :=
  fold_left (fun m i => map_write m i (Z.of_nat i)) (seq 0 (length (m_keys m))) m.

(** 311-320 *)
Definition renumber_point (e : range) (roots : smap Z Z) (s : uf * list Z) (p : tup Z) : option (uf * list Z) :=
  let! x := fread e (snd s) p in
  let! f := uf_find (fst s) x in
  let! y := map_at Z.ltb roots (snd f) in
  let! lab := fwrite e (snd s) p y in
  Some (fst f, lab).

(** 216-320: NumLocalComponents and the labels (-1 outside the local range). *)
Definition local_components (nd : nat) (loc e : range) (mask : list bool) : option (Z * list Z) :=
  let pts := RangeModel.foreach_col loc in
  let! s := ofoldl (label_point nd loc e mask) pts (LS (repeat (-1) (Z.to_nat (rcount e))) 0 uf_empty) in
  let! u := ofoldl (join_point nd loc e mask (l_lab s)) pts (l_sets s) in
  let! u := uf_relabel u in
  let! ur := ofoldl add_root (uf_el u) (u, map_empty) in
  let! ul := ofoldl (renumber_point e (number_roots (snd ur))) pts (fst ur, l_lab s) in
  Some (l_num s, snd ul).

(** ** All ranks *)

(** The local variables: halo map of the partition, Mask, ComponentLabels, NumLocalComponents,
    NumComponentsBeforeRank, GlobalComponentSets, ExtendedUnions (then GlobalUnions), MaxLabel, LabelExists,
    NumComponents. *)
Record kst : Type := KS {
  k_map : hmap; k_mask : list bool; k_lab : list Z; k_nloc : Z; k_before : Z; k_sets : uf;
  k_unions : list (Z * Z); k_max : Z; k_exists : list Z; k_num : Z }.

Definition k_get (s : kst) : option (hmap * list Z) := Some (k_map s, k_lab s).
Definition k_put (s : kst) (a : hmap * list Z) : kst :=
  KS (fst a) (k_mask s) (snd a) (k_nloc s) (k_before s) (k_sets s) (k_unions s) (k_max s) (k_exists s) (k_num s).

Definition comp_local (nd : nat) (loc e : range) (s : kst) : option kst :=
  let! x := local_components nd loc e (k_mask s) in
  Some (KS (k_map s) (k_mask s) (snd x) (fst x) (k_before s) (k_sets s) (k_unions s) (k_max s) (k_exists s) (k_num s)).

(** 324-326: MPI_Scan, minus the rank's own count. *)
Definition comp_scan (l : list kst) (r : nat) : option kst :=
  let! s := nth_error l r in
  Some (KS (k_map s) (k_mask s) (k_lab s) (k_nloc s) (fold_left Z.add (map k_nloc (firstn r l)) 0) (k_sets s)
           (k_unions s) (k_max s) (k_exists s) (k_num s)).

(** 322, 328-337 *)
Definition offset_point (e : range) (before : Z) (s : uf * list Z) (p : tup Z) : option (uf * list Z) :=
  let! x := fread e (snd s) p in
  let! lab := fwrite e (snd s) p (x + before) in
  Some (uf_insert (fst s) (x + before), lab).

Definition comp_offset (loc e : range) (s : kst) : option kst :=
  let! x := ofoldl (offset_point e (k_before s)) (RangeModel.foreach_col loc) (uf_empty, k_lab s) in
  Some (KS (k_map s) (k_mask s) (snd x) (k_nloc s) (k_before s) (fst x) (k_unions s) (k_max s) (k_exists s) (k_num s)).

(** 344-378: ExtendedUnions, an elem_set<int,2>. *)
Definition union_neighbor (loc e : range) (mask : list bool) (lab : list Z) (value : bool) (label : Z)
    (us : list (Z * Z)) (q : tup Z) : option (list (Z * Z)) :=
  if rcontains loc q then Some us
  else
    let! nv := fread e mask q in
    if Bool.eqb nv value then
      let! nl := fread e lab q in
      Some (set_insert pair_less us (label, nl))
    else Some us.

Definition union_point (nd : nat) (loc e : range) (mask : list bool) (lab : list Z) (us : list (Z * Z)) (p : tup Z)
    : option (list (Z * Z)) :=
  let! value := fread e mask p in
  let! label := fread e lab p in
  ofoldl (union_neighbor loc e mask lab value label) (RangeModel.foreach_col (intersect_ranges (neighbor_range nd p) e)) us.

Definition comp_unions (nd : nat) (loc e : range) (s : kst) : option kst :=
  let! us := ofoldl (union_point nd loc e (k_mask s) (k_lab s)) (RangeModel.foreach_col loc) [] in
  Some (KS (k_map s) (k_mask s) (k_lab s) (k_nloc s) (k_before s) (k_sets s) us (k_max s) (k_exists s) (k_num s)).

(** 380-406: MPI_Allgather of the counts and MPI_Allgatherv of the pairs. *)
Definition comp_gather (l : list kst) (r : nat) : option kst :=
  let! s := nth_error l r in
  Some (KS (k_map s) (k_mask s) (k_lab s) (k_nloc s) (k_before s) (k_sets s) (flat_map k_unions l) (k_max s)
           (k_exists s) (k_num s)).

(** 408-412 *)
Definition join (u : uf) (p : Z * Z) : option uf :=
  option_map fst (uf_union (uf_insert (uf_insert u (fst p)) (snd p)) (fst p) (snd p)).
Definition join_all (u : uf) (ps : list (Z * Z)) : option uf := ofoldl join ps u.

(** 416-424 *)
Definition root_point (e : range) (s : uf * list Z) (p : tup Z) : option (uf * list Z) :=
  let! x := fread e (snd s) p in
  let! f := uf_find (fst s) x in
  let! lab := fwrite e (snd s) p (snd f) in
  Some (fst f, lab).

Definition comp_roots (loc e : range) (s : kst) : option kst :=
  let! u := join_all (k_sets s) (k_unions s) in
  let! u := uf_relabel u in
  let! x := ofoldl (root_point e) (RangeModel.foreach_col loc) (u, k_lab s) in
  Some (KS (k_map s) (k_mask s) (snd x) (k_nloc s) (k_before s) (fst x) (k_unions s) (k_max s) (k_exists s) (k_num s)).

(** 428: ArrayMax; of an empty array it is an error. *)
Definition array_max (l : list Z) : option Z :=
  match l with [] => None | x :: r => Some (fold_left Z.max r x) end.

Definition comp_max (s : kst) : option kst :=
  let! m := array_max (k_lab s) in
  Some (KS (k_map s) (k_mask s) (k_lab s) (k_nloc s) (k_before s) (k_sets s) (k_unions s) m (k_exists s) (k_num s)).

(** 429: MPI_Allreduce with MPI_MAX. *)
Definition comp_allmax (l : list kst) (r : nat) : option kst :=
  let! s := nth_error l r in
  let! m := array_max (map k_max l) in
  Some (KS (k_map s) (k_mask s) (k_lab s) (k_nloc s) (k_before s) (k_sets s) (k_unions s) m (k_exists s) (k_num s)).

(** 431-441: LabelExists; an array of negative size is an error. *)
Definition comp_exists (loc e : range) (s : kst) : option kst :=
  if k_max s + 1 <? 0 then None
  else
    let! x := ofoldl (fun ex p => let! l := fread e (k_lab s) p in vwrite ex l 1) (RangeModel.foreach_col loc)
                     (repeat 0 (Z.to_nat (k_max s + 1))) in
    Some (KS (k_map s) (k_mask s) (k_lab s) (k_nloc s) (k_before s) (k_sets s) (k_unions s) (k_max s) x (k_num s)).

(** 443: MPI_Allreduce with MPI_LOR, element by element. *)
Definition or_flags (a b : list Z) : list Z :=
  map (fun x => if (fst x =? 0) && (snd x =? 0) then 0 else 1) (combine a b).

Definition comp_allor (l : list kst) (r : nat) : option kst :=
  let! s := nth_error l r in
  match map k_exists l with
  | [] => None
  | x :: xs =>
      Some (KS (k_map s) (k_mask s) (k_lab s) (k_nloc s) (k_before s) (k_sets s) (k_unions s) (k_max s)
               (fold_left or_flags xs x) (k_num s))
  end.

(** 445-453: GlobalRootToContiguous (None: not initialised) and NumComponents. *)
Definition contiguous (ex : list Z) : list (option Z) * Z :=
  fold_left (fun s x => if x =? 0 then (fst s ++ [None], snd s) else (fst s ++ [Some (snd s)], snd s + 1)) ex ([], 0).

(** 455-458 *)
Definition comp_final (s : kst) : option kst :=
  let c := contiguous (k_exists s) in
  let! lab := omap (fun x => let! o := vread (fst c) x in o) (k_lab s) in
  Some (KS (k_map s) (k_mask s) lab (k_nloc s) (k_before s) (k_sets s) (k_unions s) (k_max s) (k_exists s) (snd c)).

Definition connected_components (nd : nat) (L E : nat -> range) : list (phase kst (list Z)) :=
  [Local (fun r => comp_local nd (L r) (E r)); Coll comp_scan; Local (fun r => comp_offset (L r) (E r))] ++
  lift k_get k_put [halo_exchange] ++
  [Local (fun r => comp_unions nd (L r) (E r)); Coll comp_gather; Local (fun r => comp_roots (L r) (E r))] ++
  lift k_get k_put [halo_exchange] ++
  [Local (fun r => comp_max); Coll comp_allmax; Local (fun r => comp_exists (L r) (E r)); Coll comp_allor;
   Local (fun r => comp_final)].

(** ** FloodMask, 460-500 *)

(** Mask and IsFloodComponent; the barrier mask and its components are in the inner state. *)
Record flst : Type := FS { f_mask : list bool; f_flood : list Z; f_comp : kst }.

Definition f_get (s : flst) : option kst := Some (f_comp s).
Definition f_put (s : flst) (k : kst) : flst := FS (f_mask s) (f_flood s) k.

(** 471-484 *)
Definition flood_mark (e : range) (s : flst) : option flst :=
  if k_num (f_comp s) <? 0 then None
  else
    let! fl := ofoldl (fun fl p =>
                 let! m := fread e (f_mask s) p in
                 let! b := fread e (k_mask (f_comp s)) p in
                 if m && negb b
                 then let! l := fread e (k_lab (f_comp s)) p in vwrite fl l 1
                 else Some fl) (RangeModel.foreach_col e) (repeat 0 (Z.to_nat (k_num (f_comp s)))) in
    Some (FS (f_mask s) fl (f_comp s)).

(** 486: MPI_Allreduce with MPI_MAX, element by element. *)
Definition max_flags (a b : list Z) : list Z := map (fun x => Z.max (fst x) (snd x)) (combine a b).

Definition flood_max (l : list flst) (r : nat) : option flst :=
  let! s := nth_error l r in
  match map f_flood l with
  | [] => None
  | x :: xs => Some (FS (f_mask s) (fold_left max_flags xs x) (f_comp s))
  end.

(** 488-499 *)
Definition flood_fill (e : range) (s : flst) : option flst :=
  let! m := ofoldl (fun m p =>
              let! b := fread e (k_mask (f_comp s)) p in
              if b : bool then Some m
              else
                let! l := fread e (k_lab (f_comp s)) p in
                let! f := vread (f_flood s) l in
                if f =? 0 then Some m else fwrite e m p true) (RangeModel.foreach_col e) (f_mask s) in
  Some (FS m (f_flood s) (f_comp s)).

Definition flood_mask (nd : nat) (L E : nat -> range) : list (phase flst (list Z)) :=
  lift f_get f_put (connected_components nd L E) ++
  [Local (fun r => flood_mark (E r)); Coll flood_max; Local (fun r => flood_fill (E r))].

(** The states on entry. *)
Definition K0 (h : hmap) (mask : list bool) : kst := KS h mask [] 0 0 uf_empty [] 0 [] 0.
Definition FL0 (h : hmap) (mask barrier : list bool) : flst := FS mask [] (K0 h barrier).
