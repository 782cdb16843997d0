(** The parts of an assembly that work on the masks and state flags of one grid, on all ranks of the
    grid: model of src/core/AssemblerAssembly.cpp 158-200 (resetting the flags, generating masks),
    2576-2589, 2714-2757 (InferBoundaries_), 3232-3291, 3420-3489 (LocateOuterFringe_), 3957-3986 (applying the occlusion
    to the flags), 4036-4139 (MinimizeOverlap_), 4284-4375 (receivers and their distances) and
    4552-4599 (orphans), with GenerateActiveMask, GenerateDomainBoundaryMask and
    GenerateInternalBoundaryMask (5244-5330), and the flags of src/core/State.h 14-55.
    A rank holds the values of each field on its extended range, in column-major order.
    Simplifications: one grid at a time (in the code every rank goes through its grids in the order
    of their IDs); what other grids contribute (overlap, occlusion, donors) is given as fields; the
    logging, timing and the cell masks are left out. *)
From Coq Require Import List ZArith Bool.
From Verif Require Import TupleModel RangeModel CartModel DecompModel IndexerModel ArrayModel ContModel HashModel.
From Verif Require Import NetModel LiftModel HaloModel PartModel FieldModel.
Import ListNotations.
Local Open Scope Z_scope.

(** ** State flags, State.h 14-33 *)

Definition F_ACTIVE := Z.shiftl 1 0.
Definition F_DOMAIN_BOUNDARY := Z.shiftl 1 1.
Definition F_INTERNAL_BOUNDARY := Z.shiftl 1 2.
Definition F_OVERLAPPED := Z.shiftl 1 3.
Definition F_INFERRED := Z.shiftl 1 4.
Definition F_BOUNDARY_HOLE := Z.shiftl 1 5.
Definition F_OCCLUDED := Z.shiftl 1 6.
Definition F_FRINGE := Z.shiftl 1 7.
Definition F_OUTER_FRINGE := Z.shiftl 1 8.
Definition F_INNER_FRINGE := Z.shiftl 1 9.
Definition F_MINIMIZED := Z.shiftl 1 10.
Definition F_RECEIVER := Z.shiftl 1 11.
Definition F_ORPHAN := Z.shiftl 1 12.

(** State.hpp 55-66 *)
Definition f_or := Z.lor.
Definition f_and := Z.land.
Definition f_not := Z.lnot.
Definition has_any (f mask : Z) : bool := negb (f_and f mask =? 0).
(** AssemblerAssembly.cpp 5300-5302: MatchesAll. *)
Definition has_all (f mask : Z) : bool := f_and f mask =? mask.

(** 158-168: AllAssemblyFlags. *)
Definition ALL_ASSEMBLY : Z :=
  f_or (f_or (f_or (f_or (f_or (f_or (f_or (f_or (f_or F_OVERLAPPED F_INFERRED) F_BOUNDARY_HOLE) F_OCCLUDED)
    F_FRINGE) F_OUTER_FRINGE) F_INNER_FRINGE) F_MINIMIZED) F_RECEIVER) F_ORPHAN.

(** 178-186: the flags of a point when an assembly begins. *)
Definition reset_flags (f : Z) : Z :=
  let f1 := if has_any f (f_or F_BOUNDARY_HOLE F_MINIMIZED) then f_or f F_ACTIVE else f in
  let f2 := if has_any f1 F_INFERRED then f_and f1 (f_not F_DOMAIN_BOUNDARY) else f1 in
  f_and f2 (f_not ALL_ASSEMBLY).

(** 5251-5253, 5304-5307, 5323-5326 *)
Definition active_of (f : Z) : bool := has_any f F_ACTIVE.
Definition domain_boundary_of (f : Z) : bool := has_all f (f_or F_ACTIVE F_DOMAIN_BOUNDARY).
Definition internal_boundary_of (f : Z) : bool := has_all f (f_or F_ACTIVE F_INTERNAL_BOUNDARY).

(** 2747-2751 *)
Definition flag_inferred (inferred : bool) (f : Z) : Z :=
  if inferred then f_or f (f_or F_DOMAIN_BOUNDARY F_INFERRED) else f.
(** 3279-3281 *)
Definition flag_hole (hole : bool) (f : Z) : Z :=
  if hole then f_or (f_and f (f_not F_ACTIVE)) F_BOUNDARY_HOLE else f.
(** 3484-3487 *)
Definition flag_outer (fringe : bool) (f : Z) : Z :=
  if fringe then f_or f (f_or F_FRINGE F_OUTER_FRINGE) else f.
(** 3976-3978 *)
Definition flag_occluded (occluded : bool) (f : Z) : Z := if occluded then f_or f F_OCCLUDED else f.
(** 4111-4117 *)
Definition flag_minimized (removed inner : bool) (f : Z) : Z :=
  if removed then f_or (f_and f (f_not (f_or F_ACTIVE F_OUTER_FRINGE))) F_MINIMIZED
  else if inner then f_or f (f_or F_FRINGE F_INNER_FRINGE) else f.
(** 4590-4597 *)
Definition flag_receiver (receiver orphan : bool) (f : Z) : Z :=
  let f1 := if receiver then f_or f F_RECEIVER else f in if orphan then f_or f1 F_ORPHAN else f1.
(** 2584-2586 *)
Definition flag_overlapped (overlapped : bool) (f : Z) : Z := if overlapped then f_or f F_OVERLAPPED else f.

(** ** The state of a rank *)

(** The halo map and neighbours of the grid's partition; the partition with exterior points
    once it is in the pool; the edge mask within DilateMask; the construction of the exterior
    partition; counts; masks on the grid; masks on the grid with exterior points; integer fields;
    masks on the local range (overlap_n::Mask). *)
Record ast : Type := AS {
  a_map : hmap; a_ranks : list nat; a_pool : option hmap; a_tmp : list bool; a_new : pst bool; a_cnt : list cst;
  a_m : list (list bool); a_x : list (list bool); a_z : list (list Z); a_o : list (list bool) }.

Fixpoint rput {A} (k : nat) (v : A) (l : list A) {struct l} : list A :=
  match l, k with
  | [], _ => []
  | _ :: t, O => v :: t
  | x :: t, S k' => x :: rput k' v t
  end.

Definition set_m (k : nat) (d : list bool) (s : ast) : ast :=
  AS (a_map s) (a_ranks s) (a_pool s) (a_tmp s) (a_new s) (a_cnt s) (rput k d (a_m s)) (a_x s) (a_z s) (a_o s).
Definition set_x (k : nat) (d : list bool) (s : ast) : ast :=
  AS (a_map s) (a_ranks s) (a_pool s) (a_tmp s) (a_new s) (a_cnt s) (a_m s) (rput k d (a_x s)) (a_z s) (a_o s).
Definition set_z (k : nat) (d : list Z) (s : ast) : ast :=
  AS (a_map s) (a_ranks s) (a_pool s) (a_tmp s) (a_new s) (a_cnt s) (a_m s) (a_x s) (rput k d (a_z s)) (a_o s).
Definition set_tmp (d : list bool) (s : ast) : ast :=
  AS (a_map s) (a_ranks s) (a_pool s) d (a_new s) (a_cnt s) (a_m s) (a_x s) (a_z s) (a_o s).
Definition set_new (p : pst bool) (s : ast) : ast :=
  AS (a_map s) (a_ranks s) (a_pool s) (a_tmp s) p (a_cnt s) (a_m s) (a_x s) (a_z s) (a_o s).
Definition set_cnt (k : nat) (c : cst) (s : ast) : ast :=
  AS (a_map s) (a_ranks s) (a_pool s) (a_tmp s) (a_new s) (rput k c (a_cnt s)) (a_m s) (a_x s) (a_z s) (a_o s).
Definition set_pool (h : hmap) (s : ast) : ast :=
  AS (a_map s) (a_ranks s) (Some h) (a_tmp s) (a_new s) (a_cnt s) (a_m s) (a_x s) (a_z s) (a_o s).

Definition amsg : Type := pmsg bool.

(** ** Statements of the programs *)

Section Grid.
Variables (c : cart) (n : nat) (L E : nat -> range).
Notation c' := (cart_include_exterior c).
Notation L' := (fun r => range_include_exterior c (L r)).
Notation E' := (fun r => range_include_exterior c (E r)).

(** for (long long l = 0; l < NumExtended; ++l) X[l] = f(A[l], B[l], ...) *)
Definition pointwise {V} (e : range) (ms : list (list bool)) (zs : list (list Z)) (km kz : list nat)
    (f : list bool -> list Z -> V) : option (list V) :=
  omap (fun l => let! x := omap (fun k => let! v := nth_error ms k in vread v l) km in
                 let! y := omap (fun k => let! v := nth_error zs k in vread v l) kz in
                 Some (f x y)) (zseq 0 (Z.to_nat (rcount e))).

Definition masks_of (r : nat) (dst : nat) (km kz : list nat) (f : list bool -> list Z -> bool) (s : ast) : option ast :=
  let! d := pointwise (E r) (a_m s) (a_z s) km kz f in Some (set_m dst d s).
Definition ints_of (r : nat) (dst : nat) (km kz : list nat) (f : list bool -> list Z -> Z) (s : ast) : option ast :=
  let! d := pointwise (E r) (a_m s) (a_z s) km kz f in Some (set_z dst d s).
Definition mask_from (dst : nat) (km kz : list nat) (f : list bool -> list Z -> bool) : list (phase ast amsg) :=
  [Local (fun r s => masks_of r dst km kz f s)].
Definition int_from (dst : nat) (km kz : list nat) (f : list bool -> list Z -> Z) : list (phase ast amsg) :=
  [Local (fun r s => ints_of r dst km kz f s)].
(** The same for masks with exterior points. *)
Definition ext_from (dst : nat) (kx : list nat) (f : list bool -> bool) : list (phase ast amsg) :=
  [Local (fun r s => let! d := pointwise (E' r) (a_x s) [] kx [] (fun x _ => f x) in Some (set_x dst d s))].

Definition arg {A} (d : A) (k : nat) (l : list A) : A := nth k l d.
Definition mask0 (dst : nat) (v : bool) := mask_from dst [] [] (fun _ _ => v).
Definition mask1 (dst a : nat) (f : bool -> bool) := mask_from dst [a] [] (fun x _ => f (arg false 0 x)).
Definition mask2 (dst a b : nat) (f : bool -> bool -> bool) :=
  mask_from dst [a; b] [] (fun x _ => f (arg false 0 x) (arg false 1 x)).
Definition mask3 (dst a b d : nat) (f : bool -> bool -> bool -> bool) :=
  mask_from dst [a; b; d] [] (fun x _ => f (arg false 0 x) (arg false 1 x) (arg false 2 x)).
Definition mask4 (dst a b d e : nat) (f : bool -> bool -> bool -> bool -> bool) :=
  mask_from dst [a; b; d; e] [] (fun x _ => f (arg false 0 x) (arg false 1 x) (arg false 2 x) (arg false 3 x)).
Definition mask_int (dst z : nat) (f : Z -> bool) := mask_from dst [] [z] (fun _ y => f (arg 0 0 y)).
Definition mask1_int (dst a z : nat) (f : bool -> Z -> bool) :=
  mask_from dst [a] [z] (fun x y => f (arg false 0 x) (arg 0 0 y)).
Definition int0 (dst : nat) (v : Z) := int_from dst [] [] (fun _ _ => v).
Definition int_int (dst z : nat) (f : Z -> Z) := int_from dst [] [z] (fun _ y => f (arg 0 0 y)).
Definition int_mask1 (dst a z : nat) (f : bool -> Z -> Z) :=
  int_from dst [a] [z] (fun x y => f (arg false 0 x) (arg 0 0 y)).
Definition int_mask2 (dst a b z : nat) (f : bool -> bool -> Z -> Z) :=
  int_from dst [a; b] [z] (fun x y => f (arg false 0 x) (arg false 1 x) (arg 0 0 y)).

(** DetectEdge without exterior points. *)
Definition ed_get (src dst : nat) (s : ast) : option est :=
  let! m := nth_error (a_m s) src in let! e := nth_error (a_m s) dst in Some (ES (a_map s) m e).
Definition ed_put (src dst : nat) (s : ast) (a : est) : ast :=
  let s1 := set_m dst (e_edge a) (set_m src (e_mask a) s) in
  AS (e_map a) (a_ranks s1) (a_pool s1) (a_tmp s1) (a_new s1) (a_cnt s1) (a_m s1) (a_x s1) (a_z s1) (a_o s1).
Definition edge (src dst : nat) (ty : edge_type) (bc : mask_bc) : list (phase ast amsg) :=
  lift (ed_get src dst) (ed_put src dst) (remsg MData m_data (detect_edge c L E bc ty)).

(** DilateMask and ErodeMask. *)
Definition di_get (k : nat) (s : ast) : option est :=
  let! m := nth_error (a_m s) k in Some (ES (a_map s) m (a_tmp s)).
Definition di_put (k : nat) (s : ast) (a : est) : ast :=
  AS (e_map a) (a_ranks s) (a_pool s) (e_edge a) (a_new s) (a_cnt s) (rput k (e_mask a) (a_m s)) (a_x s) (a_z s) (a_o s).
Definition dilate (k : nat) (amount : Z) (bc : mask_bc) : list (phase ast amsg) :=
  lift (di_get k) (di_put k) (remsg MData m_data (dilate_mask c L E bc amount)).
Definition erode (k : nat) (amount : Z) (bc : mask_bc) : list (phase ast amsg) :=
  lift (di_get k) (di_put k) (remsg MData m_data (erode_mask c L E bc amount)).

(** X.Exchange() *)
Definition ex_get (k : nat) (s : ast) : option (hmap * list bool) :=
  let! m := nth_error (a_m s) k in Some (a_map s, m).
Definition ex_put (k : nat) (s : ast) (a : hmap * list bool) : ast :=
  AS (fst a) (a_ranks s) (a_pool s) (a_tmp s) (a_new s) (a_cnt s) (rput k (snd a) (a_m s)) (a_x s) (a_z s) (a_o s).
Definition exchange (k : nat) : list (phase ast amsg) :=
  lift (ex_get k) (ex_put k) (remsg MData m_data [halo_exchange]).

(** CountDistributedMask, the result in counter [w]. *)
Definition count_reg (w k : nat) : list (phase ast amsg) :=
  [Local (fun r s => let! m := nth_error (a_m s) k in Some (set_cnt w (CMask m) s))] ++
  lift (fun s => nth_error (a_cnt s) w) (fun s a => set_cnt w a s)
    (remsg (fun _ => MData []) (fun _ => Some tt) (count_mask L E)).
Definition counted (w : nat) (s : ast) : option Z :=
  match nth_error (a_cnt s) w with Some (CCount k) => Some k | _ => None end.
(** A statement that is not executed when the count (both counts) is zero. *)
Definition when1 (w : nat) (ph : nat -> ast -> option ast) : list (phase ast amsg) :=
  [Local (fun r s => let! k := counted w s in if k =? 0 then Some s else ph r s)].
Definition when2 (w1 w2 : nat) (ph : nat -> ast -> option ast) : list (phase ast amsg) :=
  [Local (fun r s => let! k1 := counted w1 s in let! k2 := counted w2 s in
                     if (k1 =? 0) && (k2 =? 0) then Some s else ph r s)].

(** DetectEdge with exterior points, when the partition is not in the pool yet: it is made and kept. *)
Definition edge_ext_new (src dst : nat) (ty : edge_type) (bc : mask_bc) : list (phase ast amsg) :=
  [Local (fun r s => let! m := nth_error (a_m s) src in Some (set_new (PInfo (I0 (L r, E r) (a_ranks s)) m) s))] ++
  lift (fun s => Some (a_new s)) (fun s a => set_new a s) (detect_edge_exterior c n L E bc ty) ++
  [Local (fun r s => match a_new s with PHalo (h, d) => Some (set_x dst d (set_pool h s)) | _ => None end)].
(** When it is: DistributedFieldOps.cpp 68-72, 81-155. *)
Definition xx_get (k : nat) (s : ast) : option (hmap * list bool) :=
  let! h := a_pool s in let! m := nth_error (a_x s) k in Some (h, m).
Definition xx_put (k : nat) (s : ast) (a : hmap * list bool) : ast :=
  AS (a_map s) (a_ranks s) (Some (fst a)) (a_tmp s) (a_new s) (a_cnt s) (a_m s) (rput k (snd a) (a_x s)) (a_z s) (a_o s).
Definition edge_ext (src dst : nat) (ty : edge_type) (bc : mask_bc) : list (phase ast amsg) :=
  [Local (fun r s => let! m := nth_error (a_m s) src in
                     let! d := edge_local c (E r) bc ty (L' r) (E' r) m in Some (set_x dst d s))] ++
  lift (xx_get dst) (xx_put dst) (remsg MData m_data [halo_exchange]).
(** DilateMask of a mask with exterior points. *)
Definition dx_get (k : nat) (s : ast) : option est :=
  let! h := a_pool s in let! m := nth_error (a_x s) k in Some (ES h m (a_tmp s)).
Definition dx_put (k : nat) (s : ast) (a : est) : ast :=
  AS (a_map s) (a_ranks s) (Some (e_map a)) (e_edge a) (a_new s) (a_cnt s) (a_m s) (rput k (e_mask a) (a_x s)) (a_z s) (a_o s).
Definition dilate_ext (k : nat) (amount : Z) (bc : mask_bc) : list (phase ast amsg) :=
  lift (dx_get k) (dx_put k) (remsg MData m_data (dilate_mask c' L' E' bc amount)).
(** Loop over the points of the extended range reading a mask with exterior points. *)
Definition mask_and_ext (dst a x : nat) (f : bool -> bool -> bool) : list (phase ast amsg) :=
  [Local (fun r s => let! ma := nth_error (a_m s) a in let! mx := nth_error (a_x s) x in
                     let! d := omap (fun p => let! u := fread (E r) ma p in let! v := fread (E' r) mx p in Some (f u v))
                                    (RangeModel.foreach_col (E r)) in
                     Some (set_m dst d s))].
(** Loop over the points of the local range reading a mask on the local range. *)
Definition update_local (dst : nat) (f : bool -> bool -> bool) (o : nat) : list (phase ast amsg) :=
  [Local (fun r s => let! mo := nth_error (a_o s) o in let! md := nth_error (a_m s) dst in
                     let! d := ofoldl (fun d p => let! u := fread (E r) d p in let! v := fread (L r) mo p in
                                                  fwrite (E r) d p (f u v))
                                      (RangeModel.foreach_col (L r)) md in
                     Some (set_m dst d s))].

(** ** The phases *)

(** Masks *)
Definition R_ACTIVE := 0%nat.   (* GridAuxData.ActiveMask *)
Definition R_DBND := 1%nat.     (* GridAuxData.DomainBoundaryMask *)
Definition R_IBND := 2%nat.     (* GridAuxData.InternalBoundaryMask *)
Definition R_OUTER := 3%nat.    (* OuterFringeMask *)
Definition R_OCC := 4%nat.      (* OcclusionMask *)
Definition R_MIN := 5%nat.      (* OverlapMinimizationMask *)
Definition R_INNER := 6%nat.    (* InnerFringeMask *)
Definition R_RECV := 7%nat.     (* ReceiverMask *)
Definition R_TMP1 := 8%nat.     (* local variables *)
Definition R_TMP2 := 9%nat.
Definition R_ORPHAN := 10%nat.  (* OrphanMask *)
Definition R_OVERLAP := 11%nat. (* LocalGridOverlapMasks *)
Definition R_HOLE := 12%nat.    (* BoundaryHoleMasks *)
Definition NUM_M := 13%nat.
(** Masks with exterior points *)
Definition X_BND := 0%nat.
Definition X_NONBND := 1%nat.
Definition X_COVER := 2%nat.
Definition NUM_X := 3%nat.
(** Integer fields *)
Definition Z_FLAGS := 0%nat.
Definition Z_DIST := 1%nat.
Definition NUM_Z := 2%nat.

(** 194-197, 5244-5330 *)
Definition generate_masks : list (phase ast amsg) :=
  mask_int R_ACTIVE Z_FLAGS active_of ++
  mask_int R_DBND Z_FLAGS domain_boundary_of ++
  mask_int R_IBND Z_FLAGS internal_boundary_of.

(** InitializeAssembly_, 172-198 *)
Definition initialize_assembly : list (phase ast amsg) :=
  int_int Z_FLAGS Z_FLAGS reset_flags ++ generate_masks.

(** DetectOverlap_, 2576-2589; R_OVERLAP is the disjunction of the masks of the overlaps (2557-2572). *)
Definition apply_overlap : list (phase ast amsg) := int_mask1 Z_FLAGS R_OVERLAP Z_FLAGS flag_overlapped.

(** InferBoundaries_, 2717-2754; [overlaps] numbers the masks of the overlaps of this grid by others. *)
Definition infer_boundaries (overlaps : list nat) : list (phase ast amsg) :=
  edge R_ACTIVE R_TMP1 INNER BC_FALSE ++
  mask2 R_TMP1 R_TMP1 R_DBND (fun i b => i && negb b) ++
  concat (map (update_local R_TMP1 (fun i o => i && negb o)) overlaps) ++
  exchange R_TMP1 ++
  int_mask1 Z_FLAGS R_TMP1 Z_FLAGS flag_inferred ++
  mask2 R_DBND R_DBND R_TMP1 (fun b i => b || i).

(** CutBoundaryHoles_, 3232-3291, the hole being given. *)
Definition regenerate (r : nat) (s : ast) : option ast :=
  let! s1 := masks_of r R_ACTIVE [] [Z_FLAGS] (fun _ y => active_of (arg 0 0 y)) s in
  let! s2 := masks_of r R_DBND [] [Z_FLAGS] (fun _ y => domain_boundary_of (arg 0 0 y)) s1 in
  masks_of r R_IBND [] [Z_FLAGS] (fun _ y => internal_boundary_of (arg 0 0 y)) s2.
Definition apply_holes : list (phase ast amsg) :=
  count_reg 0 R_HOLE ++
  when1 0 (fun r s => let! s1 := ints_of r Z_FLAGS [R_HOLE] [Z_FLAGS] (fun x y => flag_hole (arg false 0 x) (arg 0 0 y)) s in
                      regenerate r s1).

(** LocateOuterFringe_, 3423-3489 *)
Definition locate_outer_fringe (fringe : Z) : list (phase ast amsg) :=
  mask0 R_OUTER false ++
  (if fringe =? 0 then [] else
     mask2 R_TMP1 R_DBND R_IBND (fun d i => d || i) ++
     edge_ext_new R_TMP1 X_BND OUTER BC_FALSE ++
     mask2 R_TMP2 R_ACTIVE R_TMP1 (fun a b => a && negb b) ++
     edge_ext R_TMP2 X_NONBND OUTER BC_FALSE ++
     edge_ext R_ACTIVE X_COVER OUTER BC_FALSE ++
     ext_from X_COVER [X_COVER; X_NONBND; X_BND]
       (fun x => arg false 0 x && (arg false 1 x || negb (arg false 2 x))) ++
     dilate_ext X_COVER fringe BC_FALSE ++
     mask_and_ext R_OUTER R_ACTIVE X_COVER (fun a v => a && v)) ++
  count_reg 0 R_OUTER ++
  (if fringe =? 0 then [] else
     when1 0 (fun r => ints_of r Z_FLAGS [R_OUTER] [Z_FLAGS] (fun x y => flag_outer (arg false 0 x) (arg 0 0 y)))).

(** DetectOccluded_, 3957-3981, the occlusion of this grid by others being given. *)
Definition apply_occlusion : list (phase ast amsg) :=
  count_reg 0 R_OCC ++
  when1 0 (fun r => ints_of r Z_FLAGS [R_OCC] [Z_FLAGS] (fun x y => flag_occluded (arg false 0 x) (arg 0 0 y))).

(** MinimizeOverlap_, 4039-4043, 4057-4089; R_MIN is the occlusion by the grids whose overlap with
    this one is to be minimized (4045-4055). *)
Definition minimize_masks (fringe : Z) : list (phase ast amsg) :=
  mask0 R_INNER false ++
  (if 0 <? fringe then
     mask2 R_TMP1 R_OCC R_ACTIVE (fun o a => o || negb a) ++
     erode R_TMP1 fringe BC_TRUE ++
     mask3 R_MIN R_MIN R_TMP1 R_ACTIVE (fun m v a => m && (v && a)) ++
     mask1 R_INNER R_MIN (fun m => m) ++
     dilate R_INNER fringe BC_FALSE ++
     mask3 R_INNER R_INNER R_ACTIVE R_MIN (fun i a m => i && (a && negb m))
   else []).

(** 4091-4139 *)
Definition minimize_overlap (fringe : Z) : list (phase ast amsg) :=
  minimize_masks fringe ++
  count_reg 0 R_MIN ++ count_reg 1 R_INNER ++
  when2 0 1 (fun r => ints_of r Z_FLAGS [R_MIN; R_INNER] [Z_FLAGS]
                        (fun x y => flag_minimized (arg false 0 x) (arg false 1 x) (arg 0 0 y))) ++
  when1 0 (fun r s =>
    let! s1 := regenerate r s in
    masks_of r R_OUTER [R_OUTER] [Z_FLAGS] (fun x y => arg false 0 x && has_any (arg 0 0 y) F_ACTIVE) s1).

(** GenerateConnectivityData_, 4284-4297 *)
Definition locate_receivers : list (phase ast amsg) :=
  mask4 R_RECV R_OUTER R_INNER R_OCC R_ACTIVE (fun o i c a => o || i || (c && a)).

(** 4347-4374; [max] is the largest of 1 and 1 + EdgePadding over the overlaps by this grid (4330-4340). *)
Definition distance_round (max d : Z) : list (phase ast amsg) :=
  int_mask2 Z_DIST R_TMP1 R_RECV Z_DIST (fun cover recv v =>
    if (v =? max) && cover then (if recv then - d else d) else v) ++
  dilate R_TMP1 1 BC_FALSE.
Definition receiver_distances (max : Z) : list (phase ast amsg) :=
  int0 Z_DIST max ++
  edge R_RECV R_TMP1 INNER BC_FALSE ++
  concat (map (distance_round max) (zseq 0 (Z.to_nat max))).

(** 4557-4599; overlap_n-like mask [o] on the local range: no donor was chosen for the point (DonorGridIDs
    < 0).  OrphanMask is assigned without an initial value (4562); its values outside the
    local range are arbitrary before the exchange. *)
Definition orphan_local (o : nat) : list (phase ast amsg) :=
  [Local (fun r s => let! mo := nth_error (a_o s) o in let! mr := nth_error (a_m s) R_RECV in
                     let! md := nth_error (a_m s) R_ORPHAN in
                     let! d := ofoldl (fun d p => let! u := fread (E r) mr p in let! v := fread (L r) mo p in
                                                  fwrite (E r) d p (u && v))
                                      (RangeModel.foreach_col (L r)) md in
                     Some (set_m R_ORPHAN d s))].
Definition flag_receivers (o : nat) : list (phase ast amsg) :=
  count_reg 0 R_RECV ++
  orphan_local o ++ exchange R_ORPHAN ++
  count_reg 1 R_ORPHAN ++
  when2 0 1 (fun r => ints_of r Z_FLAGS [R_RECV; R_ORPHAN] [Z_FLAGS]
                        (fun x y => flag_receiver (arg false 0 x) (arg false 1 x) (arg 0 0 y))).

(** Assemble, 82-99, as far as one grid is concerned; [infer] is Options_.InferBoundaries(GridID) (2716). *)
Definition assemble (infer : bool) (overlaps : list nat) (fringe max : Z) (o : nat) : list (phase ast amsg) :=
  initialize_assembly ++ apply_overlap ++ (if infer then infer_boundaries overlaps else []) ++ apply_holes ++ locate_outer_fringe fringe ++
  apply_occlusion ++ minimize_overlap fringe ++ locate_receivers ++ receiver_distances max ++ flag_receivers o.
End Grid.
