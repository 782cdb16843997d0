{
 "claims": [
  {
   "property": "C01",
   "status": "proved",
   "theorems": [
    "C01_range_algebra"
   ],
   "note": "point-set semantics over all of Z^3; closed under the global context"
  },
  {
   "property": "C02",
   "status": "proved",
   "theorems": [
    "C02_range_count"
   ],
   "note": "both layouts"
  },
  {
   "property": "C03",
   "status": "proved",
   "theorems": [
    "C03_clamp"
   ],
   "note": ""
  },
  {
   "property": "C06",
   "status": "proved",
   "theorems": [
    "C06_uniform_cell",
    "C06_uniform_cell_unique"
   ],
   "note": "integer overload; truncating division modelled"
  },
  {
   "property": "C07",
   "status": "proved",
   "theorems": [
    "C07_periodic_adjust",
    "C07_get_period"
   ],
   "note": "unique and duplicated storage; zero period is undefined behaviour and excluded by cart_ok"
  },
  {
   "property": "C08",
   "status": "partial",
   "theorems": [
    "C08_map_tuple_partial",
    "C08_map_tuple_refuted"
   ],
   "note": "full statement is false: non-periodic dimensions are shifted by the domain size (Cart.inl:91)"
  },
  {
   "property": "C09",
   "status": "partial",
   "theorems": [
    "C09_map_range_partial",
    "C09_map_range_refuted"
   ],
   "note": "full statement is false for targets beyond the base period (wrong image, missed image, dereference of an empty optional)"
  },
  {
   "property": "C04",
   "status": "proved",
   "theorems": [
    "C04_box_algebra",
    "C04_empty_box",
    "C04_box_clamp",
    "C04_box_motion"
   ],
   "note": "rational coordinates (every finite double is rational); rounding of move/grow/scale not modelled"
  },
  {
   "property": "C05",
   "status": "proved",
   "theorems": [
    "C05_indexer_bijection"
   ],
   "note": "any rank, both layouts, storage order pinned"
  },
  {
   "property": "C44",
   "status": "proved",
   "theorems": [
    "C44_array_resize"
   ],
   "note": "any rank and layout; covers the equal-indexer fast path"
  },
  {
   "property": "C45",
   "status": "partial",
   "theorems": [
    "C45_array_assign_partial",
    "C45_array_assign_other",
    "C45_array_assign_refuted"
   ],
   "note": "full statement is false: shrinking assignment from an iterator reads past the source (Array.hpp:145, Vector.hpp:54,71)"
  },
  {
   "property": "C52",
   "status": "proved",
   "theorems": [
    "C52_interp_linear",
    "C52_interp_cubic",
    "C52_interp_linear_deriv",
    "C52_interp_cubic_deriv"
   ],
   "note": "exact real arithmetic; uses the standard library's axioms of the reals"
  },
  {
   "property": "C53",
   "status": "proved",
   "theorems": [
    "C53_solve2",
    "C53_solve3",
    "C53_det2_nonsingular",
    "C53_det3_nonsingular"
   ],
   "note": "exact real arithmetic; uses the standard library's axioms of the reals"
  },
  {
   "property": "C56",
   "status": "proved",
   "theorems": [
    "C56_array_append",
    "C56_array_insert",
    "C56_array_erase"
   ],
   "note": ""
  },
  {
   "property": "C10",
   "status": "proved",
   "theorems": [
    "C10_subregions"
   ],
   "note": ""
  },
  {
   "property": "C11",
   "status": "proved",
   "theorems": [
    "C11_cell_count",
    "C11_cell_decomposition",
    "C11_cell_corners"
   ],
   "note": "both periodic storages"
  },
  {
   "property": "C12",
   "status": "partial",
   "theorems": [
    "C12_extend_grows",
    "C12_extend_inside_partial",
    "C12_extend_refuted"
   ],
   "note": "growth proved in full; staying inside non-periodic boundaries is false for local ranges thinner than the extension (Decomp.cpp:109-114)"
  },
  {
   "property": "C57",
   "status": "proved",
   "theorems": [
    "C57_exterior_points",
    "C57_exterior_decomposition"
   ],
   "note": ""
  },
  {
   "property": "C16",
   "status": "proved",
   "theorems": [
    "C16_set",
    "C16_tuple_orders",
    "C16_tuple_orders_decide"
   ],
   "note": "libstdc++'s bisection modelled for lower/upper bound"
  },
  {
   "property": "C17",
   "status": "proved",
   "theorems": [
    "C17_map",
    "C17_map_returns"
   ],
   "note": "contiguous and non-contiguous layouts not distinguished"
  },
  {
   "property": "C18",
   "status": "proved",
   "theorems": [
    "C18_next_id"
   ],
   "note": ""
  },
  {
   "property": "C19",
   "status": "proved",
   "theorems": [
    "C19_union_find",
    "C19_union_returns"
   ],
   "note": "histories include queries (path compression) and relabellings"
  },
  {
   "property": "C20",
   "status": "partial",
   "theorems": [
    "C20_relabel_partial",
    "C20_relabel_refuted"
   ],
   "note": "the partition is kept (C19_union_find), but the representative need not be the smallest element (UnionFind.hpp:103-105)"
  },
  {
   "property": "C21",
   "status": "partial",
   "theorems": [
    "C21_fetch_sound",
    "C21_fetch_partial",
    "C21_fetch_refuted"
   ],
   "note": "the returned description is always right; finding the inserted partition is false in general because CartLess_ is not an order (Partition.cpp:159-188)"
  },
  {
   "property": "C28",
   "status": "proved",
   "theorems": [
    "C28_exactly_once",
    "C28_returns"
   ],
   "note": "Arbitrary histories of construction, move, assignment, destruction, Wait, WaitAll, WaitAny; MPI completion order is an arbitrary schedule."
  },
  {
   "property": "C29",
   "status": "partial",
   "theorems": [
    "C29_overwrite_refuted",
    "C29_overwrite_partial"
   ],
   "note": "False of the code: assignment to an active request drops its operation without waiting. Proved for programs that assign only to inactive requests."
  },
  {
   "property": "C58",
   "status": "partial",
   "theorems": [
    "C58_wait_time_refuted",
    "C58_wait_time_partial"
   ],
   "note": "False of the code: WaitAny leaves timers of the requests it does not complete running. Proved for programs without WaitAny."
  },
  {
   "property": "C30",
   "status": "proved",
   "theorems": [
    "C30_edit_sessions"
   ],
   "note": "Every editor in the library follows the same pattern (activate if inactive, then edit)."
  },
  {
   "property": "C31",
   "status": "partial",
   "theorems": [
    "C31_restore_refuted",
    "C31_early_end_refuted",
    "C31_restore_partial"
   ],
   "note": "False of the code: Restore keeps the handle's reference, so its destructor releases the share again (Editor.inl 126-132; used like this at AssemblerAssembly.cpp:2592). Proved when Restore is followed by Release."
  },
  {
   "property": "C32",
   "status": "proved",
   "theorems": [
    "C32_events"
   ],
   "note": ""
  },
  {
   "property": "C33",
   "status": "proved",
   "theorems": [
    "C33_floating_follows",
    "C33_defined"
   ],
   "note": ""
  },
  {
   "property": "C34",
   "status": "partial",
   "theorems": [
    "C34_optional_partial",
    "C34_leak_refuted",
    "C34_self_move_refuted"
   ],
   "note": "False of the code: move assignment does not destroy the moved-from object, and self-move reads a destroyed object (Optional.inl 67-82). Proved: value semantics, no double destruction, and the exact number of objects leaked."
  },
  {
   "property": "C59",
   "status": "partial",
   "theorems": [
    "C59_reuse_refuted",
    "C59_reuse_partial"
   ],
   "note": "False of the code for copy assignment (FloatingRef.inl 20-25). Proved for move assignment."
  },
  {
   "property": "C39",
   "status": "proved",
   "theorems": [
    "C39_options"
   ],
   "note": "All thirteen options; values of type double other than NaN are represented by codes."
  },
  {
   "property": "C40",
   "status": "proved",
   "theorems": [
    "C40_grid_lifecycle"
   ],
   "note": "Any number of ranks; grid creation and destruction interleaved with overlap creation, destruction and edits."
  },
  {
   "property": "C41",
   "status": "proved",
   "theorems": [
    "C41_dying_records",
    "C41_records"
   ],
   "note": "ConnectivityComponent.cpp is the same code after renaming."
  },
  {
   "property": "C42",
   "status": "proved",
   "theorems": [
    "C42_edit_events",
    "C41_records"
   ],
   "note": ""
  },
  {
   "property": "C43",
   "status": "partial",
   "theorems": [
    "C43_clear_refuted",
    "C43_clear_fails",
    "C43_clear_stale_refuted",
    "C43_clear_partial"
   ],
   "note": "False of the code: ClearOverlaps passes DestroyOverlaps a view of the keys it erases from (OverlapComponent.cpp 485-487, 508-512). Proved for at most one record."
  },
  {
   "property": "C54",
   "status": "proved",
   "theorems": [
    "C54_process_grid"
   ],
   "note": "MPI_Dims_create is an oracle with the documented guarantees; machine overflow of the variance is not modelled. Also proved: the free dimensions are sorted and the grid is not more uneven than MPI's suggestion."
  },
  {
   "property": "C55",
   "status": "proved",
   "theorems": [
    "C55_accumulated"
   ],
   "note": "Clock readings are integers (ticks); includes enabling and disabling the profiler in mid-history."
  },
  {
   "property": "C60",
   "status": "proved",
   "theorems": [
    "C60_profile"
   ],
   "note": "The mean is represented by the sum over the ranks."
  },
  {
   "property": "C24",
   "status": "proved",
   "theorems": [
    "C24_handshake_result",
    "C24_handshake_no_deadlock"
   ],
   "note": "Built on the signal without MPI_Ibarrier. No deadlock: from every reachable state some schedule lets all ranks return."
  },
  {
   "property": "C25",
   "status": "proved",
   "theorems": [
    "C25_signal_safe",
    "C25_signal_live"
   ],
   "note": "Branch without MPI_Ibarrier; repeated use included."
  },
  {
   "property": "C26",
   "status": "proved",
   "theorems": [
    "C26_serial_order",
    "C26_serial_complete"
   ],
   "note": ""
  },
  {
   "property": "C27",
   "status": "proved",
   "theorems": [
    "C27_broadcast",
    "C27_broadcast_string"
   ],
   "note": ""
  },
  {
   "property": "C22",
   "status": "partial",
   "theorems": [
    "C22_region_hash_complete",
    "C22_region_hash_built",
    "C22_flat_region_refuted"
   ],
   "note": "For boxes, the only regions hashed this way, and any monotone rounding of the arithmetic. Holds whenever construction is defined; it is undefined for boxes all flat in one dimension (refuted)."
  },
  {
   "property": "C23",
   "status": "partial",
   "theorems": [
    "C23_distributed_hash_complete",
    "C23_empty_rank_refuted",
    "C23_outside_point_refuted"
   ],
   "note": "For hashes over ranges (used for decompositions), all process counts, contributions and message orders. Retrieval is undefined if some rank requests a bin of a rank that holds no regions (refuted), and MapToBin for some points beyond the extents (refuted). Hashes over grid fragments are not covered."
  },
  {
   "property": "C13",
   "status": "partial",
   "theorems": [
    "C13_neighbors",
    "C13_duplicated_refuted"
   ],
   "note": "All decompositions without empty local ranges, all process counts, dimensions, periodicities and message orders. Symmetry is false of the code for periodic_storage::DUPLICATED (refuted); everything is proved for domains that store no point twice, and the ring characterisation and covering also with DUPLICATED."
  },
  {
   "property": "C14",
   "status": "partial",
   "theorems": [
    "C14_partition",
    "C14_extended_ranges",
    "C14_halo_exchange",
    "C14_halo_exchange_ring",
    "C14_depth_refuted",
    "C14_duplicated_refuted"
   ],
   "note": "The whole sequence: distributed hash, neighbours, range exchange, halo map, field exchange, for all message orders. Proved for halo depth k on grids of local ranges at least k thick, and for depth 1 on any decomposition. False of the code for local ranges thinner than the halo (stale values), and for DUPLICATED storage (deadlock)."
  },
  {
   "property": "C15",
   "status": "proved",
   "theorems": [
    "C15_halo_lists"
   ],
   "note": "Also for DUPLICATED storage and empty local ranges."
  },
  {
   "property": "C46",
   "status": "partial",
   "theorems": [
    "C46_edge",
    "C46_edge_exterior"
   ],
   "note": "All partitions of domains that store no point twice, all boundary conditions, both edge types, with and without exterior points, all message orders. With DUPLICATED storage the halo exchange itself is wrong (C14_duplicated_refuted)."
  },
  {
   "property": "C47",
   "status": "partial",
   "theorems": [
    "C47_dilate_erode",
    "C47_dilate",
    "C47_erode"
   ],
   "note": "As for C46; any amount, including 0 and amounts larger than the domain."
  },
  {
   "property": "C50",
   "status": "proved",
   "theorems": [
    "C50_count"
   ],
   "note": "Halos need not be up to date."
  },
  {
   "property": "C51",
   "status": "partial",
   "theorems": [
    "C51_fill",
    "C51_duplicated_refuted"
   ],
   "note": "For domains that store no point twice. False of the code for DUPLICATED storage (DistributedField.hpp 125-150): the second copy of a filled point keeps its value."
  },
  {
   "property": "C48",
   "status": "partial",
   "theorems": [
    "C48_components_partial",
    "C48_covered_ring",
    "C48_covered_grid",
    "C48_thin_refuted"
   ],
   "note": "For domains that store no point twice and partitions where the owner of each copy is a neighbour: all masks, dimensions, decompositions, message orders. That condition holds for extended ranges of one layer, and of k layers if local ranges form a grid of k points or more. Without it the claim is false of the code (DistributedFieldOps.cpp 455-458): labels that stayed -1 are used as an index."
  },
  {
   "property": "C49",
   "status": "partial",
   "theorems": [
    "C49_flood_partial"
   ],
   "note": "As for C48."
  },
  {
   "property": "C35",
   "status": "partial",
   "theorems": [
    "C35_pairing_partial",
    "C35_points_partial",
    "C35_large_refuted"
   ],
   "note": "All process counts, assignments, orders, numbers of values per position and message orders, for at most 2^31 positions on each rank. Also with the orders the exchanger derives from the receiving points, for any std::sort. False of the code beyond 2^31 positions (conversion of the order to int)."
  },
  {
   "property": "C36",
   "status": "proved",
   "theorems": [
    "C36_overwrite",
    "C36_append",
    "C36_append_ordered"
   ],
   "note": "The sum for integers without overflow; for any other value type and addition, the values are added in list order."
  },
  {
   "property": "C37",
   "status": "partial",
   "theorems": [
    "C37_collect_partial",
    "C37_flags_partial",
    "C37_min_partial",
    "C37_interp_partial",
    "C37_small_cells",
    "C37_row_major_refuted",
    "C37_wide_refuted"
   ],
   "note": "All process counts, decompositions, periodic images, cell lists, numbers of fields, reductions and message orders, for column-major fields, and for row-major fields at cells that are wholly local; the owners of the vertices must be neighbours, which holds for cells of at most two points in each direction. Without these conditions false of the code (refuted). Threaded interpolation is modelled as one thread."
  },
  {
   "property": "C38",
   "status": "partial",
   "theorems": [
    "C38_max_partial",
    "C38_integer_partial",
    "C38_float_refuted"
   ],
   "note": "As C37, for value types whose numeric_limits::min() is the least value (integers). False of the code for floating point types."
  },
  {
   "property": "C61",
   "status": "partial",
   "theorems": [
    "C61_decomposition_partial",
    "C61_loaded"
   ],
   "note": "All partitions of domains that store no point twice (periodic_storage::DUPLICATED excluded), all flags, options and message orders; what the other grids contribute (overlap, hole, occlusion, missing donors) is arbitrary but given, not computed."
  },
  {
   "property": "C62",
   "status": "partial",
   "theorems": [
    "C62_again_partial"
   ],
   "note": "All partitions of domains that store no point twice (periodic_storage::DUPLICATED excluded), all flags, options and message orders; what the other grids contribute (overlap, hole, occlusion, missing donors) is arbitrary but given, not computed. The hole and the points to be minimized must be active points."
  },
  {
   "property": "C63",
   "status": "partial",
   "theorems": [
    "C63_boundaries_partial",
    "C63_alone_partial"
   ],
   "note": "All partitions of domains that store no point twice (periodic_storage::DUPLICATED excluded), all flags, options and message orders; what the other grids contribute (overlap, hole, occlusion, missing donors) is arbitrary but given, not computed."
  },
  {
   "property": "C64",
   "status": "partial",
   "theorems": [
    "C64_outer_partial",
    "C64_interior_partial"
   ],
   "note": "All partitions of domains that store no point twice (periodic_storage::DUPLICATED excluded), all flags, options and message orders; what the other grids contribute (overlap, hole, occlusion, missing donors) is arbitrary but given, not computed."
  },
  {
   "property": "C65",
   "status": "partial",
   "theorems": [
    "C65_minimized_partial",
    "C65_fringe_refuted"
   ],
   "note": "All partitions of domains that store no point twice (periodic_storage::DUPLICATED excluded), all flags, options and message orders; what the other grids contribute (overlap, hole, occlusion, missing donors) is arbitrary but given, not computed. The last sentence is false of the code: removed points keep the fringe flag (refuted)."
  },
  {
   "property": "C66",
   "status": "partial",
   "theorems": [
    "C66_receivers_partial"
   ],
   "note": "All partitions of domains that store no point twice (periodic_storage::DUPLICATED excluded), all flags, options and message orders; what the other grids contribute (overlap, hole, occlusion, missing donors) is arbitrary but given, not computed."
  },
  {
   "property": "C67",
   "status": "partial",
   "theorems": [
    "C67_distances_partial",
    "C67_sign_refuted"
   ],
   "note": "All partitions of domains that store no point twice (periodic_storage::DUPLICATED excluded), all flags, options and message orders; what the other grids contribute (overlap, hole, occlusion, missing donors) is arbitrary but given, not computed. False of the code for receivers farther from the edge than the cut-off (refuted); the partial theorem states the distance everywhere."
  },
  {
   "property": "C68",
   "status": "partial",
   "theorems": [
    "C68_ranks",
    "C68_agreed",
    "C68_two_donors_refuted",
    "C68_given_refuted"
   ],
   "note": "C68_ranks says exactly which rank is found, for any connectivities; agreement is proved when each point has one donor and one receiver in all connectivities together and no ranks are given (C68_agreed). It is false of the code for a point that receives from two grids (the later exchange deadlocks), and when a rank is given on one side only (refuted). Barriers and debug assertions are not modelled."
  },
  {
   "property": "C69",
   "status": "partial",
   "theorems": [
    "C69_exchange_partial",
    "C69_interp_partial"
   ],
   "note": "The whole chain find ranks, collect, send, receive, disperse of one connectivity on all ranks. Partial: donor values in column-major order, or no cell on more than one rank (otherwise C37 is false of the code); interpolation over the reals; the disperse operation is overwriting; each rank makes the calls in the same order; connectivities that fit together (see C68)."
  },
  {
   "property": "C70",
   "status": "proved",
   "theorems": [
    "C70_best_cell",
    "C70_listed",
    "C70_decomposition"
   ],
   "note": "What is found in which cell (the search itself) is given. Which candidate is best in exact arithmetic; independence of the decomposition for any rounding."
  },
  {
   "property": "C71",
   "status": "proved",
   "theorems": [
    "C71_farthest",
    "C71_orphans"
   ],
   "note": "Distances and volumes are given; exact arithmetic. The choice among equally far candidates is stated for grids that all occlude each other in the same way."
  },
  {
   "property": "C72",
   "status": "partial",
   "theorems": [
    "C72_fragments",
    "C72_searched",
    "C72_multilinear",
    "C72_told_partial",
    "C72_last_rank_refuted",
    "C72_inactive_refuted",
    "C72_period_length_refuted"
   ],
   "note": "The owner of the cell is always found (proved in full). The other ranks with a vertex of the cell are told if the vertex is the lower corner of an active cell and periodic images have the same coordinates (partial); otherwise false of the code (three refutations). Rational coordinates; the hash lookup of fragments is C23."
  },
  {
   "property": "C73",
   "status": "proved",
   "theorems": [
    "C73_found",
    "C73_structure",
    "C73_built"
   ],
   "note": "The tests whether a point overlaps a cell and its coordinates in the cell are any functions. Best in exact arithmetic; independence of the structure for any rounding."
  },
  {
   "property": "C74",
   "status": "partial",
   "theorems": [
    "C74_regular_cells",
    "C74_parallel_hull",
    "C74_curvilinear_parts",
    "C74_curvilinear_within",
    "C74_convex",
    "C74_curvilinear_hull",
    "C74_curvilinear_tolerance",
    "C74_no_gap",
    "C74_tolerance_refuted",
    "C74_collapsed_refuted"
   ],
   "note": "Exact rational arithmetic, with infinities and not-a-number for divisions by zero. Partial: for curvilinear cells with a tolerance only up to nd times the tolerance, for cells with parallel edges (the tolerance itself is refuted); cells of which a triangle or tetrahedron is flat are excluded (refuted for them)."
  },
  {
   "property": "C75",
   "status": "partial",
   "theorems": [
    "C75_uniform",
    "C75_sound",
    "C75_lattice",
    "C75_decomposition",
    "C75_line_refuted",
    "C75_thin_part_refuted",
    "C75_small_cells_refuted"
   ],
   "note": "Exact rational arithmetic and exact derivatives. Partial: that coordinates are found is proved for lattices only (it is not true of all grids); in one dimension they are never found (refuted); parts fewer than four points wide find none (refuted); accuracy is absolute (refuted for small cells)."
  },
  {
   "property": "C76",
   "status": "partial",
   "theorems": [
    "C76_nonnegative",
    "C76_parallel",
    "C76_ascending",
    "C76_convex",
    "C76_bounds",
    "C76_bounds_ascending",
    "C76_descending_refuted",
    "C76_line_refuted"
   ],
   "note": "Exact rational arithmetic. Partial: uniform and rectilinear cells only if their coordinates ascend (refuted otherwise); boxes not in one dimension (refuted: two of their coordinates are indeterminate)."
  },
  {
   "property": "C77",
   "status": "partial",
   "theorems": [
    "C77_uniform",
    "C77_decomposition",
    "C77_curvilinear_partial",
    "C77_lattice",
    "C77_thin_refuted"
   ],
   "note": "Exact rational arithmetic for coordinates. Uniform grids in full. Curvilinear grids: no tolerance, cells that are not flat, and a point is listed if its coordinates are found, which is proved for lattices only. Rectilinear and curvilinear grids with parts that are too thin lose points (refuted). The transfer of fragments between ranks and the hashing of fragments are not part of this theorem."
  },
  {
   "property": "C78",
   "status": "partial",
   "theorems": [
    "C78_fill",
    "C78_sides",
    "C78_order",
    "C78_collect",
    "C78_told_partial",
    "C78_duplicated_refuted"
   ],
   "note": "All ranks with a vertex of a cell are assumed to be told of the point, which C72 gives if the vertices of the cell are lower corners of active cells. Collecting at the cells is proved for grids that store each point once and refuted for DUPLICATED periodic grids."
  },
  {
   "property": "C79",
   "status": "proved",
   "theorems": [
    "C79_fill",
    "C79_collect",
    "C79_duplicated_refuted"
   ],
   "note": "For donor grids that store each point once; on DUPLICATED periodic grids two processes get the donor of one point (refuted). One pair of grids; the overlap is as C78 leaves it; the donor grid of a point is one that overlaps it (C71)."
  },
  {
   "property": "C80",
   "status": "partial",
   "theorems": [
    "C80_filled",
    "C80_exchangeable",
    "C80_exchange_partial",
    "C80_interp_partial",
    "C80_physical_partial"
   ],
   "note": "All pairs of grids and all ranks. Partial as C69 is: column-major values of the donor grid or cells on one rank (row-major values are refuted in C37), real arithmetic for interpolation; donor grids that store each point once (C79); linear and nearest-point interpolation, as cubic connections are not implemented in assembly."
  },
  {
   "property": "C81",
   "status": "partial",
   "theorems": [
    "C81_follows",
    "C81_matching",
    "C81_exchange_partial",
    "C81_stale_refuted"
   ],
   "note": "All legal histories. Delivery of the right values needs edits of extents or points to be accompanied by an edit of destinations or sources (refuted otherwise: ranks are not found again), connectivities that fit together whenever edits end, and at most 2^31 positions (C35). The messages that find ranks are represented by their outcome, which C81_matching proves."
  },
  {
   "property": "C82",
   "status": "partial",
   "theorems": [
    "C82_unbinds",
    "C82_alone",
    "C82_defined",
    "C82_two",
    "C82_unbinds_refuted",
    "C82_other_refuted"
   ],
   "note": "All histories. The property is false of the code: destroying a component is undefined when two objects are bound to it, and when one is and its listener is not the last (exact condition in C82_defined). What the calls that return do is as expected."
  },
  {
   "property": "C83",
   "status": "partial",
   "theorems": [
    "C83_right",
    "C83_always",
    "C83_finishes",
    "C83_bounded",
    "C83_single",
    "C83_order_refuted"
   ],
   "note": "All processes, fragments and interleavings. Right data needs MPI_Testsome to report the signals of each process in order, which MPI does not promise (refuted otherwise), or at most one fragment between two processes. That the lists of sends and receives agree is C84; progress means some continuation ends, with a bound on the reports of every execution."
  },
  {
   "property": "C84",
   "status": "proved",
   "theorems": [
    "C84_connected",
    "C84_agreed",
    "C84_used"
   ],
   "note": "All processes, all sets of fragments that exist on the processes named, all interleavings. C84_used is for the order of reports that C83_right needs."
  },
  {
   "property": "C85",
   "status": "partial",
   "theorems": [
    "C85_flags",
    "C85_least",
    "C85_volumes",
    "C85_volume_bounds",
    "C85_update",
    "C85_inactive_refuted"
   ],
   "note": "All processes, grids (each point stored once), overlaps as filled in C78, values and interleavings; exact arithmetic. That no inactive point counts as overlapped is false of the code (refuted); the rest is proved."
  },
  {
   "property": "C86",
   "status": "partial",
   "theorems": [
    "C86_result",
    "C86_complete",
    "C86_cell",
    "C86_coarse_partial",
    "C86_away",
    "C86_all",
    "C86_smoothing",
    "C86_masks",
    "C86_complete_refuted",
    "C86_coarse_refuted",
    "C86_away_refuted",
    "C86_remain_refuted"
   ],
   "note": "All domains, exact volumes; masks of whole grids (C47, C85 for the processes). The exact result is proved. False of the code, with examples: grids that occlude each other but overlap in one direction only (a missing entry is read); COARSE in both directions (finer points are occluded); smoothing over a hole; cycles of ALL, where every point of every grid is occluded."
  },
  {
   "property": "C87",
   "status": "partial",
   "theorems": [
    "C87_result",
    "C87_ends",
    "C87_needs",
    "C87_active",
    "C87_cut",
    "C87_walled",
    "C87_ends_refuted",
    "C87_side_refuted",
    "C87_thin_refuted"
   ],
   "note": "All domains, masks of whole grids (C47, C85 for the processes). The exact result is proved, and exactly when the computation ends. False of the code, with examples: it does not always end; with a cutting grid that is coarse along its boundary, points on the far side of the overlap are removed; an overlap of two points between boundaries removes nothing."
  },
  {
   "property": "C88",
   "status": "partial",
   "theorems": [
    "C88_ends",
    "C88_flags",
    "C88_execution",
    "C88_holes",
    "C88_occluded",
    "C88_donors",
    "C88_points",
    "C88_again",
    "C88_interior",
    "C88_covered",
    "C88_two",
    "C88_covered_refuted",
    "C88_hole_occluded_refuted"
   ],
   "note": "All domains, options and flags. What detection finds is any set of cells with active vertices for active points (C77, C78 say which); fields between grids are those of whole grids (C85 for the transfer), exact volumes, paddings below 999999. That occluded points are covered at the end is proved for two grids without smoothing, and in general unless a third grid occludes what covers them; with three grids in a cycle every point may be removed (refuted). That a point is removed for one reason is false of the code (refuted)."
  },
  {
   "property": "C89",
   "status": "partial",
   "theorems": [
    "C89_read",
    "C89_parts",
    "C89_truncated",
    "C89_seven_points_refuted",
    "C89_short_refuted"
   ],
   "note": "All files written by a separate specification of the format, in both formats, byte orders and with or without blanking, and all truncations of arbitrary bytes. False of the code for standard files without blanking whose first of several grids has seven points, and for files of less than four bytes (both refuted). Parts must fit (C90). MPI-IO is modelled as reading bytes at offsets; what an error on one grid does to processes of others is not modelled here."
  },
  {
   "property": "C90",
   "status": "partial",
   "theorems": [
    "C90_division",
    "C90_least",
    "C90_adjust",
    "C90_fits",
    "C90_usual",
    "C90_refused",
    "C90_refused_refuted"
   ],
   "note": "All numbers. That every file can be read is false of the code: if rounding up leaves a reader beyond the end the file is refused (C90_refused, with a witness); it is proved for the usual case of enough points or elements per process."
  },
  {
   "property": "C91",
   "status": "partial",
   "theorems": [
    "C91_exact",
    "C91_paired",
    "C91_file",
    "C91_unique",
    "C91_missing_refuted",
    "C91_none_refuted",
    "C91_range_refuted",
    "C91_points_refuted"
   ],
   "note": "All process numbers, distributions and interleavings; from the contents of the files (C89) to the matched pairs. False of the code, with witnesses: donors without a receiver get point 0 of grid 0, donors without any receivers divide by zero, connections out of range write outside arrays, and with more receivers than points messages go to ranks that do not exist; none of it is noticed."
  },
  {
   "property": "C92",
   "status": "partial",
   "theorems": [
    "C92_exact",
    "C92_places",
    "C92_empty_refuted",
    "C92_outside_refuted"
   ],
   "note": "All grids, decompositions, process numbers and interleavings, for donor cells that leave the grid only through periodic boundaries. False of the code, with witnesses: a donor with an empty cell disappears, and points outside of the grid are given to the first process; neither is noticed."
  },
  {
   "property": "C93",
   "status": "partial",
   "theorems": [
    "C93_exact",
    "C93_source_refuted",
    "C93_dropped_refuted",
    "C93_missing_refuted"
   ],
   "note": "All process and grid numbers, distributions and interleavings, if donors and receivers fit together. False of the code, with witnesses: a source that is no grid is counted outside of an array, donors without any receivers are dropped, donors without receivers beside others are looked up at a missing key; none of it is noticed."
  },
  {
   "property": "C94",
   "status": "proved",
   "theorems": [
    "C94_import",
    "C94_both_sides"
   ],
   "note": "Composition of the models of C89 and C91-C93: from the bytes of the files to the connectivities on each process, for files written by the specification of the format. Hypotheses are about the input only: parts can be read (C90), connections are numbered consistently, not more receivers than points, cells leave grids only through periodic boundaries, receivers are points of their grids."
  },
  {
   "property": "C95",
   "status": "partial",
   "theorems": [
    "C95_exact",
    "C95_all",
    "C95_same",
    "C95_same_refuted",
    "C95_kind_refuted"
   ],
   "note": "All process numbers, failures and interleavings. That all processes raise an error that occurred is false of the code when failures differ: a process keeps its own code but gets another's path (witness); an error without path beside one with a path leaves processes waiting (witness)."
  },
  {
   "property": "C96",
   "status": "partial",
   "theorems": [
    "C96_exact",
    "C96_none",
    "C96_nested",
    "C96_single",
    "C96_shared",
    "C96_one",
    "C96_any_refuted"
   ],
   "note": "All numbers of processes and grids, assignments, failures and interleavings; what is done for a grid is one collective operation. That it always ends is false of the code: processes wait forever if a grid after the failing one is on processes that are on it and on ones that are not (exact condition for one failing grid, with a witness)."
  },
  {
   "property": "C97",
   "status": "partial",
   "theorems": [
    "C97_exact",
    "C97_setup",
    "C97_same",
    "C97_again",
    "C97_length",
    "C97_new_length",
    "C97_length_refuted",
    "C97_created",
    "C97_created_refuted"
   ],
   "note": "All domains stored once per period, decompositions in which every process has a cell, geometry types, coordinates and schedules; numbers are rationals. That coordinates beyond the domain follow a change of the periodic length, or are right when the geometry is created, is false of the code (exact conditions, with witnesses). Listeners notified of new coordinates before the volumes are computed are not modelled."
  },
  {
   "property": "C98",
   "status": "partial",
   "theorems": [
    "C98_threads",
    "C98_same",
    "C98_more_threads",
    "C98_more_threads_refuted",
    "C98_count_refuted"
   ],
   "note": "All maps, fields, numbers of threads up to that at construction, distributions of the cells over threads and interleavings of loads and stores (sequentially consistent; there are no races, so that this is no restriction in C++). False of the code: the number of threads may not grow after construction (witness), and determining it is itself a race, if of equal values. Row-major fields only for cells that are wholly local (C37)."
  },
  {
   "property": "C99",
   "status": "partial",
   "theorems": [
    "C99_exact",
    "C99_partition",
    "C99_pool",
    "C99_pool_size",
    "C99_order_refuted",
    "C99_restart_refuted"
   ],
   "note": "All programs, halo maps, fields, arrival orders and interleavings; sends eager or synchronous. One value type and one communicator; MPI's non-overtaking rule is assumed. False without the rules in the statement (witnesses): different orders of starts mix up fields, and a field exchanged again before the wait may keep old values."
  },
  {
   "property": "C100",
   "status": "partial",
   "theorems": [
    "C100_exact",
    "C100_total",
    "C100_release",
    "C100_scan",
    "C100_once",
    "C100_bare",
    "C100_ghost",
    "C100_bare_refuted"
   ],
   "note": "All histories of legal calls, numbers of ranks, placements and edits, in debug and release builds. False without geometries on destroyed grids (C100_bare, C100_ghost, C100_bare_refuted). Contents of geometries (C97) and infos of records are left out; maps are their sorted entries (C17); listeners do not call the component."
  },
  {
   "property": "C101",
   "status": "partial",
   "theorems": [
    "C101_print",
    "C101_replace",
    "C101_number",
    "C101_number_inj",
    "C101_labels",
    "C101_message",
    "C101_escape",
    "C101_escape_stops",
    "C101_replace_empty",
    "C101_escape_refuted",
    "C101_escape_odd_refuted",
    "C101_label_refuted",
    "C101_name_refuted"
   ],
   "note": "All formats, arguments, strings and numbers; formatting of single values by the C library is a parameter, asterisks and null characters are left out. False with escaped percent signs, empty substrings, negative counts and names containing @rank@ (the refutations). The absolute value of the smallest integer is undefined and excluded."
  },
  {
   "property": "C102",
   "status": "partial",
   "theorems": [
    "C102_client",
    "C102_no_resize_while_editing",
    "C102_links_other",
    "C102_link_refuted",
    "C102_source_ranks_stuck"
   ],
   "note": "All kinds of sides, sizes and sequences of calls. One process; debug assertions on. Linking is false for the source ranks of N sides (C102_link_refuted, C102_source_ranks_stuck)."
  },
  {
   "property": "C103",
   "status": "partial",
   "theorems": [
    "C103_comm",
    "C103_comm_all",
    "C103_guard",
    "C103_level",
    "C103_handle",
    "C103_handle_refuted"
   ],
   "note": "All programs of moves, assignments and releases. One thread; deleters do not use the owners. Self-assignment is left out. False of generic handles that are assigned to while they own something (C103_handle gives exactly what leaks, C103_handle_refuted a witness)."
  },
  {
   "property": "C104",
   "status": "proved",
   "theorems": [
    "C104_lives",
    "C104_once",
    "C104_destroy"
   ],
   "note": "All programs of calls; creation of contexts does not fail (C78), clients do not copy pointers of unshared contexts or handles, addresses are not reused. One thread."
  },
  {
   "property": "C105",
   "status": "proved",
   "theorems": [
    "C105_regions",
    "C105_fragments"
   ],
   "note": "All types, layouts, counts and memories. Type maps and extents are those of the MPI standard; elem and interval are laid out without padding, as arrays are; sender and receiver have the same layout."
  },
  {
   "property": "C106",
   "status": "proved",
   "theorems": [
    "C106_client",
    "C106_calls",
    "C106_no_leak"
   ],
   "note": "All programs of calls and completion orders, over the model of requests of C28. One process; clients do not copy pointers between variables and pass no variable twice in one call; addresses are not reused; every send and receive returns an active request."
  },
  {
   "property": "C107",
   "status": "partial",
   "theorems": [
    "C107_values",
    "C107_accepts",
    "C107_valid_partial",
    "C107_valid_refuted",
    "C107_origin_refuted"
   ],
   "note": "All sequences of calls and values. Validity is false for carts whose unused directions are not trivial, which are accepted (C107_valid_refuted), and proved for all others; ranges that do not begin at 0 are accepted alone but not in carts (C107_origin_refuted). Machine overflow of sizes is left out."
  }
 ]
}