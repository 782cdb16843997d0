# Formal model of Overkit in Rocq (Coq 8.16.1)

Overkit assembles overset (Chimera) grids over MPI.  This directory contains a
Rocq model of its core and theorems about that model.  `properties.jsonl` lists
the properties, `MANIFEST.json` maps each to theorems, `seeded/LOG.jsonl` records
the mutation tests run against the theorems.

## Conventions

* Each area `X` has up to three files: `XModel.v` (executable definitions only,
  every definition cites file and lines of /repo), `XProof.v` (specification
  predicates and lemmas) and `XProps.v` (property theorems only, each closed
  by `exact`, with `Print Assumptions` and a non-vacuity `Example`).
* Index arithmetic is over unbounded `Z`.  C++ `/` and `%` are `Z.quot` and
  `Z.rem`.  Machine overflow is not modelled unless a theorem says so.
* Floating point is modelled by exact rationals or reals.  Rounding is not modelled.
* Undefined behaviour (reading past the end, dereferencing an empty optional,
  dividing by zero) is the outcome `None`/`UB` in the model, never a default value.
* MPI is modelled as reliable, with per-pair-and-tag FIFO order and arbitrary
  interleaving between ranks.  Progress of MPI itself is trusted.
* A theorem whose name ends in `_refuted` proves that the property, as a user
  would state it, is false of the code.  A theorem ending in `_partial` proves
  a weaker statement and its comment says what is missing.

## Plan per property

| id | what is modelled | how it is proved |
|----|------------------|------------------|
| C01-C03 | ranges as triples of `Z` pairs, the functions of Range.inl/Interval.hpp | case analysis + `lia`, point-set semantics as spec |
| C04 | boxes with rational bounds | same over `Q`/`R` order |
| C05 | Indexer.hpp for any rank as lists | induction on rank |
| C06 | MapToUniformGridCell with truncating division | `Z.quot` lemmas |
| C07-C09 | Cart.inl | congruence modulo period; refutation witnesses where the code deviates |
| C10 | CreateSubregions | counting argument over quotient/remainder |
| C11-C12 | Decomp.cpp conversions | case analysis + `lia` over all domains |
| C13-C15 | DetectNeighbors, halo_map, halo exchange as rank-indexed functions, completion order as a permutation | order-preservation of filtered iteration |
| C16-C18 | Set.hpp/Map.hpp on lists, binary search included | refinement to a predicate / partial map over op lists |
| C19-C20 | UnionFind.hpp with parent map and compression | simulation with equivalence closure |
| C21 | partition_pool with CartLess_ as written | refutation of the order laws and of lookup |
| C22-C23 | region hashes (CSR bins, owner maps) | completeness by bin geometry |
| C24-C27 | transition systems, one step per MPI call | inductive invariants over all schedules, progress |
| C28-C29 | request table with adversarial completion order | invariant counting callbacks |
| C30-C34 | Editor, Event, FloatingRef, Optional as heaps with op histories | invariants over op lists |
| C35-C38 | SendMap/RecvMap/Send/Recv/Disperse/Collect | list permutation arguments |
| C39-C43 | AssemblerOptions, Domain, OverlapComponent | refinement to total maps / logs |
| C44-C45 | Array.hpp over the indexer | index bijection |
| C46-C51 | distributed field operations over decompositions | global-field simulation, induction |
| C52-C53 | Math.inl over an ordered field | `field`/`nra`-free ring identities |
| C54 | CreateCartesianDecompDims | product invariant of the rebalancing loop |
| C55 | profiler and timer | invariant over histories |
| C61-C67 | assembly of one grid as a program of local loops, field operations and reductions | each phase refines a function of global masks; a declarative specification of the final flags, from which determinism and idempotence follow |
| C68 | the rank-finding rounds of the exchanger as phases of n ranks | prog_ok of each phase; two kinds of messages in one wait; linear numbering of the points of all grids is injective |
| C69 | find ranks, collect on the ranks of the M grid, send/receive, disperse as one program | programs of k ranks embedded in n ranks; sequential composition of `prog_ok`; sums over cells factor into sums over sides |
| C70, C71 | pointwise folds over candidates | an order on candidates that is negatively transitive; loop invariants over points; fractions with small denominators differ by more than the tolerance |
| C72 | subdivision as a fold over halves; boxes as products of intervals | induction on the depth (fragments partition the active cells); a box that contains the vertices contains convex combinations of them, also after rotation and scaling |
| C73 | tree of bins as an inductive type; any criterion of subdivision | induction on the tree: a cell whose box contains the point is in the leaf and bin of the point; the best of a list of candidates by a total order |
| C74 | rational coordinates; numbers with infinities and not-a-number | Cramer's rule and barycentric coordinates; Gram determinants for perpendicular edges; case analysis of the unit cube into six tetrahedra; convex combinations |
| C75 | Newton iteration as a fixpoint on steps | induction on the steps; the weights are Lagrange polynomials, whose moments give exactness on lattices |
| C76 | determinants; boxes with optional coordinates | identities of determinants; fold invariant |
| C77 | composition of fragments, trees, tests and choice | each stage's theorem; owner fragment of a cell; transport of hulls along orientations |
| C78 | program of phases; rows as a filter of all points | scatter of rows by a sort; rows and data in bijection; order of the points is global |
| C79 | program of phases: reverse exchange, exchange among the ranks of a grid, local passes | reverse exchange by C35/C78; donors as a filter of the overlap; each cell has one owner, which tells all ranks with a vertex |
| C80 | the sides of all connectivities as the input of the exchange program; executions of C78 and C79 | programs have one result; donors and receivers fit by uniqueness of owner, donor grid and image; composition with C69 and, for physical space, C75 |
| C81 | the component of DomainModel with arrays, one exchanger on all ranks, events delivered in step; finding ranks by its outcome | refinement of a history semantics; manifests as sets; snapshots of the arrays from which ranks were found; composition with C35 and C68 |
| C82 | one domain, its component event, any number of objects | listener map invariant; the loop counted against the entries left; refinement of a state of bound objects; exact condition for being defined |
| C83 | n processes as small machines, one move at a time | invariant over all processes: channels are what the answered signals say, buffers are a permutation of what was posted; a measure of the work left, which always can go down |
| C84 | n processes with messages in phases (NetModel) | both sides of each wait are sorted sets with the same elements; the state after each phase in closed form |
| C85 | the collect, send and disperse programs (C37, C36, C35) in sequence on n processes | the k-th value sent to a rank is that of the k-th point it expects (C78); each point has one row with a rank, that of the owner of its cell |
| C86 | masks of all pairs as functions on points, in the order of the code; independent description of the occluded points | two rounds of exclusion, by number of the grids; smoothing contains what is kept because a closing does; defined exactly if both directions exist |
| C87 | loops with fuel, None when it runs out; description by distances, edges and reachability | dilations add up, so the loop finds the least distance; it ends iff there is something to dilate (diameter of the grid); flood fill is reachability as in C47; no path crosses a wall |
| C88 | the parts of C61, C71, C86 and C87 put together in the order of Assemble; the same parts of the specification, for one set of data | pointwise description of each stage, the model of a grid on one process gives C61; consistency of masks between stages; counterexamples with three grids |
| C89 | reader of bytes function by function; a separate writer of the format | every offset is where the writer put it (located bytes), reading and byte order invert writing, induction over grids; truncation as refinement of results |
| C90 | Chunkify's three loops | invariant: number of readers is the quotient rounded up; monotone steps |
| C91 | MatchDonorsAndReceivers | program of phases; the state after each phase in closed form; every bin element is the last written; files by membership of parts |
| C92 | DistributeGridConnectivityData | program of phases with the hash lifted in; owner of a point unique; lists per rank by induction on pushes; who sends to whom from the handshake |
| C93 | ImportConnectivityData | counts in closed form by induction on loops; arrays half filled as invariant; sums positive iff some rank has a receiver |
| C94 | ImportXINTOUT | composition of C89, C91, C92 and C93: the parts held by the ranks of a grid are a permutation of the grid's data in the file; choice of final states per grid |
| C95 | captured_exception::Sync | phases of the network model; minimum of codes and ranks |
| C96 | ReadXINTOUT | transition system; invariant relating each rank to its fate, a recursive function of the grids; in stuck states ranks are where their fate says |
| C97 | OnCoordsEndEdit_ | seven phases composed with `lift`; exchanges by C37's `partitioned`; vertices of own cells and cells of own points are at hand by the near clause |
| C98 | interpolation with threads | threads confined to elements of their own (generic: any interleaving agrees with each thread alone), then refinement of the loop of C37 |
| C99 | exchanges in progress at the same time | invariant relating each rank to a lock-step reference, each exchange to a part of an arrival order; progress from the rank with fewest starts; measure |
| C100 | geometry and state components | simulation by one component that all ranks see; invariant on records, local data and pending edits |
| C101 | texts of messages | induction on formats split at percent signs; uniqueness of leftmost replacement; groups of digits |
| C102 | arrays of connectivities and overlaps through the C interface | refinement of maps from tuples to values by flat storage, offsets and counted edits |
| C103 | owners give back what they own once | simulation of variables that own at most one thing; accounting invariant (made = given back + released + owned) |
| C104 | contexts live as long as they are held | simulation of identities and holders by addresses and reference counts; destruction log as invariant |
| C105 | members of regions and fragments arrive in messages | bytes of type maps = bytes of members, by induction on types; disjointness of copies and blocks |
| C106 | C requests are deleted when complete, and their pointers nulled | invariant relating pointer variables, live objects and active requests, over the invariant of C28 |
| C107 | grid parameters are what was last set | last-write lemma over sequences of calls; invariant for validity |

## What is modelled

| area | code | model files |
|------|------|-------------|
| tuples, ranges, boxes | Tuple.hpp, Interval.hpp, Range.inl, Box.inl | TupleModel, RangeModel, BoxModel |
| domain index spaces | Cart.hpp, Cart.inl, Decomp.cpp | CartModel, DecompModel; NeighModel (DetectNeighbors), HaloModel (RetrieveDecompInfo) |
| arithmetic helpers | Math.inl | MathModel |
| indexers and arrays | Indexer.hpp, Array.hpp, Vector.hpp (element sequences) | IndexerModel, ArrayModel |
| sorted containers, ids | Set.hpp, Map.hpp, ElemSet/ElemMap, ID.hpp | ContModel |
| union-find, partition pool | UnionFind.hpp, Partition.cpp | UFModel, PoolModel |
| requests | Request.hpp, Request.cpp (with the operations of Send, Recv and halo exchange as payloads) | ReqModel |
| lifetimes | FloatingRef.*, Editor.*, Event.*, Optional.* | FRefModel, EditModel, EventModel, OptModel |
| options | AssemblerOptions.cpp | OptionsModel |
| process grids, profiler | Comm.cpp CreateCartesianDecompDims, Profiler.* | DimsModel, ProfModel |
| communication protocols | CommunicationOps.cpp, CommunicationOps.inl (signal without MPI_Ibarrier, DynamicHandshake, Serialize, BroadcastAnySource) | ProtoModel |
| region hashes | RegionHash.inl, RegionTraits.hpp (ranges and boxes); DistributedRegionHash.inl | HashModel, NetModel, DHashModel |
| halo exchange | Halo.cpp, Halo.inl; calls in Grid.cpp, Partition.cpp | HaloModel, PartModel, LiftModel |
| distributed fields | DistributedField.hpp (Fill), DistributedFieldOps.cpp; Partition.cpp (construction) | FieldModel, CompModel, PartModel |
| finding the ranks of an exchange | Exchanger.cpp 282-777 (UpdateSourceDestRanks_), 1555-1561 (BinDivide) | XchModel |
| a whole exchange of one connectivity | Exchanger.cpp 226-247, 779-813, 990-1033, 1158-1195, 1320-1357, 1497-1533; interpolation coefficients AssemblerAssembly.cpp 5029-5041, 5153-5186, ConnectivityM.cpp 134-144 | PipeModel, EmbedModel |
| choosing cells and donors | AssemblerAssembly.cpp 1651-1830 (BetterCell, aggregation), 4463-4568 (donors, orphans) | CellModel |
| fragments of a grid and the ranks that overlap a point | AssemblerAssembly.cpp 229-365, 367-655, 716-760, 824-885; Box.inl, GeometryOps.inl 902-940 | FragModel |
| search of a cell in a fragment | OverlapAccel.cpp | AccelModel |
| points in cells, coordinates, volumes, boxes | GeometryOps.inl 23-945; GeometricPrimitiveOpsLine/Quad/Hex.inl; Math.inl 30-121 | GeomModel |
| detection of overlap between two grids | AssemblerAssembly.cpp 655-690, 1217-1254, 1294-1420, 1553-1612, 1748-1830 | DetectModel |
| overlap data of a pair of grids on all ranks | AssemblerAssembly.cpp 1835-2390 (ranges and data of the cells, both sides), 2498-2508 | OvlModel |
| connectivity of a pair of grids on all ranks | AssemblerAssembly.cpp 4633-4716, 4787-4990, 5053-5078, 5086-5151, 5195-5223 | ConModel |
| what the exchanger sees of the connectivities | ConnectivityM.cpp, ConnectivityN.cpp 107-125, Exchanger.cpp 226-330 | FullSpec (m_conns, n_conns) |
| a bound exchanger: events, manifest, entries, ranks, maps, operations | Exchanger.cpp 102-165, 191-280, 282-330 (which connectivities take part), 779-815, ConnectivityComponent.cpp 745-800 (flags) | ExcModel |
| objects bound to the components of a domain; triggering an event whose listeners remove themselves | Assembler.cpp 86-200, 325-345, Exchanger.cpp 102-165, 176-189, Domain.cpp 388-404, Event.inl 17-24 | BindModel |
| transfer of fragments between processes: signals, ten buffers, tests | AssemblerAssembly.cpp 1422-1644 | FtxModel |
| the fragments processes send each other: who needs which, their ranges | AssemblerAssembly.cpp 897-1192, 1258-1286 | FcnModel |
| values sent over an overlap: volumes, active points, distances; update of the overlap masks | AssemblerAssembly.cpp 2592-2674, 3297-3387, 4135-4226, 4380-4452 | FwdModel |
| occluded points of all grids: pairs, padding, smoothing (masks of whole grids, exact volumes; no logging) | AssemblerAssembly.cpp 3522-3986 | OccModel |
| points removed as boundary holes (masks of whole grids; no logging, no update of what follows) | AssemblerAssembly.cpp 2793-3268; DistributedFieldOps.cpp 53-158, 459-500 | HoleModel |
| a whole assembly of a domain, with all data that the grids contribute to each other (fields of whole grids, detection as a function of the active points, no logging, no cell masks) | AssemblerAssembly.cpp 82-119, 158-200, 2535-2589, 2714-2757, 3297-3387, 3420-3489, 4036-4226, 4284-4599 | DomModel |
| reading XINTOUT files (files are lists of bytes, reading at an offset gives the bytes there or an error; doubles are their 64 bits; collective reads and broadcasts within a grid are computed on one process, an error on one is an error on all) | extras/XINTOUT.cpp 399-1490, 2687-2793 | XinModel |
| matching donors and receivers of XINTOUT files (three arrays sent to a bin are one message, what a bin is created with is a parameter) | extras/XINTOUT.cpp 1492-1890 | MatModel |
| sending donors and receivers of XINTOUT files to the ranks of their points (the arrays sent to a rank are one message after their numbers) | extras/XINTOUT.cpp 1918-2411 | DistModel |
| connectivities made of the donors and receivers of XINTOUT files (creating the connectivities is the list of their IDs, the arrays of a connectivity are lists of cells or points, a map from grid IDs to positions is a search) | extras/XINTOUT.cpp 2413-2650; ConnectivityM.cpp 99-155 (Resize) | ImpModel |
| the steps of importing XINTOUT files after each other (the steps of different grids separately, on their own communicators; which process has read which part is arbitrary) | extras/XINTOUT.cpp 221-292, 1893-1916 | EndModel |
| errors known to some processes only (length and characters of a path are one broadcast) | core/Exception.hpp 128-160, Error.hpp 33-157, CommunicationOps.cpp 20-35 | ExnModel |
| reading XINTOUT files when reading fails for some grids (everything done for a grid is one collective operation on its communicator) | extras/XINTOUT.cpp 399-458, 955, 1290, 1488 | ErrModel |
| geometries: constructor, SetPeriodicLength, end of an edit of coordinates (rationals; the three exchanges of coordinates follow each other; events left out) | core/Geometry.cpp 53-85, 122-137, 170-270 | GedModel |
| interpolation with threads: loads and stores of array elements, interleaved (sequentially consistent) | core/CollectInterpThreaded.hpp 48-152; core/CollectBase.cpp 27-51, 69-104, 242-278 | ThrModel |
| several halo exchanges in progress at the same time: starts, waits and computations interleaved over the ranks, matching in order of posting | core/Halo.inl 16-54, 58-176; core/Request.cpp 19-45, 110-180 | HexModel |
| geometry and state components: creation, destruction, clearing, edit events, destroyed grids; without contents, infos and listeners that call back | core/GeometryComponent.cpp 60-173, 186-497, 607-618; core/StateComponent.cpp likewise | GcoModel |
| texts of messages: formats, replacement, numbers; printf as in ISO C with the formatting of single values as a parameter | core/TextProcessing.inl 7-157; core/TextProcessing.cpp 11-29; core/Logger.inl 29-40, 59-70, 85-107, 163-174 | TxtModel |
| arrays of connectivities and overlaps: resizing, editing, and their C interface (one process, pointers as offsets into numbered storage) | core/ConnectivityM.cpp 98-159 and Edit/Restore, core/ConnectivityN.cpp, core/OverlapM.cpp, core/OverlapN.cpp; core-c/ files of the same names | CifModel |
| owners: communicators, scope guards, handles of levels and of datatypes (things as numbers, what is given back as a log) | core/Handle.hpp 19-53, Handle.inl 7-69, Optional.inl 26-82, Comm.hpp 60-84, Comm.inl 33-77, ScopeGuard.inl 7-47, Logger.hpp 20-50, Logger.inl 109-115 | OwnModel |
| contexts of the C interface and their holders (memory as a map from addresses that are not reused; handles, domains, assemblers and exchangers all as shared_ptrs) | core-c/Context.cpp 17-145, core-c/Domain.cpp 36-100, core-c/Assembler.cpp 21-96, core-c/Exchanger.cpp 22-97, core/Context.cpp 39-47, 75-87 | ShrModel |
| MPI datatypes of regions and fragments, and messages made with them (memory as bytes; type maps as lists of offsets) | core/MPISerializableTraits.hpp 41-152, core/DataTypeOps.hpp 20-62, core/Assembler.hpp 70-78, 361-377, core/DistributedRegionHash.inl 100-122, 450-488 | DtyModel |
| Requests of the C interface (pointer variables of one client; addresses by order of allocation) | core-c/Request.cpp 14-65, core-c/Exchanger.cpp 247-260, 301-314 | CrqModel |
| Parameters of grids (ranges and tuples as functions of the direction) | core/Grid.hpp 48-84, core/Grid.cpp 194-312, core-c/Grid.cpp 199-373 | GpmModel |
| send and receive | SendMap.cpp, RecvMap.cpp, Send.cpp, Recv.cpp, Exchanger.cpp (GetSendRecvOrder) | SendModel |
| disperse | DisperseBase.cpp, DisperseOverwrite.hpp, DisperseAppend.hpp | DisperseModel |
| collect | CollectMap.cpp, CollectBase.cpp, CollectNone/Any/NotAll/All/Min/Max/Interp.hpp, Min and Max of ScalarOps.hpp | CollectModel |
| assembly, for one grid | AssemblerAssembly.cpp: resetting flags, InferBoundaries_, LocateOuterFringe_, MinimizeOverlap_, the effect of overlap, holes, occlusion and donors on flags, receivers and their distances (158-200, 2576-2589, 2714-2757, 3232-3291, 3420-3489, 3957-3986, 4036-4139, 4284-4375, 4552-4599, 5244-5330); State.h | AsmModel |
| domain and components | Domain.cpp, OverlapComponent.cpp, ConnectivityComponent.cpp (same code) | DomainModel |

Not modelled at all: the Fortran wrappers and the C wrappers other than those of C102,
C104, C106 and C107, XDMF and test utilities, logging
text, MPI internals, memory allocation, rounding in the tests whether a
point is in a cell (except as cited), the cell masks of the assembler, and the
extras (XINTOUT) other than opening the files (C89-C96), and the parts of Geometry.cpp not listed. A whole assembly (C88) is modelled on whole grids; that each part
gives the same on processes is the subject of the properties about the parts.

## Trusted base

* The Coq 8.16.1 kernel (the build also passes `coqchk`).
* The reading of the C++ code that the model files record.  Every definition cites
  the lines it models and states its simplifications.
* Axioms.  `Print Assumptions` follows every property theorem in the `*Props.v`
  files.  Every theorem is closed under the global context, except the ones about real
  functions in MathProps.v and PipeProps.v, which use axioms of the standard library's real numbers:
  * C52_* and C53_* theorems, C69_interp_partial: `ClassicalDedekindReals.sig_forall_dec` and
    `FunctionalExtensionality.functional_extensionality_dep`;
  * C52_interp_cubic_deriv also: `ClassicalDedekindReals.sig_not_dec`.

## Findings: properties that are false of the code

Each has a `_refuted` theorem with a witness and a `_partial` theorem for the part that holds.

| id | code | what goes wrong |
|----|------|-----------------|
| C08, C09 | Cart.inl, MapToRange | in a non-periodic dimension a tuple below the range is moved up by the size of the domain (line 91); for ranges, an overlapping image can be missed and a result need not overlap |
| C12 | Decomp.cpp, ExtendLocalRange | a local range one point away from a non-periodic boundary is extended across it (lines 109-111) |
| C13, C14 | Decomp.cpp 45-49, DetectNeighbors | with periodic_storage::DUPLICATED the neighbour relation can be asymmetric; the halo exchange then waits for a message that is never sent |
| C14 | Grid.cpp 57-77, Decomp.cpp 26 | extended ranges reach two or three points, neighbours are found from a ring of one point: with thinner local ranges halo values are not updated |
| C20 | UnionFind.hpp 103-105, Relabel | the representative of a class need not be its smallest element |
| C21 | Partition.cpp 159-188, CartLess_ | not a strict weak order, so the pool may create a second partition for the same arguments |
| C22 | RegionHash.inl, MapToBins | boxes that are all flat in one dimension give bins of width zero: a NaN is converted to int |
| C23 | DistributedRegionHash.inl 412-423, 299-332 | a bin of a rank that holds no regions is read from an empty array (AssemblerAssembly.cpp 812-832 requests such bins); mapping a point beyond the extents can divide by zero |
| C29 | Request.hpp, move assignment | an active request that is overwritten is never waited for |
| C31 | Editor.inl 126-132, Restore | the handle keeps its reference and gives its share back twice; AssemblerAssembly.cpp 2592 does this |
| C34 | Optional.inl 67-82 | move assignment leaks the moved-from object; self-move reads a destroyed object |
| C43 | OverlapComponent.cpp 485-487, 508-512 | clearing two or more records reads beyond the end of the key array; the same in ConnectivityComponent.cpp |
| C45 | Array.hpp 136-150, Vector.hpp 52-88 | assigning a shorter sequence reads past the source and keeps the old length |
| C35 | Send.cpp 121, Recv.cpp 55 | the order, array<long long>, is converted to array<int>: with more than 2^31 values the index becomes negative |
| C37 | CollectMap.cpp 410, 440-450, CollectBase.cpp 69-104 | the map numbers the vertices of a cell column-major, the collect object in the layout of the field: row-major fields get wrong values at cells shared by ranks (refuted) |
| C37 | CollectMap.cpp 236-471 | a vertex owned by a rank that is not a neighbour is never received; its entry stays 0 and overwrites vertex 0 (refuted, cells wider than 2 points) |
| C68 | Exchanger.cpp 619-653 | the tables of ranks are per point, not per connectivity: a point that receives from two grids gets the wrong source rank for one of them, and the exchange deadlocks (refuted) |
| C68 | Exchanger.cpp 381, 406 | a donor or receiver with a given rank is left out of the tables, so the other side, if its rank is not given, gets -1 (refuted) |
| C72 | AssemblerAssembly.cpp 336-356 | fragments without active cells are dropped before the cover ranges are made: a rank whose own cells are all inactive, or that has only the last points of a grid and so no cells, is not told of points in cells it has vertices of; it does not list the cell that its owner expects it to (two refutations) |
| C72 | AssemblerAssembly.cpp 716-760, Geometry.cpp 213-225 | for grids with a period length the ghost cells have coordinates shifted by the period, so the rank at the other end of the grid is not told of points in the last cells (refuted) |
| C74 | GeometricPrimitiveOpsQuad.inl 302-311, Hex.inl 347-356 | the tolerance applies to barycentric coordinates of the triangles: a point up to nd times the tolerance outside of a curvilinear cell is accepted (refuted), and it is also outside of the box that was enlarged by the tolerance, so it is found or not depending on the decomposition |
| C74 | Math.inl 30-73 | in a cell with two coinciding vertices (polar axis) a point far away on the line through the others is accepted, since the equations give 0/0 and all comparisons with it are false (refuted) |
| C75 | GeometryOps.inl 443-444 | the condition in one dimension is inverted: coordinates in one-dimensional grids that are not uniform are never found (refuted) |
| C75 | GeometryOps.inl 478-486 | a part of a grid only three points wide (a fragment one cell wide at a border) finds no coordinates in its cells, although the whole grid does: what is found depends on the decomposition (refuted) |
| C75 | GeometricPrimitiveOps.hpp 23-72 | the tolerance of the iteration is absolute: in grids with a spacing below 10^-12 every point gets the center (refuted) |
| C76 | GeometryOps.inl 573-753, 755-945 | uniform and rectilinear grids with descending coordinates have negative volumes and empty boxes (refuted) |
| C76 | GeometryOps.inl 755-945, Elem.hpp 83-87 | the box of a one-dimensional cell has two indeterminate coordinates, read later in comparisons (refuted) |
| C77 | AssemblerAssembly.cpp 1217-1254, GeometryOps.inl (CoordsInCell) | a point inside of a rectilinear or curvilinear grid is not found if the fragment with its cell is one cell wide at the border of the grid, so whether it is an orphan depends on the number of ranks (refuted) |
| C78 | AssemblerAssembly.cpp 1835-2012, 2498-2520, CollectMap.cpp | on a periodic grid with DUPLICATED storage the rank with the first points lists the last cell before its first point, the rank with the last points lists it in place; the collect map finds different owners of its vertices, and the collects of the overlap wait for ever (refuted) |
| C79 | AssemblerAssembly.cpp 4896-4902, 4953-4968 | on a periodic grid with DUPLICATED storage the cell at the first point is also given to the process with the last point, the same point, with its lower corner there: two processes hold the donor of one receiver (refuted) |
| C79 | AssemblerAssembly.cpp 4836-4838, 5034 | the connection type CUBIC is accepted by the options, but assembly stops at a debug assertion; in a release build the donors have indeterminate extents (documented) |
| C81 | Exchanger.cpp 212-218 | an edit of the points of the receivers (or the extents of the donors) alone makes new maps but does not find the ranks again: the new points are paired with the old ranks, and receivers get each other's values (refuted) |
| C82 | Event.inl 17-24, Exchanger.cpp 144-189, Assembler.cpp 167-199, 325-345 | on DestroyComponent the bound objects unbind and erase their listeners from the map the event is iterating over: with two objects on the domain, unless only the last listener does so, a listener is skipped and an erased entry is called (refuted) |
| C83 | AssemblerAssembly.cpp 1443-1447, 1488-1506 | signals carry no number and data no tag: if MPI_Testsome reports two signals of a process out of order, two fragments get each other's coordinates and masks, and nothing fails (refuted) |
| C85 | AssemblerAssembly.cpp 3297-3308, 3379-3386, 4135-4146, 4218-4226 | OverlapMask is cleared at points that became inactive and then overwritten at all overlapped points with the values from the other grid: a hole point counts as overlapped again, so with occludes ALL it gets the flag OCCLUDED (refuted) |
| C86 | AssemblerAssembly.cpp 3668, 3712, 3790; Map.hpp 450-458 | A pair of grids that are asked to occlude each other need not overlap in both directions (a fine grid inside one coarse cell contains no point of the coarse grid). The mask of the missing direction is then looked up with operator(), which does not check: undefined, or the mask of another pair. The options are not checked for this. |
| C86 | AssemblerAssembly.cpp 3596-3734 | With COARSE in both directions the mask is overwritten (instead of restricted) with "no vertex of the cell is occluded": points that are not coarser become occluded, for instance the corners of a fine grid that reach into a coarse cell whose vertices lie outside the fine grid. |
| C86 | AssemblerAssembly.cpp 3856-3876 | For the same reason points over a hole of the other grid are in the base mask of smoothing, and smoothing occludes them. |
| C86 | AssemblerAssembly.cpp 3789-3797 | Only what the two grids of a pair occlude of each other is taken into account: three grids that occlude each other in a cycle (ALL) lose all their points. |
| C87 | AssemblerAssembly.cpp 3008-3064 | The edge of the overlap is dilated until it covers the points beyond the overlap. If no point of the cutting grid on that edge lies in a cell of the grid that is cut, there is nothing to dilate and the loop never ends (all processes hang). |
| C87 | AssemblerAssembly.cpp 3066-3137 | The boundary is dilated by that same number of points, which is large in all directions if the cells of the cutting grid are long in one. It then reaches the other side of the overlap, where there is no boundary, and points there are removed. |
| C87 | AssemblerAssembly.cpp 3207-3225 | If every overlapped point is next to a point that is not overlapped there is no seed: nothing is removed, without a message. |
| C88 | AssemblerAssembly.cpp 3297-3387 | After holes were cut the overlap mask of a grid is first restricted to active points and then overwritten, at all points for which a cell was found, by whether the vertices are active. So points removed as holes stay in the overlap mask, are flagged OCCLUDED, and without a fringe OVERLAP_MINIMIZED too. |
| C88 | AssemblerAssembly.cpp 3700-3986, 4045-4089 | Whether a point is removed is decided for all pairs at once: with three grids that occlude each other in turn and FringeSize 0 every point of every grid is removed, so nothing is left to solve on, and no message says so. |
| C89 | XINTOUT.cpp 650-742 (DetectFormat), 744-946 | A standard file without blanking whose first of several grids has seven points is taken to have blanking: the next record has 28 bytes, as many as seven flags. Proved: C89_seven_points_refuted. |
| C89 | XINTOUT.cpp 513-560 | The result of reading the first four bytes is not checked for their number, so a file of less than four bytes is judged by bytes that were never set. Proved: C89_short_refuted. |
| C89 | XINTOUT.cpp 399-458 | An error in one grid makes its processes leave while those of other grids go on to collective calls (not modelled; found by reading). If the x file cannot be opened, the error names the other file. |
| C90 | XINTOUT.cpp 1020-1030, 1398-1408, 2695-2724 | The size of a part that would start after the end is negative and converted to an unsigned type, so the file is refused as having too large parts, e.g. five donors on four processes with four points. Proved: C90_refused, C90_refused_refuted. |
| C91 | XINTOUT.cpp 1538, 1575 (MatchDonorsAndReceivers) | BinSize is 0 if there are donors but no receivers, and connections are divided by it. Proved: C91_none_refuted. |
| C91 | XINTOUT.cpp 1538-1550, 1778-1828 | Connections are not checked: one that is not below the number of receivers is written outside the arrays of a bin (C91_range_refuted); one that only a donor has gives the donor point 0 of grid 0 as destination (C91_missing_refuted); with more receivers than points messages go to ranks that do not exist (C91_points_refuted). |
| C92 | XINTOUT.cpp 2036-2054, 2084-2120 | A point that no rank has (outside of a grid that is not periodic) keeps rank 0 from Resize, so that donors and receivers outside of the grid go to rank 0 without an error. Proved: C92_outside_refuted. |
| C92 | XINTOUT.cpp 2059-2081 | A donor with an empty cell has no ranks and is dropped without an error, while its receiver is kept. Proved: C92_empty_refuted. |
| C93 | XINTOUT.cpp 2438, 2533, 2567 | A source that is no grid of the domain (0 for receivers without a donor, C91) is counted outside of NumConnections; a destination without receivers is a missing key of a map; if a grid has no destinations with receivers its donors are dropped (2513). Proved: C93_source_refuted, C93_missing_refuted, C93_dropped_refuted. |
| C95 | Processes that fail with different errors each keep their own code but get the path of the one with the lowest code: a failure to read one file is reported with the path of another one that could not be opened | `C95_same_refuted` |
| C95 | MPI_NOT_INITIALIZED on one process and a file error on another: the latter waits forever for a path that is never sent | `C95_kind_refuted` |
| C96 | If an XINTOUT file cannot be read for a grid and a later grid is on processes that are on this grid and on others that are not, the import waits forever instead of raising the error | `C96_any_refuted`, `C96_one` |
| C97 | SetPeriodicLength notifies of new coordinates but does not move the copies beyond the domain, nor update volumes, until the next edit | `C97_length_refuted`, `C97_length` |
| C97 | A new geometry has points beyond the domain at their indices, which is where periodic images should be only if periodic lengths are numbers of points (the default is 0) | `C97_created_refuted`, `C97_created` |
| C98 | Buffers are allocated for the number of threads at construction; with more threads when Collect is called (omp_set_num_threads in between) accesses are out of bounds | `C98_more_threads_refuted`, `C98_more_threads` |
| C98 | GetThreadCount_: all threads assign to the same variable, which is a data race, if of equal values | `C98_count_refuted` |
| C99 | All exchanges use tag 0: started in different orders on different ranks they end with values of one field in another, with no error | `C99_order_refuted` |
| C99 | A field may be exchanged again before its exchange is waited for; the copies may then end with old values | `C99_restart_refuted` |
| C100 | Destroying a grid destroys its geometry (and state) even if it has none: debug builds stop, release builds announce the destruction of a geometry that never was | `C100_bare_refuted` |
| C101 | Formats with escaped percent signs are split at the second sign: debug builds stop, release builds are undefined or print both | `C101_escape_refuted`, `C101_escape_odd_refuted` |
| C101 | Negative numbers are given the singular label | `C101_label_refuted` |
| C101 | @rank@ is replaced after the arguments have been put in, so names that contain it are changed in messages | `C101_name_refuted` |
| C101 | StringReplace with an empty substring does not end | `C101_replace_empty` |
| C102 | ovkRestoreConnectivityNSourceRanks and ovkRestoreOverlapNSourceRanks are declared but defined as ovkRelease... (core-c/ConnectivityN.cpp 268, core-c/OverlapN.cpp 272): edits of source ranks cannot be ended from C | `C102_link_refuted`, `C102_source_ranks_stuck` |
| C103 | handle's move assignment is memberwise (core/Handle.hpp 32): the deleter of what the assigned handle owned is never called. The library itself never assigns to a handle that owns something. | `C103_handle_refuted` |
| C104 | After ovkShareContext the client's ovk_context pointer is not null but points into the shared block: using it is right, ovkDestroyContext of it is undefined. ovkGetDomainSharedContext (and of assemblers, exchangers) gives a new handle that must be reset. | `C104_destroy` |
| C107 | Grid.cpp 236-255 | SetCart does not check that unused directions are trivial: a two-dimensional cart with several points in the third direction is accepted. |
| C107 | Grid.cpp 257-271 | SetGlobalRange accepts ranges that do not begin at 0, which SetCart rejects. |
| - | Also declared in core-c headers without a definition, or the other way round: ovkComponentHasType (Domain.h 83), LocalGeometryCount and LocalStateCount (declared without the prefix ovk, GeometryComponent.h 36, StateComponent.h 36) | documented only |
| C38 | CollectMax.hpp 83 | starts with numeric_limits<T>::min(), for floating point types the least positive number: wrong for negative values (refuted) |
| C36 | DisperseMap.hpp 30, Count() | Points_.Size(2) of an array with two dimensions: reads past the extents (not called anywhere; not modelled) |
| C48 | DistributedFieldOps.cpp 455-458, ConnectedComponents | labels of copies whose owner is not a neighbour stay -1 and are used as index of GlobalRootToContiguous |
| C51 | DistributedField.hpp 125-150, Fill | with periodic_storage::DUPLICATED the other copy of a filled point keeps its value |
| C58 | Request.cpp, WaitAny | timers of requests that did not complete keep running |
| C59 | FloatingRef.inl 20-25 | copy assignment onto a moved-from generator dereferences a null pointer |
| C65 | AssemblerAssembly.cpp 4111-4114 | a removed point loses OUTER_FRINGE but keeps FRINGE |
| C67 | AssemblerAssembly.cpp 4362-4374 | receivers farther than the edge padding from the edge of the receivers keep the initial, greatest, positive distance, and look like the best donors |
