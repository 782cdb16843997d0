{"id": "C01", "title": "Range set algebra", "statement": "For index ranges, the union is the smallest range containing both operands, the intersection contains exactly the points in both, the overlap predicate is true exactly when a common point exists, inclusion is exactly point-wise inclusion, and extending a range by a point gives the smallest range containing the range and the point.", "quantifier": "all ranges (empty, inverted, negative bounds) and all points", "why_tests_cant": "Six integer bounds per pair of ranges; the interesting cases are empty or inverted operands, which are infinitely many and which example tests sample only at 0 and 1.", "anchors": ["src/core/Range.inl:UnionRanges", "src/core/Range.inl:IntersectRanges", "src/core/Range.inl:RangesOverlap", "src/core/Range.inl:ExtendRange", "src/core/Interval.hpp:interval::Includes"]}
{"id": "C02", "title": "Range counting", "statement": "The reported number of points of a range equals the number of distinct points the library's range iteration visits, each exactly once, and it is zero exactly when the range reports itself empty.", "quantifier": "all ranges and both array layouts", "why_tests_cant": "Counting and iteration are separate pieces of code (product of sizes versus nested loops); agreement on finitely many boxes does not settle inverted or degenerate ones.", "anchors": ["src/core/Interval.hpp:Size", "src/core/Interval.hpp:Count", "src/core/ForEach.hpp:ForEach"]}
{"id": "C03", "title": "Clamping to a range", "statement": "Clamping a point to a non-empty range gives a point of the range, leaves points of the range fixed, and no point of the range is closer in any coordinate.", "quantifier": "all non-empty ranges and all points", "why_tests_cant": "Nearest-point optimality quantifies over every other point of the range.", "anchors": ["src/core/Range.inl:ClampToRange"]}
{"id": "C04", "title": "Box algebra over an ordered field", "statement": "Bounding boxes obey the same lattice laws as ranges (union is least upper bound, intersection is greatest lower bound, overlap iff a common point, clamp is the nearest point), moving and growing a box moves and grows its point set.", "quantifier": "all boxes with real bounds, including empty ones", "why_tests_cant": "Ranges over a continuum of coordinates.", "anchors": ["src/core/Box.inl:UnionBoxes", "src/core/Box.inl:IntersectBoxes", "src/core/Box.inl:BoxesOverlap", "src/core/Box.inl:ClampToBox", "src/core/Box.inl:GrowBox", "src/core/Box.inl:MoveBox"]}
{"id": "C05", "title": "Indexer is a bijection", "statement": "For any extents of any rank, row-major or column-major, mapping tuples inside the extents to linear indices is a bijection onto 0..Count-1 whose inverse is the index-to-tuple mapping, and iterating the extents in the matching layout visits linear indices 0,1,2,... in order.", "quantifier": "all ranks, all extents with arbitrary (also negative) origins, both layouts", "why_tests_cant": "Rank and extents are unbounded; a stride error in one dimension is visible only for particular shapes.", "anchors": ["src/core/Indexer.hpp:ToIndex", "src/core/Indexer.hpp:ToTuple", "src/core/Indexer.hpp:MakeStride", "src/core/ForEach.hpp:ForEach"]}
{"id": "C06", "title": "Uniform cell mapping", "statement": "Mapping an integer coordinate to a uniform cell grid returns the unique cell whose half-open interval contains it, also left of the origin.", "quantifier": "all origins, positive cell sizes, and coordinates", "why_tests_cant": "C++ division truncates toward zero; correctness for every negative coordinate is a statement about all integers.", "anchors": ["src/core/Math.inl:MapToUniformGridCell"]}
{"id": "C07", "title": "Periodic adjustment", "statement": "Adjusting a tuple to a periodic grid returns a tuple congruent to the input modulo the period in every periodic dimension, unchanged in every other dimension, lying in the base period in periodic dimensions; it is idempotent and invariant under adding whole periods; and it is the only such tuple.", "quantifier": "all Cartesian domains (2D/3D, unique and duplicated periodic storage) with non-empty range and all tuples", "why_tests_cant": "Sign of the remainder and duplicated storage only matter for tuples several periods outside, in unboundedly many positions.", "anchors": ["src/core/Cart.inl:cart::PeriodicAdjust", "src/core/Cart.inl:cart::GetPeriod", "src/core/Cart.inl:cart::GetPeriodSize"]}
{"id": "C08", "title": "Mapping a tuple into a range", "statement": "Asking for the periodic image of a tuple inside a range returns an image that lies in the range and is congruent to the tuple whenever any such image exists, and reports absence otherwise; in non-periodic dimensions a tuple is never moved.", "quantifier": "all Cartesian domains, tuples and ranges", "why_tests_cant": "Existence of an image quantifies over all period multiples.", "anchors": ["src/core/Cart.inl:cart::MapToRange"]}
{"id": "C09", "title": "Mapping a range onto a range", "statement": "Asking for the periodic image of one range that overlaps another returns a shifted copy (by whole periods in periodic dimensions only) that overlaps the target whenever one exists, and reports absence otherwise.", "quantifier": "all Cartesian domains and pairs of ranges", "why_tests_cant": "Existence of an image quantifies over all period multiples and all range pairs.", "anchors": ["src/core/Cart.inl:cart::MapToRange"]}
{"id": "C10", "title": "Thread/tile subdivision", "statement": "Splitting a local range into subregions produces disjoint pieces that together cover every point exactly once, and piece lengths along the split dimension differ by at most one.", "quantifier": "all ranges and all positive numbers of pieces", "why_tests_cant": "Depends on quotient and remainder of arbitrary sizes and counts.", "anchors": ["src/core/Partition.cpp:CreateSubregions"]}
{"id": "C100", "title": "Geometry and state components are the same on all processes and announce every creation, edit and destruction once", "statement": "After any sequence of creating and destroying grids, creating, destroying, clearing and editing geometries (or states), all processes hold the same geometries, namely those created and not destroyed since, each with local data exactly on the processes of its grid. All listeners have been told the same events in the same order: a creation or destruction for each, and for each edited geometry one event with the union of the edits of all processes, before the next call has its effect, the last of each group marked as such. This needs that every grid that is destroyed has a geometry: otherwise debug builds stop, and release builds announce the destruction of a geometry that never existed.", "quantifier": "all numbers of processes, distributions of grids over processes, histories of calls, edits on any processes, debug and release builds", "why_tests_cant": "Histories of calls and placements of grids cannot be enumerated, and tests create a geometry for every grid.", "anchors": ["src/core/GeometryComponent.cpp: geometry_component::OnGridEvent_ 77-99, SyncEdits_ 113-173, CreateGeometries 236-317, DestroyGeometries 366-444, ClearGeometries 446-497", "src/core/StateComponent.cpp: the same functions of state_component"]}
{"id": "C101", "title": "Messages contain exactly what they are given: arguments in place of conversions, the rank in place of @rank@, numbers with commas", "statement": "A format without escaped percent signs and as many arguments as conversions gives the text that the C library's printf gives for all of them at once, although it is formatted piece by piece, and percent signs in arguments are not interpreted. Replacing a non-empty substring replaces its occurrences from left to right and ends. Numbers are written with their decimal digits, a comma before every group of three and no leading zeros, different numbers differently; non-negative counts have the singular label exactly for one. Escaped percent signs are not supported (both signs are printed, debug builds stop or the behaviour is undefined), replacing the empty string does not end, negative numbers have the singular label, and names that contain @rank@ are changed in messages.", "quantifier": "all formats, numbers of arguments, argument types and texts, strings, substrings and integers", "why_tests_cant": "Formats, arguments and numbers are unbounded; tests check a few.", "anchors": ["src/core/TextProcessing.inl: FormatNumber, StringPrint, StringPrintAppend", "src/core/TextProcessing.cpp: StringReplace", "src/core/Logger.inl: LogError, LogWarning, LogStatus, LogDebug"]}
{"id": "C102", "title": "Connectivity and overlap arrays edited through the C interface hold what was written, for the dimension, point and connection it was written to, and changes are announced once", "statement": "For any correct sequence of resizes, edits (also of several dimensions or points at the same time), writes through the pointers given and restores, no call fails, and the pointers given for reading show for every array, dimension, point and connection the value written last for it since the last resize, or else the value of new connections (one before the first cell or point of the grid, neutral values in unused dimensions, rank -1, nothing of the old contents). An array is being edited while an edit of it is open, sides cannot be resized then, and listeners are told of each resize once per array and of each outermost edit once. Programs that call only declared functions link as long as they do not restore source ranks; that function is declared but defined under another name, so that edits of the source ranks can never be ended from C.", "quantifier": "all four kinds of sides, all dimensions, begins of grids, numbers of connections, stencil sizes and sequences of calls of any length", "why_tests_cant": "Sequences of calls, sizes and nestings of edits are unbounded; tests use the C++ interface with one edit at a time.", "anchors": ["src/core-c/ConnectivityM.cpp", "src/core-c/ConnectivityN.cpp: ovkReleaseConnectivityNSourceRanks", "src/core-c/OverlapM.cpp", "src/core-c/OverlapN.cpp: ovkReleaseOverlapNSourceRanks", "src/core/ConnectivityM.cpp: Resize, EditExtents", "src/core/ConnectivityN.cpp: Resize", "src/core/OverlapM.cpp: Resize", "src/core/OverlapN.cpp: Resize", "src/core/Editor.inl"]}
{"id": "C103", "title": "Communicators, scope guards, log levels and handles give back what they own exactly once, when its last owner gives it up", "statement": "However comm variables, scope guards, handles of log levels and handles of MPI datatypes are made, moved, assigned, reset, released or dismissed and ended, no step fails, and each communicator is freed, each action run, each increase of the level taken back exactly once, at the moment its last owner ends, is reset or is assigned to, unless it was released; nothing is given back twice or while still owned, and the level of the logger is at any time the first one plus the amounts of the handles in use. The exception are generic handles: assigning to a handle that owns something never calls that thing's deleter, so that it leaks (no code of the library does this).", "quantifier": "all programs of any length over any number of variables and things, by induction over the program", "why_tests_cant": "Programs and patterns of moves are unbounded, and leaks and double frees are not seen by tests of values.", "anchors": ["src/core/Handle.hpp: operator=", "src/core/Handle.inl: ~handle, Reset, Release", "src/core/Optional.inl: operator=", "src/core/Comm.hpp: comm", "src/core/Comm.inl: comm::operator=, Reset, Release", "src/core/ScopeGuard.inl", "src/core/Logger.hpp: increase_handle"]}
{"id": "C104", "title": "Contexts of the C interface live exactly as long as somebody holds them, and are destroyed once", "statement": "A client that creates contexts, shares them, makes domains, assemblers and exchangers from them, takes contexts and further shared handles out of these, resets handles and destroys objects in any order never runs into undefined behaviour as long as it destroys by pointer only contexts it has not shared. Every use sees the context the pointer was given for (also the pointer in the variable a context was shared from, whose address has changed, and also after the first handle has been reset), each context is destroyed at most once, at the moment its last holder goes, and the contexts in memory are exactly those created that are not yet shared or destroyed, or still held. Destroying or sharing by pointer is defined exactly for contexts that have not been shared.", "quantifier": "all programs of any length over any number of contexts, variables, handles and objects", "why_tests_cant": "Orders of creation and destruction are unbounded, and use after free and leaks are not seen by tests of values.", "anchors": ["src/core-c/Context.cpp: ovkCreateContext, ovkDestroyContext, ovkShareContext, ovkResetSharedContext, ovkGetContextFromShared", "src/core-c/Domain.cpp: ovkCreateDomain, ovkDestroyDomain, ovkGetDomainContext, ovkGetDomainSharedContext", "src/core-c/Assembler.cpp: ovkCreateAssembler, ovkGetAssemblerSharedContext", "src/core-c/Exchanger.cpp: ovkCreateExchanger, ovkGetExchangerSharedContext", "src/core/Context.cpp: ~context"]}
{"id": "C105", "title": "Numbers, tuples, ranges, boxes and fragments sent in messages arrive with all their members, and nothing else is overwritten", "statement": "For messages of any number of items of a type the library makes MPI datatypes for (numbers, tuples, ranges, boxes, tuples of tuples, and the fragments of the assembler), every member of every item is at the receiver, byte by byte, what was sent, bytes that belong to no member (padding, memory around the items) are not changed, and no byte is received twice, as MPI requires. For fragments this holds for every layout a compiler may choose that keeps the order of members and puts the two integers next to each other.", "quantifier": "all types made of numbers, elem and interval, all sizes of numbers, layouts of fragments, numbers of items, addresses and contents of memory", "why_tests_cant": "Types, layouts and contents of memory are unbounded; tests run on one platform's layout.", "anchors": ["src/core/MPISerializableTraits.hpp: CreateMPIType", "src/core/DataTypeOps.hpp: CreateMPIContiguousType, CreateMPIStructType", "src/core/Assembler.hpp: mpi_serializable_traits<assembler_internal::fragment>", "src/core/DistributedRegionHash.inl: distributed_region_hash, RetrieveBins"]}
{"id": "C106", "title": "Requests of the C interface are deleted exactly when their operation is complete, and their pointers become null", "statement": "A C program may send, receive and wait (for one, all or any requests, with null pointers among them) in any order: no deleted request is used or deleted again, every non-null pointer belongs to a live request whose operation is not complete, different pointers to different requests, and a request is deleted exactly when all callbacks of its operation have been made once. Wait and wait-all null all pointers they are given; wait-any returns -1 only if all its pointers are null, and otherwise the index of a pointer whose operation is then complete, and nulls that one only. If new requests are only written to null pointers, nothing is leaked: when all pointers are null, every request made is complete and deleted.", "quantifier": "all sequences of calls of a client, arrays of distinct pointers, numbers of messages per operation, and orders in which MPI completes messages", "why_tests_cant": "Sequences of calls and completion orders are unbounded; a request deleted twice or leaked shows in no result a test compares.", "anchors": ["src/core-c/Request.cpp: ovkWait, ovkWaitAll, ovkWaitAny", "src/core-c/Exchanger.cpp: ovkExchangerSend, ovkExchangerReceive", "src/core/Request.cpp: request::Wait, request::internal_WaitAll, request::internal_WaitAny"]}
{"id": "C107", "title": "Parameters of grids are what was last set, and a debug build accepts exactly those that fit the dimension", "statement": "Whatever setters are called on the parameters of a grid in whatever order, in debug and release builds, every parameter (name, dimension, communicator, storage, and for each direction the global range, local range and periodicity) is what the last call that determines it gave; choosing a dimension makes the directions beyond it trivial and leaves the others alone. A debug build accepts a call exactly if it fits the dimension chosen, and the parameters it has accepted are valid: two or three dimensions, nonempty ranges, unused directions trivial and not periodic.", "quantifier": "all sequences of calls of setters with any values, in debug and release builds", "why_tests_cant": "Sequences of calls and values are unbounded; tests set each parameter once, in one order.", "anchors": ["src/core/Grid.cpp: grid::params::SetName, SetDimension, SetComm, SetCart, SetGlobalRange, SetLocalRange, SetPeriodic, SetPeriodicStorage", "src/core/Grid.hpp: grid::params", "src/core-c/Grid.cpp: ovkSetGridParamDimension, ovkSetGridParamGlobalRange, ovkGetGridParamGlobalRange"]}
{"id": "C11", "title": "Point/cell conversion", "statement": "The cell grid of a point grid has one cell fewer per non-periodic dimension and equally many per periodic one; the cell range owned by a rank, converted over all ranks of a decomposition, covers the cell grid exactly once; and the points of a cell are exactly its corners.", "quantifier": "all Cartesian domains, all decompositions of the point range into local ranges", "why_tests_cant": "Ranges over all decompositions.", "anchors": ["src/core/Decomp.cpp:CartPointToCell", "src/core/Decomp.cpp:RangePointToCell", "src/core/Decomp.cpp:RangeCellToPointAll"]}
{"id": "C12", "title": "Extended local range", "statement": "The extended range of a rank contains its local range, grows by the requested amount in every direction in which the grid continues (interior sides and periodic sides), and does not cross a non-periodic boundary.", "quantifier": "all Cartesian domains, all non-empty local ranges inside them and all non-negative extension amounts", "why_tests_cant": "Quantifies over positions of a local range relative to all six faces and periodicity flags.", "anchors": ["src/core/Decomp.cpp:ExtendLocalRange"]}
{"id": "C13", "title": "Neighbour detection", "statement": "Two ranks are reported as neighbours exactly when the local range of one, grown by one point per side (with periodic wrap), meets the local range of the other, so the relation is symmetric; every point in a rank's one-point halo is owned by a reported neighbour or itself.", "quantifier": "all Cartesian domains, all decompositions, all pairs of ranks", "why_tests_cant": "Ranges over decompositions and process counts.", "anchors": ["src/core/Decomp.cpp:DetectNeighbors"]}
{"id": "C14", "title": "Halo exchange values", "statement": "After a halo exchange, every point of a rank's extended range holds the value its owner had at the (periodically adjusted) point before the exchange; owned points are unchanged; this holds for every order in which messages complete.", "quantifier": "all Cartesian domains, decompositions, fields and message completion orders", "why_tests_cant": "Message arrival order is scheduler dependent; decompositions are unbounded.", "anchors": ["src/core/Halo.cpp:halo_map", "src/core/Halo.inl:halo_exchanger_for_type::Exchange", "src/core/Halo.inl:OnMPIRequestComplete"]}
{"id": "C15", "title": "Halo message matching", "statement": "For every pair of ranks, the points one sends, in the order sent, are exactly the (periodic images of) points the other expects to receive, in the order expected, so message sizes agree and no value lands on a wrong point.", "quantifier": "all Cartesian domains, decompositions and pairs of neighbouring ranks", "why_tests_cant": "Two independently computed index lists must agree in order for every decomposition.", "anchors": ["src/core/Halo.cpp:halo_map"]}
{"id": "C16", "title": "Sorted set behaves as a set", "statement": "Under any history of insertions, hinted insertions at a found position, erasures, conditional erasures and clears, membership queries, counts, iteration order and lower/upper bounds agree with the mathematical set, and iteration is strictly increasing.", "quantifier": "all element types with a strict weak order and all operation histories", "why_tests_cant": "Histories are unbounded; a broken binary search shows only for particular sizes.", "anchors": ["src/core/Set.hpp:Insert", "src/core/Set.hpp:Erase", "src/core/Set.hpp:EraseIf", "src/core/Set.hpp:Find", "src/core/Set.hpp:LowerBound"]}
{"id": "C17", "title": "Sorted map behaves as a finite map", "statement": "Under any history of insert, fetch, erase, conditional erase and clear, the map associates with every key the value last stored and not erased since; keys and entries stay aligned.", "quantifier": "all key orders and all operation histories", "why_tests_cant": "Key and entry arrays are maintained separately; misalignment needs a specific history.", "anchors": ["src/core/Map.hpp:Insert", "src/core/Map.hpp:Erase", "src/core/Map.hpp:EraseIf", "src/core/Map.hpp:Fetch", "src/core/Map.hpp:Find"]}
{"id": "C18", "title": "Next available ID", "statement": "The next available ID is non-negative, not in use, and every smaller non-negative ID is in use.", "quantifier": "all finite sets of non-negative IDs", "why_tests_cant": "Ranges over all sets.", "anchors": ["src/core/ID.hpp:NextAvailableID"]}
{"id": "C19", "title": "Union-find computes the generated equivalence", "statement": "After any history of insertions and unions, two inserted elements report the same representative exactly when the performed unions connect them; absent elements are reported as absent.", "quantifier": "all histories of insert/union/find with path compression", "why_tests_cant": "Unbounded histories; the internal parent structure changes on queries.", "anchors": ["src/core/UnionFind.hpp:union_find::Insert", "src/core/UnionFind.hpp:union_find::Union", "src/core/UnionFind.hpp:union_find::Find"]}
{"id": "C20", "title": "Union-find relabelling", "statement": "Relabelling keeps the partition and makes every set's representative its smallest element.", "quantifier": "all union-find states reachable by insert/union/find", "why_tests_cant": "Depends on the order of elements relative to old representatives in arbitrary forests.", "anchors": ["src/core/UnionFind.hpp:union_find::Relabel"]}
{"id": "C21", "title": "Partition pool lookup", "statement": "Fetching a partition from the pool for a Cartesian description that was inserted returns the partition inserted for an equal description, and never one with a different description.", "quantifier": "all Cartesian descriptions and insertion histories", "why_tests_cant": "The pool is keyed by a user-defined order; order laws are universally quantified over triples.", "anchors": ["src/core/Partition.cpp:partition_pool::Insert", "src/core/Partition.cpp:partition_pool::Fetch", "src/core/Partition.cpp:partition_pool::CartLess_"]}
{"id": "C22", "title": "Region hash completeness", "statement": "Every region inserted into a region hash that contains a query point is among the regions returned for that point's bin, each region appears in a bin at most once, and points outside the hash extents get no bin.", "quantifier": "all sets of regions, bin counts and query points", "why_tests_cant": "Ranges over all configurations of regions and bins.", "anchors": ["src/core/RegionHash.inl:region_hash", "src/core/RegionHash.inl:MapToBin", "src/core/RegionHash.inl:RetrieveBin"]}
{"id": "C23", "title": "Distributed region hash completeness", "statement": "For every point contained in a region contributed by any rank, the (rank,bin) the hash maps the point to holds that region together with its contributing rank, and retrieving the bin on any rank returns it.", "quantifier": "all process counts, contributions and points", "why_tests_cant": "Process counts and regions unbounded.", "anchors": ["src/core/DistributedRegionHash.inl:distributed_region_hash", "src/core/DistributedRegionHash.inl:MapToBin", "src/core/DistributedRegionHash.inl:RetrieveBins"]}
{"id": "C24", "title": "Dynamic handshake", "statement": "When the sparse handshake returns on a rank, its result is exactly the sorted, duplicate-free list of ranks that named this rank, for every interleaving of message delivery and polling; and it never deadlocks.", "quantifier": "all process counts, all rank lists, all schedules", "why_tests_cant": "Races between probes, synchronous-send completion and the non-blocking barrier are schedule dependent.", "anchors": ["src/core/CommunicationOps.cpp:DynamicHandshake", "src/core/CommunicationOps.cpp:signal"]}
{"id": "C25", "title": "Signal (barrier fallback)", "statement": "The signal is reported done on a rank only after every rank has started it, for every interleaving; once all ranks have started, every rank can complete.", "quantifier": "all process counts, all schedules, repeated use of the same signal", "why_tests_cant": "Schedule dependent; a bug needs a particular overtaking of messages.", "anchors": ["src/core/CommunicationOps.cpp:signal::Start", "src/core/CommunicationOps.cpp:signal::Check"]}
{"id": "C26", "title": "Serialized sections are mutually exclusive", "statement": "When all ranks run a function through the serializing helper, at most one rank is inside the function at any time, ranks run in rank order, and all of them complete.", "quantifier": "all process counts and schedules", "why_tests_cant": "Schedule dependent.", "anchors": ["src/core/CommunicationOps.inl:Serialize"]}
{"id": "C27", "title": "Broadcast from an unnamed source", "statement": "If exactly one rank declares itself the source, then after the any-source broadcast every rank holds the source's data, including strings of any length.", "quantifier": "all process counts, sources, data and schedules", "why_tests_cant": "Schedule dependent and ranges over all sources.", "anchors": ["src/core/CommunicationOps.cpp:BroadcastAnySource", "src/core/CommunicationOps.cpp:BroadcastStringAnySource"]}
{"id": "C28", "title": "Request completion exactly once", "statement": "For a set of non-blocking operations, every per-message callback and every completion callback runs exactly once, completion after all messages of that operation, whatever mix of wait, wait-any and wait-all the user uses and in whatever order MPI completes messages; after completion the request is empty.", "quantifier": "all sets of requests, all message completion orders, all call histories", "why_tests_cant": "Completion order is non-deterministic.", "anchors": ["src/core/Request.cpp:request::Wait", "src/core/Request.cpp:request::internal_WaitAll", "src/core/Request.cpp:request::internal_WaitAny"]}
{"id": "C29", "title": "No operation is lost when a request is overwritten", "statement": "Every started operation is completed before its request object stops referring to it.", "quantifier": "all histories of creation, move, assignment and destruction of request objects", "why_tests_cant": "Needs all histories of special member functions.", "anchors": ["src/core/Request.hpp:request::operator=", "src/core/Request.hpp:~request"]}
{"id": "C30", "title": "Edit sessions end exactly once", "statement": "For any history of creating, copying, moving, assigning and destroying edit handles, the end-of-edit action runs exactly when the last handle of a session goes away and exactly once per session.", "quantifier": "all histories of edit handles", "why_tests_cant": "Reference counting over unbounded histories of copies and moves.", "anchors": ["src/core/Editor.inl:editor::Activate", "src/core/Editor.inl:editor::Edit", "src/core/Editor.inl:edit_handle"]}
{"id": "C31", "title": "Explicit restore of an edit handle", "statement": "Restoring an edit handle explicitly before it is destroyed releases its share of the edit session exactly once.", "quantifier": "all histories including explicit restore", "why_tests_cant": "Double release shows only if the handle outlives the restore together with other handles or a later session.", "anchors": ["src/core/Editor.inl:edit_handle::Restore", "src/core/AssemblerAssembly.cpp:DetectOverlap_"]}
{"id": "C32", "title": "Event delivery", "statement": "Triggering an event calls exactly the listeners whose handles are alive, each exactly once, through any history of adding, moving, resetting and destroying handles.", "quantifier": "all histories", "why_tests_cant": "Unbounded histories with reuse of IDs.", "anchors": ["src/core/Event.inl:event::AddListener", "src/core/Event.inl:event::Trigger", "src/core/Event.inl:event_listener_handle::Reset"]}
{"id": "C33", "title": "Floating references follow moved objects", "statement": "A floating reference generated from an object always refers to the object that currently holds that identity after any chain of moves of the object, and copies of the object do not capture it.", "quantifier": "all histories of moves, copies and destruction", "why_tests_cant": "Unbounded move chains.", "anchors": ["src/core/FloatingRef.inl:floating_ref_generator", "src/core/FloatingRef.inl:floating_ref"]}
{"id": "C34", "title": "Optional lifetime balance", "statement": "For any history of operations on optional values, every contained object that is constructed is destroyed exactly once, and no destroyed object is accessed.", "quantifier": "all histories of construct, copy, move, assign, release, reset, destroy", "why_tests_cant": "Unbounded histories.", "anchors": ["src/core/Optional.inl:optional::operator=", "src/core/Optional.inl:optional::Release"]}
{"id": "C35", "title": "Send/receive pairing", "statement": "When two ranks use matching orders, every value handed to the send side at a position destined for a rank arrives at the receive-side position with the same order number, for any number of ranks and any message completion order.", "quantifier": "all destination/source assignments, orders and completion orders", "why_tests_cant": "Two independently computed pack/unpack orders must agree for all assignments.", "anchors": ["src/core/SendMap.cpp:send_map", "src/core/RecvMap.cpp:recv_map", "src/core/Send.cpp:Send", "src/core/Recv.cpp:Recv"]}
{"id": "C36", "title": "Disperse", "statement": "Overwrite-disperse leaves each target point holding the last value addressed to it and every other point unchanged; append-disperse adds the sum of all values addressed to a point to its previous value.", "quantifier": "all point lists (with repetitions), values and fields", "why_tests_cant": "Ranges over lists with arbitrary repetitions.", "anchors": ["src/core/DisperseOverwrite.hpp:Disperse", "src/core/DisperseAppend.hpp:Disperse"]}
{"id": "C37", "title": "Collect reductions", "statement": "A collect over donor cells yields for each cell the reduction (none/any/not-all/all/min/max/interpolation) of the field values at the cell's vertices, independent of which ranks own those vertices.", "quantifier": "all decompositions, cells, fields", "why_tests_cant": "Ranges over decompositions and values.", "anchors": ["src/core/CollectMap.cpp", "src/core/CollectBase.cpp", "src/core/CollectMin.hpp", "src/core/CollectInterp.hpp", "src/core/CollectAny.hpp"]}
{"id": "C38", "title": "Collect maximum", "statement": "The max-collect of a cell equals the maximum of the field over the cell's vertices for every value type.", "quantifier": "all cells and fields, including negative values", "why_tests_cant": "Needs all values; tests only use positive data.", "anchors": ["src/core/CollectMax.hpp"]}
{"id": "C39", "title": "Assembler options refine a table with defaults", "statement": "After any history of setting options (for single grids, pairs, and all-grid wildcards) and adding or removing grids, reading an option for existing grids returns the value most recently set for it since those grids were added, and the default otherwise.", "quantifier": "all option histories", "why_tests_cant": "Unbounded histories with wildcards and default-valued erasure.", "anchors": ["src/core/AssemblerOptions.cpp:SetOption_", "src/core/AssemblerOptions.cpp:GetOption_", "src/core/AssemblerOptions.cpp:RemoveGrids"]}
{"id": "C40", "title": "Domain grid lifecycle", "statement": "Creating and destroying grids keeps the set of existing grids equal to created-minus-destroyed, and each creation or destruction produces exactly one event per grid, destruction events before the grid disappears, with exactly the last event of a call flagged as last.", "quantifier": "all histories of creation and destruction", "why_tests_cant": "Unbounded histories.", "anchors": ["src/core/Domain.cpp:CreateGrid", "src/core/Domain.cpp:CreateGrids", "src/core/Domain.cpp:DestroyGrid", "src/core/Domain.cpp:DestroyGrids"]}
{"id": "C41", "title": "Dependent records die with their grids", "statement": "After a grid is destroyed no overlap record refers to it, and records not involving a destroyed grid survive.", "quantifier": "all sets of overlaps and destroyed grids", "why_tests_cant": "Ranges over all record sets and destruction batches.", "anchors": ["src/core/OverlapComponent.cpp:OnGridEvent_", "src/core/OverlapComponent.cpp:DestroyOverlapsForDyingGrids_"]}
{"id": "C42", "title": "Edit notifications", "statement": "At the end of an edit of the component exactly one event is delivered, on every rank, per overlap edited on any rank, carrying the union of all ranks' edit flags; nothing is delivered for unedited overlaps; and a second synchronisation delivers nothing.", "quantifier": "all process counts and edit histories", "why_tests_cant": "Edits happen on subsets of ranks in unboundedly many combinations.", "anchors": ["src/core/OverlapComponent.cpp:SyncEdits_"]}
{"id": "C43", "title": "Clearing all records of a component", "statement": "Clearing a component removes every overlap (or connectivity) it holds.", "quantifier": "all sets of records", "why_tests_cant": "Aliasing of the cleared container appears only with at least two records.", "anchors": ["src/core/OverlapComponent.cpp:ClearOverlaps", "src/core/OverlapComponent.cpp:DestroyOverlaps", "src/core/ConnectivityComponent.cpp:ClearConnectivities"]}
{"id": "C44", "title": "Array resize keeps contents", "statement": "Resizing a multi-dimensional array keeps the value at every index tuple that is in both the old and the new extents and gives every other tuple the fill value.", "quantifier": "all ranks, layouts, extents", "why_tests_cant": "Rank and extents unbounded; a fast path is taken only for particular shapes.", "anchors": ["src/core/Array.hpp:Resize"]}
{"id": "C45", "title": "Array assignment copies contents", "statement": "After assigning a sequence to an array the array holds exactly that sequence, whatever it held before.", "quantifier": "all previous and new lengths", "why_tests_cant": "The failing branch is taken only when shrinking.", "anchors": ["src/core/Array.hpp:Assign", "src/core/Vector.hpp:AssignIterators"]}
{"id": "C46", "title": "Edge detection", "statement": "The distributed inner (outer) edge of a mask marks exactly the points inside (outside) the mask that have a neighbour (including diagonals, across ranks and periodic boundaries) outside (inside) the mask, with the chosen convention at the domain boundary.", "quantifier": "all masks, decompositions, Cartesian domains", "why_tests_cant": "Ranges over all masks and decompositions.", "anchors": ["src/core/DistributedFieldOps.cpp:DetectEdge"]}
{"id": "C47", "title": "Dilate and erode", "statement": "Dilating (eroding) a distributed mask by n marks exactly the points within Chebyshev distance n (with periodic wrap) of the mask (whose whole n-neighbourhood is in the mask), for every decomposition.", "quantifier": "all masks, amounts, decompositions, domains", "why_tests_cant": "Induction over the amount and all masks.", "anchors": ["src/core/DistributedFieldOps.cpp:DilateMask", "src/core/DistributedFieldOps.cpp:ErodeMask"]}
{"id": "C48", "title": "Connected components", "statement": "Two points receive the same component label exactly when they are connected through adjacent points of equal mask value, for every decomposition; labels are 0..N-1 without gaps where N is the reported number of components.", "quantifier": "all masks, decompositions, domains", "why_tests_cant": "Global connectivity over arbitrary decompositions.", "anchors": ["src/core/DistributedFieldOps.cpp:ConnectedComponents"]}
{"id": "C49", "title": "Flood fill", "statement": "Flooding a mask inside a barrier marks exactly the points reachable from the seed without entering the barrier.", "quantifier": "all seeds, barriers, decompositions", "why_tests_cant": "Reachability is unbounded.", "anchors": ["src/core/DistributedFieldOps.cpp:FloodMask"]}
{"id": "C50", "title": "Distributed mask count", "statement": "The distributed count equals the number of distinct owned points at which the mask is set.", "quantifier": "all masks and decompositions", "why_tests_cant": "Ranges over decompositions.", "anchors": ["src/core/DistributedFieldOps.cpp:CountDistributedMask"]}
{"id": "C51", "title": "Filling a distributed field over a range", "statement": "Filling a range of a distributed field sets exactly the points of the (periodically wrapped) range on every rank, including halo copies.", "quantifier": "all ranges, domains, decompositions", "why_tests_cant": "Ranges over decompositions and ranges crossing boundaries.", "anchors": ["src/core/DistributedField.hpp:Fill"]}
{"id": "C52", "title": "Interpolation weights", "statement": "Linear and cubic Lagrange weights sum to one, reproduce polynomials up to their degree exactly, and are one at their own node and zero at the others.", "quantifier": "all real coordinates and all polynomials of the stated degree", "why_tests_cant": "Continuum of coordinates and polynomials.", "anchors": ["src/core/Math.inl:LagrangeInterpLinear", "src/core/Math.inl:LagrangeInterpCubic", "src/core/Math.inl:LagrangeInterpCubicDeriv"]}
{"id": "C53", "title": "Small linear solves", "statement": "The 2x2 and 3x3 column solves return the unique solution of the linear system whenever the determinant is non-zero.", "quantifier": "all real matrices and right-hand sides", "why_tests_cant": "Continuum of inputs.", "anchors": ["src/core/Math.inl:ColumnSolve2D", "src/core/Math.inl:ColumnSolve3D", "src/core/Math.inl:ColumnDeterminant3D"]}
{"id": "C54", "title": "Process grid dimensions", "statement": "The computed process grid has as many slots as processes, respects every dimension the caller fixed, and all dimensions are positive, given that MPI's own suggestion does.", "quantifier": "all process counts, dimensionalities and caller constraints", "why_tests_cant": "Heuristic rebalancing over prime factors must preserve the product for all counts.", "anchors": ["src/core/Comm.cpp:CreateCartesianDecompDims"]}
{"id": "C55", "title": "Profiler accumulation", "statement": "With nested and repeated start/stop pairs, a timer's accumulated time equals the total time during which at least one start is unmatched.", "quantifier": "all balanced histories of start/stop and all monotone clocks", "why_tests_cant": "Unbounded nesting histories.", "anchors": ["src/core/Profiler.cpp:Start_", "src/core/Profiler.cpp:Stop_", "src/core/Profiler.inl:timer"]}
{"id": "C56", "title": "One-dimensional array editing", "statement": "Appending to, inserting into and erasing from a one-dimensional array keeps every element before the position at its index, shifts every element behind it by exactly one, and leaves extents and storage consistent.", "quantifier": "all arrays with arbitrary origin, all positions and both layouts", "why_tests_cant": "Array length, origin and position are unbounded.", "anchors": ["src/core/Array.hpp:Append", "src/core/Array.hpp:Insert", "src/core/Array.hpp:Erase"]}
{"id": "C57", "title": "Exterior point layer", "statement": "The range used for detecting outer edges adds exactly one layer of points beyond every non-periodic side; over all ranks of a decomposition each interior and exterior point belongs to exactly one rank, the owner of the nearest domain point.", "quantifier": "all Cartesian domains and all decompositions into non-empty local ranges", "why_tests_cant": "Corner and edge points of the extra layer are decided by several boundary flags at once, over all decompositions.", "anchors": ["src/core/Decomp.cpp:CartIncludeExteriorPoint", "src/core/Decomp.cpp:RangeIncludeExteriorPoint"]}
{"id": "C58", "title": "Wait-time accounting is balanced", "statement": "Every wait timer started on an operation by a waiting call is stopped exactly once by the time the call returns, so reported wait times never include time spent outside waiting calls.", "quantifier": "all sequences of request construction, moves, Wait, WaitAll and WaitAny and all message completion orders", "why_tests_cant": "Depends on all call histories and completion orders.", "anchors": ["src/core/Request.cpp:request::Wait", "src/core/Request.cpp:request::internal_WaitAll", "src/core/Request.cpp:request::internal_WaitAny"]}
{"id": "C59", "title": "Reusing an object that was moved from", "statement": "An object that was moved from and is then given a new value by assignment supports floating references (events, editors) again.", "quantifier": "all histories of moves and assignments", "why_tests_cant": "Depends on which of several assignment forms follows which moves.", "anchors": ["src/core/FloatingRef.inl:floating_ref_generator"]}
{"id": "C60", "title": "Written profile", "statement": "The profile written by the ranks of a communicator lists exactly the timers some rank has started, in increasing order of timer, each with the minimum, the maximum and the mean over the ranks of the time that timer was running, a rank that never used the timer counting as zero.", "quantifier": "all numbers of ranks and all histories of timer calls on each rank", "why_tests_cant": "Histories and rank counts are unbounded, and the ranks may have used different timers.", "anchors": ["src/core/Profiler.cpp:WriteProfile"]}
{"id": "C61", "title": "Assembly does not depend on the decomposition", "statement": "The state flags of a grid after an assembly, and the distances by which donors are compared, depend on its flags before and on what the other grids contribute (overlap, hole, occlusion, donors found), but not on the number of ranks, on how the grid is divided among them, on the extent of its halos, or on the order in which messages arrive; halo copies agree with their owners.", "quantifier": "all domains, flags, contributions, fringe sizes, paddings, pairs of partitions and message orders", "why_tests_cant": "Tests run a few rank counts on a few grids; the claim compares all pairs of decompositions under all message orders.", "anchors": ["src/core/AssemblerAssembly.cpp:Assemble", "src/core/AssemblerAssembly.cpp:InitializeAssembly_", "src/core/AssemblerAssembly.cpp:LocateOuterFringe_", "src/core/AssemblerAssembly.cpp:MinimizeOverlap_", "src/core/AssemblerAssembly.cpp:GenerateConnectivityData_"]}
{"id": "C62", "title": "Assembling again changes nothing", "statement": "If nothing else changes, assembling a second time gives the same state flags and distances as the first time: points removed by the first assembly and boundaries it inferred are treated as before.", "quantifier": "all domains, flags, contributions that remove only active points, options, partitions and message orders", "why_tests_cant": "Whether every flag set by one phase is reset correctly depends on all combinations of flags at a point and its surroundings.", "anchors": ["src/core/AssemblerAssembly.cpp:InitializeAssembly_", "src/core/AssemblerAssembly.cpp:Assemble"]}
{"id": "C63", "title": "Inferred boundaries", "statement": "With boundary inference enabled, a point is marked as inferred boundary exactly if it is active, not a user-given boundary, next to a place where the active region ends, and overlapped by no grid. Flags set by the user (internal boundaries, custom flags) survive an assembly. A grid to which no other grid contributes gets no receivers, orphans or fringe, and loses no point.", "quantifier": "all domains, flags, contributions, options, partitions and message orders", "why_tests_cant": "Depends on the neighbourhood of each point across ranks and periodic images.", "anchors": ["src/core/AssemblerAssembly.cpp:InferBoundaries_", "src/core/AssemblerAssembly.cpp:DetectOverlap_"]}
{"id": "C64", "title": "Outer fringe", "statement": "The outer fringe consists of the active points at most FringeSize points away from a place which is not active and next to an active point not on a boundary. Consequently, about an active point that is not a receiver, up to FringeSize points away, no point was removed to minimize overlap and all places that are not active lie behind boundaries.", "quantifier": "all domains, flags, contributions, fringe sizes, partitions and message orders", "why_tests_cant": "The fringe is found by repeated dilation across ranks on a domain with exterior points; tests look at a few shapes.", "anchors": ["src/core/AssemblerAssembly.cpp:LocateOuterFringe_"]}
{"id": "C65", "title": "Minimized overlap and inner fringe", "statement": "Minimizing overlap removes exactly the points selected for it around which, up to FringeSize points away, all active points are occluded. The inner fringe consists of the remaining active points at most FringeSize points from a removed one; these are occluded. A point has the fringe flag exactly if it belongs to one of the fringes.", "quantifier": "all domains, flags, contributions, fringe sizes, partitions and message orders", "why_tests_cant": "Erosion and dilation interact with periodic images, domain boundaries and inactive points in ways examples do not exhaust.", "anchors": ["src/core/AssemblerAssembly.cpp:MinimizeOverlap_"]}
{"id": "C66", "title": "Receivers and orphans", "statement": "The receivers are the active points of the fringes and the active occluded points; the orphans are the receivers for which no donor was found. Orphans are receivers, receivers are active, points of the fringes are receivers, and points removed by a hole or to minimize overlap are not active.", "quantifier": "all domains, flags, contributions, fringe sizes, partitions and message orders", "why_tests_cant": "Coherence of flags written by six phases over all combinations of contributions.", "anchors": ["src/core/AssemblerAssembly.cpp:GenerateConnectivityData_", "src/core/State.h:ovk_state_flags"]}
{"id": "C67", "title": "Distance from the receivers", "statement": "The distance used to compare donor candidates is, at each point, the number of points to the edge of the receivers, positive outside and not positive at receivers, and cut off at one more than the largest edge padding.", "quantifier": "all domains, flags, contributions, fringe sizes, edge paddings, partitions and message orders", "why_tests_cant": "Distances are built by one dilation per step across ranks; tests do not reach the inside of large receiver regions.", "anchors": ["src/core/AssemblerAssembly.cpp:GenerateConnectivityData_"]}
{"id": "C68", "title": "Both ends of an exchange find each other", "statement": "After an exchanger is updated, every donor whose cell begins on this rank knows the rank that holds its receiver, and every receiver the rank that holds its donor, unless a rank was given, which is then kept; donors whose cells begin on other ranks are not sent. If every receiver has one donor and every donor one receiver, the two sides agree: rank s will send the value for point p to rank r exactly if rank r expects the value for p from rank s. Finding the ranks always ends.", "quantifier": "any number of ranks and grids, any connectivities with their points in any order, any order of arrival of messages", "why_tests_cant": "Depends on how the points of all grids fall into the partitions of all ranks and on all interleavings of three rounds of messages; wrong results appear only when grids, ranks and partitions interleave in ways tests do not cover.", "anchors": ["src/core/Exchanger.cpp: UpdateSourceDestRanks_, BinDivide", "src/core/Exchanger.hpp", "src/core/ConnectivityM.hpp", "src/core/ConnectivityN.hpp"]}
{"id": "C69", "title": "An exchange delivers the donor values", "statement": "Exchanging a connectivity puts, at each receiver point, the value collected at the vertices of its donor cell, whichever ranks the vertices, the cell and the receiver are on, leaves all other points of the receiving grid and all values of the donor grid unchanged, and always ends. With linear (cubic) interpolation, a field that is a polynomial of degree at most 1 (3) in each index is received exactly at the location of the donor; with nearest-point interpolation the receiver gets the value at the nearest point.", "quantifier": "any number of ranks and grids, any decompositions, any fitting connectivity, any field values, any order of arrival of messages", "why_tests_cant": "The result goes through six communication steps whose maps are computed separately on each rank; a test fixes the ranks, the decomposition and the order of arrival, and compares a few values up to rounding.", "anchors": ["src/core/Exchanger.cpp: CreateCollect, Collect, CreateSend, Send, CreateReceive, Receive, CreateDisperse, Disperse", "src/core/Collect*.hpp", "src/core/Send.cpp", "src/core/Recv.cpp", "src/core/Disperse*.hpp", "src/core/AssemblerAssembly.cpp: InterpCoefs"]}
{"id": "C70", "title": "The cell a point is found in does not depend on the decomposition", "statement": "When the search finds a point of grid N in several cells of grid M, overlap records one of them: a cell containing the point if there is one, the one whose center is nearest if there are several, otherwise the nearest cell, and of equally good cells the one of least index. Exactly the points found somewhere are recorded, in storage order. Two runs that find a point in the same cells record the same cell and coordinates, whatever the ranks, local ranges, fragments and their order.", "quantifier": "any number of dimensions, cells, points, fragments, ranks and candidates per point, any rounding of the arithmetic (the optimality in exact arithmetic)", "why_tests_cant": "A test fixes a decomposition and geometry; points on the faces of cells, where several candidates tie, occur by accident only, and the result must agree for all decompositions.", "anchors": ["src/core/AssemblerAssembly.cpp: assembler::DetectOverlap_ (BetterCell, aggregation of the fragment overlap data)"]}
{"id": "C71", "title": "The donor chosen is the candidate farthest from its edge", "statement": "Each receiver gets as donor a grid that overlaps it, connects to its grid, and (for disjoint connections) does not offer an edge point; among these one farthest from the edge, measured relative to 1 + edge padding and at most 1. Of equally far grids, the one with the least ID is taken if all grids occlude each other, the one with the greatest ID if none does, the one with the least donor volume if coarse points are occluded. A receiver is an orphan if and only if there is no such grid.", "quantifier": "any number of grids, points, overlaps, distances, paddings below 999999, volumes", "why_tests_cant": "A test has a few grids and points; whether the sequential comparison with a tolerance picks the maximum for every set of candidates, and whether an inadmissible candidate can displace an admissible one, depends on all combinations and orders.", "anchors": ["src/core/AssemblerAssembly.cpp: assembler::GenerateConnectivity_ (choosing donors)", "src/core/Assembler.hpp: occludes, SetEdgePadding, SetDisjointConnections"]}
{"id": "C72", "title": "The ranks of a grid that a point overlaps are told", "statement": "During assembly each point of a grid is sent to ranks of the other grids for the search of its cell. For every point inside an active cell of another grid, the rank that owns the cell is found and searches for it, however the ranks subdivide their cells and rotate their boxes. Every active cell of a rank is searched exactly once. Every other rank with a vertex of the cell is told of the point too, since it will list the cell and take part in collecting its values.", "quantifier": "any number of dimensions, ranks, cells, active cells, coordinates, points, depths and criteria of subdivision, rotations, nonnegative tolerances", "why_tests_cant": "A test has a few grids on a few ranks; a point that is lost only for some decomposition, mask or rotation shows as a missing donor or, if one of the ranks of the cell is not told, as a deadlock in the exchange that follows.", "anchors": ["src/core/AssemblerAssembly.cpp: assembler::DetectOverlap_ (MakeCellCoverRange, subdivide, generate_fragments, search for overlapping ranks)", "src/core/Box.inl", "src/core/GeometryOps.inl: CellBounds"]}
{"id": "C73", "title": "The search structure of a grid finds the best cell that contains a point", "statement": "The cells of a part of a grid are put into a search tree with hashed bins. Searching it for a point finds a cell if and only if the point overlaps an active cell whose box contains the point; the cell found is the best of them (inside before outside, then the nearest to the center or to the cell, then the least index). The result does not depend on the depth of the tree, the criteria by which it is subdivided or the resolution of the bins, and construction is defined for all cells that are not flat.", "quantifier": "any number of dimensions, cells, active cells, boxes, points, depths, criteria of subdivision, resolutions, rounding functions", "why_tests_cant": "A point that lies on a dividing plane or on the border of a bin is lost only for particular coordinates and parameters; a few examples do not meet them.", "anchors": ["src/core/OverlapAccel.cpp: overlap_accel::overlap_accel, CreateNode_, FindCell, FindCellInNode_", "src/core/OverlapAccel.hpp"]}
{"id": "C74", "title": "A point is found to be in a cell exactly if it is geometrically in the cell", "statement": "The test whether a point overlaps a cell accepts, for cells of uniform and rectilinear grids (along the axes or turned), exactly the points whose coordinates in the cell lie within the tolerance of the unit interval. For cells of curvilinear grids without tolerance it accepts exactly the points of the triangles or tetrahedra into which the cell is divided: only convex combinations of the vertices, and all of them for convex quadrilaterals and for parallelepipeds. A point on the face between two cells is accepted by both, so there are no gaps. With a tolerance all points within the tolerance are accepted.", "quantifier": "all geometry types, dimensions 1 to 3, coordinates of the vertices, points and tolerances", "why_tests_cant": "The set of points in a cell is infinite, and errors sit on its faces and corners, where sampled points do not fall.", "anchors": ["src/core/GeometryOps.inl: OverlapsCell", "src/core/GeometricPrimitiveOpsQuad.inl: OverlapsQuadNonUniform, OverlapsQuadUniform, OverlapsQuadOrientedUniform", "src/core/GeometricPrimitiveOpsHex.inl: OverlapsHexNonUniform", "src/core/Math.inl: ColumnSolve2D, ColumnSolve3D"]}
{"id": "C75", "title": "The coordinates found for a point in a cell locate the point", "statement": "The coordinates of a point in a cell of a uniform grid are the ones that locate it, and are the only ones. For other grids, if coordinates are found, the cubic through the 4^n points around the cell (near a border: around the nearest cell that has them) takes them to the point up to 10^-12 in each coordinate; on any lattice they are always found; and they do not depend on the part of the grid that is known to the rank, as long as it contains the points used and is at least four points wide.", "quantifier": "all geometry types, dimensions, coordinates of the grid points, points, extents of local data", "why_tests_cant": "The iteration converges or not depending on the coordinates; a test covers single grids. Dependence on the decomposition needs all decompositions.", "anchors": ["src/core/GeometryOps.inl: CoordsInCell", "src/core/GeometricPrimitiveOpsQuad.inl: IsoQuad4NodeInverse, IsoQuad16NodeInverse", "src/core/GeometricPrimitiveOpsHex.inl: IsoHex64NodeInverse", "src/core/Math.inl: InterpolateCubic"]}
{"id": "C76", "title": "Volumes and boxes of cells are right", "statement": "The volume of a cell is not negative and equals the length, area or volume for cells with parallel edges, and the area for convex quadrilaterals. The box of a cell contains every convex combination of its vertices and is the smallest such box.", "quantifier": "all geometry types, dimensions and coordinates of the vertices", "why_tests_cant": "The values depend on real coordinates and on the order of the vertices, of which tests have a few.", "anchors": ["src/core/GeometryOps.inl: CellVolume, CellBounds", "src/core/GeometricPrimitiveOpsQuad.inl: VolumeQuadNonUniform", "src/core/GeometricPrimitiveOpsHex.inl: VolumeHexNonUniform"]}
{"id": "C77", "title": "Overlap detection finds exactly the points inside of another grid, on any decomposition", "statement": "Assembly lists, for each process's points of a grid, exactly the active ones that lie in an active cell of the other grid (within the tolerance), each once and in order, with a cell that contains it and its coordinates in that cell; of several cells, the one outside of which the point is least, then the first one. The result is the same for every decomposition of the other grid into processes and fragments and for every search structure.", "quantifier": "all cartesian domains with 1 to 3 dimensions and periodicities, decompositions, subdivisions into fragments, search trees, masks, coordinates and tolerances", "why_tests_cant": "A test runs a few decompositions with a few points; the claim is about all of them, and about points on the boundaries between processes and fragments.", "anchors": ["src/core/AssemblerAssembly.cpp: DetectOverlap, generate_overlap_data, generate_fragments", "src/core/OverlapAccel.cpp: FindOverlappingCell", "src/core/GeometryOps.inl: OverlapsCell, CoordsInCell"]}
{"id": "C78", "title": "The two sides of an overlap agree on all ranks", "statement": "After assembly has found the overlapping cells, every process of the donor-side grid holds one overlap row for each point whose cell has a vertex on it, on whatever process the point is, in the order of the points, with the cell's image on this process; only the process that owns the cell has the rank of the point. Every process of the other grid has the rank that owns the cell for each of its points. The k-th row a process has for another is for the same point as the k-th row this has for it, so the unordered send and receive maps pair the right values, and the rows can be given to the collects.", "quantifier": "all numbers of processes, members of the donor grid, decompositions, periodicities, cells and points found, interleavings of messages, and any sort used for ordering", "why_tests_cant": "The agreement is between arrays on different processes filled from messages in any order; a test sees one schedule and one decomposition, and a disagreement may show only as a value from another point.", "anchors": ["src/core/AssemblerAssembly.cpp: DetectOverlap_ (1835-2410, 2495-2525)", "src/core/OverlapM.cpp", "src/core/OverlapN.cpp", "src/core/CollectMap.cpp"]}
{"id": "C79", "title": "Every receiver has its donor on all processes that need it", "statement": "After assembly has chosen donor grids, the connectivity of a pair of grids holds, on every process of the donor grid, one donor for each point that receives from this grid and whose cell has a vertex on this process, in the order of the points, with the coordinates in the cell and the extents of the cell's image on this process; no other process has one, and only one process has the donor's lower corner. Every process of the receiving grid has as receivers exactly its points that receive from this grid, in order, each with its cell. The donor cells can then be given to the collects of an exchange.", "quantifier": "all numbers of processes, members of the donor grid, decompositions, periodicities, overlaps, choices of donor grids, interleavings of messages and sorts", "why_tests_cant": "Whether a point donates is decided on the receiving process and told to the owner of the cell, which tells its neighbours; that all ends up consistent is a statement about all processes, schedules and decompositions at once.", "anchors": ["src/core/AssemblerAssembly.cpp: GenerateConnectivityData (4633-4716, 4787-5151, 5195-5223)", "src/core/ConnectivityM.cpp", "src/core/ConnectivityN.cpp", "src/core/SendMap.cpp, RecvMap.cpp"]}
{"id": "C80", "title": "From overlap to exchanged values", "statement": "Take any set of pairs of grids whose overlap, donor choice and connectivity were computed by assembly. An exchange of values over the connectivity of any of the pairs ends, and gives each receiving point the reduction of the values at the vertices of exactly the cell that was found for that point, whichever processes hold the cell, its vertices and the point; with linear interpolation it reproduces every function that is affine in the physical coordinates at the receiving points, on cells with parallel edges. All other points of the receiving grid keep their values, and no point receives from two grids.", "quantifier": "all numbers of processes and grids, decompositions, cells found, choices of donors, values, reductions, sorts and interleavings of messages", "why_tests_cant": "It composes the overlap search, the choice of donors, the connectivity and the exchange over all processes; tests run the pieces on a few fixed grids and schedules.", "anchors": ["src/core/AssemblerAssembly.cpp: GenerateOverlapData, GenerateConnectivityData", "src/core/Exchanger.cpp: Update, Collect, Send, Receive, Disperse", "src/core/ConnectivityM.cpp, ConnectivityN.cpp"]}
{"id": "C81", "title": "Exchangers follow their connectivities", "statement": "While an exchanger is bound to a domain, connectivities and grids may be created, edited and destroyed in any legal order. No such history makes the exchanger use something that is not there or leaves processes waiting for each other in a collective call; the exchanger always knows exactly the existing connectivities; exchange operations last until the next announced edit of their connectivity; and an exchange over a connectivity whose edits have ended gives each receiver the value of its current donor.", "quantifier": "all histories of creating and destroying grids and connectivities, editing arrays on any processes, binding, unbinding and creating exchange operations; all numbers of processes, distributions of grids, arrays, values and interleavings of messages", "why_tests_cant": "The exchanger keeps derived data that is updated by events; whether it is current depends on the whole history and on which of several edit flags were raised on other processes. Tests create, fill and exchange once.", "anchors": ["src/core/Exchanger.cpp: Bind, Unbind, OnConnectivityEvent_, Update_, CreateLocals_, DestroyLocals_, UpdateSourceDestRanks_, ResetExchanges_", "src/core/ConnectivityComponent.cpp: edit events"]}
{"id": "C82", "title": "Destroying a component unbinds its users", "statement": "Destroying a component of a domain unbinds the assemblers and exchangers bound to it, and leaves the others bound; no sequence of valid calls makes the library touch a listener that is gone.", "quantifier": "all histories of creating and destroying components and binding and unbinding any number of assemblers and exchangers", "why_tests_cant": "The listeners remove themselves from the event that is calling them. Tests bind one object and destroy nothing under it; with several objects the outcome depends on the order of recycled listener numbers.", "anchors": ["src/core/Assembler.cpp: Bind, Unbind, OnComponentEvent_", "src/core/Exchanger.cpp: Bind, Unbind, OnComponentEvent_", "src/core/Domain.cpp: DestroyComponent", "src/core/Event.inl: Trigger, event_listener_handle::Reset"]}
{"id": "C83", "title": "Fragments reach their receivers with their own data", "statement": "While overlap is computed, each process sends the fragments of its grids that others need and uses those it needs: once each, with the coordinates and masks of the process that owns it, never with those of another fragment; the exchange always ends, and any number of fragments passes through the ten buffers.", "quantifier": "all numbers of processes and fragments, all interleavings of the processes, all orders and groupings in which MPI reports completed operations", "why_tests_cant": "Messages are matched by order only. A test sees the order its MPI implementation happens to report, with few fragments per pair of processes.", "anchors": ["src/core/AssemblerAssembly.cpp: 1422-1644, DetectOverlap_ (transfer of fragments)"]}
{"id": "C84", "title": "Processes agree on the fragments they exchange", "statement": "From the fragments each process finds to overlap its points, the processes tell each other which fragments they need; afterwards every process sends exactly the fragments of its grids that some process needs, expects exactly the remote ones it needs with the range of cells their owner has, and after the transfer has used all of them and no other.", "quantifier": "all numbers of processes, all grids and decompositions, all sets of needed fragments that exist, all interleavings of the messages", "why_tests_cant": "Sends and receives are matched by the order of sets built separately on every process from different data; a test sees one small set.", "anchors": ["src/core/AssemblerAssembly.cpp: 897-1192, 1258-1286, DetectOverlap_"]}
{"id": "C85", "title": "Values sent over an overlap reach the overlapped points", "statement": "When values of a grid are passed on to the points that its cells overlap (volumes, active and occluded points, distances to the receivers), every process that has such a point receives, for exactly this point, the value that follows from the vertices of the cell found for it: the interpolated volume at the point's place in the cell, the least distance, or whether none or all of the vertices are set. Masks take this value at the overlapped points and keep theirs at all others; after points have become inactive, no inactive point counts as overlapped.", "quantifier": "all numbers of processes, all grids, decompositions and periodicities, all overlaps between them, all values, all interleavings of the messages", "why_tests_cant": "Which process holds the vertices, the cell and the point, and in which order the values are sent, depends on the decomposition of both grids; a test fixes one, and equal values at neighbouring points hide a wrong order.", "anchors": ["src/core/AssemblerAssembly.cpp: 2592-2674, 3297-3387, 4135-4226, 4380-4452", "src/core/CollectBase.hpp", "src/core/Send.cpp", "src/core/Recv.cpp", "src/core/Disperse.cpp"]}
{"id": "C86", "title": "Occluded points: which they are, and that something better remains", "statement": "A point is marked as occluded only if it lies in a cell of a grid that is asked to occlude its grid; with the option COARSE only if it is coarser than that grid there. The cell lies at least EdgePadding points from the outer fringe of the occluding grid and, if that grid may itself be occluded, from its inactive points and from those of its points that are occluded in turn. EdgeSmoothing only adds occluded points, no further than asked for. A grid without an outer fringe that occludes ALL and is not occluded itself occludes every point it overlaps. This holds for all options the validation lets through.", "quantifier": "all domains of grids (any number, sizes, periodicities), all overlaps, volumes, masks and options", "why_tests_cant": "The result follows from all pairs of grids, in rounds that read what other rounds have written; grids of a test are nested simply, and none has pairs that occlude each other and overlap in one direction only.", "anchors": ["src/core/AssemblerAssembly.cpp: assembler::DetectOccluded_ 3522-3986", "src/core/Map.hpp: 450-458", "src/core/AssemblerOptions.cpp: Occludes, EdgePadding, EdgeSmoothing"]}
{"id": "C87", "title": "Boundary holes: which points are removed", "statement": "If grid M cuts grid N (CutBoundaryHoles) and both overlap, the points of N that lie behind the boundaries of M are removed, and no others: only active points are removed; only from grids that some cutting grid with a boundary overlaps; a hole ends at boundaries, so that next to a removed point there are only removed points, inactive points and points on a boundary of N or of a grid that cuts N. Points on the same side of all boundaries as points that stay are not removed. The computation ends.", "quantifier": "all domains of grids (any number, sizes, periodicities), all overlaps, boundaries, masks and options, any number of iterations of the loops", "why_tests_cant": "The removed set is a flood fill bounded by several projected boundaries whose thickness is itself found by iterating until covered; whether that ends and on which side it stops depends on how the cells of the two grids relate.", "anchors": ["src/core/AssemblerAssembly.cpp: assembler::CutBoundaryHoles_ 2793-3268", "src/core/DistributedFieldOps.cpp: DetectEdge 53-158, FloodMask 459-500", "src/core/AssemblerOptions.hpp: CutBoundaryHoles"]}
{"id": "C88", "title": "Assembling a whole domain", "statement": "Assemble on a domain of grids: each part is given what the parts before it left. So the flags, distances and donors at the end are those of C61 (flags), C87 (holes), C86 (occlusion) and C71 (donors) for one consistent set of data; the result does not depend on how grids are distributed; assembling again changes nothing; what was active is active, a hole or minimized at the end, and nothing else; a receiver has a donor whose cell has active vertices, or it is an orphan and no grid could give values; active points that do not receive have no removed point in their stencil; an occluded point lies in a cell of another grid that is there at the end. A point is removed for one reason.", "quantifier": "all domains of grids (any number, sizes, periodicities), all overlaps that detection may find, all options, all flags at the start, all distributions and interleavings", "why_tests_cant": "The parts are tested one by one or on whole cases with two or three grids; that data passed from part to part stay consistent (masks updated after holes were cut, overlap after points were removed, distances before donors) for all combinations of options is not something examples show.", "anchors": ["src/core/AssemblerAssembly.cpp: assembler::Assemble 82-119, InitializeAssembly_ 158-200, DetectOverlap_ 2535-2589, InferBoundaries_ 2714-2757, CutBoundaryHoles_ 2793-3387, LocateOuterFringe_ 3420-3489, DetectOccluded_ 3522-3986, MinimizeOverlap_ 4036-4226, GenerateConnectivityData_ 4284-4599", "src/core/Assembler.hpp: assembler::Assemble"]}
{"id": "C89", "title": "Reading connectivity from XINTOUT files", "statement": "ImportXINTOUT on files of either format (standard, extended), byte order (given or detected) and machine byte order, with or without blanking: each grid's donors and receivers are those written, in order, once each, with cells and points counted from zero, and coordinates and coefficients bit for bit. A file that ends early gives an error, never other data.", "quantifier": "all files of the format (any number of grids, donors, receivers, donor sizes), both formats, byte orders of file and machine, all numbers of processes and adjustments, all truncations of arbitrary bytes", "why_tests_cant": "Tests read files written by the same machine for two or three grids; offsets that depend on sums over preceding grids, on record markers and on who reads which part, and what truncated or foreign-endian files give, need all files.", "anchors": ["src/extras/XINTOUT.cpp: ReadXINTOUT 399-458, ReadGlobalInfo 513-648, DetectFormat 650-742, ReadGridInfo 744-946, ReadDonors 948-1330, ReadReceivers 1332-1490, File_read_all_endian, SwapEndian 2687-2793", "src/overkit/extras/XINTOUT.hpp: ImportXINTOUT"]}
{"id": "C90", "title": "Who reads which part of an XINTOUT file", "statement": "When reading, the elements of a grid are divided among some of its processes: those whose rank is a multiple of an interval, with equally many elements each (rounded up), at least as many as the average number of points per process unless ReadGranularityAdjust asks for more readers; a higher adjustment never means fewer readers. Every number of elements can be read on every number of processes.", "quantifier": "all numbers of elements, processes, points per process and adjustments", "why_tests_cant": "Which remainders occur depends on all three numbers together; the tests use few processes and many elements.", "anchors": ["src/extras/XINTOUT.cpp: Chunkify 2695-2724, ReadDonors 975-1040, ReadReceivers 1358-1410"]}
{"id": "C91", "title": "Donors and receivers of XINTOUT files are matched", "statement": "After the files are read, on any number of processes and whichever process has read which part, the matching step ends on all processes, and every donor has the grid and point of the receiver in the file with the same connection number, every receiver the grid and cell of the donor; files whose donors and receivers do not match are noticed.", "quantifier": "all numbers of processes and grids, all distributions of donors and receivers over processes and grids, all connection numbers, all interleavings of messages", "why_tests_cant": "Which process keeps which connections, who talks to whom and in what order the answers are taken back depends on all numbers together; tests use one file on four processes.", "anchors": ["src/extras/XINTOUT.cpp: MatchDonorsAndReceivers 1492-1890, CreateConnectionData", "src/core/DynamicHandshake"]}
{"id": "C92", "title": "Donors and receivers of XINTOUT files go to the processes that need them", "statement": "After matching, on any number of processes and any decomposition of the grid, sending the donors and receivers read ends on all processes; a process has exactly the receivers that are points of its part of the grid, and exactly the donors whose cells, through periodic boundaries, have a point in its part, each with the extents, coordinates, coefficients and partner with which it was read; so every receiver is on one process and no donor is lost; points outside of the grid are noticed.", "quantifier": "all grids (periodic or not), numbers of processes and decompositions, all distributions of donors and receivers over the processes, all cell sizes, all interleavings of messages", "why_tests_cant": "Which process has which cell depends on the decomposition and on the distributed hash built for it; tests use one decomposition and cells inside of the grid.", "anchors": ["src/extras/XINTOUT.cpp: DistributeGridConnectivityData 1918-2411", "src/core/DecompHash", "src/core/Cart.inl: PeriodicAdjust"]}
{"id": "C93", "title": "Imported donors and receivers make up the connectivities", "statement": "The connectivities made of the donors and receivers read from XINTOUT files are the same on all processes: one for each pair of grids with a receiver on the second grid whose source is on the first, on whichever process it is; on every process each local grid has in a connectivity exactly its donors with that destination grid (extents, coordinates, coefficients and destination, the arrays as wide as the largest cell) and exactly its receivers with that source grid, once each and in order; data that do not fit together are noticed.", "quantifier": "all numbers of processes and grids, any local grids on each process, any donors and receivers, all interleavings", "why_tests_cant": "Connectivities are created from sums over all processes, and positions in arrays from counts in one loop and cursors in another; tests have one pair of grids.", "anchors": ["src/extras/XINTOUT.cpp: ImportConnectivityData 2413-2509, ImportDonors 2511-2600, ImportReceivers 2602-2650", "src/core/ConnectivityM.cpp: Resize", "src/core/ConnectivityN.cpp: Resize"]}
{"id": "C94", "title": "Importing XINTOUT files gives the connectivities in them", "statement": "Files written in the XINTOUT format, in either byte order and either record format, are imported as the connectivities they describe: on all processes the same pairs of grids, those with a connection in the files; on each process, for each of its grids and each other grid, exactly the donors of the file whose cell has a point of the process and whose connection ends on that grid, with the extents, coordinates and coefficients in the file and the receiver's point as destination, and exactly the receivers of the file that are its points and whose connection starts on that grid, with the donor's cell as source, each once; so both sides of every connection are there.", "quantifier": "all files of the format whose connections are numbered once on each side, all numbers of grids and processes, all assignments of processes to grids, all decompositions, whichever process reads which part, all interleavings", "why_tests_cant": "Import is four steps with different distributions of the same data and two global numberings; a test compares one import on one decomposition, and errors that move data between steps cancel in it.", "anchors": ["src/extras/XINTOUT.cpp: ImportXINTOUT 221-292, ReadXINTOUT, MatchDonorsAndReceivers, DistributeConnectivityData, ImportConnectivityData"]}
{"id": "C95", "title": "An error on one process becomes an error on all of them", "statement": "Operations that can fail on some processes only end with all processes agreeing: none reports success if one has failed, and none fails if none has. If the failures are of one kind, all processes raise the same error with the same path, that of the first process that failed; in general processes that had not failed get the error with the lowest code.", "quantifier": "all numbers of processes, all combinations of failures on them, all interleavings", "why_tests_cant": "Tests run with few processes and failures are hard to provoke on chosen ones; the interesting combinations are of different failures on different processes.", "anchors": ["src/core/Exception.hpp: captured_exception::Sync, Check 128-160", "src/core/Error.hpp: SyncAuxData, CaptureFromCode", "src/core/CommunicationOps.cpp: BroadcastString"]}
{"id": "C96", "title": "An XINTOUT file that cannot be read for some grids is an error on all processes", "statement": "If reading the files fails for some grids, importing ends on all processes with an error, and without one if no grid fails; it never waits forever. This holds when every later grid that shares a process with the failing grid is on processes of the failing grid only, in particular if every process has one grid or all grids are on all processes. With one failing grid it holds only then.", "quantifier": "all numbers of processes and grids, all assignments of grids to processes, all sets of failing grids, all interleavings", "why_tests_cant": "Needs a damaged file and particular overlapping assignments of processes to grids; whether it ends depends on the order of the grids.", "anchors": ["src/extras/XINTOUT.cpp: ReadXINTOUT 399-458, Error.Check in ReadGridInfo 955, ReadDonors 1290, ReadReceivers 1488"]}
{"id": "C97", "title": "After editing coordinates, all copies of points and all volumes are up to date", "statement": "When an edit of a grid's coordinates ends, every copy of a point has the coordinates its owner gave it, moved by as many periodic lengths as there are periods between the copy and the domain; the volume of every cell is that of the cell with these vertices, and the volume of a point the average of the cells it is a vertex of. This holds whatever copies held before, on all schedules, does not depend on the decomposition, and doing it again changes nothing. Setting another periodic length does not move coordinates that are already there.", "quantifier": "all domains in one to three dimensions (periodic or not), decompositions in which every process has a cell, geometry types, coordinates, periodic lengths, schedules of messages", "why_tests_cant": "Copies are wrong only at particular process and periodic boundaries; independence of decomposition and schedule ranges over infinitely many.", "anchors": ["src/core/Geometry.cpp: geometry::geometry 53-85, SetPeriodicLength 122-137, compute_cell_volumes 171-190, OnCoordsEndEdit_ 193-270"]}
{"id": "C98", "title": "Interpolating with threads gives the same values as without", "statement": "When interpolation at cells runs in several threads, no more than there were when it was set up, then however the cells are shared out and however the threads interleave, every thread finishes, nothing is accessed out of bounds, no two threads access the same data while one changes it, and the value of every cell is the one it has without threads: the weighted sum of the values at the vertices in the order of the layout. With more threads than at set-up memory is accessed out of bounds.", "quantifier": "all grids, decompositions, cells, fields, coefficients and ways to multiply and add, numbers of threads, ways to share out the cells, previous contents of buffers, and interleavings of loads and stores", "why_tests_cant": "Interleavings of threads cannot be enumerated by running the code; races show up rarely, if at all.", "anchors": ["src/core/CollectInterpThreaded.hpp: collect_interp_threaded 48-152", "src/core/CollectBase.cpp: collect_base 27-51, GetLocalCellInfo_ 69-104, AssembleVertexValues_ 242-278"]}
{"id": "C99", "title": "Exchanges of several fields in progress at the same time give what exchanges one after the other give", "statement": "When the exchange of copies is started for several fields and waited for later, in any grouping and order that may differ between processes, and with computations on other fields in between, then however messages arrive and whether or not sends wait for their receives, there is no deadlock, nothing undefined, and every field ends with the values it has if each exchange is completed at once; on a partition every field last exchanged has the owners' values in all copies. All processes must start the exchanges in the same order, and a field must be left alone until its exchange has been waited for; otherwise values of one field can end up in another, or old values in copies. Exchanges in progress never share buffers, and buffers are used again.", "quantifier": "all numbers of processes, halo maps, programs of starts, waits and computations, field values and types, arrival orders and interleavings, sequences of starts and completions", "why_tests_cant": "Arrival orders and interleavings across processes cannot be enumerated by tests, and mix-ups need particular ones.", "anchors": ["src/core/Halo.inl: halo::Exchange 16-54, halo_exchanger_for_type 58-176", "src/core/Request.cpp: Wait, WaitAll", "src/core/Geometry.cpp: OnCoordsEndEdit_ 200-215"]}
