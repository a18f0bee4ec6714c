{"id": "C01", "title": "Vertex relabelling is a bijection", "statement": "For every thread count, rank count and vertex count n, the map from user vertex ids 1..n to internal ids is a bijection of 1..n, and the map used on output is its exact inverse, so no two user vertices share storage and every id reported back to the user is the one the user supplied. No division by zero is reached for ids in 1..n.", "quantifier": "all thread counts >= 1, rank counts >= 1, n >= 0, ids in 1..n", "why_tests_cant": "the maps depend on thread count, rank count and n through integer division and remainder; only finitely many triples can be sampled", "anchors": ["include/Graph.h: Graph::vertexToNative, Graph::nativeToVertex"]}
{"id": "C02", "title": "Loading then exporting edges is the identity on the edge multiset", "statement": "After ReadEdgelist of any valid square edge list, getEdgelist on all ranks together returns exactly the multiset of edges (source, destination, weight) supplied by all ranks together, in user ids, with nothing lost, duplicated or attached to another weight, for any number of ranks and threads.", "quantifier": "all edge lists with ids in 1..n split arbitrarily over ranks, all rank and thread counts, all (unstable) sort outcomes", "why_tests_cant": "needs every edge list, every distribution over ranks, every thread count and every permutation an unstable parallel sort may return", "anchors": ["include/Graph.h: Graph::ReadEdgelist, Graph::getEdgelist", "include/GMDP/matrices/SpMat.h: SpMat::ingestEdgelist, SpMat::get_edges, SpMat::Allocate2DPartitioned", "include/GMDP/matrices/DCSCTile.h: DCSCTile, get_edges"]}
{"id": "C03", "title": "Vertex properties behave as a map with exactly one owner per vertex", "statement": "After any sequence of setVertexproperty / setAllVertexproperty calls issued on all ranks, getVertexproperty(v) on the rank for which vertexNodeOwner(v) is true returns the value most recently stored for v (other vertices are untouched by a store to v), exactly one rank owns each v in 1..n, and every other rank gets a default-constructed value.", "quantifier": "all call histories, vertices, rank and thread counts", "why_tests_cant": "arbitrary histories interleaved over arbitrary vertices and partitions", "anchors": ["include/Graph.h: setVertexproperty, setAllVertexproperty, getVertexproperty, vertexNodeOwner", "include/GMDP/vectors/SpVec.h: set, get, setAll, node_owner, getPartition", "include/GMDP/vectors/DenseSegment.h: set, get, setAll"]}
{"id": "C04", "title": "Active set behaves as a set under any history", "statement": "After setAllInactive or setAllActive and any sequence of setActive / setInactive calls, the set of vertices that take part in the next superstep is exactly the set described by the history (last operation on a vertex wins).", "quantifier": "all histories of setAllActive/setAllInactive/setActive/setInactive, all vertices", "why_tests_cant": "unbounded histories over unbounded vertex sets", "anchors": ["include/Graph.h: setAllActive, setAllInactive, setActive, setInactive", "include/GMDP/utils/bitvector.h: set_bitvector, clear_bitvector, get_bitvector"]}
{"id": "C05", "title": "One superstep delivers exactly one processed message per traversed edge of an active vertex", "statement": "In one iteration of run_graph_program with a commutative associative reduce, vertex v has apply called exactly once iff v has at least one edge (in the direction selected by OUT_EDGES, IN_EDGES or ALL_EDGES) from an active vertex; the argument is the reduction of process_message over exactly those edges, counting parallel edges separately and, for ALL_EDGES, both directions; all other vertex properties are unchanged.", "quantifier": "all graphs, vertex programs with commutative associative reduce, directions, activity sets, rank/thread counts", "why_tests_cant": "quantifies over all graphs, programs and partitions", "anchors": ["include/GraphMatRuntime.h: run_graph_program", "include/SPMV.h: SpMSpV, SpMTSpV, Mulfn, Addfn", "include/GMDP/singlenode/spmspv.h", "include/GMDP/multinode/spmspv.h"]}
{"id": "C06", "title": "Iteration count contract of run_graph_program", "statement": "With iterations = N > 0 exactly N supersteps run whether or not the program converges earlier; with N <= 0 it runs at least one superstep and stops after the first superstep in which no vertex property changed on any rank; it never stops on a superstep in which some rank still changed a vertex.", "quantifier": "all programs, graphs and values of iterations", "why_tests_cant": "depends on unbounded executions and on a global reduction over all ranks", "anchors": ["include/GraphMatRuntime.h: run_graph_program"]}
{"id": "C07", "title": "Results do not depend on the number of ranks or threads", "statement": "For a commutative associative reduce, the vertex properties (in user ids), the active set and the number of iterations after run_graph_program are the same for every number of ranks and threads and every thread schedule.", "quantifier": "all graphs, programs, rank and thread counts, schedules", "why_tests_cant": "all partitions and all interleavings", "anchors": ["include/GraphMatRuntime.h: run_graph_program", "include/GMDP/multinode/spmspv.h", "include/GMDP/multinode/spmspv3.h", "include/GMDP/multinode/intersectreduce.h", "include/Graph.h: vertexToNative"]}
{"id": "C08", "title": "Next active set is exactly the set of changed vertices", "statement": "After each superstep of an ACTIVE_ONLY program the active set is exactly the set of vertices that received a message and whose property compares unequal (operator!=) to its value before that superstep; vertices that received a message but kept an equal value are not active, and previously active vertices do not stay active by default.", "quantifier": "all graphs, programs and supersteps", "why_tests_cant": "must hold after every superstep of every execution", "anchors": ["include/GraphMatRuntime.h: run_graph_program"]}
{"id": "C09", "title": "The return value of send_message never suppresses a message", "statement": "The boolean result of GraphProgram::send_message is ignored by the runtime: a vertex in the active set takes part with the message object left by send_message whether it returned true or false; a program cannot veto a message by returning false.", "quantifier": "all programs and active vertices", "why_tests_cant": "absence of an effect for every program cannot be shown by examples", "anchors": ["include/GraphMatRuntime.h: send_message wrapper", "include/GMDP/singlenode/intersectreduce.h"]}
{"id": "C10", "title": "A freshly loaded graph is not in the empty-active-set state", "statement": "Immediately after ReadEdgelist/ReadMTX/ReadGraphMatBin every vertex takes part in the first superstep without send_message being called (each contributes the message object default-constructed or left over in the message buffer), unless setAllInactive, reset, or an ALL_VERTICES program intervenes; after setAllInactive only vertices given to setActive take part.", "quantifier": "all graphs, programs and histories before the first superstep", "why_tests_cant": "depends on a history of API calls and on which buffer contents are stale", "anchors": ["include/Graph.h: ReadEdgelist, setAllInactive, reset", "include/GraphMatRuntime.h: run_graph_program, send_message", "include/GMDP/vectors/DenseSegment.h: setAll"]}
{"id": "C11", "title": "ALL_VERTICES programs message from every vertex in every superstep", "statement": "With activity ALL_VERTICES, send_message is called for every vertex 1..n in every superstep irrespective of the active set before the call and of changes in earlier supersteps, and the active set is full on return.", "quantifier": "all graphs, programs, prior active sets and iteration counts", "why_tests_cant": "must hold in every superstep for every prior history", "anchors": ["include/GraphMatRuntime.h: run_graph_program", "include/Graph.h: setAllActive"]}
{"id": "C12", "title": "do_every_iteration is called once per superstep in order", "statement": "do_every_iteration is called exactly once per superstep per rank with arguments 0,1,2,..., after every apply of that superstep and before every send_message of the next one, including the last superstep.", "quantifier": "all programs, graphs and iteration counts", "why_tests_cant": "order of effects over unbounded executions", "anchors": ["include/GraphMatRuntime.h: run_graph_program"]}
{"id": "C13", "title": "applyToAllVertices applies the function once to every vertex", "statement": "applyToAllVertices(f) replaces the property p of every vertex 1..n by the value f writes given (p, copy of p), exactly once each, and leaves activity and edges alone.", "quantifier": "all graphs, functions, rank/thread counts", "why_tests_cant": "all sizes and partitions", "anchors": ["include/Graph.h: applyToAllVertices", "include/GMDP/multinode/apply.h", "include/GMDP/singlenode/apply.h"]}
{"id": "C14", "title": "applyReduceAllVertices folds each vertex once but the initial value once per rank", "statement": "With a commutative associative reduce, applyReduceAllVertices(val,f,r) leaves on every rank the same result: the reduction of f(p(v)) over all v in 1..n, each once, together with the initial *val of every rank (once per rank). If the initial values of all ranks but the first are neutral, the result is the reduction of the first rank's initial value and the f(p(v)); with + and initial value c on every rank the excess is (ranks-1)*c.", "quantifier": "all graphs, functions, commutative associative reductions, initial values, rank and thread counts", "why_tests_cant": "depends on the number of ranks and on the identity-ness of a user supplied value", "anchors": ["include/Graph.h: applyReduceAllVertices", "include/GMDP/multinode/reduce.h", "include/GMDP/singlenode/reduce.h"]}
{"id": "C15", "title": "applyToAllEdges updates every edge once with (source, destination) properties", "statement": "applyToAllEdges(f) replaces the weight w of every edge (u,v) by the value f writes given (w, property(u), property(v)) exactly once per stored copy, for both traversal directions, and changes no endpoint; traversals in either direction afterwards see the same weight.", "quantifier": "all graphs, functions, rank/thread counts", "why_tests_cant": "all edge sets and partitions; two stored copies must agree", "anchors": ["include/Graph.h: applyToAllEdges", "include/GMDP/multinode/applyedges.h", "include/GMDP/singlenode/applyedges.h"]}
{"id": "C16", "title": "Forward and backward adjacency always describe the same graph", "statement": "After any load, and after any sequence of applyToAllEdges and run_graph_program, the edge multiset traversed by OUT_EDGES programs is exactly the transpose of the one traversed by IN_EDGES programs (weights included), so ALL_EDGES sees each edge once in each direction.", "quantifier": "all loads and operation histories", "why_tests_cant": "invariant over unbounded operation sequences", "anchors": ["include/GMDP/matrices/SpMat.h: Transpose", "include/Graph.h: ReadEdgelist, applyToAllEdges"]}
{"id": "C17", "title": "shareVertexProperty ownership discipline", "statement": "For any sequence of loads, shareVertexProperty calls, uses of the properties and of the edges, and destructions over any number of graphs: if each graph is loaded once, shares at most once, from another graph and not after others shared from it, and its properties are used only while the graph they came from is alive, then nothing is used after free or freed twice, graphs that share show the same values, and once all graphs are destroyed nothing is left allocated. Sharing a second time, with oneself, or after having been a source reaches a double free or a use after free; using the properties after their origin is destroyed is a use after free; loading twice leaks the first load.", "quantifier": "all sequences of share/use/destroy operations over any number of graphs", "why_tests_cant": "temporal property over all operation sequences; failures are undefined behaviour", "anchors": ["include/Graph.h: shareVertexProperty, ~Graph"]}
{"id": "C18", "title": "GraphMat binary files load only under the same rank and thread counts, and then exactly", "statement": "WriteGraphMatBin followed by ReadGraphMatBin with the same number of ranks and threads restores exactly the same edges (both traversal directions), vertex count and relabelling; with a different number of ranks or of threads the load terminates the process instead of producing a graph.", "quantifier": "all graphs, all pairs of (ranks, threads) at save and load", "why_tests_cant": "all graphs and all configuration pairs", "anchors": ["include/Graph.h: WriteGraphMatBin, ReadGraphMatBin", "include/GMDP/matrices/DCSCTile.h: save, load"]}
{"id": "C19", "title": "saveVertexproperty writes every vertex once, in order, with 0-based ids", "statement": "The files written by saveVertexproperty (one per segment, named by appending the segment number), concatenated in segment order, contain one line per vertex v in 1..n in increasing order, whose value is the property of v and whose printed id is v-1, for every number of ranks and threads.", "quantifier": "all graphs, property values, rank and thread counts", "why_tests_cant": "all sizes and partitions, and a redistribution step with an unstable sort", "anchors": ["include/Graph.h: saveVertexproperty", "include/GMDP/vectors/SpVec.h: get_edges, ingestEdgelist, save", "include/GMDP/vectors/DenseSegment.h: get_edges, ingestEdges, save"]}
{"id": "C20", "title": "Vector segments partition the vertex ids", "statement": "For every n >= 0 and number of segments >= 1 the segment boundaries start at 0, are monotone, end at n, interior boundaries are multiples of 256 or n, and each id in 1..n is mapped to the one segment whose range contains it.", "quantifier": "all n, all segment counts, all ids", "why_tests_cant": "integer arithmetic over all sizes", "anchors": ["include/GMDP/vectors/SpVec.h: AllocatePartitioned, getPartition"]}
{"id": "C21", "title": "A vector segment behaves as a partial map with an exact population count", "statement": "Under any sequence of set, unset, setAll, clear on in-range ids, membership equals that of the abstract partial map, the stored values are the last stored, compute_nnz equals the number of members, and getNNZ equals it as well except after bulk clears, which leave a stale count.", "quantifier": "all operation sequences on all segment sizes", "why_tests_cant": "unbounded histories over bit-packed words", "anchors": ["include/GMDP/vectors/DenseSegment.h: set, unset, setAll, get, compute_nnz, getNNZ", "include/GMDP/utils/bitvector.h"]}
{"id": "C22", "title": "Sending a vector segment to another rank reproduces it exactly", "statement": "For every segment content and every thread count on either side (the same on both sides for Serializable value types), what the receiver holds after the count exchange, the transfer in whichever encoding is chosen (nothing, index/value pairs, dense) and decoding is exactly the set of ids and values the sender held; sender and receiver always agree on the encoding and buffer sizes, and no scratch or receive buffer is overrun. With a Serializable type, a sender with more threads than the receiver makes the receiver overrun its scan arrays.", "quantifier": "all contents, sizes, thread counts on both sides", "why_tests_cant": "encoding switches at a density threshold and is partitioned by thread counts", "anchors": ["include/GMDP/vectors/DenseSegment.h: compress, decompress, should_compress, send_segment, recv_buffer, compute_nnz"]}
{"id": "C23", "title": "Merging received partial results is a keyed reduction", "statement": "For a commutative associative reduce, merging any number of received segments (each sparse or dense) into the local one yields, for every id, the reduction of the values of all contributors that have that id (each exactly once), for every arrival order and every thread count; ids nobody contributed stay absent.", "quantifier": "all contents, numbers of contributors, arrival orders, encodings and thread counts", "why_tests_cant": "all arrival orders and encodings", "anchors": ["include/GMDP/vectors/DenseSegment.h: union_received, recv_nnz_queue", "include/GMDP/singlenode/unionreduce.h"]}
{"id": "C24", "title": "Parallel decode and merge never let two threads touch the same word", "statement": "In decompression and sparse merging, for every thread count and every sorted index list, the ranges given to different threads cover every entry exactly once and no two threads write the same membership word, so every interleaving gives the sequential result.", "quantifier": "all index lists, thread counts and interleavings", "why_tests_cant": "data race freedom for all interleavings", "anchors": ["include/GMDP/vectors/DenseSegment.h: decompress", "include/GMDP/singlenode/unionreduce.h: union_compressed"]}
{"id": "C25", "title": "Vector edge list ingestion round trip", "statement": "After ingestEdgelist of (id,value) pairs with distinct ids spread arbitrarily over ranks, the vector maps exactly those ids to those values and, with at most one segment per rank (as a graph always has), get_edges on all ranks returns exactly them; with duplicate ids the value that comes last in rank order, then list order, is kept and getNNZ counts distinct ids. With several segments on one rank, get_edges dereferences the null storage of a segment that received nothing.", "quantifier": "all pair lists, distributions and rank counts", "why_tests_cant": "all distributions over ranks and all sort outcomes", "anchors": ["include/GMDP/vectors/SpVec.h: ingestEdgelist, get_edges", "include/GMDP/vectors/DenseSegment.h: ingestEdges, get_edges"]}
{"id": "C26", "title": "Vector getNNZ counts members over all ranks exactly", "statement": "SpVec::getNNZ returns on every rank the number of members of the whole vector: it recounts the membership bits of every segment on its owning rank, so it is exact after every history of set/unset/setAll/bulk clear issued on any ranks, including setAllInactive (which leaves the segments' stored counts stale) and including vectors never written.", "quantifier": "all histories, rank counts", "why_tests_cant": "histories over all ranks", "anchors": ["include/GMDP/vectors/SpVec.h: getNNZ", "include/Graph.h: setAllInactive", "include/GMDP/vectors/DenseSegment.h: getNNZ"]}
{"id": "C27", "title": "Matrix tiles partition the edge set", "statement": "For every n and number of tiles per dimension >= 1, each entry (i,j) with 1<=i,j<=n lies in exactly one tile, that tile's row and column ranges contain it, every tile is owned by a rank in 0..ranks-1, and row ranges agree with the vector segment ranges used for results and messages.", "quantifier": "all n, tile counts, entries", "why_tests_cant": "integer arithmetic over all sizes", "anchors": ["include/GMDP/matrices/SpMat.h: getPartition, Allocate2DPartitioned", "include/GMDP/matrices/layouts.h: partition_fn_2d", "include/GMDP/vectors/SpVec.h: getPartition"]}
{"id": "C28", "title": "Building a sparse tile preserves entries", "statement": "For every list of in-range entries (including duplicates) and every thread count, constructing a tile terminates and get_edges returns a permutation of the entries with the same weights; entries are grouped by row partition and column.", "quantifier": "all entry lists, tile sizes, thread counts, sort outcomes", "why_tests_cant": "all lists and all tie orders of an unstable sort; termination", "anchors": ["include/GMDP/matrices/DCSCTile.h: DCSCTile, get_edges, static_partition, set_edge_pointers"]}
{"id": "C29", "title": "Thread row ranges of a tile are 32-aligned and cover the tile", "statement": "The row ranges processed by different threads start at 0, end at the row count, are monotone, and every interior boundary is a multiple of 32 or equals the row count, so two ranges never share a membership word.", "quantifier": "all tile sizes, entry lists, thread counts", "why_tests_cant": "all inputs to a load balancing heuristic", "anchors": ["include/GMDP/matrices/DCSCTile.h: static_partition"]}
{"id": "C30", "title": "Tile multiplication equals the sequential reduction under every thread schedule", "statement": "For every tile, message vector, accumulator and schedule of the parallel loop, the result is the same and equals folding process_message/reduce over the entries whose column has a message, starting from the accumulator; entries outside are unchanged.", "quantifier": "all tiles, inputs and interleavings of the worker threads", "why_tests_cant": "all interleavings", "anchors": ["include/GMDP/singlenode/spmspv.h: my_spmspv, mult_segment", "include/GMDP/singlenode/spmspv3.h"]}
{"id": "C31", "title": "Column look-ahead stays in bounds only when enough columns follow", "statement": "The multiplication and edge-apply kernels read a column index up to four positions ahead for prefetching; the read stays inside the column array iff at least four more column slots follow; for the last columns of the last thread range it reads up to three elements past the end of the array, and this never affects results.", "quantifier": "all tiles and message vectors", "why_tests_cant": "out of bounds reads are not observable by testing results", "anchors": ["include/GMDP/singlenode/spmspv.h:59", "include/GMDP/singlenode/spmspv3.h:58", "include/GMDP/singlenode/applyedges.h:58"]}
{"id": "C32", "title": "Tile serialization round trip", "statement": "Saving a tile to an archive and loading it gives a tile with the same entries, dimensions and thread ranges for every tile (empty tiles included).", "quantifier": "all tiles", "why_tests_cant": "all contents including empty", "anchors": ["include/GMDP/matrices/DCSCTile.h: save, load"]}
{"id": "C33", "title": "Reported edge count is exact modulo 2^32", "statement": "SpMat::getNNZ sums 64-bit per-rank edge counts through a 32-bit integer reduction, so each rank gets the high 32 bits of its own count and the low 32 bits of the total: the result agrees with the true number of edges modulo 2^32, equals it when the total is below 2^32 or there is a single rank, and with several ranks and 2^32 edges or more it can be wrong on every rank.", "quantifier": "all graphs and rank counts", "why_tests_cant": "needs graphs too large to test and little-endian partial word updates", "anchors": ["include/GMDP/matrices/SpMat.h: getNNZ", "include/Graph.h: nnz"]}
{"id": "C34", "title": "Rank to tile assignment is total and balanced by a factorization", "statement": "The tile-to-rank maps return a rank in 0..ranks-1 for every tile; the two-factor split used by the 2D maps satisfies rows*cols = ranks and terminates for every ranks >= 1.", "quantifier": "all rank counts and tiles", "why_tests_cant": "number theoretic loop over all integers", "anchors": ["include/GMDP/matrices/layouts.h: factorize_int, partition_fn_2d, partition_fn_1d, vector_partition_fn, get_fn_and_tiles"]}
{"id": "C35", "title": "Message exchange between ranks cannot deadlock", "statement": "For every assignment of tiles to ranks, the order in which ranks issue blocking count sends and receives in the broadcast and reduce phases of a superstep, even with fully synchronous sends, always lets every rank finish, and every receive is matched with the send for the same segment.", "quantifier": "all rank counts, tile assignments and schedules", "why_tests_cant": "all schedules; synchronous mode depends on the MPI library", "anchors": ["include/GMDP/multinode/spmspv.h", "include/GMDP/multinode/spmspv3.h", "include/GMDP/multinode/applyedges.h", "include/GMDP/matrices/SpMat.h: get_row_ranks"]}
{"id": "C36", "title": "remove_selfedges keeps exactly the non-loop edges in order", "statement": "remove_selfedges leaves exactly the edges with different endpoints, in their original order with weights, and the dimensions unchanged.", "quantifier": "all edge lists", "why_tests_cant": "all lists", "anchors": ["include/GMDP/utils/edgelist_transformation.h: remove_selfedges"]}
{"id": "C37", "title": "remove_duplicate_edges keeps one edge per endpoint pair globally", "statement": "After remove_duplicate_edges on any number of ranks, over all ranks together there is exactly one edge for each (source, destination) pair that was present, its weight is one of the weights supplied for that pair, and no other pair appears; which weight is kept is not determined by the input.", "quantifier": "all edge lists, distributions, rank/thread counts, sort outcomes", "why_tests_cant": "all distributions and unstable sort outcomes", "anchors": ["include/GMDP/utils/edgelist_transformation.h: remove_duplicate_edges, remove_duplicate_edges_local, shuffle_edges"]}
{"id": "C38", "title": "create_bidirectional_edges doubles every edge", "statement": "The result contains for each input edge the edge followed by its reverse with the same weight, nothing else.", "quantifier": "all edge lists", "why_tests_cant": "all lists", "anchors": ["include/GMDP/utils/edgelist_transformation.h: create_bidirectional_edges"]}
{"id": "C39", "title": "convert_to_dag yields an acyclic graph once self loops are removed", "statement": "convert_to_dag keeps the number of edges, weights and unordered endpoint pairs, afterwards source <= destination for each edge, and with no self loops the result has no directed cycle.", "quantifier": "all edge lists", "why_tests_cant": "acyclicity over all paths", "anchors": ["include/GMDP/utils/edgelist_transformation.h: convert_to_dag"]}
{"id": "C40", "title": "shuffle_edges redistributes without loss", "statement": "shuffle_edges keeps the global edge multiset, and afterwards each edge lives on the rank equal to (source-1) mod ranks, for every thread count and distribution; no scratch slot is written twice.", "quantifier": "all edge lists with positive ids, distributions, rank and thread counts", "why_tests_cant": "all distributions and thread interleavings", "anchors": ["include/GMDP/utils/edgelist_transformation.h: shuffle_edges"]}
{"id": "C41", "title": "filter_edges keeps exactly the edges the predicate accepts", "statement": "filter_edges returns the accepted edges in order, the same dimensions, and leaves the input unchanged.", "quantifier": "all edge lists and predicates", "why_tests_cant": "all predicates", "anchors": ["include/GMDP/utils/edgelist_transformation.h: filter_edges"]}
{"id": "C42", "title": "random_edge_weights range", "statement": "Every weight produced for an integer range r >= 1 lies in [1,r] before conversion to the weight type, endpoints are unchanged, and the upper bound r itself is reachable (so the documented half-open range [1,r) is not what is produced).", "quantifier": "all edge lists, ranges and random sequences", "why_tests_cant": "all random sequences", "anchors": ["include/GMDP/utils/edgelist_transformation.h: random_edge_weights", "src/graph_converter.cpp"]}
{"id": "C43", "title": "randomize_edgelist_square applies one permutation of the vertex ids", "statement": "For every sequence of random numbers, all endpoints on all ranks are renamed by the same permutation of 1..m; weights and edge count are unchanged, so the graph is isomorphic to the input.", "quantifier": "all random sequences, edge lists, rank counts", "why_tests_cant": "all random sequences", "anchors": ["include/GMDP/utils/edgelist.h: randomize_edgelist_square"]}
{"id": "C44", "title": "remove_empty_columns compacts destinations order-preservingly", "statement": "After remove_empty_columns destinations are renumbered 1..k where k is the number of distinct destinations, order preserving, sources and weights unchanged, and the returned index array gives the original id of each new column.", "quantifier": "all edge lists with destinations in 1..n", "why_tests_cant": "all lists", "anchors": ["include/GMDP/utils/edgelist.h: remove_empty_columns"]}
{"id": "C45", "title": "filter_edges_by_row keeps exactly the selected row range, shifted", "statement": "filter_edges_by_row(s,e) leaves exactly the edges with s < source <= e in order with source reduced by s and sets the row count to e-s.", "quantifier": "all edge lists and ranges", "why_tests_cant": "in-place compaction over all lists", "anchors": ["include/GMDP/utils/edgelist.h: filter_edges_by_row"]}
{"id": "C46", "title": "Binary edge files round trip", "statement": "write_edgelist then load_edgelist in binary format with the same flags restores the same edges in order per file; with header the dimensions are restored, without header they become the maximal ids; without weights every weight becomes 1; files i with i = rank mod ranks are read by that rank up to the first missing one.", "quantifier": "all edge lists with 32-bit ids, flags, rank counts", "why_tests_cant": "all contents and flag combinations", "anchors": ["include/GMDP/utils/edgelist.h: write_edgelist, load_edgelist, readLine, writeLine, get_maxid_and_nnz"]}
{"id": "C47", "title": "Text edge files round trip; a last line without newline may be lost or overflow", "statement": "In text format the round trip also restores every edge of files produced by write_edgelist (int or unsigned weights, or none). A last line without trailing newline is kept if the files have (correct) headers and the file is the last one its rank reads. In a file its rank reads before further lines the edge is lost, and with headers the list then counts one uninitialised edge. Without headers, in the last file of a rank, the edge is stored past the end of the buffer.", "quantifier": "all edge lists with integer weights; all files with and without final newline, all rank counts", "why_tests_cant": "all contents", "anchors": ["include/GMDP/utils/edgelist.h: readLine, writeLine, load_edgelist"]}
{"id": "C48", "title": "A header that disagrees with the file content breaks the load", "statement": "load_edgelist trusts the header count: if a file has more edges than its header claims the loader writes past the end of the edge buffer, if fewer the tail of the edge list is uninitialized and is counted as edges; it is safe exactly when the total of header counts equals the number of edges read.", "quantifier": "all files and headers", "why_tests_cant": "memory-safety of malformed inputs", "anchors": ["include/GMDP/utils/edgelist.h: load_edgelist, get_maxid_and_nnz"]}
{"id": "C49", "title": "Border searches return the extreme positions", "statement": "On a sorted array, the left (right) border search over the whole array returns the index of the first (last) occurrence of the value and -1 if absent, never indexing out of bounds, and terminates.", "quantifier": "all sorted arrays, values", "why_tests_cant": "all arrays", "anchors": ["include/GMDP/utils/binary_search.h: binary_search_left_border, binary_search_right_border"]}
{"id": "C50", "title": "l_binary_search depends on memory past the end", "statement": "On a sorted array of length end, l_binary_search returns the first position whose element is >= item provided the element just past the end compares >= item; it reads that past-the-end element for some inputs and, when it compares < item, can return end although an earlier position is correct.", "quantifier": "all sorted arrays, items and values of the word past the end", "why_tests_cant": "out-of-bounds content", "anchors": ["include/GMDP/utils/binary_search.h: l_binary_search", "include/GMDP/matrices/COOTile.h"]}
{"id": "C51", "title": "l_linear_search returns the first position not below the item", "statement": "On a sorted nonempty array searched from 0, l_linear_search returns the first index whose element is >= item, or the length if none, reading only in-bounds elements; on an empty array it reads out of bounds.", "quantifier": "all sorted arrays and items", "why_tests_cant": "all arrays", "anchors": ["include/GMDP/utils/binary_search.h: l_linear_search", "include/GMDP/matrices/COOSIMD32Tile.h"]}
{"id": "C52", "title": "BFS computes hop distances", "statement": "After the BFS program run to convergence from a source, the depth of every vertex equals its hop distance from the source in the loaded graph (infinity marker if unreachable) and every reached vertex other than the source has a parent that is an in-neighbour exactly one hop closer; the source and the unreached vertices keep the marker 2^64 - 1 as parent.", "quantifier": "all graphs and sources", "why_tests_cant": "all graphs", "anchors": ["src/BFS.cpp", "include/GraphMatRuntime.h"]}
{"id": "C53", "title": "SSSP computes shortest path lengths when no addition overflows", "statement": "After the SSSP program run to convergence, the distance of every vertex equals the minimum weight of a path from the source (infinity marker if unreachable), provided every path-weight sum that arises stays below the 32-bit infinity marker; it terminates for all nonnegative weights.", "quantifier": "all graphs with nonnegative 32-bit weights and sources", "why_tests_cant": "all graphs, termination", "anchors": ["src/SSSP.cpp", "include/GraphMatRuntime.h"]}
{"id": "C54", "title": "SSSP wraps around silently on large weights", "statement": "Whatever the weights, the SSSP program ends, and each reported distance other than 2^32-1 is the weight modulo 2^32 of some path. When a distance plus an edge weight exceeds 2^32-1, the sum wraps and the reported distance can be smaller than the weight of every path: wherever all paths to a vertex weigh the same, 2^32 or more, it is.", "quantifier": "all graphs, sources and integer weights", "why_tests_cant": "needs adversarial weights; concerns modular arithmetic", "anchors": ["src/SSSP.cpp: process_message"]}
{"id": "C55", "title": "TopologicalSort orders every DAG edge forward", "statement": "On an acyclic graph the topological sort program terminates with every vertex assigned a level and for every edge (u,v) the level of u is smaller than that of v; on a graph with a cycle the vertices on or reachable from cycles never get a level, yet it terminates.", "quantifier": "all graphs", "why_tests_cant": "all graphs, termination", "anchors": ["src/TopologicalSort.cpp", "include/GraphMatRuntime.h"]}
{"id": "C56", "title": "Triangle counting counts every triangle of an oriented graph once", "statement": "For a graph with at most one edge from any vertex to any other (in particular a graph oriented u<v without duplicates) and fewer than 2^31 triangles, the reported count equals the number of triples (a,b,c) with edges a->b, b->c, a->c. On any graph each edge a->b counts, for each c, the smaller of the numbers of parallel edges a->c and b->c; a vertex holds its count modulo 2^32 as a signed number, every rank reports their sum modulo 2^64, and below 2^63 the reported number is right exactly if no single vertex has a count of 2^31 or more. Deviation: on three vertices with 2^17 edges that close 2^31 triangles the program reports 2^64 - 2^31.", "quantifier": "all graphs, with parallel edges and self loops", "why_tests_cant": "all graphs", "anchors": ["src/TriangleCounting.cpp", "include/GraphMatRuntime.h"]}
{"id": "C57", "title": "PageRank step formula", "statement": "Each PageRank superstep gives every vertex with an in-edge alpha+(1-alpha)*sum of value/outdegree over its in-neighbours (per parallel edge), and leaves every vertex without in-edges at its old value; the sum is over exactly the in-edges whatever the partitioning. With exact arithmetic and the start value alpha the program stops after k supersteps once (1-alpha)^k*n*alpha is at most the tolerance, and its ranks differ from the solution of the PageRank equation by at most (1-alpha)/alpha*n*tolerance in total.", "quantifier": "all graphs, rational/real valued ranks (exact arithmetic)", "why_tests_cant": "all graphs; floats are abstracted to exact arithmetic", "anchors": ["src/PageRank.cpp", "include/GraphMatRuntime.h"]}
{"id": "C58", "title": "DeltaStepping returns shortest path lengths", "statement": "With non-negative weights, when along every path without repeated vertices followed by one more edge the sum stays below 2^32-1 and below delta*(2^31-1), the delta stepping program ends with exact distances and reports the number of reachable vertices; when a distance divided by delta reaches 2^31-1, reachable vertices can be reported as unreachable although no sum overflows. For any weights and any delta but 0 it ends, and each distance it reports is the weight modulo 2^32 of some walk from the source; with a negative weight it can miss vertices although no walk weighs less than 0.", "quantifier": "all graphs, all weights, deltas other than 0, sources", "why_tests_cant": "all graphs, phases", "anchors": ["src/DeltaStepping.cpp", "include/GraphMatRuntime.h"]}
{"id": "C59", "title": "Degree programs count incident edges", "statement": "The degree programs leave in each vertex the number of its out-edges (or in-edges) counting parallel edges; vertices without such edges keep the initial value.", "quantifier": "all graphs", "why_tests_cant": "all graphs", "anchors": ["src/PageRank.cpp: Degree", "src/TopologicalSort.cpp: InDegree", "include/GraphMatRuntime.h"]}
{"id": "C60", "title": "graph_converter pipeline", "statement": "The converter applies, in order, the selected transformations and writes edge files whose content is the composed transformation of the input; option combinations rejected by validation never write output; the option documented as creating unit weights writes the original weights.", "quantifier": "all edge lists and option combinations", "why_tests_cant": "all option combinations", "anchors": ["src/graph_converter.cpp: process_graph, validateOptions"]}
{"id": "C61", "title": "Alternative tile formats preserve entries", "statement": "Constructing COO, CSR, DCSR, COOSIMD32 and Hybrid tiles from any in-range entry list and exporting the edges gives a permutation of the input entries (Hybrid: from any non-empty list; its constructor uses an uninitialised pointer for an empty one). Hybrid tiles keep rows with 16 entries or more in the first part, the others in the second. Each partition of a COOSIMD32 tile begins with groups of 32 entries, no two of a group in the same block of 32 rows. The DCSR constructor reads one element past an array's end when the tile has few non-empty rows; the value found does not matter.", "quantifier": "all entry lists, thread counts", "why_tests_cant": "all lists", "anchors": ["include/GMDP/matrices/COOTile.h", "include/GMDP/matrices/CSRTile.h", "include/GMDP/matrices/DCSRTile.h", "include/GMDP/matrices/COOSIMD32Tile.h", "include/GMDP/matrices/HybridTile.h"]}
{"id": "C62", "title": "Program state is not needed by the engine: a rerun on an unchanged program and graph repeats exactly", "statement": "Two runs of run_graph_program started from the same vertex properties, active set and program object give the same number of supersteps, final vertex properties and active set, whether or not the temporary structure of an earlier run is passed in, provided send_message writes the message without reading its old content and the active set was set through the activity API (or the program is ALL_VERTICES). Without that proviso the leftover messages of an earlier run are visible.", "quantifier": "all programs, graphs, active sets obtained from the activity API after a reset or setAll call, and all contents of the temporary structure", "why_tests_cant": "depends on stale buffer contents left by arbitrary earlier runs", "anchors": ["include/GraphMatRuntime.h: graph_program_init, run_graph_program"]}
{"id": "C63", "title": "Reductions that are not commutative or associative still use every message once", "statement": "With an arbitrary reduce_function, the value passed to apply for a vertex in a superstep is obtained from exactly the processed messages that arrive at it, each used once, combined two at a time in some order and grouping; apply is not called if none arrive. If the operation always returns one of its operands the applied value is one of the arriving messages; if it is commutative and associative the value is unique.", "quantifier": "all reduce functions, programs, graphs, call histories, rank and thread counts", "why_tests_cant": "the grouping depends on threads, tiles and ranks, and the messages on the whole history", "anchors": ["include/GraphMatRuntime.h: run_graph_program", "include/GMDP/multinode/spmspv.h: SpMSpV", "include/GMDP/multinode/spmspv3.h: SpMSpV3", "include/GMDP/singlenode/unionreduce.h"]}
{"id": "C64", "title": "Setting entries of one vector from several threads at once", "statement": "Calls that set different entries of one local vector segment (setActive, setVertexproperty), issued at the same time by different threads, all take effect on every schedule and touch nothing else when their presence bits lie in different 32-bit words. When two of them share a word, some schedule leaves one of the entries absent although the stored count includes it. The topological sort program activates its start vertices from such a parallel loop: there is a schedule on which it reports a vertex of an acyclic graph as unreachable.", "quantifier": "all segments, sets of entries and thread schedules", "why_tests_cant": "depends on the interleaving of the word updates", "anchors": ["src/TopologicalSort.cpp: run_topsort", "include/GMDP/vectors/DenseSegment.h: set", "include/GMDP/utils/bitvector.h: set_bitvector"]}
{"id": "C65", "title": "Text files of other weight types cannot be loaded", "statement": "For a weight type other than int, unsigned int, float and double, write_edgelist in text format with weights writes the header and no edges, and load_edgelist of text files with header and weights never returns, whatever the files contain.", "quantifier": "all files, edge lists and rank counts", "why_tests_cant": "non-termination is not observable by a test", "anchors": ["include/GMDP/utils/edgelist.h: readLine, writeLine, load_edgelist"]}
{"id": "C66", "title": "Multiplication with the alternative tile formats", "statement": "Multiplying a COO, CSR, DCSR, COOSIMD32 or Hybrid tile with a segment of messages adds the product of every entry whose column has a message exactly once to the entry's row, touches no other row, and gives the same segment on every schedule of the threads; CSR tiles may be multiplied with another number of threads than they were built with. Deviations: a COO tile with one entry never uses it if the word behind its array of rows is below 1; the variant that passes vertex properties uses an uninitialised partition count on a COO tile without entries.", "quantifier": "all entry lists, tile sizes and offsets, message segments, operators, thread counts and thread schedules", "why_tests_cant": "depends on the interleaving of threads and on memory contents past an array", "anchors": ["include/GMDP/singlenode/spmspv.h: my_csrspmspv, my_coospmspv, my_dcsrspmspv, mult_segment", "include/GMDP/singlenode/spmspv3.h: my_coospmspv3, mult_segment3"]}
{"id": "C67", "title": "Archives of the alternative tile formats", "statement": "Saving a CSR tile, or a COO tile with entries, to an archive and loading it gives the same tile. An archive of a COOSIMD32 tile contains an integer that was never set; the loaded tile exports the same entries and multiplies the same. Deviations: archives of COO and DCSR tiles without entries contain integers that were never set; saving a DCSR tile reads past the end of its row pointers if some row has no entry, and if none is empty the loaded tile has its entries but cannot be multiplied; a Hybrid tile survives an archive only if no row has 16 entries or more.", "quantifier": "all entry lists, tile sizes and offsets, thread counts, archive continuations and contents of unset integers", "why_tests_cant": "all tiles; depends on uninitialised memory", "anchors": ["include/GMDP/matrices/COOTile.h: save, load", "include/GMDP/matrices/CSRTile.h: save, load", "include/GMDP/matrices/DCSRTile.h: save, load", "include/GMDP/matrices/COOSIMD32Tile.h: save, load", "include/GMDP/matrices/HybridTile.h: serialize"]}
{"id": "C68", "title": "IncrementalPageRank solves the PageRank equation", "statement": "For every graph the incremental PageRank program (with real instead of floating point arithmetic) stops, after at most 1 + n*start/(alpha*eps) supersteps. Every vertex then holds its out-degree and a rank; a vertex without in-edges has exactly the start rank; at every vertex the rank differs by at most eps (1e-8) from start + (1-alpha) * the sum of rank/out-degree over its in-edges. Hence the ranks differ from the exact solution by at most n*eps/alpha in total.", "quantifier": "all graphs with fewer than 2^31 edges, parameters 0 < alpha <= 1 and 0 < eps < |start|, rank and thread counts, partitionings and serialisations", "why_tests_cant": "termination and an error bound for all graphs; the program drops changes below eps, so their accumulation has to be bounded", "anchors": ["src/IncrementalPageRank.cpp: DeltaPageRank, Degree, run_pagerank"]}
{"id": "C69", "title": "SGD performs gradient descent steps and reports the squared error", "statement": "The matrix factorisation program (with real instead of floating point arithmetic) moves all vertices at once by the given number of steps: the vector of a vertex with edges changes by step * (sum over its edge ends of (weight - product of the two vectors) * the other end's vector - lambda * its own vector), a vertex without edges keeps its vector. Parallel edges and self loops count for every end. This direction is minus half the gradient of the squared error plus lambda times the squared vectors. The errors every rank reports before and after are exactly the sums over all edges of (weight - product)^2.", "quantifier": "all graphs, vector lengths, initial vectors, lambda, step sizes, positive iteration counts, rank and thread counts, partitionings and serialisations", "why_tests_cant": "all graphs; the error is summed from values left by an earlier program run and depends on which vertices have out-edges", "anchors": ["src/SGD.cpp: SGDProgram, RMSEProgram, run_sgd"]}
{"id": "C70", "title": "LDA conserves word counts and reports the likelihood of its result", "statement": "The topic model program (with real instead of floating point arithmetic) gives every vertex the topic counts of the given number of rounds from its random start, all vertices moving at once, and every rank the log-likelihood of the result. If edges lead from documents to terms with positive weights, then after any number of rounds the counts of a vertex with edges are not negative and add up to the weights of its edges, documents and terms have the same total of every topic, no division by zero occurs, and the log-likelihood is taken of probabilities that add up to 1 over the terms of each document. Document and term numbers that do not add up to the number of vertices end the program. Deviation: the counts of terms without edges are never set but enter the totals of all topics; only if every term has an edge is the result independent of that memory.", "quantifier": "all graphs, topic numbers, random numbers, alpha >= 1, eta > 1, positive iteration counts, logarithm functions, contents of unset memory, rank and thread counts, partitionings and serialisations", "why_tests_cant": "conservation over any number of rounds on all graphs; depends on uninitialised memory", "anchors": ["src/LDA.cpp: LatentVector, LDAInitProgram, LDAProgram, LDALLProgram, IfTerm, Add, run_lda", "include/GraphMatRuntime.h: run_graph_program"]}
{"id": "C71", "title": "An archived vector loads as the same vector", "statement": "After any history of set, unset, setAll, Clear and bulk deactivation on every rank, each rank can write its part of a vector to an archive and load it, on any number of threads and whatever follows in the archive. The loaded vector has the same length, partition and owners; it goes on exactly as the saved one would have: after any further history the count and the stored values are those of both histories in sequence, and a loaded segment can be sent to another rank like the original. Deviations: a segment of a plain type that received data from a rank running more threads cannot be archived (reads past its scan arrays); the archive contains the rank number, so a loading process acts as the rank that saved.", "quantifier": "all vector lengths, partition, rank and thread counts, histories before and after, contents of unset memory and archive continuations", "why_tests_cant": "all histories; the archive contains memory that was never set", "anchors": ["include/GMDP/vectors/SpVec.h: serialize", "include/GMDP/vectors/DenseSegment.h: buffer save, load; DenseSegment save, load; send_metadata serialize", "test/test_vector_serialization.cpp"]}
{"id": "C72", "title": "Random edge directions and the dimensions of an edge list", "statement": "randomize_edge_direction keeps every edge in its place with its weight and reverses exactly those whose random number is below one half. get_dimensions gives every rank the largest source and the largest destination among all edges of all ranks (0 if there is none), however many threads share the work.", "quantifier": "all edge lists, random sequences, rank counts and distributions of the edges over threads", "why_tests_cant": "all inputs and thread distributions; random numbers", "anchors": ["include/GMDP/utils/edgelist_transformation.h: randomize_edge_direction", "include/GMDP/utils/edgelist.h: get_dimensions"]}
{"id": "C73", "title": "Edge lists give back their memory", "statement": "Whatever a caller does with any number of edge lists (reading, get_edges, removing self edges and duplicates, shuffling, making edges bidirectional, filtering, renumbering, removing empty columns, in-place changes, clear), memory handling never fails on its own: the calls succeed exactly if they succeed on plain lists, and no array is given back twice, in the wrong way or while another list uses it. After all lists are cleared exactly these arrays are still in use: one for each time the last edge of a list was removed (remove_selfedges, filter_edges, filter_edges_by_row), one for each read that found no edge, one for each read or get_edges into a list that still had edges.", "quantifier": "all histories of operations on any number of lists, all lists, all initial heaps", "why_tests_cant": "a leak or double free shows only in some histories; unit tests end before", "anchors": ["include/GMDP/utils/edgelist.h: edgelist_t, clear, load_edgelist, randomize_edgelist_square, remove_empty_columns, filter_edges_by_row", "include/GMDP/utils/edgelist_transformation.h: remove_selfedges, remove_duplicate_edges_local, shuffle_edges, create_bidirectional_edges, filter_edges", "include/GMDP/matrices/SpMat.h: get_edges", "include/GMDP/vectors/SpVec.h: get_edges"]}
{"id": "C74", "title": "Tiles and matrices give back their memory", "statement": "A DCSC, CSR, COO, COOSIMD32 or DCSR tile built from any number of edges and destroyed, a DCSC or CSR tile read from an archive and destroyed, a matrix with its transpose, and a matrix read from an archive give back exactly what they requested. Deviations: destroying a COO or COOSIMD32 tile with edges that was read from an archive gives back an array through the wrong function; destroying a DCSR tile read from an archive gives back a pointer nobody set; destroying a tile and its copy gives back the same array twice; a DCSR tile that is cleared loses five arrays; a hybrid tile never gives back its two parts.", "quantifier": "all edge counts, thread and rank counts, distributions of tiles over ranks, initial heaps", "why_tests_cant": "a wrong free can go unnoticed in a test; all histories and sizes", "anchors": ["include/GMDP/matrices/DCSCTile.h", "include/GMDP/matrices/CSRTile.h", "include/GMDP/matrices/COOTile.h", "include/GMDP/matrices/COOSIMD32Tile.h", "include/GMDP/matrices/DCSRTile.h", "include/GMDP/matrices/HybridTile.h", "include/GMDP/matrices/SpMat.h: constructors, destructor, Transpose, serialize"]}
{"id": "C75", "title": "Vectors give back their memory", "statement": "A vector, new or read from an archive, can go through any history of set, unset, setAll, compress, decompress, reset, receive, union and ingest and then be deleted: as long as segments exist and storage is used only where it was made, nothing fails, no buffer is given back twice or lost, and the blocks still in use afterwards are exactly those from before plus one for each ingest (three if the rank got no element). Without that condition the only possible failures are the assertions and null or out-of-range accesses the code has anyway; memory is never given back wrongly.", "quantifier": "all histories, vector and rank counts, archived states and initial heaps", "why_tests_cant": "buffers move between three lists and are reused; all histories", "anchors": ["include/GMDP/vectors/DenseSegment.h: buffer, alloc, compress, decompress, set_uninitialized, set_uninitialized_received, recv_segment, union_received, destructors, load", "include/GMDP/vectors/SpVec.h: constructors, destructor, ingestEdgelist, setAll"]}
{"id": "C76", "title": "Graphs and runs give back their memory", "statement": "A graph loaded once (from an edge list, a file of edges or a binary file), used in any order (properties and active set, runs with and without a workspace, saved properties, edge lists, reductions) and destroyed gives back all memory, as long as each workspace is made when there is none and cleared before the end; exactly one block stays behind if the file held no edge, and one (three if the rank writes nothing) for each saved property file. Deviation: loading a second time loses the first graph's matrices and vectors.", "quantifier": "all sequences of actions, tile distributions, rank and segment counts and initial heaps", "why_tests_cant": "all histories of a graph; leaks are invisible in tests", "anchors": ["include/Graph.h: ReadEdgelist, ReadMTX, ReadGraphMatBin, saveVertexproperty, getEdgelist, applyReduceAllVertices, destructor", "include/GraphMatRuntime.h: graph_program_init, run_graph_program, graph_program_clear", "include/GMDP/singlenode/reduce.h", "include/GMDP/multinode/reduce.h"]}
{"id": "C77", "title": "Parallel loops do the same under every schedule", "statement": "Every OpenMP loop of the library that runs in a superstep, in applyToAllVertices, applyReduceAllVertices, applyToAllEdges, setAll, sending and merging vectors, loading edges into a matrix and reading them back with any tile format, transposing, and shuffling or rewriting edge lists has one outcome: however the iterations are interleaved element access by element access, none fails or leaves the arrays, the loop can always be carried on to its end, and the arrays it leaves are those of the loop run in order. Counts and the convergence flag that are combined by an OpenMP reduction are the same however the reduction is split up and ordered.", "quantifier": "all interleavings of single accesses of all iterations, all inputs on which the loop run in order succeeds, all thread counts, contents of unset memory and splittings of a reduction", "why_tests_cant": "data races depend on the schedule; a test sees one schedule", "anchors": ["include/GraphMatRuntime.h: run_graph_program", "include/GMDP/singlenode/intersectreduce.h", "include/GMDP/singlenode/apply.h", "include/GMDP/singlenode/reduce.h", "include/GMDP/singlenode/unionreduce.h", "include/GMDP/singlenode/applyedges.h", "include/GMDP/vectors/DenseSegment.h: setAll, compress, decompress", "include/GMDP/matrices/DCSCTile.h", "include/GMDP/matrices/COOTile.h", "include/GMDP/matrices/CSRTile.h", "include/GMDP/matrices/DCSRTile.h", "include/GMDP/matrices/COOSIMD32Tile.h", "include/GMDP/matrices/HybridTile.h", "include/GMDP/matrices/SpMat.h: ingestEdgelist, Transpose", "include/Graph.h: ReadEdgelist", "include/GMDP/utils/edgelist.h", "include/GMDP/utils/edgelist_transformation.h: shuffle_edges"]}
{"id": "C78", "title": "Sizes up to which 32-bit integers suffice", "statement": "All index arithmetic is done in 32-bit ints. Vertex renumbering never overflows, for any number of vertices an int can hold. Segment and tile boundaries do not overflow as long as the number of vertices plus 256 per segment fits (one more can overflow), tile numbers as long as the number of tiles fits, the division of rows, words and elements among threads as long as rows plus 64 resp. words plus partitions fit, word loops up to 2^31 - 32 elements (one more overflows), the column index of a tile as long as its edges plus partitions fit, create_bidirectional_edges exactly up to 2^30 - 1 edges. Deviations: with more than one rank a graph reports the right number of edges only if its own number and the total agree in the upper 32 bits (so never from 2^32 edges on if no rank has that many); a vector segment is sent correctly exactly if its bytes fit an int (otherwise fewer or a negative number of bytes is sent), likewise the messages of a vector load.", "quantifier": "all sizes, thread, rank and tile counts", "why_tests_cant": "limits are far beyond what a test can allocate", "anchors": ["include/Graph.h: vertexToNative, nativeToVertex", "include/GMDP/vectors/SpVec.h: SpVec, ingestEdgelist", "include/GMDP/matrices/SpMat.h: Allocate2DPartitioned, getPartition, getNNZ", "include/GMDP/matrices/DCSCTile.h: static_partition, constructor", "include/GMDP/vectors/DenseSegment.h: compress, send_segment", "include/GMDP/singlenode/reduce.h", "include/GMDP/utils/edgelist_transformation.h: create_bidirectional_edges"]}
{"id": "C79", "title": "PageRank in single precision is close to the exact ranks", "statement": "PageRank computes in IEEE single precision, adding the contributions of the in-edges in an order that depends on the number of ranks, threads and tiles. Whatever the order in each superstep: one step at a vertex with k in-edges changes the exact new rank by a factor of at most (1 + 2^-24)^(k+3); if all in-degrees are at most D <= 2^20 and the program stops, no rank is infinite, NaN or not positive, and the differences between the ranks and any x that solves the PageRank equation up to e at each vertex add up to at most n/alpha * ((1-alpha) * 1.00001e-5 + e + 9*(D+3)/2^26). The same holds, with its own constants, for any arithmetic whose operations have a bounded relative error. Deviation: the same program on the same edges can compute different ranks on different numbers of ranks and threads.", "quantifier": "all graphs with fewer than 2^31 vertices and edges and in-degrees up to 2^20, all orders of the additions in each superstep, all machines", "why_tests_cant": "rounding errors of all inputs and all orders of additions; a test compares a few graphs with a tolerance", "anchors": ["src/PageRank.cpp", "include/GraphMatRuntime.h: run_graph_program", "include/GMDP/singlenode/spmspv.h", "include/GMDP/multinode/spmspv.h"]}
{"id": "C80", "title": "The order in which messages are combined is fixed by the loaded graph", "statement": "For a reduction that is not associative, such as a sum of floating-point numbers, the result depends on the order in which the arriving messages are combined. A loaded graph has one such order for each direction and each vertex, and it uses every arriving message once. Every program and every later history of calls that leaves the edges alone follows it, whatever the number of threads and the contents of uninitialised memory. Hence the same calls on the same graph, also again after reset, give the same properties, and two runs of a program take the same number of supersteps and leave the same program object and properties, exactly and not only up to rounding. Deviation: on another number of ranks the same edges can be combined in another order and give another result.", "quantifier": "all machines, edge lists, earlier histories, programs and reductions, later histories that do not change edges, thread counts and contents of uninitialised memory", "why_tests_cant": "depends on all thread counts and histories; with floating point a test usually compares with a tolerance", "anchors": ["include/GraphMatRuntime.h: run_graph_program", "include/GMDP/singlenode/spmspv.h", "include/GMDP/multinode/spmspv.h", "include/GMDP/singlenode/spmspv3.h", "include/GMDP/multinode/spmspv3.h", "include/Graph.h: reset, setAllActive, setActive, setVertexproperty"]}
{"id": "C81", "title": "PageRank in single precision stops", "statement": "PageRank follows one order of additions at each vertex in all its supersteps, so the ranks are a function of that order. In single precision, on any graph with in-degrees up to 2^20, it stops after at most 170002 * n + 1 supersteps, whatever the order: no rank ever falls, every superstep but the last raises the total of the ranks by at least 9.9999e-6, and the total stays below 2n. When it stops no rank is infinite, NaN or below alpha, and the bound of C79 on the distance to the exact ranks holds. The same, with its own constants, for any arithmetic with bounded relative errors that does not reverse the order of two numbers.", "quantifier": "all graphs with fewer than 2^31 vertices and edges and in-degrees up to 2^20, all machines, thread counts and contents of uninitialised memory", "why_tests_cant": "a run that goes on for ever because of rounding cannot be excluded by running it", "anchors": ["src/PageRank.cpp", "include/GraphMatRuntime.h: run_graph_program", "include/GMDP/singlenode/spmspv.h", "include/GMDP/multinode/spmspv.h"]}
{"id": "C82", "title": "IncrementalPageRank in double precision stops and nearly solves the equation", "statement": "IncrementalPageRank computes in IEEE double precision, adding the contributions of the in-edges in an order that may differ in each superstep. On any graph with fewer than 2^31 vertices and edges it stops, after at most 400000005 * n + 1 supersteps. Each vertex then holds its out-degree and a rank that is finite and not below the double nearest to 0.3; a vertex without in-edges has exactly that rank. A rank exceeds what the PageRank equation asks for, given the other ranks, at most by the factor (1 + 2^-53)^(D+4+3K) for in-degrees up to D and K supersteps; it falls short of it by at most that factor, 1e-8, and what the forgotten raises of its in-neighbours would have contributed: raises above 1e-8 that were added to a rank but not sent on, because the rounded ranks differ by no more than 1e-8. There are at most K of them at a vertex, each at most about 1e-8 plus 2^-53 times the rank. Deviation: because of them the equation can fail by more than 1e-7 at a vertex, ten times the tolerance of the program.", "quantifier": "all graphs with fewer than 2^31 vertices and edges, all orders of the additions in each superstep, all machines", "why_tests_cant": "termination and rounding errors for all inputs and all orders of additions; the forgotten raises need a rank that rounds just so", "anchors": ["src/IncrementalPageRank.cpp", "include/GraphMatRuntime.h: run_graph_program", "include/GMDP/singlenode/spmspv.h", "include/GMDP/multinode/spmspv.h"]}
{"id": "C83", "title": "Edge files of which only the first bytes were written", "statement": "A program writing an edge list may die at any moment, leaving any first part of each rank's file, or no file. Loading binary files afterwards: if a file ends inside its header the load stops with an assertion. If all headers are complete, the load succeeds: every rank counts as many edges as the headers announce, gets those that are in its files completely, in order, and for each lost one an uninitialised element at the end. Without headers the load returns exactly the complete edges, without any sign that others are missing, unless a rank meets a piece of an edge after its last complete one: then it stores past the end of its array. Text files behave likewise: cut before the third number of the header the load stops; cut later it succeeds, with the edges whose lines are complete in order (float and double weights as C84 says), and of the elements after them at most the first is set, from a torn line; a header that lost the last k digits of its count announces the count divided by 10 to the k; without headers exactly the edges with complete lines are returned, unless a digit of a torn line is left after a rank's last complete line: then the load stores past the end of the array. A cut can also change an edge: with the last two bytes missing, a weight of two digits or more comes back divided by ten, and the load looks complete.", "quantifier": "all edge lists, cuts in each file, numbers of writing and loading ranks, binary and text formats with and without header and weights", "why_tests_cant": "quantifies over all crash points of all writes", "anchors": ["include/GMDP/utils/edgelist.h: load_edgelist, write_edgelist, readLine, get_maxid_and_nnz"]}
{"id": "C84", "title": "Float and double weights through edge files", "statement": "Edges with finite float weights written to text files and loaded again, by any number of ranks, come back in the same order with the same ends. A weight comes back off by at most 10^-8; it is unchanged if its magnitude is 1/8 or more, or if 8 decimals express it; it becomes 0, with its sign, if it is below half of 10^-8; weights keep their order, though different ones may become equal. Writing the loaded edges again gives the same files byte for byte. With double weights the same holds with 15 decimals and unchanged from 8 on. Through binary files every float and double, infinities included, comes back exactly.", "quantifier": "all edge lists, all finite weights (all weights for binary files), numbers of writing and loading ranks, formats with and without header", "why_tests_cant": "ranges over all floating point numbers and all lists; decimal rounding has rare worst cases", "anchors": ["include/GMDP/utils/edgelist.h: readLine, writeLine, load_edgelist, write_edgelist"]}
{"id": "C85", "title": "GraphMat's binary files after an interrupted save", "statement": "A save by WriteGraphMatBin may die at any moment, leaving any first part of each rank's file, or no file. If at least one file is not complete, ReadGraphMatBin afterwards never yields a graph, with any numbers of ranks and threads: the rank that reads an incomplete or missing file fails, whatever the other files are. Deviation: a save over an older one can also leave complete files of both. If the two graphs have as many vertices, and were saved and are loaded with the same ranks and threads, then these files are loaded together without any sign of it: each pair of vertices has a rank, and the edges between them come from the save whose file that rank has; the transposed matrix goes by the rank of the reversed pair, so that the graph loaded can be neither of the two saved and can have different edges in its two matrices.", "quantifier": "all graphs reached by any calls, all cuts in each file, all choices of files from two saves, numbers of ranks and threads", "why_tests_cant": "quantifies over all crash points of all saves", "anchors": ["include/Graph.h: ReadGraphMatBin, WriteGraphMatBin", "include/GMDP/matrices/SpMat.h: serialize", "include/GMDP/matrices/DCSCTile.h: load, save"]}
{"id": "C86", "title": "Archives of tiles and vectors that are cut short are refused", "statement": "An archive of a tile, in any of the six formats, or of a rank's part of a vector after any history, of which the end is missing never loads: whatever is kept of it, loading fails instead of giving a tile or vector with fewer elements.", "quantifier": "all entry lists, tile sizes and offsets, vector histories, thread counts and cuts", "why_tests_cant": "quantifies over all cuts of all archives", "anchors": ["include/GMDP/matrices/DCSCTile.h: load, save", "include/GMDP/matrices/CSRTile.h: load, save", "include/GMDP/matrices/COOTile.h: load, save", "include/GMDP/matrices/DCSRTile.h: load, save", "include/GMDP/matrices/COOSIMD32Tile.h: load, save", "include/GMDP/matrices/HybridTile.h: serialize", "include/GMDP/vectors/DenseSegment.h: load, save", "include/GMDP/vectors/SpVec.h: serialize"]}
{"id": "C87", "title": "What the programs print about a graph in edge files", "statement": "The programs BFS, SSSP, DeltaStepping, TopologicalSort and TriangleCounting, given edge files in the binary format with header (any number of files, numbers that fit an int, vertices from 1 to n, where n is the largest dimension in any header), print the following, with any number of ranks and threads. BFS: on rank 0 how many vertices can be reached from the source; for each vertex up to 10 its number, the number of edges of a shortest path and a vertex before it on such a path, -1 for the source, or INF if it cannot be reached. SSSP, for weights that are not negative and whose sums along paths stay below 2^32 - 1: the same count and for each vertex up to 25 the distance or INF. DeltaStepping, for the weights for which it works (C58), prints the same and on rank 0 the number of buckets, which is one more than the largest distance divided by delta, rounded down. Deviation: it needs the largest number of rows in a header to be the largest number of columns; otherwise it always fails, where the other programs work. TopologicalSort: only, on rank 0, that the graph has cycles, if it has; otherwise for each vertex up to 10 the number of edges of a longest path that ends there. TriangleCounting, without repeated edges and with fewer than 2^31 triangles: on rank 0 their number, and for each vertex up to 10 the number of those with the vertex in the middle. Each vertex has one rank that prints its line; each rank prints its lines in increasing order of the vertices; all numbers are in decimal notation.", "quantifier": "all sets of edge files, sources, numbers of ranks and threads", "why_tests_cant": "end to end for all inputs, from bytes of files to characters of the output", "anchors": ["src/BFS.cpp: run_bfs", "src/SSSP.cpp: run_sssp", "src/DeltaStepping.cpp: run_deltastepping", "src/TopologicalSort.cpp: run_topsort", "src/TriangleCounting.cpp: run_triangle_counting", "include/Graph.h: ReadMTX, vertexNodeOwner, getVertexproperty"]}
{"id": "C88", "title": "What PageRank and IncrementalPageRank print about a graph in edge files", "statement": "Given edge files as in C87, both programs stop, and for each vertex up to 25 one rank prints a line with the vertex, its out-degree and its rank with six decimals; each rank prints its lines in increasing order. PageRank, for in-degrees up to D <= 2^20: no printed rank is below 0.300000, and for every x that solves the PageRank equation up to e at each vertex, the differences between the ranks as printed and x add up to at most n/alpha * ((1-alpha) * 1.00001e-5 + e + 9*(D+3)/2^26 + alpha * 5e-7), over all vertices. IncrementalPageRank, on every graph with fewer than 2^31 vertices and edges: the printed rank is within 5e-7 of one that nearly solves the equation in the sense of C82; a vertex without in-edges has 0.300000.", "quantifier": "all sets of edge files, numbers of ranks and threads, contents of uninitialised memory", "why_tests_cant": "end to end for all inputs, from bytes of files to characters of the output, including all roundings", "anchors": ["src/PageRank.cpp: run_pagerank", "src/IncrementalPageRank.cpp: run_pagerank", "include/Graph.h: ReadMTX, vertexNodeOwner, getVertexproperty"]}
{"id": "C89", "title": "The command line of graph_converter", "statement": "Options and the names of the two files may come in any order. An option with a value can be given as --name value, --name=value, or, if it has a letter, -l value or -lvalue; values are int numbers in decimal notation without leading zeros; --uppertriangular, --bidirectional and --randomizeID take no value; after -- all arguments are names of files. With exactly two names, the conversion of C60 runs from the first to the second, with the last value given to each option and its default if none is given, provided these options are acceptable; if they are not, nothing is read or written. With fewer or more names, or after --help, the help is printed and nothing else happens. Letters that are no options, and values given with = to options that take none, are left out with a message. Deviations: -h needs another argument after it and is ignored without one; a long option that is not spelled out, or does not exist, reads past the end of the table of options; -p, the letter for --split, reads through a null pointer; a value that does not begin like a number is ignored silently, as is an option at the end without its value; a number with a leading 0 is read as octal.", "quantifier": "all lists of arguments of that form, all names and values", "why_tests_cant": "quantifies over all command lines", "anchors": ["src/graph_converter.cpp: main, initOptions, validateOptions"]}
{"id": "C90", "title": "The arguments of the programs, and a source that is no vertex", "statement": "BFS, SSSP, DeltaStepping, TopologicalSort, TriangleCounting, PageRank and IncrementalPageRank, with fewer arguments than they need, print on every rank how they are used, and do nothing else. Otherwise they run (C87, C88) on the files of the first argument; the source, and for DeltaStepping the width before it, are read as decimal numbers, and what follows the number in its argument and all further arguments are ignored. With a source that is not one of the vertices 1..n, BFS, SSSP and DeltaStepping print nothing and fail, if the graph has at least 16 * threads * ranks vertices or the source is larger than n. Deviation: on a smaller graph a source from 2 - 16 * threads * ranks to 0 is taken for vertex 1 without any sign of it; as a word that is no number is read as 0, the results for vertex 1 are printed for it too.", "quantifier": "all argument lists, names, numbers that fit an int, sets of edge files, numbers of ranks and threads", "why_tests_cant": "quantifies over all arguments and graphs", "anchors": ["src/BFS.cpp: main", "src/SSSP.cpp: main", "src/DeltaStepping.cpp: main", "src/TopologicalSort.cpp: main", "src/TriangleCounting.cpp: main", "src/PageRank.cpp: main", "src/IncrementalPageRank.cpp: main", "include/Graph.h: vertexToNative, setVertexproperty, getVertexproperty", "include/GMDP/vectors/SpVec.h: getPartition, set, get"]}
{"id": "C91", "title": "Vertex numbers that do not exist", "statement": "In every graph reached by any calls, let n be its number of vertices and P = 16 * threads when it was loaded * ranks. setVertexproperty, getVertexproperty, setActive, setInactive and vertexNodeOwner with a number above n, or, if n >= P, below 1, or below 2 - P, fail; nothing is read or changed. Deviation: if n < P, the numbers from 2 - P to 0 are not refused but are taken for vertex 1: every history of calls with such numbers gives the graph, and every reading gives the value, that it gives with 1 in their place.", "quantifier": "all histories of calls including those with such numbers, all numbers, graphs, ranks and threads", "why_tests_cant": "quantifies over all histories and numbers", "anchors": ["include/Graph.h: vertexToNative, setVertexproperty, getVertexproperty, setActive, setInactive, vertexNodeOwner", "include/GMDP/vectors/SpVec.h: getPartition, set, unset, get, node_owner"]}
{"id": "C92", "title": "Edges whose vertex numbers do not exist", "statement": "ReadEdgelist with n vertices, where P = 16 * threads * ranks: if any edge on any rank has an end above n, or, if n >= P, below 1, or below 2 - P, the graph is not loaded: the call fails. Deviation: if n < P, numbers from 2 - P to 0 are not refused; the graph is the one loaded from the edges with 1 in their place, and getEdgelist then returns these. So edges counted from 0 are loaded without any sign on a small graph, with the vertices 0 and 1 merged, and refused on a larger one.", "quantifier": "all edge lists split over ranks in any way, all numbers, ranks and threads", "why_tests_cant": "quantifies over all edge lists, ranks and threads", "anchors": ["include/Graph.h: ReadEdgelist, vertexToNative, getEdgelist", "include/GMDP/matrices/SpMat.h: getPartition, ingestEdgelist"]}
{"id": "C93", "title": "Edge files with vertex numbers that do not exist", "statement": "The seven programs of C87 and C88 are given edge files as there, except that vertex numbers may be any ints; n is the largest dimension in a header and P = 16 * threads * ranks. If an edge in any file has an end above n, or, if n >= P, below 1, or below 2 - P, the program fails and prints no result. Deviation: if n < P, numbers from 2 - P to 0 are not refused; the program prints what it prints for files with 1 in their place (DeltaStepping: if the headers have as many rows as columns). So files counted from 0 are processed without any sign, with vertices 0 and 1 merged.", "quantifier": "all sets of edge files, all vertex numbers that fit an int, sources, numbers of ranks and threads", "why_tests_cant": "end to end for all inputs; small test graphs, which are below P, hide the check", "anchors": ["include/Graph.h: ReadMTX, ReadEdgelist, vertexToNative", "include/GMDP/matrices/SpMat.h: getPartition, ingestEdgelist", "src/BFS.cpp", "src/SSSP.cpp", "src/DeltaStepping.cpp", "src/TopologicalSort.cpp", "src/TriangleCounting.cpp", "src/PageRank.cpp", "src/IncrementalPageRank.cpp"]}
{"id": "C94", "title": "What SGD and LDA print about a graph in edge files", "statement": "Given edge files as in C87 and exact arithmetic, every rank of SGD prints the root of the squared error per edge, before and after ten steps down the gradient (C69), then a line with the vector for those of the first ten vertices that it owns, and each vertex is owned by one rank. LDA ends with a failure if the numbers of documents and terms do not add up to the number of vertices; otherwise, after the given number of rounds (C70), ten if there is no fourth argument, every rank prints a line for those of the first five documents and the first five terms that it owns, with the kind and the numbers of the vertex, and then rank 0 the log-likelihood. If one of these documents or terms is no vertex, LDA fails. Deviations: with five vertices or more, a number of documents above the number of vertices goes unnoticed; with a negative number of documents, terms whose numbers are taken for vertex 1 (C91) get a line with the numbers of vertex 1. With too few arguments both print how they are used. Vertex numbers that do not exist are treated as in C93.", "quantifier": "all sets of edge files, arguments, numbers of ranks and threads, start vectors", "why_tests_cant": "end to end for all inputs, from arguments and bytes of files to characters of the output", "anchors": ["src/SGD.cpp: main, run_sgd, LatentVector::print", "src/LDA.cpp: main, run_lda", "include/Graph.h: ReadMTX, nnz, vertexNodeOwner, getVertexproperty"]}
