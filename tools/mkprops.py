#!/usr/bin/env python3
"""Regenerates properties.jsonl (one JSON object per line)."""
import json, os
P = []
def add(title, statement, quantifier, why, anchors):
    P.append(dict(id="C%02d" % (len(P)+1), title=title, statement=statement,
                  quantifier=quantifier, why_tests_cant=why, anchors=anchors))

G="include/Graph.h"; RT="include/GraphMatRuntime.h"; SP="include/SPMV.h"; GP="include/GraphProgram.h"
DS="include/GMDP/vectors/DenseSegment.h"; SV="include/GMDP/vectors/SpVec.h"
SM="include/GMDP/matrices/SpMat.h"; DC="include/GMDP/matrices/DCSCTile.h"; LAY="include/GMDP/matrices/layouts.h"
SN="include/GMDP/singlenode/"; MN="include/GMDP/multinode/"
EL="include/GMDP/utils/edgelist.h"; ET="include/GMDP/utils/edgelist_transformation.h"
BS="include/GMDP/utils/binary_search.h"; BV="include/GMDP/utils/bitvector.h"

add("Vertex relabelling is a bijection",
 "For every thread count, rank count and vertex count n, the map from user vertex ids 1..n to internal ids is a bijection of 1..n, and the map used on output is its exact inverse, so no two user vertices share storage and every id reported back to the user is the one the user supplied. No division by zero is reached for ids in 1..n.",
 "all thread counts >= 1, rank counts >= 1, n >= 0, ids in 1..n",
 "the maps depend on thread count, rank count and n through integer division and remainder; only finitely many triples can be sampled",
 [G+": Graph::vertexToNative, Graph::nativeToVertex"])
add("Loading then exporting edges is the identity on the edge multiset",
 "After ReadEdgelist of any valid square edge list, getEdgelist on all ranks together returns exactly the multiset of edges (source, destination, weight) supplied by all ranks together, in user ids, with nothing lost, duplicated or attached to another weight, for any number of ranks and threads.",
 "all edge lists with ids in 1..n split arbitrarily over ranks, all rank and thread counts, all (unstable) sort outcomes",
 "needs every edge list, every distribution over ranks, every thread count and every permutation an unstable parallel sort may return",
 [G+": Graph::ReadEdgelist, Graph::getEdgelist", SM+": SpMat::ingestEdgelist, SpMat::get_edges, SpMat::Allocate2DPartitioned", DC+": DCSCTile, get_edges"])
add("Vertex properties behave as a map with exactly one owner per vertex",
 "After any sequence of setVertexproperty / setAllVertexproperty calls issued on all ranks, getVertexproperty(v) on the rank for which vertexNodeOwner(v) is true returns the value most recently stored for v (other vertices are untouched by a store to v), exactly one rank owns each v in 1..n, and every other rank gets a default-constructed value.",
 "all call histories, vertices, rank and thread counts",
 "arbitrary histories interleaved over arbitrary vertices and partitions",
 [G+": setVertexproperty, setAllVertexproperty, getVertexproperty, vertexNodeOwner", SV+": set, get, setAll, node_owner, getPartition", DS+": set, get, setAll"])
add("Active set behaves as a set under any history",
 "After setAllInactive or setAllActive and any sequence of setActive / setInactive calls, the set of vertices that take part in the next superstep is exactly the set described by the history (last operation on a vertex wins).",
 "all histories of setAllActive/setAllInactive/setActive/setInactive, all vertices",
 "unbounded histories over unbounded vertex sets",
 [G+": setAllActive, setAllInactive, setActive, setInactive", BV+": set_bitvector, clear_bitvector, get_bitvector"])
add("One superstep delivers exactly one processed message per traversed edge of an active vertex",
 "In one iteration of run_graph_program with a commutative associative reduce, vertex v has apply called exactly once iff v has at least one edge (in the direction selected by OUT_EDGES, IN_EDGES or ALL_EDGES) from an active vertex; the argument is the reduction of process_message over exactly those edges, counting parallel edges separately and, for ALL_EDGES, both directions; all other vertex properties are unchanged.",
 "all graphs, vertex programs with commutative associative reduce, directions, activity sets, rank/thread counts",
 "quantifies over all graphs, programs and partitions",
 [RT+": run_graph_program", SP+": SpMSpV, SpMTSpV, Mulfn, Addfn", SN+"spmspv.h", MN+"spmspv.h"])
add("Iteration count contract of run_graph_program",
 "With iterations = N > 0 exactly N supersteps run whether or not the program converges earlier; with N <= 0 it runs at least one superstep and stops after the first superstep in which no vertex property changed on any rank; it never stops on a superstep in which some rank still changed a vertex.",
 "all programs, graphs and values of iterations",
 "depends on unbounded executions and on a global reduction over all ranks",
 [RT+": run_graph_program"])
add("Results do not depend on the number of ranks or threads",
 "For a commutative associative reduce, the vertex properties (in user ids), the active set and the number of iterations after run_graph_program are the same for every number of ranks and threads and every thread schedule.",
 "all graphs, programs, rank and thread counts, schedules",
 "all partitions and all interleavings",
 [RT+": run_graph_program", MN+"spmspv.h", MN+"spmspv3.h", MN+"intersectreduce.h", G+": vertexToNative"])
add("Next active set is exactly the set of changed vertices",
 "After each superstep of an ACTIVE_ONLY program the active set is exactly the set of vertices that received a message and whose property compares unequal (operator!=) to its value before that superstep; vertices that received a message but kept an equal value are not active, and previously active vertices do not stay active by default.",
 "all graphs, programs and supersteps",
 "must hold after every superstep of every execution",
 [RT+": run_graph_program"])
add("The return value of send_message never suppresses a message",
 "The boolean result of GraphProgram::send_message is ignored by the runtime: a vertex in the active set takes part with the message object left by send_message whether it returned true or false; a program cannot veto a message by returning false.",
 "all programs and active vertices",
 "absence of an effect for every program cannot be shown by examples",
 [RT+": send_message wrapper", SN+"intersectreduce.h"])
add("A freshly loaded graph is not in the empty-active-set state",
 "Immediately after ReadEdgelist/ReadMTX/ReadGraphMatBin every vertex takes part in the first superstep without send_message being called (each contributes the message object default-constructed or left over in the message buffer), unless setAllInactive, reset, or an ALL_VERTICES program intervenes; after setAllInactive only vertices given to setActive take part.",
 "all graphs, programs and histories before the first superstep",
 "depends on a history of API calls and on which buffer contents are stale",
 [G+": ReadEdgelist, setAllInactive, reset", RT+": run_graph_program, send_message", DS+": setAll"])
add("ALL_VERTICES programs message from every vertex in every superstep",
 "With activity ALL_VERTICES, send_message is called for every vertex 1..n in every superstep irrespective of the active set before the call and of changes in earlier supersteps, and the active set is full on return.",
 "all graphs, programs, prior active sets and iteration counts",
 "must hold in every superstep for every prior history",
 [RT+": run_graph_program", G+": setAllActive"])
add("do_every_iteration is called once per superstep in order",
 "do_every_iteration is called exactly once per superstep per rank with arguments 0,1,2,..., after every apply of that superstep and before every send_message of the next one, including the last superstep.",
 "all programs, graphs and iteration counts",
 "order of effects over unbounded executions",
 [RT+": run_graph_program"])
add("applyToAllVertices applies the function once to every vertex",
 "applyToAllVertices(f) replaces the property p of every vertex 1..n by the value f writes given (p, copy of p), exactly once each, and leaves activity and edges alone.",
 "all graphs, functions, rank/thread counts",
 "all sizes and partitions",
 [G+": applyToAllVertices", MN+"apply.h", SN+"apply.h"])
add("applyReduceAllVertices folds each vertex once but the initial value once per rank",
 "With a commutative associative reduce, applyReduceAllVertices(val,f,r) leaves on every rank the same result: the reduction of f(p(v)) over all v in 1..n, each once, together with the initial *val of every rank (once per rank). If the initial values of all ranks but the first are neutral, the result is the reduction of the first rank's initial value and the f(p(v)); with + and initial value c on every rank the excess is (ranks-1)*c.",
 "all graphs, functions, commutative associative reductions, initial values, rank and thread counts",
 "depends on the number of ranks and on the identity-ness of a user supplied value",
 [G+": applyReduceAllVertices", MN+"reduce.h", SN+"reduce.h"])
add("applyToAllEdges updates every edge once with (source, destination) properties",
 "applyToAllEdges(f) replaces the weight w of every edge (u,v) by the value f writes given (w, property(u), property(v)) exactly once per stored copy, for both traversal directions, and changes no endpoint; traversals in either direction afterwards see the same weight.",
 "all graphs, functions, rank/thread counts",
 "all edge sets and partitions; two stored copies must agree",
 [G+": applyToAllEdges", MN+"applyedges.h", SN+"applyedges.h"])
add("Forward and backward adjacency always describe the same graph",
 "After any load, and after any sequence of applyToAllEdges and run_graph_program, the edge multiset traversed by OUT_EDGES programs is exactly the transpose of the one traversed by IN_EDGES programs (weights included), so ALL_EDGES sees each edge once in each direction.",
 "all loads and operation histories",
 "invariant over unbounded operation sequences",
 [SM+": Transpose", G+": ReadEdgelist, applyToAllEdges"])
add("shareVertexProperty ownership discipline",
 "For any sequence of loads, shareVertexProperty calls, uses of the properties and of the edges, and destructions over any number of graphs: if each graph is loaded once, shares at most once, from another graph and not after others shared from it, and its properties are used only while the graph they came from is alive, then nothing is used after free or freed twice, graphs that share show the same values, and once all graphs are destroyed nothing is left allocated. Sharing a second time, with oneself, or after having been a source reaches a double free or a use after free; using the properties after their origin is destroyed is a use after free; loading twice leaks the first load.",
 "all sequences of share/use/destroy operations over any number of graphs",
 "temporal property over all operation sequences; failures are undefined behaviour",
 [G+": shareVertexProperty, ~Graph"])
add("GraphMat binary files load only under the same rank and thread counts, and then exactly",
 "WriteGraphMatBin followed by ReadGraphMatBin with the same number of ranks and threads restores exactly the same edges (both traversal directions), vertex count and relabelling; with a different number of ranks or of threads the load terminates the process instead of producing a graph.",
 "all graphs, all pairs of (ranks, threads) at save and load",
 "all graphs and all configuration pairs",
 [G+": WriteGraphMatBin, ReadGraphMatBin", DC+": save, load"])
add("saveVertexproperty writes every vertex once, in order, with 0-based ids",
 "The files written by saveVertexproperty (one per segment, named by appending the segment number), concatenated in segment order, contain one line per vertex v in 1..n in increasing order, whose value is the property of v and whose printed id is v-1, for every number of ranks and threads.",
 "all graphs, property values, rank and thread counts",
 "all sizes and partitions, and a redistribution step with an unstable sort",
 [G+": saveVertexproperty", SV+": get_edges, ingestEdgelist, save", DS+": get_edges, ingestEdges, save"])
add("Vector segments partition the vertex ids",
 "For every n >= 0 and number of segments >= 1 the segment boundaries start at 0, are monotone, end at n, interior boundaries are multiples of 256 or n, and each id in 1..n is mapped to the one segment whose range contains it.",
 "all n, all segment counts, all ids",
 "integer arithmetic over all sizes",
 [SV+": AllocatePartitioned, getPartition"])
add("A vector segment behaves as a partial map with an exact population count",
 "Under any sequence of set, unset, setAll, clear on in-range ids, membership equals that of the abstract partial map, the stored values are the last stored, compute_nnz equals the number of members, and getNNZ equals it as well except after bulk clears, which leave a stale count.",
 "all operation sequences on all segment sizes",
 "unbounded histories over bit-packed words",
 [DS+": set, unset, setAll, get, compute_nnz, getNNZ", BV])
add("Sending a vector segment to another rank reproduces it exactly",
 "For every segment content and every thread count on either side (the same on both sides for Serializable value types), what the receiver holds after the count exchange, the transfer in whichever encoding is chosen (nothing, index/value pairs, dense) and decoding is exactly the set of ids and values the sender held; sender and receiver always agree on the encoding and buffer sizes, and no scratch or receive buffer is overrun. With a Serializable type, a sender with more threads than the receiver makes the receiver overrun its scan arrays.",
 "all contents, sizes, thread counts on both sides",
 "encoding switches at a density threshold and is partitioned by thread counts",
 [DS+": compress, decompress, should_compress, send_segment, recv_buffer, compute_nnz"])
add("Merging received partial results is a keyed reduction",
 "For a commutative associative reduce, merging any number of received segments (each sparse or dense) into the local one yields, for every id, the reduction of the values of all contributors that have that id (each exactly once), for every arrival order and every thread count; ids nobody contributed stay absent.",
 "all contents, numbers of contributors, arrival orders, encodings and thread counts",
 "all arrival orders and encodings",
 [DS+": union_received, recv_nnz_queue", SN+"unionreduce.h"])
add("Parallel decode and merge never let two threads touch the same word",
 "In decompression and sparse merging, for every thread count and every sorted index list, the ranges given to different threads cover every entry exactly once and no two threads write the same membership word, so every interleaving gives the sequential result.",
 "all index lists, thread counts and interleavings",
 "data race freedom for all interleavings",
 [DS+": decompress", SN+"unionreduce.h: union_compressed"])
add("Vector edge list ingestion round trip",
 "After ingestEdgelist of (id,value) pairs with distinct ids spread arbitrarily over ranks, the vector maps exactly those ids to those values and, with at most one segment per rank (as a graph always has), get_edges on all ranks returns exactly them; with duplicate ids the value that comes last in rank order, then list order, is kept and getNNZ counts distinct ids. With several segments on one rank, get_edges dereferences the null storage of a segment that received nothing.",
 "all pair lists, distributions and rank counts",
 "all distributions over ranks and all sort outcomes",
 [SV+": ingestEdgelist, get_edges", DS+": ingestEdges, get_edges"])
add("Vector getNNZ counts members over all ranks exactly",
 "SpVec::getNNZ returns on every rank the number of members of the whole vector: it recounts the membership bits of every segment on its owning rank, so it is exact after every history of set/unset/setAll/bulk clear issued on any ranks, including setAllInactive (which leaves the segments' stored counts stale) and including vectors never written.",
 "all histories, rank counts",
 "histories over all ranks",
 [SV+": getNNZ", G+": setAllInactive", DS+": getNNZ"])
add("Matrix tiles partition the edge set",
 "For every n and number of tiles per dimension >= 1, each entry (i,j) with 1<=i,j<=n lies in exactly one tile, that tile's row and column ranges contain it, every tile is owned by a rank in 0..ranks-1, and row ranges agree with the vector segment ranges used for results and messages.",
 "all n, tile counts, entries",
 "integer arithmetic over all sizes",
 [SM+": getPartition, Allocate2DPartitioned", LAY+": partition_fn_2d", SV+": getPartition"])
add("Building a sparse tile preserves entries",
 "For every list of in-range entries (including duplicates) and every thread count, constructing a tile terminates and get_edges returns a permutation of the entries with the same weights; entries are grouped by row partition and column.",
 "all entry lists, tile sizes, thread counts, sort outcomes",
 "all lists and all tie orders of an unstable sort; termination",
 [DC+": DCSCTile, get_edges, static_partition, set_edge_pointers"])
add("Thread row ranges of a tile are 32-aligned and cover the tile",
 "The row ranges processed by different threads start at 0, end at the row count, are monotone, and every interior boundary is a multiple of 32 or equals the row count, so two ranges never share a membership word.",
 "all tile sizes, entry lists, thread counts",
 "all inputs to a load balancing heuristic",
 [DC+": static_partition"])
add("Tile multiplication equals the sequential reduction under every thread schedule",
 "For every tile, message vector, accumulator and schedule of the parallel loop, the result is the same and equals folding process_message/reduce over the entries whose column has a message, starting from the accumulator; entries outside are unchanged.",
 "all tiles, inputs and interleavings of the worker threads",
 "all interleavings",
 [SN+"spmspv.h: my_spmspv, mult_segment", SN+"spmspv3.h"])
add("Column look-ahead stays in bounds only when enough columns follow",
 "The multiplication and edge-apply kernels read a column index up to four positions ahead for prefetching; the read stays inside the column array iff at least four more column slots follow; for the last columns of the last thread range it reads up to three elements past the end of the array, and this never affects results.",
 "all tiles and message vectors",
 "out of bounds reads are not observable by testing results",
 [SN+"spmspv.h:59", SN+"spmspv3.h:58", SN+"applyedges.h:58"])
add("Tile serialization round trip",
 "Saving a tile to an archive and loading it gives a tile with the same entries, dimensions and thread ranges for every tile (empty tiles included).",
 "all tiles",
 "all contents including empty",
 [DC+": save, load"])
add("Reported edge count is exact modulo 2^32",
 "SpMat::getNNZ sums 64-bit per-rank edge counts through a 32-bit integer reduction, so each rank gets the high 32 bits of its own count and the low 32 bits of the total: the result agrees with the true number of edges modulo 2^32, equals it when the total is below 2^32 or there is a single rank, and with several ranks and 2^32 edges or more it can be wrong on every rank.",
 "all graphs and rank counts",
 "needs graphs too large to test and little-endian partial word updates",
 [SM+": getNNZ", G+": nnz"])
add("Rank to tile assignment is total and balanced by a factorization",
 "The tile-to-rank maps return a rank in 0..ranks-1 for every tile; the two-factor split used by the 2D maps satisfies rows*cols = ranks and terminates for every ranks >= 1.",
 "all rank counts and tiles",
 "number theoretic loop over all integers",
 [LAY+": factorize_int, partition_fn_2d, partition_fn_1d, vector_partition_fn, get_fn_and_tiles"])
add("Message exchange between ranks cannot deadlock",
 "For every assignment of tiles to ranks, the order in which ranks issue blocking count sends and receives in the broadcast and reduce phases of a superstep, even with fully synchronous sends, always lets every rank finish, and every receive is matched with the send for the same segment.",
 "all rank counts, tile assignments and schedules",
 "all schedules; synchronous mode depends on the MPI library",
 [MN+"spmspv.h", MN+"spmspv3.h", MN+"applyedges.h", SM+": get_row_ranks"])
add("remove_selfedges keeps exactly the non-loop edges in order",
 "remove_selfedges leaves exactly the edges with different endpoints, in their original order with weights, and the dimensions unchanged.",
 "all edge lists", "all lists", [ET+": remove_selfedges"])
add("remove_duplicate_edges keeps one edge per endpoint pair globally",
 "After remove_duplicate_edges on any number of ranks, over all ranks together there is exactly one edge for each (source, destination) pair that was present, its weight is one of the weights supplied for that pair, and no other pair appears; which weight is kept is not determined by the input.",
 "all edge lists, distributions, rank/thread counts, sort outcomes",
 "all distributions and unstable sort outcomes", [ET+": remove_duplicate_edges, remove_duplicate_edges_local, shuffle_edges"])
add("create_bidirectional_edges doubles every edge",
 "The result contains for each input edge the edge followed by its reverse with the same weight, nothing else.",
 "all edge lists", "all lists", [ET+": create_bidirectional_edges"])
add("convert_to_dag yields an acyclic graph once self loops are removed",
 "convert_to_dag keeps the number of edges, weights and unordered endpoint pairs, afterwards source <= destination for each edge, and with no self loops the result has no directed cycle.",
 "all edge lists", "acyclicity over all paths", [ET+": convert_to_dag"])
add("shuffle_edges redistributes without loss",
 "shuffle_edges keeps the global edge multiset, and afterwards each edge lives on the rank equal to (source-1) mod ranks, for every thread count and distribution; no scratch slot is written twice.",
 "all edge lists with positive ids, distributions, rank and thread counts",
 "all distributions and thread interleavings", [ET+": shuffle_edges"])
add("filter_edges keeps exactly the edges the predicate accepts",
 "filter_edges returns the accepted edges in order, the same dimensions, and leaves the input unchanged.",
 "all edge lists and predicates", "all predicates", [ET+": filter_edges"])
add("random_edge_weights range",
 "Every weight produced for an integer range r >= 1 lies in [1,r] before conversion to the weight type, endpoints are unchanged, and the upper bound r itself is reachable (so the documented half-open range [1,r) is not what is produced).",
 "all edge lists, ranges and random sequences", "all random sequences", [ET+": random_edge_weights", "src/graph_converter.cpp"])
add("randomize_edgelist_square applies one permutation of the vertex ids",
 "For every sequence of random numbers, all endpoints on all ranks are renamed by the same permutation of 1..m; weights and edge count are unchanged, so the graph is isomorphic to the input.",
 "all random sequences, edge lists, rank counts", "all random sequences", [EL+": randomize_edgelist_square"])
add("remove_empty_columns compacts destinations order-preservingly",
 "After remove_empty_columns destinations are renumbered 1..k where k is the number of distinct destinations, order preserving, sources and weights unchanged, and the returned index array gives the original id of each new column.",
 "all edge lists with destinations in 1..n", "all lists", [EL+": remove_empty_columns"])
add("filter_edges_by_row keeps exactly the selected row range, shifted",
 "filter_edges_by_row(s,e) leaves exactly the edges with s < source <= e in order with source reduced by s and sets the row count to e-s.",
 "all edge lists and ranges", "in-place compaction over all lists", [EL+": filter_edges_by_row"])
add("Binary edge files round trip",
 "write_edgelist then load_edgelist in binary format with the same flags restores the same edges in order per file; with header the dimensions are restored, without header they become the maximal ids; without weights every weight becomes 1; files i with i = rank mod ranks are read by that rank up to the first missing one.",
 "all edge lists with 32-bit ids, flags, rank counts", "all contents and flag combinations", [EL+": write_edgelist, load_edgelist, readLine, writeLine, get_maxid_and_nnz"])
add("Text edge files round trip; a last line without newline may be lost or overflow",
 "In text format the round trip also restores every edge of files produced by write_edgelist (int or unsigned weights, or none). A last line without trailing newline is kept if the files have (correct) headers and the file is the last one its rank reads. In a file its rank reads before further lines the edge is lost, and with headers the list then counts one uninitialised edge. Without headers, in the last file of a rank, the edge is stored past the end of the buffer.",
 "all edge lists with integer weights; all files with and without final newline, all rank counts", "all contents", [EL+": readLine, writeLine, load_edgelist"])
add("A header that disagrees with the file content breaks the load",
 "load_edgelist trusts the header count: if a file has more edges than its header claims the loader writes past the end of the edge buffer, if fewer the tail of the edge list is uninitialized and is counted as edges; it is safe exactly when the total of header counts equals the number of edges read.",
 "all files and headers", "memory-safety of malformed inputs", [EL+": load_edgelist, get_maxid_and_nnz"])
add("Border searches return the extreme positions",
 "On a sorted array, the left (right) border search over the whole array returns the index of the first (last) occurrence of the value and -1 if absent, never indexing out of bounds, and terminates.",
 "all sorted arrays, values", "all arrays", [BS+": binary_search_left_border, binary_search_right_border"])
add("l_binary_search depends on memory past the end",
 "On a sorted array of length end, l_binary_search returns the first position whose element is >= item provided the element just past the end compares >= item; it reads that past-the-end element for some inputs and, when it compares < item, can return end although an earlier position is correct.",
 "all sorted arrays, items and values of the word past the end", "out-of-bounds content", [BS+": l_binary_search", "include/GMDP/matrices/COOTile.h"])
add("l_linear_search returns the first position not below the item",
 "On a sorted nonempty array searched from 0, l_linear_search returns the first index whose element is >= item, or the length if none, reading only in-bounds elements; on an empty array it reads out of bounds.",
 "all sorted arrays and items", "all arrays", [BS+": l_linear_search", "include/GMDP/matrices/COOSIMD32Tile.h"])
add("BFS computes hop distances",
 "After the BFS program run to convergence from a source, the depth of every vertex equals its hop distance from the source in the loaded graph (infinity marker if unreachable) and every reached vertex other than the source has a parent that is an in-neighbour exactly one hop closer; the source and the unreached vertices keep the marker 2^64 - 1 as parent.",
 "all graphs and sources", "all graphs", ["src/BFS.cpp", RT])
add("SSSP computes shortest path lengths when no addition overflows",
 "After the SSSP program run to convergence, the distance of every vertex equals the minimum weight of a path from the source (infinity marker if unreachable), provided every path-weight sum that arises stays below the 32-bit infinity marker; it terminates for all nonnegative weights.",
 "all graphs with nonnegative 32-bit weights and sources", "all graphs, termination", ["src/SSSP.cpp", RT])
add("SSSP wraps around silently on large weights",
 "Whatever the weights, the SSSP program ends, and each reported distance other than 2^32-1 is the weight modulo 2^32 of some path. When a distance plus an edge weight exceeds 2^32-1, the sum wraps and the reported distance can be smaller than the weight of every path: wherever all paths to a vertex weigh the same, 2^32 or more, it is.",
 "all graphs, sources and integer weights", "needs adversarial weights; concerns modular arithmetic", ["src/SSSP.cpp: process_message"])
add("TopologicalSort orders every DAG edge forward",
 "On an acyclic graph the topological sort program terminates with every vertex assigned a level and for every edge (u,v) the level of u is smaller than that of v; on a graph with a cycle the vertices on or reachable from cycles never get a level, yet it terminates.",
 "all graphs", "all graphs, termination", ["src/TopologicalSort.cpp", RT])
add("Triangle counting counts every triangle of an oriented graph once",
 "For a graph with at most one edge from any vertex to any other (in particular a graph oriented u<v without duplicates) and fewer than 2^31 triangles, the reported count equals the number of triples (a,b,c) with edges a->b, b->c, a->c. On any graph each edge a->b counts, for each c, the smaller of the numbers of parallel edges a->c and b->c; a vertex holds its count modulo 2^32 as a signed number, every rank reports their sum modulo 2^64, and below 2^63 the reported number is right exactly if no single vertex has a count of 2^31 or more. Deviation: on three vertices with 2^17 edges that close 2^31 triangles the program reports 2^64 - 2^31.",
 "all graphs, with parallel edges and self loops", "all graphs", ["src/TriangleCounting.cpp", RT])
add("PageRank step formula",
 "Each PageRank superstep gives every vertex with an in-edge alpha+(1-alpha)*sum of value/outdegree over its in-neighbours (per parallel edge), and leaves every vertex without in-edges at its old value; the sum is over exactly the in-edges whatever the partitioning. With exact arithmetic and the start value alpha the program stops after k supersteps once (1-alpha)^k*n*alpha is at most the tolerance, and its ranks differ from the solution of the PageRank equation by at most (1-alpha)/alpha*n*tolerance in total.",
 "all graphs, rational/real valued ranks (exact arithmetic)", "all graphs; floats are abstracted to exact arithmetic", ["src/PageRank.cpp", RT])
add("DeltaStepping returns shortest path lengths",
 "With non-negative weights, when along every path without repeated vertices followed by one more edge the sum stays below 2^32-1 and below delta*(2^31-1), the delta stepping program ends with exact distances and reports the number of reachable vertices; when a distance divided by delta reaches 2^31-1, reachable vertices can be reported as unreachable although no sum overflows. For any weights and any delta but 0 it ends, and each distance it reports is the weight modulo 2^32 of some walk from the source; with a negative weight it can miss vertices although no walk weighs less than 0.",
 "all graphs, all weights, deltas other than 0, sources", "all graphs, phases", ["src/DeltaStepping.cpp", RT])
add("Degree programs count incident edges",
 "The degree programs leave in each vertex the number of its out-edges (or in-edges) counting parallel edges; vertices without such edges keep the initial value.",
 "all graphs", "all graphs", ["src/PageRank.cpp: Degree", "src/TopologicalSort.cpp: InDegree", RT])
add("graph_converter pipeline",
 "The converter applies, in order, the selected transformations and writes edge files whose content is the composed transformation of the input; option combinations rejected by validation never write output; the option documented as creating unit weights writes the original weights.",
 "all edge lists and option combinations", "all option combinations", ["src/graph_converter.cpp: process_graph, validateOptions"])
add("Alternative tile formats preserve entries",
 "Constructing COO, CSR, DCSR, COOSIMD32 and Hybrid tiles from any in-range entry list and exporting the edges gives a permutation of the input entries (Hybrid: from any non-empty list; its constructor uses an uninitialised pointer for an empty one). Hybrid tiles keep rows with 16 entries or more in the first part, the others in the second. Each partition of a COOSIMD32 tile begins with groups of 32 entries, no two of a group in the same block of 32 rows. The DCSR constructor reads one element past an array's end when the tile has few non-empty rows; the value found does not matter.",
 "all entry lists, thread counts", "all lists", ["include/GMDP/matrices/COOTile.h", "include/GMDP/matrices/CSRTile.h", "include/GMDP/matrices/DCSRTile.h", "include/GMDP/matrices/COOSIMD32Tile.h", "include/GMDP/matrices/HybridTile.h"])
add("Program state is not needed by the engine: a rerun on an unchanged program and graph repeats exactly",
 "Two runs of run_graph_program started from the same vertex properties, active set and program object give the same number of supersteps, final vertex properties and active set, whether or not the temporary structure of an earlier run is passed in, provided send_message writes the message without reading its old content and the active set was set through the activity API (or the program is ALL_VERTICES). Without that proviso the leftover messages of an earlier run are visible.",
 "all programs, graphs, active sets obtained from the activity API after a reset or setAll call, and all contents of the temporary structure",
 "depends on stale buffer contents left by arbitrary earlier runs",
 [RT+": graph_program_init, run_graph_program"])
add("Reductions that are not commutative or associative still use every message once",
 "With an arbitrary reduce_function, the value passed to apply for a vertex in a superstep is obtained from exactly the processed messages that arrive at it, each used once, combined two at a time in some order and grouping; apply is not called if none arrive. If the operation always returns one of its operands the applied value is one of the arriving messages; if it is commutative and associative the value is unique.",
 "all reduce functions, programs, graphs, call histories, rank and thread counts",
 "the grouping depends on threads, tiles and ranks, and the messages on the whole history",
 [RT+": run_graph_program", MN+"spmspv.h: SpMSpV", MN+"spmspv3.h: SpMSpV3", SN+"unionreduce.h"])

add("Setting entries of one vector from several threads at once",
 "Calls that set different entries of one local vector segment (setActive, setVertexproperty), issued at the same time by different threads, all take effect on every schedule and touch nothing else when their presence bits lie in different 32-bit words. When two of them share a word, some schedule leaves one of the entries absent although the stored count includes it. The topological sort program activates its start vertices from such a parallel loop: there is a schedule on which it reports a vertex of an acyclic graph as unreachable.",
 "all segments, sets of entries and thread schedules", "depends on the interleaving of the word updates",
 ["src/TopologicalSort.cpp: run_topsort", "include/GMDP/vectors/DenseSegment.h: set", "include/GMDP/utils/bitvector.h: set_bitvector"])

add("Text files of other weight types cannot be loaded",
 "For a weight type other than int, unsigned int, float and double, write_edgelist in text format with weights writes the header and no edges, and load_edgelist of text files with header and weights never returns, whatever the files contain.",
 "all files, edge lists and rank counts", "non-termination is not observable by a test", [EL+": readLine, writeLine, load_edgelist"])

add("Multiplication with the alternative tile formats",
 "Multiplying a COO, CSR, DCSR, COOSIMD32 or Hybrid tile with a segment of messages adds the product of every entry whose column has a message exactly once to the entry's row, touches no other row, and gives the same segment on every schedule of the threads; CSR tiles may be multiplied with another number of threads than they were built with. Deviations: a COO tile with one entry never uses it if the word behind its array of rows is below 1; the variant that passes vertex properties uses an uninitialised partition count on a COO tile without entries.",
 "all entry lists, tile sizes and offsets, message segments, operators, thread counts and thread schedules", "depends on the interleaving of threads and on memory contents past an array",
 [SN+"spmspv.h: my_csrspmspv, my_coospmspv, my_dcsrspmspv, mult_segment", SN+"spmspv3.h: my_coospmspv3, mult_segment3"])

add("Archives of the alternative tile formats",
 "Saving a CSR tile, or a COO tile with entries, to an archive and loading it gives the same tile. An archive of a COOSIMD32 tile contains an integer that was never set; the loaded tile exports the same entries and multiplies the same. Deviations: archives of COO and DCSR tiles without entries contain integers that were never set; saving a DCSR tile reads past the end of its row pointers if some row has no entry, and if none is empty the loaded tile has its entries but cannot be multiplied; a Hybrid tile survives an archive only if no row has 16 entries or more.",
 "all entry lists, tile sizes and offsets, thread counts, archive continuations and contents of unset integers", "all tiles; depends on uninitialised memory",
 ["include/GMDP/matrices/COOTile.h: save, load", "include/GMDP/matrices/CSRTile.h: save, load", "include/GMDP/matrices/DCSRTile.h: save, load", "include/GMDP/matrices/COOSIMD32Tile.h: save, load", "include/GMDP/matrices/HybridTile.h: serialize"])

add("IncrementalPageRank solves the PageRank equation",
 "For every graph the incremental PageRank program (with real instead of floating point arithmetic) stops, after at most 1 + n*start/(alpha*eps) supersteps. Every vertex then holds its out-degree and a rank; a vertex without in-edges has exactly the start rank; at every vertex the rank differs by at most eps (1e-8) from start + (1-alpha) * the sum of rank/out-degree over its in-edges. Hence the ranks differ from the exact solution by at most n*eps/alpha in total.",
 "all graphs with fewer than 2^31 edges, parameters 0 < alpha <= 1 and 0 < eps < |start|, rank and thread counts, partitionings and serialisations", "termination and an error bound for all graphs; the program drops changes below eps, so their accumulation has to be bounded",
 ["src/IncrementalPageRank.cpp: DeltaPageRank, Degree, run_pagerank"])

add("SGD performs gradient descent steps and reports the squared error",
 "The matrix factorisation program (with real instead of floating point arithmetic) moves all vertices at once by the given number of steps: the vector of a vertex with edges changes by step * (sum over its edge ends of (weight - product of the two vectors) * the other end's vector - lambda * its own vector), a vertex without edges keeps its vector. Parallel edges and self loops count for every end. This direction is minus half the gradient of the squared error plus lambda times the squared vectors. The errors every rank reports before and after are exactly the sums over all edges of (weight - product)^2.",
 "all graphs, vector lengths, initial vectors, lambda, step sizes, positive iteration counts, rank and thread counts, partitionings and serialisations", "all graphs; the error is summed from values left by an earlier program run and depends on which vertices have out-edges",
 ["src/SGD.cpp: SGDProgram, RMSEProgram, run_sgd"])

add("LDA conserves word counts and reports the likelihood of its result",
 "The topic model program (with real instead of floating point arithmetic) gives every vertex the topic counts of the given number of rounds from its random start, all vertices moving at once, and every rank the log-likelihood of the result. If edges lead from documents to terms with positive weights, then after any number of rounds the counts of a vertex with edges are not negative and add up to the weights of its edges, documents and terms have the same total of every topic, no division by zero occurs, and the log-likelihood is taken of probabilities that add up to 1 over the terms of each document. Document and term numbers that do not add up to the number of vertices end the program. Deviation: the counts of terms without edges are never set but enter the totals of all topics; only if every term has an edge is the result independent of that memory.",
 "all graphs, topic numbers, random numbers, alpha >= 1, eta > 1, positive iteration counts, logarithm functions, contents of unset memory, rank and thread counts, partitionings and serialisations", "conservation over any number of rounds on all graphs; depends on uninitialised memory",
 ["src/LDA.cpp: LatentVector, LDAInitProgram, LDAProgram, LDALLProgram, IfTerm, Add, run_lda", "include/GraphMatRuntime.h: run_graph_program"])

add("An archived vector loads as the same vector",
 "After any history of set, unset, setAll, Clear and bulk deactivation on every rank, each rank can write its part of a vector to an archive and load it, on any number of threads and whatever follows in the archive. The loaded vector has the same length, partition and owners; it goes on exactly as the saved one would have: after any further history the count and the stored values are those of both histories in sequence, and a loaded segment can be sent to another rank like the original. Deviations: a segment of a plain type that received data from a rank running more threads cannot be archived (reads past its scan arrays); the archive contains the rank number, so a loading process acts as the rank that saved.",
 "all vector lengths, partition, rank and thread counts, histories before and after, contents of unset memory and archive continuations", "all histories; the archive contains memory that was never set",
 ["include/GMDP/vectors/SpVec.h: serialize", "include/GMDP/vectors/DenseSegment.h: buffer save, load; DenseSegment save, load; send_metadata serialize", "test/test_vector_serialization.cpp"])

add("Random edge directions and the dimensions of an edge list",
 "randomize_edge_direction keeps every edge in its place with its weight and reverses exactly those whose random number is below one half. get_dimensions gives every rank the largest source and the largest destination among all edges of all ranks (0 if there is none), however many threads share the work.",
 "all edge lists, random sequences, rank counts and distributions of the edges over threads", "all inputs and thread distributions; random numbers",
 ["include/GMDP/utils/edgelist_transformation.h: randomize_edge_direction", "include/GMDP/utils/edgelist.h: get_dimensions"])

add("Edge lists give back their memory",
 "Whatever a caller does with any number of edge lists (reading, get_edges, removing self edges and duplicates, shuffling, making edges bidirectional, filtering, renumbering, removing empty columns, in-place changes, clear), memory handling never fails on its own: the calls succeed exactly if they succeed on plain lists, and no array is given back twice, in the wrong way or while another list uses it. After all lists are cleared exactly these arrays are still in use: one for each time the last edge of a list was removed (remove_selfedges, filter_edges, filter_edges_by_row), one for each read that found no edge, one for each read or get_edges into a list that still had edges.",
 "all histories of operations on any number of lists, all lists, all initial heaps", "a leak or double free shows only in some histories; unit tests end before",
 ["include/GMDP/utils/edgelist.h: edgelist_t, clear, load_edgelist, randomize_edgelist_square, remove_empty_columns, filter_edges_by_row", "include/GMDP/utils/edgelist_transformation.h: remove_selfedges, remove_duplicate_edges_local, shuffle_edges, create_bidirectional_edges, filter_edges", "include/GMDP/matrices/SpMat.h: get_edges", "include/GMDP/vectors/SpVec.h: get_edges"])

add("Tiles and matrices give back their memory",
 "A DCSC, CSR, COO, COOSIMD32 or DCSR tile built from any number of edges and destroyed, a DCSC or CSR tile read from an archive and destroyed, a matrix with its transpose, and a matrix read from an archive give back exactly what they requested. Deviations: destroying a COO or COOSIMD32 tile with edges that was read from an archive gives back an array through the wrong function; destroying a DCSR tile read from an archive gives back a pointer nobody set; destroying a tile and its copy gives back the same array twice; a DCSR tile that is cleared loses five arrays; a hybrid tile never gives back its two parts.",
 "all edge counts, thread and rank counts, distributions of tiles over ranks, initial heaps", "a wrong free can go unnoticed in a test; all histories and sizes",
 ["include/GMDP/matrices/DCSCTile.h", "include/GMDP/matrices/CSRTile.h", "include/GMDP/matrices/COOTile.h", "include/GMDP/matrices/COOSIMD32Tile.h", "include/GMDP/matrices/DCSRTile.h", "include/GMDP/matrices/HybridTile.h", "include/GMDP/matrices/SpMat.h: constructors, destructor, Transpose, serialize"])

add("Vectors give back their memory",
 "A vector, new or read from an archive, can go through any history of set, unset, setAll, compress, decompress, reset, receive, union and ingest and then be deleted: as long as segments exist and storage is used only where it was made, nothing fails, no buffer is given back twice or lost, and the blocks still in use afterwards are exactly those from before plus one for each ingest (three if the rank got no element). Without that condition the only possible failures are the assertions and null or out-of-range accesses the code has anyway; memory is never given back wrongly.",
 "all histories, vector and rank counts, archived states and initial heaps", "buffers move between three lists and are reused; all histories",
 ["include/GMDP/vectors/DenseSegment.h: buffer, alloc, compress, decompress, set_uninitialized, set_uninitialized_received, recv_segment, union_received, destructors, load", "include/GMDP/vectors/SpVec.h: constructors, destructor, ingestEdgelist, setAll"])

add("Graphs and runs give back their memory",
 "A graph loaded once (from an edge list, a file of edges or a binary file), used in any order (properties and active set, runs with and without a workspace, saved properties, edge lists, reductions) and destroyed gives back all memory, as long as each workspace is made when there is none and cleared before the end; exactly one block stays behind if the file held no edge, and one (three if the rank writes nothing) for each saved property file. Deviation: loading a second time loses the first graph's matrices and vectors.",
 "all sequences of actions, tile distributions, rank and segment counts and initial heaps", "all histories of a graph; leaks are invisible in tests",
 ["include/Graph.h: ReadEdgelist, ReadMTX, ReadGraphMatBin, saveVertexproperty, getEdgelist, applyReduceAllVertices, destructor", "include/GraphMatRuntime.h: graph_program_init, run_graph_program, graph_program_clear", "include/GMDP/singlenode/reduce.h", "include/GMDP/multinode/reduce.h"])

add("Parallel loops do the same under every schedule",
 "Every OpenMP loop of the library that runs in a superstep, in applyToAllVertices, applyReduceAllVertices, applyToAllEdges, setAll, sending and merging vectors, loading edges into a matrix and reading them back with any tile format, transposing, and shuffling or rewriting edge lists has one outcome: however the iterations are interleaved element access by element access, none fails or leaves the arrays, the loop can always be carried on to its end, and the arrays it leaves are those of the loop run in order. Counts and the convergence flag that are combined by an OpenMP reduction are the same however the reduction is split up and ordered.",
 "all interleavings of single accesses of all iterations, all inputs on which the loop run in order succeeds, all thread counts, contents of unset memory and splittings of a reduction", "data races depend on the schedule; a test sees one schedule",
 ["include/GraphMatRuntime.h: run_graph_program", "include/GMDP/singlenode/intersectreduce.h", "include/GMDP/singlenode/apply.h", "include/GMDP/singlenode/reduce.h", "include/GMDP/singlenode/unionreduce.h", "include/GMDP/singlenode/applyedges.h", "include/GMDP/vectors/DenseSegment.h: setAll, compress, decompress", "include/GMDP/matrices/DCSCTile.h", "include/GMDP/matrices/COOTile.h", "include/GMDP/matrices/CSRTile.h", "include/GMDP/matrices/DCSRTile.h", "include/GMDP/matrices/COOSIMD32Tile.h", "include/GMDP/matrices/HybridTile.h", "include/GMDP/matrices/SpMat.h: ingestEdgelist, Transpose", "include/Graph.h: ReadEdgelist", "include/GMDP/utils/edgelist.h", "include/GMDP/utils/edgelist_transformation.h: shuffle_edges"])

add("Sizes up to which 32-bit integers suffice",
 "All index arithmetic is done in 32-bit ints. Vertex renumbering never overflows, for any number of vertices an int can hold. Segment and tile boundaries do not overflow as long as the number of vertices plus 256 per segment fits (one more can overflow), tile numbers as long as the number of tiles fits, the division of rows, words and elements among threads as long as rows plus 64 resp. words plus partitions fit, word loops up to 2^31 - 32 elements (one more overflows), the column index of a tile as long as its edges plus partitions fit, create_bidirectional_edges exactly up to 2^30 - 1 edges. Deviations: with more than one rank a graph reports the right number of edges only if its own number and the total agree in the upper 32 bits (so never from 2^32 edges on if no rank has that many); a vector segment is sent correctly exactly if its bytes fit an int (otherwise fewer or a negative number of bytes is sent), likewise the messages of a vector load.",
 "all sizes, thread, rank and tile counts", "limits are far beyond what a test can allocate",
 ["include/Graph.h: vertexToNative, nativeToVertex", "include/GMDP/vectors/SpVec.h: SpVec, ingestEdgelist", "include/GMDP/matrices/SpMat.h: Allocate2DPartitioned, getPartition, getNNZ", "include/GMDP/matrices/DCSCTile.h: static_partition, constructor", "include/GMDP/vectors/DenseSegment.h: compress, send_segment", "include/GMDP/singlenode/reduce.h", "include/GMDP/utils/edgelist_transformation.h: create_bidirectional_edges"])

add("PageRank in single precision is close to the exact ranks",
 "PageRank computes in IEEE single precision, adding the contributions of the in-edges in an order that depends on the number of ranks, threads and tiles. Whatever the order in each superstep: one step at a vertex with k in-edges changes the exact new rank by a factor of at most (1 + 2^-24)^(k+3); if all in-degrees are at most D <= 2^20 and the program stops, no rank is infinite, NaN or not positive, and the differences between the ranks and any x that solves the PageRank equation up to e at each vertex add up to at most n/alpha * ((1-alpha) * 1.00001e-5 + e + 9*(D+3)/2^26). The same holds, with its own constants, for any arithmetic whose operations have a bounded relative error. Deviation: the same program on the same edges can compute different ranks on different numbers of ranks and threads.",
 "all graphs with fewer than 2^31 vertices and edges and in-degrees up to 2^20, all orders of the additions in each superstep, all machines", "rounding errors of all inputs and all orders of additions; a test compares a few graphs with a tolerance",
 ["src/PageRank.cpp", "include/GraphMatRuntime.h: run_graph_program", "include/GMDP/singlenode/spmspv.h", "include/GMDP/multinode/spmspv.h"])

add("The order in which messages are combined is fixed by the loaded graph",
 "For a reduction that is not associative, such as a sum of floating-point numbers, the result depends on the order in which the arriving messages are combined. A loaded graph has one such order for each direction and each vertex, and it uses every arriving message once. Every program and every later history of calls that leaves the edges alone follows it, whatever the number of threads and the contents of uninitialised memory. Hence the same calls on the same graph, also again after reset, give the same properties, and two runs of a program take the same number of supersteps and leave the same program object and properties, exactly and not only up to rounding. Deviation: on another number of ranks the same edges can be combined in another order and give another result.",
 "all machines, edge lists, earlier histories, programs and reductions, later histories that do not change edges, thread counts and contents of uninitialised memory", "depends on all thread counts and histories; with floating point a test usually compares with a tolerance",
 ["include/GraphMatRuntime.h: run_graph_program", "include/GMDP/singlenode/spmspv.h", "include/GMDP/multinode/spmspv.h", "include/GMDP/singlenode/spmspv3.h", "include/GMDP/multinode/spmspv3.h", "include/Graph.h: reset, setAllActive, setActive, setVertexproperty"])

add("PageRank in single precision stops",
 "PageRank follows one order of additions at each vertex in all its supersteps, so the ranks are a function of that order. In single precision, on any graph with in-degrees up to 2^20, it stops after at most 170002 * n + 1 supersteps, whatever the order: no rank ever falls, every superstep but the last raises the total of the ranks by at least 9.9999e-6, and the total stays below 2n. When it stops no rank is infinite, NaN or below alpha, and the bound of C79 on the distance to the exact ranks holds. The same, with its own constants, for any arithmetic with bounded relative errors that does not reverse the order of two numbers.",
 "all graphs with fewer than 2^31 vertices and edges and in-degrees up to 2^20, all machines, thread counts and contents of uninitialised memory", "a run that goes on for ever because of rounding cannot be excluded by running it",
 ["src/PageRank.cpp", "include/GraphMatRuntime.h: run_graph_program", "include/GMDP/singlenode/spmspv.h", "include/GMDP/multinode/spmspv.h"])

add("IncrementalPageRank in double precision stops and nearly solves the equation",
 "IncrementalPageRank computes in IEEE double precision, adding the contributions of the in-edges in an order that may differ in each superstep. On any graph with fewer than 2^31 vertices and edges it stops, after at most 400000005 * n + 1 supersteps. Each vertex then holds its out-degree and a rank that is finite and not below the double nearest to 0.3; a vertex without in-edges has exactly that rank. A rank exceeds what the PageRank equation asks for, given the other ranks, at most by the factor (1 + 2^-53)^(D+4+3K) for in-degrees up to D and K supersteps; it falls short of it by at most that factor, 1e-8, and what the forgotten raises of its in-neighbours would have contributed: raises above 1e-8 that were added to a rank but not sent on, because the rounded ranks differ by no more than 1e-8. There are at most K of them at a vertex, each at most about 1e-8 plus 2^-53 times the rank. Deviation: because of them the equation can fail by more than 1e-7 at a vertex, ten times the tolerance of the program.",
 "all graphs with fewer than 2^31 vertices and edges, all orders of the additions in each superstep, all machines", "termination and rounding errors for all inputs and all orders of additions; the forgotten raises need a rank that rounds just so",
 ["src/IncrementalPageRank.cpp", "include/GraphMatRuntime.h: run_graph_program", "include/GMDP/singlenode/spmspv.h", "include/GMDP/multinode/spmspv.h"])

add("Edge files of which only the first bytes were written",
 "A program writing an edge list may die at any moment, leaving any first part of each rank's file, or no file. Loading binary files afterwards: if a file ends inside its header the load stops with an assertion. If all headers are complete, the load succeeds: every rank counts as many edges as the headers announce, gets those that are in its files completely, in order, and for each lost one an uninitialised element at the end. Without headers the load returns exactly the complete edges, without any sign that others are missing, unless a rank meets a piece of an edge after its last complete one: then it stores past the end of its array. Text files behave likewise: cut before the third number of the header the load stops; cut later it succeeds, with the edges whose lines are complete in order (float and double weights as C84 says), and of the elements after them at most the first is set, from a torn line; a header that lost the last k digits of its count announces the count divided by 10 to the k; without headers exactly the edges with complete lines are returned, unless a digit of a torn line is left after a rank's last complete line: then the load stores past the end of the array. A cut can also change an edge: with the last two bytes missing, a weight of two digits or more comes back divided by ten, and the load looks complete.",
 "all edge lists, cuts in each file, numbers of writing and loading ranks, binary and text formats with and without header and weights", "quantifies over all crash points of all writes",
 ["include/GMDP/utils/edgelist.h: load_edgelist, write_edgelist, readLine, get_maxid_and_nnz"])

add("Float and double weights through edge files",
 "Edges with finite float weights written to text files and loaded again, by any number of ranks, come back in the same order with the same ends. A weight comes back off by at most 10^-8; it is unchanged if its magnitude is 1/8 or more, or if 8 decimals express it; it becomes 0, with its sign, if it is below half of 10^-8; weights keep their order, though different ones may become equal. Writing the loaded edges again gives the same files byte for byte. With double weights the same holds with 15 decimals and unchanged from 8 on. Through binary files every float and double, infinities included, comes back exactly.",
 "all edge lists, all finite weights (all weights for binary files), numbers of writing and loading ranks, formats with and without header", "ranges over all floating point numbers and all lists; decimal rounding has rare worst cases",
 ["include/GMDP/utils/edgelist.h: readLine, writeLine, load_edgelist, write_edgelist"])

add("GraphMat's binary files after an interrupted save",
 "A save by WriteGraphMatBin may die at any moment, leaving any first part of each rank's file, or no file. If at least one file is not complete, ReadGraphMatBin afterwards never yields a graph, with any numbers of ranks and threads: the rank that reads an incomplete or missing file fails, whatever the other files are. Deviation: a save over an older one can also leave complete files of both. If the two graphs have as many vertices, and were saved and are loaded with the same ranks and threads, then these files are loaded together without any sign of it: each pair of vertices has a rank, and the edges between them come from the save whose file that rank has; the transposed matrix goes by the rank of the reversed pair, so that the graph loaded can be neither of the two saved and can have different edges in its two matrices.",
 "all graphs reached by any calls, all cuts in each file, all choices of files from two saves, numbers of ranks and threads", "quantifies over all crash points of all saves",
 ["include/Graph.h: ReadGraphMatBin, WriteGraphMatBin", "include/GMDP/matrices/SpMat.h: serialize", "include/GMDP/matrices/DCSCTile.h: load, save"])

add("Archives of tiles and vectors that are cut short are refused",
 "An archive of a tile, in any of the six formats, or of a rank's part of a vector after any history, of which the end is missing never loads: whatever is kept of it, loading fails instead of giving a tile or vector with fewer elements.",
 "all entry lists, tile sizes and offsets, vector histories, thread counts and cuts", "quantifies over all cuts of all archives",
 ["include/GMDP/matrices/DCSCTile.h: load, save", "include/GMDP/matrices/CSRTile.h: load, save", "include/GMDP/matrices/COOTile.h: load, save", "include/GMDP/matrices/DCSRTile.h: load, save", "include/GMDP/matrices/COOSIMD32Tile.h: load, save", "include/GMDP/matrices/HybridTile.h: serialize", "include/GMDP/vectors/DenseSegment.h: load, save", "include/GMDP/vectors/SpVec.h: serialize"])

add("What the programs print about a graph in edge files",
 "The programs BFS, SSSP, DeltaStepping, TopologicalSort and TriangleCounting, given edge files in the binary format with header (any number of files, numbers that fit an int, vertices from 1 to n, where n is the largest dimension in any header), print the following, with any number of ranks and threads. BFS: on rank 0 how many vertices can be reached from the source; for each vertex up to 10 its number, the number of edges of a shortest path and a vertex before it on such a path, -1 for the source, or INF if it cannot be reached. SSSP, for weights that are not negative and whose sums along paths stay below 2^32 - 1: the same count and for each vertex up to 25 the distance or INF. DeltaStepping, for the weights for which it works (C58), prints the same and on rank 0 the number of buckets, which is one more than the largest distance divided by delta, rounded down. Deviation: it needs the largest number of rows in a header to be the largest number of columns; otherwise it always fails, where the other programs work. TopologicalSort: only, on rank 0, that the graph has cycles, if it has; otherwise for each vertex up to 10 the number of edges of a longest path that ends there. TriangleCounting, without repeated edges and with fewer than 2^31 triangles: on rank 0 their number, and for each vertex up to 10 the number of those with the vertex in the middle. Each vertex has one rank that prints its line; each rank prints its lines in increasing order of the vertices; all numbers are in decimal notation.",
 "all sets of edge files, sources, numbers of ranks and threads", "end to end for all inputs, from bytes of files to characters of the output",
 ["src/BFS.cpp: run_bfs", "src/SSSP.cpp: run_sssp", "src/DeltaStepping.cpp: run_deltastepping", "src/TopologicalSort.cpp: run_topsort", "src/TriangleCounting.cpp: run_triangle_counting", "include/Graph.h: ReadMTX, vertexNodeOwner, getVertexproperty"])

add("What PageRank and IncrementalPageRank print about a graph in edge files",
 "Given edge files as in C87, both programs stop, and for each vertex up to 25 one rank prints a line with the vertex, its out-degree and its rank with six decimals; each rank prints its lines in increasing order. PageRank, for in-degrees up to D <= 2^20: no printed rank is below 0.300000, and for every x that solves the PageRank equation up to e at each vertex, the differences between the ranks as printed and x add up to at most n/alpha * ((1-alpha) * 1.00001e-5 + e + 9*(D+3)/2^26 + alpha * 5e-7), over all vertices. IncrementalPageRank, on every graph with fewer than 2^31 vertices and edges: the printed rank is within 5e-7 of one that nearly solves the equation in the sense of C82; a vertex without in-edges has 0.300000.",
 "all sets of edge files, numbers of ranks and threads, contents of uninitialised memory", "end to end for all inputs, from bytes of files to characters of the output, including all roundings",
 ["src/PageRank.cpp: run_pagerank", "src/IncrementalPageRank.cpp: run_pagerank", "include/Graph.h: ReadMTX, vertexNodeOwner, getVertexproperty"])

add("The command line of graph_converter",
 "Options and the names of the two files may come in any order. An option with a value can be given as --name value, --name=value, or, if it has a letter, -l value or -lvalue; values are int numbers in decimal notation without leading zeros; --uppertriangular, --bidirectional and --randomizeID take no value; after -- all arguments are names of files. With exactly two names, the conversion of C60 runs from the first to the second, with the last value given to each option and its default if none is given, provided these options are acceptable; if they are not, nothing is read or written. With fewer or more names, or after --help, the help is printed and nothing else happens. Letters that are no options, and values given with = to options that take none, are left out with a message. Deviations: -h needs another argument after it and is ignored without one; a long option that is not spelled out, or does not exist, reads past the end of the table of options; -p, the letter for --split, reads through a null pointer; a value that does not begin like a number is ignored silently, as is an option at the end without its value; a number with a leading 0 is read as octal.",
 "all lists of arguments of that form, all names and values", "quantifies over all command lines",
 ["src/graph_converter.cpp: main, initOptions, validateOptions"])

add("The arguments of the programs, and a source that is no vertex",
 "BFS, SSSP, DeltaStepping, TopologicalSort, TriangleCounting, PageRank and IncrementalPageRank, with fewer arguments than they need, print on every rank how they are used, and do nothing else. Otherwise they run (C87, C88) on the files of the first argument; the source, and for DeltaStepping the width before it, are read as decimal numbers, and what follows the number in its argument and all further arguments are ignored. With a source that is not one of the vertices 1..n, BFS, SSSP and DeltaStepping print nothing and fail, if the graph has at least 16 * threads * ranks vertices or the source is larger than n. Deviation: on a smaller graph a source from 2 - 16 * threads * ranks to 0 is taken for vertex 1 without any sign of it; as a word that is no number is read as 0, the results for vertex 1 are printed for it too.",
 "all argument lists, names, numbers that fit an int, sets of edge files, numbers of ranks and threads", "quantifies over all arguments and graphs",
 ["src/BFS.cpp: main", "src/SSSP.cpp: main", "src/DeltaStepping.cpp: main", "src/TopologicalSort.cpp: main", "src/TriangleCounting.cpp: main", "src/PageRank.cpp: main", "src/IncrementalPageRank.cpp: main", "include/Graph.h: vertexToNative, setVertexproperty, getVertexproperty", "include/GMDP/vectors/SpVec.h: getPartition, set, get"])

add("Vertex numbers that do not exist",
 "In every graph reached by any calls, let n be its number of vertices and P = 16 * threads when it was loaded * ranks. setVertexproperty, getVertexproperty, setActive, setInactive and vertexNodeOwner with a number above n, or, if n >= P, below 1, or below 2 - P, fail; nothing is read or changed. Deviation: if n < P, the numbers from 2 - P to 0 are not refused but are taken for vertex 1: every history of calls with such numbers gives the graph, and every reading gives the value, that it gives with 1 in their place.",
 "all histories of calls including those with such numbers, all numbers, graphs, ranks and threads", "quantifies over all histories and numbers",
 ["include/Graph.h: vertexToNative, setVertexproperty, getVertexproperty, setActive, setInactive, vertexNodeOwner", "include/GMDP/vectors/SpVec.h: getPartition, set, unset, get, node_owner"])

add("Edges whose vertex numbers do not exist",
 "ReadEdgelist with n vertices, where P = 16 * threads * ranks: if any edge on any rank has an end above n, or, if n >= P, below 1, or below 2 - P, the graph is not loaded: the call fails. Deviation: if n < P, numbers from 2 - P to 0 are not refused; the graph is the one loaded from the edges with 1 in their place, and getEdgelist then returns these. So edges counted from 0 are loaded without any sign on a small graph, with the vertices 0 and 1 merged, and refused on a larger one.",
 "all edge lists split over ranks in any way, all numbers, ranks and threads", "quantifies over all edge lists, ranks and threads",
 ["include/Graph.h: ReadEdgelist, vertexToNative, getEdgelist", "include/GMDP/matrices/SpMat.h: getPartition, ingestEdgelist"])

add("Edge files with vertex numbers that do not exist",
 "The seven programs of C87 and C88 are given edge files as there, except that vertex numbers may be any ints; n is the largest dimension in a header and P = 16 * threads * ranks. If an edge in any file has an end above n, or, if n >= P, below 1, or below 2 - P, the program fails and prints no result. Deviation: if n < P, numbers from 2 - P to 0 are not refused; the program prints what it prints for files with 1 in their place (DeltaStepping: if the headers have as many rows as columns). So files counted from 0 are processed without any sign, with vertices 0 and 1 merged.",
 "all sets of edge files, all vertex numbers that fit an int, sources, numbers of ranks and threads", "end to end for all inputs; small test graphs, which are below P, hide the check",
 ["include/Graph.h: ReadMTX, ReadEdgelist, vertexToNative", "include/GMDP/matrices/SpMat.h: getPartition, ingestEdgelist", "src/BFS.cpp", "src/SSSP.cpp", "src/DeltaStepping.cpp", "src/TopologicalSort.cpp", "src/TriangleCounting.cpp", "src/PageRank.cpp", "src/IncrementalPageRank.cpp"])

add("What SGD and LDA print about a graph in edge files",
 "Given edge files as in C87 and exact arithmetic, every rank of SGD prints the root of the squared error per edge, before and after ten steps down the gradient (C69), then a line with the vector for those of the first ten vertices that it owns, and each vertex is owned by one rank. LDA ends with a failure if the numbers of documents and terms do not add up to the number of vertices; otherwise, after the given number of rounds (C70), ten if there is no fourth argument, every rank prints a line for those of the first five documents and the first five terms that it owns, with the kind and the numbers of the vertex, and then rank 0 the log-likelihood. If one of these documents or terms is no vertex, LDA fails. Deviations: with five vertices or more, a number of documents above the number of vertices goes unnoticed; with a negative number of documents, terms whose numbers are taken for vertex 1 (C91) get a line with the numbers of vertex 1. With too few arguments both print how they are used. Vertex numbers that do not exist are treated as in C93.",
 "all sets of edge files, arguments, numbers of ranks and threads, start vectors", "end to end for all inputs, from arguments and bytes of files to characters of the output",
 ["src/SGD.cpp: main, run_sgd, LatentVector::print", "src/LDA.cpp: main, run_lda", "include/Graph.h: ReadMTX, nnz, vertexNodeOwner, getVertexproperty"])

with open(os.path.join(os.path.dirname(__file__), "..", "properties.jsonl"), "w") as f:
    for p in P: f.write(json.dumps(p) + "\n")
print(len(P))
