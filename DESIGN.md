# Formal model of GraphMat in Coq 8.16.1

## Approach

The C++ in `/repo` is read as text.  Every modelled function becomes a small total Gallina
function; each definition carries a comment citing the file and lines it models and any
simplification.  Layers:

1. `Base` result monad (`Ok`/`Err e`), checked array reads and writes, counted loops.
   Out-of-bounds access, uninitialised reads, failed asserts, `exit`, double free, use after
   free and fuel exhaustion are distinct error outcomes, so "no undefined behaviour" is part
   of every theorem that concludes `= Ok ..`.
2. Code-level models (`Layout`, `VertexMap`, `Segment`, `SpVec`, `Dcsc`, `SpMat`, kernels,
   multi-rank phases, runtime, edge-list utilities, file formats, applications).
3. `Spec`: short independent definitions (edge multisets as lists up to permutation, reference
   superstep on user ids, hop distance, path weight, topological levels, triangles...).
4. `Props*.v`: only theorem statements closed by `exact lemma`, `Print Assumptions`, and an
   `Example` showing that a concrete non-trivial case meets the hypotheses.

Conventions: C `int` arithmetic is modelled in `Z` (no wraparound) except where a property is
about wraparound; the preconditions "fits in 32 bits" are then part of the trusted base (listed
below).  `/` and `%` on ints are `Z.quot`/`Z.rem`.  Bit vectors are lists of words `N` below 2^32.
`std::sort`/`__gnu_parallel::sort` (unstable) is a relation: the result is any permutation sorted for
the comparator, so theorems hold for every tie order.  OpenMP loops: threads are sequences of
atomic steps with a write footprint; theorems quantify over every interleaving.  MPI: all ranks'
states are a list; collectives act on the list; the blocking point-to-point protocol is modelled as
a transition system with synchronous sends.

## Trusted base

* Coq 8.16.1 kernel, `coqc`; `Print Assumptions` output for every property theorem (target: "Closed
  under the global context" everywhere; deviations listed in section *Assumptions* at the end).
* The faithfulness of the transcription from C++ (no extraction, the code is not run).
* Not modelled: floating point rounding outside the two PageRank programs and edge files (the other programs with floats are
  proved for any arithmetic, or with exact rationals; C79, C81, C82 and C84 are about IEEE single and double precision,
  assuming that the compiler neither reassociates nor contracts), `int` overflow of sizes (C78
  says for the index arithmetic up to which sizes there is none; sums of user values and of edge counts over
  messages are not checked), boost archive byte formats (an archive is the sequence of values
  written), real file systems, MPI library internals, compiler reordering of racy accesses, timing
  and logging output, memory exhaustion.

## Per-property plan

| id | model | proof |
|---|---|---|
| C01 | `vertexToNative`/`nativeToVertex` over Z with quot/rem | division lemmas; two-sided inverse + range |
| C02 | relabel, owner sort, all-to-all exchange, tile sort with border search, tile build, get_edges | permutation chain |
| C03 | per-rank SpVec of segments, op sequences | refinement to a finite map by induction over histories |
| C04 | active vector, op sequences | refinement to a set |
| C05 | run loop body over ranks | refinement to reference superstep |
| C06 | run loop | trace semantic of loop; induction on supersteps |
| C07 | corollary of C05/C06 | both sides equal the reference run |
| C08 | apply phase | invariant of superstep |
| C09 | send wrapper with boolean result | two programs differing in result only give equal runs |
| C10 | fresh graph state | computation of the initial intersect |
| C11 | ALL_VERTICES branches | invariant of loop |
| C12 | loop instrumented with an event trace | induction |
| C13 | Apply | map lemma |
| C14 | MapReduce over threads and ranks | fold rearrangement with commutative monoid |
| C15, C16 | ApplyEdges on A and AT | permutation of edge multisets kept |
| C17 | `Share.v`: a heap of matrices, property vectors and activity vectors, graph objects holding pointers and the owner flag, and the calls that move them (load, shareVertexProperty, a use of the properties, a use of the edges, destructor). The contents of a property vector are one abstract value. `ShareSpec.v` states the rules on the sequence of calls alone. Proof: an invariant relating the heap to the calls so far (`ShareProofs.v`); the violations are theorems over every rule-abiding prefix (`ShareBad.v`). |
| C18 | `GraphBin.v`: a binary file as the sequence of items boost is asked to write (SpMat::serialize with its vectors of tile pointers, the tile archives of C32, num_threads), a folder of files by rank, the per-rank checks of ReadGraphMatBin. The archive's own header, class versions, object numbers and item bytes are not modelled. Proof: round trip of every nested archive; the reloaded graph satisfies the invariant of freshly loaded graphs, so every theorem about calls applies to it. |
| C19 | get_edges, relabel, ingest, save | exact list of lines |
| C20 | segment boundaries | arithmetic |
| C21 | one segment, op sequences | refinement to partial map |
| C22 | compress, metadata, transfer, decompress | equality of contents for all thread counts |
| C23 | union_dense/union_compressed fold over queue | fold lemma, permutation of arrivals |
| C24 | partition ranges of decompress/union | disjoint footprints, generic interleaving theorem |
| C25, C26 | SpVec ingest/get_edges/getNNZ | permutation chain, sums |
| C27 | tile partition | arithmetic |
| C28, C29 | DCSC constructor, static_partition | loop invariants, permutation |
| C30 | kernel, threads as step lists | interleaving theorem |
| C31 | look-ahead index | exact characterisation |
| C32 | tile archive | round trip |
| C33 | 32-bit reduce in a 64-bit word | modular arithmetic |
| C34 | factorize_int, partition functions | loop termination, arithmetic |
| C35 | MPI operations with synchronous or eager sends, matching in channel order, collectives (Mpi.v); the operation list of every rank in SpMSpV, SpMSpV3, ApplyEdges, MapReduce and the edge shuffle (Exchange.v; buffers abstracted to labels) | every rank's list is the projection of one common plan; in a stuck state the rank with the earliest wait could go on; steps bounded by a measure; channel prefixes give matching labels |
| C36-C45 | edge-list utilities | list lemmas, loop invariants |
| C46-C48, C65 | `FileIO.v`: files as lists of bytes, FILE* streams with the eof flag, fread/fscanf/fprintf of the formats the code uses (overlong numbers through an arbitrary function `wide`), directories as files by number. `FileSpec.v` says what a file contains and what a load gives. Weight types by their encoding; int and unsigned are given here, float and double under C84. Proof: `load_exact` gives the result of every load of well-formed files, the claims are its corollaries. |
| C49-C51 | searches with checked reads | well-founded recursion/fuel |
| C52-C59 | applications on the reference superstep | graph-theoretic invariants, termination measures; for C54 the invariant holds for any weights: each value is 2^32-1 or a walk's weight modulo 2^32 (SsspWrap.v); for C56 on any graph the merge of two sorted vectors counts the smaller multiplicities (TriangleAll.v); for C58 with any weights the light phases end because the sum of the labels falls, and a bucket number never exceeds (2^32-1)/delta (DeltaAny.v; delta 0, an integer division by zero, is excluded) |
| C60 | src/graph_converter.cpp: options and their check, reading (edge files, GraphMat files), the steps, writing (Convert.v); the command line is C89 | each step of the pipeline is one of the functions of C39-C46, C18; an invariant (lists held, dimensions, ids in range) is carried through and the relations composed; options by case analysis |
| C61 | the constructors and get_edges of COOTile, CSRTile, DCSRTile, COOSIMD32Tile and HybridTile (Tiles.v), reads past an array's end as a parameter (any value, or an error) | loop invariants over the filled prefix of each array; splits of sorted arrays (`cross`); for COOSIMD32 a multiset invariant over the bins of 32 rows and distinctness of the bins in one rotation; Hybrid by reduction to CSR, DCSR and COOSIMD32 |
| C66 | `TileKernel.v`: the multiplication kernels of COOTile, CSRTile, DCSRTile, COOSIMD32Tile and HybridTile, each as a sequential loop and as a pool of threads whose single accesses interleave; the specification is `TileSpec.v` | every kernel is reduced to one loop over the entry list (`ientry`), whose result is the row reduction of C30; threads never share a bit-vector word because partitions end at multiples of 32 rows, so all schedules agree with the loop |
| C67 | `TileArchive.v`: `save` and `load` of COOTile, CSRTile, DCSRTile, COOSIMD32Tile and `serialize` of HybridTile as functions between tiles and lists of archive items; integers never set are a parameter | round trip by reading back what was written item by item; the number of stored DCSR rows is below the tile's height exactly if a row has no entry, which is when `save` runs past the row pointers |
| C68 | `IncRank.v`: src/IncrementalPageRank.cpp on the graph API, over an arbitrary record of double operations; the theorems use rational numbers. The equation is in `FlowSpec.v` | invariant: rank plus what is held back equals start plus the damped inflow of what has been sent; the total absolute amount not yet sent falls by alpha*eps per superstep, because spreading over out-edges creates nothing; the same contraction gives termination and the error bound of PageRank.cpp (C57) |
| C69 | `Sgd.v`: src/SGD.cpp on the graph API, arrays as lists of fixed length, over an arbitrary record of double operations; the theorems use rational numbers. The descent, the objective and the error are in `SgdSpec.v` | invariant over the supersteps: the stored vectors are those of the descent; sums over edges regrouped by vertex; the direction is shown to be the linear coefficient of the objective along every line |
| C70 | `Lda.v`: src/LDA.cpp on the graph API, over an arbitrary record of double operations including log, with the run loop for a `do_every_iteration` that uses the graph; unset memory is a parameter; the theorems use rational numbers and any function as logarithm. The rounds, the totals and the probabilities are in `LdaSpec.v` | invariant over the supersteps: stored arrays are those of the rounds and the object holds the totals; conservation: both ends of an edge get the same parts of its weight, which are shown positive and complete |
| C71 | `VecArchive.v`: the save/load/serialize functions of buffers, segments and vectors, an archive being a list of typed items; unset memory is a function of the position in the archive | the loaded segment agrees with the saved one in everything but the contents of unset cells, which the representation invariant of C21-C23 ignores; so the specifications of all operations and transfers apply to it |
| C72 | `EdgeList.v`: `randomize_edge_direction` with the random sequence as a parameter; `get_dimensions` with the OpenMP and MPI reductions over any distribution of the edges | in-place loop invariant; maxima compose |
| C73-C76 | `Mem.v`: a heap of numbered blocks with the way each was requested (`_mm_malloc`, `new[]`, `new`); the requests and releases of edge lists, tiles, matrices, segments, vectors, graphs and runs, without contents; releasing twice, in the wrong way or through an unset pointer is an error. `MemSpec.v`: what may stay behind | weakest preconditions over "the blocks in use are L up to order", one ownership predicate per object, composed over arbitrary histories; a second, heap-free logic shows which histories break no precondition |
| C77 | `ParLoop.v`: every parallel loop as a pool of threads, one per iteration, over up to four shared arrays, one element access per step (`Conc.v`); a reduction clause combines the contributions of the iterations in any grouping and order | each thread follows the sequential body and touches only elements it owns; ownership of different threads is disjoint, so all interleavings agree with the sequential loop (`pool_any`); ownership comes from word numbers, partitions, prefix sums, edge pointers and the scatter slots (`ParLoop*.v`). The loops of the other tile formats are in `ParTiles.v`: ranges of rows or partitions given by rising pointers, which the constructors are proved to produce; the loop of COOSIMD32Tile.h:224-318 reads and overwrites `ia`, each thread in its own range. Loops under `__DEBUG` are not treated |
| C78 | `CInt.v`: checked `int` versions of the relabelling, boundaries, partitions, word loops, column index, doubling; `uint64_t` reduced as `MPI_INT` and `size_t` passed as `int` modulo 2^32 | range of every intermediate value, division lemmas; equality with the `Z` model where all fit; counterexamples one past the bound |
| C79 | `Float32.v`: the operations of PageRank.cpp as IEEE-754 single and double precision operations (Coq's SpecFloat, round to nearest even); `FloatSpec.v`: what is asked of an arithmetic, with rational values | error factors are multiplied along any combination tree; the total of the ranks stays below 2n; contraction of the exact step in the sum of absolute differences. That single precision meets `FloatSpec.rounds` goes through Flocq and the real numbers |
| C80 | `Tree.v`, `OrderSpec.v`, `OrderHist.v`: a combination order as a binary tree over the positions of the edges that arrive at a vertex; what a run and a history mean under a given order, with no freedom left | the tile walk of each product is a tree over the tile cells that depends only on the matrix (`MultProofs.cell_tree`); inactive sources drop out of it; the two directions are joined in a fixed way; the run loop and all calls that leave the edges alone keep the matrices (`same_edges`), so every history follows the tree read off the graph after loading; the meaning under an order is unique by induction on the history. Threads and junk do not occur in the tree. Example with a reduction that writes digits one after the other, and the same edges on another number of ranks giving another number |
| C81 | `FloatOrder.v`: one step of PageRank under a given order of additions; what it means that an arithmetic is monotone | by C80 the run follows one tree per vertex; the same tree over larger numbers gives a larger result (`FloatMono.add_mono`), so starting from alpha no rank falls; an unsettled superstep raises one rank by more than the tolerance, the total is bounded by C79's invariant; rounding to nearest is monotone (Flocq's `round_le`), so single precision qualifies |
| C82 | `Double64.v`: the operations of IncrementalPageRank.cpp in IEEE double precision; `DoubleSpec.v`: what is asked of the arithmetic | a weighted total of ranks, changes still to be sent and changes below the tolerance falls in each superstep (`DoubleProofs.light_step`), which bounds the ranks; an unsettled superstep raises the total of the ranks, so the run stops; at each vertex the changes sent, forgotten and received are accounted for up to rounding factors (`acc_step`, `settled`); Flocq for double precision (`Double64Proofs.v`); the deviation is a graph run in the model |
| C83 | `FileCutSpec.v`: each file of a directory is the first K(i) bytes of what the write would have left, for any K; bytes reach a file in the order they are written. Loads by `FileIO.v` | a readLine that meets fewer bytes than an edge stores at most a part of one array element and ends the file (`FileCut.readLine_part`); the elements after the complete edges are carried along as not fully initialised (`cut_all`); the room needed against the count of the first pass decides between a result and a store out of bounds (`room_header`, `room_plain`, `room_overflow`). Text files (`FileCutText.v`, `FileCutTextClaims.v`): a cut leaves the header, complete lines and the beginning of a line (`text_form`); a torn line without a digit stores nothing, one with a digit stores into the next element only and ends the file (`FileCutText.readLine_part`), so the same count of rooms decides (`text_all`). Loss of the last digit: the cut file is the content of another list (`text_digit`). A header cut between the digits of its count is the header of a smaller count without its newline (`print_u_front`, `read_short`). Weights enter only by what scanning a beginning of a printed one leaves (`cuttable`); finite floats and doubles have that (`FloatCut.v`) and their files are those of the weights read back (`float_file`) |
| C84 | `FloatText.v`: the bytes of a float or double, `%.8f` and `%.15lf` as rounding of the exact value to decimals, `%f` and `%lf` as rounding of the number in the file to the nearest float, both ties to even (what glibc does). Numbers in the file with an exponent, in hexadecimal, inf and nan are read by an arbitrary function. `FloatTextSpec.v`: what becomes of a weight | the float read back is at least as near to the printed decimal as the float printed, and ties went to an even last digit, so it prints the same (`reread_print`); so the file is also the file of the weights that come back, and these are read exactly: the load theorems of C46 and C47 apply (`text_trip`). Distance, order and small weights from the two roundings; from 1/8 (or 8) on floats are further apart than the last decimal (`spaced`) |
| C85 | `GraphCutSpec.v`: each file found is missing or a beginning, as a sequence of items, of what the save of `GraphBin.v` would have written (a cut inside an item is one before it). Loads by `GraphBin.v`. The code does not compare the files of different ranks; `mat_join` has no value when their sizes differ, so files of graphs with different numbers of vertices are not covered | each reader gives the same on more items (`GraphCut.extends`, for every nested archive) and reading a complete file leaves nothing, so a proper beginning cannot be read; files of two saves: the tiles of a matrix put together from both hold the edges selected by the owner of their tile (`GraphMix.mix_join`), and export reads them off (`exported_at`); the deviation is run in the model |
| C86 | the loaders of C32, C67 and C71 (`DCSC.v`, `TileArchive.v`, `VecArchive.v`) | every loader gives the same when more items follow (`ArchiveCut.steady`), and by the round trips nothing is left after a complete archive (`cut_refused`) |
| C87 | `Cmd.v`: ReadMTX (load, then a square matrix of the larger dimension), the programs of C52, C53, C55, C56 and C58, and the loops that print, as the characters printed by each rank. `CmdSpec.v`: the files as in C46, decimal notation from the standard library. The arguments are C90. Not modelled: the lines about times and progress, the order in which the output of different ranks arrives | the load gives the edges of the files up to order (C65); graph notions do not depend on the order of the edges; no vertex falls behind the bucket that is processed, which gives the number of buckets; digits by the correctness of the decimal conversions of C46 |
| C88 | `CmdRank.v`: as C87, with the programs of C81 and C82 and %f, assumed to round the exact value to six decimals, ties to even (`print_f` of C84). `millionths` in `CmdSpec.v`: six decimals through the standard library's decimal notation | C81 and C82 for the loaded edges; the equation does not depend on the order of the edges; the digits after the point are those of 10^6 + the rest without the leading 1; each printed rank is within half a millionth |
| C89 | `ConvertCmd.v`: main of src/graph_converter.cpp up to the conversion, with getopt_long as in glibc (options and names mixed, `--`, `--name=value`, letters with the value joined) and sscanf with %i; the unterminated table makes any name not spelled out an out-of-bounds read. `ConvertCmdSpec.v`: the words a user writes and the options they want, without the parser. Not modelled: messages about wrong options, POSIXLY_CORRECT | one word leaves the parser ready for the next with the option set; induction over the words; the last value of each key by induction from the end; %i of a printed int through the decimal digits of the standard library |
| C90 | `CmdArgs.v`: the main functions of the seven programs of C87 and C88 with atoi; an int overflow in `vertex-1` for the source -2^31 is not looked at (the model fails there too) | atoi of a printed number through the decimal digits; vertexToNative truncates toward zero, so with no whole row of vertices every small negative position falls on the first one, and else on none: then the assertion of the vector's set or get fails on the first rank; the steps before it keep the sizes |
| C91 | the model of the calls on a graph (`GraphHist.v`, `GraphVert.v`, `Vec.v`, `Layout.v`) | every call, also a run, keeps the number of vertices and of threads at loading; then as C90: the two cases of vertexToNative, through every call that takes a vertex, by induction over the history |
| C92 | the model of ReadEdgelist (`Graph.v`, `SpMat.v`, `Layout.v`) | the two cases of vertexToNative as in C90; an end without a block makes the assertion on the tile number fail, on the sending side with several ranks and on the receiving side with one; otherwise both edge lists have the same numbers inside, and C02 gives the export |
| C93 | the commands of C87 and C88 (`Cmd.v`, `CmdRank.v`) on files without the condition on vertex numbers | what the ranks read is known from C87; every program loads its graph, DeltaStepping its two graphs, before it does anything else, so C92 decides; filtering by weight does not depend on vertex numbers |
| C94 | `SgdCmd.v`: SGD.cpp and LDA.cpp from the arguments and files to the text; printf of doubles, the square root and the logarithm are arbitrary functions, the arithmetic is exact as in C69 and C70 | C69 and C70 on what the ranks read (C87), with C91 for numbers of documents and terms that lead outside the graph; sums do not depend on the order of the edges; no call changes the number of edges that C33 gives; arguments as in C90, vertex numbers as in C93 |
| C62 | rerun with stale buffers | corollary of C05 |
| C63 | Same run model with an arbitrary reduce function. `combination op l u` (Reduce.v): `u` is obtained from the values of `l`, each used once, two at a time in any grouping. The refinement proof of runs carries the outcome of every reduction as a choice; with a commutative and associative operation the choice is unique, which gives C05. |
| C64 | `ParSet.v`: DenseSegment::set as a thread of single reads and writes of the words, values, count and flag of a buffer (sequentially consistent interleavings). Invariant over all schedules for entries in different words; an explicit losing schedule for two entries of one word; `TopRace.v` splits run_topsort at its parallel loop and runs the loop's activations at once. |

## Assumptions

Every property theorem is "Closed under the global context", with twelve exceptions. `C79_float32`,
`C79_pagerank_float32`, `C81_float32_monotone`, `C81_stops_float32`, `C82_float64`, `C82_increment_float64`, `C84_text_float`, `C84_text_double`, `C83_text_float_files`, `C83_text_double_files`, `C88_pagerank` and `C88_incremental` go through the real
numbers of the standard library, because Flocq states the correctness of rounding over them. `Print Assumptions` lists for these twelve:

* `ClassicalDedekindReals.sig_not_dec`
* `ClassicalDedekindReals.sig_forall_dec`
* `FunctionalExtensionality.functional_extensionality_dep`
* `Classical_Prop.classic`

All four are axioms of the standard library. Flocq adds none. `coqchk -o` lists in addition the contents of
modules of the standard library that are sealed with a signature: `Coq.Reals.Rdefinitions.RbaseSymbolsImpl` and
`RinvImpl` (the construction of the reals) and `Coq.ssr.ssrunder.Under_rel`. They are defined there, not
assumed; only the twelve theorems above use the reals and none uses `Under_rel`. No file of this development
declares an axiom.
