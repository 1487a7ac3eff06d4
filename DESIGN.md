# Formal model of osmgraphing in Rocq — design

## Trusted base

* Coq 8.16.1 kernel (no kernel checks disabled, no axioms of our own).
* `Print Assumptions` is issued after every property theorem; the results are listed in the section *Assumptions* at the end.
* The hand translation from Rust to Gallina: every definition cites the modelled lines of /repo.

## Modelling conventions

* `f64` is modelled as exact rationals extended by +inf, -inf and NaN (`F64.v`). The `ModelRounded*.v` files repeat what calculates with rounding and overflow of IEEE arithmetic (C60, C63, C64, C67-C71); everything else is exact.
* `usize` is `nat` (no overflow except where an explicit `Panic` is modelled), `i64` is `Z`.
* Panics (index out of bounds, unwrap/expect, arithmetic underflow) are explicit values; `Err` is an explicit value.
* `Vec` is `list`; in-place mutation is returning the new list.
* The queue of the routing occurs twice: as an oracle in `ModelDijkstra.v` (any function that removes one element and, where optimality is concerned, one that is minimal up to delta), and as std's `BinaryHeap` with the order of the cost nodes in `ModelHeap.v`. `ProofHeapSearch.v` shows that the search with the heap is a search with some such oracle. std's heap itself (sift-up, sift-down-to-bottom) is transcribed from its documented implementation, as it isn't part of /repo.
* std sorts are modelled by a stable insertion sort (for `sort_unstable` on unique keys or plain ids stability is irrelevant).

## Plan per property

| id | property | how |
|---|---|---|
| C01 | Node set of a built graph is exactly the set of edge endpoints | builder model (insert/next), induction over the insertion list |
| C02 | Node insertion: accepted iff endpoint, last coordinate wins | builder model, induction over node insertions; binary search model |
| C03 | No graph without coordinates | finalize model (coordinate check) |
| C04 | Node lookup by id is the inverse of id lookup | binary search on sorted list; graph invariant from the builder |
| C05 | Finalizing neither invents nor loses edges | finalize model: sort is a permutation, in-place dedup refined to a list-level dedup |
| C06 | Forward adjacency is exactly the leaving edges | offset-array construction refined to filter by source; refuted for trailing nodes, proved under the guard that the last node has a leaving edge |
| C07 | Backward adjacency is exactly the entering edges | same for backward arrays + bwd_to_fwd_map |
| C08 | between(src, dst) finds an edge iff one exists | corollary of C06 adjacency |
| C09 | Edge ids are unique and lookup by id is the inverse of id lookup | sort + dedup_by_key + binary search |
| C10 | Leaving edges are ordered by descending level of the far end | sortedness of the sort key; break = filter lemma |
| C11 | Shortcuts keep referring to the edges they were declared with | index remapping through stable sort and dedup, proved against "representative" specification |
| C12 | Metrics of a built graph are at least the accuracy | metric clamp; NaN counterexample as refuted theorem |
| C13 | Normalization divides by the mean | rational arithmetic, sums over lists |
| C14 | Building does not depend on the chunk size | chunk loop refined to map, for all chunk sizes >= 1 |
| C15 | Building does not depend on insertion order | uniqueness of sorted permutations |
| C16 | A returned path is a real path | abstract Dijkstra with arbitrary pop oracle, invariant over predecessor chains; simulation from array model |
| C17 | A path is found iff one exists | same, plus exhaustion argument at termination |
| C18 | The returned path is optimal | delta-minimal pop oracle; label invariant; bidirectional stopping argument |
| C19 | CH-Dijkstra is optimal on contracted graphs | same loop in CH mode; up-down paths as specification |
| C20 | Trivial queries | direct evaluation of the loop |
| C21 | A reused Dijkstra object answers like a fresh one | init_query re-establishes the fresh state from any reachable state; refuted for two-node/shrinking graphs |
| C22 | Routing terminates | every label change uses a fresh simple walk (finite universe); 2m+2 bound for exact queue |
| C23 | Path costs are the sum of the edge metrics | fold over edges |
| C24 | Flattening replaces shortcuts by the edges they stand for | stack machine refined to recursive expansion; refuted for second-component cycles |
| C25 | Path equality is an equivalence | decidable equality on three fields |
| C26 | Approximate comparison is consistent | rational model of rounding; transitivity refuted |
| C27 | Exploration tries every combination of considered metrics once | bit-mask enumeration vs subsets |
| C28 | Explored paths respect the tolerances and are distinct | loop invariant of update |
| C29 | Balancing update is all-or-nothing and follows the documented formula | rational model of update_new_metric |
| C30 | Workload accounting is schedule-independent | labelled transition system master/workers, invariants and refinement to sequential fold |
| C31 | Adaptive work size stays in its bounds | invariant over receive outcomes |
| C32 | OSM ways become the right edges | list function vs. pairs of consecutive nodes |
| C33 | Street categories: speeds positive, pickiness monotone | finite enumeration of street types x arbitrary speed |
| C34 | fmi line ranges select exactly the announced lines | line-number ranges vs filtered list of functional lines |
| C35 | Route-pairs files round-trip | line level writer/parser |
| C36 | Generated route pairs are distinct, reachable and complete | loop with random oracle, invariant on emitted set |
| C37 | Exported edge information describes the edge | column function; refuted for destination coordinates |
| C38 | Unit conversions are consistent | rational conversion table |
| C39 | Generating metrics keeps metrics and description aligned | generating steps as state transformer; invariant by induction over steps |
| C40 | Routing config assigns each metric its own alpha and scale | fold over entries vs last mention |
| C41 | Building never panics on well-formed input | totality of every stage of finalize |
| C42 | A written graph can be read back | writer and parser on the level of characters; number formats as parameters |
| C43 | Rebuilding a written graph gives the same graph | sorting, deduplication and mapping are the identity on sorted, distinct edges; refuted for edges that only become duplicates by raising metrics |
| C44 | The routing queue delivers cheapest entries up to the accuracy | every element is at most an error above its descendants in the array; the error grows by one comparison per push and two per pop |
| C45 | Routing with the queue as implemented | simulation of the search with the heap by the search with an oracle that follows it; then C16-C22 |
| C46 | Accepted configurations have room for their metrics | exact characterisation of check_config; metrics counted along the generating steps of C39 |
| C47 | Lines of fmi-files mean what their columns say | the parser's fold over columns equals the words picked per column, for any order and repetition |
| C48 | Statistics of a balancing run are those of its routes | invariant: running mean and variance are exact for the numbers received so far; refuted for Dijkstra |
| C49 | Exported vehicles drive along the chosen paths | induction over the path's edges; injectivity of the file format |
| C50 | Exported edges can be merged into another graph | rows of the written text name partners; merging such rows succeeds (induction over rows) and has the effect of C39's step |
| C51 | Iterating the balancer | induction over the iterations; each is an update (C29), the mean of the metric stays 1 |
| C52 | Balancing on contracted graphs | per iteration the same affine map for all edges (from C29); induction over iterations, values followed by edge ids |
| C53 | Configuration documents: order of keys, sections, unknown keys, defaults, which configurations can be written | `PropsDocs.v` |
| C54 | What the program does with files: nothing is changed, only named files are created, complete results, running again | `PropsProgram.v` |
| C55 | What the program answers when routing: non-negative metrics, the file's pairs in order, cheapest real paths, own pairs, when a run ends well | `PropsRouted.v`, `PropsTotal.v` |
| C56 | What a finished balancing has written: places, the story of all iterations, the balanced metric in terms of the written workloads | `PropsBalanced.v` |
| C57 | Matrices and the linear system of a cell | `PropsCells.v` |
| C58 | Exploration ends only when every cell is settled | `PropsCells.v`, `PropsCellsCH.v` |
| C59 | How cmake and multi-ch are called | `PropsMultiCh.v` |
| C60 | Dijkstra with rounding arithmetic | `PropsRounded.v`, `PropsOverflow.v` |
| C61 | displaying a graph | `PropsDisplay.v` |
| C62 | the command line and logging | `PropsCmdline.v` |
| C63 | Routing as it runs: f64 and the binary heap | `PropsRoundedHeap.v`, `PropsRoundedEnds.v`, `PropsRoundedAnswers.v` |
| C64 | Normalizing and balancing metrics in f64 | `PropsRoundedMetrics.v` |
| C65 | The exploration ends | `PropsExploreEnds.v`, `PropsExploreTotal.v` |
| C66 | Routes on OpenStreetMap data | `PropsOsm.v` |
| C67 | Graphs built in f64 | `PropsRoundedBuild.v`, `PropsRoundedUnits.v`, `PropsRoundedGen.v` |
| C68 | The explorator in `f64`: returned paths are roads with their calculated costs, within tolerances that are nearly scale times the least cost; it ends and answers | `PropsRoundedExplorator.v`, `PropsRoundedEnds.v`, `PropsRoundedAnswers.v`, `PropsRoundedFound.v` |
| C69 | The balancer's workers in `f64`: all interleavings end, work off every route once with what search or explorator find, loads count the edges; the updated graph can be worked on again | `PropsRoundedBalancing.v` |
| C70 | Running mean and variance in `f64` are off by a bounded number of roundings, exact for equal counts; those of a run are the ones of its routes | `PropsRoundedStats.v` |
| C71 | Updating the balanced metric again and again in `f64` stays bounded, never panics, and isn't rejected with a minimum | `PropsRoundedAgain.v` |

## Files

`Model*.v` contain the model and no proofs, `Spec*.v` the vocabulary of the statements (independent of the model's helpers), `Proof*.v` and `AbsSearch.v` lemmas, `Examples*.v` concrete graphs, `Props*.v` the property theorems, each with its `Print Assumptions` and an `Example` meeting the hypotheses.

| model | code | properties in |
|---|---|---|
| `Base.v`, `F64.v` | results, panics, indexing; `f64` | |
| `ModelApprox.v` | `src/approximating.rs` | `PropsApprox.v` |
| `ModelUnits.v` | units and conversions of `src/configs/parsing` and `src/defaults.rs` | `PropsConfig.v` |
| `ModelConfig.v` | configuration of edges and nodes as used by builder, parsers and writers | |
| `ModelRoutingCfg.v` | `src/configs/routing.rs` | `PropsConfig.v` |
| `ModelGraph.v` | `src/network/graph/mod.rs`, accessors | `PropsGraph.v` |
| `ModelBuild.v` | `src/network/graph/building.rs` (inserting, finalizing, generating, merging) | `PropsGraph.v`, `PropsGenerate.v` |
| `ModelDijkstra.v` | `src/routing/dijkstra.rs`, `src/routing/paths.rs` | `PropsRouting.v`, `PropsPaths.v` |
| `ModelExplorator.v` | `src/routing/explorating.rs` | `PropsExplorator.v` |
| `ModelBalancing.v` | `src/network/graph/mod.rs` (update of a metric), `src/bin`/`src/balancing` (master, workers, work size) | `PropsBalancing.v` |
| `ModelText.v` | functions of `std::str` on ASCII texts | |
| `ModelStreets.v`, `ModelParsing.v` | street types, ways, checks of parser configurations | `PropsStreets.v` |
| `ModelFmi.v` | parser of fmi- and route-pairs-files | `PropsFmi.v`, `PropsRoutePairs.v`, `PropsRoundtrip.v` |
| `ModelRoutePairs.v` | writer of route-pairs-files | `PropsRoutePairs.v` |
| `ModelWriting.v` | writers of edges and graphs | `PropsWriting.v`, `PropsRoundtrip.v` |
| `ModelHeap.v` | std's heap, the order of its entries, the search with it | `PropsHeap.v` |
| (`ModelFmi.v`, `ModelParsing.v`) | configurations and lines: `SpecLines.v`, `ProofLines.v` | `PropsLines.v` |
| (`ModelStreets.v`) | limits with alternatives or in mph | `PropsSpeeds.v` |
| (`ModelExplorator.v`, `ModelBalancing.v`) | repeated paths; drawing, reuse and schedules with the explorator | `PropsCopies.v`, `PropsExploring.v` |
| `ModelStats.v` | mean and variance of found paths, `src/bin/osmgraphing/balancing/multithreading.rs` | `PropsStats.v` |
| `ModelSmarts.v` | `src/io/writing/smarts.rs` | `PropsSmarts.v` |
| `ModelEvaluating.v` (and `ModelWriting.v`, `ModelFmi.v`, `ModelBuild.v`) | `src/io/writing/evaluating_balance.rs`; writing and merging edges | `PropsMerge.v` |
| `ModelLoop.v` | `src/bin/osmgraphing/balancing/mod.rs` (loop over iterations; the external tool, simulation and files are oracles) | `PropsLoop.v` |
| `ModelLoop.v`, `ModelBalancing.v` | the same on graphs rebuilt with other shortcuts and numbering | `PropsContracted.v` |
| `ModelYaml.v`, `ModelDocs.v` | `src/configs/**` (raw and proto configurations), `src/multi_ch_constructor/configs.rs`, `src/io/mod.rs` (extensions) | `PropsDocs.v` |
| `ModelProgram.v` | src/bin/osmgraphing/mod.rs (run), src/bin/osmgraphing/balancing/mod.rs: the whole program over a file system | `PropsProgram.v` |
| `ModelProgram.v`, `ModelBalancing.v` | balancing over files | `PropsBalanced.v` |
| `ModelAlgebra.v` | `src/helpers/algebra.rs` (values and indices of `Matrix`; the factorization of nalgebra is an oracle) | `PropsCells.v` |
| `ModelMultiCh.v` | `src/multi_ch_constructor/mod.rs`, `src/bin/multi-ch-constructor.rs` (calls and their arguments) | `PropsMultiCh.v` |
| `ModelRounded.v` | `src/routing/dijkstra.rs`, `src/helpers/mod.rs`, `src/routing/paths.rs` (calc_costs) with every sum and product rounded, and with overflow | `PropsRounded.v`, `PropsOverflow.v` |
| `ModelDisplay.v` | src/network/graph/mod.rs (Display for Graph), parse_graph of src/bin/osmgraphing | `PropsDisplay.v` |
| `ModelCmdline.v` | src/helpers/mod.rs (init_logging), the beginning of both binaries | `PropsCmdline.v` |
| `ModelCompare.v` | src/approximating.rs (options, coordinates), src/routing/dijkstra.rs (comparing entries of the queue), src/network/graph/mod.rs (comparing nodes) | `PropsCompare.v` |
| `ModelRoundedHeap.v` | `compute_best_path` with `f64` and `BinaryHeap`, the comparisons rounding as well | `PropsRoundedHeap.v` |
| `ModelRoundedMetrics.v` | `building.rs` (`normalize`) and `defaults.rs` (`update_new_metric`) with rounding | `PropsRoundedMetrics.v`, `PropsRoundedAgain.v` |
| `ModelRoundedBuild.v` | `building.rs` (`next`, `finalize`), `generating/edges/metrics.rs` and the pbf-parser with rounding | `PropsRoundedBuild.v` |
| `ModelRoundedExplorator.v` | `src/routing/explorating.rs`, `src/approximating.rs`, `src/helpers/mod.rs` with rounding | `PropsRoundedExplorator.v` |
| `ModelRoundedBalancing.v` | `src/bin/osmgraphing/balancing/multithreading.rs` (workers) with rounding | `PropsRoundedBalancing.v` |
| `ModelRoundedStats.v` | `src/bin/osmgraphing/balancing/multithreading.rs` (statistics) with rounding | `PropsRoundedStats.v` |

## Not modelled

* IEEE rounding and overflow of `f64` outside of the search, of the explorator (`ModelRoundedExplorator.v`, C68), of the balancer's workers and statistics (`ModelRoundedBalancing.v`, `ModelRoundedStats.v`, C69, C70), of building graphs (`ModelRoundedBuild.v`, C67), and of normalizing and updating metrics (`ModelRoundedMetrics.v`, C64, C71; otherwise `ModelRounded.v` is the search with every sum and product rounded, overflowing ones being infinite; C60 bounds the error; `ModelRoundedHeap.v` is the search with `BinaryHeap` whose comparisons round, too, C63); the sign of zero; what is logged (except for the text of a graph, C61, and which levels are, C62); progress bars; memory capacities (`shrink_to_fit`, `with_capacity`).
* The haversine distance is an uninterpreted function of two coordinates.
* Directories, links and permissions (in `ModelProgram.v` files are a map from resolved paths to texts, operations may fail at any time and leave any text), the text of yaml documents (the model starts with their nodes, `ModelYaml.v` states what serde's derived code does with them; anchors, tags and integer keys are left out), the external multi-ch-constructor process, the decoding of PBF (ways and nodes are given as lists).
* Text is a list of bytes (UTF-8); white space includes the multi-byte white space of Unicode (`ModelText.v`), lower-casing is done for ASCII only.
* Printing and parsing of `f64` and the debug output of id lists are parameters of the text model; what is assumed about them is a hypothesis of the theorems concerned.
* The explorator's triangulation and its linear solver (LU) are oracles: arbitrary functions. C28 assumes that the triangulation never reports a vertex id twice.
* clap and env_logger are modelled by their documented behaviour (`ModelCmdline.v`): values meeting the declarations, directives sorted by the length of their names. RUST_LOG_STYLE and regular expressions in RUST_LOG are left out.
* The random generator is an arbitrary function (balancer, route pairs).
* The balancer's threads are interleaved arbitrarily by a transition system; of its output, the running mean and variance (C48) and the file of vehicles (C49) are modelled, progress messages are not.

## Findings (properties false of the code, with counterexample theorems)

| nr | finding | theorems |
|---|---|---|
| 1 | The offset arrays end with the last source (destination): `starting_from` panics for nodes behind it. Dijkstra panics whenever it expands such a node. | C06_fwd_adjacency_refuted, C07_bwd_adjacency_refuted, C17_no_panic_refuted |
| 2 | `init_query` compares the node count with the length of the pair of directions (2): a fresh Dijkstra panics on graphs with two nodes, a used one on graphs with fewer nodes than before. | C21_two_nodes_refuted, C21_shrinking_refuted |
| 3 | `try_flatten` loops forever if a shortcut contains itself as second component; long paths are reported as cycles; finalizing accepts shortcuts whose components do not fit. | C24_cycle_reported_refuted, C24_false_cycle_refuted, C24_contiguous_refuted |
| 4 | `Approx` equality isn't transitive, infinity isn't equal to itself, ordering panics on NaN. | C26_approx_transitive_refuted, C26_approx_infinite_refuted |
| 5 | The edge writer writes the source's coordinates where the destination's are asked for. | C37_dst_coord, C37_rows_refuted |
| 6 | NaN and infinite metrics are accepted by finalize. | C12_nan_accepted |
| 7 | Duplicates are only removed among neighbours in sorted order, ignoring shortcut components; metrics are raised to 1e-6 only afterwards, so a written graph may lose edges when read. | C05_edges_kept, C43_duplicates_refuted |
| 8 | `&param[0..2]` panics for an edge id consisting of one character that is no digit. | C34_edge_id_panics |
| 9 | Lines of white space only are counted as data lines (fmi, route pairs). | C34_blank_refuted, C35_blank_refuted |
| 10 | Service ways are never admitted for cars, road ways for nobody, against the documentation. A number padded by spaces as `maxspeed` is ignored, `highway` after white space is unknown, the list `30; 40` counts as 30, and 5 mph counts as 15 km/h. | C33_table_refuted, C33_road_refuted, C33_padded_refuted, C33_street_refuted, C33_alternatives_refuted, C33_mph_refuted |
| 11 | Routing on an empty graph or on two nodes panics in the writer of route pairs. | C36_no_panic_refuted |
| 12 | A path containing a line feed spoils the file of route pairs. | C35_path_refuted |
| 13 | A panicking worker of the balancer loses its chunk although the result is `Ok`; zero threads process nothing and return `Ok`; with the explorator, workloads depend on the schedule. | C30_panic_refuted, C30_no_workers_refuted, C30_explorator_refuted |
| 14 | Updated balancing metrics are divided by their mean after applying formula and minimum. | C29_formula_refuted, C29_minimum_refuted |
| 15 | Generated metrics bypass the check for 1e-6; ids among generated categories are not checked for being unique. | C39_small_refuted, C39_unique_refuted, C39_categories_refuted |
| 16 | Converting via the raw unit differs from converting directly. | C38_via_raw_refuted |
| 17 | The explorator returns paths twice once facets are explored. | C28_distinct_refuted |
| 18 | The explorator considers metrics with alpha > 0 rather than those with finite tolerance; its `2u32.pow(dim)` overflows for 32 metrics. | C27_finite_scale_refuted, C27_queries_exist |
| 19 | The order of the queue's entries is not transitive: a pop may deliver an entry although another one is less; the returned path may be more expensive than another one by an amount in the order of the accuracy. | C44_least_refuted, C18_heap_optimal_refuted |
| 20 | A coordinate that is no number panics in lines of less than three (longitude: four) words: the error's message prints a word at a fixed position. | C47_reported_refuted |
| 21 | The balancer's running mean with Dijkstra divides by all routes but counts only those with a path: it is wrong and depends on the order of the results. | C48_dijkstra_refuted |
| 22 | A chosen path from a node to itself is exported as a vehicle without any node. | C49_stay_refuted |
| 23 | The reader of edge files drops comments before the header: with a first column name starting with `#`, the first edge's row is dropped as header. | C50_header_refuted |
| 24 | Updating the balanced metric treats shortcuts like other edges, though routes are flattened before counting: a shortcut then may get a metric below that of either edge it replaces (until the hierarchy is rebuilt) | `C51_shortcuts_refuted` |
| 25 | Relative workloads are computed with the mean over all edges including shortcuts, which flattened paths never use. Averaging therefore weighs iterations with more shortcuts more: edges used equally often get different metrics | `C52_average_refuted` |
| 26 | A misspelled key inside a category (`custom: { id: …, defualt: 5.0 }`) is accepted and ignored; `deny_unknown_fields` is missing on the variants. | `C53_typo_refuted` |
| 27 | `vehicles` documents a default for each of its keys, but a document giving only one of them is rejected. | `C53_vehicles_refuted` |
| 28 | The blueprint's generated `ShortcutIdx0/1` and `CHLevel` are rejected by the readers. | `C53_blueprint_unreadable` |
| 29 | A contraction ratio without quotes is accepted in the section `multi-ch-constructor`, but rejected in the same section below `balancing` (flattening). | `C53_ratio_refuted` |
| 30 | `minimum-cost` is read and has no effect. | `C53_minimum_cost` |
| 31 | Duplicate ids of nodes are accepted, duplicate ids of edges are not. | `C53_node_ids_refuted` |
| 32 | Three shipped documents are outdated and rejected: `stuttgart-regbez_2019-09-07/balancing/config.yaml` (balancing), `stuttgart-regbez_2019-09-07/pbf_to_fmi.yaml` (writing graph), `simple_stuttgart/normalized_fmi.yaml` (routing has no algorithm). | `C53_shipped_refuted` |
| 33 | A run that fails may leave files behind (the writers run one after another and configurations are read when they are needed); the next run then fails because of them. | `C54_atomic_refuted` |
| 34 | Writing all route-pairs of a graph whose last node has no leaving edge panics and leaves an incomplete file (consequence of finding 1). | `C54_pairs_refuted` |
| 35 | A generated constant may be negative (and so may merged values), although parsed metrics may not; Dijkstra's results are then unspecified. | `C55_nonneg_refuted` |
| 36 | A route-pairs file with one id that isn't in the graph lets the program panic when it reaches the pair. | `C55_unknown_refuted` |
| 37 | A configuration which lies in the dated directory for the results is copied to itself by `fs::copy`, which empties it; the run then fails. This assumes that `fs::copy` truncates the target before reading, as modelled in `copy_file`. | `C54_own_cfg_refuted` |
| 38 | The two-index access of `Matrix` multiplies the column by the number of columns although values are stored column after column (src/helpers/algebra.rs): in a matrix that is not square, another entry is answered or the program stops; in a square one, a row that does not exist is answered. Rows of different lengths are accepted if the number of values fits. The only use in src (explorating.rs:273) makes square matrices and indexes none, so it isn't affected. | `C57_index_refuted`, `C57_from_rows_case`, `C57_system` |
| 39 | A cell of the triangulation with one corner more than metrics considered gives a homogeneous system: its solution is zero weights (or none), so no path is ever found by it. | `C57_meaning`, `C58_undercuts` |
| 40 | A flag of multi-ch that is off is passed as an empty argument instead of being omitted (src/multi_ch_constructor/mod.rs:54-63). | `C59_empty_refuted` |
| 41 | Because sums are rounded, Dijkstra may return a path that is strictly more expensive than another one (0.1 + 0.2 against twice its rounded half). The loss is bounded by `C60_cheapest_binary64`. | `C60_strictly_cheapest_refuted` |
| 42 | Displaying a graph reads one offset per node although offsets end after the last node with an edge (finding 1): with `--log debug`, the program panics after parsing a graph neither of whose last two nodes has a leaving (or an entering) edge. | `C61_panics`, `C61_always_refuted` |
| 43 | Path costs beyond `f64::MAX` become infinite, and `inf < inf` fails: with metrics close to `f64::MAX` an existing path isn't found. Nothing of the kind happens as long as edges cost at most 2^1000 (`C60_no_overflow_binary64`). | `C60_found_ieee_refuted` |
| 44 | `RUST_LOG` doesn't have precedence: a level alone (`RUST_LOG=warn`) doesn't change what osmgraphing's own modules log, since `--log` is turned into a directive with a name. | C62_precedence_refuted, C62_bare_level |
| 45 | What the binary multi-ch-constructor logs itself is never shown, whatever `--log` says: its crate is `multi_ch_constructor`, the filter is for `osmgraphing`. | C62_own_info_refuted |
| 46 | The order of the queue's entries is circular: three entries may each be greater than the next, as close costs are compared by node index. | C26_entries_refuted |
| 47 | Dijkstra as it runs (`f64`, `BinaryHeap`, entries within 1.5e-6 regarded as equal) may return a path that is more expensive than another one by more than 7e-7 although all costs are small and far apart from overflow. It is exactly optimal for whole numbers (`C63_cheapest_grid`). | `C63_optimal_refuted` |
| 48 | Normalizing equal metrics in `f64` doesn't give 1: seven edges of 0.1 become 1.0000000000000002 each. Different metrics may become equal. The order is kept. | `C64_uniform_refuted`, `C64_strict_refuted`, `C64_order` |
| 49 | With the explicit Euler method and a correction of 1 the new metric should be the relative workload; in `f64` old + (new - old) isn't new, so that of two edges with the same workload the one with the smaller metric gets the larger one. | `C64_euler_order_refuted` |
| 50 | Averaging doesn't leave a metric alone that already is the relative workload: (2 * 0.1 + 0.1) / 3 isn't 0.1 in `f64`. | `C64_averaging_fixed_refuted` |
| 51 | The exploration of a cell doesn't check whether the path it finds was found before (only those of the same round are compared), so such a path is added to the triangulation again and another round follows. That the loop ends rests on the triangulation: if it numbers its cells anew when a known point is added, the exploration never ends. | `C65_restless_refuted`, `C65_ends` |
| 52 | Whether two edges are duplicates depends on rounding where their metrics differ by 1.5e-6: the f64 just below 1.5e-6 divided by the f64 of 1e-6 gives 1.5, which is rounded up to 2, so edges are kept that the documented accuracy takes to be the same. | `C67_same_refuted` |

Further observations while modelling, without theorems: `create_linear_system` underflows for no considered metrics; `check_config` accepts two columns of the same shortcut component; `route_count = 0` underflows; an empty graph makes the balancer's mean NaN.

## Assumptions

Every property theorem is reported as `Closed under the global context` by `Print Assumptions`: no axioms are used, neither own ones nor the standard library's. (The axioms of `ssrunder` listed by checkers for the whole library stem from loading the standard library's `ssreflect` through `lia`/`lra`; no theorem depends on them.)

## Mutation tests

`seeded/LOG.jsonl` lists edits of model definitions together with the lemmas and theorems that fail because of them. Edits are made in a copy outside of this repository.
