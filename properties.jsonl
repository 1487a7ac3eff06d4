{"id": "C01", "title": "Node set of a built graph is exactly the set of edge endpoints", "statement": "After inserting any sequence of edges into GraphBuilder and finalizing, the graph's node ids are strictly increasing, and an id is a node of the graph if and only if it was the src or dst of some inserted edge (each exactly once).", "quantifier": "every finite sequence of edge insertions (any ids, repetitions, orders) and any node insertions", "why_tests_cant": "The builder keeps a partially deduplicated id list with a two-element look-back; whether an endpoint gets lost depends on arbitrary insertion histories, not on the few maps used in tests.", "anchors": ["src/network/graph/building.rs: EdgeBuilder::insert", "src/network/graph/building.rs: EdgeBuilder::next", "src/network/graph/building.rs: NodeBuilder::next", "src/network/graph/mod.rs: NodeAccessor"]}
{"id": "C02", "title": "Node insertion: accepted iff endpoint, last coordinate wins", "statement": "NodeBuilder::insert returns true iff the node id is an endpoint of an inserted edge; afterwards the stored coordinate of a node is that of the last accepted insertion for its id, its level is that of the last insertion giving a level (0 if none), and all other nodes are unchanged.", "quantifier": "every sequence of node insertions after every sequence of edge insertions", "why_tests_cant": "Quantifies over all insertion histories including repeated, unknown and out-of-order ids.", "anchors": ["src/network/graph/building.rs: NodeBuilder::insert"]}
{"id": "C03", "title": "No graph without coordinates", "statement": "GraphBuilder::finalize returns an error whenever some endpoint never received a coordinate; conversely in every graph that is returned every node has the coordinate given for its id.", "quantifier": "all insertion histories", "why_tests_cant": "Absence of a bad graph over all histories is a universal statement.", "anchors": ["src/network/graph/building.rs: GraphBuilder::finalize"]}
{"id": "C04", "title": "Node lookup by id is the inverse of id lookup", "statement": "In every built graph nodes().idx_from(id) = Ok(i) iff nodes().id(i) = id; for an absent id it returns Err with the insertion position; create_from(id) is Some iff the id exists.", "quantifier": "all built graphs, all ids, all indices", "why_tests_cant": "Binary search correctness on all sorted arrays.", "anchors": ["src/network/graph/mod.rs: NodeAccessor::idx_from", "src/network/graph/mod.rs: NodeAccessor::id", "src/network/graph/mod.rs: NodeAccessor::create_from"]}
{"id": "C05", "title": "Finalizing neither invents nor loses edges", "statement": "Every edge of a finalized graph stems from an inserted edge with the same src id, dst id and edge id and the same metrics (up to lifting values around zero to 1e-6); and every inserted edge is represented by a graph edge with the same src id, dst id and edge id whose metrics are approximately equal (1.5e-6) to the inserted ones. Exactly approximately-equal neighbours in the sorted order are merged.", "quantifier": "all insertion histories, all metric values", "why_tests_cant": "In-place sort/dedup/chunk code over arbitrary lists; a wrong swap or chunk boundary only shows on particular list shapes and sizes (chunks have millions of entries).", "anchors": ["src/network/graph/building.rs: GraphBuilder::finalize (sort, dedup, metrics)"]}
{"id": "C06", "title": "Forward adjacency is exactly the leaving edges", "statement": "fwd_edges().starting_from(v) yields each edge whose source is v exactly once and no other edge, for every node v of the graph, without panicking.", "quantifier": "all built graphs and all their nodes", "why_tests_cant": "Offset arrays over arbitrary graphs, in particular nodes without leaving edges at every position.", "anchors": ["src/network/graph/mod.rs: EdgeAccessor::starting_from", "src/network/graph/mod.rs: EdgeAccessor::offset_indices", "src/network/graph/building.rs: finalize forward-offset-array"]}
{"id": "C07", "title": "Backward adjacency is exactly the entering edges", "statement": "bwd_edges().starting_from(v) yields each edge whose destination is v exactly once and no other edge, and bwd_edges().dst_idx(e) is the source of the edge whose destination is fwd_edges().dst_idx(e), for every node v without panicking.", "quantifier": "all built graphs, nodes and edges", "why_tests_cant": "Indirect mapping (bwd_to_fwd_map) produced by a second sort; correctness for all graphs.", "anchors": ["src/network/graph/mod.rs: EdgeAccessor::starting_from", "src/network/graph/mod.rs: Graph::bwd_edges", "src/network/graph/building.rs: finalize backward-offset-array"]}
{"id": "C08", "title": "between(src, dst) finds an edge iff one exists", "statement": "fwd_edges().between(src,dst) is Some(e) only if e goes from src to dst, and is None only if no edge from src to dst exists.", "quantifier": "all built graphs, all node pairs", "why_tests_cant": "Universal over graphs.", "anchors": ["src/network/graph/mod.rs: EdgeAccessor::between"]}
{"id": "C09", "title": "Edge ids are unique and lookup by id is the inverse of id lookup", "statement": "If two distinct graph edges would carry the same edge id, finalize returns an error; in every returned graph try_idx_from(id) = Ok(e) iff edge e has that id.", "quantifier": "all insertion histories with any mixture of edges with and without ids", "why_tests_cant": "Sort + dedup + binary search over arbitrary id lists.", "anchors": ["src/network/graph/building.rs: finalize edge_ids_to_idx_map", "src/network/graph/mod.rs: EdgeAccessor::try_idx_from", "src/network/graph/mod.rs: EdgeAccessor::try_id"]}
{"id": "C10", "title": "Leaving edges are ordered by descending level of the far end", "statement": "In both directions the adjacency list of a node lists the edges by non-increasing CH level of their other end, so stopping at the first edge that leads downwards (as CH-Dijkstra does) skips precisely the downward edges.", "quantifier": "all built graphs, all levels, both directions", "why_tests_cant": "Ordering invariant relied upon by an optimisation; violation yields only sporadically wrong routes.", "anchors": ["src/network/graph/building.rs: finalize sort_by_key", "src/routing/dijkstra.rs: compute_best_path (break)"]}
{"id": "C11", "title": "Shortcuts keep referring to the edges they were declared with", "statement": "If an inserted edge declares that it replaces the edges inserted at positions i and j, then in the finalized graph its sc_edges are the indices of the graph edges representing the edges inserted at i and j; edges declared without replaced edges are no shortcuts. is_shortcut(e) iff sc_edges(e) is Some.", "quantifier": "all insertion histories with arbitrary shortcuts, duplicates and orders", "why_tests_cant": "Index remapping through a sort and a dedup with repeated decrements; only visible for particular interleavings of duplicates.", "anchors": ["src/network/graph/building.rs: finalize remap shortcuts", "src/network/graph/building.rs: finalize remove duplicates", "src/network/graph/building.rs: finalize sc_offsets", "src/network/graph/mod.rs: EdgeAccessor::sc_edges", "src/network/graph/mod.rs: EdgeAccessor::is_shortcut"]}
{"id": "C12", "title": "Metrics of a built graph are at least the accuracy", "statement": "If finalize succeeds without generating or normalizing metrics, no metric of any edge is smaller than 1e-6, a metric whose absolute value is below about 1.5e-6 is stored as 1e-6, and all other metrics are stored unchanged.", "quantifier": "all insertion histories, all f64 values including NaN and infinities", "why_tests_cant": "All floating-point values.", "anchors": ["src/network/graph/building.rs: Graph::add_metrics", "src/network/graph/building.rs: finalize"]}
{"id": "C13", "title": "Normalization divides by the mean", "statement": "With normalization on, finalize stores as means the arithmetic means of the metrics, and the metric of every edge is the original one divided by that mean (values around zero lifted to 1e-6); if nothing was lifted the mean of every normalized metric is 1. It fails for a graph without edges and for a mean around zero.", "quantifier": "all graphs and metric values (exact arithmetic)", "why_tests_cant": "Universal over metric vectors.", "anchors": ["src/network/graph/building.rs: finalize normalize", "src/network/graph/mod.rs: MetricAccessor::mean"]}
{"id": "C14", "title": "Building does not depend on the chunk size", "statement": "The finalized graph is the same for every chunk size of at least one edge (memory limit).", "quantifier": "all insertion histories and all chunk sizes >= 1", "why_tests_cant": "Tests never reach a second chunk (millions of edges).", "anchors": ["src/network/graph/building.rs: finalize (splice chunks)"]}
{"id": "C15", "title": "Building does not depend on insertion order", "statement": "For edges without shortcuts and with pairwise distinct (src,dst,id), the finalized graph is the same for every order in which the edges are inserted.", "quantifier": "all permutations of all edge lists", "why_tests_cant": "All permutations.", "anchors": ["src/network/graph/building.rs: EdgeBuilder::insert", "src/network/graph/building.rs: finalize"]}
{"id": "C16", "title": "A returned path is a real path", "statement": "If compute_best_path returns a path, its edges are edges of the graph that form a contiguous chain from the source node to the destination node, whatever order the priority queue delivers equal or nearly equal entries in.", "quantifier": "all graphs, queries, alphas >= 0, metrics >= 0, both algorithms, any queue order", "why_tests_cant": "All graphs and all tie-breakings of the heap.", "anchors": ["src/routing/dijkstra.rs: Dijkstra::compute_best_path", "src/routing/paths.rs: Path"]}
{"id": "C17", "title": "A path is found iff one exists", "statement": "The bidirectional Dijkstra (non-CH) returns None iff the destination is not reachable from the source (for alphas >= 0), and never panics on a well-formed graph.", "quantifier": "all graphs and queries, any queue order", "why_tests_cant": "Reachability over all graphs.", "anchors": ["src/routing/dijkstra.rs: Dijkstra::compute_best_path"]}
{"id": "C18", "title": "The returned path is optimal", "statement": "No path from source to destination is cheaper (wrt. the alpha-weighted sum of metrics) than the returned one; if the queue only delivers minima up to an error delta, the returned path is at most 2*delta more expensive.", "quantifier": "all graphs, queries and non-negative finite costs, any delta-minimal queue", "why_tests_cant": "Optimality over all paths of all graphs.", "anchors": ["src/routing/dijkstra.rs: Dijkstra::compute_best_path"]}
{"id": "C19", "title": "CH-Dijkstra is optimal on contracted graphs", "statement": "CH-Dijkstra returns a path that is cheapest among all up-down paths (levels ascending, then descending); if the graph's hierarchy preserves distances by up-down paths, its cost equals the shortest-path cost of the graph.", "quantifier": "all graphs with levels and all queries", "why_tests_cant": "All graphs.", "anchors": ["src/routing/dijkstra.rs: Dijkstra::compute_best_path"]}
{"id": "C20", "title": "Trivial queries", "statement": "With a negative alpha no path is returned; for source = destination the empty path is returned.", "quantifier": "all graphs, all nodes, all alphas", "why_tests_cant": "All graphs.", "anchors": ["src/routing/dijkstra.rs: Dijkstra::compute_best_path"]}
{"id": "C21", "title": "A reused Dijkstra object answers like a fresh one", "statement": "The answer to a query does not depend on which queries (on graphs, with algorithms, found or not) were answered before with the same Dijkstra object.", "quantifier": "all histories of queries, alternating algorithms and graphs", "why_tests_cant": "All histories; stale state only matters after particular earlier queries.", "anchors": ["src/routing/dijkstra.rs: Dijkstra::init_query", "src/routing/dijkstra.rs: Dijkstra::compute_best_path"]}
{"id": "C22", "title": "Routing terminates", "statement": "compute_best_path terminates for alphas >= 0 and metrics >= 0, including zero-cost cycles, and with an exact queue after at most 2m+2 queue pops.", "quantifier": "all graphs and queries", "why_tests_cant": "Termination.", "anchors": ["src/routing/dijkstra.rs: Dijkstra::compute_best_path"]}
{"id": "C23", "title": "Path costs are the sum of the edge metrics", "statement": "After calc_costs the costs of a path are per metric the sum over its edges, and calling it again changes nothing.", "quantifier": "all graphs and paths", "why_tests_cant": "All paths.", "anchors": ["src/routing/paths.rs: Path::calc_costs", "src/routing/paths.rs: Path::costs"]}
{"id": "C24", "title": "Flattening replaces shortcuts by the edges they stand for", "statement": "Flattening a path terminates and yields a path with the same source and destination without any shortcut edges that is again contiguous, whose costs are the sum of the flattened edges' metrics; if every shortcut's metrics are the sum of its replaced edges, the costs are unchanged. Cyclic shortcuts are reported as an error.", "quantifier": "all graphs with shortcuts and all paths", "why_tests_cant": "Arbitrary nesting depth and cyclic shortcut declarations.", "anchors": ["src/routing/paths.rs: Path::try_flatten", "src/routing/paths.rs: Path::flatten"]}
{"id": "C25", "title": "Path equality is an equivalence", "statement": "Equality of paths is reflexive, symmetric and transitive and independent of whether costs have been computed.", "quantifier": "all paths", "why_tests_cant": "All paths.", "anchors": ["src/routing/paths.rs: PartialEq for Path"]}
{"id": "C26", "title": "Approximate comparison is consistent", "statement": "Approx equality is reflexive (finite values), symmetric and holds exactly when the values differ by less than 1.5e-6; it is an equivalence and Approx ordering a total order, as Eq/Ord promise. The same holds for options (nothing being less than something), coordinates (both numbers close) and the entries of the search's queue (cost, then node, then direction); nodes are equal if they have the same id.", "quantifier": "all f64 values, options, coordinates, queue entries and nodes of a built graph", "why_tests_cant": "All values.", "anchors": ["src/approximating.rs: Approx"]}
{"id": "C27", "title": "Exploration tries every combination of considered metrics once", "statement": "The initial exploration evaluates exactly one query for each non-empty subset of the considered metrics (those with finite tolerance), with alpha 1 on the subset and 0 elsewhere, and records for each considered metric the optimal cost of that single metric times its scale as tolerance.", "quantifier": "all dimensions and all sets of ignored metrics", "why_tests_cant": "All bit-masks.", "anchors": ["src/routing/explorating.rs: explore_initial_paths"]}
{"id": "C28", "title": "Explored paths respect the tolerances and are distinct", "statement": "Every path returned by the explorator stays within the tolerated costs in every metric, and no two returned paths have approximately equal costs.", "quantifier": "all graphs, configs, sequences of found paths", "why_tests_cant": "All sequences of candidate paths.", "anchors": ["src/routing/explorating.rs: update, fully_explorate"]}
{"id": "C29", "title": "Balancing update is all-or-nothing and follows the documented formula", "statement": "update_new_metric sets for every edge the new metric to old + (new-old)*correction (explicit Euler) or (iter*old+new)/(iter+1) (averaging), never below the configured minimum; if it reports an error no metric of the graph has changed.", "quantifier": "all graphs, workloads, iterations", "why_tests_cant": "All workloads.", "anchors": ["src/defaults.rs: balancing::update_new_metric"]}
{"id": "C30", "title": "Workload accounting is schedule-independent", "statement": "Working off route pairs with any number (>=1) of workers and any interleaving of their answers processes every route pair exactly once, terminates, joins every worker, and the resulting workload of an edge is the number of chosen (flattened) paths containing it, independent of the schedule.", "quantifier": "all lists of route pairs, numbers of workers, message interleavings", "why_tests_cant": "Schedules cannot be enumerated by tests.", "anchors": ["bin/osmgraphing/balancing/multithreading.rs: Master::work_off", "bin/osmgraphing/balancing/multithreading.rs: Worker"]}
{"id": "C31", "title": "Adaptive work size stays in its bounds", "statement": "The adaptive work-size never leaves [minus, max-plus], never over- or underflows and is never zero, whatever the sequence of fast and slow answers; hence every non-final chunk makes progress.", "quantifier": "all sequences of receive outcomes", "why_tests_cant": "All histories of timing outcomes.", "anchors": ["bin/osmgraphing/balancing/multithreading.rs: Master::recv", "bin/osmgraphing/balancing/multithreading.rs: Master::work_size", "bin/osmgraphing/balancing/multithreading.rs: Master::spawn_some"]}
{"id": "C32", "title": "OSM ways become the right edges", "statement": "A way with n>=2 nodes yields exactly the n-1 consecutive directed edges in the driven direction if it is oneway (reversed for reverse oneways) and additionally the n-1 opposite edges otherwise; shorter ways yield none.", "quantifier": "all ways and oneway tags", "why_tests_cant": "All node lists.", "anchors": ["src/io/parsing/network/graph/pbf.rs: parse_ways", "src/defaults.rs: StreetCategory::parse_oneway"]}
{"id": "C33", "title": "Street categories: speeds positive, pickiness monotone", "statement": "For every street type and maxspeed tag the resulting speed is at least 5 km/h; a street admitted for a picky vehicle is admitted for a non-picky one; and vehicle admission agrees with the documented table.", "quantifier": "all street types, vehicles, tag strings", "why_tests_cant": "All tag strings.", "anchors": ["src/defaults.rs: StreetCategory", "src/network/mod.rs: documentation table"]}
{"id": "C34", "title": "fmi line ranges select exactly the announced lines", "statement": "For an fmi file with a well-formed header announcing n nodes and m edges, node parsing reads exactly the first n functional lines after the header and edge parsing exactly the next m, regardless of comments and empty lines in between.", "quantifier": "all text files", "why_tests_cant": "All interleavings of comments, blank and data lines.", "anchors": ["src/io/parsing/network/graph/fmi.rs: preprocess, parse_ways, parse_nodes"]}
{"id": "C35", "title": "Route-pairs files round-trip", "statement": "Parsing a written route-pairs file returns the written pairs with their counts in order; lines that are comments or blank are ignored.", "quantifier": "all lists of route pairs", "why_tests_cant": "All lists.", "anchors": ["src/io/parsing/routing/routes.rs", "src/io/writing/routing/random_or_all.rs"]}
{"id": "C36", "title": "Generated route pairs are distinct, reachable and complete", "statement": "The random-or-all writer emits pairwise distinct pairs of distinct nodes between which a path exists, at most max_count of them, and terminates; if max_count is at least n^2 it emits all such pairs.", "quantifier": "all graphs, seeds and max_counts", "why_tests_cant": "All random sequences.", "anchors": ["src/io/writing/routing/random_or_all.rs: write"]}
{"id": "C37", "title": "Exported edge information describes the edge", "statement": "Writing edges exports for each edge the id, node ids, indices and coordinates of its own source and destination and its own metrics.", "quantifier": "all graphs and edges", "why_tests_cant": "All graphs.", "anchors": ["src/io/writing/network/mod.rs: write_edges_to_file"]}
{"id": "C38", "title": "Unit conversions are consistent", "statement": "Converting a value from unit A to B and back returns the value; converting via an intermediate unit gives the same as converting directly; conversion succeeds exactly between units of the same kind (or with the raw unit); calculated durations and speeds satisfy distance = speed * time.", "quantifier": "all units and values (exact arithmetic)", "why_tests_cant": "All values.", "anchors": ["src/configs/parsing/edges/metrics.rs: try_convert", "src/configs/parsing/generating/edges/metrics.rs: try_convert, try_calc"]}
{"id": "C39", "title": "Generating metrics keeps metrics and description aligned", "statement": "After any sequence of generating steps, every edge has as many metrics as there are metric ids and units, existing metrics keep their position and value, a copied/calculated/custom metric equals its defining formula; generating an already parsed id is an error.", "quantifier": "all sequences of generating categories and graphs", "why_tests_cant": "All configuration sequences.", "anchors": ["src/network/graph/building.rs: finalize generating", "src/configs/parsing/generating/edges"]}
{"id": "C40", "title": "Routing config assigns each metric its own alpha and scale", "statement": "A routing config gives every metric mentioned in it the alpha and scale of its last mention, every other metric alpha 0 and infinite scale, and is rejected iff an unknown metric is mentioned (or a scale is malformed).", "quantifier": "all metric lists and config entries", "why_tests_cant": "All configs.", "anchors": ["src/configs/routing.rs: Config::try_from_proto", "src/configs/parsing/edges/metrics.rs: try_idx_of"]}
{"id": "C41", "title": "Building never panics on well-formed input", "statement": "For in-range shortcuts and metric vectors of the configured dimension, finalizing a graph (without generated categories) either returns a graph or an error; it neither panics nor loops.", "quantifier": "all edge and node insertion histories, configurations and chunk sizes >= 1", "why_tests_cant": "All histories, including degenerate ones (no edges, isolated nodes, only duplicates).", "anchors": ["src/network/graph/building.rs: GraphBuilder::finalize"]}
{"id": "C42", "title": "A written graph can be read back", "statement": "The file written for a graph is parsed without error by every configuration whose columns name what the columns of the writer's configuration contain; parsing yields exactly the exported edges in order, each with the same end nodes, id, shortcut components and metrics as far as these are columns, and exactly the nodes with their ids, coordinates and levels.", "quantifier": "all graphs, writer and parser configurations with fitting columns, and number formats that survive printing and parsing", "why_tests_cant": "All graphs, column orders and subsets of columns.", "anchors": ["src/io/writing/network/graph/mod.rs: Writer::write", "src/io/parsing/network/graph/fmi/mod.rs"]}
{"id": "C43", "title": "Rebuilding a written graph gives the same graph", "statement": "If a built graph is written completely (all metrics, ids, shortcuts, levels) and the file is parsed and finalized with any chunk sizes, the result is the same graph: same nodes and node indices, same edges and edge indices, same forward and backward stars, metrics, ids and shortcuts.", "quantifier": "all built graphs without duplicates, complete configurations and chunk sizes", "why_tests_cant": "All graphs; needs the interplay of sorting, deduplication, index mapping, offsets and shortcut remapping.", "anchors": ["src/io/writing/network/graph/mod.rs", "src/network/graph/building.rs: GraphBuilder::finalize"]}
{"id": "C44", "title": "The routing queue delivers cheapest entries up to the accuracy", "statement": "std's BinaryHeap with the order of the cost nodes (reversed, approximate comparison of costs, then index, then direction): no sequence of pushes and pops loses, duplicates or invents an entry; a pop delivers an entry iff there is one; after k operations the delivered entry's cost is at most 2*k*1.5e-6 above that of any entry in the queue; and it is a minimum if costs that differ do so by at least 1.5e-6.", "quantifier": "all sequences of pushes and pops, all finite non-negative costs", "why_tests_cant": "The approximate comparison isn't transitive, so the heap's invariants don't follow from the documentation of BinaryHeap; the bound is over all histories.", "anchors": ["src/routing/dijkstra.rs: CostNode (Ord, PartialOrd)", "src/routing/dijkstra.rs: Dijkstra::queue", "src/approximating.rs: Approx<f64>"]}
{"id": "C45", "title": "Routing with the queue as implemented", "statement": "With the BinaryHeap and its approximate order in place of an ideal queue: returned paths are paths of the graph with finite cost (up-down in case of CH-Dijkstra); None is returned iff there is none; the returned path is at most 2*(2+(m+2)*k)*1.5e-6 (CH: half of it) more expensive than any other path, where k bounds the number of pops and m is the number of edges; it is optimal if the weighted edge costs are multiples of a unit >= 1.5e-6; routing terminates, in the latter case after at most 2m+2 pops.", "quantifier": "all graphs, queries, non-negative metrics and histories of the Dijkstra object", "why_tests_cant": "All graphs and cost values, including ties closer than the accuracy.", "anchors": ["src/routing/dijkstra.rs: Dijkstra::compute_best_path", "src/routing/dijkstra.rs: CostNode"]}
{"id": "C46", "title": "Accepted configurations have room for their metrics", "statement": "A parsing configuration is accepted iff its nodes have an id, a latitude and a longitude, the metrics of its edges together with those added by generating categories are at most as many as the program is compiled for, and none or two shortcut columns are configured (pbf: all edge categories are ends, speed, lanes or ignored); all others are refused by an error. Whatever graph is then built, every edge has exactly as many metrics as the graph has metric ids, and at most as many as the program is compiled for.", "quantifier": "all configurations, compiled capacities and files", "why_tests_cant": "All configurations and all sequences of generating categories; the count made before parsing has to agree with what the finished graph has.", "anchors": ["src/io/parsing/network/graph/mod.rs: check_config", "src/io/parsing/network/graph/pbf.rs: preprocess", "src/network/graph/building.rs"]}
{"id": "C47", "title": "Lines of fmi-files mean what their columns say", "statement": "A line becomes an edge iff its words, column by column, describe one: exactly one source and destination column with integers, numbers in all metric columns (in order), edge ids being numbers or numbers after 'ch' (the last counts), shortcut columns being -1 but at most one number each; superfluous words are ignored, missing ones refused. Likewise for nodes. Other lines are refused by an error, except for the panics of edge-id words whose first two bytes cannot be taken, and of wrong coordinates in short node lines.", "quantifier": "all lines, column configurations and parsers of floating point numbers", "why_tests_cant": "All texts and all orders and repetitions of columns.", "anchors": ["src/io/parsing/network/graph/fmi.rs: EdgeParser::try_from_str", "src/io/parsing/network/graph/fmi.rs: NodeParser::from_str"]}
{"id": "C48", "title": "Statistics of a balancing run are those of its routes", "statement": "The mean and the (population) variance kept while results arrive equal the mean and the variance of the numbers of paths found per route, however the routes are split into chunks and in whatever order the results arrive.", "quantifier": "all sequences of results, all schedules of the workers, all built graphs", "why_tests_cant": "All chunkings and arrival orders; the running formulas for mean and variance have to be exact after every step.", "anchors": ["src/bin/osmgraphing/balancing/multithreading.rs:58-118"]}
{"id": "C49", "title": "Exported vehicles drive along the chosen paths", "statement": "The written route file has one vehicle per chosen path, in order, named by the ids of the path's ends, and listing the ids of exactly the nodes the path passes, from source to destination (none if the path has no edges). Writing succeeds for paths whose nodes and edges exist in the graph. Two lists of paths giving the same file describe the same vehicles.", "quantifier": "all graphs and lists of connected paths", "why_tests_cant": "All paths and ids; files must be uniquely readable.", "anchors": ["src/io/writing/smarts.rs: Writer::write", "src/defaults.rs: smarts"]}
{"id": "C50", "title": "Exported edges can be merged into another graph", "statement": "A file of exported edges (or of exported workloads), read by the merging category with matching columns, sets in the edges of another graph that have the same edge ids exactly the exported metrics (workloads), the last of several columns for the same metric counting, and changes nothing else. Merging succeeds if every exported edge's id is known to the other graph.", "quantifier": "all pairs of graphs, column selections, orders and files, with and without header and shortcuts, normalized or not", "why_tests_cant": "All graphs, ids and column configurations; writer and reader have to agree on the level of characters.", "anchors": ["src/io/writing/network/mod.rs: write_edges_to_file", "src/io/writing/network/edges.rs: write_external_values", "src/io/writing/evaluating_balance.rs: Writer::write", "src/io/parsing/network/edges.rs: new_reader", "src/network/graph/building.rs:1323-1388"]}
{"id": "C51", "title": "Iterating the balancer", "statement": "A balancing run with k configured iterations stores exactly one graph, after exactly k updates, and then evaluates it with one further iteration; the first iteration routes with the balanced metric switched off, all others with the configured weights. With averaging (and no minimum), the balanced metric of every edge is then the arithmetic mean of its relative workloads, whatever the metric was before; with the explicit Euler method and a metric of mean 1, it is the exponentially smoothed relative workload.", "quantifier": "all graphs, numbers of iterations, routing results and workloads", "why_tests_cant": "The number of iterations and the workloads are unbounded.", "anchors": ["src/bin/osmgraphing/balancing/mod.rs: run", "src/bin/osmgraphing/balancing/mod.rs: iterations", "src/balancing.rs: update_new_metric", "src/configs/balancing.rs:103-104"]}
{"id": "C52", "title": "Balancing on contracted graphs", "statement": "If rebuilding (contracting) the graph keeps the edges that have an id and their balanced metrics, whatever shortcuts it adds or drops and however it renumbers the edges, then: without minimum, the balanced metric of every such edge is one and the same weighted sum of how often the edge was used in the iterations (plus a share of its initial value, which is zero with averaging); with or without minimum, an edge used at least as often as another one in every iteration does not get a smaller metric.", "quantifier": "all graphs, contractions, numbers of iterations and workloads; averaging, and explicit Euler with a correction in [0,1]", "why_tests_cant": "Contraction is done by an external program; the statement holds for any of its results and any number of iterations.", "anchors": ["src/bin/osmgraphing/balancing/mod.rs: run", "src/defaults.rs: balancing::update_new_metric", "src/bin/osmgraphing/balancing/multithreading.rs: work_off"]}
{"id": "C53", "title": "Configuration documents", "statement": "Reading a section of a configuration document depends neither on the order of keys nor on the other sections of the document; accepted documents have no unknown or duplicate keys in the sections' mappings (not so inside the categories of nodes and edges); spelling out a documented default makes no difference; and a parsing-configuration can be written down exactly if its map-file has a supported extension, its ids of edges are unique, and its categories are among the readable ones.", "quantifier": "all documents (trees of scalars, sequences and mappings), all eight sections, all interpretations of scalars", "why_tests_cant": "Tests read a few shipped documents; the statements quantify over all documents, all permutations of keys, and all configurations.", "anchors": ["src/configs/parsing/mod.rs", "src/configs/parsing/edges/mod.rs", "src/configs/parsing/generating/edges/mod.rs", "src/configs/writing/network/graph/mod.rs", "src/configs/writing/network/edges.rs", "src/configs/writing/routing.rs", "src/configs/routing.rs", "src/configs/balancing.rs", "src/configs/evaluating_balance.rs", "src/multi_ch_constructor/configs.rs", "src/io/mod.rs: find_supported_ext"]}
{"id": "C54", "title": "What the program does with files", "statement": "Unless it is asked to balance, the program never changes an existing file and creates no file but those its configuration names for the flags it was called with, whatever it ends with and whichever operation on files fails; when balancing, only copies in the dated directory, the iterations' configurations and what multi-ch writes can replace existing files. If it ends well, then every file it was asked for is new and has exactly the writer's text for the graph of the map-file. Running it again on its own results stops with an error and changes nothing.", "quantifier": "all configurations, flags, files, failures of the file system, results of external programs", "why_tests_cant": "Tests run a few configurations on an intact file system; the statements quantify over all contents of files, all flags and all failing operations.", "anchors": ["src/bin/osmgraphing/mod.rs: run", "src/bin/osmgraphing/balancing/mod.rs: run", "src/io/writing/network/edges.rs: write", "src/io/writing/network/graph/fmi.rs: write", "src/io/writing/routing/mod.rs: write", "src/io/writing/evaluating_balance.rs: check"]}
{"id": "C55", "title": "What the program answers when routing", "statement": "If nothing negative is configured to be generated, no metric of a loaded graph is negative. Then a run which is told to route and ends well answers exactly the pairs of the route-pairs file, in its order, each between the nodes with the given ids: with Dijkstra no path is given exactly if no way with finite costs exists, and otherwise one path of real edges (shortcuts replaced) with the costs of its edges, which is cheapest; the same on contracted graphs among the ways going up and then down; with a negative weight no path at all; explored paths are paths of the graph. If the pairs are those written by the same run, every pair has a path, none is answered twice, and every reachable pair is answered if the maximum allows.", "quantifier": "all documents, map-files (fmi, pbf), generating categories, route-pairs files, orders of the queue up to a tolerance", "why_tests_cant": "Tests route a few pairs on small graphs; the statement composes reading, building, searching and flattening for all files.", "anchors": ["src/bin/osmgraphing/mod.rs: do_simply_routing", "src/network/graph/building.rs: finalize", "src/routing/dijkstra.rs: compute_best_path", "src/routing/paths.rs: flatten", "src/io/parsing/routing/routes.rs", "src/io/writing/routing/mod.rs"]}
{"id": "C56", "title": "What a finished balancing has written", "statement": "If there is room for the results (nothing is in their places, different results have different places), a run which balances and ends well has only created files, all in the places the configurations say, and these files tell the whole story: for every iteration the copied configuration, the graph and the edges' infos as written by the writers from the graph before, the contraction of exactly that file, the graph read from it, the workloads of the route-pairs on it (without the balanced metric at first), the updated graph, and the statistics; the balanced graph is the one after all updates but the last iteration's. The files determine all graphs and workloads in between. If the rebuilt graphs keep the edges with ids and their balanced metric, then in the balanced graph the metric of each edge is a sum of its workloads weighted the same for all edges (without minimum), and averaging never gives the larger metric to an edge which has never been used more than another one.", "quantifier": "all configurations, maps, contracting programs, simulations, numbers of iterations and environments in which the run ends well", "why_tests_cant": "Balancing needs an external program and runs for hours; no test runs it, and the statement is about all iterations and all files.", "anchors": ["src/bin/osmgraphing/balancing/mod.rs: run, prepare_results, prepare_iteration, write_multi_ch_graph, construct_ch_graph, read_in_ch_graph, read_in_routing_cfg, balance", "src/io/writing/evaluating_balance.rs", "src/network/graph/building.rs"]}
{"id": "C57", "title": "A cell's linear system and its matrix", "statement": "A matrix can be made of rows exactly if there is a first row and all rows together have as many values as if each were as long as the first. One index counts its values column after column. Row and column of a square matrix find the entry as given (in general, another entry is found or the program stops). A cell of the triangulation gives a linear system exactly if it has as many corners as metrics are considered, or one more; it gives none with fewer, and stops the program with more. The system is square, so its matrix can be built and its entries are found. Its solutions are exactly the weights making all corners cost the same that are zero for the metrics not considered, and that add up to one unless the cell has one corner too many.", "quantifier": "all tables of values, indices, queries, cells with finite costs", "why_tests_cant": "The tests check two small matrices; which vectors solve the system is a statement about all cells and all vectors.", "anchors": ["src/helpers/algebra.rs: Matrix, from_rows, index, lu", "src/routing/explorating.rs: create_linear_system"]}
{"id": "C58", "title": "Exploration ends only when every cell is settled", "statement": "A path found at a cell costs, for some weights of the considered metrics that make the corners of the cell equally expensive, at least 1.5e-6 less than each corner, and no path of the graph costs less. When the exploration ends, the triangulation holds the initial and further real paths, those within the tolerances are returned in the order of being found, and no cell of the triangulation is worth another look: if exactly one choice of weights makes its corners equally expensive, none is negative, and the cell is within the tolerances, then one of the paths held is a cheapest of all paths of the graph for these weights, up to 1.5e-6 and the inexactness of the queue.", "quantifier": "all graphs, configurations, node pairs, triangulations with fresh ids and stable cells, exact solvers, orders of the queue up to a tolerance", "why_tests_cant": "The test of the explorator compares the results on one small graph; the statement is about optimality over all paths and all cells.", "anchors": ["src/routing/explorating.rs: fully_explorate, find_initial_paths, explore_cells, update, create_linear_system"]}
{"id": "C59", "title": "How multi-ch is built and called", "statement": "For contracting, cmake configures with the number of metrics and the accuracy, cmake builds, and multi-ch contracts, in this order, each only if everything before succeeded. It ends well exactly if all three succeed; otherwise the error is the operating system's or shows the arguments of the call that failed. Read from left to right, the command line of multi-ch gives the configured threads, files and ratio, and sets the two flags exactly if they are configured, whatever strings are configured; a flag that is off is passed as an empty argument. The command lines tell configurations apart. The program multi-ch-constructor calls nothing and panics without a readable configuration, and otherwise makes exactly the calls for it.", "quantifier": "all configurations, documents, outcomes of the external programs", "why_tests_cant": "No test calls the external programs; which calls are made depends on their outcomes.", "anchors": ["src/multi_ch_constructor/mod.rs: build, construct_ch_graph", "src/bin/multi-ch-constructor.rs: run"]}
{"id": "C60", "title": "Dijkstra with rounding arithmetic", "statement": "The search is repeated with arithmetic that rounds every sum and every product: with any rounding that respects the order, keeps what is already rounded and is off by at most a factor and a summand; rounding to nearest of binary64 is proved to be such a rounding. Without rounding, the search is the one of C16-C22. On every built graph, whose metrics may be replaced by any non-negative ones, a returned path is a real one leading from source to destination, for both algorithms; a path is returned exactly if one exists (or, for CH-Dijkstra, one going up and then down exists); the search ends; and the exact costs of the returned path exceed those of any other path by no more than the stated error. For binary64 and paths of up to a million edges, they exceed it by at most a billionth of it, three times the tolerance of the queue, and 2^-1000. Costs summed up along a path are off by the rounding of one addition per edge. A path strictly cheaper than the returned one may exist. With overflow (results beyond the largest finite number become infinite), the search does exactly the same as long as twice as many edges as there are nodes cost less than the largest number; with f64 this holds of graphs of half a million nodes whose edges cost at most 2^1000. Beyond that an existing path may not be found.", "quantifier": "all roundings, graphs, metrics, alphas, queries, earlier queries, orders of the queue", "why_tests_cant": "Whether rounding lets the search run forever, lose a path or join halves that don't belong together depends on sums of arbitrary metrics in arbitrary orders.", "anchors": ["src/routing/dijkstra.rs: compute_best_path", "src/helpers/mod.rs: dot_product, add", "src/routing/paths.rs: calc_costs"]}
{"id": "C61", "title": "Displaying a graph", "statement": "The text a graph is displayed as (logged with level debug after parsing) lists the numbers of nodes and edges, the configuration, the nodes with id and coordinate, and for both directions the edges with id, ends, metrics and the number of shortcuts before them, the number of edges starting before each node, and all of them; then the shortcuts, each with its edge and the two edges it replaces. Of each kind, all are shown if there are at most 20, otherwise the first 19, a mark, and the last one. This determines the text. A built graph is displayed exactly if one of its last two nodes has a leaving edge and one of them has an entering edge; otherwise displaying panics, and so does the program when logging with level debug. Otherwise logging does not change what is parsed.", "quantifier": "all built graphs", "why_tests_cant": "Tests log nothing, and the panic depends on which of the last nodes have edges; the search for the shortcuts' edges walks through an array of arbitrary offsets.", "anchors": ["src/network/graph/mod.rs: impl Display for Graph", "src/bin/osmgraphing/balancing/mod.rs: parse_graph", "src/bin/osmgraphing/mod.rs: run"]}
{"id": "C62", "title": "The command line and logging", "statement": "Whatever the declared arguments accept starts the program with the flags and the configuration as given, unless balancing or evaluating is asked for without the feature gpl, which panics. Without the environment-variable RUST_LOG, the program's own modules log up to the level asked for (ignoring case) and all other ones up to warnings. With it, the directive about a target which names the most letters, the last of several, decides; for the own modules this holds only if it names the crate.", "quantifier": "all accepted arguments, texts of RUST_LOG, targets and levels", "why_tests_cant": "Tests do not start the program, set no environment-variable and look at no log; the number of directives and their order is unbounded.", "anchors": ["src/helpers/mod.rs: init_logging", "src/bin/osmgraphing/mod.rs: main, parse_cmdline, CmdlineArgs::try_from", "src/bin/multi-ch-constructor.rs: main, parse_cmdline"]}
{"id": "C63", "title": "Routing as it runs: f64 and the binary heap", "statement": "The search is repeated with the arithmetic of f64 (rounding to nearest, ties to even, subnormal numbers, overflow to infinity) in every operation, including those of comparing two entries of the queue, and with the queue being std's BinaryHeap. Costs that differ by at most 1.5e-6 - 2^-70 compare as equal, those that differ by 1.5e-6 + 2^-70 or more compare as numbers. On every built graph of up to half a million nodes, whose metrics may be replaced by any non-negative ones such that no edge costs more than 2^1000: a returned path is a real one from source to destination; a path is returned exactly if one exists (for CH-Dijkstra: one going up and then down); the search ends with an answer if the last node has edges, and ends in any case, both whatever the alphas are and however much overflows; and for paths of up to a million edges, the exact costs of the returned path exceed those of any other one by at most a billionth of it, three times the error of the heap (1.5e-6 per push or pop), and 2^-1000. If alphas and metrics are multiples of powers of two (e.g. whole numbers) whose product is at least 2^-19, the returned path is exactly optimal among those costing up to 2^29 units. In general a strictly cheaper path may exist.", "quantifier": "all graphs, metrics, alphas, queries and earlier queries with any arithmetic", "why_tests_cant": "The heap's order isn't transitive and its comparisons round, so which entry is delivered depends on all earlier pushes and pops; tests see a few maps.", "anchors": ["src/routing/dijkstra.rs: compute_best_path, CostNode", "src/approximating.rs: Approx<f64>", "src/defaults.rs: accuracy::F64_ABS", "src/helpers/mod.rs: dot_product"]}
{"id": "C64", "title": "Normalizing and balancing metrics in f64", "statement": "Normalizing and the update of the balanced metric are repeated with the arithmetic of f64. Normalizing: for up to 2^50 edges with metrics that are 0 or between 2^-400 and 2^400, the stored mean is the exact one up to n + 1 roundings (factors of at most 1 / (1 - 2^-53); fewer than 2^30 of them make less than 2^-22), and every metric is its exact quotient by the exact mean up to n + 2 roundings, except that what is at most about 1e-6 is raised to that; for any metrics that aren't negative the order of two metrics is kept, even if the mean overflows. Equal metrics needn't become 1, and different ones may become equal. Updating: if the sum of workloads is at most 2^53, their mean is the f64 nearest to the exact one; the update fails and leaves the graph as it is, or writes finite metrics that aren't negative and changes nothing else; with averaging, an edge with at least the metric and at least the workload of another one has at least its metric afterwards, with the explicit Euler method this holds for edges of equal metric only; and a step of averaging gives the documented value divided by the mean of all of them, up to n + 10 roundings.", "quantifier": "all graphs, metrics, workloads, iterations and configurations within the ranges named", "why_tests_cant": "Errors of rounding depend on every number and on the order of adding; tests compare approximately and with few edges.", "anchors": ["src/network/graph/building.rs: normalize", "src/defaults.rs: update_new_metric", "src/approximating.rs: Approx<f64>"]}
{"id": "C65", "title": "The exploration ends", "statement": "For every built graph there is a number of rounds that no full exploration exceeds, whatever weights and tolerances are asked for and whatever the queue, the triangulation and the solver answer, provided a point that was added before brings no cells with new ids. If, besides, the triangulation takes all points, gives fresh ids, and answers cells of one to (considered metrics + 1) corners which have been added, and if the graph's last node is connected, its metrics are numbers, there are fewer than 32 of them and one weight and one scale per metric, then the exploration ends with an answer: it neither panics nor fails. Without the assumption on known points it may go on forever.", "quantifier": "all built graphs with metrics that aren't negative; all configurations, sources and destinations; all queues, triangulations and solvers meeting the assumptions; all histories of the Dijkstra object", "why_tests_cant": "The loop runs while the last round found something, and paths found before may be found again; ending depends on the finitely many costs of all paths Dijkstra could answer, which no test enumerates.", "anchors": ["src/routing/explorating.rs: ConvexHullExplorator::fully_explorate", "src/routing/explorating.rs: explore_initial_paths", "src/routing/explorating.rs: update"]}
{"id": "C66", "title": "Routes on OpenStreetMap data", "statement": "From the content of an OpenStreetMap file to the answer of the routing. For every configuration, the graph's nodes are exactly those from or to which the vehicles may drive along some way (its type admitting them, its direction being respected), located where their last mention says, and there is an edge from one node to another exactly if one may drive directly. With the metrics of the configurations shipped for .osm.pbf files, the edges tell speed limit, number of lanes, distance and duration; the graph is built if and only if the data contains all nodes that are needed. On such a graph, Dijkstra's algorithm with the binary heap, for any preferences between distance and duration, answers a ride of the data which is the best one up to the queue's error, or nothing, and then there is no ride; it does answer if the node with the greatest id can be left and reached. A street that is tagged with its type and open according to the documented table can be driven on as its oneway and maxspeed tags say.", "quantifier": "all OpenStreetMap objects in any order; all vehicles; all distance functions that are finite and not negative; all histories of the routing object; all preferences", "why_tests_cant": "Tests compare a handful of routes on one small map; this is about all maps and all rides on them.", "anchors": ["src/io/parsing/network/graph/pbf.rs", "src/defaults.rs", "src/network/graph/building.rs", "src/routing/dijkstra.rs", "resources/isle_of_man_2020-03-14/osm.pbf.yaml"]}
{"id": "C67", "title": "Graphs built in f64", "statement": "Building a graph with the arithmetic of f64 (comparing metrics when duplicates are removed, raising those near zero, generating and normalizing metrics) gives the network that has been inserted; stored metrics are the inserted ones or 1e-6, and an edge is only left out for another one whose metrics differ by at most 1.5e-6; where metrics are clearly apart the graph is the one exact arithmetic builds. For OpenStreetMap data with the configuration of the shipped maps only durations are rounded, and Dijkstra in f64 on that graph answers with a ride of the data that is nearly the best one, or there is no ride.", "quantifier": "all edges, nodes, configurations, chunk sizes, haversine functions (bounded by 2^20 km for routes), unit conversions, preferences up to 2^900, histories of the Dijkstra object; up to half a million nodes for routes", "why_tests_cant": "Rounding errors add up over paths of any length and the threshold of 1.5e-6 is blurred by rounding for a few numbers only.", "anchors": ["src/network/graph/building.rs:351-1459", "src/approximating.rs:148-199", "src/configs/parsing/generating/edges/metrics.rs:58-263", "src/io/parsing/network/graph/pbf.rs", "src/routing/dijkstra.rs"]}
{"id": "C68", "title": "The explorator in f64", "statement": "The explorator, calculating in f64 and with std's BinaryHeap, returns only roads between the asked nodes that carry their ids and costs (the metrics of their edges added up one after the other, rounded each time); this holds whatever the arithmetic does and whatever the metrics and alphas are. Returned costs stay within the recorded tolerances up to the accuracy of comparisons in f64. A tolerance is infinite where the metric isn't considered or nothing can be found, otherwise it's scaled from the calculated cost of a road nearly as cheap as any, so returned roads don't cost noticeably more than scale times what any road costs. Calculated costs are off by a billionth. Without negative metrics, the explorator comes to an end after a number of rounds that depends only on the graph, if the triangulation reports no new cells for a point it already has; if moreover the last node has edges, there are less than 32 metrics, and the triangulation accepts all points and has reasonable cells, it ends with an answer and never panics, whatever the solver says. Initial answers are found unless all their costs are like those of a path found before, those found differ noticeably, and those within the tolerances are returned; a path is added for a cell if and only if it is calculated to be noticeably cheaper than a corner, for weights solving the system whose differences of costs are rounded.", "quantifier": "all graphs (roads and tolerated costs), graphs of up to half a million nodes with metrics up to 2^1000 (tolerances, scaled costs); all configurations, scales, pairs of nodes, histories of the Dijkstra object, triangulations that never report an id twice, solvers", "why_tests_cant": "Rounding errors add up over paths and over comparisons of the heap, and the answers depend on an external triangulation and solver.", "anchors": ["src/routing/explorating.rs:140-584", "src/approximating.rs:119-199", "src/helpers/mod.rs:19-21", "src/routing/paths.rs:72-88", "src/routing/dijkstra.rs"]}
{"id": "C69", "title": "The balancer's workers in f64", "statement": "A balancing run's simulation, its workers searching and exploring in f64 with std's BinaryHeap, is finite under every interleaving of master and workers; no thread crashes and nothing fails, nobody waits for ever, and when it is done, every route has been worked off exactly once: with (CH-)Dijkstra by what a Dijkstra object finds for it, as often as demanded; with the explorator by paths drawn from those the explorator finds. Found roads lead from the route's source to its destination, and the workloads count the edges of the chosen roads, unpacked. If afterwards the update of the metric by the workloads, in f64, doesn't fail, the new graph again meets the conditions of all this, so the next iteration works as well.", "quantifier": "all built graphs with any nonnegative f64 metrics (also infinite), all alphas, all lists of routes between nodes, all numbers of threads and interleavings; triangulations that never report an id twice and accept all points, any solver, any random numbers in range", "why_tests_cant": "Interleavings, rounded costs in the heap and the answers of external triangulation, solver and random numbers can't be enumerated.", "anchors": ["src/bin/osmgraphing/balancing/multithreading.rs:13-536", "src/bin/osmgraphing/balancing/mod.rs", "src/defaults.rs:132"]}
{"id": "C70", "title": "Statistics of a balancing run in f64", "statement": "The running mean and variance of the numbers of found paths, calculated in f64, stay finite and are off from the mean and variance of all counts so far by at most 32 roundings (2^-53) of the largest count per outcome for the mean, and 256 roundings of its square per outcome and 32 per count for the variance, however the counts are distributed over outcomes and in whatever order these arrive, if every route pair is counted. If all counts are equal, both are exact. For every interleaving of master and workers with the explorator, also calculating in f64, the printed statistics are, up to this, those of the numbers of paths the explorator finds for the routes; with Dijkstra and a path for each route, they are 1 and 0. The order of the outcomes may change what is calculated.", "quantifier": "all sequences of up to 2^44 outcomes whose number of counts times the largest count is at most 2^47; for the run: all graphs, routes, threads and interleavings of C69", "why_tests_cant": "Rounding errors of a running mean and variance add up over all outcomes, whose order is up to the scheduler.", "anchors": ["src/bin/osmgraphing/balancing/multithreading.rs:58-118", "src/bin/osmgraphing/balancing/multithreading.rs:486-536"]}
{"id": "C71", "title": "Updating the balanced metric again and again in f64", "statement": "After an update of the balanced metric in f64, the value of every edge is a finite number from 0 to twice the number of edges, whatever the values up to 2^400 have been before, and the result can be updated again. So any number of updates with any workloads never panics: either all are done or one is rejected and leaves the graph as it is; nothing but the metric and its mean is changed. With a minimum of at least 2^-19 and at least one load in 2^19 edges no update is rejected. After any number of updates the graph meets the conditions under which the balancer's workers work off all routes.", "quantifier": "all graphs, all sequences of workloads summing up to at most 2^53 each, all numbers of iterations up to 2^50, both methods", "why_tests_cant": "Values of one iteration are the input of the next one; that rounding doesn't let them grow over iterations can't be seen from a few of them.", "anchors": ["src/defaults.rs:132-259", "src/bin/osmgraphing/balancing/mod.rs:301-373"]}
