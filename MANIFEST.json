{
 "claims": [
  {
   "property": "C01",
   "status": "proved",
   "theorems": [
    "C01_node_set"
   ],
   "note": ""
  },
  {
   "property": "C02",
   "status": "proved",
   "theorems": [
    "C02_insert_accepts",
    "C02_last_wins"
   ],
   "note": ""
  },
  {
   "property": "C03",
   "status": "proved",
   "theorems": [
    "C03_missing_coordinate",
    "C03_all_coordinates"
   ],
   "note": ""
  },
  {
   "property": "C04",
   "status": "proved",
   "theorems": [
    "C04_node_lookup"
   ],
   "note": ""
  },
  {
   "property": "C05",
   "status": "proved",
   "theorems": [
    "C05_edges_kept"
   ],
   "note": "Only neighbours in sorted order are compared when duplicates are removed."
  },
  {
   "property": "C06",
   "status": "partial",
   "theorems": [
    "C06_fwd_adjacency_partial",
    "C06_fwd_panic",
    "C06_fwd_adjacency_refuted"
   ],
   "note": "False of the code for nodes after the last source: there the call panics. Proved for all other nodes, with an exact characterization of the panic."
  },
  {
   "property": "C07",
   "status": "partial",
   "theorems": [
    "C07_bwd_adjacency_partial",
    "C07_edge_ends",
    "C07_bwd_panic",
    "C07_bwd_adjacency_refuted"
   ],
   "note": "As C06, for nodes after the last destination."
  },
  {
   "property": "C08",
   "status": "proved",
   "theorems": [
    "C08_between",
    "C08_between_defined"
   ],
   "note": "between panics exactly where starting_from does."
  },
  {
   "property": "C09",
   "status": "proved",
   "theorems": [
    "C09_edge_ids",
    "C09_duplicate_ids"
   ],
   "note": ""
  },
  {
   "property": "C10",
   "status": "proved",
   "theorems": [
    "C10_level_order",
    "C10_break_skips_downward"
   ],
   "note": ""
  },
  {
   "property": "C11",
   "status": "proved",
   "theorems": [
    "C11_shortcuts",
    "C11_replaced_edges_exist"
   ],
   "note": ""
  },
  {
   "property": "C12",
   "status": "proved",
   "theorems": [
    "C12_metrics_not_small",
    "C12_nan_accepted"
   ],
   "note": "NaN and +inf are accepted."
  },
  {
   "property": "C13",
   "status": "proved",
   "theorems": [
    "C13_normalized",
    "C13_errors"
   ],
   "note": ""
  },
  {
   "property": "C14",
   "status": "proved",
   "theorems": [
    "C14_chunk_size"
   ],
   "note": ""
  },
  {
   "property": "C15",
   "status": "proved",
   "theorems": [
    "C15_insertion_order"
   ],
   "note": ""
  },
  {
   "property": "C16",
   "status": "proved",
   "theorems": [
    "C16_real_path"
   ],
   "note": ""
  },
  {
   "property": "C17",
   "status": "partial",
   "theorems": [
    "C17_found_iff",
    "C17_found_iff_ch",
    "C17_total_partial",
    "C17_no_panic_refuted",
    "C17_heap_total_partial"
   ],
   "note": "'None iff unreachable' is proved in full. 'Never panics' is false of the code: it panics when the last node has no leaving or entering edge and on two-node graphs with a fresh object; proved absent otherwise."
  },
  {
   "property": "C18",
   "status": "proved",
   "theorems": [
    "C18_optimal"
   ],
   "note": "For any queue that errs by at most delta. The real queue errs by up to the accuracy times the number of operations, cf. C44 and C45: C18_heap_optimal_refuted shows a path missed that is cheaper by 8e-7."
  },
  {
   "property": "C19",
   "status": "proved",
   "theorems": [
    "C19_ch_optimal",
    "C19_ch_shortest"
   ],
   "note": ""
  },
  {
   "property": "C20",
   "status": "proved",
   "theorems": [
    "C20_negative_alpha",
    "C20_same_node"
   ],
   "note": ""
  },
  {
   "property": "C21",
   "status": "partial",
   "theorems": [
    "C21_reuse_partial",
    "C21_two_nodes_refuted",
    "C21_shrinking_refuted",
    "C21_heap_partial"
   ],
   "note": "Proved for graphs that are not smaller than any earlier one and do not have exactly two nodes; false of the code in both remaining cases (init_query compares with the length of the pair of directions)."
  },
  {
   "property": "C22",
   "status": "proved",
   "theorems": [
    "C22_terminates",
    "C22_exact_queue"
   ],
   "note": ""
  },
  {
   "property": "C23",
   "status": "proved",
   "theorems": [
    "C23_calc_costs",
    "C23_idempotent"
   ],
   "note": ""
  },
  {
   "property": "C24",
   "status": "partial",
   "theorems": [
    "C24_flattened",
    "C24_terminates",
    "C24_shortcuts_fit",
    "C24_cycle_no_result",
    "C24_cycle_reported_partial",
    "C24_cycle_reported_refuted",
    "C24_false_cycle_refuted",
    "C24_contiguous_refuted"
   ],
   "note": "Results, termination without cycles, contiguity and costs are proved. False of the code: a cycle through the second replaced edge loops forever; paths longer than the edge count are reported as cycles; finalizing does not check that shortcuts fit."
  },
  {
   "property": "C25",
   "status": "proved",
   "theorems": [
    "C25_path_eq",
    "C25_equivalence",
    "C25_costs_irrelevant"
   ],
   "note": ""
  },
  {
   "property": "C26",
   "status": "partial",
   "theorems": [
    "C26_approx_eq_partial",
    "C26_approx_reflexive_symmetric",
    "C26_approx_order_partial",
    "C26_approx_lt_transitive_partial",
    "C26_approx_vec",
    "C26_approx_cmp_vec",
    "C26_approx_transitive_refuted",
    "C26_approx_infinite_refuted",
    "C26_options",
    "C26_coordinates",
    "C26_entries_partial",
    "C26_entries_refuted",
    "C26_nodes"
   ],
   "note": "Approximate equality is not transitive, the order panics on NaN, and the order of the queue's entries is circular; the rest is proved, also for options, coordinates, entries of the queue and nodes."
  },
  {
   "property": "C27",
   "status": "partial",
   "theorems": [
    "C27_queries",
    "C27_queries_exist",
    "C27_tolerances",
    "C27_finite_scale_refuted"
   ],
   "note": "Proved with 'considered' meaning alpha > 0, as in the code. The statement's reading (finite tolerance) is false of the code: the finite scale of a metric with alpha 0 is ignored."
  },
  {
   "property": "C28",
   "status": "partial",
   "theorems": [
    "C28_tolerated",
    "C28_scaled",
    "C28_distinct_partial",
    "C28_distinct_refuted",
    "C28_copies",
    "C28_reuse_partial"
   ],
   "note": "Tolerances are proved for all runs, under the assumption that the external triangulation never reports a vertex id twice. Distinctness is proved for the initial paths; it is false of the code once facets are explored: facets facing away from the origin find known paths again; how often a path may be returned at most is C28_copies. C28_reuse_partial: a used Dijkstra object explores like a new one."
  },
  {
   "property": "C29",
   "status": "partial",
   "theorems": [
    "C29_all_or_nothing",
    "C29_update_partial",
    "C29_no_panic",
    "C29_formula_refuted",
    "C29_minimum_refuted"
   ],
   "note": "All-or-nothing is proved for all inputs. The new values follow the documented formula and minimum up to one common factor: the code divides the stored values by their mean afterwards, so the literal formula and the minimum are false of the code."
  },
  {
   "property": "C30",
   "status": "partial",
   "theorems": [
    "C30_schedules",
    "C30_accounting",
    "C30_dijkstra",
    "C30_schedule_independent",
    "C30_algorithms",
    "C30_no_workers_refuted",
    "C30_panic_refuted",
    "C30_explorator_refuted",
    "C30_draws",
    "C30_explorator_partial"
   ],
   "note": "Proved for all schedules and worker counts: termination, no loss, joining, the count of every edge; independence of the schedule for (CH-)Dijkstra. With the explorator the random choice of paths depends on the chunks and thereby on the schedule; panicking workers lose their chunk unnoticed; zero workers process nothing."
  },
  {
   "property": "C31",
   "status": "proved",
   "theorems": [
    "C31_work_size",
    "C31_chunk"
   ],
   "note": ""
  },
  {
   "property": "C32",
   "status": "proved",
   "theorems": [
    "C32_way",
    "C32_none",
    "C32_metrics",
    "C32_file",
    "C32_oneway",
    "C32_both_ways",
    "C32_reverse_oneway"
   ],
   "note": "The edges of a way are exactly one per pair of consecutive supported nodes and driven direction, in order; nothing for unsupported ways; what the one-way tag means is stated by the lists of accepted values."
  },
  {
   "property": "C33",
   "status": "partial",
   "theorems": [
    "C33_min_speed",
    "C33_edge_speed",
    "C33_number",
    "C33_padded_refuted",
    "C33_picky",
    "C33_default_speed",
    "C33_table_partial",
    "C33_table_refuted",
    "C33_road_refuted",
    "C33_street",
    "C33_street_refuted",
    "C33_alternatives_partial",
    "C33_alternatives_refuted",
    "C33_mph_partial",
    "C33_mph_refuted"
   ],
   "note": "The documented table is met except for two street types, which are refuted with witnesses: service ways are never admitted for cars and road ways for nobody. A maxspeed number padded by spaces falls back to the default, a highway value after white space is unknown; lists of limits count as the greater one but '30; 40', and mph limits are met within 6 km/h but 3 and 5 mph."
  },
  {
   "property": "C34",
   "status": "partial",
   "theorems": [
    "C34_every_file",
    "C34_lines_unique",
    "C34_ranges",
    "C34_noise",
    "C34_counts_missing",
    "C34_blank_refuted",
    "C34_edge_id_panics"
   ],
   "note": "Proved for all texts, including both kinds of line ends, a missing last line end and arbitrary comments and empty lines. Lines of white space only are not ignored by the code (C34_blank_refuted): they are counted as data lines."
  },
  {
   "property": "C35",
   "status": "partial",
   "theorems": [
    "C35_parse",
    "C35_lines",
    "C35_noise",
    "C35_round_trip",
    "C35_blank_refuted",
    "C35_path_refuted"
   ],
   "note": "The round trip and the insensitivity to comments and empty lines are proved for all lists. Lines of white space only are not ignored, and a map-file path with a line feed spoils the written file; both are refuted with witnesses."
  },
  {
   "property": "C36",
   "status": "partial",
   "theorems": [
    "C36_pairs",
    "C36_complete",
    "C36_terminates",
    "C36_total_partial",
    "C36_file",
    "C36_no_panic_refuted"
   ],
   "note": "Distinctness, reachability, the bound, completeness and termination are proved for all graphs with other than two nodes, random sequences and counts. Success needs the hypotheses of C36_total_partial, since the writer panics on graphs with none or two nodes and where Dijkstra panics (C17)."
  },
  {
   "property": "C37",
   "status": "partial",
   "theorems": [
    "C37_rows_partial",
    "C37_rows_refuted",
    "C37_dst_coord",
    "C37_succeeds",
    "C37_unknown",
    "C37_values"
   ],
   "note": "All columns are proved for all graphs and edges, except the destination's coordinates: there, the code writes the source's coordinates (C37_dst_coord, witness C37_rows_refuted). Which edges are written, success and the rejection of unknown ids are proved, too."
  },
  {
   "property": "C38",
   "status": "partial",
   "theorems": [
    "C38_defined",
    "C38_total",
    "C38_amount",
    "C38_round_trip",
    "C38_via",
    "C38_via_raw_refuted",
    "C38_calc_defined",
    "C38_calc_duration",
    "C38_calc_speed",
    "C38_calc_no_speed",
    "C38_convert"
   ],
   "note": "Everything is proved but 'via an intermediate unit gives the same' when the raw unit is involved, which is false of the code: the raw unit forgets what was measured."
  },
  {
   "property": "C39",
   "status": "proved",
   "theorems": [
    "C39_step",
    "C39_built",
    "C39_aligned",
    "C39_existing",
    "C39_categories",
    "C39_duplicate",
    "C39_duplicate_no_graph",
    "C39_unique_refuted",
    "C39_categories_refuted",
    "C39_small_refuted"
   ],
   "note": "Refuted theorems are findings beyond the statement: ids among generated categories are not compared, and generated metrics may be zero."
  },
  {
   "property": "C40",
   "status": "proved",
   "theorems": [
    "C40_accepted",
    "C40_config"
   ],
   "note": ""
  },
  {
   "property": "C41",
   "status": "proved",
   "theorems": [
    "C41_no_panic"
   ],
   "note": ""
  },
  {
   "property": "C42",
   "status": "proved",
   "theorems": [
    "C42_read_back",
    "C42_counts"
   ],
   "note": "Proved for all graphs and fitting configurations; printing and parsing of floating point numbers are parameters, of which only is assumed that the written numbers survive."
  },
  {
   "property": "C43",
   "status": "partial",
   "theorems": [
    "C43_rebuild",
    "C43_plain",
    "C43_duplicates_refuted"
   ],
   "note": "Proved for all graphs whose metrics are stored as they are and whose neighbouring parallel edges differ. Without the latter it is false: metrics below 1.5e-6 are raised only after removing duplicates, so edges which were kept side by side may be regarded as duplicates when read again (C43_duplicates_refuted)."
  },
  {
   "property": "C44",
   "status": "proved",
   "theorems": [
    "C44_contents",
    "C44_nonempty",
    "C44_delivers",
    "C44_exact",
    "C44_least_refuted"
   ],
   "note": "C44_least_refuted shows that the delivered entry need not be a least one in the queue's own order, since this order is not transitive."
  },
  {
   "property": "C45",
   "status": "proved",
   "theorems": [
    "C16_heap",
    "C17_heap",
    "C18_heap_bound",
    "C18_heap_units",
    "C18_heap_optimal_refuted",
    "C19_heap_bound",
    "C19_heap_units",
    "C20_heap",
    "C22_heap",
    "C22_heap_units"
   ],
   "note": "The error is of the size of the accuracy per queue operation; that the returned path need not be the cheapest one is shown by C18_heap_optimal_refuted."
  },
  {
   "property": "C46",
   "status": "proved",
   "theorems": [
    "C46_accepted",
    "C46_pbf",
    "C46_room_fmi",
    "C46_room_pbf"
   ],
   "note": "The capacity theorems ask for a configuration whose ids and units are those of its categories, which is how configurations are made."
  },
  {
   "property": "C47",
   "status": "proved",
   "theorems": [
    "C47_edge_line",
    "C47_node_line",
    "C47_edge_panics",
    "C47_node_panics",
    "C47_reported_refuted"
   ],
   "note": "C47_reported_refuted: a wrong coordinate in a line of less than three words panics instead of being reported, as the statement admits."
  },
  {
   "property": "C48",
   "status": "partial",
   "theorems": [
    "C48_statistics",
    "C48_explorator",
    "C48_dijkstra_refuted"
   ],
   "note": "Proved for the explorator and for any results counting every route. False for Dijkstra (C48_dijkstra_refuted): routes without path are left out of the found numbers, and the mean then depends on the order of the results."
  },
  {
   "property": "C49",
   "status": "proved",
   "theorems": [
    "C49_vehicles",
    "C49_succeeds",
    "C49_unambiguous",
    "C49_stay_refuted"
   ],
   "note": "C49_stay_refuted: a path from a node to itself gives a vehicle without any node, as the statement admits."
  },
  {
   "property": "C50",
   "status": "proved",
   "theorems": [
    "C50_merged",
    "C50_workloads",
    "C50_header_refuted"
   ],
   "note": "Assumes that printed numbers can be read back, that exported edges' ids are distinct, and that the header does not look like a comment: otherwise the first edge is lost (C50_header_refuted)."
  },
  {
   "property": "C51",
   "status": "proved",
   "theorems": [
    "C51_loop",
    "C51_averaging",
    "C51_euler",
    "C51_shortcuts_refuted"
   ],
   "note": "Simulation, rebuilding (an external program) and files are oracles; the latter two theorems assume that rebuilding keeps the balanced metric and that every edge is counted. Finding: shortcuts are updated like other edges and no longer sum up their replaced edges' metrics until the graph is rebuilt (C51_shortcuts_refuted)."
  },
  {
   "property": "C52",
   "status": "proved",
   "theorems": [
    "C52_linear",
    "C52_monotone",
    "C52_run",
    "C52_average_refuted"
   ],
   "note": "Edges are identified by their ids across rebuilding. Finding: since workloads are divided by the mean over all edges including the never used shortcuts, averaging weighs iterations with more shortcuts more (C52_average_refuted)."
  },
  {
   "property": "C53",
   "status": "proved",
   "theorems": [
    "C53_order",
    "C53_sections",
    "C53_strict",
    "C53_typo_refuted",
    "C53_configurations",
    "C53_blueprint_unreadable",
    "C53_defaults",
    "C53_vehicles_refuted",
    "C53_ratio_refuted",
    "C53_minimum_cost",
    "C53_node_ids_refuted",
    "C53_shipped_refuted"
   ],
   "note": "All eight readers. What serde's derived code does with a node is part of the model (ModelYaml.v), as serde isn't part of the repository. The theorems named _refuted show where the documentation promises more: keys inside categories, the vehicles' defaults, the contraction ratio without quotes, three shipped documents."
  },
  {
   "property": "C54",
   "status": "proved",
   "theorems": [
    "C54_untouched",
    "C54_balancing",
    "C54_complete",
    "C54_rerun",
    "C54_atomic_refuted",
    "C54_pairs_refuted",
    "C54_own_cfg_refuted"
   ],
   "note": "The file system is a map from resolved paths to texts with arbitrarily failing operations; directories are not modelled. multi-ch is an arbitrary function from files to files, master and workers are an oracle here (see C30). Findings: a run that fails may leave files behind, after which the next run fails because of them (C54_atomic_refuted); on graphs whose last node has no leaving edge, writing all route-pairs panics with an incomplete file left (C54_pairs_refuted); a configuration lying in the directory for the results is copied to itself and thereby emptied (C54_own_cfg_refuted)."
  },
  {
   "property": "C55",
   "status": "partial",
   "theorems": [
    "C55_nonneg",
    "C55_loaded",
    "C55_routes",
    "C55_own_pairs",
    "C55_no_edge_twice",
    "C55_total_partial",
    "C55_nonneg_refuted",
    "C55_unknown_refuted"
   ],
   "note": "Proved of every run that ends well. That a run ends well is proved for (CH-)Dijkstra in C55_total_partial under the conditions named there; it is false of the code for pairs with unknown ids (C55_unknown_refuted: all answers are lost) and for the graphs of findings 1 and 2; C55_nonneg_refuted shows why generated constants must not be negative. That runs which explore end well is C65_run."
  },
  {
   "property": "C56",
   "status": "proved",
   "theorems": [
    "C56_documented",
    "C56_determined",
    "C56_weights",
    "C56_fair"
   ],
   "note": "The external contracting program and the simulation are parameters (for the simulation see C30). That rebuilding keeps edges and metrics (carried) is a hypothesis of the latter two theorems: it depends on the external program, and a metric of zero is not kept, since reading raises it."
  },
  {
   "property": "C57",
   "status": "partial",
   "theorems": [
    "C57_from_rows",
    "C57_linear_index",
    "C57_square_index",
    "C57_index",
    "C57_index_refuted",
    "C57_system",
    "C57_meaning"
   ],
   "note": "The two-index access of a matrix is right for square matrices only (C57_index says what it does in general; C57_index_refuted gives the failures); everything else is proved. The arithmetic is exact (rationals)."
  },
  {
   "property": "C58",
   "status": "proved",
   "theorems": [
    "C58_undercuts",
    "C58_explored"
   ],
   "note": "With Dijkstra inside, or CH-Dijkstra on graphs contracted for all weights (contracted_for_all; hw_contracted shows one); the solver is assumed to be exact and the triangulation to give fresh ids and cells that keep their corners (both are external libraries, nalgebra and nd-triangulation). That the exploration ends is C65."
  },
  {
   "property": "C59",
   "status": "proved",
   "theorems": [
    "C59_settings",
    "C59_defines",
    "C59_tells",
    "C59_calls",
    "C59_main",
    "C59_empty_refuted"
   ],
   "note": "Outcomes of external programs and of canonicalize are arbitrary and may depend on all calls before. C59_empty_refuted records the empty arguments as a finding."
  },
  {
   "property": "C60",
   "status": "proved",
   "theorems": [
    "C60_exact",
    "C60_binary64",
    "C60_real_path",
    "C60_found_iff",
    "C60_terminates",
    "C60_total",
    "C60_cheapest",
    "C60_cheapest_binary64",
    "C60_costs",
    "C60_costs_kept",
    "C60_strictly_cheapest_refuted",
    "C60_ieee",
    "C60_no_overflow",
    "C60_no_overflow_binary64",
    "C60_cheapest_ieee",
    "C60_found_ieee_refuted"
   ],
   "note": "For every rounding; binary64 (rounding to nearest, ties to even, with subnormals) is shown to be one. C60_strictly_cheapest_refuted shows that the error bound cannot be dropped (0.1 + 0.2), C60_found_ieee_refuted that the search fails where sums overflow; C60_no_overflow says where they don't."
  },
  {
   "property": "C61",
   "status": "proved",
   "theorems": [
    "C61_display",
    "C61_panics",
    "C61_logging",
    "C61_always_refuted"
   ],
   "note": "Lines are kept as the data they are made of; how numbers and the configuration are spelled is not modelled. C61_always_refuted records the panic as a finding; the statement says exactly when it happens."
  },
  {
   "property": "C62",
   "status": "partial",
   "theorems": [
    "C62_start",
    "C62_levels",
    "C62_environment",
    "C62_precedence_partial",
    "C62_precedence_refuted",
    "C62_bare_level",
    "C62_own_info_refuted"
   ],
   "note": "clap and env_logger are modelled by their documented behaviour (without regular expressions). The documentation says that RUST_LOG has precedence; this is proved if the deciding directive names the crate or the target isn't an own module, and refuted for a level alone (C62_precedence_refuted, C62_bare_level)."
  },
  {
   "property": "C63",
   "status": "proved",
   "theorems": [
    "C63_compare",
    "C63_real_path",
    "C63_found_iff",
    "C63_total",
    "C63_ends",
    "C63_answers",
    "C63_cheapest",
    "C63_cheapest_grid",
    "C63_optimal_refuted"
   ],
   "note": "Combines C44 (BinaryHeap) and C60 (rounding, overflow); the comparisons of the queue round as well. C63_optimal_refuted shows that the error bound of C63_cheapest cannot be dropped without the condition of C63_cheapest_grid. C63_ends (PropsRoundedEnds.v) holds for any weights, including those that overflow."
  },
  {
   "property": "C64",
   "status": "proved",
   "theorems": [
    "C64_normalize",
    "C64_small",
    "C64_order",
    "C64_uniform_refuted",
    "C64_strict_refuted",
    "C64_load_mean",
    "C64_load_mean_refuted",
    "C64_update_total",
    "C64_update_order",
    "C64_euler_order_refuted",
    "C64_averaging",
    "C64_averaging_fixed_refuted"
   ],
   "note": "The theorems named _refuted show why the statement cannot be stronger; they are findings. No bound is given for the explicit Euler method, where subtracting may cancel, nor for a step with a minimum, where a value near the minimum may be raised or not."
  },
  {
   "property": "C65",
   "status": "proved",
   "theorems": [
    "C65_ends",
    "C65_answers",
    "C65_run",
    "C65_restless_refuted"
   ],
   "note": "C65_ends bounds the rounds by the graph alone (twice the number of lists of at most twice as many edges as there are, plus 2): answers of Dijkstra are that short, every round either adds a point that wasn't there or leaves only visited cells. The triangulation (crate nd-triangulation) and the LU-solver (nalgebra) are parameters; no_new_cells, takes_points and sound_cells are assumptions on the former. C65_run: whole runs that explore end well. C65_restless_refuted shows that no_new_cells can't be dropped."
  },
  {
   "property": "C66",
   "status": "proved",
   "theorems": [
    "C66_graph",
    "C66_measured",
    "C66_built",
    "C66_route",
    "C66_answered",
    "C66_signs"
   ],
   "note": "The vocabulary (SpecOsm.v) describes rides on the data itself, without graphs. Distances are any finite function of two coordinates, arithmetic is exact. The error is the one of C44: entries of the queue closer than 1.5e-6 count as equal. What tags mean is specified by C32 and C33. The configuration is shown to be what the shipped document says (C66_configured_case)."
  },
  {
   "property": "C67",
   "status": "proved",
   "theorems": [
    "C67_network",
    "C67_edges",
    "C67_convert",
    "C67_generated",
    "C67_duplicate",
    "C67_duration",
    "C67_same",
    "C67_same_refuted",
    "C67_osm",
    "C67_route",
    "C67_answered"
   ],
   "note": "Conversions between units and the haversine distance are computed by kissunits, which isn't part of the repository; they are arbitrary functions. C67_same needs metrics to be away from the threshold, C67_same_refuted shows two numbers of f64 for which the results differ."
  },
  {
   "property": "C68",
   "status": "proved",
   "theorems": [
    "C68_real",
    "C68_tolerated",
    "C68_tolerances",
    "C68_costs",
    "C68_scaled",
    "C68_road",
    "C68_ends",
    "C68_answers",
    "C68_initial",
    "C68_kept",
    "C68_undercuts",
    "C68_noticed",
    "C68_system"
   ],
   "note": "C68_real and C68_road hold for any arithmetic that keeps infinity and NaN, even for negative metrics; the others for binary64 (ieee). C68_scaled assumes that scale times the cost of the compared road doesn't exceed 2^1023, so the tolerance doesn't overflow; the bound includes the errors of C63. For CH-Dijkstra, compared roads are those that climb, then descend. C68_ends (PropsRoundedEnds.v): runs end on graphs without negative metrics, whatever the solver answers; no_new_cells is as in C65."
  },
  {
   "property": "C69",
   "status": "proved",
   "theorems": [
    "C69_dijkstra",
    "C69_explorator",
    "C69_next"
   ],
   "note": "The workers of C30 with the rounded search (C63) and explorator (C68). Metrics may be infinite but not negative, the last node needs an edge, and there are not exactly two nodes (a fresh Dijkstra panics there, finding 2). Roads of at most twice as many edges as there are nodes have to be unpackable with the fuel; shown for graphs without shortcuts. C69_next: the update in f64 (C64) keeps all conditions if it doesn't fail. Costs of flattened paths are exact in the model, only their edges matter here."
  },
  {
   "property": "C70",
   "status": "proved",
   "theorems": [
    "C70_statistics",
    "C70_equal",
    "C70_order_refuted",
    "C70_explorator",
    "C70_dijkstra"
   ],
   "note": "C48 with every operation rounded. C70_order_refuted witnesses the last sentence of the statement: two orders of the same outcomes yield different means in f64. With Dijkstra, routes without path aren't counted (C48_dijkstra_refuted); if all routes have a path, mean and variance are exactly 1 and 0 (C70_dijkstra). Not modelled: the square root and formatting of what is printed."
  },
  {
   "property": "C71",
   "status": "proved",
   "theorems": [
    "C71_again",
    "C71_rounds",
    "C71_accepted",
    "C71_balancing"
   ],
   "note": "Arithmetic is binary64. The workloads of an iteration are arbitrary, so they may be those of any schedule of the workers (C69). Writing the graph and reading the contracted one between two iterations is left out here; C51 and C52 (ModelLoop.v) have this step as an arbitrary function, in exact arithmetic."
  }
 ]
}