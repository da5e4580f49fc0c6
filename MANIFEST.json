{
 "claims": [
  {
   "property": "C01",
   "status": "proved",
   "theorems": [
    "book_keeper_result_is_generated_partition"
   ],
   "note": "CMergeBookKeeper, all n and all call lists"
  },
  {
   "property": "C02",
   "status": "proved",
   "theorems": [
    "book_keeper_result_is_canonically_ordered"
   ],
   "note": ""
  },
  {
   "property": "C03",
   "status": "proved",
   "theorems": [
    "book_keeper_prohibitions_are_exact"
   ],
   "note": ""
  },
  {
   "property": "C04",
   "status": "proved",
   "theorems": [
    "book_keeper_errors_are_exact",
    "book_keeper_throw_leaves_object_unchanged"
   ],
   "note": ""
  },
  {
   "property": "C05",
   "status": "proved",
   "theorems": [
    "combine_composes"
   ],
   "note": "stronger than the statement: also covers keepers with prohibitions (throws iff a prohibited pair would be joined, leaving a partial composition)"
  },
  {
   "property": "C06",
   "status": "proved",
   "theorems": [
    "merge_manager_conserves_hits"
   ],
   "note": "for every stateful algorithm; conditions as in the statement (see C41, C42 for what fails without them)"
  },
  {
   "property": "C07",
   "status": "proved",
   "theorems": [
    "merge_manager_terminates"
   ],
   "note": "at most n iterations"
  },
  {
   "property": "C08",
   "status": "proved",
   "theorems": [
    "merge_manager_iterations_are_correct"
   ],
   "note": "stated through CMgr_Spec.iteration_correct"
  },
  {
   "property": "C09",
   "status": "proved",
   "theorems": [
    "priority_order_is_correct"
   ],
   "note": ""
  },
  {
   "property": "C10",
   "status": "proved",
   "theorems": [
    "match_book_keeper_is_greedy",
    "greedy_selection_unique"
   ],
   "note": ""
  },
  {
   "property": "C100",
   "status": "proved",
   "theorems": [
    "check_exact"
   ],
   "note": "reading past the end counts as not silent"
  },
  {
   "property": "C101",
   "status": "proved",
   "theorems": [
    "remove_hits_exact",
    "produce_exact",
    "crawl_writes"
   ],
   "note": ""
  },
  {
   "property": "C102",
   "status": "proved",
   "theorems": [
    "associate_exact"
   ],
   "note": ""
  },
  {
   "property": "C103",
   "status": "partial",
   "theorems": [
    "find_showers_partial",
    "find_showers_disjoint",
    "find_showers_refuted"
   ],
   "note": "REFUTED: a track that touches two showers is merged into the first only, so clusters are in two showers and connected clusters in different ones. Proved: cover, soundness, connectedness, exact condition for disjointness, and then components."
  },
  {
   "property": "C104",
   "status": "partial",
   "theorems": [
    "check_planes_exact",
    "check_planes_refuted"
   ],
   "note": "REFUTED: only the first shower is looked at. Exact for that one."
  },
  {
   "property": "C105",
   "status": "partial",
   "theorems": [
    "find_order_partial",
    "find_order_undefined",
    "find_order_refuted"
   ],
   "note": "REFUTED: of hits at the same position only the last is kept. Order exact; all hits kept when positions differ; 0/0 exactly without charge or on one wire."
  },
  {
   "property": "C106",
   "status": "partial",
   "theorems": [
    "isolated_exact",
    "isolated_one_partial",
    "isolated_refuted",
    "isolated_four_refuted"
   ],
   "note": "REFUTED: of two stray hits only the first is moved, with a good one; with four planes two by two it throws. Exact effect for up to three planes; right for one stray hit."
  },
  {
   "property": "C107",
   "status": "partial",
   "theorems": [
    "order_hits_partial",
    "order_hits_orientation_partial",
    "settle_partial",
    "orientation_refuted",
    "order_one_plane_refuted",
    "order_only_plane"
   ],
   "note": "REFUTED: with planes of equal length in wires an orientation is missing; restricting to a plane throws whenever there are hits on another. Complete when the lengths differ."
  },
  {
   "property": "C108",
   "status": "partial",
   "theorems": [
    "start_partial",
    "start_track_partial",
    "start_twice_refuted",
    "start_order_refuted"
   ],
   "note": "REFUTED: the second hit may be given twice or out of order."
  },
  {
   "property": "C109",
   "status": "partial",
   "theorems": [
    "points_partial",
    "points_two_planes",
    "points_refuted"
   ],
   "note": "REFUTED: with three planes the confirming hit may be shared. Exact otherwise."
  },
  {
   "property": "C11",
   "status": "proved",
   "theorems": [
    "combinations_are_complete_and_unique",
    "combinations_of_34_planes_are_undefined",
    "combinations_with_an_empty_plane_refuted"
   ],
   "note": "also shown: without the positivity condition the enumeration contains non-existing clusters; from 34 planes on it is undefined"
  },
  {
   "property": "C110",
   "status": "partial",
   "theorems": [
    "produce_partial",
    "produce_returns",
    "produce_select_refuted",
    "produce_refuted",
    "produce_orphans_refuted"
   ],
   "note": "REFUTED: all ids are 0; a positive shower number selects nothing; all points of a shower get the hits of its first point; points of showers not written are written. What is written is characterised exactly."
  },
  {
   "property": "C111",
   "status": "proved",
   "theorems": [
    "clean_exact",
    "two_planes_exact",
    "best_plane_exact"
   ],
   "note": ""
  },
  {
   "property": "C112",
   "status": "proved",
   "theorems": [
    "naive_scan"
   ],
   "note": ""
  },
  {
   "property": "C113",
   "status": "partial",
   "theorems": [
    "near_symmetric",
    "neighbours_partial",
    "dead_wires_refuted"
   ],
   "note": "REFUTED: the set holds channel numbers but is searched for wire numbers, so on any plane whose wires are not channels 0.. dead wires are not bridged and live ones are. Exact when wire w is channel w."
  },
  {
   "property": "C114",
   "status": "partial",
   "theorems": [
    "tree_methods_refuted",
    "vector_method_partial",
    "paper_method_partial",
    "methods_differ_refuted",
    "leaf_test_symmetric",
    "node_kept_partial",
    "node_skipped_refuted"
   ],
   "note": "REFUTED: the clamp of the wire numbers is reversed, so every comparison reads past the end of fBadWireSum; nearestPoint picks the time edge by the wire edges and skips nodes with near hits; method 2 counts the point itself in minPts and method 1 does not. Proved: given exact queries both are DBSCANs; nodes not entirely at lower wires are kept (without dead wires)."
  },
  {
   "property": "C115",
   "status": "proved",
   "theorems": [
    "dbcluster_output",
    "dbcluster_total"
   ],
   "note": ""
  },
  {
   "property": "C116",
   "status": "proved",
   "theorems": [
    "C116_compatible",
    "C116_separation"
   ],
   "note": ""
  },
  {
   "property": "C117",
   "status": "partial",
   "theorems": [
    "C117_offsets_refuted",
    "C117_offsets_partial"
   ],
   "note": "REFUTED: compatible and the fits use the raw peak time (converted with the detector offsets only); TickOffset is applied only by correctedTime. True when all offsets are zero."
  },
  {
   "property": "C118",
   "status": "proved",
   "theorems": [
    "C118_simple",
    "C118_complex"
   ],
   "note": ""
  },
  {
   "property": "C119",
   "status": "proved",
   "theorems": [
    "C119_track"
   ],
   "note": ""
  },
  {
   "property": "C12",
   "status": "proved",
   "theorems": [
    "match_manager_is_greedy",
    "matches_are_cross_plane_and_disjoint"
   ],
   "note": "for an empty book keeper (see C43)"
  },
  {
   "property": "C120",
   "status": "partial",
   "theorems": [
    "C120_once_refuted",
    "C120_made_partial",
    "C120_one_tpc_partial"
   ],
   "note": "REFUTED: the temporary set of points is declared outside the loop over TPCs but copied to the output inside it, so a combination of the k-th of T TPCs is returned T-k times. Exact in detectors with one TPC."
  },
  {
   "property": "C121",
   "status": "partial",
   "theorems": [
    "C121_filter_refuted",
    "C121_filter_partial"
   ],
   "note": "REFUTED for several TPCs (repeated points, same cause). Proved: exact multiset of what is returned."
  },
  {
   "property": "C122",
   "status": "partial",
   "theorems": [
    "C122_merge_refuted",
    "C122_merge_partial"
   ],
   "note": "REFUTED: the id computed for a merged point collides, so an exception is thrown when the first TPC making points makes pairs or when two TPCs make triplets. Proved: exact result otherwise."
  },
  {
   "property": "C123",
   "status": "partial",
   "theorems": [
    "C123_total_refuted",
    "C123_total_partial"
   ],
   "note": "REFUTED: pairs use id = size and triplets size - 1, so a TPC with triplets after one with pairs throws. Total with MinViews >= 3 or two-plane TPCs."
  },
  {
   "property": "C124",
   "status": "partial",
   "theorems": [
    "C124_combinations_refuted",
    "C124_pairs_partial",
    "C124_triplets",
    "C124_near_partial"
   ],
   "note": "REFUTED: a pair is never used when the third plane has any hit, whatever MinViews; the clamp to wire 0 accepts wires that are far apart. Triplets complete; pairs complete when only two planes have hits."
  },
  {
   "property": "C125",
   "status": "proved",
   "theorems": [
    "C125_hits"
   ],
   "note": ""
  },
  {
   "property": "C126",
   "status": "proved",
   "theorems": [
    "C126_stitching"
   ],
   "note": ""
  },
  {
   "property": "C127",
   "status": "partial",
   "theorems": [
    "C127_no_jumps_refuted",
    "C127_in_line_partial"
   ],
   "note": "REFUTED: the joined end is chosen by a priority of the four comparisons, not by the end that matched (two parallel overlapping tracks), and CommonComponentStitch appends the joints of the shorter composite without turning them (three collinear tracks). Proved for in-line events, with every match a joint and no track lost or repeated."
  },
  {
   "property": "C128",
   "status": "partial",
   "theorems": [
    "C128_exclusive_refuted",
    "C128_exclusive_partial"
   ],
   "note": "REFUTED: claims with zero separation are never resolved, and claims of heads and tails are resolved separately. Proved: at most one head and one tail when no two ends coincide; exactly the true matches for in-line events."
  },
  {
   "property": "C129",
   "status": "partial",
   "theorems": [
    "C129_no_repeats_refuted",
    "C129_no_repeats_partial"
   ],
   "note": "REFUTED: only one later occurrence of each component is removed. Proved for in-line events."
  },
  {
   "property": "C13",
   "status": "partial",
   "theorems": [
    "bool_array_is_right_associated",
    "bool_array_matches_documentation_iff_uniform_partial",
    "bool_array_mixed_chain_refuted",
    "bool_array_or_only_undefined"
   ],
   "note": "REFUTED for chains mixing AND and OR (the breaks make the chain right-associated; OR-only chains read an uninitialised member). Proved: exact right-associated semantics for all chains, and that the documented left-to-right meaning holds for all answers iff all operators after the first are equal."
  },
  {
   "property": "C130",
   "status": "partial",
   "theorems": [
    "C130_keeps_refuted",
    "C130_keeps_partial"
   ],
   "note": "REFUTED: when the shared track is inside the later composite, the earlier composite is dropped. Proved for one call in any history when shared tracks are at an end of the later composite."
  },
  {
   "property": "C131",
   "status": "partial",
   "theorems": [
    "C131_associations_partial",
    "C131_nested_refuted"
   ],
   "note": "REFUTED for the nested layout (inner loop increments ii). Proved for the flattened layout."
  },
  {
   "property": "C132",
   "status": "partial",
   "theorems": [
    "C132_every_cluster_once_refuted",
    "C132_every_cluster_once_partial"
   ],
   "note": "REFUTED for two TPCs: a cluster that continues a line in another plane is dropped with its hits. Proved: an exact partition otherwise."
  },
  {
   "property": "C133",
   "status": "partial",
   "theorems": [
    "C133_extent_refuted",
    "C133_extent_partial"
   ],
   "note": "REFUTED: the end of the member with the LEAST end wire is adopted (line 263). Proved for the start, and what the end is."
  },
  {
   "property": "C134",
   "status": "partial",
   "theorems": [
    "C134_hit_order_refuted",
    "C134_hit_order_partial"
   ],
   "note": "REFUTED: the hits of the continuing cluster are put first. Proved: what the order is, for every pair."
  },
  {
   "property": "C135",
   "status": "partial",
   "theorems": [
    "C135_merging_refuted",
    "C135_merging_partial",
    "C135_pair"
   ],
   "note": "REFUTED: a chain of four is merged in pairs only. Proved: members continue the line of the output; a lone output has no free continuation; exact for pairs."
  },
  {
   "property": "C136",
   "status": "proved",
   "theorems": [
    "C136_partition"
   ],
   "note": ""
  },
  {
   "property": "C137",
   "status": "partial",
   "theorems": [
    "C137_separated_refuted",
    "C137_shape_partial"
   ],
   "note": "REFUTED: a hit next to a small cluster may be in another cluster. Proved: seed, radius, size, diameter, and separation of the first hit from later clusters."
  },
  {
   "property": "C138",
   "status": "partial",
   "theorems": [
    "C138_ends_refuted",
    "C138_ends_partial"
   ],
   "note": "REFUTED for RadiusSizePar <= 0. Proved: exactly when the call ends."
  },
  {
   "property": "C139",
   "status": "partial",
   "theorems": [
    "C139_products_refuted",
    "C139_products_partial"
   ],
   "note": "REFUTED: ids collide with 100 or more small clusters on a plane; nothing is put for an event without hits. Proved otherwise."
  },
  {
   "property": "C14",
   "status": "partial",
   "theorems": [
    "priority_array_modes_partial",
    "priority_array_multiplication_refuted"
   ],
   "note": "REFUTED for kMultiplication (always 0 without a negative score); kLastAlgo on an empty list is undefined; the other modes are proved for every list."
  },
  {
   "property": "C140",
   "status": "partial",
   "theorems": [
    "C140_tpcs_refuted",
    "C140_planes_partial"
   ],
   "note": "REFUTED: the TPC is ignored. Proved for the plane number, and for all histories."
  },
  {
   "property": "C141",
   "status": "proved",
   "theorems": [
    "C141_partition"
   ],
   "note": ""
  },
  {
   "property": "C142",
   "status": "proved",
   "theorems": [
    "C142_leader"
   ],
   "note": ""
  },
  {
   "property": "C143",
   "status": "proved",
   "theorems": [
    "C143_points"
   ],
   "note": ""
  },
  {
   "property": "C144",
   "status": "partial",
   "theorems": [
    "C144_tpcs_refuted",
    "C144_tpcs_partial"
   ],
   "note": "REFUTED: hits of two TPCs with one wire number and window share a point. Proved for the per-hit methods and when no two hits have these in common."
  },
  {
   "property": "C145",
   "status": "partial",
   "theorems": [
    "C145_bound_refuted",
    "C145_residuals_partial"
   ],
   "note": "REFUTED: the largest residual range is the range plus half a step. Proved: the exact residual ranges, the range, and their bounds."
  },
  {
   "property": "C146",
   "status": "partial",
   "theorems": [
    "C146_reversal_refuted",
    "C146_reversal_partial"
   ],
   "note": "REFUTED when both ends match equally well. Proved otherwise, and for all other vectors always."
  },
  {
   "property": "C147",
   "status": "proved",
   "theorems": [
    "C147_products"
   ],
   "note": ""
  },
  {
   "property": "C148",
   "status": "partial",
   "theorems": [
    "C148_pitch_refuted",
    "C148_pitch_partial"
   ],
   "note": "REFUTED: zero for a track along the wires. Proved otherwise."
  },
  {
   "property": "C149",
   "status": "proved",
   "theorems": [
    "simple_partition"
   ],
   "note": ""
  },
  {
   "property": "C15",
   "status": "proved",
   "theorems": [
    "quadexpr_evaluates_expressions",
    "quadexpr_product_aborts_iff_not_quadratic"
   ],
   "note": "exact rational arithmetic"
  },
  {
   "property": "C150",
   "status": "partial",
   "theorems": [
    "simple_components_refuted",
    "simple_components_partial",
    "simple_any_order_partial"
   ],
   "note": "REFUTED on wire 0: Wire()-1 wraps around, so hits of wire 0 touch nothing. Proved away from wire 0, with independence of the order."
  },
  {
   "property": "C151",
   "status": "partial",
   "theorems": [
    "segmentation_hits_refuted",
    "segmentation_hits_partial"
   ],
   "note": "REFUTED: the last single hit is dropped. Proved: at most one hit is lost, none is in two segments."
  },
  {
   "property": "C152",
   "status": "partial",
   "theorems": [
    "segmentation_ends_refuted",
    "segmentation_hangs_line",
    "segmentation_hangs_minN",
    "segmentation_ends_partial"
   ],
   "note": "REFUTED for MaxLineDist 0 and for DenseMinNVtx 0. Proved for all other configurations with a non-zero inner radius."
  },
  {
   "property": "C153",
   "status": "proved",
   "theorems": [
    "dense_flags",
    "no_dense_vertex_left"
   ],
   "note": ""
  },
  {
   "property": "C154",
   "status": "partial",
   "theorems": [
    "dense_becomes_em_refuted",
    "em_has_vertex_refuted",
    "segments_are_linear",
    "no_dense_vertex_left"
   ],
   "note": "REFUTED both ways: the segment owning the vertex can stay a track, and a far cluster can be swallowed. What holds is C153 and C157."
  },
  {
   "property": "C155",
   "status": "proved",
   "theorems": [
    "split_hits_exact",
    "naive_split_exact",
    "naive_split_many"
   ],
   "note": ""
  },
  {
   "property": "C156",
   "status": "proved",
   "theorems": [
    "produce_written",
    "produce_showers",
    "produce_nothing"
   ],
   "note": ""
  },
  {
   "property": "C157",
   "status": "proved",
   "theorems": [
    "segments_are_linear"
   ],
   "note": ""
  },
  {
   "property": "C158",
   "status": "proved",
   "theorems": [
    "area_exact",
    "area_rotate",
    "area_reverse",
    "area_translate",
    "area_cut"
   ],
   "note": ""
  },
  {
   "property": "C159",
   "status": "partial",
   "theorems": [
    "perimeter_refuted",
    "perimeter_partial"
   ],
   "note": "REFUTED: it returns the root of the sum of the squared sides (2 for the unit square). Proved: that value is at most the perimeter and is zero only with it."
  },
  {
   "property": "C16",
   "status": "proved",
   "theorems": [
    "solver_consistent_and_conserving"
   ],
   "note": "for well-formed networks (WF) and any schedule of wire and orphan updates; orphans need both wires and alpha<2; exact arithmetic"
  },
  {
   "property": "C160",
   "status": "partial",
   "theorems": [
    "poly_overlap_no_refuted",
    "poly_overlap_yes_refuted",
    "poly_overlap_vertical",
    "poly_overlap_hulls_partial",
    "segments_sym",
    "segments_sound"
   ],
   "note": "REFUTED both ways: a vertical side gives not-a-number and the answer no; the direction of the side is used instead of its normal, so separate polygons can overlap. Proved: polygons without vertical sides whose hulls meet are found; PolyOverlapSegments symmetric and sound."
  },
  {
   "property": "C161",
   "status": "partial",
   "theorems": [
    "seg_overlap_sym",
    "seg_overlap_sound_partial",
    "seg_overlap_exact_partial",
    "seg_overlap_refuted",
    "intersection_refuted",
    "intersection_partial",
    "common_vertices",
    "common_none"
   ],
   "note": "REFUTED: collinear segments that share points are missed, and the abscissa of the intersection has the wrong sign. Proved: exact when no end is on the line of the other, sound always, symmetric; the point returned is the mirrored one."
  },
  {
   "property": "C162",
   "status": "partial",
   "theorems": [
    "point_inside_refuted",
    "point_inside_partial",
    "point_inside_rotate",
    "contained_exact"
   ],
   "note": "REFUTED for polygons around the corner (10000,10000), where the ray starts. Proved when all abscissas are below 10000 and the points are in general position."
  },
  {
   "property": "C163",
   "status": "partial",
   "theorems": [
    "untangle_refuted",
    "untangle_empty",
    "untangle_partial",
    "untangle_ends"
   ],
   "note": "REFUTED: nine distinct vertices make it recurse for ever, and an empty polygon throws. Proved: when it ends the vertices are the same and no two sides of the open chain that do not follow each other cross; the closing side is not examined."
  },
  {
   "property": "C164",
   "status": "proved",
   "theorems": [
    "extract_exact",
    "inverted_exact"
   ],
   "note": ""
  },
  {
   "property": "C165",
   "status": "proved",
   "theorems": [
    "extract_exact",
    "residual_range"
   ],
   "note": ""
  },
  {
   "property": "C17",
   "status": "proved",
   "theorems": [
    "solver_consistent_and_conserving"
   ],
   "note": "same theorem (Conserved)"
  },
  {
   "property": "C18",
   "status": "proved",
   "theorems": [
    "pair_metric_is_exact_change",
    "solve_pair_minimises",
    "iterate_never_increases_energy"
   ],
   "note": "global metric over all space charges; alpha<2 when there are orphans; exact arithmetic with IEEE division by zero"
  },
  {
   "property": "C19",
   "status": "partial",
   "theorems": [
    "iterate_visits_each_wire_once_partial",
    "iterate_visits_each_wire_once_refuted"
   ],
   "note": "REFUTED when the number of wires is a multiple of 1299827; proved for all other counts up to 2^32-1299827 (beyond, 32-bit wrap-around is outside the theorem)"
  },
  {
   "property": "C20",
   "status": "proved",
   "theorems": [
    "c20_doublets_complete",
    "c20_doublets_of_tpc",
    "c20_hit_pair_iff",
    "c20_cache_transparent"
   ],
   "note": "Exact rational coordinates; geometry is an oracle; std::sort is any function returning a sorted permutation. c20_zero_threshold_refuted shows the positive-threshold premise is needed."
  },
  {
   "property": "C21",
   "status": "partial",
   "theorems": [
    "c21_triplets_complete",
    "c21_all_tpcs",
    "c21_limit_prefix_partial",
    "c21_limit_refuted"
   ],
   "note": "Completeness and soundness without a limit are proved in full. REFUTED for the limit: with limit m>0 the code returns up to m+1 triplets per TPC (witness); proved instead: exactly the first m+1 of the unlimited list."
  },
  {
   "property": "C22",
   "status": "partial",
   "theorems": [
    "c22_three_view_position",
    "c22_two_view",
    "c22_two_view_mean_partial",
    "c22_bad_x_halves",
    "c22_two_view_mean_refuted"
   ],
   "note": "REFUTED: with a bad X channel TripletsTwoView averages in the placeholder 0, giving half the U drift position (witness). Holds when the X hit is real, and always for the three-view Triplets."
  },
  {
   "property": "C23",
   "status": "proved",
   "theorems": [
    "c23_dbscan_correct",
    "c23_no_unclassified"
   ],
   "note": "All point sets, epsilon, bad channel weights and minpts (also 0); exact rational coordinates; malloc failure not modelled."
  },
  {
   "property": "C24",
   "status": "proved",
   "theorems": [
    "c24_terminates",
    "c24_numbering"
   ],
   "note": "Seed list walk bounded by 2n steps; ids contiguous, in order of first core point."
  },
  {
   "property": "C25",
   "status": "proved",
   "theorems": [
    "c25_refines",
    "c25_links_consistent",
    "c25_branch_order"
   ],
   "note": "Refinement to a forest of ordered children for every history of construction, AddNext, RemoveNext, Disconnect and destruction on live objects; includes virtual dispatch differences in constructors/destructors."
  },
  {
   "property": "C26",
   "status": "proved",
   "theorems": [
    "c26_candidates"
   ],
   "note": "exact rationals; recursion depth bounded by waveform length, no read outside the waveform; also characterises the range ends"
  },
  {
   "property": "C27",
   "status": "proved",
   "theorems": [
    "c27_no_large_pulse_missed"
   ],
   "note": "sharp: c27_sharp shows 4 ticks are really possible"
  },
  {
   "property": "C28",
   "status": "proved",
   "theorems": [
    "c28_grouping",
    "c28_after_search"
   ],
   "note": "premise start<=stop established for every search result; c28_needs_order shows it is needed"
  },
  {
   "property": "C29",
   "status": "partial",
   "theorems": [
    "c29_fitter_partial",
    "c29_means_inside",
    "c29_edge_mean_refuted",
    "c29_zero_sample_refuted",
    "c29_solver_premise"
   ],
   "note": "REFUTED for every signal: a mean exactly on the last tick makes RunFitter throw, a zero sample leads to conversion of NaN to an index; full behaviour proved for signals whose inner samples are non-zero"
  },
  {
   "property": "C30",
   "status": "proved",
   "theorems": [
    "c30_solves",
    "c30_dominant",
    "c30_solve_equations"
   ],
   "note": "exact rationals; also uniqueness, and a sufficient condition (dominant diagonal) for non-zero pivots"
  },
  {
   "property": "C31",
   "status": "proved",
   "theorems": [
    "c31_reset",
    "c31_reset_groups",
    "c31_sum",
    "c31_mcq",
    "c31_mcq_hits"
   ],
   "note": "Outside the stated premises, also proved: c31_negative_refuted (any negative trackID reads before the table: undefined behaviour), c31_plane_refuted (MCQSum(nplanes) is undefined behaviour instead of the exception), c31_inverted_refuted (an inverted range adds everything after its start)."
  },
  {
   "property": "C32",
   "status": "proved",
   "theorems": [
    "c32_index",
    "c32_distinct",
    "c32_groups"
   ],
   "note": "Ids are unbounded naturals: no wrap of id+1."
  },
  {
   "property": "C33",
   "status": "proved",
   "theorems": [
    "c33_build",
    "c33_best",
    "c33_throws",
    "c33_correctness"
   ],
   "note": "c33_no_hits_refuted: a cluster without hits makes BuildMap write outside its table."
  },
  {
   "property": "C34",
   "status": "proved",
   "theorems": [
    "c34_ep",
    "c34_fractions",
    "c34_eff_sum",
    "c34_pur_sum",
    "c34_best_ep"
   ],
   "note": "Exact rationals; deposits non-negative where fractions are bounded."
  },
  {
   "property": "C35",
   "status": "proved",
   "theorems": [
    "c35_build",
    "c35_brute",
    "c35_entry",
    "c35_empty_refuted"
   ],
   "note": "For every non-empty list (std::sort = any sorted permutation); an empty list gives a tree on which the searches are undefined (c35_empty_refuted)."
  },
  {
   "property": "C36",
   "status": "partial",
   "theorems": [
    "c36_sound",
    "c36_max_sound",
    "c36_complete",
    "c36_max_absent",
    "c36_max_complete_partial",
    "c36_max_pair",
    "c36_tie_refuted"
   ],
   "note": "REFUTED as users expect it: started from FLT_MAX, as all callers do, a hit tied with a close neighbour on the split coordinate does not find it (c36_tie_refuted). Proved: soundness and no duplicates, completeness from any finite start >= RefLeafBestDist (the stated property), completeness from FLT_MAX for hits sharing no coordinate, and that of two close hits at least one finds the other."
  },
  {
   "property": "C37",
   "status": "partial",
   "theorems": [
    "c37_ids",
    "c37_rho_partial",
    "c37_plane_partial",
    "c37_queries",
    "c37_append_total",
    "c37_reset_rho_refuted",
    "c37_reset_plane_refuted",
    "c37_ctor_plane_refuted",
    "c37_ctor_rho_refuted",
    "c37_append_plane_refuted",
    "c37_self_append_refuted"
   ],
   "note": "REFUTED as stated: reset() keeps the old rhos and planes, constructors store no planes and do not check the number of rhos, append drops planes and never returns on itself. Proved: detector and hit ids (and HitInTrack, GetHitIDs, ==) are right after every history; rhos are right without reset and with matching constructors; planes without reset and hit-giving constructors."
  },
  {
   "property": "C38",
   "status": "proved",
   "theorems": [
    "c38_right",
    "c38_stable",
    "c38_distinct",
    "c38_clone",
    "c38_owned"
   ],
   "note": "For the run-time, compiled and truncated caches; TF1 parsing of gaus(k) is as documented by ROOT (trusted)."
  },
  {
   "property": "C39",
   "status": "proved",
   "theorems": [
    "c39_track",
    "c39_set_chi2",
    "c39_optionals",
    "c39_infos_parallel",
    "c39_element_used_once"
   ],
   "note": "For every history of addPoint / setTotChi2. chi2 exact rational or NaN. Also proved: the space points handed to the book keeper's addPoint are never stored in the optional outputs (the hit overload is not called)."
  },
  {
   "property": "C40",
   "status": "partial",
   "theorems": [
    "c40_set_tree_id",
    "c40_set_tree_id_root",
    "c40_set_tree_ids",
    "c40_origin",
    "c40_merge_partial",
    "c40_merge_ids_partial",
    "c40_merge_refuses",
    "c40_merge_stale_index_refuted",
    "c40_merge_past_end_refuted"
   ],
   "note": "REFUTED for i2<i1: PmaTrkCandidate.cxx:337-339 reads fCandidates[idx1] after erase(idx2), so the index is stale (wrong tree gets the id) or past the end (c40_merge_stale_index_refuted, c40_merge_past_end_refuted). Proved for i1<i2, for every well-formed forest, as well as setTreeId/setTreeIds and the refusal to take a branch."
  },
  {
   "property": "C41",
   "status": "partial",
   "theorems": [
    "empty_event_shows_previous_event_refuted",
    "event_is_independent_of_previous_output_partial"
   ],
   "note": "REFUTED for an event without clusters (the previous event's output and book keeper stay visible); proved for every non-empty event"
  },
  {
   "property": "C42",
   "status": "partial",
   "theorems": [
    "more_than_65535_clusters_lose_hits_refuted",
    "merge_manager_conserves_hits"
   ],
   "note": "REFUTED: 65538 one-hit clusters give an output with 2 hits; proved below 65536 clusters (C06)"
  },
  {
   "property": "C43",
   "status": "partial",
   "theorems": [
    "next_event_returns_stale_matches_refuted",
    "match_manager_is_greedy"
   ],
   "note": "REFUTED: only CMatchManager::Reset clears the book keeper; proved instead: the result is the greedy selection over everything registered since the last Reset"
  },
  {
   "property": "C44",
   "status": "proved",
   "theorems": [
    "match_manager_rejects_unknown_plane"
   ],
   "note": ""
  },
  {
   "property": "C45",
   "status": "partial",
   "theorems": [
    "monitored_metric_never_increases_without_orphans_partial",
    "monitored_metric_increases_with_orphans_refuted"
   ],
   "note": "REFUTED with orphans (Minimize then stops early); proved without orphans"
  },
  {
   "property": "C46",
   "status": "partial",
   "theorems": [
    "c46_distance_partial",
    "c46_range",
    "c46_zero_step_refuted"
   ],
   "note": "REFUTED for step 0, which the constructor accepts (c46_zero_step_refuted: the fill loop never ends); proved for every positive step"
  },
  {
   "property": "C47",
   "status": "proved",
   "theorems": [
    "c47_frac"
   ],
   "note": "Exact rationals."
  },
  {
   "property": "C48",
   "status": "proved",
   "theorems": [
    "c48_shower"
   ],
   "note": "c48_absent_refuted: the factor 1 makes a particle without any charge win over one that left charge."
  },
  {
   "property": "C49",
   "status": "proved",
   "theorems": [
    "c49_clustering",
    "c49_clustering_ptr",
    "c49_rerun",
    "c49_neighbours",
    "c49_connected",
    "c49_connected_kd"
   ],
   "note": "Including that core hits share a cluster iff density connected when the neighbourhoods are symmetric (c49_connected, c49_connected_kd)."
  },
  {
   "property": "C50",
   "status": "proved",
   "theorems": [
    "c50_connect"
   ],
   "note": "for every well-formed forest held by the collection"
  },
  {
   "property": "C51",
   "status": "proved",
   "theorems": [
    "c51_system",
    "c51_account"
   ],
   "note": "Finding: space charges with neither a collection hit nor both induction hits leak (collectionMapBad[0] is never freed); the theorem accounts for them."
  },
  {
   "property": "C52",
   "status": "proved",
   "theorems": [
    "c52_neighbours",
    "c52_symmetric"
   ],
   "note": "Exact rationals; exp(-d/2) is an arbitrary function of the squared distance."
  },
  {
   "property": "C53",
   "status": "proved",
   "theorems": [
    "c53_produce"
   ],
   "note": "Builds on the solver theorems of C17/C18; premises good_input (hits of different views are different, integrals not negative, coordinates below 10^10 cm, index walk does not wrap)."
  },
  {
   "property": "C54",
   "status": "partial",
   "theorems": [
    "c54_best_line_partial",
    "c54_undetermined",
    "c54_terminates_refuted",
    "c54_chidof_refuted"
   ],
   "note": "REFUTED in two cases: with 65536 points or more the loop never ends (unsigned short counter), and with more x than y values ChiDOF uses the size of x. Proved for up to 65535 points (optimality also with extra x values; ChiDOF when x and y have the same size). Exact rationals, sqrt an oracle."
  },
  {
   "property": "C55",
   "status": "partial",
   "theorems": [
    "c55_erosion_dilation_partial",
    "c55_small_element_refuted"
   ],
   "note": "Proved for structuring elements of at least 2. REFUTED below 2: every non-empty waveform is read past its end."
  },
  {
   "property": "C56",
   "status": "partial",
   "theorems": [
    "c56_opening_closing_partial",
    "c56_opening_below_waveform_refuted",
    "c56_wide_element_refuted"
   ],
   "note": "Windows and erosion <= opening <= closing <= dilation proved. REFUTED: the window is not symmetric, so opening can exceed the waveform and closing lie below it; structuring elements more than twice the waveform read past the end."
  },
  {
   "property": "C57",
   "status": "partial",
   "theorems": [
    "c57_triangle_partial",
    "c57_triangle_refuted",
    "c57_median_partial",
    "c57_median_last_window_refuted",
    "c57_median_short_refuted",
    "c57_derivative_partial",
    "c57_derivative_empty_refuted",
    "c57_derivative_stale_refuted"
   ],
   "note": "REFUTED: lowest bins past size-4 run past the end; medianSmooth skips the last complete window and reads past the end of short waveforms; firstDerivative throws on an empty waveform and leaves old contents in the end ticks. Everything else proved."
  },
  {
   "property": "C58",
   "status": "partial",
   "theorems": [
    "c58_find_peaks_partial",
    "c58_reads_past_end_refuted"
   ],
   "note": "Proved if the sample at the stop iterator is readable. REFUTED: with stop = end() it is dereferenced (e.g. by every non-negative waveform above threshold)."
  },
  {
   "property": "C59",
   "status": "proved",
   "theorems": [
    "c59_truncated_mean_rms",
    "c59_empty_refuted"
   ],
   "note": "sqrt is any monotone function, std::sort any sorting by absolute value; the empty waveform (0/0) is excluded by the statement and shown undefined."
  },
  {
   "property": "C60",
   "status": "partial",
   "theorems": [
    "c60_derivative_candidates_partial",
    "c60_late_region_refuted",
    "c60_default_ticks_refuted",
    "c60_empty_region_refuted"
   ],
   "note": "Proved for regions starting at tick 0 (as GausHitFinder passes) and MinDeltaTicks >= 1 (as in the fcl file). REFUTED otherwise: heights are looked up by absolute tick (throws for late regions); with the default MinDeltaTicks 0 the derivative is read past its end; an empty region throws."
  },
  {
   "property": "C61",
   "status": "proved",
   "theorems": [
    "c61_merge"
   ],
   "note": ""
  },
  {
   "property": "C62",
   "status": "partial",
   "theorems": [
    "c62_morphological_candidates_partial",
    "c62_one_group",
    "c62_not_cleared_refuted",
    "c62_small_element_refuted",
    "c62_empty_region_refuted",
    "c62_negative_ticks_refuted"
   ],
   "note": "Proved for regions starting at tick 0 (as GausHitFinder passes), MinDeltaTicks >= 0, structuring element >= 2 and an empty output vector. REFUTED: the output vector is not cleared; structuring elements below 2 read past the end; an empty region throws; negative MinDeltaTicks recurse for ever."
  },
  {
   "property": "C63",
   "status": "proved",
   "theorems": [
    "c63_convex_hull",
    "c63_callers_order"
   ],
   "note": "Exact arithmetic. c63_callers_order: the comparator of the callers gives this order when x values are equal or more than epsilon apart."
  },
  {
   "property": "C64",
   "status": "proved",
   "theorems": [
    "c64_area"
   ],
   "note": "Exact arithmetic."
  },
  {
   "property": "C65",
   "status": "partial",
   "theorems": [
    "c65_nearest_edge_partial",
    "c65_inside",
    "c65_hull_length",
    "c65_nearest_edge_refuted",
    "c65_inside_refuted"
   ],
   "note": "REFUTED as stated: the loop ends before the closing edge, so a nearer edge is missed and outside points are reported inside (c65_nearest_edge_refuted, c65_inside_refuted). Proved: the result is the nearest of all other edges, the distance is the distance to the segment, and points strictly inside are reported inside."
  },
  {
   "property": "C66",
   "status": "partial",
   "theorems": [
    "c66_returns",
    "c66_extreme_points_partial",
    "c66_extreme_points_refuted",
    "c66_single_point_refuted"
   ],
   "note": "REFUTED as stated (c66_extreme_points_refuted: triangle; c66_single_point_refuted: coincident points give (0,0,null)). Proved: always returns, and gives two different hull vertices unless all points coincide."
  },
  {
   "property": "C67",
   "status": "partial",
   "theorems": [
    "c67_clusters",
    "c67_together",
    "c67_components",
    "c67_close",
    "c67_components_refuted"
   ],
   "note": "Proved for every neighbour relation: termination, partition, no neighbour in a later cluster, components when mutual; with the kd tree of C35/C36, close hits share a cluster. REFUTED that a hit shares a cluster with every neighbour it finds: the kd search is one-sided between RefLeafBestDist and 1.5 for hits that share a coordinate."
  },
  {
   "property": "C68",
   "status": "proved",
   "theorems": [
    "c68_spanning_tree",
    "c68_acyclic"
   ],
   "note": "Minimality against any connecting set of neighbour edges with non-negative weights, and any set of as many edges whatever the signs."
  },
  {
   "property": "C69",
   "status": "proved",
   "theorems": [
    "c69_best_path",
    "c69_two_hits_refuted"
   ],
   "note": "The two-hit case, where the goal is not found, is excluded by the caller's size test; c69_two_hits_refuted shows that the exclusion is needed."
  },
  {
   "property": "C70",
   "status": "partial",
   "theorems": [
    "c70_result",
    "c70_region",
    "c70_same_hits",
    "c70_own_wire",
    "c70_ends",
    "c70_order_refuted"
   ],
   "note": "Proved for all executions: same hits with their wires, per-region order kept, termination. REFUTED as far as users may expect a reproducible order: c70_order_refuted."
  },
  {
   "property": "C71",
   "status": "partial",
   "theorems": [
    "c71_intervals",
    "c71_covered",
    "c71_hits",
    "c71_fitted",
    "c71_short",
    "c71_zero_undefined",
    "c71_covered_refuted"
   ],
   "note": "REFUTED that the whole pulse is covered and that at most LongMaxHits hits are made: with the default configuration a pulse of 417 ticks loses its last tick and gives 26 hits (c71_covered_refuted); the exact number of lost ticks is proved, and none when len/w <= max or len >= max*(max-1)."
  },
  {
   "property": "C72",
   "status": "partial",
   "theorems": [
    "c72_hits",
    "c72_charge",
    "c72_any_partial",
    "c72_index_refuted",
    "c72_charge_refuted",
    "c72_multiplicity_refuted"
   ],
   "note": "Proved for ordered peaks of positive width inside the pulse, one per candidate. REFUTED for what a refit (extra peak at the end) or a NaN amplitude leads to."
  },
  {
   "property": "C73",
   "status": "partial",
   "theorems": [
    "c73_filter",
    "c73_subset",
    "c73_ties_refuted"
   ],
   "note": "Proved for positive height cut and ratio at most 1. REFUTED that the outcome is determined when two hits share the highest amplitude (depends on std::sort)."
  },
  {
   "property": "C74",
   "status": "partial",
   "theorems": [
    "tj_careful_history_healthy",
    "tj_no_shared_hit",
    "tj_careful_step_healthy",
    "tj_any_history_leak_refuted",
    "tj_restore_shares_hit_refuted"
   ],
   "note": "REFUTED for arbitrary histories (a StoreTraj refused half-way leaks hits; restoring an obsolete trajectory whose hits were retaken shares them); proved for careful histories."
  },
  {
   "property": "C75",
   "status": "partial",
   "theorems": [
    "tj_store_success",
    "tj_store_succeeds",
    "tj_store_failure_partial",
    "tj_store_failure_harmless_refuted"
   ],
   "note": "Success effect exact. REFUTED: a refused StoreTraj can leave hits marked with the ID of a trajectory that does not exist; harmless when the hits were claimed."
  },
  {
   "property": "C76",
   "status": "partial",
   "theorems": [
    "tj_split_partition",
    "tj_split_refused_partial",
    "tj_split_comment_refuted",
    "tj_split_refused_unchanged_refuted",
    "tj_split_stale_vertex_refuted"
   ],
   "note": "Partition proved. REFUTED: point p stays in the first part (comment says second); a refused split drops the muon tag; without a vertex argument the first part keeps the far end's vertex."
  },
  {
   "property": "C77",
   "status": "partial",
   "theorems": [
    "tj_merge_success",
    "tj_merge_refused",
    "tj_merge_keeps_hits_refuted",
    "tj_merge_stale_vertex_refuted"
   ],
   "note": "Effect proved exactly. REFUTED: not every hit is kept; the merged trajectory can name the vertex that the merge made obsolete."
  },
  {
   "property": "C78",
   "status": "proved",
   "theorems": [
    "tj_obsolete_frees",
    "tj_obsolete_restore_identity"
   ],
   "note": "Exact effect of obsoleting and exact inverse."
  },
  {
   "property": "C79",
   "status": "partial",
   "theorems": [
    "tj_check_quiet",
    "tj_check_sound_partial",
    "tj_check_complete_refuted"
   ],
   "note": "REFUTED as a complete check: extra owned hits and trajectories owning <2 hits go unseen, fewer owned than used hits is an out-of-bounds read."
  },
  {
   "property": "C80",
   "status": "proved",
   "theorems": [
    "tj_numbering",
    "tj_append_only"
   ],
   "note": "For any history of calls."
  },
  {
   "property": "C81",
   "status": "partial",
   "theorems": [
    "find_clusters_returns_iff",
    "find_clusters_partition",
    "find_clusters_total_refuted",
    "clusters_nonempty_refuted"
   ],
   "note": "REFUTED: FindClusters reads past its list of values when no cell is below MinSeed, and with MinSize 0 it can return an empty cluster. Proved: exact condition for returning, disjointness, range and size."
  },
  {
   "property": "C82",
   "status": "partial",
   "theorems": [
    "find_clusters_history",
    "holes_are_hits",
    "no_peninsulas",
    "holes_filled_refuted",
    "own_neighbours_refuted"
   ],
   "note": "REFUTED: a hole without a hit is never filled (its time is -10000, so it fails the time cut) and MinNeighbours counts cells of earlier clusters. Proved: the exact history of every cluster."
  },
  {
   "property": "C83",
   "status": "proved",
   "theorems": [
    "clusters_are_components"
   ],
   "note": "exact characterisation when time cut, hole filling and pruning are off"
  },
  {
   "property": "C84",
   "status": "partial",
   "theorems": [
    "image_shows_hits",
    "hit_dropped",
    "all_hits_kept_refuted"
   ],
   "note": "REFUTED: of hits with the same wire and integer tick only one survives, and hits of non-positive charge are dropped. Proved: which hit each cell shows, and the 20-cell margin."
  },
  {
   "property": "C85",
   "status": "proved",
   "theorems": [
    "plane_clusters_ok"
   ],
   "note": "no dead wires, MinSeed > 0, BlurWire at most 19 (the margin), merging off"
  },
  {
   "property": "C86",
   "status": "partial",
   "theorems": [
    "blur_is_convolution",
    "blur_dead_wire_refuted",
    "blur_in_bounds_refuted"
   ],
   "note": "REFUTED: with a dead wire next to the hit the kernel index drifts with the tick (dead_wires_passed is updated inside the tick loop) and can leave the kernel; BlurWire = 0 is out of range too. Proved: exact convolution without dead wires."
  },
  {
   "property": "C87",
   "status": "partial",
   "theorems": [
    "merge_clusters_ok",
    "merge_whole_clusters",
    "merge_hits",
    "merge_keeps_hits_refuted",
    "merge_nonempty_refuted"
   ],
   "note": "REFUTED: clusters below MinMergeClusterSize are dropped with their hits, and when there are only such clusters (or none) one empty cluster is returned. Proved: exact grouping of the others."
  },
  {
   "property": "C88",
   "status": "proved",
   "theorems": [
    "produce_ok",
    "produce_by_plane"
   ],
   "note": "without dead wires, MinSeed > 0, BlurWire at most 19; with or without merging"
  },
  {
   "property": "C89",
   "status": "partial",
   "theorems": [
    "vertex_history_sound",
    "store_vertex_ok",
    "attach_traj_ok",
    "attach_true_attached_refuted"
   ],
   "note": "REFUTED part: AttachTrajToVertex returns true without attaching when the vertex lies more than two points inside the trajectory (line 1815). Everything else proved for all histories."
  },
  {
   "property": "C90",
   "status": "partial",
   "theorems": [
    "check_passes",
    "check_means",
    "check_dead_2V_refuted",
    "check_other_plane_refuted",
    "check_repairs_all_refuted"
   ],
   "note": "REFUTED: a 3D vertex naming an obsolete 2D vertex and a trajectory attached to a vertex of another plane pass; a failing call repairs one end only. Proved: passes on consistent slices; exactly what its answers establish; total."
  },
  {
   "property": "C91",
   "status": "partial",
   "theorems": [
    "make_2V_obsolete",
    "make_3V_obsolete",
    "kill_poor_vertices",
    "kill_vertices_in_shower",
    "kill_2V_keeps_3V",
    "make_dead_2V_obsolete",
    "two_2V_in_3V_refuted",
    "pfp_vertex_refuted",
    "high_flag_after_kill_refuted"
   ],
   "note": "REFUTED: a 3D vertex is never made obsolete by killing its 2D vertices (the code after line 2758 is dead for a live 2D vertex), PFParticles keep referring to killed 3D vertices, flags stay. Exact effects proved."
  },
  {
   "property": "C92",
   "status": "partial",
   "theorems": [
    "find_3D_vertices",
    "three_planes_first",
    "three_planes_first_refuted",
    "flags_after_find3D_refuted",
    "find3D_again_refuted",
    "two_plane_detector_undef"
   ],
   "note": "REFUTED: negative third-plane wire beats three-plane matches; stale flags of rejected candidates; a second call breaks mutuality; out-of-range write with two planes. Proved for three planes and fresh 2D vertices: exact greedy selection, three planes first when wires are non-negative. Not modelled: completion of incomplete vertices."
  },
  {
   "property": "C93",
   "status": "proved",
   "theorems": [
    "score_vertices_flags"
   ],
   "note": "for any number of planes and any 2D scores"
  },
  {
   "property": "C94",
   "status": "partial",
   "theorems": [
    "vertex_clusters",
    "clusters_disjoint_refuted",
    "reconcile_reads_past",
    "reconcile_unchanged"
   ],
   "note": "REFUTED: clusters can overlap; Reconcile2VTs reads Pos[2] of a 2D point. Not modelled: Reconcile2VTs after line 1214."
  },
  {
   "property": "C95",
   "status": "partial",
   "theorems": [
    "find_2D_vertices",
    "candidate_vertex",
    "merge_with_vertex",
    "attach_any_takes_best",
    "find_2D_keeps_partial",
    "no_double_end_refuted",
    "new_2V_has_tj_refuted",
    "failed_merge_unchanged_refuted"
   ],
   "note": "REFUTED: a failing merge has already moved trajectories, new vertices without trajectories, a trajectory with one vertex at both ends. The rest proved; without close existing vertices attached ends stay attached and new vertices have two trajectories. Not modelled: FindHammerVertices."
  },
  {
   "property": "C96",
   "status": "proved",
   "theorems": [
    "crawl_consistent"
   ],
   "note": "histories in which a direct TmpStore succeeds (C97 shows why)"
  },
  {
   "property": "C97",
   "status": "partial",
   "theorems": [
    "tmp_store_exact",
    "store_refused_refuted",
    "store_refused_partial",
    "obsolete_then_restore"
   ],
   "note": "REFUTED: a refused TmpStore leaves the first hits marked with the next cluster number; the checker then reads past the clusters and the next cluster appears to own them. Exact success condition and effect proved."
  },
  {
   "property": "C98",
   "status": "partial",
   "theorems": [
    "split_exact",
    "split_false_partial",
    "split_keeps_hits_refuted",
    "split_false_keeps_refuted"
   ],
   "note": "REFUTED: pieces of up to two (first) or three (second) hits are dropped although true is answered; a refused split of a two-hit cluster makes the last, unrelated cluster obsolete."
  },
  {
   "property": "C99",
   "status": "partial",
   "theorems": [
    "do_merge_exact",
    "merge_overlap_exact",
    "extend_exact",
    "lop_exact",
    "merge_keeps_hits_refuted",
    "overlap_end_vertex_refuted"
   ],
   "note": "REFUTED: hits of the second cluster on shared wires are dropped; without a free cluster number DoMerge drops both clusters (case ncl = 32767 of do_merge_exact); MergeOverlap replaces the End vertex by a Begin vertex."
  }
 ]
}