{
 "claims": [
  {
   "property": "C01",
   "status": "proved",
   "theorems": [
    "C01_normalisation_canonical"
   ],
   "note": "all 32-bit coordinates; includes absence of overflow and termination of both loops"
  },
  {
   "property": "C02",
   "status": "proved",
   "theorems": [
    "C02_periodic_copies_come_home",
    "C02_over_meridian_iff_moved"
   ],
   "note": ""
  },
  {
   "property": "C03",
   "status": "partial",
   "theorems": [
    "C03_degrees_strictly_increasing",
    "C03_degrees_round_trip_partial",
    "C03_degrees_round_trip_refuted"
   ],
   "note": "monotonicity holds; the round trip is false of the code (finding): 15 microdegrees reads back as 14, the constructor truncates; proved that a component moves by at most one unit, towards zero"
  },
  {
   "property": "C04",
   "status": "proved",
   "theorems": [
    "C04_add_exact",
    "C04_sub_exact",
    "C04_group_laws",
    "C04_scale_accurate",
    "C04_scale_defined",
    "C04_scale_exact",
    "C04_scale_by_units"
   ],
   "note": ""
  },
  {
   "property": "C05",
   "status": "proved",
   "theorems": [
    "C05_factor_reconstructs"
   ],
   "note": ""
  },
  {
   "property": "C06",
   "status": "proved",
   "theorems": [
    "C06_vector_orientation",
    "C06_vector_orientation_swap",
    "C06_point_orientation",
    "C06_translation_invariant"
   ],
   "note": ""
  },
  {
   "property": "C07",
   "status": "partial",
   "theorems": [
    "C07_equal_hash_partial",
    "C07_segment_hash_refuted"
   ],
   "note": "true for coordinates and polygons; false for segments (finding): == ignores direction, the hash does not"
  },
  {
   "property": "C08",
   "status": "proved",
   "theorems": [
    "C08_detection_exact",
    "C08_order_independent"
   ],
   "note": ""
  },
  {
   "property": "C09",
   "status": "proved",
   "theorems": [
    "C09_intersection_accurate"
   ],
   "note": "absence of overflow and of out-of-range casts is part of C08_detection_exact (the outcome is Ok)"
  },
  {
   "property": "C10",
   "status": "partial",
   "theorems": [
    "C10_parallel_endpoints_partial",
    "C10_collinear_overlap_refuted"
   ],
   "note": "false for collinear overlapping segments (finding); proved with \"share an endpoint\" in place of \"share a point\""
  },
  {
   "property": "C11",
   "status": "proved",
   "theorems": [
    "C11_on_segment_membership"
   ],
   "note": ""
  },
  {
   "property": "C12",
   "status": "proved",
   "theorems": [
    "C12_equality_ignores_direction",
    "C12_adjacent_involution"
   ],
   "note": ""
  },
  {
   "property": "C13",
   "status": "proved",
   "theorems": [
    "C13_construction_selects",
    "C13_no_straight_left"
   ],
   "note": "every ring without consecutive repeats (selection: every ring)"
  },
  {
   "property": "C14",
   "status": "partial",
   "theorems": [
    "C14_area_preserved_partial",
    "C14_duplicate_vertex_refuted"
   ],
   "note": "false with consecutive repeats (finding): both copies are dropped; proved without repeats"
  },
  {
   "property": "C15",
   "status": "partial",
   "theorems": [
    "C15_counter_clockwise_partial",
    "C15_source_order",
    "C15_sliver_refuted"
   ],
   "note": "false for slivers (finding): the double sum can have the wrong sign; proved when 10^7*|2*area| > n^2*(W+H), for every summation order"
  },
  {
   "property": "C16",
   "status": "partial",
   "theorems": [
    "C16_rebuild_partial",
    "C16_rebuild_or_reverse_partial",
    "C16_rebuild_refuted"
   ],
   "note": "false for tiny self-crossing rings and rings with repeats (finding); proved under the same area condition"
  },
  {
   "property": "C17",
   "status": "partial",
   "theorems": [
    "C17_exact_translates_partial",
    "C17_copy_reversed_refuted"
   ],
   "note": "false for slivers (finding); proved under the same area condition"
  },
  {
   "property": "C18",
   "status": "partial",
   "theorems": [
    "C18_corner_partial",
    "C18_small_corners",
    "C18_past_edge_refuted",
    "C18_flat_corner_refuted",
    "C18_corner_itself_refuted"
   ],
   "note": "False of the code in three ways: points past the far end of an edge by up to a factor 1.000002 count as visible, very flat large corners are misclassified by the double determinant, and the corner itself is reported hidden when reflex. Proved exactly for every clear corner and every other point."
  },
  {
   "property": "C19",
   "status": "proved",
   "theorems": [
    "C19_graph_is_edge_map"
   ],
   "note": "every polygon list, every history of directed and undirected calls"
  },
  {
   "property": "C20",
   "status": "partial",
   "theorems": [
    "C20_neighbors_undirected_partial",
    "C20_neighbors_column_partial",
    "C20_directed_neighbors_refuted"
   ],
   "note": "holds for undirected histories; for directed ones get_neighbors(v) lists the u with an edge u->v, so the statement is false (finding)"
  },
  {
   "property": "C21",
   "status": "proved",
   "theorems": [
    "C21_add_order_independent"
   ],
   "note": "the resulting graphs are identical, matrix included"
  },
  {
   "property": "C22",
   "status": "proved",
   "theorems": [
    "C22_unknown_rejected_no_oob"
   ],
   "note": ""
  },
  {
   "property": "C23",
   "status": "partial",
   "theorems": [
    "C23_add_vertex_loses_edges_refuted",
    "C23_add_vertex_edgeless_partial"
   ],
   "note": "false of the code (finding): add_vertex changes the row stride without moving the rows; true for graphs without edges"
  },
  {
   "property": "C24",
   "status": "partial",
   "theorems": [
    "C24_equality_polygon_order_refuted",
    "C24_equality_partial"
   ],
   "note": "false of the code when two vertices have equal hashes (finding); otherwise == is equality of all answers"
  },
  {
   "property": "C25",
   "status": "proved",
   "theorems": [
    "C25_concurrent_adds",
    "C25_linearizable",
    "C25_every_run_logged"
   ],
   "note": "Every number of threads, every per-thread list of calls, every schedule of lock operations and single cell accesses, every reader/writer preference. C25_linearizable covers removals and queries too. Memory is sequentially consistent, justified by C27."
  },
  {
   "property": "C26",
   "status": "proved",
   "theorems": [
    "C26_progress",
    "C26_bounded",
    "C26_runs_to_end"
   ],
   "note": "Covers every mix of add, remove, has_edge, is_edge_meridian_crossing and get_neighbors; also shows that every maximal run ends."
  },
  {
   "property": "C27",
   "status": "proved",
   "theorems": [
    "C27_no_race"
   ],
   "note": "Every reachable state of every mix of calls."
  },
  {
   "property": "C28",
   "status": "proved",
   "theorems": [
    "C28_merge_is_union",
    "C28_merge_any_schedule",
    "C28_merge_input_order",
    "C28_collected"
   ],
   "note": ""
  },
  {
   "property": "C29",
   "status": "proved",
   "theorems": [
    "C29_split_ranges",
    "C29_every_vertex"
   ],
   "note": "the ranges, and that they are computed from the number of vertices of the map"
  },
  {
   "property": "C30",
   "status": "proved",
   "theorems": [
    "C30_distributed",
    "C30_distributed_files"
   ],
   "note": "for every visibility outcome that names polygon vertices; also with every split saved and read back"
  },
  {
   "property": "C31",
   "status": "proved",
   "theorems": [
    "C31_schedule_independent"
   ],
   "note": "threads take effect call by call; atomicity of a call under the locks is C25-C27"
  },
  {
   "property": "C32",
   "status": "proved",
   "theorems": [
    "C32_generation_total"
   ],
   "note": "every arctangent, every iteration order (one per sweep), every schedule of the add_edge calls"
  },
  {
   "property": "C33",
   "status": "partial",
   "theorems": [
    "C33_beyond_meridian_refuted",
    "C33_never_joined_partial"
   ],
   "note": "false of the code: a triangle reaching to 181 degrees makes generation throw, for every accurate arctangent and library order; when it does succeed no edge joins two vertices beyond the meridian"
  },
  {
   "property": "C34",
   "status": "proved",
   "theorems": [
    "C34_save_in_bounds"
   ],
   "note": "every history (directed calls included), every previous file content, every prefix of the writes; operating system failures are not modelled"
  },
  {
   "property": "C35",
   "status": "proved",
   "theorems": [
    "C35_round_trip"
   ],
   "note": "file size below 2^60 bytes and an allocator granting that much"
  },
  {
   "property": "C36",
   "status": "partial",
   "theorems": [
    "C36_any_previous_content_partial",
    "C36_stale_entries_refuted"
   ],
   "note": "false of the code: the crossing count is written doubled (ordered pairs) but only one entry per pair, so stale entries of the old file are read as crossings"
  },
  {
   "property": "C37",
   "status": "partial",
   "theorems": [
    "C37_crash_after_polygons_partial",
    "C37_crash_undetected_refuted"
   ],
   "note": "false of the code: there is no marker or checksum; a crash leaves a file that loads as another graph"
  },
  {
   "property": "C38",
   "status": "partial",
   "theorems": [
    "C38_readable_files_partial",
    "C38_short_file_refuted",
    "C38_truncated_file_refuted"
   ],
   "note": "false of the code: offsets and counts from the file are not checked against its length"
  },
  {
   "property": "C39",
   "status": "proved",
   "theorems": [
    "C39_scalars"
   ],
   "note": ""
  },
  {
   "property": "C40",
   "status": "partial",
   "theorems": [
    "C40_overlay_partial",
    "C40_readded_refuted",
    "C40_new_vertex_query_refuted"
   ],
   "note": "false of the code in three ways: a removed crossing edge comes back as not crossing; has_edge on a new vertex throws until a call named the pair; crossing edges to new vertices throw (C42). Everything else proved for every history"
  },
  {
   "property": "C41",
   "status": "partial",
   "theorems": [
    "C41_neighbors_partial",
    "C41_listed_twice_refuted"
   ],
   "note": "false of the code: an edge of the base graph that is added again is listed twice. Membership proved for every history and iteration order, uniqueness unless an addition repeats a base edge"
  },
  {
   "property": "C42",
   "status": "partial",
   "theorems": [
    "C42_crossing_edge_refuted",
    "C42_plain_edge_partial"
   ],
   "note": "false of the code for every base graph and new vertex: the base graph is asked for the edge and throws"
  },
  {
   "property": "C43",
   "status": "partial",
   "theorems": [
    "C43_open_edges_partial",
    "C43_same_distance_refuted",
    "C43_added_twice_refuted",
    "C43_reversed_refuted"
   ],
   "note": "false of the code: edges at equal distance are lost, edges added twice stay, reversed edges are not found; proved for histories without these"
  },
  {
   "property": "C44",
   "status": "partial",
   "theorems": [
    "C44_sorted_partial",
    "C44_strict_weak_order_partial",
    "C44_near_points",
    "C44_strict_weak_order_refuted",
    "C44_irreflexive_refuted"
   ],
   "note": "false of the code: different directions can share a double, so the comparison is not a strict weak order (for every accurate arctangent); proved when directions are equal or 2^-47 apart, which holds for all points within 11.8 degrees"
  },
  {
   "property": "C45",
   "status": "partial",
   "theorems": [
    "C45_own_corner_partial",
    "C45_layered_partial",
    "C45_layered_own_partial",
    "C45_hidden_reported_refuted",
    "C45_equal_distances_refuted"
   ],
   "note": "false of the code in general: open edges keep the distance they had when opened, so an edge can hide behind a farther one, and two edges of one polygon opened at one distance collide; proved for the observer own corner and for disjoint strictly convex polygons separated by circles about the observer"
  },
  {
   "property": "C46",
   "status": "proved",
   "theorems": [
    "C46_rejected_are_blocked"
   ],
   "note": "every arctangent and iteration order"
  },
  {
   "property": "C47",
   "status": "partial",
   "theorems": [
    "C47_half_scan_partial",
    "C47_every_pair_partial",
    "C47_generation_partial",
    "C47_every_pair_refuted"
   ],
   "note": "proved whenever the comparison is a strict weak order on the vertices (C44); refuted otherwise: a map of disjoint triangles where it is none for any accurate atan2, and an order std::sort may then produce that loses every edge upwards of a vertex"
  },
  {
   "property": "C48",
   "status": "partial",
   "theorems": [
    "C48_well_formed_partial",
    "C48_sees_itself_refuted"
   ],
   "note": "false of the code with periodic copies: a vertex reports itself (twice); the rest proved for every map"
  },
  {
   "property": "C49",
   "status": "proved",
   "theorems": [
    "C49_paths_are_real",
    "C49_sweep_fits"
   ],
   "note": "every graph, query, option, tie-break and iteration order; the index may answer anything on the globe"
  },
  {
   "property": "C50",
   "status": "partial",
   "theorems": [
    "C50_shortest_partial",
    "C50_million_points_partial",
    "C50_shortest_refuted"
   ],
   "note": "false of the code exactly: two routes of different length can add up to the same double and the longer be returned; proved with the rounding accounted for (below 1 in 2e9 for a million points), for every weighting"
  },
  {
   "property": "C51",
   "status": "proved",
   "theorems": [
    "C51_failure_means_unreachable",
    "C51_success_means_reachable"
   ],
   "note": "for queries that are searched; the others return the direct path (C49) or OnLand (C55)"
  },
  {
   "property": "C52",
   "status": "proved",
   "theorems": [
    "C52_terminates"
   ],
   "note": "also for arbitrary picks, radius and weighting"
  },
  {
   "property": "C53",
   "status": "partial",
   "theorems": [
    "C53_radius_partial",
    "C53_radius_refuted"
   ],
   "note": "false of the code: the direct path ignores the radius; proved for searched queries"
  },
  {
   "property": "C54",
   "status": "proved",
   "theorems": [
    "C54_batch_is_aligned",
    "C54_batch_total"
   ],
   "note": "every schedule; one result per query"
  },
  {
   "property": "C55",
   "status": "proved",
   "theorems": [
    "C55_land"
   ],
   "note": "every answer of the index"
  },
  {
   "property": "C56",
   "status": "partial",
   "theorems": [
    "C56_metric_partial",
    "C56_triangle_partial",
    "C56_triangle_refuted"
   ],
   "note": "false of the doubles exactly: the triangle inequality fails by a rounding; all else exact, the triangle inequality up to 5 ulps"
  },
  {
   "property": "C57",
   "status": "partial",
   "theorems": [
    "C57_symmetric_partial",
    "C57_failure_symmetric",
    "C57_symmetric_refuted"
   ],
   "note": "lengths agree up to rounding; exactly false as in C50"
  },
  {
   "property": "C58",
   "status": "partial",
   "theorems": [
    "C58_endpoint_sees_partial",
    "C58_endpoint_sees_refuted"
   ],
   "note": "false of the code: no endpoint edge ever crosses the meridian; proved for straight lines"
  },
  {
   "property": "C59",
   "status": "partial",
   "theorems": [
    "C59_first_ring_partial",
    "C59_single_part_partial",
    "C59_at_least_three",
    "C59_obstacles_partial",
    "C59_every_ring_refuted"
   ],
   "note": "false of the code: only the first part of a shape is read; proved for first rings and for single-part shapes"
  },
  {
   "property": "C60",
   "status": "proved",
   "theorems": [
    "C60_aligned"
   ],
   "note": "every schedule of the threads; pairs in degrees on the globe"
  },
  {
   "property": "C61",
   "status": "partial",
   "theorems": [
    "C61_range_partial",
    "C61_grid_partial",
    "C61_unchanged_refuted",
    "C61_north_pole_refuted"
   ],
   "note": "false of the code: in-range values change by rounding and 90/180 map to -90/-180; range for all, congruence up to rounding, exact on a 2^-40 grid"
  },
  {
   "property": "C62",
   "status": "proved",
   "theorems": [
    "C62_total",
    "C62_ends"
   ],
   "note": "every graph fit for queries, every answer of the index"
  },
  {
   "property": "C63",
   "status": "partial",
   "theorems": [
    "C63_end_to_end_partial",
    "C63_end_to_end_refuted"
   ],
   "note": "false of the code: a ring with a repeated vertex is built into a polygon that changes when loaded, and the loader reads past the end of the file; proved for polygons the constructor keeps"
  },
  {
   "property": "C64",
   "status": "proved",
   "theorems": [
    "C64_no_overwrite"
   ],
   "note": "file system model: paths to directories and files; no permissions, links or concurrent processes"
  },
  {
   "property": "C65",
   "status": "partial",
   "theorems": [
    "C65_retry_refuted",
    "C65_no_partial_graph_partial"
   ],
   "note": "false of the code: the output directory is created first and stays; proved: no graph file is left"
  },
  {
   "property": "C66",
   "status": "partial",
   "theorems": [
    "C66_distributed_refuted",
    "C66_distributed_partial"
   ],
   "note": "false of the code for an empty shape file (the range command raises) and for a ring with a repeated vertex (its file does not load); proved for a non-empty list of polygons the constructor keeps (C16)"
  },
  {
   "property": "C67",
   "status": "partial",
   "theorems": [
    "C67_graph_exact_refuted",
    "C67_sweep_exact_partial",
    "C67_graph_exact_partial"
   ],
   "note": "false of the code: over four triangles that do not meet the graph has an edge through one of them; exact for strictly convex polygons in layers about every vertex (copies included), in general position"
  },
  {
   "property": "C68",
   "status": "partial",
   "theorems": [
    "C68_legs_free_refuted",
    "C68_legs_free_partial"
   ],
   "note": "false of the code: the path over three of the triangles of C67 leads through a triangle; proved for maps as in C67; endpoints are vertices or points at sea with a clear view, not moved to the shore; the spatial index is an oracle that does not miss a blocked straight line"
  },
  {
   "property": "C69",
   "status": "partial",
   "theorems": [
    "C69_no_shorter_route_partial",
    "C69_no_route_partial",
    "C69_edge_length_refuted"
   ],
   "note": "false of the code: an edge free both ways has the length of the direct way, though the way across the meridian may be a hundred times shorter; proved up to rounding for routes that go around the world only where the direct line is blocked; maps as in C67"
  },
  {
   "property": "C70",
   "status": "partial",
   "theorems": [
    "C70_determined_partial",
    "C70_determined_refuted"
   ],
   "note": "proved for maps as in C67, schedules by C32; refuted for a map with two edges less than a microdegree apart on the starting half line"
  },
  {
   "property": "C71",
   "status": "partial",
   "theorems": [
    "C71_failure_reported_refuted",
    "C71_aborts_partial",
    "C71_exceptions_partial"
   ],
   "note": "false of the code: exceptions leave the parallel loops and end the program; proved exactly when that happens"
  },
  {
   "property": "C72",
   "status": "partial",
   "theorems": [
    "C72_straight_refuted",
    "C72_straight_partial"
   ],
   "note": "false of the code: the index measures on the sphere and everything else in the plane, so the straight line is returned through an island and refused where it is free; proved for an index that is right in the plane and endpoints at sea that are no vertices"
  },
  {
   "property": "C73",
   "status": "partial",
   "theorems": [
    "C73_land_refuted",
    "C73_land_partial"
   ],
   "note": "false of the code for the same reason; proved for an index that is right in the plane about the endpoints"
  },
  {
   "property": "C74",
   "status": "partial",
   "theorems": [
    "C74_closed_chain",
    "C74_no_point",
    "C74_sweep_segments_partial",
    "C74_shared_vertex_refuted"
   ],
   "note": "chain, area and ends proved for every polygon; the sweep map proved for polygons without common vertices and false of the code otherwise: at a vertex of two polygons only the last polygon counts"
  },
  {
   "property": "C75",
   "status": "proved",
   "theorems": [
    "C75_coordinates",
    "C75_segments",
    "C75_boundary_of_copies"
   ],
   "note": ""
  },
  {
   "property": "C76",
   "status": "partial",
   "theorems": [
    "C76_vertices_partial",
    "C76_listed_twice_refuted"
   ],
   "note": "false of the code: a vertex of the base with recorded changes is listed twice; proved exactly when that happens, and that the list is otherwise the vertices"
  },
  {
   "property": "C77",
   "status": "partial",
   "theorems": [
    "C77_total_iff_partial",
    "C77_candidates_partial",
    "C77_lone_end_refuted",
    "C77_first_vertex_refuted"
   ],
   "note": "false of the code: an observer at the end of exactly one segment is undefined behaviour, a candidate end that no segment has throws; proved exactly when an answer is given; given pointers to segments are taken as distinct"
  },
  {
   "property": "C78",
   "status": "proved",
   "theorems": [
    "C78_unit",
    "C78_zero"
   ],
   "note": ""
  },
  {
   "property": "C79",
   "status": "partial",
   "theorems": [
    "C79_margin_partial",
    "C79_no_margin",
    "C79_close_refuted"
   ],
   "note": "proved when the foot point is more than a microdegree away, and without a margin; at one microdegree the code ignores the margin"
  },
  {
   "property": "C80",
   "status": "partial",
   "theorems": [
    "C80_products_partial",
    "C80_lengths",
    "C80_sign_refuted"
   ],
   "note": "accuracy proved for all vectors; signs proved when the product is not tiny compared with its terms, and wrong otherwise: parallel vectors have a cross product"
  },
  {
   "property": "C81",
   "status": "partial",
   "theorems": [
    "C81_more_roads_partial",
    "C81_farther",
    "C81_no_longer_refuted"
   ],
   "note": "a path is found, and it is not longer up to the rounding of the search; exactly, an added edge can make it longer"
  },
  {
   "property": "C82",
   "status": "partial",
   "theorems": [
    "C82_moved_partial",
    "C82_moved_refuted"
   ],
   "note": "false of the code: the nearest shore on the sphere can lie well inside the polygon in the plane, and the path starts there; proved for foot points that are not on the land side of their edge in the plane"
  },
  {
   "property": "C83",
   "status": "partial",
   "theorems": [
    "C83_one_run_partial",
    "C83_splits_partial",
    "C83_free_of_land_refuted"
   ],
   "note": "false of the code: three disjoint triangles in a shape file, and the path leads through one of them; proved for convex polygons all of whose vertices have a clear view, with endpoints at sea or at vertices, through every command and file"
  },
  {
   "property": "C84",
   "status": "proved",
   "theorems": [
    "C84_coordinates",
    "C84_polygons",
    "C84_visible_vertices",
    "C84_graphs"
   ],
   "note": ""
  },
  {
   "property": "C85",
   "status": "partial",
   "theorems": [
    "C85_same_answers_partial",
    "C85_interchangeable_refuted"
   ],
   "note": "false of the code: the comparison leaves out the polygons, so two triangles and the hexagon on their corners compare equal, and a query finds a path on one and none on the other; proved for vertices, edges and flags"
  },
  {
   "property": "C86",
   "status": "proved",
   "theorems": [
    "C86_which_run",
    "C86_positive",
    "C86_merged",
    "C86_part"
   ],
   "note": "for any integers as numbers and any shuffles; different seeds lose edges without an error, and the number 2 of 2 runs"
  },
  {
   "property": "C87",
   "status": "proved",
   "theorems": [
    "C87_files_identify",
    "C87_only_answers",
    "C87_only_bytes",
    "C87_resaved",
    "C87_splits"
   ],
   "note": "at fresh paths; the order of the polygons is part of the file, and graphs with directed edges are outside (an example shows why)"
  },
  {
   "property": "C88",
   "status": "proved",
   "theorems": [
    "C88_set",
    "C88_stages",
    "C88_stages_files"
   ],
   "note": ""
  },
  {
   "property": "C89",
   "status": "proved",
   "theorems": [
    "C89_there_and_back",
    "C89_tolerance",
    "C89_distinct"
   ],
   "note": "S2 and its rounding enter as bounded errors around real arithmetic"
  },
  {
   "property": "C90",
   "status": "proved",
   "theorems": [
    "C90_open_lines_are_edges",
    "C90_no_shorter_route",
    "C90_route_found",
    "C90_route_found_stored"
   ],
   "note": "maps on which the comparison of directions is a strict weak order, as the statement says (C44); lines around the world count as the longer of the two ways (C69)"
  },
  {
   "property": "C91",
   "status": "proved",
   "theorems": [
    "C91_one_run",
    "C91_splits"
   ],
   "note": "shape files whose maps meet the conditions of C90; fresh output folders"
  },
  {
   "property": "C92",
   "status": "partial",
   "theorems": [
    "C92_sweep_partial",
    "C92_edges_partial",
    "C92_convex",
    "C92_open",
    "C92_landfall_refuted"
   ],
   "note": "proved for maps on which the edges in front of each corner rank before those behind it; refuted for others"
  },
  {
   "property": "C93",
   "status": "partial",
   "theorems": [
    "C93_legs_partial",
    "C93_one_run_partial",
    "C93_splits_partial",
    "C93_legs_refuted"
   ],
   "note": "proved for the maps of C92 and endpoints with such a view or on a vertex; refuted for others"
  },
  {
   "property": "C94",
   "status": "partial",
   "theorems": [
    "C94_graph_partial",
    "C94_wet_partial",
    "C94_determined_partial",
    "C94_endpoint_partial",
    "C94_lines",
    "C94_graph_refuted"
   ],
   "note": "proved for simple counter-clockwise rings all of whose vertices have an ordered view (C92); refuted for other views, even of four separate triangles"
  },
  {
   "property": "C95",
   "status": "partial",
   "theorems": [
    "C95_shortest_partial",
    "C95_found_partial",
    "C95_one_run_partial",
    "C95_splits_partial",
    "C95_shortest_refuted"
   ],
   "note": "proved for the maps of C94 and endpoints with such a view or on a vertex; refuted for others"
  },
  {
   "property": "C96",
   "status": "partial",
   "theorems": [
    "C96_bends",
    "C96_shortest_partial",
    "C96_found_partial",
    "C96_is_way_partial",
    "C96_one_run_partial",
    "C96_splits_partial",
    "C96_direct",
    "C96_shortest_refuted",
    "C96_touching_partial",
    "C96_touching_found_partial"
   ],
   "note": "proved for the maps of C94, endpoints at sea with such a view or on a vertex, and ways over the plane; refuted for other maps"
  },
  {
   "property": "C97",
   "status": "partial",
   "theorems": [
    "C97_region_partial",
    "C97_either_partial",
    "C97_line_partial",
    "C97_inside_partial",
    "C97_left_partial",
    "C97_drawn",
    "C97_map_partial",
    "C97_file_partial",
    "C97_region_refuted",
    "C97_left_refuted"
   ],
   "note": "proved for rings without a vertex given twice in a row whose area is clear of rounding errors; refuted for both exceptions"
  },
  {
   "property": "C98",
   "status": "partial",
   "theorems": [
    "C98_shortest_partial",
    "C98_found_partial",
    "C98_one_run_partial",
    "C98_splits_partial",
    "C98_shortest_refuted"
   ],
   "note": "proved for the maps of C94 and endpoints moved beside an edge on its sea side, with twice the distance to the edge allowed at either end; refuted without the allowance"
  },
  {
   "property": "C99",
   "status": "partial",
   "theorems": [
    "C99_length_partial",
    "C99_barrier_partial",
    "C99_length_refuted"
   ],
   "note": "proved to be at most that of an open line, and equal to it if it goes around at most once, which holds beside any land that reaches as far north and south; refuted otherwise"
  },
  {
   "property": "C100",
   "status": "partial",
   "theorems": [
    "C100_stretch_partial"
   ],
   "note": "proved for the maps, endpoints and ways of C96"
  },
  {
   "property": "C101",
   "status": "partial",
   "theorems": [
    "C101_simple_partial"
   ],
   "note": "proved for the maps and endpoints of C96, weights of at most one, paths of at most 4000 degrees and their legs that are not around the world"
  },
  {
   "property": "C102",
   "status": "partial",
   "theorems": [
    "C98_shortest_partial",
    "C102_onto_refuted",
    "C102_inland_refuted"
   ],
   "note": "proved by C98 for points moved to the sea side; refuted for points moved exactly onto the edge and to the land side of it"
  },
  {
   "property": "C103",
   "status": "proved",
   "theorems": [
    "C103_seen",
    "C103_path"
   ],
   "note": ""
  },
  {
   "property": "C104",
   "status": "partial",
   "theorems": [
    "C104_graph_partial",
    "C104_found_partial",
    "C104_paths_partial"
   ],
   "note": "proved for maps which, with their image, are surveyed and drawn in the sense of C94; searches that reach the whole map"
  },
  {
   "property": "C105",
   "status": "partial",
   "theorems": [
    "C105_vertex_partial",
    "C105_vertex_found_partial",
    "C105_water_partial",
    "C105_water_found_partial"
   ],
   "note": "proved for the maps and endpoints of C95 where the third place is a vertex, and for the maps and ways of C96 where it is anywhere on the water"
  },
  {
   "property": "C106",
   "status": "partial",
   "theorems": [
    "C106_moved_partial",
    "C106_moved_found_partial",
    "C106_moved_end_partial",
    "C106_moved_end_found_partial"
   ],
   "note": "proved for the maps and ways of C96"
  },
  {
   "property": "C107",
   "status": "partial",
   "theorems": [
    "C107_edges_partial",
    "C107_paths_partial",
    "C107_found_partial"
   ],
   "note": "proved for pairs of maps which are surveyed and drawn in the sense of C94, and paths whose legs on the map with more land are not around the world"
  },
  {
   "property": "C108",
   "status": "partial",
   "theorems": [
    "C108_one_run_partial",
    "C108_splits_partial"
   ],
   "note": "proved for the shape files and endpoints of C96, ways over the plane, and an index that misses no land and reports only lines which meet an edge (also those which only touch land)"
  }
 ]
}
