{"id": "C01", "title": "Longitude normalisation is canonical", "statement": "coordinate_from_periodic_coordinate returns a coordinate with the same latitude, a longitude in [-180,180] degrees, and a longitude that differs from the input by a whole number of periods; it is the only such coordinate, it leaves in-range coordinates unchanged, it terminates and never overflows 32-bit arithmetic.", "quantifier": "every coordinate whose two fields are 32-bit integers", "why_tests_cant": "2^64 inputs and two loops whose trip count depends on the input; a test samples a handful of longitudes.", "anchors": ["capi/src/implementation/visibility_graphs/code/coordinate_periodicity/coordinate_periodicity.cpp:coordinate_from_periodic_coordinate", "capi/src/implementation/visibility_graphs/code/constants/constants.hpp"]}
{"id": "C02", "title": "Periodic copies come home", "statement": "For a coordinate in the normal longitude range the three coordinates of periodic_coordinates_from_coordinate are pairwise distinct, all normalise back to the original, and is_coordinate_over_meridian is true of exactly the two shifted ones; on every coordinate it is true exactly when normalisation changes it.", "quantifier": "every coordinate with longitude in [-180,180] degrees and any 32-bit latitude", "why_tests_cant": "Needs every longitude, including both ends of the closed range where an off-by-one period would make two copies coincide.", "anchors": ["capi/src/implementation/visibility_graphs/code/coordinate_periodicity/coordinate_periodicity.cpp:periodic_coordinates_from_coordinate", "capi/src/implementation/visibility_graphs/code/coordinate_periodicity/coordinate_periodicity.cpp:is_coordinate_over_meridian"]}
{"id": "C03", "title": "Degrees and microdegrees round trip", "statement": "get_longitude/get_latitude are strictly increasing in the stored value (so distinct coordinates report distinct degrees), and building a Coordinate from the degrees another coordinate reports gives the same coordinate.", "quantifier": "every stored 32-bit value", "why_tests_cant": "The failing values are a sparse subset of 2^32 decided by double rounding; tests use short decimals.", "anchors": ["capi/src/implementation/visibility_graphs/code/types/coordinate/coordinate.cpp:Coordinate(double,double)", "capi/src/implementation/visibility_graphs/code/types/coordinate/coordinate.cpp:get_longitude", "capi/src/implementation/visibility_graphs/code/types/coordinate/coordinate.cpp:get_latitude"]}
{"id": "C04", "title": "Coordinate arithmetic is exact vector arithmetic", "statement": "On coordinates whose result (and, for -, whose negated operand) fits 32 bits, + and - are componentwise exact and satisfy the group laws, c*1.0 = c, c*-1.0 = -c, c*0.0 is the zero vector, and scaling by a double gives the componentwise product rounded to nearest (to within half a unit plus 2^-20, exactly when the product is integral); anything that does not fit (or a division by zero) is undefined behaviour, never a silently wrong value in range.", "quantifier": "every pair of coordinates and every double scalar", "why_tests_cant": "Universally quantified over two 64-bit values and a double; undefined behaviour cannot be asserted by a test.", "anchors": ["capi/src/implementation/visibility_graphs/code/types/coordinate/coordinate.cpp:operator+", "capi/src/implementation/visibility_graphs/code/types/coordinate/coordinate.cpp:operator-", "capi/src/implementation/visibility_graphs/code/types/coordinate/coordinate.cpp:operator*", "capi/src/implementation/visibility_graphs/code/types/coordinate/coordinate.cpp:operator/"]}
{"id": "C05", "title": "Scalar multiple factor reconstructs the other vector", "statement": "scalar_multiple_factor has a value exactly when the two vectors are parallel; when this vector is non-zero, multiplying it by the returned factor gives back the other vector exactly, and the factor is negative exactly when the vectors point in opposite directions.", "quantifier": "every pair of 32-bit coordinates", "why_tests_cant": "The factor is a rounded quotient of 32-bit integers; only an error analysis covers all pairs.", "anchors": ["capi/src/implementation/visibility_graphs/code/types/coordinate/coordinate.cpp:scalar_multiple_factor", "capi/src/implementation/visibility_graphs/code/types/coordinate/coordinate.cpp:parallel"]}
{"id": "C06", "title": "Orientation tests are exact", "statement": "vector_orientation and orientation_of_point_to_segment return the sign of the exact integer determinant, without 64-bit overflow; swapping the two vectors swaps clockwise and counter-clockwise; both are invariant under translating all points.", "quantifier": "every triple of coordinates in the periodic geographic range", "why_tests_cant": "Overflow and sign errors live at extreme magnitudes that tests with small degrees never reach.", "anchors": ["capi/src/implementation/visibility_graphs/code/types/coordinate/coordinate.cpp:vector_orientation", "capi/src/implementation/visibility_graphs/code/types/line_segment/line_segment.cpp:orientation_of_point_to_segment"]}
{"id": "C07", "title": "Equal objects hash equally", "statement": "If two coordinates, polygons or line segments compare equal then their std::hash values are equal (the contract every unordered container relies on).", "quantifier": "every pair of coordinates, of polygons, of segments", "why_tests_cant": "A contract over all pairs; a test checks a few, and the existing one does not check reversed segments.", "anchors": ["capi/src/implementation/visibility_graphs/code/types/coordinate/coordinate.cpp:std::hash<Coordinate>", "capi/src/implementation/visibility_graphs/code/types/line_segment/line_segment.cpp:std::hash<LineSegment>", "capi/src/implementation/visibility_graphs/code/types/polygon/polygon.cpp:std::hash<Polygon>", "capi/src/implementation/visibility_graphs/code/types/line_segment/line_segment.cpp:operator=="]}
{"id": "C08", "title": "Segment intersection detection is exact for non-parallel segments", "statement": "For two non-parallel segments intersection_with_segment has a value exactly when the two closed segments share a point of the rational plane, and the answer does not depend on the order of the two segments or of their endpoints.", "quantifier": "every pair of non-parallel segments with endpoints in the periodic geographic range", "why_tests_cant": "Infinitely many configurations around the touching boundary; tests check ten.", "anchors": ["capi/src/implementation/visibility_graphs/code/types/line_segment/line_segment.cpp:intersection_with_segment"]}
{"id": "C09", "title": "Intersection points are accurate", "statement": "When intersection_with_segment returns a point for non-parallel segments, each of its coordinates is within half a microdegree plus a rounding term below 2^-20 of the exact intersection, the computation performs no overflow or out-of-range cast, and an intersection at an endpoint with integer parameters is returned exactly.", "quantifier": "every pair of non-parallel intersecting segments in the periodic geographic range", "why_tests_cant": "Requires a floating point error bound over all inputs.", "anchors": ["capi/src/implementation/visibility_graphs/code/types/line_segment/line_segment.cpp:intersection_with_segment", "capi/src/implementation/visibility_graphs/code/types/coordinate/coordinate.cpp:operator*"]}
{"id": "C10", "title": "Parallel segments: shared points are reported", "statement": "For parallel segments intersection_with_segment has a value exactly when the closed segments share a point, and the value is a shared point.", "quantifier": "every pair of parallel segments", "why_tests_cant": "Collinear overlap configurations are a measure-zero family easily missed by tests.", "anchors": ["capi/src/implementation/visibility_graphs/code/types/line_segment/line_segment.cpp:intersection_with_segment"]}
{"id": "C11", "title": "on_segment is membership in the closed segment", "statement": "segment.on_segment(p) is true exactly when p is a convex combination of the two endpoints, despite comparing in double degrees.", "quantifier": "every segment and point in the periodic geographic range, including degenerate segments", "why_tests_cant": "Depends on double comparisons agreeing with integer ones for all values.", "anchors": ["capi/src/implementation/visibility_graphs/code/types/line_segment/line_segment.cpp:on_segment"]}
{"id": "C12", "title": "Segment equality ignores direction; adjacency is an involution", "statement": "LineSegment equality is an equivalence relation that ignores endpoint order; get_adjacent_to returns the other endpoint, applied twice returns the start, and throws exactly when the argument is not an endpoint.", "quantifier": "every pair of segments and every coordinate", "why_tests_cant": "Algebraic laws over all values.", "anchors": ["capi/src/implementation/visibility_graphs/code/types/line_segment/line_segment.cpp:operator==", "capi/src/implementation/visibility_graphs/code/types/line_segment/line_segment.cpp:get_adjacent_to"]}
{"id": "C13", "title": "Polygon construction keeps only given vertices and drops every straight-through one", "statement": "The vertices of a Polygon are a subsequence of the given vertices, possibly reversed, and no remaining vertex lies on the straight line between its neighbours.", "quantifier": "every list of vertices in the geographic range without consecutive duplicates", "why_tests_cant": "Quantifies over lists of unbounded length and arbitrary runs of collinear vertices.", "anchors": ["capi/src/implementation/visibility_graphs/code/types/polygon/polygon.cpp:remove_collinear_vertices", "capi/src/implementation/visibility_graphs/code/types/polygon/polygon.cpp:preprocess_vertices"]}
{"id": "C14", "title": "Polygon construction preserves the enclosed area", "statement": "Constructing a Polygon does not change the shape: the absolute enclosed (shoelace) area of the stored vertices equals that of the given ring.", "quantifier": "every vertex ring in the geographic range", "why_tests_cant": "Needs an argument about arbitrary removal patterns in a cyclic list; tests use single squares.", "anchors": ["capi/src/implementation/visibility_graphs/code/types/polygon/polygon.cpp:remove_collinear_vertices"]}
{"id": "C15", "title": "Stored polygons are counter-clockwise", "statement": "A ring with non-zero signed area is stored in counter-clockwise order, whichever way it was given.", "quantifier": "every vertex ring with non-zero area", "why_tests_cant": "The decision is a double-precision sum whose sign can be lost to cancellation for small rings far from the origin.", "anchors": ["capi/src/implementation/visibility_graphs/code/types/polygon/polygon.cpp:get_orientation_of_vertices", "capi/src/implementation/visibility_graphs/code/types/polygon/polygon.cpp:normalize_vertices_orientation_to_counter_clockwise"]}
{"id": "C16", "title": "Polygon construction is idempotent", "statement": "Constructing a Polygon from the vertices of a Polygon gives an equal Polygon (saving and loading relies on it).", "quantifier": "every polygon", "why_tests_cant": "Fixed-point property over all vertex lists.", "anchors": ["capi/src/implementation/visibility_graphs/code/types/polygon/polygon.cpp:preprocess_vertices", "capi/src/implementation/visibility_graphs/code/serialization/graph_serializer.cpp:deserialize_polygons_from_buffer"]}
{"id": "C17", "title": "Periodic polygons are exact translates", "statement": "make_polygons_periodic returns, per polygon and in order, the polygon itself and its two translates by plus and minus one period, with identical vertex order, so that the k-th vertices of the copies normalise to the k-th vertex of the original.", "quantifier": "every list of polygons in the normal range", "why_tests_cant": "Each copy is re-preprocessed; equality of all three needs translation invariance for all vertex lists.", "anchors": ["capi/src/implementation/visibility_graphs/code/coordinate_periodicity/coordinate_periodicity.cpp:make_polygons_periodic"]}
{"id": "C18", "title": "The corner test describes the exterior cone", "statement": "ThreeVertexPolyline::point_visible(p) is false exactly when the direction from the middle vertex to p points strictly into the solid side of the corner, or along one of the two edges beyond its far endpoint on the solid side.", "quantifier": "every non-degenerate corner and point in the geographic range", "why_tests_cant": "Case analysis over all orientations and collinear positions; tests sample some.", "anchors": ["capi/src/implementation/visibility_graphs/code/types/polyline/three_vertex_polyline.cpp:point_visible", "capi/src/implementation/visibility_graphs/code/types/polyline/three_vertex_polyline.cpp:is_reflex"]}
{"id": "C19", "title": "The graph is an edge map over its whole history", "statement": "After any history of add_edge, remove_edge and their directed versions, has_edge(a,b) and is_edge_meridian_crossing(a,b) answer exactly as a map from ordered pairs does: connected iff some add came after the last removal, crossing iff every add since then was a crossing one.", "quantifier": "every graph built from polygons and every finite history of operations", "why_tests_cant": "Quantifies over unbounded operation histories and graph sizes; aliasing of matrix cells would show only on particular index pairs.", "anchors": ["capi/src/implementation/visibility_graphs/code/datastructures/graph/graph.cpp:add_directed_edge", "capi/src/implementation/visibility_graphs/code/datastructures/graph/graph.cpp:remove_directed_edge", "capi/src/implementation/visibility_graphs/code/datastructures/graph/graph.cpp:has_edge", "capi/src/implementation/visibility_graphs/code/datastructures/graph/graph.cpp:is_edge_meridian_crossing"]}
{"id": "C20", "title": "Neighbour lists agree with edge queries", "statement": "get_neighbors(v) contains u exactly when has_edge(v,u) holds; on histories of undirected operations edges are symmetric and there are no self loops.", "quantifier": "every history of graph operations, every vertex", "why_tests_cant": "Unbounded histories; the neighbour query reads a different matrix stride from the edge query.", "anchors": ["capi/src/implementation/visibility_graphs/code/datastructures/graph/graph.cpp:get_neighbors", "capi/src/implementation/visibility_graphs/code/datastructures/graph/graph.cpp:has_edge"]}
{"id": "C21", "title": "Adding edges is order independent and idempotent", "statement": "Any two sequences of add_edge calls with the same set of calls produce graphs that answer every query identically.", "quantifier": "every two sequences of add_edge calls that contain the same calls in any order and multiplicity", "why_tests_cant": "All permutations and multiplicities of unbounded sequences.", "anchors": ["capi/src/implementation/visibility_graphs/code/datastructures/graph/graph.cpp:add_edge"]}
{"id": "C22", "title": "Unknown vertices are rejected without effect and no access leaves the matrix", "statement": "An operation naming a coordinate outside the graph throws and leaves the graph unchanged; otherwise it succeeds; no operation ever indexes outside the adjacency storage.", "quantifier": "every graph built from polygons, every history, every operation", "why_tests_cant": "Memory safety over all states.", "anchors": ["capi/src/implementation/visibility_graphs/code/datastructures/graph/graph.cpp:coordinate_to_index", "capi/src/implementation/visibility_graphs/code/datastructures/graph/graph.cpp:add_directed_edge"]}
{"id": "C23", "title": "Adding a vertex keeps the existing edges", "statement": "After Graph::add_vertex every query about previously present vertices answers as before and the new vertex has no edges.", "quantifier": "every graph and every new coordinate", "why_tests_cant": "Corruption depends on the index positions of the edges present.", "anchors": ["capi/src/implementation/visibility_graphs/code/datastructures/graph/graph.cpp:add_vertex"]}
{"id": "C24", "title": "Graph equality ignores the order of polygons", "statement": "Two graphs over the same polygons in a different order with the same edges compare equal with operator==.", "quantifier": "every pair of graphs with the same vertices and edges", "why_tests_cant": "Only hash-colliding coordinates expose the order dependence.", "anchors": ["capi/src/implementation/visibility_graphs/code/datastructures/graph/graph.cpp:operator==", "capi/src/implementation/visibility_graphs/code/datastructures/graph/graph.cpp:to_string"]}
{"id": "C25", "title": "Concurrent edge insertion loses nothing", "statement": "When any number of threads call add_edge concurrently, the final graph is the one obtained by performing all the calls in any sequential order, for every interleaving.", "quantifier": "every number of threads, every per-thread list of calls, every schedule", "why_tests_cant": "Schedules cannot be enumerated by a test; a lost update may need one particular interleaving.", "anchors": ["capi/src/implementation/visibility_graphs/code/datastructures/graph/graph.cpp:add_directed_edge", "capi/src/implementation/visibility_graphs/code/visgraph/visgraph_generator.cpp:generate"]}
{"id": "C26", "title": "Edge insertion never deadlocks", "statement": "Threads calling add_edge, has_edge and get_neighbors concurrently can always make progress until all are finished.", "quantifier": "every number of threads, every mix of calls, every reachable state", "why_tests_cant": "Deadlock is a property of reachable states over all schedules.", "anchors": ["capi/src/implementation/visibility_graphs/code/datastructures/graph/graph.cpp:add_directed_edge", "capi/src/implementation/visibility_graphs/code/datastructures/graph/graph.cpp:has_edge", "capi/src/implementation/visibility_graphs/code/datastructures/graph/graph.cpp:get_neighbors"]}
{"id": "C27", "title": "No data races on the adjacency storage", "statement": "In every reachable state of concurrent add_edge, has_edge and get_neighbors calls no two threads are about to access the same cell with one of them writing.", "quantifier": "every schedule, every number of threads, every mix of calls", "why_tests_cant": "Race freedom quantifies over all schedules; sanitizers see only executed ones.", "anchors": ["capi/src/implementation/visibility_graphs/code/datastructures/graph/graph.cpp:get_neighbors", "capi/src/implementation/visibility_graphs/code/datastructures/graph/graph.cpp:add_directed_edge"]}
{"id": "C28", "title": "Merging graphs is edge union", "statement": "merge_graphs returns a graph over the union of the polygons in which two vertices are connected iff some input connects them, and the edge is meridian-crossing iff every input that has the edge has it as crossing; the result does not depend on the order of the inputs.", "quantifier": "every list of graphs built by undirected operations", "why_tests_cant": "Unbounded lists of arbitrary graphs.", "anchors": ["capi/src/implementation/visibility_graphs/code/datastructures/graph/graph.cpp:merge_graphs"]}
{"id": "C29", "title": "Job splits partition the vertices", "statement": "For num_splits >= 1 the ranges computed for split numbers 0..num_splits-1 are valid, disjoint and together cover every vertex index exactly once.", "quantifier": "every number of vertices and every num_splits >= 1", "why_tests_cant": "All pairs (n,k) including k>n and non-divisible cases.", "anchors": ["capi/src/implementation/graph_generator.py:generate_for_vertex_range", "capi/src/implementation/visibility_graphs/code/visgraph/visgraph_generator.cpp:generate_with_shuffled_range"]}
{"id": "C30", "title": "Distributed generation equals single generation", "statement": "Generating every split with the same seed and merging the results gives a graph with exactly the edges and meridian flags of generating in one go.", "quantifier": "every polygon list, every visibility outcome, every seed/permutation, every num_splits >= 1, every merge order", "why_tests_cant": "Combines all permutations and split sizes; tests check one example.", "anchors": ["capi/src/implementation/visibility_graphs/code/visgraph/visgraph_generator.cpp:generate", "capi/src/implementation/visibility_graphs/code/visgraph/visgraph_generator.cpp:generate_with_shuffled_range", "capi/src/implementation/visibility_graphs/code/datastructures/graph/graph.cpp:merge_graphs", "capi/src/implementation/graph_generator.py", "capi/src/implementation/graph_merger.py"]}
{"id": "C31", "title": "Generation is deterministic under any schedule", "statement": "The graph returned by generate does not depend on how the parallel loop distributes and interleaves the vertices, and connects u and v only if one of them reported the other.", "quantifier": "every schedule of the parallel loop", "why_tests_cant": "All interleavings of an unbounded loop.", "anchors": ["capi/src/implementation/visibility_graphs/code/visgraph/visgraph_generator.cpp:generate"]}
{"id": "C32", "title": "Generation succeeds on every in-range map", "statement": "For polygons with longitudes in [-180,180] and latitudes in [-90,90], generation finishes without exception and without undefined behaviour (overflow, bad optional access, out of range index), and only connects polygon vertices.", "quantifier": "every finite list of polygons in range, every iteration order of the hash containers", "why_tests_cant": "Exception inside the parallel region kills the process; needs all geometric configurations.", "anchors": ["capi/src/implementation/visibility_graphs/code/visgraph/visgraph_generator.cpp:generate", "capi/src/implementation/visibility_graphs/code/visgraph/vistree_generator.cpp:get_visible_vertices_from_candidate_segments_and_vertices"]}
{"id": "C33", "title": "Generation accepts polygons that extend past the meridian", "statement": "Polygons whose vertices lie beyond +-180 degrees are handled like their normalised equivalents.", "quantifier": "every polygon with longitudes within one period of the normal range", "why_tests_cant": "Needs inputs outside the test maps.", "anchors": ["capi/src/implementation/visibility_graphs/code/visgraph/visgraph_generator.cpp:generate", "capi/src/implementation/visibility_graphs/code/visgraph/vistree_generator.cpp"]}
{"id": "C34", "title": "Saving stays inside the allocated file", "statement": "serialize_to_file never writes outside the byte range it allocated, and the allocated size is the documented formula's value, for every graph.", "quantifier": "every graph", "why_tests_cant": "Index arithmetic over all vertex counts and edge sets.", "anchors": ["capi/src/implementation/visibility_graphs/code/serialization/graph_serializer.cpp:adjacency_matrix_size_bytes", "capi/src/implementation/visibility_graphs/code/serialization/graph_serializer.cpp:serialize_adjacency_matrix_to_buffer"]}
{"id": "C35", "title": "Save then load is the identity", "statement": "Loading a file saved to a fresh path gives a graph with the same polygons that answers has_edge, is_edge_meridian_crossing and get_neighbors exactly as the saved one.", "quantifier": "every graph built by undirected operations over polygons that are fixed points of construction", "why_tests_cant": "Bit-level layout over all sizes, edge sets and coordinates.", "anchors": ["capi/src/implementation/visibility_graphs/code/serialization/graph_serializer.cpp:serialize_to_file", "capi/src/implementation/visibility_graphs/code/serialization/graph_serializer.cpp:deserialize_from_file"]}
{"id": "C36", "title": "Saving replaces whatever was at the path", "statement": "Loading after saving gives the saved graph whatever the file contained before.", "quantifier": "every graph and every previous file content", "why_tests_cant": "Depends on the previous content of the file, which tests always start empty.", "anchors": ["capi/src/implementation/visibility_graphs/code/serialization/graph_serializer.cpp:allocate_file"]}
{"id": "C37", "title": "A crash while saving is detected", "statement": "If the process dies during a save, a later load does not silently return a different graph.", "quantifier": "every graph and every crash point", "why_tests_cant": "Crash points are not exercised by tests.", "anchors": ["capi/src/implementation/visibility_graphs/code/serialization/graph_serializer.cpp:serialize_to_file"]}
{"id": "C38", "title": "Loading arbitrary bytes is memory safe", "statement": "deserialize_from_file on any file either returns a graph or throws; it never reads outside the mapping.", "quantifier": "every byte string", "why_tests_cant": "All byte strings.", "anchors": ["capi/src/implementation/visibility_graphs/code/serialization/graph_serializer.cpp:deserialize_from_file"]}
{"id": "C39", "title": "Scalar encodings are exact and little endian", "statement": "Every 64-bit, 32-bit (signed and unsigned) and 8-bit value written at an offset is read back unchanged, occupies exactly its bytes and disturbs no other byte.", "quantifier": "every value, offset and file content", "why_tests_cant": "All 2^64 values.", "anchors": ["capi/src/implementation/visibility_graphs/code/serialization/graph_serializer.cpp:serialize_uint64_t", "capi/src/implementation/visibility_graphs/code/serialization/graph_serializer.cpp:deserialize_uint64_t"]}
{"id": "C40", "title": "The overlay graph is the base graph plus the recorded changes", "statement": "For histories of add_edge, remove_edge and add_vertex on a ModifiedGraph, has_edge, is_edge_meridian_crossing and has_vertex answer as the base graph updated by those operations would, and the base graph itself is never changed.", "quantifier": "every base graph and every history", "why_tests_cant": "Unbounded histories over two layers.", "anchors": ["capi/src/implementation/visibility_graphs/code/datastructures/modified_graph/modified_graph.cpp"]}
{"id": "C41", "title": "Overlay neighbour lists agree with overlay edge queries", "statement": "ModifiedGraph::get_neighbors(v) contains u iff has_edge(v,u), each neighbour once.", "quantifier": "every base graph and history", "why_tests_cant": "Unbounded histories.", "anchors": ["capi/src/implementation/visibility_graphs/code/datastructures/modified_graph/modified_graph.cpp:get_neighbors"]}
{"id": "C42", "title": "Overlay edges across the meridian can be added for new vertices", "statement": "Adding a meridian-crossing edge between a new vertex and an existing one succeeds.", "quantifier": "every base graph and new coordinate", "why_tests_cant": "The throwing path is only reached with the meridian flag set.", "anchors": ["capi/src/implementation/visibility_graphs/code/datastructures/modified_graph/modified_graph.cpp:add_directed_edge"]}
{"id": "C43", "title": "The open-edge structure loses no edge", "statement": "After any sequence of additions and removals, closest_edge returns the open edge with the least recorded distance and empty() is true only if every added edge was removed.", "quantifier": "every sequence of add_edge/remove_edge", "why_tests_cant": "Depends on equal distances, which tests avoid.", "anchors": ["capi/src/implementation/visibility_graphs/code/datastructures/open_edges/open_edges.cpp"]}
{"id": "C44", "title": "Angular sorting is by exact angle, then distance", "statement": "sort_counter_clockwise_around_observer orders distinct points by direction angle in [0,2pi) and points in the same direction by distance; the comparison is a strict weak order as std::sort requires.", "quantifier": "every observer and every list of points", "why_tests_cant": "Order axioms over all triples; double-rounded angles.", "anchors": ["capi/src/implementation/visibility_graphs/code/geom/angle_sorter/angle_sorter.cpp", "capi/src/implementation/visibility_graphs/code/types/coordinate/coordinate.cpp:angle_to_horizontal"]}
{"id": "C45", "title": "Reported vertices are really visible", "statement": "If get_visible_vertices reports a vertex then the open straight line from the observer to it does not cross the interior of any polygon edge.", "quantifier": "every polygon set and observer", "why_tests_cant": "Soundness over all maps; the failing maps need a receding edge.", "anchors": ["capi/src/implementation/visibility_graphs/code/visgraph/vistree_generator.cpp:is_vertex_visible", "capi/src/implementation/visibility_graphs/code/datastructures/open_edges/open_edges.cpp"]}
{"id": "C46", "title": "Rejected vertices are really blocked", "statement": "If get_visible_vertices (full scan) does not report a polygon vertex, then the corner at the observer hides it or some polygon edge meets the straight line from the observer to it.", "quantifier": "every polygon set, observer, vertex and iteration order", "why_tests_cant": "Completeness over all maps and all hash iteration orders.", "anchors": ["capi/src/implementation/visibility_graphs/code/visgraph/vistree_generator.cpp:get_visible_vertices_from_candidate_segments_and_vertices"]}
{"id": "C47", "title": "Half scan covers every pair", "statement": "The half scan considers exactly the vertices on or above the observer's parallel, its result is the corresponding prefix of the full scan, and for any two vertices at least one of the two half scans considers the other, so generation considers every pair.", "quantifier": "every vertex set", "why_tests_cant": "All pairs and orders.", "anchors": ["capi/src/implementation/visibility_graphs/code/visgraph/vistree_generator.cpp", "capi/src/implementation/visibility_graphs/code/visgraph/visgraph_generator.cpp:generate"]}
{"id": "C48", "title": "Sweep results are well formed", "statement": "get_visible_vertices returns normalised coordinates of polygon vertices, never the observer itself, each sweep vertex at most once, and returns the empty list for an empty map.", "quantifier": "every polygon set, observer and iteration order", "why_tests_cant": "All maps and orders.", "anchors": ["capi/src/implementation/visibility_graphs/code/visgraph/vistree_generator.cpp"]}
{"id": "C49", "title": "Returned paths are real paths", "statement": "A path returned by shortest_path starts at the (corrected, normalised) source, ends at the (corrected, normalised) destination, and consecutive points are joined by an edge of the search graph (or it is the direct two-point path when nothing is crossed).", "quantifier": "every graph, query, options and tie-breaking of the priority queue", "why_tests_cant": "All graphs and all heap orders.", "anchors": ["capi/src/implementation/visibility_graphs/code/shortest_path/shortest_path_computer.cpp:shortest_path"]}
{"id": "C50", "title": "Returned paths are shortest", "statement": "With greediness weighting at most 1 no path in the search graph (through vertices within the search radius) is shorter than the returned one; with weighting w >= 1 the returned path is at most w times longer than the best.", "quantifier": "every graph, query, weighting and tie-breaking", "why_tests_cant": "Optimality over all graphs.", "anchors": ["capi/src/implementation/visibility_graphs/code/shortest_path/shortest_path_computer.cpp:shortest_path", "capi/src/implementation/visibility_graphs/code/shortest_path/shortest_path_computer.cpp:heuristic_distance_measurement"]}
{"id": "C51", "title": "Failure means unreachable", "statement": "The search throws exactly when no path through vertices within the search radius connects source and destination.", "quantifier": "every graph, query and tie-breaking", "why_tests_cant": "Completeness over all graphs.", "anchors": ["capi/src/implementation/visibility_graphs/code/shortest_path/shortest_path_computer.cpp:shortest_path"]}
{"id": "C52", "title": "The search terminates", "statement": "shortest_path always terminates, both the search loop and the path reconstruction.", "quantifier": "every graph, query, weighting and tie-breaking", "why_tests_cant": "Termination over all inputs.", "anchors": ["capi/src/implementation/visibility_graphs/code/shortest_path/shortest_path_computer.cpp:shortest_path"]}
{"id": "C53", "title": "The search radius is respected", "statement": "No point of a returned path is farther from the source than maximum_distance_to_search_from_source.", "quantifier": "every graph and query", "why_tests_cant": "All graphs; the direct-path shortcut bypasses the check.", "anchors": ["capi/src/implementation/visibility_graphs/code/shortest_path/shortest_path_computer.cpp:shortest_path"]}
{"id": "C54", "title": "Batch results line up with the queries", "statement": "shortest_paths returns one result per query in order, result i is what shortest_path returns for query i (path, or the error message of its exception), exactly one of the two is set, and one failing query affects no other.", "quantifier": "every list of queries and every schedule", "why_tests_cant": "All lists and schedules.", "anchors": ["capi/src/implementation/visibility_graphs/code/shortest_path/shortest_path_computer.cpp:shortest_paths", "capi/src/implementation/path_interpolator.py"]}
{"id": "C55", "title": "Land handling", "statement": "If an endpoint is on land, the query throws when correction is off; when it is on, exactly the land endpoints are moved, to the projection on their closest segment, and endpoints at sea are used unchanged (normalised).", "quantifier": "every index answer, query and flag", "why_tests_cant": "All combinations with arbitrary geometry answers.", "anchors": ["capi/src/implementation/visibility_graphs/code/shortest_path/shortest_path_computer.cpp:handle_land_collisions"]}
{"id": "C56", "title": "The distance estimate is a metric", "statement": "The distance estimate used by the search is symmetric, zero exactly between equal points, satisfies the triangle inequality, and never exceeds the length of an edge (direct or across the meridian).", "quantifier": "every triple of normalised coordinates", "why_tests_cant": "Real-number inequality over all triples.", "anchors": ["capi/src/implementation/visibility_graphs/code/shortest_path/shortest_path_computer.cpp:heuristic_distance_measurement", "capi/src/implementation/visibility_graphs/code/shortest_path/shortest_path_computer.cpp:distance_measurement"]}
{"id": "C57", "title": "Path length is symmetric in the query", "statement": "Swapping source and destination gives a path of the same length (weighting at most 1, unlimited radius).", "quantifier": "every graph and query", "why_tests_cant": "All graphs.", "anchors": ["capi/src/implementation/visibility_graphs/code/shortest_path/shortest_path_computer.cpp:shortest_path"]}
{"id": "C58", "title": "Query endpoints see across the meridian", "statement": "A query endpoint is connected to every map vertex it can see, including the ones across the meridian.", "quantifier": "every map and endpoint near the meridian", "why_tests_cant": "Needs endpoints near the meridian with blocked direct line.", "anchors": ["capi/src/implementation/visibility_graphs/code/shortest_path/shortest_path_computer.cpp:ShortestPathComputer", "capi/src/implementation/visibility_graphs/code/shortest_path/shortest_path_computer.cpp:create_modified_graph"]}
{"id": "C59", "title": "Every ring of a shapefile becomes an obstacle", "statement": "Reading a shapefile yields one polygon with at least three vertices per ring with more than three points.", "quantifier": "every shapefile content", "why_tests_cant": "Multi-part shapes are not in the test data.", "anchors": ["capi/src/implementation/shapefiles/shapefile_reader.py:read"]}
{"id": "C60", "title": "Batch interpolation is aligned", "statement": "batch_interpolate returns one entry per requested pair, in order; the entry is None exactly when that query failed.", "quantifier": "every list of pairs", "why_tests_cant": "All lists and failure patterns.", "anchors": ["capi/src/implementation/path_interpolator.py:batch_interpolate"]}
{"id": "C61", "title": "Coordinate wrapping helper", "statement": "construct_coord_in_lat_lon_range maps every latitude/longitude to one in [-90,90]x[-180,180] congruent to it, leaving in-range values unchanged.", "quantifier": "every pair of real numbers", "why_tests_cant": "All reals.", "anchors": ["capi/src/implementation/dtos/coordinate.py:construct_coord_in_lat_lon_range"]}
{"id": "C62", "title": "Interpolation between Python coordinates", "statement": "interpolate always finishes, without undefined behaviour: it raises exactly when the query on the rounded coordinates throws, and otherwise returns the points of the found path as degrees on the globe, each component within 1e-12 degrees of the stored one; when both coordinates are at sea the first and last returned point are the requested ones up to 1.000002 microdegrees.", "quantifier": "every graph, index, radius, flag and pair of coordinates on the globe", "why_tests_cant": "All pairs of doubles and all graphs.", "anchors": ["capi/src/implementation/path_interpolator.py:interpolate", "capi/src/implementation/path_interpolator.py:_convert_visgraph_coords_list_to_coordinates"]}
{"id": "C63", "title": "Generate, save, load, query", "statement": "For shapes on the globe the generate command into a fresh directory succeeds, the file it leaves loads as a graph with the same polygons and edges as the generated one, and every query on it between coordinates on the globe ends with a non-empty list of coordinates on the globe or one of the two documented exceptions; nowhere is there undefined behaviour.", "quantifier": "every list of shapes, arctangent, hash order, file system, query, radius and flag", "why_tests_cant": "All shape files and all queries; the failing shape needs a repeated vertex at a particular place.", "anchors": ["capi/src/implementation/graph_generator.py:generate", "capi/src/implementation/path_interpolator.py:PathInterpolator", "capi/src/implementation/visibility_graphs/code/serialization/graph_serializer.cpp:deserialize_from_file"]}
{"id": "C64", "title": "Commands do not overwrite", "statement": "The generate, generate_for_vertex_range and merge commands refuse an existing output path without any effect, change nothing outside the output directory and its graph file, and leave every file that existed as it was.", "quantifier": "every file system, shape file, list of inputs and outcome of the command", "why_tests_cant": "All file systems and all ways of failing.", "anchors": ["capi/src/implementation/graph_generator.py:generate", "capi/src/implementation/graph_generator.py:generate_for_vertex_range", "capi/src/implementation/graph_merger.py:merge"]}
{"id": "C65", "title": "A failed command can be repeated", "statement": "A command that raised leaves the file system such that the same command, its input corrected, succeeds; a failed run leaves no graph file that could be loaded.", "quantifier": "every command, file system and failure", "why_tests_cant": "All ways of failing.", "anchors": ["capi/src/implementation/graph_generator.py:generate", "capi/src/implementation/graph_generator.py:generate_for_vertex_range", "capi/src/implementation/graph_merger.py:merge"]}
{"id": "C66", "title": "Splits merged through files", "statement": "Running generate_for_vertex_range for every split into its own fresh directory and merging the directories in any order leaves a graph file which loads as a graph with the same polygons and the same answers as the graph generated in one go.", "quantifier": "every list of shapes, number of splits, shuffle, order of inputs, arctangent, hash order and file system", "why_tests_cant": "All shape files, split numbers, orders.", "anchors": ["capi/src/implementation/graph_generator.py:generate_for_vertex_range", "capi/src/implementation/graph_merger.py:merge"]}
{"id": "C67", "title": "The generated graph is the visibility graph", "statement": "A vertex is reported from an observer exactly when the straight line to it passes through the interior of no polygon; two vertices of the generated graph are joined exactly when such a line joins them directly or around the world, and the edge is marked as crossing the meridian exactly when only the lines around the world are free.", "quantifier": "every map, observer, arctangent and hash order", "why_tests_cant": "All maps; the expected visibility comes from the geometry and not from another run of the sweep.", "anchors": ["capi/src/implementation/visibility_graphs/code/visgraph/vistree_generator.cpp:is_vertex_visible", "capi/src/implementation/visibility_graphs/code/visgraph/visgraph_generator.cpp:generate"]}
{"id": "C68", "title": "No leg of a path crosses land", "statement": "Every leg of a returned path is a straight line that passes through the interior of no polygon, or an edge marked as crossing the meridian whose line around the world passes through none.", "quantifier": "every map, query, radius, tie-break, arctangent and hash order", "why_tests_cant": "All maps and queries end to end: generation, search graph and search.", "anchors": ["capi/src/implementation/visibility_graphs/code/shortest_path/shortest_path_computer.cpp:shortest_path", "capi/src/implementation/visibility_graphs/code/visgraph/visgraph_generator.cpp:generate"]}
{"id": "C69", "title": "No free route is shorter", "statement": "No route of straight lines through map vertices that avoids the interior of every polygon, directly or around the world, is shorter than the returned path; if the search fails there is none.", "quantifier": "every map, query, radius, tie-break, arctangent and hash order, and every route", "why_tests_cant": "All routes through all maps.", "anchors": ["capi/src/implementation/visibility_graphs/code/shortest_path/shortest_path_computer.cpp:shortest_path", "capi/src/implementation/visibility_graphs/code/visgraph/visgraph_generator.cpp:generate"]}
{"id": "C70", "title": "The graph does not depend on the run", "statement": "Two generations of the same map give graphs with the same edges and flags, whatever the arctangent of the platform, the iteration order of the hash tables and the schedule of the threads.", "quantifier": "every map and any two arctangents, hash orders and schedules", "why_tests_cant": "Different platforms, library versions and thread schedules are not available to a test.", "anchors": ["capi/src/implementation/visibility_graphs/code/visgraph/visgraph_generator.cpp:generate", "capi/src/implementation/visibility_graphs/code/geom/angle_sorter/angle_sorter.cpp"]}
{"id": "C71", "title": "A failed generation or merge is reported", "statement": "When generating a graph, generating a range or merging graphs fails, the caller receives an exception and the program goes on.", "quantifier": "every map, reports of the sweep and range", "why_tests_cant": "An exception leaving an OpenMP region ends the test process; which inputs do so needs all maps.", "anchors": ["capi/src/implementation/visibility_graphs/code/visgraph/visgraph_generator.cpp:generate", "capi/src/implementation/visibility_graphs/code/visgraph/visgraph_generator.cpp:generate_with_shuffled_range", "capi/src/implementation/visibility_graphs/code/datastructures/graph/graph.cpp:merge_graphs"]}
{"id": "C72", "title": "A straight line is answered exactly when it is free", "statement": "A query between two points at sea that are no vertices is answered with the straight line between them exactly when that line passes through the interior of no polygon.", "quantifier": "every map, pair of endpoints, radius and flag, and every index that answers as the sphere does", "why_tests_cant": "The disagreement between great circles and straight lines on the map needs long lines and particular islands; deciding both sides exactly needs reasoning, not sampling.", "anchors": ["capi/src/implementation/visibility_graphs/code/shortest_path/shortest_path_computer.cpp:shortest_path", "capi/src/implementation/visibility_graphs/code/datastructures/spatial_segment_index/spatial_segment_index.cpp:intersect_with_segments", "capi/src/implementation/visibility_graphs/code/types/coordinate/coordinate.cpp:to_s2_point"]}
{"id": "C73", "title": "Only points inside polygons are on land", "statement": "A query is rejected because an endpoint is on land exactly when an endpoint lies in the interior of a polygon, and an endpoint outside all polygons is not moved.", "quantifier": "every map, pair of endpoints and radius, and every index that answers as the sphere does", "why_tests_cant": "The two notions of inside differ only near long edges; tests use short ones.", "anchors": ["capi/src/implementation/visibility_graphs/code/shortest_path/shortest_path_computer.cpp:handle_land_collisions", "capi/src/implementation/visibility_graphs/code/datastructures/spatial_segment_index/spatial_segment_index.cpp:is_point_contained", "capi/src/implementation/visibility_graphs/code/types/coordinate/coordinate.cpp:to_s2_point"]}
{"id": "C74", "title": "A polygon is its closed chain of segments, and the sweep works on exactly those", "statement": "The segments of a polygon form one closed chain with one segment starting at each vertex, enclose the area of the ring and are never single points; the sweep over polygons holds at each vertex exactly the segments that end there.", "quantifier": "every polygon, and every list of polygons", "why_tests_cant": "A shared corner of two islands, or a chain that fails to close, gives a plausible but wrong graph; tests compare a few graphs.", "anchors": ["capi/src/implementation/visibility_graphs/code/types/polygon/polygon.cpp:get_line_segments", "capi/src/implementation/visibility_graphs/code/visgraph/vistree_generator.cpp:VistreeGenerator"]}
{"id": "C75", "title": "Periodic copies are the whole turns east and west", "statement": "The periodic copies of coordinates and of segments are, in order, the thing itself, the thing one turn east and one turn west, and the copies of the boundary of polygons are the boundary of their copies; a copy that does not fit is undefined behaviour.", "quantifier": "every list of coordinates, segments and polygons", "why_tests_cant": "The limits of the 32 bit range are at particular longitudes; tests use ordinary ones.", "anchors": ["capi/src/implementation/visibility_graphs/code/coordinate_periodicity/coordinate_periodicity.cpp:make_coordinates_periodic", "capi/src/implementation/visibility_graphs/code/coordinate_periodicity/coordinate_periodicity.cpp:make_segments_periodic", "capi/src/implementation/visibility_graphs/code/coordinate_periodicity/coordinate_periodicity.cpp:make_polygons_periodic"]}
{"id": "C76", "title": "The changed graph lists its vertices once", "statement": "A graph with changes on top lists exactly the vertices it has, each once, and has the polygons of its base.", "quantifier": "every base graph, history of changes and hash order", "why_tests_cant": "Which vertices repeat depends on the history; tests look at sets.", "anchors": ["capi/src/implementation/visibility_graphs/code/datastructures/modified_graph/modified_graph.cpp:get_vertices", "capi/src/implementation/visibility_graphs/code/datastructures/modified_graph/modified_graph.cpp:get_polygons"]}
{"id": "C77", "title": "A scan over segments answers for every observer", "statement": "A generator made from segments reports, for every observer and every list of candidate segments, some ends of those segments, each once and never the observer.", "quantifier": "every list of segments, candidates, observer, arctangent and hash order", "why_tests_cant": "The failures are out of bounds accesses at particular observers, which need not show in a test run.", "anchors": ["capi/src/implementation/visibility_graphs/code/visgraph/vistree_generator.cpp:VistreeGenerator", "capi/src/implementation/visibility_graphs/code/visgraph/vistree_generator.cpp:get_visible_vertices", "capi/src/implementation/visibility_graphs/code/visgraph/vistree_generator.cpp:get_visible_vertices_from_candidate_segments"]}
{"id": "C78", "title": "Normalizing gives the unit vector", "statement": "Normalizing a vector other than zero gives, to the nearest microdegree in each component, the vector of length one degree in its direction; normalizing zero is undefined behaviour.", "quantifier": "every 32 bit vector", "why_tests_cant": "The error of a square root, a division, a multiplication and a rounding over all vectors is not reached by examples.", "anchors": ["capi/src/implementation/visibility_graphs/code/types/coordinate/coordinate.cpp:normalize", "capi/src/implementation/visibility_graphs/code/types/coordinate/coordinate.cpp:magnitude"]}
{"id": "C79", "title": "A margin moves the foot point beyond the segment", "statement": "Projecting a point onto a segment with a margin gives the point that lies the margin beyond the foot point, seen from the point, up to rounding; without a margin, or if the point is its own foot point, it gives the foot point.", "quantifier": "every segment, point, foot point and finite margin up to 1000 degrees", "why_tests_cant": "The distance at which the margin stops to apply is one microdegree.", "anchors": ["capi/src/implementation/visibility_graphs/code/types/line_segment/line_segment.cpp:project"]}
{"id": "C80", "title": "Products and lengths in degrees", "statement": "The dot product, cross product and length of vectors in degrees are the exact ones up to a relative error of 1e-15 of the terms, and the signs of the products are exact.", "quantifier": "every pair of 32 bit vectors", "why_tests_cant": "Wrong signs need nearly parallel or perpendicular vectors.", "anchors": ["capi/src/implementation/visibility_graphs/code/types/coordinate/coordinate.cpp:dot_product", "capi/src/implementation/visibility_graphs/code/types/coordinate/coordinate.cpp:cross_product_magnitude", "capi/src/implementation/visibility_graphs/code/types/coordinate/coordinate.cpp:magnitude_squared", "capi/src/implementation/visibility_graphs/code/types/coordinate/coordinate.cpp:magnitude"]}
{"id": "C81", "title": "More edges and a larger radius lose no path", "statement": "If a query finds a path, the same query with a larger search radius, in a graph with the same vertices and at least the same edges, finds a path too, and not a longer one.", "quantifier": "every graph and extension of it, index, pair of endpoints, pair of radii, heap order and heuristic weight", "why_tests_cant": "The property relates two runs on two graphs; the search radius prunes the second one too.", "anchors": ["capi/src/implementation/visibility_graphs/code/shortest_path/shortest_path_computer.cpp:shortest_path", "capi/src/implementation/visibility_graphs/code/shortest_path/shortest_path_computer.cpp:heuristic_distance_measurement"]}
{"id": "C82", "title": "Endpoints on land are moved out of it", "statement": "With correction on, an endpoint inside a polygon is moved to a point that is not inside it, and no leg of the path at that point leads through the polygon.", "quantifier": "every map, pair of endpoints and index that is right", "why_tests_cant": "The shore is found on the sphere and the legs in the plane; the difference shows on long edges far from the equator.", "anchors": ["capi/src/implementation/visibility_graphs/code/shortest_path/shortest_path_computer.cpp:handle_land_collisions", "capi/src/implementation/visibility_graphs/code/shortest_path/shortest_path_computer.cpp:create_modified_graph", "capi/src/implementation/visibility_graphs/code/types/line_segment/line_segment.cpp:project", "capi/src/implementation/visibility_graphs/code/datastructures/spatial_segment_index/spatial_segment_index.cpp:closest_segment_to_point"]}
{"id": "C83", "title": "From a shape file to a path", "statement": "A path interpolated from the graph of a shape file, generated in one run or in merged splits, saved and loaded again, starts and ends at the endpoints, leads through none of the shapes, and no route past them is shorter; and if no path is returned there is no such route.", "quantifier": "every shape file, pair of endpoints, arctangent within the accuracy of the library, hash order, split and input order", "why_tests_cant": "The graph, the file and the search each take part, and a shape that blocks one leg shows only on maps where the search would have used it.", "anchors": ["capi/src/implementation/graph_generator.py:generate", "capi/src/implementation/graph_merger.py:merge", "capi/src/implementation/path_interpolator.py:interpolate", "capi/src/implementation/visibility_graphs/code/visgraph/visgraph_generator.cpp:generate", "capi/src/implementation/visibility_graphs/code/shortest_path/shortest_path_computer.cpp:shortest_path"]}
{"id": "C84", "title": "Printed forms identify what they print", "statement": "Two coordinates, two polygons or two visible vertices print the same text exactly if they are equal, and two graphs compare equal by their printed texts exactly if they list the same vertices with the same neighbours and flags in the same order.", "quantifier": "all coordinates, polygons, visible vertices and graphs, and every way of printing numbers which prints no two doubles alike", "why_tests_cant": "The texts run together, so a collision needs values chosen so that the end of one item and the start of the next are read differently; printed samples do not contain any.", "anchors": ["capi/src/implementation/visibility_graphs/code/types/coordinate/coordinate.cpp:to_string_representation", "capi/src/implementation/visibility_graphs/code/types/polygon/polygon.cpp:to_string_representation", "capi/src/implementation/visibility_graphs/code/types/visible_vertex/visible_vertex.cpp:operator<<", "capi/src/implementation/visibility_graphs/code/datastructures/graph/graph.cpp:to_string_representation", "capi/src/implementation/visibility_graphs/code/datastructures/graph/graph.cpp:operator=="]}
{"id": "C85", "title": "Equal graphs are interchangeable", "statement": "Two graphs that compare equal have the same vertices, answer every question about edges and meridian crossings alike, and give the same answer to every path query.", "quantifier": "all graphs, pairs of coordinates, endpoints and ways of printing numbers", "why_tests_cant": "Graphs made by one generator from one map differ in nothing, and two graphs that compare equal although one of their parts differs have to be built for the purpose.", "anchors": ["capi/src/implementation/visibility_graphs/code/datastructures/graph/graph.cpp:operator==", "capi/src/implementation/visibility_graphs/code/datastructures/graph/graph.cpp:to_string_representation", "capi/src/implementation/visibility_graphs/code/shortest_path/shortest_path_computer.cpp:shortest_path"]}
{"id": "C86", "title": "Splits of any numbers and seeds are parts of the graph", "statement": "Generating a split either throws or scans exactly the vertices in the range of its number, and merging any splits that ran, whatever their numbers, numbers of splits and shuffles, gives a graph which joins two vertices exactly if a scanned one reported the other: never an edge that generating in one go would not have, and all of them if every vertex was scanned by some split.", "quantifier": "all non-empty maps, visibility results, lists of splits with any integers as numbers and any shuffles, and orders of merging", "why_tests_cant": "Runs use one seed, consecutive numbers and all splits, so a missing, repeated, out-of-range or differently seeded split never happens in a test.", "anchors": ["capi/src/implementation/graph_generator.py:generate_for_vertex_range", "capi/src/implementation/visibility_graphs/code/visgraph/visgraph_generator.cpp:generate_with_shuffled_range", "capi/src/implementation/visibility_graphs/code/datastructures/graph/graph.cpp:merge_graphs"]}
{"id": "C87", "title": "A graph file stands for one graph", "statement": "Two graphs are saved as the same bytes exactly if they have the same polygons in the same order, the same edges, flags and neighbour lists, whatever calls built them; loading a file and saving it again gives the same file, and so do splits merged over the polygons of the map compared with one run.", "quantifier": "all maps of polygons that construction leaves alone, histories of undirected calls and files below 2^60 bytes", "why_tests_cant": "Comparing two files says something about the graphs only if no two graphs collide and no byte depends on the history, which is a statement about all pairs of graphs.", "anchors": ["capi/src/implementation/visibility_graphs/code/serialization/graph_serializer.cpp:serialize_to_file", "capi/src/implementation/visibility_graphs/code/serialization/graph_serializer.cpp:deserialize_from_file", "capi/src/implementation/visibility_graphs/code/datastructures/graph/graph.cpp:merge_graphs"]}
{"id": "C88", "title": "Merging in stages", "statement": "The graph merged from several graphs does not depend on their order or on how often each is given, and merging groups first and then the results, directly or through files, gives the same graph and file as merging everything at once.", "quantifier": "all lists of groups of graphs built by undirected calls, and all orders of the polygons of each group", "why_tests_cant": "Tests merge two or three graphs once; whether a flag decided in an early stage is still decided the same way in a later one needs every distribution over the groups.", "anchors": ["capi/src/implementation/visibility_graphs/code/datastructures/graph/graph.cpp:merge_graphs", "capi/src/implementation/graph_merger.py:merge"]}
{"id": "C89", "title": "Coordinates survive the sphere", "statement": "A coordinate that is handed to the spatial index as a point of the sphere and handed back is the coordinate it was, to the microdegree, even if the point and the angles read off it are wrong by 2^-50; so the segments the index names are segments of the map, and different coordinates stay different.", "quantifier": "all coordinates up to 89.999 degrees of latitude and strictly between -180 and 180 degrees of longitude, and all errors within the bound (for other latitudes, within a bound that shrinks with the circle of latitude)", "why_tests_cant": "The margin is half a microdegree and shrinks towards the poles; a truncation instead of a rounding, or a loss of precision, shows only for some of the coordinates.", "anchors": ["capi/src/implementation/visibility_graphs/code/types/coordinate/coordinate.cpp:Coordinate", "capi/src/implementation/visibility_graphs/code/types/coordinate/coordinate.cpp:to_s2_point", "capi/src/implementation/visibility_graphs/code/types/coordinate/coordinate.cpp:to_s2_lat_lng", "capi/src/implementation/visibility_graphs/code/datastructures/spatial_segment_index/spatial_segment_index.cpp:closest_segment_to_point"]}
{"id": "C90", "title": "Open water is never missed", "statement": "A straight line between two vertices that stays in open water (it meets polygon edges only in its own ends, or is one itself, and does not lead into the land at a corner) is an edge of the generated graph; where a route of such lines leads from one point at sea to another the query finds a path, and the path is no longer than any of them.", "quantifier": "every map whose polygons have clear corners and are seen from each vertex in directions that the comparison orders consistently, polygons of any shape, touching or overlapping included; every pair of endpoints at sea, every arctangent within its accuracy, hash order, radius and tie-break, and every route", "why_tests_cant": "Concave coasts, bays and touching islands give endlessly many arrangements; a missing edge shows only as a path that is a little too long.", "anchors": ["capi/src/implementation/visibility_graphs/code/visgraph/visgraph_generator.cpp:generate", "capi/src/implementation/visibility_graphs/code/visgraph/vistree_generator.cpp:get_visible_vertices", "capi/src/implementation/visibility_graphs/code/shortest_path/shortest_path_computer.cpp:shortest_path"]}
{"id": "C91", "title": "From shape file to path nothing open is missed", "statement": "Whatever the coasts of a shape file look like, after generating the graph (in one run, or in splits that are merged), saving and loading it, every query between two points at sea ends: with a path that is no longer than any route through open water, or with none, and then there is no such route within the radius.", "quantifier": "every shape file whose polygons have clear corners and consistently ordered directions, every number of splits, shuffle, arctangent, hash order and tie-break, and every query between points at sea", "why_tests_cant": "Every stage (reading, sweeping, splitting, saving, merging, loading, searching) would have to be exercised together over all maps and all queries; a lost edge does not fail, it only lengthens some path.", "anchors": ["capi/src/implementation/graph_generator.py:generate", "capi/src/implementation/graph_merger.py:merge", "capi/src/implementation/path_interpolator.py:interpolate", "capi/src/implementation/visibility_graphs/code/visgraph/visgraph_generator.cpp:generate", "capi/src/implementation/visibility_graphs/code/shortest_path/shortest_path_computer.cpp:shortest_path"]}
{"id": "C92", "title": "No edge makes landfall, whatever the coast", "statement": "The sweep reports no vertex to which the straight line enters a polygon, leads through a corner, or sets out into land, and so no edge of the generated graph does, neither the direct ones nor those around the world; bays and headlands included, not only convex polygons.", "quantifier": "every set of polygons of any shape, every vertex, arctangent, hash order and tie-break", "why_tests_cant": "The sweep tests only the segment it holds to be nearest; whether that one is in front depends on keys that are not distances along the ray, so a wrong edge needs a particular order of particular coordinates, and a test sees a handful of coasts.", "anchors": ["capi/src/implementation/visibility_graphs/code/visgraph/vistree_generator.cpp:get_visible_vertices", "capi/src/implementation/visibility_graphs/code/datastructures/open_edges/open_edges.cpp", "capi/src/implementation/visibility_graphs/code/visgraph/visgraph_generator.cpp:generate"]}
{"id": "C93", "title": "No leg of a path makes landfall, whatever the coast", "statement": "Each leg of a returned path between two points at sea is a straight line that does not enter land, or an edge across the meridian whose line around the world does not; from the generated graph, and from a shape file through one run or merged splits to the interpolated path.", "quantifier": "every set of polygons of any shape, every query between points at sea, every index answer, arctangent, hash order, tie-break and number of splits", "why_tests_cant": "A path across a spit of land looks like any other list of coordinates; only a check of every leg against every coast for every query would notice, which no test of the repository does.", "anchors": ["capi/src/implementation/visibility_graphs/code/shortest_path/shortest_path_computer.cpp:shortest_path", "capi/src/implementation/visibility_graphs/code/visgraph/vistree_generator.cpp:get_visible_vertices", "capi/src/implementation/graph_generator.py:generate", "capi/src/implementation/path_interpolator.py:interpolate"]}
{"id": "C94", "title": "The graph is the visibility graph of the map, whatever the coast", "statement": "Two vertices are joined exactly if a straight line between them, direct or around the world, runs through open water, so that every point of it lies on a shore or outside every polygon; the edge is marked as crossing the meridian exactly if the direct line is not open; an endpoint at sea sees exactly the vertices to which its line is open. The answers depend on the map alone, not on the order of the polygons, the hash tables or the arctangent.", "quantifier": "every map of simple counter-clockwise rings of any shape, every pair of vertices, every endpoint, arctangent, hash order and tie-break", "why_tests_cant": "Inside and outside of a winding coast are global notions, which the sweep never computes; a wrong answer needs a line that leaves land unnoticed somewhere along a coast of any length, and a test only compares lists of vertices on a few small shapes.", "anchors": ["capi/src/implementation/visibility_graphs/code/visgraph/vistree_generator.cpp:get_visible_vertices", "capi/src/implementation/visibility_graphs/code/visgraph/visgraph_generator.cpp:generate", "capi/src/implementation/visibility_graphs/code/datastructures/open_edges/open_edges.cpp"]}
{"id": "C95", "title": "A path is the shortest of all routes through open water, whatever the coast", "statement": "Between two points at sea which the index does not connect in a straight line, a path is returned exactly if some route through open water over the vertices of the map stays inside the radius, NoPath is raised exactly if none does, and the path is itself such a route and no longer than any, up to rounding and the weight of the heuristic; from the generated graph, and from a shape file through one run or merged splits to the interpolated path.", "quantifier": "every map of simple counter-clockwise rings of any shape, every query between points at sea, every radius, arctangent, hash order, tie-break and number of splits", "why_tests_cant": "Which routes there are depends on the whole map; a test compares one path with one expected list and cannot tell whether a shorter way around the coast exists, or whether NoPath was right.", "anchors": ["capi/src/implementation/visibility_graphs/code/shortest_path/shortest_path_computer.cpp:shortest_path", "capi/src/implementation/visibility_graphs/code/visgraph/vistree_generator.cpp:get_visible_vertices", "capi/src/implementation/graph_generator.py:generate", "capi/src/implementation/path_interpolator.py:interpolate"]}
{"id": "C96", "title": "No way over the water at all is shorter than the path", "statement": "Among all ways from one point at sea to another over the plane, with any number of bends at any points of the sea, none within the radius is shorter than the returned path, up to rounding and the weight of the heuristic; if there is any such way a path is returned, and NoPath means that there is none; the path, if it does not go around the world, is itself such a way. From the generated graph, and from a shape file through one run or merged splits to the interpolated path.", "quantifier": "every map of simple counter-clockwise rings of any shape, every query between points at sea, every way with any number of bends at real points, every radius, arctangent, hash order, tie-break and number of splits", "why_tests_cant": "There are uncountably many ways, with bends anywhere; a test can compare the path with a few routes over vertices, never with all ways, and a way missed by a radius cut or a lost edge shows only on particular coasts.", "anchors": ["capi/src/implementation/visibility_graphs/code/shortest_path/shortest_path_computer.cpp:shortest_path", "capi/src/implementation/visibility_graphs/code/visgraph/vistree_generator.cpp:get_visible_vertices", "capi/src/implementation/graph_generator.py:generate", "capi/src/implementation/path_interpolator.py:interpolate"]}
{"id": "C97", "title": "A stored polygon encloses exactly what its given ring encloses, with the land on the left of each edge", "statement": "Constructing a Polygon does not change the land: the stored ring winds around each point of the plane as often as the given ring does, in the counter-clockwise direction; a stored ring that does not touch itself winds around each point off it once or not at all, once around the points seen from the left of an edge and never around those seen from its right. So on a map of rings that do not touch each other every edge has land on its left and water on its right.", "quantifier": "every ring of any shape and any number of vertices in the geographic range, with redundant vertices, in either direction; every point of the real plane; every edge", "why_tests_cant": "Quantifies over rings of unbounded length and over all points of the plane; a test probes a few points of a few shapes, and the orientation of a dented ring says nothing about another.", "anchors": ["capi/src/implementation/visibility_graphs/code/types/polygon/polygon.cpp:preprocess_vertices", "capi/src/implementation/visibility_graphs/code/types/polygon/polygon.cpp:remove_collinear_vertices", "capi/src/implementation/visibility_graphs/code/types/polygon/polygon.cpp:get_orientation_of_vertices"]}
{"id": "C98", "title": "From a point moved to the shore the path is the shortest way, but for the distance to the shore and back", "statement": "With the land correction on, an endpoint on land is moved to a shore and the vertices behind the line of that shore are left out. This costs little: whenever there is a way over the water from the moved point to the destination a path is found, and it is longer than any such way by at most twice the distance from the moved point to its shore, at either end.", "quantifier": "every map of simple rings whose vertices have an ordered view; every query with the correction whose endpoints end up at sea beside their shore; every way with any number of bends at any real points; every weighting, tie-break, hash order", "why_tests_cant": "The competing ways are a continuum, and the filter of vertices only bites at foot points that round off their edge; a test compares against one reference path.", "anchors": ["capi/src/implementation/visibility_graphs/code/shortest_path/shortest_path_computer.cpp:create_modified_graph", "capi/src/implementation/visibility_graphs/code/shortest_path/shortest_path_computer.cpp:handle_land_collisions", "capi/src/implementation/visibility_graphs/code/shortest_path/shortest_path_computer.cpp:shortest_path"]}
{"id": "C99", "title": "A leg around the world is as long as the line through open water it stands for", "statement": "The length given to an edge that is marked as crossing the meridian is that of a line around the world which runs through open water, not of one that is blocked.", "quantifier": "every map of simple rings whose vertices have an ordered view, every edge of its graph that is marked as crossing", "why_tests_cant": "The measured line and the line that was seen differ only for lines more than once around the world; no test has such a map.", "anchors": ["capi/src/implementation/visibility_graphs/code/shortest_path/shortest_path_computer.cpp:distance_measurement", "capi/src/implementation/visibility_graphs/code/visgraph/visgraph_generator.cpp:generate", "capi/src/implementation/visibility_graphs/code/visgraph/vistree_generator.cpp:get_visible_vertices"]}
{"id": "C100", "title": "Every stretch of a path is as short as any way between its ends", "statement": "Take any two places on a path. Replacing the stretch between them by any way over the water between the two, with any number of bends anywhere, does not make the whole shorter, up to rounding and the weight of the heuristic.", "quantifier": "every map of simple rings whose vertices have an ordered view, every query with endpoints at sea, every stretch of the path, every way with bends at any real points, every weighting, tie-break, hash order", "why_tests_cant": "A path test compares the length of the whole path with one reference; it does not look at stretches, and the competing ways are a continuum.", "anchors": ["capi/src/implementation/visibility_graphs/code/shortest_path/shortest_path_computer.cpp:shortest_path", "capi/src/implementation/visibility_graphs/code/shortest_path/shortest_path_computer.cpp:create_modified_graph", "capi/src/implementation/visibility_graphs/code/visgraph/vistree_generator.cpp:get_visible_vertices"]}
{"id": "C101", "title": "A path does not cross itself", "statement": "With the default weighting no two legs of a path cross or touch each other, except that a leg begins where the one before it ends.", "quantifier": "every map of simple rings whose vertices have an ordered view, every query with endpoints at sea, every pair of direct legs of the path, every tie-break and hash order", "why_tests_cant": "Tests compare paths with expected lists of coordinates on small maps; none checks the legs against each other.", "anchors": ["capi/src/implementation/visibility_graphs/code/shortest_path/shortest_path_computer.cpp:shortest_path", "capi/src/implementation/visibility_graphs/code/shortest_path/shortest_path_computer.cpp:create_modified_graph", "capi/src/implementation/visibility_graphs/code/visgraph/vistree_generator.cpp:get_visible_vertices"]}
{"id": "C102", "title": "A point moved onto the shore can leave it straight out to sea", "statement": "With the land correction, a path from a moved endpoint is no longer than any way over the water from there, or from the point of the shore beside it, apart from twice the distance between the two. This holds wherever rounding puts the moved point: on the sea side of its edge, on the edge, or on the land side.", "quantifier": "every map, every query with the correction, every position of the moved point within a micro-degree of its edge, every way over the water", "why_tests_cant": "Where a projected point falls after rounding differs from edge to edge; the repository tests the correction on small maps where the answer is the straight line and never searches from a corrected point.", "anchors": ["capi/src/implementation/visibility_graphs/code/shortest_path/shortest_path_computer.cpp:handle_land_collisions", "capi/src/implementation/visibility_graphs/code/shortest_path/shortest_path_computer.cpp:create_modified_graph", "capi/src/implementation/visibility_graphs/code/visgraph/vistree_generator.cpp:get_visible_vertices", "capi/src/implementation/visibility_graphs/code/visgraph/vistree_generator.cpp:is_vertex_visible"]}
{"id": "C103", "title": "A point exactly on an edge sees only along the edge", "statement": "From a point exactly on an edge that is not level, and not at its end, the sweep reports no vertex but those in line with the edge. A path searched for from such a point starts along that line, and one to such a point ends along it.", "quantifier": "every map with distinct vertices, every non-level edge, every point on it that no other edge comes within a micro-degree of, every atan2, hash order, weighting and tie-break", "why_tests_cant": "The observers in the repository tests are vertices or points off every edge; the state of the open edges for an observer on an edge is never inspected.", "anchors": ["capi/src/implementation/visibility_graphs/code/shortest_path/shortest_path_computer.cpp:create_modified_graph", "capi/src/implementation/visibility_graphs/code/visgraph/vistree_generator.cpp:get_visible_vertices", "capi/src/implementation/visibility_graphs/code/visgraph/vistree_generator.cpp:is_vertex_visible"]}
{"id": "C104", "title": "Moving or mirroring the map moves or mirrors the graph", "statement": "If a map is shifted, mirrored east and west, or mirrored north and south, its graph joins the images of two vertices exactly if the graph of the map joins the two, with the same mark for crossing the meridian. A path between the images of two points is found exactly if one is found between the points, and is as long.", "quantifier": "every map, every shift by micro-degrees, every mirroring, every pair of vertices, every query", "why_tests_cant": "The sweep starts due east and goes around counter-clockwise, its initial scan line and its tie rules favour one direction, and half of it is skipped when a graph is built; the repository never compares a map with its image.", "anchors": ["capi/src/implementation/visibility_graphs/code/visgraph/vistree_generator.cpp:get_visible_vertices", "capi/src/implementation/visibility_graphs/code/visgraph/visgraph_generator.cpp:generate", "capi/src/implementation/visibility_graphs/code/geom/angle_sorter/angle_sorter.cpp", "capi/src/implementation/visibility_graphs/code/shortest_path/shortest_path_computer.cpp:shortest_path"]}
{"id": "C105", "title": "A detour by way of a third place is not shorter", "statement": "If there is a path from a to b and one from b to c, there is one from a to c, and it is no longer than the two together.", "quantifier": "every map, every three places, every weight, every search radius of the two parts", "why_tests_cant": "Compares three separate searches, whose endpoints see different vertices and whose legs around the world have other lengths; the repository tests single queries with hand-picked endpoints.", "anchors": ["capi/src/implementation/visibility_graphs/code/shortest_path/shortest_path_computer.cpp:shortest_path", "capi/src/implementation/visibility_graphs/code/visgraph/vistree_generator.cpp:get_visible_vertices", "capi/src/implementation/visibility_graphs/code/visgraph/visgraph_generator.cpp:generate"]}
{"id": "C106", "title": "Moving an end changes the length by at most as much", "statement": "If the start or the destination of a query is moved in a straight line over the water, a path is found after the move if one was found before, and it is longer by at most the length of that line.", "quantifier": "every map, every place of the one end, every two places of the other with open water in between", "why_tests_cant": "What an endpoint sees can change from one microdegree to the next, so a sample of positions does not show that the length never jumps.", "anchors": ["capi/src/implementation/visibility_graphs/code/shortest_path/shortest_path_computer.cpp:shortest_path", "capi/src/implementation/visibility_graphs/code/visgraph/vistree_generator.cpp:get_visible_vertices", "capi/src/implementation/visibility_graphs/code/visgraph/visgraph_generator.cpp:generate"]}
{"id": "C107", "title": "More land takes edges away and makes no path shorter", "statement": "If polygons are added to a map, every edge between two of the old vertices was an edge before. If water is only where there was water before, every path found afterwards was no longer before, and was found before.", "quantifier": "every map, every map with more land, every pair of vertices, every query", "why_tests_cant": "Needs two maps and the whole sweep of each: further edges change which of them is nearest at every step, and a mistake with one hidden edge may open another line; the repository compares no two maps.", "anchors": ["capi/src/implementation/visibility_graphs/code/visgraph/visgraph_generator.cpp:generate", "capi/src/implementation/visibility_graphs/code/visgraph/vistree_generator.cpp:get_visible_vertices", "capi/src/implementation/visibility_graphs/code/shortest_path/shortest_path_computer.cpp:shortest_path"]}
{"id": "C108", "title": "With the default settings the answer is the shortest way", "statement": "After a map was generated, in one run or in splits that were merged, and its graph loaded from the file, a query between two places at sea with the default settings gives a path as short as any way over the water between them, or fails if there is none.", "quantifier": "every shape file, every split, every pair of places, every way over the water with any bends", "why_tests_cant": "Puts together every part of the program, from reading the shapes to converting the answer, and compares the result with infinitely many ways; the tests of the repository check given paths on small maps.", "anchors": ["capi/src/implementation/path_interpolator.py:interpolate", "capi/src/implementation/graph_generator.py:generate", "capi/src/implementation/visibility_graphs/code/visgraph/visgraph_generator.cpp:generate", "capi/src/implementation/visibility_graphs/code/serialization/graph_serializer.cpp:deserialize_from_file", "capi/src/implementation/visibility_graphs/code/shortest_path/shortest_path_computer.cpp:shortest_path"]}
