# Formal model of capi (visibility graphs for sea routing): design

All paths below are relative to `/repo/capi/src/implementation/visibility_graphs/code`
(`B/`) unless they start with `capi/`.  The Coq development is in `rocq/theories`
(logical root `Verif`).  It was built with Coq 8.16.1 and uses the Coq standard
library and Flocq 4.1 (for IEEE-754 doubles).

## 1. Modelling conventions

* **Outcomes.**  `res A` (file `Base.v`) is `Ok a | Throw e | UB u`.  A C++ exception is
  `Throw`, undefined behaviour (signed overflow, out-of-range float-to-int cast, index
  out of bounds, `closest_edge` on an empty map, an exception leaving an OpenMP region) is
  the distinct outcome `UB`.
* **Integers.**  `int32_t`/`int64_t` values are `Z`; every signed 32/64-bit arithmetic
  operation whose result the code stores in such a type goes through `i32`/`i64`, which
  yields `UB` when out of range.  Unsigned arithmetic wraps explicitly where it can wrap.
* **Doubles.**  `f64` is Flocq's `binary_float 53 1024` (IEEE-754 binary64, round to
  nearest even), with the real operations of the library, so double results are
  bit-exact.  Assumed about the compiler: SSE2 doubles, no `-ffast-math`, no FMA
  contraction (true of the project's flags on x86-64).
* **Unspecified orders.**  Iteration order of hash containers, the permutation made by
  `std::shuffle`, tie-breaking of `std::priority_queue`/`std::sort`, and thread schedules
  are parameters; theorems quantify over them.
* **External code.**  S2 (`is_point_contained`, `closest_segment_to_point`,
  `intersect_with_segments`, projection), `std::atan2`, `std::shuffle`/`mt19937`,
  the operating system's file primitives and pyshp are function parameters (oracles)
  of the model; theorems hold for every value of them unless a hypothesis is stated.

## 2. Files

| model | models | proofs | properties |
|---|---|---|---|
| `Base.v`, `F64.v` | outcome type, integer ranges, doubles | `F64Facts.v` | |
| `Coordinate.v` | `B/types/coordinate/coordinate.cpp` | `CoordinateFacts.v`, `Props_Coordinate.v` | C03-C07 |
| `Vectors.v` | `coordinate.cpp:66-73, 84-91`, the operations only Python uses | `VectorFacts.v`, `Props_Vectors.v` | C78-C80 |
| `Periodicity.v` | `B/coordinate_periodicity/*.cpp`, `B/constants` | `PeriodicityFacts.v`, `Props_Periodicity.v` | C01, C02 |
| `Segment.v` | `B/types/line_segment/*.cpp` | `SegmentFacts.v`, `Props_Segment.v` | C06-C12 |
| `Polygon.v` | `B/types/polygon/*.cpp` | `PolygonFacts.v`, `PolygonFloat.v`, `PolygonMore.v`, `Props_Polygon.v`, `Green.v`, `Enclosed.v`, `Covers.v`, `Props_Enclosed.v`, `Boundary.v`, `Props_Boundary.v` | C13-C17, C74, C75, C97 |
| `Polyline.v` | `B/types/polyline/*.cpp` | `PolylineFacts.v`, `Props_Polyline.v` | C18 |
| `Graph.v` | `B/datastructures/graph/*.cpp` | `GraphFacts.v`, `GraphMore.v`, `Props_Graph.v` | C19-C24, C28 |
| `Show.v` | `to_string_representation` and `operator<<`: `coordinate.cpp:155-186`, `polygon.cpp:120-144`, `visible_vertex.cpp:13-15`, `graph.cpp:163-193` | `ShowFacts.v`, `Props_Show.v` | C84, C85 |
| `RepoTests.v` | the repository's own tests, run on the model: `capi/test/visibility_graphs/code/**` (all cases but those that ask S2 itself), `test_polygon.py`, `test_shapefile_reader.py` | | |
| `Locks.v` | the locking protocol of `graph.cpp` | `LocksFacts.v`, `Props_Locks.v` | C25-C27 |
| `Visgraph.v` | `B/visgraph/visgraph_generator.cpp`, `graph_generator.py`, `graph_merger.py` | `VisgraphFacts.v`, `Props_Visgraph.v`, `SplitFacts.v`, `Props_Splits.v` | C29-C31, C86 |
| `Serializer.v` | `B/serialization/*.cpp` | `BytesFacts.v`, `SaveFacts.v`, `LoadFacts.v`, `RoundFacts.v`, `SerializerMore.v`, `Props_Serializer.v`, `FileIdentity.v`, `Props_Files.v` | C34-C39, C87, C88 |
| `Overlay.v` | `B/datastructures/modified_graph/*.cpp` | `OverlayFacts.v`, `OverlayVertices.v`, `Props_Overlay.v` | C40-C42, C76 |
| `Sweep.v` | `B/visgraph/vistree_generator.cpp`, `B/geom/angle_sorter/*.cpp`, `B/datastructures/open_edges/*.cpp`, `B/types/visible_vertex` | `SweepFacts.v`, `SweepMaps.v`, `SweepGen.v`, `OpenEdgesFacts.v`, `AngleFacts.v`, `AngleSort.v`, `SweepHalf.v`, `SweepForced.v`, `SweepCases.v`, `SweepOpen.v`, `SweepOrder.v`, `SweepGeo.v`, `SweepSound.v`, `SweepLayers.v`, `SweepUnsorted.v`, `Props_Sweep.v`, `SweepExact.v`, `SweepGraph.v`, `SweepHalfGraph.v`, `SweepWorld.v`, `SweepHashOrder.v`, `BlockedLegs.v`, `Props_Exact.v`, `SegmentTree.v`, `Props_SegmentTree.v`, `SweepFronts.v`, `SeaLines.v`, `SurveyCheck.v`, `SurveyFast.v`, `Props_Sea.v`, `Coasts.v`, `CoastExact.v`, `CoastCheck.v`, `Jordan.v`, `Props_Coast.v` | C32, C33, C43-C48, C67, C70, C77, C92, C93, C94 |
| `ShortestPath.v` | `B/shortest_path/*.cpp` | `DistFacts.v`, `SearchFacts.v`, `SearchSpec.v`, `SearchGraph.v`, `SearchQuery.v`, `PathFacts.v`, `PathMore.v`, `Props_Path.v`, `FreePaths.v`, `Props_Exact.v`, `PathMonotone.v`, `Props_Monotone.v`, `OpenWater.v`, `Props_Open.v`, `CoastRun.v`, `Props_Coast.v`, `Ways.v`, `WayRun.v`, `Props_Ways.v`, `LandWays.v`, `Props_LandWays.v`, `Around.v`, `Props_Around.v`, `Stretch.v`, `Props_Stretch.v`, `Foot.v`, `Props_Foot.v`, `Mirror.v`, `Props_Mirror.v`, `Detour.v`, `Props_Detour.v`, `MoreLand.v`, `Props_MoreLand.v`, `Touch.v`, `Default.v`, `Props_Default.v` | C49-C58, C68, C69, C81, C90, C95, C96, C98-C108 |
| `PyLayer.v` | `dtos/coordinate.py`, `datastructures/polygon.py`, `shapefiles/shapefile_reader.py`, `graph_generator.py:53-60`, `path_interpolator.py` | `PyFacts.v`, `Props_Python.v` | C59-C62 |
| `Pipeline.v` | `graph_generator.py`, `graph_merger.py`, `datastructures/graph_file_paths.py`, `path_interpolator.py:17-42`, on a model of the file system | `PipelineFacts.v`, `Props_Pipeline.v`, `PipelineFree.v`, `Props_EndToEnd.v`, `PipelineOpen.v`, `Props_OpenRun.v`, `PipelineSea.v`, `Props_Sea.v` | C63-C66, C83, C91, C93 |
| `Sphere.v` | what the S2 queries of `spatial_segment_index.cpp` mean, in real arithmetic (`to_s2_point`, arcs, loops) | `SphereFacts.v`, `Props_Sphere.v`, `ShoreFacts.v`, `Props_Shore.v`, `SphereBack.v`, `Props_SphereBack.v` | C72, C73, C82, C89 |
| `Base.v` (`in_parallel`) | the OpenMP regions of `visgraph_generator.cpp` and `graph.cpp` | `ParallelFacts.v`, `Props_Parallel.v` | C71 |

Specifications used in the statements are in `SpecGeom.v` (geometric segments over the
rationals, areas, cones), `SpecGraph.v` (abstract edge maps) and `SpecFile.v` (file
layout), which import only the data types of the model, and, where they are only used by
one family, next to the statements.  Property theorems are in `Props_*.v`, each with an
`Example` showing a concrete case that meets its hypotheses and a `Print Assumptions`.

## 3. Property by property

`_partial` marks a theorem weaker than the English property, `_refuted` a proof that the
property as written is false of the code, with a computed witness.  `MANIFEST.json`
lists every theorem.

* **C01, C02** both loops with fuel; the fuel is shown to suffice; `lia`.
* **C03** Flocq error analysis of `trunc(1e6 * (1e-6 * x))`.  Refuted: 15 microdegrees read back as 14.
* **C04** integer-valued doubles are exact; everything out of range is the outcome `UB`.
* **C05** relative error of one division and one multiplication, then rounding to an integer.
* **C06** integer determinants with explicit 64-bit checks.
* **C07** polygons and coordinates; refuted for segments (`==` ignores direction, the hash does not).
* **C08, C09** against "there are rationals s, t in [0,1] with equal points" (integers q, s, t); error bound of `a + round(n * (Qx/D))`.
* **C10** refuted: collinear overlapping segments are reported disjoint; proved with shared endpoints.
* **C11, C12** double comparisons transported to integers through C03's monotonicity.
* **C13** cyclic list induction.  **C14-C17** refuted for repeated vertices and for slivers
  (the double winding sum has the wrong sign); proved under an explicit area condition,
  which is shown to imply the right sign for every summation order.
* **C18** exact cone; refuted past the far end of an edge, for flat corners, at the corner itself.
* **C19-C22** refinement of the matrix to a function on pairs, by induction on the history.
  C20 refuted for directed edges.  **C23, C24** refuted (stride change; hash collisions).
* **C25-C27** small-step interleaving semantics with reader/writer locks and single cell
  accesses; inductive invariant; linearization log.  Sequential consistency is justified by C27.
* **C28-C31** folds over graphs and schedules, C21; C29 also for the count that the code takes; C30 also through files (C35).
* **C32, C33** range invariant through the sweep for every arctangent and iteration order.  C33 refuted.
* **C34, C35, C39** byte memory with explicit bounds.  **C36-C38** refuted; partial versions for
  files that do not contain stale entries, prefixes after the polygons, well-formed files.
* **C40-C42** refinement to an overlay map; refuted in the corners listed in the manifest.
* **C43** refuted for equal distances, repeated additions, reversed edges; proved otherwise.
* **C44** exact under a separation condition (directions equal or 2^-47 apart) which holds within 11.8 degrees; refuted in general.
* **C45** refuted twice: keys of the open edge set are distances at insertion time, so a farther edge can hide a nearer
  one (three triangles); and two edges of one polygon opened at one distance collide, so a vertex on the far side of a
  single convex pentagon is reported.  Proved where the keys are right (`SweepSound.v`): strictly convex polygons such
  that two polygons seen in one direction are separated by a circle about the observer with a microdegree to spare; no
  reported vertex lies behind another polygon, nor behind its own when the distances of its vertices differ.  **C46** proved. **C47** proved when the
  comparison is a strict weak order, for the scans and for the generated graph (`SweepHalfGraph.v`); refuted otherwise (`SweepUnsorted.v`): around one
  vertex of a map of 29 disjoint triangles the comparison is no strict weak order whichever accurate arctangent is used, and a library free to order
  as it likes then ends the half scan at once.  **C48** refuted for periodic copies of the observer.
* **C49, C51, C52, C54, C55** A* with an arbitrary choice of minimal element, every radius and weighting.
* **C50, C53, C56, C57** exactly false of doubles (or of the direct path, C53); proved with the
  rounding bounded.  **C58** refuted.
* **C59** refuted (only the first part is read).  **C60**, **C62** proved.  **C61** refuted by rounding and at the closed ends.
* **C63** the whole chain composed from C59, C32, C34/C35, C16 and C49; refuted for a ring with a repeated vertex (its file
  does not load).  **C64** proved.  **C65** refuted: the directory created first stays.  **C66** C30 carried through the commands and files; refuted for an
  empty shape file and for the ring of C63.
* **C67-C70** the converse of C45's positive half: where strictly convex polygons lie in layers about the observer and no two
  vertices are in one direction, a line that misses every interior is never blocked (`SweepExact.v`: the last edge crossed
  before the vertex has the interior behind it), so the reports are exact; summed over observers and periodic copies
  (`SweepGraph.v`: an interior point lies between the vertices' longitudes, so only the three copies matter) the graph is the
  visibility graph, and with C49-C51 paths consist of free legs and no free route is shorter (`FreePaths.v`).  The hypotheses are decided
  by boolean checkers for the examples (`SweepWorld.v`).  C67 and C68 refuted over four triangles that do not meet (`BlockedLegs.v`); C69 refuted for edges that are free both ways;
  C70 refuted for edges closer together than the distances resolve (`SweepHashOrder.v`).
* **C71** an exception leaving an OpenMP region is the outcome `UB EscapesParallel`; refuted with C33's triangle, and proved
  exactly when it happens.
* **C72**, **C73** the index is asked on the sphere (`Sphere.v`: arcs are cones over two unit vectors, insides are signs of
  determinants), while the sweep, the graph and the polygons are in the plane.  Refuted for every index that is right on the
  sphere, with islands whose sines and cosines are square roots; proved for an index that is right in the plane.
* **C74** index arithmetic over the ring; the sweep map is a permutation of the boundary taken twice.  Refuted for two
  polygons with a common vertex.  **C75** the shifts with explicit 32-bit checks, both directions.
* **C76** membership and repetition in the overlay's vertex list, as an equivalence; refuted.
* **C77** the generator made from segments (`vistree_generator.cpp:17-33`), which only the Python interface uses: when it
  answers, as an equivalence (C32's invariant with the observer allowed to be an end).  Refuted at the end of a lone
  segment, for a candidate the map lacks, and (sight through a square) at the first vertex of a boundary.
* **C78-C80** Flocq error analysis of products, square root and reciprocal, then one or two roundings to integers.  C79
  refuted at a distance of one microdegree; the signs in C80 refuted for parallel and nearly parallel vectors.
* **C81** from C49-C51: the roads of the smaller graph are roads of the larger one, so its path rules out a failure and
  bounds the other path.  That the path never gets longer is refuted: the rounded lengths of two ways tie.
* **C82** the endpoint edges leave out what is left of the shore edge, and a convex polygon is left of its edges.  Refuted
  for every index that is right on the sphere, with the foot point computed in real arithmetic (between 45 and 60
  degrees north, the edge runs along 30).
* **C83** composes C63 and C66 with C67-C69: what matters of a graph is its polygons, in any order, and its answers
  (`drawn` in `FreePaths.v`), and saving, loading, splitting and merging keep both.  Refuted through the files with the
  walled map of C68.
* **C84** numbers print as words over digits, signs, point and exponent, and none of the separators is one of these, so the
  texts can be taken apart again from the left.  The printing of a double is an oracle.
* **C85** equal rows have the same vertices and answers.  Refuted: polygons are not part of the text.
* **C86** each split is a list of reports of the vertices in its range; the merge of such lists is read off the union of all reports.
* **C87** saving reads nothing but polygons and answers, loading nothing but bytes, and C35 closes the circle.
* **C88** the answer of a merge is the join of the answers, which is associative, commutative and idempotent.
* **C89** sines of the differences of the angles are bounded by the error over the radius of the circle of latitude; integers less than one apart are equal.
* **C90** what the sweep rejects is blocked (C46, C47) and a blocked line is not open, so every open line between vertices is an edge and every open line from an endpoint is a road; then C50 and C51. No layers and no convexity, in contrast to C67-C69: the converse (every edge is open) is false (C45).
* **C91** the stored or merged graph has the polygons and answers of the generated one (C65, C66), so it misses no open line either; then C90.
* **C92** (partial) polygons of any shape, with the condition `in_order` on the keys of the held segments: if the line to a corner enters land, some edge it enters across ranks no later than the edges behind the corner (a half sweep only needs the corners that are not south of it), decided by a checker on an example with a bay. Vertices in line with the observer are allowed if all but the nearest are behind land (`shaded`), so two vertices of one latitude, which are in line with their own copies, are no obstacle (`C94_tips_ex`). "Makes no landfall" (`sea_line`) says that the line from one end enters no edge from its outer side, passes no corner and does not set out into land; over convex polygons that is missing their interior (`C92_convex`), and every open line of C90 is one (`C92_open`). No parity (Jordan) argument is used: a line that sets out from a point at sea is in land only after entering. Refuted for other maps (`C92_landfall_refuted`).
* **C93** (partial) legs of a path are edges (C92), roads of an endpoint (the sweep of C92 over the loaded polygons) or the direct line; stored and merged graphs answer as the generated one. Refuted for other maps.
* **C94** (partial) a theory of winding numbers of polygonal rings in the real plane (`Jordan.v`): walking along the left side of a simple ring never changes the count, crossing an edge changes it by one, and it is zero far out, so the two sides of a simple ring turning left at a westernmost corner have counts one and zero (`two_sides`). Then a line that enters no land on the way (C92) from a point around which no ring winds strikes no edge at all: the first edge struck would be left from inside (`sea_open`), and all its points have count zero (`sea_wet`). With C90 and C92 that gives both directions. `drawn` (simple rings, counter-clockwise, no vertex inside another ring) is decided by a checker. Refuted for vertices without an ordered view (`C94_graph_refuted`, on a map which is `drawn`).
* **C95** (partial) by C94 the roads of the search are exactly the open lines, so its journeys are exactly the routes (`journey_exact`); then C50-C53, and C65, C66 for files. A leg around the world counts as the shorter of the two ways (C69). Refuted for other maps.
* **C96** (partial) a way is a polyline whose bends are arbitrary points of the real plane and all of whose points lie on a shore or outside every ring (`sails`, `course` in `Ways.v`). It is tightened like a string: of the vertices inside the triangle of a bend the one nearest to the chord is taken (`least`, `chain`); a triangle with no vertex inside and two clear sides has a clear third side, by following the ring that cuts it (`fan`). So a way is never shorter than one that bends at vertices (`smoothed`), inside any convex region, here the disc of the radius; that one is a route of C95. Not covered: ways around the world, endpoints moved to the shore (C98). Refuted for other maps: the path itself is no way. The straight line from end to end may also only touch the land: it then meets the edges in a vertex, and there is a route of the same length by way of it (`C96_touching_partial`, `touch_route` in `Touch.v`).
* **C97** (partial) the stored ring is the given one without its straight vertices, perhaps reversed; the winding number around a real point is a sum along the ring that straight vertices do not change (`turns_straight`, `goes_cyc`) and reversal negates. The shoelace area is the sum of winding numbers over the fields of a grid (`area_grid` in `Green.v`), and by `two_sides` of `Jordan.v` those of a simple ring are all 0 and 1 or all 0 and -1 (`look_up`), so a simple ring of positive area has the land on its left (`positive_left`), which C94-C96 suppose (`C97_drawn`). How often the edges cover a point, twice inside and once at an end, does not change either (`Covers.v`), and a map touches itself nowhere exactly if it is at most twice everywhere, so if the rings of a shape file do not touch the stored map does not, and is a map of C94-C96 (`C97_map_partial`, `C97_file_partial`). Refuted: a vertex given twice in a row is dropped and the land changes; a thin triangle is stored clockwise.
* **C98** (partial) continues C96 for endpoints the program moved to a shore. From a point inside the edge every line off the land leaves on the sea side (`ashore`), so a way that goes from the endpoint to the edge and back can be tightened with its first bend on the sea side, where the filter of `create_modified_graph` lets it pass (`put_out`, `ends` in `LandWays.v`): the path is as short as any way plus twice the distance to the edge at either end. Without that allowance it is false of the code (a cape whose tip hides nothing, but the corner in sight lies behind the line of its shore). Missing: the maps and ways C96 leaves out, endpoints moved exactly onto an edge or onto land (C82).
* **C99** (partial) the vertices seen across the meridian are those of the copies of the map one turn east and west, so the line that was seen may go almost twice around the world, while `distance_measurement` takes the shorter of the two lines. The length is at most that of the open line (`around_measured` in `Around.v`), and equal unless that goes more than once around, which land as far north and south as both ends prevents: the ring of that land changes sides of the line (`not_past`). Refuted with two small islands in the way: the only open line is 700 degrees long, the edge has length 22, and the path is that edge.
* **C100** (partial) a route is cut at two of its places and the way between them tightened as in C96; the three parts joined are a route (`sailed_split`, `way_between`, `sailed_app` in `Stretch.v`), which C95 compares with the path. The straight line between start and destination may only touch the land (`edge_between`, `best_touch` in `Touch.v`). Missing: what C96 leaves out. The straight line between the ends of the query may only touch the land (`way_between`).
* **C101** (partial) if two legs met, the path could be shortened there by at least two microdegrees, since places are whole microdegrees (`far_one`); by C100 that is more than rounding can hide unless the path is longer than 4000 degrees. Two legs in a row that overlap are treated alike. Missing: legs around the world, weights above one, and what C96 leaves out.
* **C102** (partial) C98 for a point on the sea side of its edge. Refuted where the moved point is exactly on its edge, as on every shore along a meridian, and where it is a micro-degree inland: the edge hides the whole sea from it, and the path first follows the shore to the end of the edge (`port_query`, the whole query evaluated for every accurate atan2 as in C46). Missing: how much longer the path can be.
* **C103** the edge under the observer is opened at distance zero by the initial scan line and is neither closed nor opened again, because its ends are in line with the observer; it is the nearest edge at every vertex and hides what is off its line (`walled`, `sweep_level`, `ashore_sees` in `Foot.v`). No assumption on atan2 or on the order of the sweep.
* **C104** (partial) the open lines of the image are the images of the open lines, with the rings reversed if the map is mirrored once and the copies east and west swapped (`image_line` in `Mirror.v`); by C94 both graphs consist of those lines, and the routes of C95 keep their lengths (`image_sailed`). Missing: maps whose image is not surveyed or drawn, and searches that leave out a part of the map.
* **C105** (partial) the two routes joined at a vertex are a route, which C95 compares with the path (`joined_route` in `Detour.v`); joined at another place they are a way over the water, which C96 compares with it (`joined_way`). Missing: other maps, endpoints moved to the shore, and legs around the world next to a third place that is not a vertex.
* **C106** (partial) the line between the two starts and the route from the second are a way from the first (`shifted_way`), and likewise at the destination (`shifted_end_way`). Missing: what C96 leaves out.
* **C107** (partial) a line open among more polygons is open among fewer (`open_incl` in `MoreLand.v`), and by C94 the graphs consist of the open lines; a route on the map with more land is a way over the water of the other (`less_way`), which C96 compares with its path. Missing: legs around the world, and maps that are not surveyed or drawn.
* **C108** (partial) C96 for a search without radius and with weight one, where every way is within reach (`some_bound`), together with the straight line if the index reports nothing (`default_answers` in `Default.v`), over the folders of C95. A line which the index reports although it only touches the land meets the edges in a vertex, so there is a route of the same length (`sails_touch`, `touch_route` in `Touch.v`); an index that reports exactly the lines which meet an edge is one of those allowed (`exact_index`). Missing: ways around the world and other maps.

### Findings

Behaviour of the code that contradicts the obvious reading of its interface, each with a
machine-checked witness: C03 truncation; C07 segment hash; C10 collinear overlap; C14
repeated vertices vanish; C15 sliver orientation; C16, C17 follow; C18 corner test; C20
directed neighbours; C23 `add_vertex` scrambles edges; C24 equality depends on hash
collisions; C33 polygons beyond the meridian are not accepted; C36 stale crossings (crossing count
doubled); C37 no crash marker; C38 unchecked offsets; C40 removed crossing edges come back
plain; C41 duplicate neighbours; C42 crossing edges to new vertices throw; C43 lost edges;
C44 arctangent ties; C45 hidden vertices reported; C47 a vertex joined to none above it; C48 a vertex sees its own copies; C50
longer route by rounding; C53 the direct path ignores the radius; C56 triangle inequality;
C58 endpoints do not see across the meridian; C59 lost rings; C61 the wrapping helper;
C63 a generated file whose loading is undefined behaviour; C65 a failed command blocks its own
repetition; C66 an empty shape file cannot be generated in splits; C67 an edge through a polygon; C68 a path through a polygon; C69 an edge free both ways is given the longer length; C70 the generated
graph depends on the order in which a hash set of pointers lists the segments, so on memory addresses; C71 an
exception inside a parallel loop ends the program; C72 the straight line is answered through an island, and refused
where it is free; C73 a point outside a polygon is on land, and one inside is not; C74 at a common
vertex of two polygons the sweep forgets the segments of the first; C76 a vertex of the base is listed twice; C77 a
scan from the end of a lone segment reads out of bounds, and one over a boundary looks through it from its first vertex;
C79 the margin is ignored one microdegree from the shore; C80 parallel vectors have a cross product in degrees;
C81 an added edge can lengthen the path by less than the search can see; C82 an endpoint on land is moved along the
sphere, to a point that is still on land in the plane, and the straight line from there is returned; C83 a path interpolated from a
shape file leads through one of its shapes; C85 graphs with different polygons compare equal and answer path queries differently;
C86 splits with different seeds merge without an error and lose edges; C92-C96 an edge, and a leg of a path, which enters land from both
ends, over triangles that do not meet; C97 a vertex given twice in a row changes the land of a ring; C98 the vertices behind the line of the shore are left
out and the path is longer than it need be; C99 a leg seen almost twice around the world is measured along the short line, through an island; C102 an endpoint moved onto its edge, or to the land side of it, sees nothing of the sea, and its path follows the shore to the end of the edge first.

## 4. Trusted base

* the Coq 8.16.1 kernel, including its `vm_compute` machine (used for witnesses);
* the axioms reported by `Print Assumptions` under each theorem: either none ("Closed
  under the global context") or exactly the four standard library axioms behind the real
  numbers, which enter through Flocq:
  `ClassicalDedekindReals.sig_forall_dec`, `ClassicalDedekindReals.sig_not_dec`,
  `FunctionalExtensionality.functional_extensionality_dep`, `Classical_Prop.classic`.
  Free of axioms: C01, C02, C04 (`+`, `-`, group laws), C06, C07, C12, C18 (small corners),
  C19-C23, C24 (partial), C25-C31 (C30 through files excepted), C34, C39-C43, C44 (near
  points), C59 (reading), C71 (when and what, not the witness), C86, C87 (what a saved file depends on, splits), C88 (files excepted).  All others use the four;
* the correspondence between the model and the source, which is by reading: every
  definition cites the lines it models and states its simplifications.  It is tested, not
  proved: `RepoTests.v` runs the repository's C++ tests on the model inside Coq and all
  pass (not run: `test_spatial_segment_index.cpp` and the spherical distance, which test
  S2; for the path tests the index answers as in the plane).  `validation/README.md` records
  a run of the extracted model on the shipped shape file and graph files, which it
  reproduced byte for byte; the driver is not part of this directory.  It also records an
  evaluation in Coq by which the shipped map is surveyed and drawn, so that C94-C108 are
  not only about small maps.

Modelled: everything under `B/` except the following, and the Python helpers named above.

Not modelled: the S2 queries inside `spatial_segment_index.cpp` (an oracle that may answer
anything, or anything on the globe where stated), `std::atan2` (an oracle; "accurate"
within 2^-50 where stated), `mio` beyond "a byte array of the file's size",
operating system failures, pybind11 conversions, progress bars, the digits `fmt` prints
for a double (an oracle), Python's `repr`, hash container internals other than the equality/hash matching rule,
performance, `example.cpp`, the tests and the hypothesis strategies.
