# The model run on the repository's own files

Done once, outside this directory: the model was extracted to OCaml (integers to zarith, doubles and their operations to the
hardware's, `atan2` to libm's, hash orders to insertion order) and run on the files under `capi/test/test_files`.  OCaml files
are not allowed here, so the driver (reading bytes, `.shp` records, `std::mt19937` and `std::shuffle` of libstdc++) is not
included and that run cannot be repeated from this checkout.  Nothing here is part of any proof.

`check.py` does most of the same inside Coq, slowly, from this checkout and the repository's files.  Of its comparisons the
reading of the shape file and the copies east and west have been seen to agree; the rest takes hours on a busy machine and was
not run to its end.

Observed (everything agreed):

* the polygons read from `smaller.shp` (1 polygon, 169 vertices) are those in `smaller_graph/default`;
* the generated graph is the shipped one: 3398 directed edges, none different (`test_graph_generator.py`, `test_generate`);
* the two halves of the vertices, shuffled as libstdc++ does with `std::mt19937(42)`, give the two shipped ranges
  (`test_generate_for_vertex_range`); another seed does not;
* merging the two shipped ranges gives the whole graph (`test_graph_merger.py`);
* writing each of the three graphs gives the shipped file byte for byte (21438, 13390 and 11294 bytes), and reading it back
  gives the graph.

The C++ tests, and the Python ones that need no file, are run inside Coq: `rocq/theories/RepoTests.v`.

# The repository's own map and the hypotheses of C94 to C108

Evaluated in Coq, once, on the polygon of `smaller.shp` (169 vertices) and its copies east and west; `ps` is the map.  Every
test gave `true`:

* `nodup_b (polygon_vertices ps)`, `forallb fair_b ps`, and `make_polygon` gives back the polygon;
* `drawn_b ps` and `roomy_b (map_copies ps)` (about a minute each);
* `ordered_view_f true o (map_copies ps)` for each of the 169 vertices `o` (about 18 seconds each).

By `survey_b_ok` (`Props_Around.v`) and `drawn_b_ok` (`CoastCheck.v`) the map is therefore surveyed and drawn: the theorems
stated for such maps apply to the graph that the repository ships.  The evaluation takes most of an hour and is not part of
the build; `check.py --survey` repeats it (of that command only the first, fourth and last part were run, on one vertex each).
