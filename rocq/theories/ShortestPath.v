(** Model of [shortest_path/shortest_path_computer.cpp] (line numbers refer to it unless
    another file is named).  The spatial index (S2) answers by oracle; the choices of the
    priority queue among its elements, the iteration orders of the hash containers and the
    schedule of the parallel loop are arguments.  A result of type [option (res A)] is [None]
    when a loop was still running when the given number of iterations was used up. *)
From Coq Require Import ZArith Bool List.
From Verif Require Import Base F64 Coordinate Segment Polygon Periodicity Graph Overlay Visgraph Sweep.
Import ListNotations.
Local Open Scope Z_scope.

(** spatial_segment_index.cpp, all of it calls into S2: [ix_contains] lines 87-91,
    [ix_closest] 42-56 (throws on an empty index), [ix_crossing] 67-81, and [ix_project]
    for [S2Polyline::Project] in line_segment.cpp:112-116. *)
Record index := mkI {
  ix_contains : coord -> bool;
  ix_closest : coord -> res segment;
  ix_crossing : segment -> list segment;
  ix_project : segment -> coord -> coord
}.

(** [std::min(x, y)] *)
Definition fmin (x y : f64) : f64 := if fltb y x then y else x.

(** lines 161-168 *)
Definition distance_measurement (a b : coord) (is_meridian_spanning : bool) : res f64 :=
  if negb is_meridian_spanning then
    d <- coord_sub a b ;; Ok (magnitude d)
  else
    ps <- periodic_coordinates a ;;
    d1 <- coord_sub (nth 1 ps origin) b ;;
    d2 <- coord_sub (nth 2 ps origin) b ;;
    Ok (fmin (magnitude d1) (magnitude d2)).

(** lines 170-172 *)
Definition heuristic_distance (a b : coord) : res f64 :=
  x <- distance_measurement a b false ;; y <- distance_measurement a b true ;; Ok (fmin x y).

(** shortest_path_computer.hpp:26-33 *)
Record correction := mkLC {
  lc_source : coord; lc_dest : coord;
  lc_source_edge : option segment; lc_dest_edge : option segment
}.

(** lines 191-195 and 196-200; the default margin of [project] is 0 *)
Definition correct_endpoint (ix : index) (on_land : bool) (c : coord) : res (coord * option segment) :=
  if on_land then
    seg <- ix_closest ix c ;;
    p <- project (ix_project ix) seg c f_0 ;;
    Ok (p, Some seg)
  else Ok (c, None).

(** lines 174-209 *)
Definition handle_land_collisions (ix : index) (source destination : coord) (correct_vertices_on_land : bool) : res correction :=
  let s := ix_contains ix source in
  let d := ix_contains ix destination in
  if negb correct_vertices_on_land && (s || d) then Throw OnLand else
  cs <- correct_endpoint ix s source ;;
  cd <- correct_endpoint ix d destination ;;
  Ok (mkLC (fst cs) (fst cd) (snd cs) (snd cd)).

(** i_graph.hpp: what the search asks of a graph *)
Record sgraph := mkSG {
  sg_neighbors : coord -> res (list coord);
  sg_crossing : coord -> coord -> res bool
}.
Definition sg_of_graph (g : graph) : sgraph := mkSG (get_neighbors g) (is_edge_meridian_crossing g).
(** [rows v] is the iteration order of the hash map [_neighbors.at(v)] *)
Definition sg_of_overlay (rows : coord -> list (coord * ninfo) -> list (coord * ninfo)) (m : mgraph) : sgraph :=
  mkSG (fun v => m_get_neighbors m (rows v (match assoc v (m_nb m) with Some row => row | None => [] end)) v)
       (m_is_edge_meridian_crossing m).

(** lines 226-231 *)
Definition connect_endpoint (edge : option segment) (c : coord) (m : mgraph) (point : visible) : res mgraph :=
  keep <- match edge with
          | None => Ok true
          | Some s => o <- orientation_of_point_to_segment s (v_coord point) ;; Ok (negb (orientation_eqb o COUNTER_CLOCKWISE))
          end ;;
  if (keep : bool) then
    match m_add_edge m c (v_coord point) (v_across point) with
    | (m', Ok _) => Ok m'
    | (_, Throw e) => Throw e
    | (_, UB u) => UB u
    end
  else Ok m.

(** lines 221-233, one pass; [vis] is [_vistree_gen.get_visible_vertices] *)
Definition add_endpoint (vis : vis_oracle) (g : graph) (m : mgraph) (ce : coord * option segment) : res mgraph :=
  if has_vertex g (fst ce) then Ok m else
  let m1 := fst (m_add_vertex m (fst ce)) in
  points <- vis (fst ce) ;;
  foldM (connect_endpoint (snd ce) (fst ce)) points m1.

(** lines 211-236 *)
Definition create_modified_graph (vis : vis_oracle) (rows : coord -> list (coord * ninfo) -> list (coord * ninfo))
    (g : graph) (lc : correction) : res sgraph :=
  if has_vertex g (lc_source lc) && has_vertex g (lc_dest lc) then Ok (sg_of_graph g) else
  m <- foldM (add_endpoint vis g) [(lc_source lc, lc_source_edge lc); (lc_dest lc, lc_dest_edge lc)] (make_mgraph g) ;;
  Ok (sg_of_overlay rows m).

(** lines 16-20 *)
Record helem := mkH { h_node : coord; h_dist : f64; h_heur : f64 }.
(** lines 53-54; the element returned by [top] is one for which no other is less *)
Definition priority (w : f64) (x : helem) : f64 := fadd (h_dist x) (fmul (h_heur x) w).

(** lines 57-67: the queue (in the order of the pushes), [prev_coord], [distances_to_source] *)
Record sstate := mkSS {
  ss_heap : list helem;
  ss_prev : list (coord * coord);
  ss_dist : list (coord * f64)
}.

(** lines 77-97, one neighbour *)
Definition relax (sg : sgraph) (source dest : coord) (radius : f64) (top : helem) (st : sstate) (neighbor : coord) : res sstate :=
  spanning <- sg_crossing sg (h_node top) neighbor ;;
  edge_dist <- distance_measurement neighbor (h_node top) spanning ;;
  let nd := fadd (h_dist top) edge_dist in
  direct <- heuristic_distance source neighbor ;;
  if fltb radius direct || match assoc neighbor (ss_dist st) with Some d => fleb d nd | None => false end then Ok st else
  hd <- heuristic_distance neighbor dest ;;
  Ok (mkSS (ss_heap st ++ [mkH neighbor nd hd]) (put neighbor (h_node top) (ss_prev st)) (put neighbor nd (ss_dist st))).

(** lines 76-98 *)
Definition expand (sg : sgraph) (source dest : coord) (radius : f64) (top : helem) (st : sstate) : res sstate :=
  ns <- sg_neighbors sg (h_node top) ;; foldM (relax sg source dest radius top) ns st.

Fixpoint remove_nth {A} (i : nat) (l : list A) : list A :=
  match l, i with
  | [], _ => []
  | _ :: l', O => l'
  | x :: l', S i' => x :: remove_nth i' l'
  end.

(** lines 68-99.  [pick k q] says which element of [q] is on top at the k-th iteration. *)
Fixpoint search (fuel k : nat) (pick : nat -> list helem -> nat) (sg : sgraph) (source dest : coord) (radius : f64)
    (st : sstate) : option (res sstate) :=
  match fuel with
  | O => None
  | S fuel' =>
      match ss_heap st with
      | [] => Some (Ok st)
      | x0 :: _ =>
          let i := (pick k (ss_heap st) mod length (ss_heap st))%nat in
          let top := nth i (ss_heap st) x0 in
          let st1 := mkSS (remove_nth i (ss_heap st)) (ss_prev st) (ss_dist st) in
          if coord_eqb (h_node top) dest then Some (Ok st1) else
          match expand sg source dest radius top st1 with
          | Ok st2 => search fuel' (S k) pick sg source dest radius st2
          | Throw e => Some (Throw e)
          | UB u => Some (UB u)
          end
      end
  end.

(** lines 101-125, building the reversed vector *)
Fixpoint walk_back (fuel : nat) (prev : list (coord * coord)) (source curr : coord) (path : list coord) : option (res (list coord)) :=
  match fuel with
  | O => None
  | S fuel' =>
      if coord_eqb curr source then Some (Ok (source :: path)) else
      match assoc curr prev with
      | None => Some (Throw NoPath)
      | Some p => walk_back fuel' prev source p (curr :: path)
      end
  end.

(** lines 58-125 *)
Definition search_path (fuel : nat) (pick : nat -> list helem -> nat) (sg : sgraph) (source dest : coord) (radius : f64)
    : option (res (list coord)) :=
  match heuristic_distance source dest with
  | Ok h =>
      match search fuel 0 pick sg source dest radius (mkSS [mkH source f_0 h] [] []) with
      | Some (Ok st) => walk_back (S (length (ss_prev st))) (ss_prev st) source dest []
      | Some (Throw e) => Some (Throw e)
      | Some (UB u) => Some (UB u)
      | None => None
      end
  | Throw e => Some (Throw e)
  | UB u => Some (UB u)
  end.

(** lines 36-46: crossings of the straight line other than with the edges projected onto *)
Definition other_crossings (ix : index) (lc : correction) : list segment :=
  filter (fun s => negb (match lc_source_edge lc with Some e => segment_eqb s e | None => false end) &&
                   negb (match lc_dest_edge lc with Some e => segment_eqb s e | None => false end))
         (ix_crossing ix (mkS (lc_source lc) (lc_dest lc))).

(** the environment of a query: the index, the sweep, the container orders, the queue *)
Record env := mkEnv {
  en_index : index;
  en_vis : vis_oracle;
  en_rows : coord -> list (coord * ninfo) -> list (coord * ninfo);
  en_pick : nat -> list helem -> nat
}.

(** lines 25-126.  The weighting only decides which [pick] is possible. *)
Definition shortest_path (fuel : nat) (en : env) (g : graph) (source destination : coord) (radius : f64)
    (correct_vertices_on_land : bool) : option (res (list coord)) :=
  match (ns <- normalize_coord source ;; nd <- normalize_coord destination ;;
         lc <- handle_land_collisions (en_index en) ns nd correct_vertices_on_land ;;
         match other_crossings (en_index en) lc with
         | [] => Ok (lc, None)
         | _ => sg <- create_modified_graph (en_vis en) (en_rows en) g lc ;; Ok (lc, Some sg)
         end) with
  | Ok (lc, None) => Some (Ok [lc_source lc; lc_dest lc])
  | Ok (lc, Some sg) => search_path fuel (en_pick en) sg (lc_source lc) (lc_dest lc) radius
  | Throw e => Some (Throw e)
  | UB u => Some (UB u)
  end.

(** lines 22-23 and 224: the sweep over the polygons of the graph, without periodic copies *)
Definition endpoint_vis (atan2 : Z -> Z -> f64) (ords : coord -> orders) (g : graph) : vis_oracle :=
  fun c => get_visible_vertices atan2 (ords c) (vistree_of_polygons (get_polygons g)) c false.

(** shortest_path_computer.hpp:21-24; an error message is represented by its exception *)
Record batch_result := mkBR { br_path : option (list coord); br_error : option exn }.

(** lines 138-155, one iteration *)
Definition batch_cell (r : option (res (list coord))) : option (res batch_result) :=
  match r with
  | Some (Ok p) => Some (Ok (mkBR (Some p) None))
  | Some (Throw e) => Some (Ok (mkBR None (Some e)))
  | Some (UB u) => Some (UB u)
  | None => None
  end.

(** lines 128-159.  [schedule] is the order in which the iterations of the parallel loop take
    effect; iteration i only writes [paths[i]].  [query i] is the call for pair i. *)
Fixpoint batch (query : nat -> option (res (list coord))) (schedule : list nat) (paths : list batch_result)
    : option (res (list batch_result)) :=
  match schedule with
  | [] => Some (Ok paths)
  | i :: rest =>
      match batch_cell (query i) with
      | Some (Ok r) => if (i <? length paths)%nat then batch query rest (upd paths i r) else Some (UB OutOfBounds)
      | Some (Throw e) => Some (Throw e)
      | Some (UB u) => Some (UB u)
      | None => None
      end
  end.
Definition shortest_paths (fuel : nat) (ens : nat -> env) (g : graph) (pairs : list (coord * coord)) (radius : f64)
    (correct_vertices_on_land : bool) (schedule : list nat) : option (res (list batch_result)) :=
  batch (fun i => let p := nth i pairs (origin, origin) in
                  shortest_path fuel (ens i) g (fst p) (snd p) radius correct_vertices_on_land)
        schedule (repeat (mkBR None None) (length pairs)).
