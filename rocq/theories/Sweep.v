(** Model of the rotational sweep: [datastructures/open_edges/open_edges.cpp],
    [geom/angle_sorter/angle_sorter.cpp] and [visgraph/vistree_generator.cpp]. *)
From Coq Require Import ZArith Bool List.
From Verif Require Import Base F64 Coordinate Segment Polyline Polygon Periodicity Visgraph.
Import ListNotations.
Local Open Scope Z_scope.

(** ** open_edges.cpp *)

(** open_edges.hpp: [_edges_sorted_by_distance] is a [std::map] (one entry per distance), as a
    list in key order; [_edge_to_distance_mapping] is an [unordered_map]. *)
Record open_edges := mkOE { oe_sorted : list (Z * segment); oe_dist : list (segment * Z) }.
Definition no_edges : open_edges := mkOE [] [].

(** key equality of the [unordered_map]: the hash function is not [noexcept], so libstdc++
    stores the hash codes and compares them first; then operator== (either direction) *)
Definition seg_key (a b : segment) : bool := (hash_segment a =? hash_segment b) && segment_eqb a b.

(** [std::map::emplace]: no effect when the key is present *)
Fixpoint emplace (d : Z) (s : segment) (l : list (Z * segment)) : list (Z * segment) :=
  match l with
  | [] => [(d, s)]
  | (d', s') :: l' => if d <? d' then (d, s) :: l else if d =? d' then l else (d', s') :: emplace d s l'
  end.
(** [unordered_map::operator[]] with assignment *)
Fixpoint set_distance (s : segment) (d : Z) (l : list (segment * Z)) : list (segment * Z) :=
  match l with
  | [] => [(s, d)]
  | (s', d') :: l' => if seg_key s s' then (s', d) :: l' else (s', d') :: set_distance s d l'
  end.
Fixpoint get_distance (s : segment) (l : list (segment * Z)) : option Z :=
  match l with
  | [] => None
  | (s', d') :: l' => if seg_key s s' then Some d' else get_distance s l'
  end.
Fixpoint erase_distance (s : segment) (l : list (segment * Z)) : list (segment * Z) :=
  match l with
  | [] => []
  | (s', d') :: l' => if seg_key s s' then l' else (s', d') :: erase_distance s l'
  end.
(** lines 20-26: the entry with this distance, if its segment is equal *)
Fixpoint erase_sorted (d : Z) (s : segment) (l : list (Z * segment)) : list (Z * segment) :=
  match l with
  | [] => []
  | (d', s') :: l' => if (d' =? d) && segment_eqb s' s then l' else (d', s') :: erase_sorted d s l'
  end.

(** lines 7-10 *)
Definition oe_add (o : open_edges) (d : Z) (s : segment) : open_edges :=
  mkOE (emplace d s (oe_sorted o)) (set_distance s d (oe_dist o)).
(** lines 12-27 *)
Definition oe_remove (o : open_edges) (s : segment) : open_edges :=
  match get_distance s (oe_dist o) with
  | None => o
  | Some d => mkOE (erase_sorted d s (oe_sorted o)) (erase_distance s (oe_dist o))
  end.
(** line 29; dereferencing [begin()] of an empty map is undefined *)
Definition closest_edge (o : open_edges) : res segment :=
  match oe_sorted o with [] => UB OutOfBounds | (_, s) :: _ => Ok s end.
(** line 31 *)
Definition oe_empty (o : open_edges) : bool := match oe_sorted o with [] => true | _ => false end.

(** ** angle_sorter.cpp *)

(** lines 15-34 *)
Definition angle_less (atan2 : Z -> Z -> f64) (observer c1 c2 : coord) : res bool :=
  if coord_eqb c1 observer then Ok true
  else if coord_eqb c2 observer then Ok false
  else
    v1 <- coord_sub c1 observer ;;
    v2 <- coord_sub c2 observer ;;
    dotprod <- dot_md v1 v2 ;;
    o <- vector_orientation v1 v2 ;;
    if negb (orientation_eqb o COLLINEAR) || (dotprod <? 0)
    then Ok (fltb (angle_to_horizontal atan2 v1) (angle_to_horizontal atan2 v2))
    else Ok (fltb (magnitude_squared v1) (magnitude_squared v2)).

Definition less_b (atan2 : Z -> Z -> f64) (observer c1 c2 : coord) : bool :=
  match angle_less atan2 observer c1 c2 with Ok b => b | _ => false end.

(** lines 9-37.  [srt] is [std::sort] for a comparison.  Simplification: a comparison of any
    two elements that is undefined makes the whole sort undefined, whether or not [std::sort]
    would make it. *)
Definition sort_ccw (atan2 : Z -> Z -> f64) (srt : (coord -> coord -> bool) -> list coord -> list coord)
    (observer : coord) (vs : list coord) : res (list coord) :=
  _ <- mapM (fun a => mapM (fun b => angle_less atan2 observer a b) vs) vs ;;
  Ok (srt (less_b atan2 observer) vs).

(** ** vistree_generator.cpp *)

(** [_vertices_and_segments]: keys with their incident segments *)
Definition vmap := list (coord * list segment).
Fixpoint vm_put (m : vmap) (c : coord) (ss : list segment) : vmap :=
  match m with
  | [] => [(c, ss)]
  | (c', ss') :: m' => if coord_eqb c' c then (c', ss) :: m' else (c', ss') :: vm_put m' c ss
  end.
Fixpoint vm_find (m : vmap) (c : coord) : option (list segment) :=
  match m with
  | [] => None
  | (c', ss) :: m' => if coord_eqb c' c then Some ss else vm_find m' c
  end.
(** [at] *)
Definition vm_at (m : vmap) (c : coord) : res (list segment) :=
  match vm_find m c with Some ss => Ok ss | None => Throw MapOutOfRange end.

(** lines 116-130 for index [i] *)
Definition incident (vs : list coord) (i : nat) : coord * list segment :=
  let n := length vs in
  let prev := nth ((i + n - 1) mod n) vs origin in
  let curr := nth i vs origin in
  let next := nth ((i + 1) mod n) vs origin in
  (curr, [mkS prev curr; mkS curr next]).

(** lines 107-134: a vertex that occurs again overwrites the entry *)
Definition add_polygon (m : vmap) (p : polygon) : vmap :=
  fold_left (fun m i => let e := incident (verts p) i in vm_put m (fst e) (snd e)) (seq 0 (length (verts p))) m.
Definition incident_map (ps : list polygon) : vmap := fold_left add_polygon ps [].

(** lines 20-32 *)
Definition vm_push (m : vmap) (c : coord) (s : segment) : vmap :=
  match vm_find m c with Some ss => vm_put m c (ss ++ [s]) | None => vm_put m c [s] end.
Definition add_segment (m : vmap) (s : segment) : vmap := vm_push (vm_push m (e1 s) s) (e2 s) s.
Definition segment_map (ss : list segment) : vmap := fold_left add_segment ss [].

(** A generator: the map and the segments it points to.  The polygon constructor (14-15)
    allocates every segment anew, so every occurrence in the map is its own pointer; the
    segment constructor (17-33) stores each given pointer in two lists. *)
Record vistree := mkVT { vt_map : vmap; vt_segments : list segment }.
Definition vistree_of_polygons (ps : list polygon) : vistree :=
  mkVT (incident_map ps) (flat_map snd (incident_map ps)).
Definition vistree_of_segments (ss : list segment) : vistree := mkVT (segment_map ss) ss.

(** lines 172-186 *)
Fixpoint orientation_segments (ss : list segment) (scan : segment) (o : orientation) : res (list segment) :=
  match ss with
  | [] => Ok []
  | s :: ss' =>
      a <- get_adjacent_to s (e2 scan) ;;
      so <- orientation_of_point_to_segment scan a ;;
      rest <- orientation_segments ss' scan o ;;
      Ok (if orientation_eqb so o then s :: rest else rest)
  end.

(** lines 199-207: the first end of every incident segment, and the second of all but the first *)
Fixpoint barrier_from (i : nat) (ss : list segment) : list coord :=
  match ss with
  | [] => []
  | s :: ss' => (if (i =? 0)%nat then [e1 s] else [e1 s; e2 s]) ++ barrier_from (S i) ss'
  end.
(** lines 209-210; an index past the end is undefined *)
Definition barrier (ss : list segment) : res polyline :=
  match barrier_from 0 ss with a :: b :: c :: _ => Ok (mkPL a b c) | _ => UB OutOfBounds end.

(** lines 188-226 *)
Definition is_vertex_visible (m : vmap) (oe : open_edges) (observer v : coord) : res bool :=
  if coord_eqb v observer then Ok false else
  corner <- match vm_find m observer with
            | None => Ok true
            | Some ss => b <- barrier ss ;; point_visible b v
            end ;;
  if negb corner then Ok false
  else if oe_empty oe then Ok true
  else
    e <- closest_edge oe ;;
    x <- intersection_with_segment e (mkS observer v) ;;
    match x with
    | Some r => Ok (coord_eqb r v)
    | None => Ok true
    end.

(** lines 228-233 *)
Definition erase_segments (ss : list segment) (oe : open_edges) : open_edges := fold_left oe_remove ss oe.

(** lines 235-244 *)
Definition add_segments (ss : list segment) (oe : open_edges) (observer v : coord) : res open_edges :=
  foldM (fun oe s =>
    x <- intersection_with_segment s (mkS observer v) ;;
    r <- opt_value x ;;
    w <- coord_sub r observer ;;
    d <- magnitude_squared_md w ;;
    Ok (oe_add oe d s)) ss oe.

(** lines 58-60 *)
Definition initial_scanline (observer : coord) : segment := mkS observer (mkC MAX_PERIODIC_LONGITUDE (lat observer)).

(** lines 61-71 *)
Definition initial_edges (observer : coord) (segs : list segment) : res open_edges :=
  let scan := initial_scanline observer in
  foldM (fun oe s =>
    if coord_eqb observer (e1 s) || coord_eqb observer (e2 s) then Ok oe
    else
      x <- intersection_with_segment s scan ;;
      match x with
      | None => Ok oe
      | Some r =>
          on1 <- on_segment scan (e1 s) ;;
          if on1 then Ok oe
          else
            on2 <- on_segment scan (e2 s) ;;
            if on2 then Ok oe
            else
              w <- coord_sub r observer ;;
              d <- magnitude_squared_md w ;;
              Ok (oe_add oe d s)
      end) segs no_edges.

(** lines 80-83: does the half scan stop here?  [init] is the initial scanline's vector *)
Definition past_half (half : bool) (init observer v : coord) : res bool :=
  if half then
    t <- get_tangent_vector (mkS observer v) ;;
    c <- cross_md init t ;;
    Ok (c <? 0)
  else Ok false.

(** lines 73-104, the vertices given in sorted order *)
Fixpoint sweep (m : vmap) (init observer : coord) (half : bool) (vs : list coord) (oe : open_edges) : res (list visible) :=
  match vs with
  | [] => Ok []
  | v :: vs' =>
      if coord_eqb observer v then sweep m init observer half vs' oe
      else
        stop <- past_half half init observer v ;;
        if stop then Ok []
        else
          inc <- vm_at m v ;;
          cw <- orientation_segments inc (mkS observer v) CLOCKWISE ;;
          ccw <- orientation_segments inc (mkS observer v) COUNTER_CLOCKWISE ;;
          let oe1 := erase_segments cw oe in
          b <- is_vertex_visible m oe1 observer v ;;
          n <- (if b then normalize_coord v else Ok v) ;;
          oe2 <- add_segments ccw oe1 observer v ;;
          rest <- sweep m init observer half vs' oe2 ;;
          Ok (if b then mkV n (over_meridian v) :: rest else rest)
  end.

(** What the hash containers and [std::sort] leave open: the order of the keys, of the
    segments, and the result of sorting. *)
Record orders := mkO {
  o_vertices : list coord -> list coord;
  o_segments : list segment -> list segment;
  o_sort : (coord -> coord -> bool) -> list coord -> list coord
}.

(** lines 47-105 *)
Definition visible_from (atan2 : Z -> Z -> f64) (ord : orders) (m : vmap) (observer : coord)
    (vertices : list coord) (segs : list segment) (half : bool) : res (list visible) :=
  match m with
  | [] => Ok []
  | _ =>
      vs <- sort_ccw atan2 (o_sort ord) observer vertices ;;
      init <- get_tangent_vector (initial_scanline observer) ;;
      oe <- initial_edges observer segs ;;
      sweep m init observer half vs oe
  end.

(** lines 35-38, 136-158 *)
Definition get_visible_vertices (atan2 : Z -> Z -> f64) (ord : orders) (t : vistree) (observer : coord) (half : bool) : res (list visible) :=
  visible_from atan2 ord (vt_map t) observer (o_vertices ord (map fst (vt_map t))) (o_segments ord (vt_segments t)) half.

(** lines 160-170 *)
Definition segment_vertices (ss : list segment) : list coord := nodup coord_dec (flat_map (fun s => [e1 s; e2 s]) ss).
(** lines 40-45 *)
Definition get_visible_from_candidates (atan2 : Z -> Z -> f64) (ord : orders) (t : vistree) (observer : coord)
    (candidates : list segment) (half : bool) : res (list visible) :=
  visible_from atan2 ord (vt_map t) observer (o_vertices ord (segment_vertices candidates)) candidates half.

(** visgraph_generator.cpp:23-24 and 53: what generation sees from a vertex *)
Definition vis_periodic (atan2 : Z -> Z -> f64) (ord : orders) (ps : list polygon) : vis_oracle :=
  fun v => pps <- make_polygons_periodic ps ;; get_visible_vertices atan2 ord (vistree_of_polygons pps) v true.
