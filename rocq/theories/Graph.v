(** Model of [datastructures/graph/graph.cpp] (sequential behaviour; the locking protocol is
    in Locks.v).  Line numbers refer to graph.cpp unless another file is named. *)
From Coq Require Import ZArith Bool List.
From Verif Require Import Base F64 Coordinate Segment Polygon.
Import ListNotations.
Local Open Scope Z_scope.

(** graph.hpp:51-65.  [g_map] is [_coordinate_to_index_mapping] as an association list whose
    first entry for a coordinate is the current one; [g_cells] is [_neighbors], with the
    [EdgeState] values 0 DISCONNECTED, 1 CONNECTED, 2 CONNECTED_OVER_MERIDIAN, 3 both. *)
Record graph := mkG {
  g_polys : list polygon;
  g_num : nat;
  g_cells : list Z;
  g_index : list coord;
  g_map : list (coord * nat)
}.

Definition set_cells (g : graph) (cells : list Z) : graph :=
  mkG (g_polys g) (g_num g) cells (g_index g) (g_map g).

(** lookup in an association list keyed by coordinates *)
Fixpoint assoc {A} (c : coord) (l : list (coord * A)) : option A :=
  match l with
  | [] => None
  | (k, v) :: l' => if coord_eqb k c then Some v else assoc c l'
  end.

(** visgraph_generator.cpp:98-107 and graph.cpp:20-24: concatenated vertices *)
Definition polygon_vertices (ps : list polygon) : list coord := concat (map verts ps).

(** lines 27-29: [mapping[index[i]] = i] for i = 0, 1, ...; later entries win *)
Fixpoint index_map (i : nat) (cs : list coord) (m : list (coord * nat)) : list (coord * nat) :=
  match cs with
  | [] => m
  | c :: cs' => index_map (S i) cs' ((c, i) :: m)
  end.

(** lines 19-37 *)
Definition make_graph (ps : list polygon) : graph :=
  let index := polygon_vertices ps in
  let n := length index in
  mkG ps n (repeat 0 (n * n)) index (index_map 0 index []).

(** lines 226-233 *)
Definition coordinate_to_index (g : graph) (c : coord) : res nat :=
  match assoc c (g_map g) with Some i => Ok i | None => Throw NotInGraph end.

(** [_neighbors[k]] with the bounds made explicit *)
Definition cell_get (g : graph) (k : nat) : res Z :=
  match nth_error (g_cells g) k with Some x => Ok x | None => UB OutOfBounds end.

Fixpoint upd {A} (l : list A) (k : nat) (x : A) : list A :=
  match l, k with
  | [], _ => []
  | _ :: l', O => x :: l'
  | y :: l', S k' => y :: upd l' k' x
  end.

Definition cell_set (g : graph) (k : nat) (x : Z) : res graph :=
  if (k <? length (g_cells g))%nat then Ok (set_cells g (upd (g_cells g) k x)) else UB OutOfBounds.

Definition CONNECTED : Z := 1.
Definition CONNECTED_OVER_MERIDIAN : Z := 2.

(** line 67 and the same expression in 101, 128, 159 *)
Definition cell_index (g : graph) (a_index b_index : nat) : nat := (a_index + g_num g * b_index)%nat.

(** lines 44-71.  Both lookups precede the write, so an exception leaves the graph unchanged. *)
Definition add_directed_edge (g : graph) (a b : coord) (meridian : bool) : res graph :=
  if coord_eqb a b then Ok g else
  ai <- coordinate_to_index g a ;;
  bi <- coordinate_to_index g b ;;
  let k := cell_index g ai bi in
  old <- cell_get g k ;;
  cell_set g k (Z.lor old (if meridian then CONNECTED_OVER_MERIDIAN else CONNECTED)).

(** lines 39-42 *)
Definition add_edge (g : graph) (a b : coord) (meridian : bool) : res graph :=
  g1 <- add_directed_edge g a b meridian ;; add_directed_edge g1 b a meridian.

(** lines 78-103 *)
Definition remove_directed_edge (g : graph) (a b : coord) : res graph :=
  if coord_eqb a b then Ok g else
  ai <- coordinate_to_index g a ;;
  bi <- coordinate_to_index g b ;;
  cell_set g (cell_index g ai bi) 0.

(** lines 73-76 *)
Definition remove_edge (g : graph) (a b : coord) : res graph :=
  g1 <- remove_directed_edge g a b ;; remove_directed_edge g1 b a.

(** lines 105-130 *)
Definition has_edge (g : graph) (a b : coord) : res bool :=
  if coord_eqb a b then Ok false else
  ai <- coordinate_to_index g a ;;
  bi <- coordinate_to_index g b ;;
  x <- cell_get g (cell_index g ai bi) ;;
  Ok (negb (x =? 0)).

(** lines 132-134 *)
Definition has_vertex (g : graph) (c : coord) : bool :=
  match assoc c (g_map g) with Some _ => true | None => false end.

(** lines 136-161 *)
Definition is_edge_meridian_crossing (g : graph) (a b : coord) : res bool :=
  if coord_eqb a b then Ok false else
  ai <- coordinate_to_index g a ;;
  bi <- coordinate_to_index g b ;;
  x <- cell_get g (cell_index g ai bi) ;;
  Ok (x =? CONNECTED_OVER_MERIDIAN).

(** line 235 *)
Definition index_to_coordinate (g : graph) (i : nat) : res coord :=
  match nth_error (g_index g) i with Some c => Ok c | None => UB OutOfBounds end.

(** lines 197-211 *)
Definition get_neighbors (g : graph) (v : coord) : res (list coord) :=
  index <- coordinate_to_index g v ;;
  foldM (fun acc i_offset =>
           x <- cell_get g (i_offset + index * g_num g)%nat ;;
           if x =? 0 then Ok acc
           else c <- index_to_coordinate g i_offset ;; Ok (acc ++ [c]))
        (seq 0 (g_num g)) [].

(** lines 163-189.  [srt] is [std::sort] with the comparison [hash lhs < hash rhs] (lines
    166-168).  Simplification: the rows of the printed text are kept as values;
    [graph_text] in [Show.v] prints them. *)
Definition graph_repr (srt : list coord -> list coord) (g : graph) : res (list (coord * list (coord * bool))) :=
  mapM (fun vertex =>
          neighbors <- get_neighbors g vertex ;;
          row <- mapM (fun neighbor => c <- is_edge_meridian_crossing g vertex neighbor ;; Ok (neighbor, c))
                      (srt neighbors) ;;
          Ok (vertex, row))
       (srt (g_index g)).

(** [std::sort] of at most 16 elements in libstdc++ is this insertion sort. *)
Fixpoint hash_insert (x : coord) (l : list coord) : list coord :=
  match l with
  | [] => [x]
  | y :: l' => if hash_coord x <? hash_coord y then x :: l else y :: hash_insert x l'
  end.
Definition hash_sort (l : list coord) : list coord :=
  fold_left (fun acc x => hash_insert x acc) l [].

(** lines 191-193 *)
Definition row_eq_dec (x y : coord * list (coord * bool)) : {x = y} + {x <> y}.
Proof. repeat decide equality. Defined.
Definition graph_eqb (srt : list coord -> list coord) (g h : graph) : res bool :=
  a <- graph_repr srt g ;; b <- graph_repr srt h ;;
  Ok (if list_eq_dec row_eq_dec a b then true else false).

(** lines 213, 215 *)
Definition get_vertices (g : graph) : list coord := g_index g.
Definition get_polygons (g : graph) : list polygon := g_polys g.

(** lines 217-224 ([std::vector::resize] keeps the old prefix) *)
Definition add_vertex (g : graph) (c : coord) : graph :=
  let n := S (g_num g) in
  mkG (g_polys g) n (g_cells g ++ repeat 0 (n * n - length (g_cells g))) (g_index g ++ [c])
      ((c, g_num g) :: g_map g).

(** The mutating calls, as a history. *)
Inductive gop :=
| GAdd (a b : coord) (m : bool)
| GAddDir (a b : coord) (m : bool)
| GRem (a b : coord)
| GRemDir (a b : coord).

Definition gstep (g : graph) (o : gop) : res graph :=
  match o with
  | GAdd a b m => add_edge g a b m
  | GAddDir a b m => add_directed_edge g a b m
  | GRem a b => remove_edge g a b
  | GRemDir a b => remove_directed_edge g a b
  end.

(** A client that catches exceptions and goes on with the graph as it was. *)
Definition gstep_catch (g : graph) (o : gop) : res graph :=
  match gstep g o with Throw _ => Ok g | r => r end.

Definition grun (g : graph) (h : list gop) : res graph := foldM gstep_catch h g.

(** lines 237-260.  [polys] is the content of the [unordered_set] in its iteration order
    (an arbitrary enumeration without repetition of the polygons of all graphs).  The
    parallel loop over graphs is taken in list order here; C21/C25 make the order irrelevant. *)
Definition merge_into (m : graph) (g : graph) : res graph :=
  foldM (fun m v1 =>
    foldM (fun m v2 =>
      he <- has_edge g v1 v2 ;;
      if (he : bool) then
        cr <- is_edge_meridian_crossing g v1 v2 ;;
        add_edge m v1 v2 cr
      else Ok m) (get_vertices g) m) (get_vertices g) m.

Definition merge_graphs (polys : list polygon) (gs : list graph) : res graph :=
  in_parallel (foldM merge_into gs (make_graph polys)).

(** The insertion order of the set: first occurrences. *)
Fixpoint dedup_polys (seen : list polygon) (ps : list polygon) : list polygon :=
  match ps with
  | [] => []
  | p :: ps' => if existsb (polygon_eqb p) seen then dedup_polys seen ps'
                else p :: dedup_polys (p :: seen) ps'
  end.
