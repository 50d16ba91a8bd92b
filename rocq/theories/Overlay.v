(** Model of [datastructures/modified_graph/modified_graph.cpp].  The hash maps are
    association lists; their iteration order is an argument of the functions that iterate. *)
From Coq Require Import ZArith Bool List.
From Verif Require Import Base F64 Coordinate Segment Polygon Graph.
Import ListNotations.

(** modified_graph.hpp:16-26: [NeighborRelationship], [NeighborInfo] *)
Record ninfo := mkN { n_cross : bool; n_present : bool }.

(** modified_graph.hpp:49-50 *)
Record mgraph := mkM { m_base : graph; m_nb : list (coord * list (coord * ninfo)) }.

(** modified_graph.cpp:7 *)
Definition make_mgraph (g : graph) : mgraph := mkM g [].

(** [map[k] = v] of an unordered_map *)
Fixpoint put {A} (k : coord) (v : A) (l : list (coord * A)) : list (coord * A) :=
  match l with
  | [] => [(k, v)]
  | (k', v') :: l' => if coord_eqb k' k then (k', v) :: l' else (k', v') :: put k v l'
  end.

(** The find/at pair of lines 65, 69, 73, 77 *)
Definition m_entry (m : mgraph) (a b : coord) : option ninfo :=
  match assoc a (m_nb m) with Some row => assoc b row | None => None end.

(** lines 19-21 and 44-46 *)
Definition m_touch (m : mgraph) (a : coord) : mgraph :=
  match assoc a (m_nb m) with Some _ => m | None => mkM (m_base m) (put a [] (m_nb m)) end.
(** [_neighbors[a][b] = i] where [_neighbors[a]] exists (lines 24, 31, 48) *)
Definition m_set (m : mgraph) (a b : coord) (i : ninfo) : mgraph :=
  mkM (m_base m) (put a (put b i (match assoc a (m_nb m) with Some row => row | None => [] end)) (m_nb m)).

(** lines 57-62 *)
Definition m_has_vertex (m : mgraph) (v : coord) : bool :=
  has_vertex (m_base m) v || match assoc v (m_nb m) with Some _ => true | None => false end.

(** A mutating call returns the object it leaves behind and how it ended. *)
Definition mres := (mgraph * res unit)%type.
Definition mthen (r : mres) (f : mgraph -> mres) : mres :=
  match snd r with Ok _ => f (fst r) | _ => r end.

(** lines 14-36.  The right operand of the assignment in line 24 is evaluated first, so an
    exception of the base graph leaves [_neighbors[a]] behind without an entry for b. *)
Definition m_add_directed_edge (m : mgraph) (a b : coord) (meridian : bool) : mres :=
  if coord_eqb a b then (m, Ok tt) else
  let m1 := m_touch m a in
  match m_entry m1 a b with
  | None =>
      let cross := if meridian
                   then e <- has_edge (m_base m1) a b ;;
                        if e then is_edge_meridian_crossing (m_base m1) a b else Ok true
                   else Ok false in
      match cross with
      | Ok c => (m_set m1 a b (mkN c true), Ok tt)
      | Throw e => (m1, Throw e)
      | UB u => (m1, UB u)
      end
  | Some i => (m_set m1 a b (mkN (meridian && n_cross i) true), Ok tt)
  end.

(** lines 9-12 *)
Definition m_add_edge (m : mgraph) (a b : coord) (meridian : bool) : mres :=
  mthen (m_add_directed_edge m a b meridian) (fun m1 => m_add_directed_edge m1 b a meridian).

(** lines 43-49 *)
Definition m_remove_directed_edge (m : mgraph) (a b : coord) : mres :=
  (m_set (m_touch m a) a b (mkN false false), Ok tt).

(** lines 38-41 *)
Definition m_remove_edge (m : mgraph) (a b : coord) : mres :=
  mthen (m_remove_directed_edge m a b) (fun m1 => m_remove_directed_edge m1 b a).

(** lines 51-55 *)
Definition m_add_vertex (m : mgraph) (v : coord) : mres :=
  ((if m_has_vertex m v then m else mkM (m_base m) (put v [] (m_nb m))), Ok tt).

(** lines 64-70 *)
Definition m_has_edge (m : mgraph) (a b : coord) : res bool :=
  match m_entry m a b with None => has_edge (m_base m) a b | Some i => Ok (n_present i) end.

(** lines 72-78 *)
Definition m_is_edge_meridian_crossing (m : mgraph) (a b : coord) : res bool :=
  match m_entry m a b with None => is_edge_meridian_crossing (m_base m) a b | Some i => Ok (n_cross i) end.

(** lines 87-93, one iteration; line 91 is the erase-remove idiom *)
Definition m_merge_neighbor (acc : list coord) (n : coord * ninfo) : list coord :=
  if n_present (snd n) then acc ++ [fst n] else filter (fun c => negb (coord_eqb c (fst n))) acc.

(** lines 80-96.  [order] is the content of [_neighbors.at(vertex)] in iteration order. *)
Definition m_get_neighbors (m : mgraph) (order : list (coord * ninfo)) (v : coord) : res (list coord) :=
  ns <- (if has_vertex (m_base m) v then get_neighbors (m_base m) v else Ok []) ;;
  match assoc v (m_nb m) with
  | None => Ok ns
  | Some _ => Ok (fold_left m_merge_neighbor order ns)
  end.

(** lines 98-107; [order] as above for [_neighbors] *)
Definition m_get_vertices (m : mgraph) (order : list (coord * list (coord * ninfo))) : list coord :=
  get_vertices (m_base m) ++ map fst order.

(** lines 109-111 *)
Definition m_get_polygons (m : mgraph) : list polygon := get_polygons (m_base m).

(** the mutating interface *)
Inductive mop := MEdge (o : gop) | MVertex (v : coord).
Definition mstep (m : mgraph) (o : mop) : mres :=
  match o with
  | MEdge (GAdd a b f) => m_add_edge m a b f
  | MEdge (GAddDir a b f) => m_add_directed_edge m a b f
  | MEdge (GRem a b) => m_remove_edge m a b
  | MEdge (GRemDir a b) => m_remove_directed_edge m a b
  | MVertex v => m_add_vertex m v
  end.
(** a client that catches the exceptions and goes on *)
Definition mrun (m : mgraph) (h : list mop) : mgraph := fold_left (fun m o => fst (mstep m o)) h m.
(** a client that stops at the first exception *)
Fixpoint mrun_strict (m : mgraph) (h : list mop) : mres :=
  match h with [] => (m, Ok tt) | o :: h' => mthen (mstep m o) (fun m1 => mrun_strict m1 h') end.
