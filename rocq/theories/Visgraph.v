(** Model of [visgraph/visgraph_generator.cpp] and of the split arithmetic of
    [graph_generator.py].  The visibility computation of one vertex is a parameter [vis]
    here; Sweep.v models it.  The progress bar is left out.  The parallel loops are taken
    in source order here; [parallel_generate] takes the calls in any given order. *)
From Coq Require Import ZArith Bool List.
From Verif Require Import Base F64 Coordinate Segment Polygon Graph.
Import ListNotations.
Local Open Scope Z_scope.

(** visible_vertex.hpp: [VisibleVertex] *)
Record visible := mkV { v_coord : coord; v_across : bool }.

Definition vis_oracle := coord -> res (list visible).

(** visgraph_generator.cpp:53-57 and 86-91: one iteration *)
Definition connect_vertex (vis : vis_oracle) (g : graph) (v : coord) : res graph :=
  xs <- vis v ;; foldM (fun g x => add_edge g v (v_coord x) (v_across x)) xs g.

(** visgraph_generator.cpp:19-69 *)
Definition generate (vis : vis_oracle) (ps : list polygon) : res graph :=
  in_parallel (foldM (connect_vertex vis) (polygon_vertices ps) (make_graph ps)).

(** visgraph_generator.cpp:71-96.  [shuffled] is the result of std::shuffle for the seed; the
    parameters are [size_t], so [range_start < 0] is never true. *)
Definition generate_with_shuffled_range (vis : vis_oracle) (ps : list polygon) (range_start range_end : nat)
    (shuffled : list coord) : res graph :=
  match ps with
  | [] => Ok (make_graph ps)
  | _ =>
      if (length (polygon_vertices ps) <? range_end)%nat || (range_end <? range_start)%nat then Throw ImproperRange
      else in_parallel (foldM (connect_vertex vis) (firstn (range_end - range_start) (skipn range_start shuffled)) (make_graph ps))
  end.

(** graph_generator.py:62-64: [reduce] of an empty sequence raises *)
Definition num_vertices_in_polygons (ps : list polygon) : res Z :=
  match ps with
  | [] => Throw PyTypeError
  | p :: ps' => Ok (fold_left Z.add (map (fun q => Z.of_nat (length (verts q))) ps') (Z.of_nat (length (verts p))))
  end.

(** graph_generator.py:44-47; Python's // on integers is floor division *)
Definition split_start (n cur num : Z) : Z := n / num * cur.
Definition split_end (n cur num : Z) : Z := if cur <? num - 1 then n / num * (cur + 1) else n.

(** the [size_t] parameters of the binding reject negative numbers.  Simplification: numbers of
    2^64 and more, which it rejects with the same error, are left to the range check. *)
Definition to_size_t (z : Z) : res nat := if z <? 0 then Throw PyTypeError else Ok (Z.to_nat z).

(** graph_generator.py:34-49 without the file system; [num = 0] raises ZeroDivisionError *)
Definition generate_for_vertex_range (vis : vis_oracle) (ps : list polygon) (cur num : Z) (shuffled : list coord) : res graph :=
  n <- num_vertices_in_polygons ps ;;
  if num =? 0 then Throw PyZeroDivision else
  s <- to_size_t (split_start n cur num) ;;
  e <- to_size_t (split_end n cur num) ;;
  generate_with_shuffled_range vis ps s e shuffled.

(** the [add_edge] calls of one iteration *)
Definition vertex_calls (vis : vis_oracle) (v : coord) : list gop :=
  match vis v with Ok xs => map (fun x => GAdd v (v_coord x) (v_across x)) xs | _ => [] end.

(** the loop of lines 51-61 run by several threads: [calls] is the order in which the calls
    take effect *)
Definition parallel_generate (ps : list polygon) (calls : list gop) : res graph := in_parallel (foldM gstep calls (make_graph ps)).
