(** Independent description of the size of a graph file. *)
From Coq Require Import ZArith Bool List.
From Verif Require Import Base Coordinate Polygon Graph.
Import ListNotations.
Local Open Scope Z_scope.

(** ordered pairs of vertices joined by an edge over the meridian *)
Definition crossing_pair_count (g : graph) : Z :=
  Z.of_nat (length (filter
    (fun ab => match is_edge_meridian_crossing g (fst ab) (snd ab) with Ok true => true | _ => false end)
    (list_prod (get_vertices g) (get_vertices g)))).

Definition bytes_for_bits (n : nat) : Z := (Z.of_nat n + 7) / 8.

(** rows of 0, 1, ..., n bits, each padded to whole bytes *)
Definition packed_rows (n : nat) : Z := fold_right Z.add 0 (map bytes_for_bits (seq 0 (S n))).

(** polygon count, one count per polygon, 8 bytes per vertex, packed rows, crossing count and
    one entry per ordered crossing pair *)
Definition file_size (g : graph) : Z :=
  8 + 8 * Z.of_nat (length (get_polygons g)) + 8 * Z.of_nat (length (get_vertices g)) +
  packed_rows (length (get_vertices g)) + 8 * (1 + crossing_pair_count g).

(** the polygons, rows (with the spare one) and the crossing count, without the entries *)
Definition fixed_part (g : graph) : Z :=
  file_size g - 8 * crossing_pair_count g - bytes_for_bits (length (get_vertices g)).
