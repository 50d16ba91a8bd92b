(** Model of the printed forms: [to_string_representation], [operator<<] and the comparison of
    graphs by them.  Line numbers refer to the file named. *)
From Coq Require Import ZArith Bool List String Ascii.
From Verif Require Import Base F64 Coordinate Polygon Graph Visgraph Sweep.
Import ListNotations.
Local Open Scope string_scope.

Definition newline : string := String (ascii_of_nat 10) "".
Definition tab : string := String (ascii_of_nat 9) "".
(** fmt's [{}] of a [bool] *)
Definition bool_text (b : bool) : string := if b then "true" else "false".

Section Show.
(** fmt's [{}] of a [double], an oracle: the shortest text which reads as the same double *)
Variable fmt : f64 -> string.

(** coordinate.cpp:155-157, 184-186 *)
Definition coord_text (c : coord) : string := "(" ++ fmt (get_longitude c) ++ "," ++ fmt (get_latitude c) ++ ")".

(** polygon.cpp:124-130: the loop, from a vertex on *)
Fixpoint vertices_text (vs : list coord) : string :=
  match vs with
  | [] => ""
  | [v] => coord_text v
  | v :: vs' => coord_text v ++ ", " ++ vertices_text vs'
  end.
(** polygon.cpp:120-134, 144 *)
Definition polygon_text (p : polygon) : string := "Polygon (" ++ vertices_text (verts p) ++ ")".

(** visible_vertex.cpp:13-15; a stream writes a [bool] as a digit *)
Definition visible_text (v : visible) : string := "{" ++ coord_text (v_coord v) ++ ", " ++ (if v_across v then "1" else "0") ++ "}".

(** graph.cpp:180-183 *)
Fixpoint row_text (row : list (coord * bool)) : string :=
  match row with
  | [] => ""
  | (n, crossing) :: row' =>
      "(" ++ fmt (get_longitude n) ++ ", " ++ fmt (get_latitude n) ++ ", meridian_span: " ++ bool_text crossing ++ ") " ++ row_text row'
  end.
(** graph.cpp:174-185 *)
Fixpoint rows_text (rows : list (coord * list (coord * bool))) : string :=
  match rows with
  | [] => ""
  | (v, row) :: rows' => tab ++ "[(" ++ fmt (get_longitude v) ++ ", " ++ fmt (get_latitude v) ++ ") [" ++ row_text row ++ "]]" ++ newline ++ rows_text rows'
  end.
(** graph.cpp:163-189, 262 *)
Definition graph_text (srt : list coord -> list coord) (g : graph) : res string :=
  rows <- graph_repr srt g ;; Ok ("Graph (" ++ newline ++ rows_text rows ++ ")").
(** graph.cpp:191-193 *)
Definition graph_text_eqb (srt : list coord -> list coord) (g h : graph) : res bool :=
  a <- graph_text srt g ;; b <- graph_text srt h ;; Ok (String.eqb a b).
End Show.
