(** Model of [types/polygon/polygon.cpp].  A polygon is the list of its vertices; the
    default constructor (line 12), which leaves a null pointer, is not modelled. *)
From Coq Require Import ZArith Bool List.
From Verif Require Import Base F64 Coordinate Segment.
Import ListNotations.
Local Open Scope Z_scope.

Record polygon := mkP { verts : list coord }.

Definition origin : coord := mkC 0 0.

(** [vertices[i]]; all uses below have [i < size], so the default is never used *)
Definition vnth (vs : list coord) (i : nat) : coord := nth i vs origin.

(** lines 20-35 *)
Definition get_line_segments (p : polygon) : list segment :=
  let n := length (verts p) in
  map (fun i => mkS (vnth (verts p) i) (vnth (verts p) ((i + 1) mod n)%nat)) (seq 0 n).

(** line 37: [std::vector] equality *)
Fixpoint verts_eqb (a b : list coord) : bool :=
  match a, b with
  | [], [] => true
  | x :: a', y :: b' => coord_eqb x y && verts_eqb a' b'
  | _, _ => false
  end.
Definition polygon_eqb (a b : polygon) : bool := verts_eqb (verts a) (verts b).

(** the loop body of lines 66-70 *)
Definition winding_term (vs : list coord) (i : nat) : f64 :=
  let n := length vs in
  let a := vnth vs i in let b := vnth vs ((i + 1) mod n)%nat in
  fmul (fsub (get_longitude b) (get_longitude a)) (fadd (get_latitude b) (get_latitude a)).

(** lines 62-79.  Simplification: the OpenMP SIMD reduction is taken in source order
    (the scalar loop); other orders are treated in PolygonFloat.v. *)
Definition winding_sum (vs : list coord) : f64 :=
  fold_left (fun acc i => fadd acc (winding_term vs i)) (seq 0 (length vs)) f_0.
Definition get_orientation_of_vertices (vs : list coord) : orientation :=
  let w := winding_sum vs in
  if fltb w f_0 then COUNTER_CLOCKWISE else if fltb f_0 w then CLOCKWISE else COLLINEAR.

(** lines 45-60 *)
Definition normalize_orientation (vs : list coord) : list coord :=
  if (length vs <=? 2)%nat then vs
  else match get_orientation_of_vertices vs with
       | CLOCKWISE => rev vs
       | _ => vs
       end.

(** the test of lines 87-95 at index [i]: keep the vertex? *)
Definition keep_vertex (vs : list coord) (i : nat) : res bool :=
  let n := length vs in
  let prev_i := ((i + n - 1) mod n)%nat in
  let next_i := ((i + 1) mod n)%nat in
  ab <- coord_sub (vnth vs i) (vnth vs prev_i) ;;
  bc <- coord_sub (vnth vs next_i) (vnth vs i) ;;
  par <- parallel ab bc ;;
  if negb par then Ok true
  else
    f <- scalar_multiple_factor ab bc ;;
    v <- opt_value f ;;
    Ok (fltb v f_0).

(** lines 81-101 *)
Definition remove_collinear_vertices (vs : list coord) : res (list coord) :=
  foldM (fun acc i => k <- keep_vertex vs i ;; Ok (if (k : bool) then acc ++ [vnth vs i] else acc))
        (seq 0 (length vs)) [].

(** lines 41-43 *)
Definition preprocess_vertices (vs : list coord) : res (list coord) :=
  r <- remove_collinear_vertices vs ;; Ok (normalize_orientation r).

(** lines 14-16 *)
Definition make_polygon (vs : list coord) : res polygon :=
  r <- preprocess_vertices vs ;; Ok (mkP r).

(** lines 136-142 *)
Definition hash_polygon (p : polygon) : Z :=
  fold_left (fun seed v => hash_combine seed (hash_coord v)) (verts p) (Z.of_nat (length (verts p))).
