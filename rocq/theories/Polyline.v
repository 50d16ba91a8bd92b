(** Model of [types/polyline/three_vertex_polyline.cpp]. *)
From Coq Require Import ZArith Bool List.
From Verif Require Import Base F64 Coordinate.
Local Open Scope Z_scope.

Record polyline := mkPL { pv1 : coord; pv2 : coord; pv3 : coord }.

(** lines 39-47 *)
Definition is_reflex (p : polyline) : res bool :=
  s <- coord_sub (pv2 p) (pv1 p) ;;
  t <- coord_sub (pv3 p) (pv2 p) ;;
  let determinant := fsub (fmul (get_longitude s) (get_latitude t))
                          (fmul (get_latitude s) (get_longitude t)) in
  Ok (fltb determinant f_0).

(** lines 49-51; [value >= x] is [x <= value] *)
Definition inclusive_between (value lower upper : f64) : bool :=
  fleb (fsub lower f_1em6) value && fleb value (fadd upper f_1em6).

(** the recurring call [inclusive_between(x, -EPSILON_TOLERANCE, 1 + EPSILON_TOLERANCE)] *)
Definition within_edge (value : f64) : bool :=
  inclusive_between value (fopp f_1em6) (fadd f_1 f_1em6).

(** lines 11-37.  The operands of the C++ [&&]/[||] chains are evaluated lazily; in
    particular [value()] of the factor is only taken in the collinear cases. *)
Definition point_visible (p : polyline) (c : coord) : res bool :=
  v2v1 <- coord_sub (pv1 p) (pv2 p) ;;
  v2v3 <- coord_sub (pv3 p) (pv2 p) ;;
  v2c <- coord_sub c (pv2 p) ;;
  o1 <- vector_orientation v2v1 v2c ;;
  o3 <- vector_orientation v2v3 v2c ;;
  reflex <- is_reflex p ;;
  let factor v := f <- scalar_multiple_factor v v2c ;; opt_value f in
  if negb reflex then
    match o1, o3 with
    | CLOCKWISE, COUNTER_CLOCKWISE => Ok false
    | COLLINEAR, COUNTER_CLOCKWISE => f <- factor v2v1 ;; Ok (within_edge f)
    | CLOCKWISE, COLLINEAR => f <- factor v2v3 ;; Ok (within_edge f)
    | _, _ => Ok true
    end
  else
    match o1, o3 with
    | COUNTER_CLOCKWISE, CLOCKWISE => Ok true
    | COLLINEAR, CLOCKWISE => f <- factor v2v1 ;; Ok (within_edge f)
    | COUNTER_CLOCKWISE, COLLINEAR => f <- factor v2v3 ;; Ok (within_edge f)
    | _, _ => Ok false
    end.
