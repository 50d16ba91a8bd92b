(** Model of [types/line_segment/line_segment.cpp]. *)
From Coq Require Import ZArith Bool List.
From Verif Require Import Base F64 Coordinate.
Local Open Scope Z_scope.

Record segment := mkS { e1 : coord; e2 : coord }.

(** lines 15-23 *)
Definition get_adjacent_to (s : segment) (p : coord) : res coord :=
  if coord_eqb p (e1 s) then Ok (e2 s)
  else if coord_eqb p (e2 s) then Ok (e1 s)
  else Throw NotAnEndpoint.

(** lines 25-68 *)
Definition intersection_with_segment (s o : segment) : res (option coord) :=
  let a := e1 s in let b := e2 s in let c := e1 o in let d := e2 o in
  n <- coord_sub b a ;;
  m <- coord_sub c d ;;
  p <- coord_sub c a ;;
  D1 <- i64 (lon n * lat m) ;; D2 <- i64 (lat n * lon m) ;; D <- i64 (D1 - D2) ;;
  X1 <- i64 (lat m * lon p) ;; X2 <- i64 (lon m * lat p) ;; Qx <- i64 (X1 - X2) ;;
  Y1 <- i64 (lon n * lat p) ;; Y2 <- i64 (lat n * lon p) ;; Qy <- i64 (Y1 - Y2) ;;
  if D =? 0 then
    if coord_eqb a c || coord_eqb a d then Ok (Some a)
    else if coord_eqb b c || coord_eqb b d then Ok (Some b)
    else Ok None
  else
    aD <- i64 (Z.abs D) ;; aX <- i64 (Z.abs Qx) ;; aY <- i64 (Z.abs Qy) ;;
    if negb (((0 <=? D) && (0 <=? Qx) && (0 <=? Qy)) || ((D <=? 0) && (Qx <=? 0) && (Qy <=? 0)))
       || (aD <? aX) || (aD <? aY)
    then Ok None
    else
      let t := fdiv (f_of_Z Qx) (f_of_Z D) in
      nt <- coord_mul n t ;;
      r <- coord_add a nt ;;
      Ok (Some r).

(** line 70 *)
Definition get_tangent_vector (s : segment) : res coord := coord_sub (e2 s) (e1 s).

(** lines 72-89 ([int64_t] arithmetic) *)
Definition orientation_of_point_to_segment (s : segment) (p : coord) : res orientation :=
  a <- i64 (lon (e2 s) - lon (e1 s)) ;; b <- i64 (lat p - lat (e1 s)) ;;
  c <- i64 (lat (e2 s) - lat (e1 s)) ;; d <- i64 (lon p - lon (e1 s)) ;;
  x <- i64 (a * b) ;; y <- i64 (c * d) ;; z <- i64 (x - y) ;;
  Ok (orientation_of_sign z).

(** lines 91-105 *)
Definition on_segment (s : segment) (p : coord) : res bool :=
  o <- orientation_of_point_to_segment s p ;;
  if negb (orientation_eqb o COLLINEAR) then Ok false
  else Ok (
    ((fleb (get_longitude (e1 s)) (get_longitude p) && fleb (get_longitude p) (get_longitude (e2 s)))
     || (fleb (get_longitude (e2 s)) (get_longitude p) && fleb (get_longitude p) (get_longitude (e1 s))))
    && ((fleb (get_latitude (e1 s)) (get_latitude p) && fleb (get_latitude p) (get_latitude (e2 s)))
     || (fleb (get_latitude (e2 s)) (get_latitude p) && fleb (get_latitude p) (get_latitude (e1 s))))).

(** lines 107-125; [s2_project] is the oracle for [S2Polyline::Project] followed by the
    conversion to microdegrees, [margin] is the float parameter converted to double. *)
Definition project (s2_project : segment -> coord -> coord)
    (s : segment) (point : coord) (margin : f64) : res coord :=
  let projected := s2_project s point in
  diff <- coord_sub projected point ;;
  let diff_magn := magnitude diff in
  if fltb f_1em6 diff_magn then
    q <- coord_div diff diff_magn ;;
    q' <- coord_mul q margin ;;
    coord_add projected q'
  else Ok projected.

(** lines 127-130 *)
Definition segment_eqb (a b : segment) : bool :=
  (coord_eqb (e1 a) (e1 b) && coord_eqb (e2 a) (e2 b))
  || (coord_eqb (e1 a) (e2 b) && coord_eqb (e2 a) (e1 b)).

(** lines 138-142 *)
Definition hash_segment (s : segment) : Z := hash_combine (hash_coord (e1 s)) (hash_coord (e2 s)).
