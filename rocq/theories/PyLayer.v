(** Model of the Python layer: [capi/src/implementation/dtos/coordinate.py],
    [datastructures/polygon.py], [shapefiles/shapefile_reader.py],
    [graph_generator.py] and [path_interpolator.py].  Python floats are doubles. *)
From Coq Require Import ZArith Bool List.
From Flocq Require Import Core BinarySingleNaN.
From Verif Require Import Base F64 Coordinate Polygon Graph ShortestPath.
Import ListNotations.
Local Open Scope Z_scope.

(** dtos/coordinate.py:4-10 *)
Record pcoord := mkPC { p_latitude : f64; p_longitude : f64 }.

(** C's [fmod]: the exact remainder, with the sign of [x] *)
Definition ffmod (x y : f64) : f64 :=
  match x, y with
  | B754_nan, _ | _, B754_nan | B754_infinity _, _ | _, B754_zero _ => B754_nan
  | B754_zero _, _ | B754_finite _ _ _ _, B754_infinity _ => x
  | B754_finite sx mx ex _, B754_finite sy my ey _ =>
      let e := Z.min ex ey in
      binary_normalize 53 1024 _ _ mode_NE
        (cond_Zopp sx ((Zpos mx * 2 ^ (ex - e)) mod (Zpos my * 2 ^ (ey - e)))) e sx
  end.

(** CPython's [float_rem] (Objects/floatobject.c) *)
Definition pymod (x y : f64) : res f64 :=
  if feqb y f_0 then Throw PyZeroDivision else
  let m := ffmod x y in
  Ok (if feqb m f_0 then (if fltb y f_0 then fopp f_0 else f_0)
      else if xorb (fltb y f_0) (fltb m f_0) then fadd m y else m).

(** dtos/coordinate.py:13-17, one component: [((x + half) % (2 * half)) - half] *)
Definition wrap (half : Z) (x : f64) : res f64 :=
  m <- pymod (fadd x (f_of_Z half)) (f_of_Z (2 * half)) ;; Ok (fsub m (f_of_Z half)).
(** dtos/coordinate.py:13-17 *)
Definition construct_coord_in_lat_lon_range (latitude longitude : f64) : res pcoord :=
  a <- wrap 90 latitude ;; b <- wrap 180 longitude ;; Ok (mkPC a b).

(** datastructures/polygon.py:7-15 *)
Definition py_polygon (vertices : list pcoord) : res (list pcoord) :=
  if (length vertices <? 3)%nat then Throw PyValueError else Ok vertices.

(** what pyshp returns for a shape: [shapeTypeName == "POLYGON"], [points] as (x, y), [parts] *)
Record shape := mkSh { sh_polygon : bool; sh_points : list (f64 * f64); sh_parts : list nat }.

(** shapefile_reader.py:22-25, with [part_i = 1] throughout *)
Fixpoint first_part (parts : list nat) (point_i : nat) (points : list (f64 * f64)) : list pcoord :=
  match points with
  | [] => []
  | p :: rest =>
      match nth_error parts 1 with
      | Some stop => if (stop =? point_i)%nat then [] else mkPC (snd p) (fst p) :: first_part parts (S point_i) rest
      | None => mkPC (snd p) (fst p) :: first_part parts (S point_i) rest
      end
  end.

(** shapefile_reader.py:12-32 *)
Definition read_shapes (shapes : list shape) : res (list (list pcoord)) :=
  foldM (fun polygons s =>
    if sh_polygon s then
      let part := first_part (sh_parts s) 0 (sh_points s) in
      if (3 <? length part)%nat then p <- py_polygon (removelast part) ;; Ok (polygons ++ [p]) else Ok polygons
    else Ok polygons) shapes [].

(** the [VisGraphCoord] constructor of bindings.cpp: [Coordinate(double, double)] *)
Definition vis_coord (c : pcoord) : res coord := coord_of_degrees (p_longitude c) (p_latitude c).

(** graph_generator.py:53-60 *)
Definition read_polygons_from_shapefile (shapes : list shape) : res (list polygon) :=
  read <- read_shapes shapes ;;
  mapM (fun vs => cs <- mapM vis_coord vs ;; make_polygon cs) read.

(** path_interpolator.py:100-104 *)
Definition convert (points : list coord) : list pcoord := map (fun c => mkPC (get_latitude c) (get_longitude c)) points.

(** path_interpolator.py:26-42, 63-78.  The weighting only decides which picks are possible. *)
Definition interpolate (fuel : nat) (en : env) (g : graph) (c1 c2 : pcoord) (limit : f64) (correct : bool) : option (res (list pcoord)) :=
  match vis_coord c1, vis_coord c2 with
  | Ok a, Ok b =>
      match shortest_path fuel en g a b limit correct with
      | Some (Ok path) => Some (Ok (convert path))
      | Some (Throw e) => Some (Throw e)
      | Some (UB u) => Some (UB u)
      | None => None
      end
  | Throw e, _ | Ok _, Throw e => Some (Throw e)
  | UB u, _ | Ok _, UB u => Some (UB u)
  end.

(** path_interpolator.py:91-97: iterating over a missing path raises TypeError *)
Definition batch_entry (r : batch_result) : res (option (list pcoord)) :=
  match br_error r, br_path r with
  | Some _, _ => Ok None
  | None, Some path => Ok (Some (convert path))
  | None, None => Throw PyTypeError
  end.

(** path_interpolator.py:51-58 *)
Definition vis_pair (p : pcoord * pcoord) : res (coord * coord) := a <- vis_coord (fst p) ;; b <- vis_coord (snd p) ;; Ok (a, b).

(** path_interpolator.py:44-61, 80-98 *)
Definition batch_interpolate (fuel : nat) (ens : nat -> env) (g : graph) (pairs : list (pcoord * pcoord)) (limit : f64) (correct : bool)
    (schedule : list nat) : option (res (list (option (list pcoord)))) :=
  match mapM vis_pair pairs with
  | Ok qs =>
      match shortest_paths fuel ens g qs limit correct schedule with
      | Some (Ok results) => Some (mapM batch_entry results)
      | Some (Throw e) => Some (Throw e)
      | Some (UB u) => Some (UB u)
      | None => None
      end
  | Throw e => Some (Throw e)
  | UB u => Some (UB u)
  end.
