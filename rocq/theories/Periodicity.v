(** Model of [coordinate_periodicity/coordinate_periodicity.cpp] and [constants/constants.hpp]. *)
From Coq Require Import ZArith Bool List.
From Verif Require Import Base F64 Coordinate Segment Polygon.
Import ListNotations.
Local Open Scope Z_scope.

(** constants.hpp:12, 14, 16, 18-19 *)
Definition MAX_LONGITUDE : Z := 180000000.
Definition MIN_LONGITUDE : Z := -180000000.
Definition LONGITUDE_PERIOD : Z := 360000001.
Definition MAX_PERIODIC_LONGITUDE : Z := MAX_LONGITUDE + LONGITUDE_PERIOD.

(** coordinate_periodicity.cpp:12-20 *)
Definition periodic_coordinates (c : coord) : res (list coord) :=
  p <- i32 (lon c + LONGITUDE_PERIOD) ;;
  m <- i32 (lon c - LONGITUDE_PERIOD) ;;
  Ok [c; mkC p (lat c); mkC m (lat c)].

(** lines 22-25 *)
Definition over_meridian (c : coord) : bool := (lon c <? MIN_LONGITUDE) || (MAX_LONGITUDE <? lon c).

(** lines 29-31 and 32-34: the two [while] loops.  [None] is "ran out of fuel"; the fuel
    used below is proved sufficient for every 32-bit input (C01). *)
Fixpoint loop_down (fuel : nat) (x : Z) : option (res Z) :=
  match fuel with
  | O => None
  | S f => if MAX_LONGITUDE <? x then
             match i32 (x - LONGITUDE_PERIOD) with
             | Ok y => loop_down f y
             | Throw e => Some (Throw e)
             | UB u => Some (UB u)
             end
           else Some (Ok x)
  end.
Fixpoint loop_up (fuel : nat) (x : Z) : option (res Z) :=
  match fuel with
  | O => None
  | S f => if x <? MIN_LONGITUDE then
             match i32 (x + LONGITUDE_PERIOD) with
             | Ok y => loop_up f y
             | Throw e => Some (Throw e)
             | UB u => Some (UB u)
             end
           else Some (Ok x)
  end.

Definition periodicity_fuel : nat := 8.

(** lines 27-37.  Running out of fuel would be non-termination; it is mapped to [UB] (an
    endless loop without side effects is undefined behaviour in C++) and proved impossible. *)
Definition normalize_coord (c : coord) : res coord :=
  match loop_down periodicity_fuel (lon c) with
  | Some (Ok x) =>
      match loop_up periodicity_fuel x with
      | Some (Ok y) => Ok (mkC y (lat c))
      | Some (Throw e) => Throw e
      | Some (UB u) => UB u
      | None => UB SignedOverflow
      end
  | Some (Throw e) => Throw e
  | Some (UB u) => UB u
  | None => UB SignedOverflow
  end.

(** lines 48-62 for one polygon: transpose the periodic coordinates and rebuild *)
Definition periodic_polygon (p : polygon) : res (list polygon) :=
  cs <- mapM periodic_coordinates (verts p) ;;
  mapM (fun i => make_polygon (map (fun l => nth i l origin) cs)) (seq 0 3).

(** lines 39-66 *)
Definition make_polygons_periodic (ps : list polygon) : res (list polygon) :=
  r <- mapM periodic_polygon ps ;; Ok (concat r).

(** lines 68-79 *)
Definition make_coordinates_periodic (cs : list coord) : res (list coord) :=
  r <- mapM periodic_coordinates cs ;; Ok (concat r).

(** lines 81-95 *)
Definition make_segments_periodic (ss : list segment) : res (list segment) :=
  r <- mapM (fun s =>
         p1 <- periodic_coordinates (e1 s) ;;
         p2 <- periodic_coordinates (e2 s) ;;
         Ok (map (fun i => mkS (nth i p1 origin) (nth i p2 origin)) (seq 0 3))) ss ;;
  Ok (concat r).
