(** What the queries of spatial_segment_index.cpp mean: S2 works on the unit sphere, where an edge
    is the shorter arc of a great circle.  In real arithmetic; the S2 library is not modelled. *)
From Coq Require Import ZArith Reals List.
From Verif Require Import Base Coordinate Segment Polygon SpecGeom ShortestPath SweepGeo.
Import ListNotations.
Local Open Scope R_scope.

Record vec := mkVec { vx : R; vy : R; vz : R }.
(** coordinate.cpp:167-169, [to_s2_lat_lng]: [S2LatLng::FromE6] takes millionths of a degree *)
Definition radians (microdegrees : Z) : R := IZR microdegrees / 180000000 * PI.
(** coordinate.cpp:165, [to_s2_point]; the rounding of S2 is left out *)
Definition to_s2_point (c : coord) : vec :=
  mkVec (cos (radians (lat c)) * cos (radians (lon c))) (cos (radians (lat c)) * sin (radians (lon c))) (sin (radians (lat c))).
(** positive if [p] is to the left of the great circle from [a] to [b] *)
Definition vec_det (a b p : vec) : R :=
  (vy a * vz b - vz a * vy b) * vx p + (vz a * vx b - vx a * vz b) * vy p + (vx a * vy b - vy a * vx b) * vz p.
(** [p] and [q] weighted; with weights that are not negative this is, but for its length, a point of the arc *)
Definition blend (s t : R) (p q : vec) : vec := mkVec (s * vx p + t * vx q) (s * vy p + t * vy q) (s * vz p + t * vz q).
Definition arcs_meet (a b c d : vec) : Prop := exists s t u v, 0 <= s /\ 0 <= t /\ 0 < s + t /\ 0 <= u /\ 0 <= v /\ 0 < u + v /\ blend s t a b = blend u v c d.
Definition arcs_cross (a b c d : vec) : Prop := exists s t u v, 0 < s /\ 0 < t /\ 0 < u /\ 0 < v /\ blend s t a b = blend u v c d.
(** the arcs of two segments *)
Definition segments_meet (s e : segment) : Prop := arcs_meet (to_s2_point (e1 s)) (to_s2_point (e2 s)) (to_s2_point (e1 e)) (to_s2_point (e2 e)).
Definition segments_cross (s e : segment) : Prop := arcs_cross (to_s2_point (e1 s)) (to_s2_point (e2 s)) (to_s2_point (e1 e)) (to_s2_point (e2 e)).
(** polygon.cpp:103-118: the loop of the vertices, with the inside on the left of the edges.  For a
    polygon that is convex on the sphere: left of all edges, or right of one *)
Definition inside_loop (P : polygon) (c : coord) : Prop :=
  forall e, edge_of P e -> 0 < vec_det (to_s2_point (e1 e)) (to_s2_point (e2 e)) (to_s2_point c).
Definition outside_loop (P : polygon) (c : coord) : Prop :=
  exists e, edge_of P e /\ vec_det (to_s2_point (e1 e)) (to_s2_point (e2 e)) (to_s2_point c) < 0.

(** spatial_segment_index.cpp:67-81, [intersect_with_segments]: right about the arc of [s] *)
Definition right_about_arc (ps : list polygon) (ix : index) (s : segment) : Prop :=
  ((forall P e, In P ps -> edge_of P e -> ~ segments_meet s e) -> ix_crossing ix s = []) /\
  ((exists P e, In P ps /\ edge_of P e /\ segments_cross s e) -> ix_crossing ix s <> []).
(** spatial_segment_index.cpp:87-91, [is_point_contained]: right about the point [c] *)
Definition right_about_point (ps : list polygon) (ix : index) (c : coord) : Prop :=
  ((exists P, In P ps /\ inside_loop P c) -> ix_contains ix c = true) /\
  ((forall P, In P ps -> outside_loop P c) -> ix_contains ix c = false).

(** ** The shore on the sphere *)
Definition vec_dot (p q : vec) : R := vx p * vx q + vy p * vy q + vz p * vz q.
(** a point of the sphere on the arc of [e] *)
Definition on_arc (e : segment) (p : vec) : Prop := vec_dot p p = 1 /\
  exists s t, 0 <= s /\ 0 <= t /\ p = blend s t (to_s2_point (e1 e)) (to_s2_point (e2 e)).
(** coordinate.cpp:25-29, the constructor from a point of the sphere: [S1Angle::e6] rounds the angles to
    the nearest millionth of a degree *)
Definition rounds_to (p : vec) (c : coord) : Prop := exists phi theta, - (PI / 2) <= phi <= PI / 2 /\ - PI < theta <= PI /\
  p = mkVec (cos phi * cos theta) (cos phi * sin theta) (sin phi) /\
  Rabs (radians (lat c) - phi) <= radians 1 / 2 /\ Rabs (radians (lon c) - theta) <= radians 1 / 2.
(** spatial_segment_index.cpp:42-56, [closest_segment_to_point], and line_segment.cpp:108-116: right about
    the edge nearest to [c] and its point nearest to [c] (the larger the product, the nearer) *)
Definition right_about_shore (ps : list polygon) (ix : index) (c : coord) : Prop := exists e P p,
  ix_closest ix c = Ok e /\ In P ps /\ edge_of P e /\ on_arc e p /\
  (forall Q e' p', In Q ps -> edge_of Q e' -> on_arc e' p' -> vec_dot (to_s2_point c) p' <= vec_dot (to_s2_point c) p) /\
  rounds_to p (ix_project ix e c).
(** spatial_segment_index.cpp:67-81, [intersect_with_segments] gives only edges that meet the arc of [s] *)
Definition only_met_edges (ps : list polygon) (ix : index) (s : segment) : Prop :=
  forall e, In e (ix_crossing ix s) -> exists P, In P ps /\ edge_of P e /\ segments_meet s e.
