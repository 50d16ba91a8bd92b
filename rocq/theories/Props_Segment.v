(** Property theorems C08-C12 (line_segment.cpp). *)
From Coq Require Import ZArith Bool List Reals.
From Verif Require Import Base F64 Coordinate Segment CoordinateFacts SpecGeom SegmentFacts.
Import ListNotations.
Local Open Scope Z_scope.

Definition sx1 : segment := mkS (mkC (-540000001) 3) (mkC 540000001 4).
Definition sx2 : segment := mkS (mkC 7 (-90000000)) (mkC 7 90000000).

(** C08 *)
Theorem C08_detection_exact : forall s o, pgeo_seg s -> pgeo_seg o -> nonparallel s o ->
  exists r, intersection_with_segment s o = Ok r /\ (r <> None <-> segments_meet s o).
Proof. exact intersection_detection. Qed.
Print Assumptions C08_detection_exact.

(** [found] forgets the point: [Some true], [Some false] or (exception, UB) [None]. *)
Theorem C08_order_independent : forall s o, pgeo_seg s -> pgeo_seg o -> nonparallel s o ->
  let f := found (intersection_with_segment s o) in
  found (intersection_with_segment o s) = f /\
  found (intersection_with_segment (flip s) o) = f /\
  found (intersection_with_segment s (flip o)) = f.
Proof. exact intersection_order_free. Qed.
Print Assumptions C08_order_independent.

Example C08_example : pgeo_seg sx1 /\ pgeo_seg sx2 /\ nonparallel sx1 sx2 /\
  found (intersection_with_segment sx1 sx2) = Some true /\
  found (intersection_with_segment sx2 sx1) = Some true /\
  found (intersection_with_segment sx1 (mkS (mkC 7 5) (mkC 7 90000000))) = Some false.
Proof. unfold pgeo_seg, pgeo, nonparallel. vm_compute. repeat split; discriminate. Qed.

(** C09.  (x, y) is the exact intersection point of the two lines, unique; the returned point
    is within 1/2 + 2^-20 of it in each coordinate, exact in every coordinate that is an
    integer, and stays inside the bounding box of the first segment. *)
Theorem C09_intersection_accurate : forall s o r, pgeo_seg s -> pgeo_seg o -> nonparallel s o ->
  intersection_with_segment s o = Ok (Some r) ->
  exists x y, on_real s x y /\ on_real o x y /\
    (forall x' y', on_real s x' y' -> on_real o x' y' -> x' = x /\ y' = y) /\
    (Rabs (IZR (lon r) - x) <= / 2 + / 1048576)%R /\ (Rabs (IZR (lat r) - y) <= / 2 + / 1048576)%R /\
    (forall j, x = IZR j -> lon r = j) /\ (forall j, y = IZR j -> lat r = j) /\ in_box s r.
Proof. exact intersection_accuracy. Qed.
Print Assumptions C09_intersection_accurate.

Example C09_example :
  intersection_with_segment sx1 sx2 = Ok (Some (mkC 7 4)) /\
  intersection_with_segment (flip sx1) sx2 = Ok (Some (mkC 7 4)) /\
  intersection_with_segment (mkS (mkC (-3) (-3)) (mkC 100 100)) (mkS (mkC 0 50) (mkC 100 50)) = Ok (Some (mkC 50 50)).
Proof. repeat split; vm_compute; reflexivity. Qed.

(** C10.  Full statement: for parallel segments there is a value exactly when the closed
    segments share a point, and it is a shared point.  False for collinear overlaps; what
    holds is the statement with "share an endpoint". *)
Theorem C10_parallel_endpoints_partial : forall s o, pgeo_seg s -> pgeo_seg o -> ~ nonparallel s o ->
  exists r, intersection_with_segment s o = Ok r /\
    (forall x, r = Some x -> on_closed_segment s x /\ on_closed_segment o x /\ common_endpoint s o x) /\
    (r = None <-> forall x, ~ common_endpoint s o x) /\
    (r <> None -> segments_meet s o).
Proof. exact intersection_parallel_full. Qed.
Print Assumptions C10_parallel_endpoints_partial.

Theorem C10_collinear_overlap_refuted :
  exists s o, pgeo_seg s /\ pgeo_seg o /\ ~ nonparallel s o /\ segments_meet s o /\
    intersection_with_segment s o = Ok None.
Proof.
  exists (mkS (mkC 0 0) (mkC 10 0)), (mkS (mkC 5 0) (mkC 20 0)).
  split; [vm_compute; repeat split; discriminate|]. split; [vm_compute; repeat split; discriminate|].
  split; [vm_compute; tauto|]. split; [|vm_compute; reflexivity].
  exists 30, 15, 0. vm_compute. repeat split; discriminate.
Qed.
Print Assumptions C10_collinear_overlap_refuted.

Example C10_example :
  intersection_with_segment (mkS (mkC 0 0) (mkC 10 5)) (mkS (mkC 20 10) (mkC 10 5)) = Ok (Some (mkC 10 5)) /\
  ~ nonparallel (mkS (mkC 0 0) (mkC 10 5)) (mkS (mkC 20 10) (mkC 10 5)).
Proof. split; [vm_compute; reflexivity|vm_compute; tauto]. Qed.

(** C11 *)
Theorem C11_on_segment_membership : forall s p, pgeo_seg s -> pgeo p ->
  exists b, on_segment s p = Ok b /\ (b = true <-> on_closed_segment s p).
Proof. exact on_segment_membership. Qed.
Print Assumptions C11_on_segment_membership.

Example C11_example :
  on_segment (mkS (mkC (-540000000) (-90000000)) (mkC 540000000 90000000)) (mkC 6 1) = Ok true /\
  on_segment (mkS (mkC 0 0) (mkC 5 5)) (mkC 6 6) = Ok false /\
  on_segment (mkS (mkC 5 5) (mkC 5 5)) (mkC 5 5) = Ok true.
Proof. repeat split; vm_compute; reflexivity. Qed.

(** C12 *)
Theorem C12_equality_ignores_direction :
  (forall a b, segment_eqb a b = true <-> (b = a \/ b = flip a)) /\
  (forall a, segment_eqb a a = true) /\
  (forall a b, segment_eqb a b = segment_eqb b a) /\
  (forall a b c, segment_eqb a b = true -> segment_eqb b c = true -> segment_eqb a c = true).
Proof. exact segment_equality. Qed.
Print Assumptions C12_equality_ignores_direction.

Theorem C12_adjacent_involution : forall s p,
  (forall q, get_adjacent_to s p = Ok q ->
     (p = e1 s /\ q = e2 s \/ p = e2 s /\ q = e1 s) /\ get_adjacent_to s q = Ok p) /\
  (get_adjacent_to s p = Throw NotAnEndpoint <-> p <> e1 s /\ p <> e2 s) /\
  (forall u, get_adjacent_to s p <> UB u).
Proof. exact adjacent_involution. Qed.
Print Assumptions C12_adjacent_involution.

Example C12_example :
  get_adjacent_to sx1 (mkC 540000001 4) = Ok (mkC (-540000001) 3) /\
  get_adjacent_to sx1 (mkC 0 0) = Throw NotAnEndpoint /\
  segment_eqb sx1 (flip sx1) = true /\ segment_eqb sx1 sx2 = false.
Proof. repeat split; vm_compute; reflexivity. Qed.
