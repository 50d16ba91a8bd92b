(** Property theorems C03-C07 (coordinate.cpp; hash functions of the three value types). *)
From Coq Require Import ZArith Bool List Reals.
From Flocq Require Import Core BinarySingleNaN.
From Verif Require Import Base F64 F64Facts Coordinate Segment Polygon CoordinateFacts SpecGeom SegmentFacts.
Import ListNotations.
Local Open Scope Z_scope.

(** C03.  Full statement: the degrees are strictly increasing in the stored value, and
    [coord_of_degrees (get_longitude c) (get_latitude c) = Ok c] for every 32-bit [c].
    The second half is false of the code ([C03_degrees_round_trip_refuted]): the constructor
    truncates.  What remains true is that each component moves by at most one microdegree,
    towards zero. *)
Theorem C03_degrees_strictly_increasing : forall a b, coord_i32 a -> coord_i32 b ->
  (fltb (get_longitude a) (get_longitude b) = true <-> lon a < lon b) /\
  (fltb (get_latitude a) (get_latitude b) = true <-> lat a < lat b) /\
  (feqb (get_longitude a) (get_longitude b) = true /\ feqb (get_latitude a) (get_latitude b) = true <-> a = b).
Proof. exact degrees_strict. Qed.
Print Assumptions C03_degrees_strictly_increasing.

Theorem C03_degrees_round_trip_partial : forall c, coord_i32 c ->
  exists r, coord_of_degrees (get_longitude c) (get_latitude c) = Ok r /\
    (Z.abs (lon r - lon c) <= 1 /\ Z.abs (lon r) <= Z.abs (lon c) /\
     Z.abs (lat r - lat c) <= 1 /\ Z.abs (lat r) <= Z.abs (lat c)).
Proof. exact coord_back. Qed.
Print Assumptions C03_degrees_round_trip_partial.

Theorem C03_degrees_round_trip_refuted :
  exists c, coord_i32 c /\ Z.abs (lon c) <= 180000000 /\ Z.abs (lat c) <= 90000000 /\
    coord_of_degrees (get_longitude c) (get_latitude c) = Ok (mkC 14 (-18)) /\ c = mkC 15 (-19).
Proof.
  exists (mkC 15 (-19)). split; [vm_compute; repeat split; discriminate|].
  split; [vm_compute; discriminate|]. split; [vm_compute; discriminate|].
  split; vm_compute; reflexivity.
Qed.
Print Assumptions C03_degrees_round_trip_refuted.

Example C03_example : coord_i32 (mkC 179999999 (-89999999)) /\
  coord_of_degrees (get_longitude (mkC 179999999 (-89999999))) (get_latitude (mkC 179999999 (-89999999)))
  = Ok (mkC 179999999 (-89999999)).
Proof. split; [unfold coord_i32, INT32_MIN, INT32_MAX; simpl; repeat split; discriminate|vm_compute; reflexivity]. Qed.

(** C04.  [fits z] is "z is a 32-bit value".  Subtraction adds the negated operand, which
    has to fit as well. *)
Theorem C04_add_exact : forall a b,
  (fits (lon a + lon b) /\ fits (lat a + lat b) -> coord_add a b = Ok (mkC (lon a + lon b) (lat a + lat b))) /\
  (~ (fits (lon a + lon b) /\ fits (lat a + lat b)) -> coord_add a b = UB SignedOverflow).
Proof. exact add_exact. Qed.
Print Assumptions C04_add_exact.

Theorem C04_sub_exact : forall a b,
  (fits (- lon b) /\ fits (- lat b) /\ fits (lon a - lon b) /\ fits (lat a - lat b) ->
     coord_sub a b = Ok (mkC (lon a - lon b) (lat a - lat b))) /\
  (~ (fits (- lon b) /\ fits (- lat b) /\ fits (lon a - lon b) /\ fits (lat a - lat b)) ->
     coord_sub a b = UB SignedOverflow).
Proof. exact sub_exact. Qed.
Print Assumptions C04_sub_exact.

Theorem C04_group_laws : forall a b c, coord_i32 a -> coord_i32 b -> coord_i32 c ->
  coord_add a b = coord_add b a /\
  (forall x y r r', coord_add a b = Ok x -> coord_add x c = Ok r ->
                    coord_add b c = Ok y -> coord_add a y = Ok r' -> r = r') /\
  coord_add a (mkC 0 0) = Ok a /\ coord_sub a (mkC 0 0) = Ok a /\
  (forall n, coord_neg a = Ok n -> coord_add a n = Ok (mkC 0 0) /\ coord_sub a a = Ok (mkC 0 0) /\ coord_neg n = Ok a) /\
  (forall d, coord_sub a b = Ok d -> coord_add d b = Ok a).
Proof. exact group_laws. Qed.
Print Assumptions C04_group_laws.

(** Scaling: either undefined or within 1/2 + 2^-20 of the exact product, and exact when the
    exact product is a pair of 32-bit integers; defined whenever the product is small enough. *)
Theorem C04_scale_accurate : forall c s, coord_i32 c ->
  (coord_mul c s = UB BadCast \/
   exists r, coord_mul c s = Ok r /\ is_finite s = true /\ coord_i32 r /\
    (Rabs (IZR (lon r) - IZR (lon c) * V s) <= / 2 + / 1048576)%R /\
    (Rabs (IZR (lat r) - IZR (lat c) * V s) <= / 2 + / 1048576)%R).
Proof. exact scale_accurate. Qed.
Print Assumptions C04_scale_accurate.

Theorem C04_scale_defined : forall c s, coord_i32 c -> is_finite s = true ->
  (Rabs (IZR (lon c) * V s) <= 2147483647)%R -> (Rabs (IZR (lat c) * V s) <= 2147483647)%R ->
  exists r, coord_mul c s = Ok r.
Proof. exact coord_mul_total. Qed.
Print Assumptions C04_scale_defined.

Theorem C04_scale_exact : forall c s x y, coord_i32 c -> is_finite s = true -> fits x -> fits y ->
  (IZR (lon c) * V s = IZR x)%R -> (IZR (lat c) * V s = IZR y)%R -> coord_mul c s = Ok (mkC x y).
Proof. exact coord_mul_exact. Qed.
Print Assumptions C04_scale_exact.

Theorem C04_scale_by_units : forall c, coord_i32 c ->
  coord_mul c f_1 = Ok c /\ coord_mul c f_0 = Ok (mkC 0 0) /\
  (forall n, coord_neg c = Ok n -> coord_mul c (f_of_Z (-1)) = Ok n) /\
  coord_div c f_0 = UB BadCast.
Proof. exact scale_units. Qed.
Print Assumptions C04_scale_by_units.

Example C04_example :
  coord_add (mkC 2147483647 0) (mkC 1 0) = UB SignedOverflow /\
  coord_sub (mkC (-1) 0) (mkC (-2147483648) 0) = UB SignedOverflow /\
  coord_sub (mkC 179999999 (-5)) (mkC (-360000001) 7) = Ok (mkC 540000000 (-12)) /\
  coord_mul (mkC 3 (-7)) (fdiv f_1 (f_of_Z 2)) = Ok (mkC 2 (-4)) /\
  coord_mul (mkC 2147483647 0) (f_of_Z 2) = UB BadCast /\
  coord_div (mkC 12 (-9)) (f_of_Z 3) = Ok (mkC 4 (-3)).
Proof. repeat split; vm_compute; reflexivity. Qed.

(** C05, for all 32-bit components.  [det = 0] is parallelism, [dot < 0] opposite direction. *)
Theorem C05_factor_reconstructs : forall a b, coord_i32 a -> coord_i32 b ->
  exists f, scalar_multiple_factor a b = Ok f /\
    (f <> None <-> lon a * lat b - lon b * lat a = 0) /\
    (forall v, f = Some v -> a <> mkC 0 0 ->
       coord_mul a v = Ok b /\ (fltb v f_0 = true <-> lon a * lon b + lat a * lat b < 0)) /\
    (forall v, f = Some v -> ~ a <> mkC 0 0 -> v = f_0).
Proof. exact scalar_multiple_factor_spec. Qed.
Print Assumptions C05_factor_reconstructs.

Example C05_example :
  match scalar_multiple_factor (mkC 300000007 (-900000021)) (mkC (-2) 6) with
  | Ok (Some v) => coord_mul (mkC 300000007 (-900000021)) v | _ => UB OutOfBounds end = Ok (mkC (-2) 6) /\
  scalar_multiple_factor (mkC 300000007 (-900000021)) (mkC (-2) 7) = Ok None.
Proof. split; vm_compute; reflexivity. Qed.

(** C06 *)
Theorem C06_vector_orientation : forall a b, coord_i32 a -> coord_i32 b ->
  exists o, vector_orientation a b = Ok o /\
    (o = CLOCKWISE <-> lon a * lat b - lat a * lon b < 0) /\
    (o = COUNTER_CLOCKWISE <-> 0 < lon a * lat b - lat a * lon b) /\
    (o = COLLINEAR <-> lon a * lat b - lat a * lon b = 0).
Proof. exact vector_orientation_facts. Qed.
Print Assumptions C06_vector_orientation.

Theorem C06_vector_orientation_swap : forall a b o, coord_i32 a -> coord_i32 b ->
  vector_orientation a b = Ok o ->
  vector_orientation b a = Ok match o with CLOCKWISE => COUNTER_CLOCKWISE
                                         | COUNTER_CLOCKWISE => CLOCKWISE | COLLINEAR => COLLINEAR end.
Proof. exact vector_orientation_swap. Qed.
Print Assumptions C06_vector_orientation_swap.

(** [turn a b p] is twice the signed area of the triangle. *)
Theorem C06_point_orientation : forall s p, pgeo_seg s -> pgeo p ->
  exists o, orientation_of_point_to_segment s p = Ok o /\
    (o = CLOCKWISE <-> turn (e1 s) (e2 s) p < 0) /\
    (o = COUNTER_CLOCKWISE <-> 0 < turn (e1 s) (e2 s) p) /\
    (o = COLLINEAR <-> turn (e1 s) (e2 s) p = 0).
Proof. exact point_orientation_facts. Qed.
Print Assumptions C06_point_orientation.

Theorem C06_translation_invariant : forall d s p, pgeo_seg s -> pgeo p ->
  pgeo_seg (mkS (shift d (e1 s)) (shift d (e2 s))) -> pgeo (shift d p) ->
  orientation_of_point_to_segment (mkS (shift d (e1 s)) (shift d (e2 s))) (shift d p) =
  orientation_of_point_to_segment s p.
Proof. exact point_orientation_shift. Qed.
Print Assumptions C06_translation_invariant.

Example C06_example :
  orientation_of_point_to_segment (mkS (mkC (-540000001) (-90000000)) (mkC 540000001 90000000)) (mkC 0 1) = Ok COUNTER_CLOCKWISE /\
  orientation_of_point_to_segment (mkS (mkC (-540000001) (-90000000)) (mkC 540000001 90000000)) (mkC 0 0) = Ok COLLINEAR /\
  vector_orientation (mkC 2147483647 (-2147483648)) (mkC (-2147483648) 2147483647) = Ok CLOCKWISE.
Proof. repeat split; vm_compute; reflexivity. Qed.

(** C07.  Full statement includes line segments; there it is false, because [==] ignores the
    direction and the hash does not. *)
Theorem C07_equal_hash_partial :
  (forall a b, coord_eqb a b = true -> hash_coord a = hash_coord b) /\
  (forall p q, polygon_eqb p q = true -> hash_polygon p = hash_polygon q).
Proof. exact equal_hash. Qed.
Print Assumptions C07_equal_hash_partial.

Theorem C07_segment_hash_refuted :
  exists s t, segment_eqb s t = true /\ hash_segment s <> hash_segment t.
Proof. exists (mkS (mkC 0 0) (mkC 1 0)), (mkS (mkC 1 0) (mkC 0 0)). split; vm_compute; [reflexivity|discriminate]. Qed.
Print Assumptions C07_segment_hash_refuted.

Example C07_example : coord_eqb (mkC 5 (-6)) (mkC 5 (-6)) = true /\
  polygon_eqb (mkP [mkC 5 (-6); mkC 7 7]) (mkP [mkC 5 (-6); mkC 7 7]) = true /\
  hash_coord (mkC 5 (-6)) <> hash_coord (mkC (-6) 5).
Proof. repeat split; vm_compute; try reflexivity. discriminate. Qed.
