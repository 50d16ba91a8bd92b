(** Property theorems C01 and C02 (coordinate_periodicity.cpp). *)
From Coq Require Import ZArith Bool List.
From Verif Require Import Base F64 Coordinate Segment Polygon Periodicity PeriodicityFacts.
Import ListNotations.
Local Open Scope Z_scope.

(** C01.  Microdegrees: [-180,180] degrees is [-180000000, 180000000], one period is
    360000001 ([congruent_lon]).  [Ok] excludes overflow and non-termination. *)
Theorem C01_normalisation_canonical : forall c, coord_i32 c ->
  exists r, normalize_coord c = Ok r /\
    lat r = lat c /\ -180000000 <= lon r <= 180000000 /\ congruent_lon (lon c) (lon r) /\
    (forall r', lat r' = lat c -> -180000000 <= lon r' <= 180000000 ->
       congruent_lon (lon c) (lon r') -> r' = r) /\
    (-180000000 <= lon c <= 180000000 -> r = c).
Proof. exact normalize_canonical. Qed.
Print Assumptions C01_normalisation_canonical.

Example C01_example :
  coord_i32 (mkC 2147483647 5) /\ normalize_coord (mkC 2147483647 5) = Ok (mkC (-12516359) 5) /\
  normalize_coord (mkC (-2147483648) 5) = Ok (mkC 12516358 5).
Proof. split; [|split; reflexivity]. unfold coord_i32, INT32_MIN, INT32_MAX. simpl. repeat split; discriminate. Qed.

(** C02 *)
Theorem C02_periodic_copies_come_home : forall c, -180000000 <= lon c <= 180000000 ->
  exists p m, periodic_coordinates c = Ok [c; p; m] /\
    NoDup [c; p; m] /\
    (forall q, In q [c; p; m] -> normalize_coord q = Ok c /\ lat q = lat c) /\
    over_meridian c = false /\ over_meridian p = true /\ over_meridian m = true.
Proof. exact copies_come_home. Qed.
Print Assumptions C02_periodic_copies_come_home.

Theorem C02_over_meridian_iff_moved : forall c, coord_i32 c ->
  (over_meridian c = true <-> normalize_coord c <> Ok c).
Proof. exact over_meridian_moved. Qed.
Print Assumptions C02_over_meridian_iff_moved.

Example C02_example :
  periodic_coordinates (mkC 180000000 7) = Ok [mkC 180000000 7; mkC 540000001 7; mkC (-180000001) 7].
Proof. reflexivity. Qed.
