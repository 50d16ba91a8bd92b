(** C89: coordinates taken to the sphere and back (coordinate.cpp:25-29, 165-169). *)
From Coq Require Import ZArith Reals Lra Lia.
From Verif Require Import Base Coordinate Segment Sphere SphereFacts AngleFacts SphereBack.
Local Open Scope R_scope.

(** C89.  A coordinate is taken to a point of the sphere that may be off by 2^-50 in each component.  Whatever coordinate
    this point is read as, with angles that may be off by 2^-50 before they are rounded, is the coordinate itself. *)
Theorem C89_there_and_back : forall c c' p, (-89999000 <= lat c <= 89999000)%Z -> (-180000000 < lon c < 180000000)%Z ->
  near_vec (/ 2 ^ 50) p (to_s2_point c) -> reads_as (/ 2 ^ 50) p c' -> c' = c.
Proof. exact sphere_back. Qed.
Print Assumptions C89_there_and_back.

(** the tolerance at any latitude, in terms of the radius of its circle *)
Theorem C89_tolerance : forall d e c c' p, near_vec d p (to_s2_point c) -> reads_as e p c' ->
  (-90000000 < lat c < 90000000)%Z -> (-180000000 < lon c < 180000000)%Z ->
  40 * d <= cos (radians (lat c)) * radians 1 -> e < radians 1 / 4 -> c' = c.
Proof. exact sphere_back_at. Qed.
Print Assumptions C89_tolerance.

(** so different coordinates are taken to points that are apart *)
Theorem C89_distinct : forall c c', (-89999000 <= lat c <= 89999000)%Z -> (-180000000 < lon c < 180000000)%Z ->
  (-90000000 <= lat c' <= 90000000)%Z -> (-180000000 <= lon c' <= 180000000)%Z ->
  near_vec (/ 2 ^ 50) (to_s2_point c') (to_s2_point c) -> c' = c.
Proof. exact sphere_distinct. Qed.
Print Assumptions C89_distinct.

(** a point a little too long, near the pole and the meridian *)
Definition far_corner := mkC 179999999 (-89999000).
Definition too_long : vec := let q := to_s2_point far_corner in mkVec ((1 + / 2 ^ 51) * vx q) ((1 + / 2 ^ 51) * vy q) ((1 + / 2 ^ 51) * vz q).
Example C89_ex : near_vec (/ 2 ^ 50) too_long (to_s2_point far_corner) /\ reads_as (/ 2 ^ 50) too_long far_corner /\ too_long <> to_s2_point far_corner.
Proof.
  assert (T : 0 < / 2 ^ 51) by (apply Rinv_0_lt_compat; lra). assert (T2 : / 2 ^ 50 = 2 * / 2 ^ 51) by lra.
  assert (B : forall x y, Rabs x <= 1 -> Rabs y <= 1 -> Rabs ((1 + / 2 ^ 51) * (x * y) - x * y) <= / 2 ^ 50).
  { intros x y X Y. replace ((1 + / 2 ^ 51) * (x * y) - x * y) with (/ 2 ^ 51 * (x * y)) by ring. rewrite !Rabs_mult, Rabs_pos_eq by lra.
    pose proof (Rabs_pos x). pose proof (Rabs_pos y). assert (Rabs x * Rabs y <= 1) by nra. nra. }
  assert (U : forall x, Rabs (cos x) <= 1 /\ Rabs (sin x) <= 1) by (intros x; split; apply Rabs_le; [apply COS_bound|apply SIN_bound]).
  split; [|split].
  - split; [|split]; cbn [vx vy vz too_long to_s2_point]; [apply B; apply U|apply B; apply U|].
    rewrite <- (Rmult_1_r (sin (radians (lat far_corner)))). apply B; [apply U|]. rewrite Rabs_pos_eq; lra.
  - destruct (reads_own (/ 2 ^ 50) far_corner) as (r & phi & theta & Rp & A1 & A2 & E & A3 & A4); [lra|cbn; lia|cbn; lia|].
    exists ((1 + / 2 ^ 51) * r), phi, theta. split; [nra|]. split; [exact A1|]. split; [exact A2|]. split; [|split; assumption].
    unfold too_long. rewrite E. cbn [vx vy vz]. f_equal; ring.
  - intros E. apply (f_equal vz) in E. unfold too_long in E. cbv zeta in E. cbn [vz] in E.
    assert (Z : vz (to_s2_point far_corner) = 0) by nra. cbn in Z.
    assert (H : sin (radians 89999000) = 0) by (rewrite deg_neg in Z; rewrite sin_neg in Z; lra).
    pose proof pi_bounds. assert (0 < sin (radians 89999000)); [|lra]. apply sin_gt_0; unfold radians; lra.
Qed.
(** at the pole and on the meridian the sphere has one point for several coordinates *)
Example C89_ex_limits : to_s2_point (mkC 0 90000000) = to_s2_point (mkC 45000000 90000000) /\
  to_s2_point (mkC 180000000 7) = to_s2_point (mkC (-180000000) 7).
Proof.
  assert (H : radians 90000000 = PI / 2) by (unfold radians; field). assert (M : radians 180000000 = PI) by (unfold radians; field).
  assert (M' : radians (-180000000) = - PI) by (unfold radians; field).
  unfold to_s2_point. cbn [lat lon]. rewrite H, M, M', cos_PI2, cos_neg, sin_neg, sin_PI, !Rmult_0_l. split; [reflexivity|]. f_equal. ring.
Qed.
