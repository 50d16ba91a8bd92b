(** Coordinates taken to the sphere and back (coordinate.cpp:25-29, 165-169), in real arithmetic with
    room for the rounding of S2 (for C89). *)
From Coq Require Import ZArith Reals Lra Lia.
From Verif Require Import Base Coordinate Segment Polygon SpecGeom ShortestPath SweepGeo Sphere AngleFacts.
Local Open Scope R_scope.

(** [p] is [q] but for an error of at most [d] in each component *)
Definition near_vec (d : R) (p q : vec) : Prop := Rabs (vx p - vx q) <= d /\ Rabs (vy p - vy q) <= d /\ Rabs (vz p - vz q) <= d.
(** coordinate.cpp:25-29: the angles of [p], which need not have length one, rounded to the nearest
    millionth of a degree, but for an error of at most [d] in each angle *)
Definition reads_as (d : R) (p : vec) (c : coord) : Prop := exists r phi theta, 0 < r /\ - (PI / 2) <= phi <= PI / 2 /\ - PI <= theta <= PI /\
  p = mkVec (r * (cos phi * cos theta)) (r * (cos phi * sin theta)) (r * sin phi) /\
  Rabs (radians (lat c) - phi) <= radians 1 / 2 + d /\ Rabs (radians (lon c) - theta) <= radians 1 / 2 + d.

Lemma abs_le x y : Rabs x <= y -> - y <= x <= y.
Proof. intros H. pose proof (Rle_abs x). pose proof (Rle_abs (- x)) as K. rewrite Rabs_Ropp in K. lra. Qed.

Lemma half_sin x : 0 <= x <= PI / 2 -> x / 2 <= sin x.
Proof.
  intros H. pose proof PI_RGT_0 as P. pose proof PI_4 as P4. destruct (Rle_dec x (PI / 3)) as [L|L].
  - destruct (Req_dec x 0) as [->|N]; [rewrite sin_0; lra|].
    destruct (MVT_cor2 sin cos 0 x) as (c & E & Hc); [lra|intros c _; apply derivable_pt_lim_sin|].
    rewrite sin_0, !Rminus_0_r in E. rewrite E. assert (1 / 2 <= cos c); [|nra].
    rewrite <- cos_PI3. apply cos_decr_1; lra.
  - assert (A : sin (PI / 3) <= sin x) by (apply sin_incr_1; lra). rewrite sin_PI3 in A.
    assert (17 / 10 <= sqrt 3).
    { replace (17 / 10) with (sqrt (17 / 10 * (17 / 10))) by (rewrite sqrt_square; lra). apply sqrt_le_1; lra. }
    pose proof pi_bounds. lra.
Qed.

Lemma angle_close x s : Rabs x <= PI -> 0 < cos x -> Rabs (sin x) <= s -> Rabs x <= 2 * s.
Proof.
  intros B C S. pose proof PI_RGT_0 as P. assert (E : Rabs (sin x) = sin (Rabs x)).
  { unfold Rabs at 2. destruct (Rcase_abs x) as [N|N].
    - rewrite sin_neg. rewrite Rabs_left1; [reflexivity|]. rewrite <- (Ropp_involutive x), sin_neg.
      assert (0 <= sin (- x)); [|lra]. apply sin_ge_0; [lra|]. rewrite Rabs_left in B by lra. exact B.
    - rewrite Rabs_pos_eq; [reflexivity|]. apply sin_ge_0; [lra|]. rewrite Rabs_pos_eq in B by lra. exact B. }
  assert (C' : cos (Rabs x) = cos x) by (unfold Rabs; destruct (Rcase_abs x); [apply cos_neg|reflexivity]).
  pose proof (Rabs_pos x) as Px. set (y := Rabs x) in *. assert (y <= PI / 2).
  { destruct (Rle_dec y (PI / 2)) as [L|L]; [exact L|]. exfalso. assert (cos y < 0) by (apply cos_lt_0; lra). lra. }
  pose proof (half_sin y). lra.
Qed.

Lemma radians_1 : radians 1 = PI / 180000000.
Proof. unfold radians. field. Qed.
Lemma radians_diff a b : radians a - radians b = IZR (a - b) * radians 1.
Proof. unfold radians. rewrite minus_IZR. field. Qed.

Lemma integers_meet a b (phi s d : R) : Rabs (radians a - phi) <= radians 1 / 2 + d -> Rabs (phi - radians b) <= s -> s + d < radians 1 / 2 -> a = b.
Proof.
  intros A B C. assert (R1 : 0 < radians 1) by (rewrite radians_1; pose proof PI_RGT_0; lra).
  assert (D : Rabs (radians a - radians b) < radians 1).
  { replace (radians a - radians b) with ((radians a - phi) + (phi - radians b)) by ring. eapply Rle_lt_trans; [apply Rabs_triang|]. lra. }
  rewrite radians_diff, Rabs_mult, (Rabs_pos_eq (radians 1)), <- abs_IZR in D by lra.
  assert (E : IZR (Z.abs (a - b)) < 1) by nra. apply lt_IZR in E. lia.
Qed.

Section Back.
Variables (d : R) (c : coord) (p : vec) (r phi theta : R).
Let phi0 := radians (lat c).
Let theta0 := radians (lon c).
Hypothesis N : near_vec d p (to_s2_point c).
Hypothesis Rp : 0 < r.
Hypothesis Hphi : - (PI / 2) <= phi <= PI / 2.
Hypothesis Htheta : - PI <= theta <= PI.
Hypothesis E : p = mkVec (r * (cos phi * cos theta)) (r * (cos phi * sin theta)) (r * sin phi).
Hypothesis Hlat : - (PI / 2) < phi0 < PI / 2.
Hypothesis Hlon : - PI + radians 1 <= theta0 <= PI - radians 1.
(** the error is small against the circle of latitude of [c] *)
Hypothesis D : 40 * d <= cos phi0 * radians 1.

Let dx := r * (cos phi * cos theta) - cos phi0 * cos theta0.
Let dy := r * (cos phi * sin theta) - cos phi0 * sin theta0.
Let dz := r * sin phi - sin phi0.

Lemma errors : Rabs dx <= d /\ Rabs dy <= d /\ Rabs dz <= d.
Proof. unfold near_vec in N. rewrite E in N. exact N. Qed.
Lemma r1_small : 0 < radians 1 < / 1000000.
Proof. rewrite radians_1. pose proof pi_bounds. split; lra. Qed.
Lemma d_small : 0 <= d /\ 40000000 * d <= cos phi0 /\ 0 < cos phi0 <= 1.
Proof.
  destruct errors as (A & _). pose proof (Rabs_pos dx). pose proof r1_small. pose proof (COS_bound phi0). pose proof (cos_gt_0 phi0 ltac:(lra) ltac:(lra)). nra.
Qed.

Lemma rho_close : Rabs (r * cos phi - cos phi0) <= 2 * d.
Proof.
  destruct errors as (A & B & _). destruct d_small as (D0 & _ & C0). pose proof (cos_ge_0 phi ltac:(lra) ltac:(lra)) as C1.
  set (rho := r * cos phi) in *. assert (0 <= rho) by (unfold rho; nra).
  (* (rho - cos phi0)^2 <= dx^2 + dy^2 *)
  assert (Q : (rho - cos phi0) * (rho - cos phi0) <= dx * dx + dy * dy).
  { assert (I : dx * dx + dy * dy = rho * rho + cos phi0 * cos phi0 - 2 * rho * cos phi0 * cos (theta - theta0)).
    { rewrite cos_minus. pose proof (sin2_cos2 theta) as S1. pose proof (sin2_cos2 theta0) as S2. unfold Rsqr in *. unfold dx, dy.
      replace (r * (cos phi * cos theta)) with (rho * cos theta) by (unfold rho; ring). replace (r * (cos phi * sin theta)) with (rho * sin theta) by (unfold rho; ring).
      replace (rho * rho) with (rho * rho * (sin theta * sin theta + cos theta * cos theta)) by (rewrite S1; ring).
      replace (cos phi0 * cos phi0 + 0) with (cos phi0 * cos phi0 * (sin theta0 * sin theta0 + cos theta0 * cos theta0)) by (rewrite S2; ring).
      transitivity (rho * rho * (sin theta * sin theta + cos theta * cos theta) + cos phi0 * cos phi0 * (sin theta0 * sin theta0 + cos theta0 * cos theta0) - 2 * rho * cos phi0 * (cos theta * cos theta0 + sin theta * sin theta0)); [ring|].
      rewrite S2. ring. }
    rewrite I. pose proof (COS_bound (theta - theta0)). assert (0 <= rho * cos phi0) by nra. nra. }
  assert (dx * dx <= d * d) by (apply abs_le in A; nra). assert (dy * dy <= d * d) by (apply abs_le in B; nra).
  apply Rabs_le. split; nra.
Qed.

Lemma lat_close : Rabs (phi - phi0) <= radians 1 / 4.
Proof.
  destruct errors as (_ & _ & Z). pose proof rho_close as Q. destruct d_small as (D0 & D1 & C0). pose proof r1_small as R1.
  set (rho := r * cos phi) in *. pose proof (sin2_cos2 phi0) as S0. unfold Rsqr in S0.
  pose proof (SIN_bound phi0) as B0.
  assert (Es : r * sin (phi - phi0) = dz * cos phi0 - (rho - cos phi0) * sin phi0).
  { rewrite sin_minus. unfold dz, rho. ring. }
  assert (Ec : r * cos (phi - phi0) = 1 + dz * sin phi0 + (rho - cos phi0) * cos phi0).
  { rewrite cos_minus. rewrite <- S0. unfold dz, rho. ring. }
  apply abs_le in Z. apply abs_le in Q. set (w := rho - cos phi0) in *. clearbody dz w. 
  assert (Dm : d <= / 40000000) by lra.
  assert (Pc : 9 / 10 <= r * cos (phi - phi0)) by (rewrite Ec; nra).
  assert (Ps : Rabs (r * sin (phi - phi0)) <= 3 * d) by (rewrite Es; apply Rabs_le; nra).
  pose proof (COS_bound (phi - phi0)) as Bc. assert (Rr : 9 / 10 <= r) by nra.
  assert (Cp : 0 < cos (phi - phi0)) by nra.
  eapply Rle_trans; [apply (angle_close (phi - phi0) (4 * d))|nra].
  - apply Rabs_le. lra.
  - exact Cp.
  - rewrite Rabs_mult, (Rabs_pos_eq r) in Ps by lra. pose proof (Rabs_pos (sin (phi - phi0))). nra.
Qed.

Lemma lon_close : Rabs (theta - theta0) <= radians 1 / 4.
Proof.
  destruct errors as (A & B & _). pose proof rho_close as Q. destruct d_small as (D0 & D1 & C0). pose proof r1_small as R1.
  set (rho := r * cos phi) in *.
  assert (Es : rho * sin (theta - theta0) = dy * cos theta0 - dx * sin theta0).
  { rewrite sin_minus. unfold dy, dx, rho. ring. }
  assert (Ec : rho * cos (theta - theta0) = cos phi0 + dx * cos theta0 + dy * sin theta0).
  { rewrite cos_minus. pose proof (sin2_cos2 theta0) as S0. unfold Rsqr in S0.
    transitivity (cos phi0 * (sin theta0 * sin theta0 + cos theta0 * cos theta0) + dx * cos theta0 + dy * sin theta0); [unfold dy, dx, rho; ring|rewrite S0; ring]. }
  apply abs_le in A. apply abs_le in B. apply abs_le in Q. pose proof (COS_bound theta0) as BC. pose proof (SIN_bound theta0) as BS.
  clearbody dx dy. pose proof (COS_bound (theta - theta0)) as Bc.
  assert (Pr : cos phi0 / 2 <= rho) by lra.
  assert (Pc : 0 < cos (theta - theta0)).
  { assert (0 < rho * cos (theta - theta0)) by (rewrite Ec; nra). nra. }
  assert (Ps : Rabs (sin (theta - theta0)) <= radians 1 / 10).
  { assert (Rabs (rho * sin (theta - theta0)) <= 2 * d) by (rewrite Es; apply Rabs_le; nra).
    rewrite Rabs_mult, (Rabs_pos_eq rho) in H by lra. pose proof (Rabs_pos (sin (theta - theta0))).
    apply Rmult_le_reg_l with (cos phi0 / 2); [lra|]. apply Rle_trans with (rho * Rabs (sin (theta - theta0))); [nra|]. lra. }
  assert (K : forall t, Rabs t <= PI -> cos t = cos (theta - theta0) -> sin t = sin (theta - theta0) -> Rabs t <= radians 1 / 4).
  { intros t T1 T2 T3. eapply Rle_trans; [apply (angle_close t (radians 1 / 10)); [exact T1|rewrite T2; exact Pc|rewrite T3; exact Ps]|]. lra. }
  pose proof pi_bounds as PB.
  destruct (Rle_dec (Rabs (theta - theta0)) PI) as [L|L]; [apply K; auto|]. exfalso.
  destruct (Rle_dec 0 (theta - theta0)) as [S|S].
  - rewrite Rabs_pos_eq in L by lra. specialize (K (theta - theta0 - 2 * PI)).
    assert (Rabs (theta - theta0 - 2 * PI) <= radians 1 / 4).
    { apply K; [apply Rabs_le; lra| |].
      - rewrite <- (cos_period (theta - theta0 - 2 * PI) 1). f_equal. simpl. ring.
      - rewrite <- (sin_period (theta - theta0 - 2 * PI) 1). f_equal. simpl. ring. }
    apply abs_le in H. lra.
  - rewrite Rabs_left in L by lra. specialize (K (theta - theta0 + 2 * PI)).
    assert (Rabs (theta - theta0 + 2 * PI) <= radians 1 / 4).
    { apply K; [apply Rabs_le; lra| |].
      - rewrite <- (cos_period (theta - theta0) 1). f_equal. simpl. ring.
      - rewrite <- (sin_period (theta - theta0) 1). f_equal. simpl. ring. }
    apply abs_le in H. lra.
Qed.
End Back.

(** ** C89 *)
Lemma sphere_back_at d e c c' p : near_vec d p (to_s2_point c) -> reads_as e p c' ->
  (-90000000 < lat c < 90000000)%Z -> (-180000000 < lon c < 180000000)%Z ->
  40 * d <= cos (radians (lat c)) * radians 1 -> e < radians 1 / 4 -> c' = c.
Proof.
  intros N (r & phi & theta & Rp & Hphi & Htheta & E & La & Lo) Ba Bo D He. pose proof PI_RGT_0 as P.
  assert (Hla : - (PI / 2) < radians (lat c) < PI / 2).
  { destruct Ba as [B1 B2]. apply IZR_lt in B1. apply IZR_lt in B2. unfold radians. split; nra. }
  assert (Hlo : - PI + radians 1 <= radians (lon c) <= PI - radians 1).
  { assert (B1 : (-179999999 <= lon c)%Z) by lia. assert (B2 : (lon c <= 179999999)%Z) by lia. apply IZR_le in B1. apply IZR_le in B2. unfold radians. split; nra. }
  pose proof (lat_close d c p r phi theta N Rp Hphi E Hla D) as Q1. pose proof (lon_close d c p r phi theta N Rp Hphi Htheta E Hla Hlo D) as Q2.
  destruct c' as [x' y'], c as [x y]. cbn [lat lon] in *. f_equal.
  - eapply (integers_meet x' x theta (radians 1 / 4) e); eauto. lra.
  - eapply (integers_meet y' y phi (radians 1 / 4) e); eauto. lra.
Qed.

Lemma sphere_back c c' p : (-89999000 <= lat c <= 89999000)%Z -> (-180000000 < lon c < 180000000)%Z ->
  near_vec (/ 2 ^ 50) p (to_s2_point c) -> reads_as (/ 2 ^ 50) p c' -> c' = c.
Proof.
  intros La Lo N R. pose proof pi_bounds as P. assert (R1 : radians 1 = PI / 180000000) by apply radians_1.
  assert (T : / 2 ^ 50 <= / 1000000000000000) by (apply Rinv_le_contravar; lra).
  apply (sphere_back_at (/ 2 ^ 50) (/ 2 ^ 50) c c' p N R); [lia|exact Lo| |lra].
  assert (C : 1000 * radians 1 / 2 <= cos (radians (lat c))).
  { assert (H : 1000 * radians 1 <= PI / 2 - Rabs (radians (lat c))).
    { destruct La as [A B]. apply IZR_le in A. apply IZR_le in B. assert (Rabs (radians (lat c)) <= PI / 2 - 1000 * radians 1); [|lra].
      unfold radians. apply Rabs_le. split; nra. }
    assert (K : cos (radians (lat c)) = sin (PI / 2 - Rabs (radians (lat c)))).
    { rewrite <- cos_shift. replace (PI / 2 - (PI / 2 - Rabs (radians (lat c)))) with (Rabs (radians (lat c))) by ring.
      unfold Rabs. destruct (Rcase_abs _); [symmetry; apply cos_neg|reflexivity]. }
    rewrite K. pose proof (Rabs_pos (radians (lat c))). pose proof (half_sin (PI / 2 - Rabs (radians (lat c))) ltac:(lra)). lra. }
  nra.
Qed.

(** a point is read as its own coordinate *)
Lemma reads_own d c : 0 <= d -> (-90000000 <= lat c <= 90000000)%Z -> (-180000000 <= lon c <= 180000000)%Z -> reads_as d (to_s2_point c) c.
Proof.
  intros Hd La Lo. pose proof PI_RGT_0 as P. assert (R1 : 0 < radians 1) by (rewrite radians_1; lra).
  exists 1, (radians (lat c)), (radians (lon c)). split; [lra|]. split; [|split; [|split; [|split]]].
  - destruct La as [A B]. apply IZR_le in A. apply IZR_le in B. unfold radians. split; nra.
  - destruct Lo as [A B]. apply IZR_le in A. apply IZR_le in B. unfold radians. split; nra.
  - unfold to_s2_point. f_equal; ring.
  - rewrite Rminus_diag_eq, Rabs_R0 by reflexivity. lra.
  - rewrite Rminus_diag_eq, Rabs_R0 by reflexivity. lra.
Qed.

Lemma sphere_distinct c c' : (-89999000 <= lat c <= 89999000)%Z -> (-180000000 < lon c < 180000000)%Z ->
  (-90000000 <= lat c' <= 90000000)%Z -> (-180000000 <= lon c' <= 180000000)%Z ->
  near_vec (/ 2 ^ 50) (to_s2_point c') (to_s2_point c) -> c' = c.
Proof. intros A B A' B' N. apply (sphere_back c c' (to_s2_point c') A B N). apply reads_own; auto. apply Rlt_le, Rinv_0_lt_compat. lra. Qed.
