(** Direction angles and the comparison of the angle sorter. *)
From Coq Require Import ZArith Reals Bool List Lia Lra Machin Permutation.
From Flocq Require Import Core.
From Flocq Require Import BinarySingleNaN.
From Verif Require Import Base F64 Coordinate Segment SpecGeom F64Facts CoordinateFacts PolygonFloat PolylineFacts GraphFacts Sweep.
Import ListNotations.
Local Open Scope R_scope.

(** ** Vocabulary *)
Definition len (v : coord) : R := sqrt (IZR (dot v v)).
(** the direction of [v] in [0, 2 pi), anticlockwise from east *)
Definition angle (v : coord) : R :=
  if (0 <=? lat v)%Z then acos (IZR (lon v) / len v) else 2 * PI - acos (IZR (lon v) / len v).
Definition from (o c : coord) : coord := mkC (lon c - lon o) (lat c - lat o).
(** earlier direction, or the same direction and nearer *)
Definition before (o a b : coord) : Prop :=
  angle (from o a) < angle (from o b) \/ angle (from o a) = angle (from o b) /\ len (from o a) < len (from o b).

(** [std::atan2] on integers within 2^-50, and exact on the positive axis.  (glibc's error is
    below one unit in the last place, that is at most 2^-51 for results below 4.) *)
Definition err50 : R := / 1125899906842624.
Definition accurate_atan2 (atan2 : Z -> Z -> f64) : Prop :=
  forall v, coord_i32 v -> nonzero v ->
    is_finite (atan2 (lat v) (lon v)) = true /\
    Rabs (V (atan2 (lat v) (lon v)) - (if (0 <=? lat v)%Z then angle v else angle v - 2 * PI)) <= err50 /\
    (lat v = 0%Z -> (0 < lon v)%Z -> V (atan2 (lat v) (lon v)) = 0).

(** directions that are equal or differ by a sine of at least 2^-47 *)
Definition separated (u v : coord) : Prop :=
  (det u v <> 0 -> dot u u * dot v v <= det u v * det u v * 2 ^ 94)%Z.

(** ** 2 pi *)
Lemma ratan_term n x : Ratan.Ratan_seq x n = x ^ (2*n+1) / IZR (Z.of_nat (2*n+1)).
Proof. unfold Ratan.Ratan_seq. rewrite INR_IZR_INZ. reflexivity. Qed.
Lemma two_pi_close : Rabs (884279719003555 / 140737488355328 - 2 * PI) <= / 2251799813685248.
Proof.
  pose proof (PI_2_3_7_ineq 9) as [A B].
  cbn [sum_f_R0 Nat.mul Nat.add] in A, B. unfold tg_alt, PI_2_3_7_tg in *.
  repeat rewrite ratan_term in A. repeat rewrite ratan_term in B.
  cbn [Nat.mul Nat.add Z.of_nat Pos.of_succ_nat Pos.succ pow] in *.
  apply Rabs_le. split; lra.
Qed.
Lemma two_pi_val : V f_two_pi = 884279719003555 / 140737488355328 /\ is_finite f_two_pi = true.
Proof. split; [|reflexivity]. unfold V. vm_compute B2R. unfold F2R. simpl. lra. Qed.
Lemma pi_bounds : 314 / 100 < PI < 315 / 100.
Proof. pose proof two_pi_close as H. apply Rabs_le_inv in H. lra. Qed.

(** ** Cosine and sine of the direction *)
Lemma len_pos v : nonzero v -> 0 < len v.
Proof. intros N. apply sqrt_lt_R0. apply IZR_lt, dot_pos, N. Qed.
Lemma len_sq v : len v * len v = IZR (lon v) * IZR (lon v) + IZR (lat v) * IZR (lat v).
Proof. unfold len. rewrite sqrt_sqrt by (apply IZR_le; unfold dot; nia). unfold dot. rewrite plus_IZR, !mult_IZR. reflexivity. Qed.

Section One.
Variable v : coord.
Hypothesis N : nonzero v.
Let x := IZR (lon v) / len v.
Let y := IZR (lat v) / len v.
Lemma unit_circle : x * x + y * y = 1.
Proof. unfold x, y. pose proof (len_pos v N). pose proof (len_sq v). apply Rmult_eq_reg_r with (len v * len v); [|nra]. field_simplify; [|lra]. lra. Qed.
Lemma x_range : -1 <= x <= 1.
Proof. pose proof unit_circle. nra. Qed.
Lemma sin_acos_x : sin (acos x) = Rabs y.
Proof.
  rewrite sin_acos by exact x_range. rewrite <- sqrt_Rsqr_abs. f_equal. unfold Rsqr. pose proof unit_circle. lra.
Qed.
Lemma y_sign : ((0 <= lat v)%Z -> 0 <= y) /\ ((lat v < 0)%Z -> y < 0).
Proof.
  pose proof (len_pos v N) as L. apply Rinv_0_lt_compat in L. unfold y, Rdiv. split; intros H.
  - apply IZR_le in H. nra.
  - apply IZR_lt in H. nra.
Qed.
Lemma cos_angle : cos (angle v) = x.
Proof.
  unfold angle. fold x. destruct (0 <=? lat v)%Z; [apply cos_acos, x_range|].
  replace (2 * PI - acos x) with (- acos x + 2 * INR 1 * PI) by (cbn [INR]; ring). rewrite cos_period, cos_neg. apply cos_acos, x_range.
Qed.
Lemma sin_angle : sin (angle v) = y.
Proof.
  destruct y_sign as [A B]. unfold angle. fold x. destruct (Z.leb_spec 0 (lat v)).
  - rewrite sin_acos_x. apply Rabs_pos_eq, A, H.
  - replace (2 * PI - acos x) with (- acos x + 2 * INR 1 * PI) by (cbn [INR]; ring). rewrite sin_period, sin_neg, sin_acos_x.
    rewrite Rabs_left by (apply B, H). ring.
Qed.
Lemma angle_upper : (0 <= lat v)%Z -> 0 <= angle v <= PI.
Proof. intros H. unfold angle. rewrite (proj2 (Z.leb_le _ _) H). apply acos_bound. Qed.
Lemma angle_lower : (lat v < 0)%Z -> PI < angle v < 2 * PI.
Proof.
  intros H. unfold angle. fold x. rewrite (proj2 (Z.leb_gt _ _) H). pose proof (acos_bound x) as [A B].
  pose proof sin_acos_x as S. pose proof (proj2 y_sign H) as Y. rewrite Rabs_left in S by exact Y.
  assert (acos x <> 0) by (intros E; rewrite E, sin_0 in S; lra).
  assert (acos x <> PI) by (intros E; rewrite E, sin_PI in S; lra). lra.
Qed.
Lemma angle_range : 0 <= angle v < 2 * PI.
Proof.
  pose proof pi_bounds. destruct (Z.le_gt_cases 0 (lat v)) as [H0|H0].
  - pose proof (angle_upper H0). lra.
  - pose proof (angle_lower H0). lra.
Qed.
End One.

(** ** Two directions *)
Lemma sin_diff u v : nonzero u -> nonzero v -> sin (angle v - angle u) = IZR (det u v) / (len u * len v).
Proof.
  intros U V. pose proof (len_pos u U). pose proof (len_pos v V).
  rewrite sin_minus, !sin_angle, !cos_angle by assumption. unfold det. rewrite minus_IZR, !mult_IZR. field. lra.
Qed.
Lemma cos_diff u v : nonzero u -> nonzero v -> cos (angle v - angle u) = IZR (dot u v) / (len u * len v).
Proof.
  intros U V. pose proof (len_pos u U). pose proof (len_pos v V).
  rewrite cos_minus, !sin_angle, !cos_angle by assumption. unfold dot. rewrite plus_IZR, !mult_IZR. field. lra.
Qed.
Lemma abs_sin_le t : Rabs (sin t) <= Rabs t.
Proof.
  destruct (Rtotal_order t 0) as [H|[->|H]].
  - rewrite (Rabs_left t) by exact H. pose proof (sin_gt_x t H). destruct (Rle_dec 0 (sin t)).
    + rewrite Rabs_pos_eq by assumption. pose proof (SIN_bound t). destruct (Rle_dec t (-1)); [lra|].
      pose proof pi_bounds. pose proof (sin_lt_0_var t). lra.
    + rewrite Rabs_left by lra. lra.
  - rewrite sin_0, Rabs_R0. lra.
  - rewrite (Rabs_pos_eq t) by lra. pose proof (sin_lt_x t H). destruct (Rle_dec 0 (sin t)).
    + rewrite Rabs_pos_eq by assumption. lra.
    + pose proof (SIN_bound t). destruct (Rle_dec 1 t); [rewrite Rabs_left by lra; lra|].
      pose proof pi_bounds. pose proof (sin_gt_0 t). lra.
Qed.

Definition err47 : R := / 140737488355328.
Lemma separated_angles u v : nonzero u -> nonzero v -> det u v <> 0%Z -> separated u v -> err47 <= Rabs (angle v - angle u).
Proof.
  intros U V D S. specialize (S D). eapply Rle_trans; [|apply abs_sin_le]. rewrite sin_diff by assumption.
  pose proof (len_pos u U) as Lu. pose proof (len_pos v V) as Lv. pose proof (len_sq u) as Su. pose proof (len_sq v) as Sv.
  assert (P : 0 < len u * len v) by nra.
  assert (K : (len u * len v) * (len u * len v) <= IZR (det u v) * IZR (det u v) * (140737488355328 * 140737488355328)).
  { replace (len u * len v * (len u * len v)) with ((len u * len u) * (len v * len v)) by ring. rewrite Su, Sv.
    rewrite <- !mult_IZR, <- !plus_IZR, <- !mult_IZR. apply IZR_le. unfold dot in S.
    change (140737488355328 * 140737488355328)%Z with (2 ^ 94)%Z. exact S. }
  unfold Rdiv. rewrite Rabs_mult, (Rabs_pos_eq (/ _)) by (left; apply Rinv_0_lt_compat, P).
  apply Rmult_le_reg_r with (len u * len v); [exact P|]. rewrite Rmult_assoc, Rinv_l, Rmult_1_r by lra. unfold err47.
  set (d := Rabs (IZR (det u v))). assert (Dd : d * d = IZR (det u v) * IZR (det u v)) by (unfold d; rewrite <- Rabs_mult; apply Rabs_pos_eq; nra).
  rewrite <- Dd in K. assert (0 <= d) by apply Rabs_pos. destruct (Rle_dec (len u * len v) (d * 140737488355328)); [lra|]. nra.
Qed.
Lemma opposite_angles u v : nonzero u -> nonzero v -> (dot u v < 0)%Z -> err47 <= Rabs (angle v - angle u).
Proof.
  intros U V D. pose proof (len_pos u U) as Lu. pose proof (len_pos v V) as Lv. pose proof (cos_diff u v U V) as C.
  assert (Cn : cos (angle v - angle u) < 0).
  { rewrite C. apply IZR_lt in D. assert (0 < / (len u * len v)) by (apply Rinv_0_lt_compat; nra). unfold Rdiv. nra. }
  destruct (Rle_dec err47 (Rabs (angle v - angle u))); [assumption|exfalso]. apply Rnot_le_lt, Rabs_def2 in n. unfold err47 in n.
  pose proof pi_bounds. pose proof (cos_gt_0 (angle v - angle u)). lra.
Qed.
Lemma same_direction u v : nonzero u -> nonzero v -> det u v = 0%Z -> (0 < dot u v)%Z -> angle u = angle v.
Proof.
  intros U V D P. pose proof (len_pos u U) as Lu. pose proof (len_pos v V) as Lv.
  pose proof (len_sq u) as Su. pose proof (len_sq v) as Sv.
  unfold det in D. unfold dot in P. apply IZR_lt in P. rewrite plus_IZR, !mult_IZR in P.
  assert (D' : IZR (lon u) * IZR (lat v) = IZR (lon v) * IZR (lat u)) by (rewrite <- !mult_IZR; f_equal; lia).
  (* v = k u for a positive k *)
  set (k := (IZR (lon u) * IZR (lon v) + IZR (lat u) * IZR (lat v)) / (len u * len u)).
  assert (Kp : 0 < k) by (unfold k; apply Rdiv_lt_0_compat; [exact P|nra]).
  assert (Ex0 : IZR (lon v) * (len u * len u) = (IZR (lon u) * IZR (lon v) + IZR (lat u) * IZR (lat v)) * IZR (lon u)).
  { rewrite Su. transitivity (IZR (lon v) * IZR (lon u) * IZR (lon u) + (IZR (lon v) * IZR (lat u)) * IZR (lat u)); [ring|]. rewrite <- D'. ring. }
  assert (Ey0 : IZR (lat v) * (len u * len u) = (IZR (lon u) * IZR (lon v) + IZR (lat u) * IZR (lat v)) * IZR (lat u)).
  { rewrite Su. transitivity ((IZR (lon u) * IZR (lat v)) * IZR (lon u) + IZR (lat v) * IZR (lat u) * IZR (lat u)); [ring|]. rewrite D'. ring. }
  assert (Kx : IZR (lon v) = k * IZR (lon u)).
  { unfold k. apply Rmult_eq_reg_r with (len u * len u); [|nra]. rewrite Ex0. field. lra. }
  assert (Ky : IZR (lat v) = k * IZR (lat u)).
  { unfold k. apply Rmult_eq_reg_r with (len u * len u); [|nra]. rewrite Ey0. field. lra. }
  assert (Kl : len v = k * len u).
  { apply Rsqr_inj; [lra|nra|]. unfold Rsqr. replace (k * len u * (k * len u)) with (k * k * (len u * len u)) by ring. rewrite Su, Sv, Kx, Ky. ring. }
  assert (Ex : IZR (lon v) / len v = IZR (lon u) / len u) by (rewrite Kx, Kl; field; lra).
  unfold angle. rewrite Ex. replace (0 <=? lat v)%Z with (0 <=? lat u)%Z; [reflexivity|].
  destruct (Z.leb_spec 0 (lat u)) as [A|A], (Z.leb_spec 0 (lat v)) as [B|B]; auto; exfalso.
  - apply IZR_le in A. apply IZR_lt in B. nra.
  - apply IZR_lt in A. apply IZR_le in B. nra.
Qed.

(** ** The computed angle *)
Definition err49 : R := 5 / 2251799813685248.
Lemma small_angle v : coord_i32 v -> nonzero v -> lat v <> 0%Z -> / 8589934592 <= Rabs (sin (angle v)).
Proof.
  intros [I1 I2] N L. rewrite sin_angle by exact N. pose proof (len_pos v N) as P. pose proof (len_sq v) as S.
  assert (Lb : len v <= 8589934592).
  { apply Rsqr_incr_0_var; [|lra]. unfold Rsqr. rewrite S. unfold INT32_MIN, INT32_MAX in *.
    assert (A : -2147483648 <= IZR (lon v) <= 2147483648) by (split; apply IZR_le; lia).
    assert (B : -2147483648 <= IZR (lat v) <= 2147483648) by (split; apply IZR_le; lia). nra. }
  unfold Rdiv. rewrite Rabs_mult, (Rabs_pos_eq (/ _)) by (left; apply Rinv_0_lt_compat, P).
  assert (1 <= Rabs (IZR (lat v))) by (rewrite <- abs_IZR; apply IZR_le; lia).
  assert (/ 8589934592 <= / len v) by (apply Rinv_le; lra). assert (0 < / 8589934592) by lra. nra.
Qed.

Lemma rnd_abs x : Rabs x <= 8 -> Rabs (rnd x - x) <= / 1125899906842624.
Proof.
  intros H. destruct (Rle_dec (bpow radix2 (-1022)) (Rabs x)) as [B|B].
  - eapply Rle_trans; [apply rnd_error; left; exact B|]. unfold u53. lra.
  - apply Rnot_le_lt in B.
    assert (E : Rabs (rnd x) <= bpow radix2 (-1022)).
    { unfold rnd. change (SpecFloat.fexp 53 1024) with (FLT_exp (-1074) 53). apply abs_round_le_generic; auto with typeclass_instances; [|lra].
      apply generic_format_bpow. unfold FLT_exp. lia. }
    assert (bpow radix2 (-1022) <= bpow radix2 (-51)) by (apply bpow_le; lia).
    change (bpow radix2 (-51)) with (/ 2251799813685248) in *. eapply Rle_trans; [apply Rabs_triang|]. rewrite Rabs_Ropp. lra.
Qed.

Lemma angle_to_horizontal_upper atan2 v : accurate_atan2 atan2 -> coord_i32 v -> nonzero v -> (0 <= lat v)%Z ->
  angle_to_horizontal atan2 v = atan2 (lat v) (lon v).
Proof.
  intros A I N H. destruct (A v I N) as (F & E & Z). rewrite (proj2 (Z.leb_le _ _) H) in E.
  unfold angle_to_horizontal. set (t := atan2 (lat v) (lon v)) in *.
  pose proof pi_bounds as P. pose proof (small_angle v I N) as Sm. pose proof (abs_sin_le (angle v)) as Sl.
  assert (F0 : is_finite f_0 = true) by reflexivity. assert (V0 : V f_0 = 0) by (vm_compute; lra).
  unfold err50 in *. pose proof (angle_upper v H) as U.
    assert (T : 0 <= V t).
    { destruct (Z.eq_dec (lat v) 0) as [L|L].
      - destruct (Z.lt_ge_cases 0 (lon v)) as [X|X]; [rewrite (Z L X); lra|].
        assert (X' : (lon v < 0)%Z).
        { destruct (Z.eq_dec (lon v) 0) as [X0|X0]; [|lia]. exfalso. apply N. destruct v as [vx vy]; cbn [Coordinate.lon Coordinate.lat] in *; congruence. }
        assert (angle v = PI).
        { pose proof (cos_angle v N) as C. pose proof (len_pos v N) as Lp. pose proof (len_sq v) as Ls. rewrite L in Ls.
          assert (len v = - IZR (lon v)) by (apply IZR_lt in X'; apply Rsqr_inj; unfold Rsqr; lra).
          replace (IZR (lon v) / len v) with (-1) in C by (apply IZR_lt in X'; rewrite H0; field; lra).
          unfold angle in *. rewrite (proj2 (Z.leb_le _ _) H) in *. set (q := IZR (lon v) / len v) in *.
          assert (q = -1) by (unfold q; rewrite H0; apply IZR_lt in X'; field; lra). rewrite H1. replace (-1) with (- (1)) by ring. rewrite acos_opp, acos_1. ring. }
        apply Rabs_le_inv in E. lra.
      - specialize (Sm L). rewrite (Rabs_pos_eq (angle v)) in Sl by lra. apply Rabs_le_inv in E. lra. }
    assert (B : fltb t f_0 = false).
    { apply not_true_is_false. intros B. apply (fltb_iff t f_0 F F0) in B. lra. }
    rewrite B. reflexivity.
Qed.
Lemma angle_to_horizontal_ok atan2 v : accurate_atan2 atan2 -> coord_i32 v -> nonzero v ->
  is_finite (angle_to_horizontal atan2 v) = true /\ Rabs (V (angle_to_horizontal atan2 v) - angle v) <= err49.
Proof.
  intros A I N. destruct (A v I N) as (F & E & Z). set (t := atan2 (lat v) (lon v)) in *.
  pose proof pi_bounds as P. pose proof (small_angle v I N) as Sm. pose proof (abs_sin_le (angle v)) as Sl.
  assert (F0 : is_finite f_0 = true) by reflexivity. assert (V0 : V f_0 = 0) by (vm_compute; lra).
  unfold err50, err49 in *. destruct (Z.leb_spec 0 (lat v)) as [H|H].
  - rewrite (angle_to_horizontal_upper atan2 v A I N H). fold t.
    split; [exact F|]. eapply Rle_trans; [exact E|]. lra.
  - pose proof (angle_lower v N H) as U.
    assert (Sl' : Rabs (sin (angle v)) <= Rabs (angle v - 2 * PI)).
    { replace (sin (angle v)) with (sin (angle v - 2 * PI)); [apply abs_sin_le|].
      rewrite <- (sin_period (angle v - 2 * PI) 1). f_equal. cbn [INR]. ring. }
    specialize (Sm ltac:(lia)). rewrite (Rabs_left (angle v - 2 * PI)) in Sl' by lra. apply Rabs_le_inv in E.
    assert (B : fltb t f_0 = true) by (apply (fltb_iff t f_0 F F0); lra). unfold angle_to_horizontal. fold t. rewrite B.
    destruct two_pi_val as [TV TF]. pose proof two_pi_close as TC. apply Rabs_le_inv in TC.
    assert (M : Rabs (V t + V f_two_pi) <= 8) by (apply Rabs_le; rewrite TV; lra).
    destruct (fadd_correct t f_two_pi F TF) as [W1 W2]; [apply small_le_big; lra|]. split; [exact W2|]. rewrite W1.
    pose proof (rnd_abs _ M) as R. apply Rabs_le_inv in R. rewrite TV in *. apply Rabs_le. lra.
Qed.

(** ** Distances *)
Lemma magnitude_squared_ok v : i31 (lon v) -> i31 (lat v) -> nonzero v ->
  is_finite (magnitude_squared v) = true /\
  Rabs (V (magnitude_squared v) - micro * micro * IZR (dot v v)) <= 6 * u53 * (micro * micro * IZR (dot v v)).
Proof.
  intros X Y N. unfold magnitude_squared, get_longitude, get_latitude.
  destruct (deg_prod (lon v) (lon v) X X) as (Fx & Bx & Ex). destruct (deg_prod (lat v) (lat v) Y Y) as (Fy & By & Ey).
  set (p := fmul (microdegrees_to_degrees (lon v)) _) in *. set (q := fmul (microdegrees_to_degrees (lat v)) _) in *.
  destruct (fadd_correct p q Fx Fy) as [E F].
  { apply small_le_big. eapply Rle_trans; [apply Rabs_triang|]. lra. }
  split; [exact F|]. rewrite E. pose proof (dot_pos v N) as D. apply IZR_le with (n := 1%Z) in D || idtac.
  assert (D1 : 1 <= IZR (dot v v)) by (apply IZR_le; pose proof (dot_pos v N); lia).
  assert (Dv : IZR (dot v v) = IZR (lon v) * IZR (lon v) + IZR (lat v) * IZR (lat v)) by (unfold dot; rewrite plus_IZR, !mult_IZR; reflexivity).
  pose proof micro_square as [M0 M1]. rewrite (Rabs_pos_eq (IZR (lon v) * _)) in Ex by nra. rewrite (Rabs_pos_eq (IZR (lat v) * _)) in Ey by nra.
  apply Rabs_le_inv in Ex. apply Rabs_le_inv in Ey. rewrite u53_val in *.
  set (d := micro * micro * IZR (dot v v)). 
  assert (S : Rabs (V p + V q - d) <= 4 / 9007199254740992 * d) by (apply Rabs_le; unfold d; rewrite Dv; lra).
  assert (Dp : 9 / 10000000000000 <= d) by (unfold d; nra). apply Rabs_le_inv in S.
  assert (R : Rabs (rnd (V p + V q) - (V p + V q)) <= u53 * Rabs (V p + V q)).
  { apply rnd_error. left. apply Rle_trans with (bpow radix2 (-60)); [apply bpow_le; lia|].
    change (bpow radix2 (-60)) with (/ 1152921504606846976). rewrite Rabs_pos_eq by lra. lra. }
  rewrite u53_val, (Rabs_pos_eq (V p + V q)) in R by lra. apply Rabs_le_inv in R. apply Rabs_le. lra.
Qed.

Lemma gap_aux Du Dv a b : (1 <= Du -> Du * (b * b) = Dv * (a * a) -> a <> 0 -> Z.abs a <= 2147483648 -> Du < Dv ->
  Du * (1073741824 + 1) <= Dv * 1073741824)%Z.
Proof.
  intros Hu E A B L.
  assert (a * a < b * b)%Z by nia. assert (K : (Z.abs a + 1 <= Z.abs b)%Z) by nia.
  assert (K2 : (a * a + 2 * Z.abs a + 1 <= b * b)%Z) by nia.
  assert (P : (0 < a * a)%Z) by nia.
  apply Z.mul_le_mono_pos_r with (a * a)%Z; [exact P|].
  replace (Dv * 1073741824 * (a * a))%Z with (1073741824 * (Du * (b * b)))%Z by (rewrite E; ring).
  assert (Q : (a * a <= 2147483648 * Z.abs a)%Z) by nia.
  assert (T : (Du * (a * a + 2 * Z.abs a + 1) <= Du * (b * b))%Z) by nia. 
  assert (U : (Du * (a * a) <= Du * (2147483648 * Z.abs a))%Z) by nia. nia.
Qed.

Lemma squares_zero x y : (x * x + y * y = 0 -> x = 0 /\ y = 0)%Z.
Proof. intros H. split; nia. Qed.
Lemma same_point u v : det u v = 0%Z -> (0 < dot u v)%Z -> dot u u = dot v v -> u = v.
Proof.
  destruct u as [a b], v as [c d]. unfold det, dot. cbn [lon lat]. intros D P E.
  assert (Q : ((a * c + b * d) * (a * c + b * d) = (a * a + b * b) * (c * c + d * d))%Z).
  { transitivity ((a * a + b * b) * (c * c + d * d) - (a * d - c * b) * (a * d - c * b))%Z; [ring|]. rewrite D. ring. }
  rewrite <- E in Q. assert (Q2 : (a * c + b * d = a * a + b * b)%Z).
  { assert (0 <= a * a + b * b)%Z by nia. set (x := (a * c + b * d)%Z) in *. set (y := (a * a + b * b)%Z) in *.
    clearbody x y. clear - Q P H. assert ((x - y) * (x + y) = 0)%Z by lia. apply Z.mul_eq_0 in H0. lia. }
  assert (Q3 : ((a - c) * (a - c) + (b - d) * (b - d) = 0)%Z) by lia. destruct (squares_zero _ _ Q3). f_equal; lia.
Qed.
Lemma magnitude_order u v : i31 (lon u) -> i31 (lat u) -> i31 (lon v) -> i31 (lat v) -> nonzero u -> nonzero v ->
  det u v = 0%Z -> (0 < dot u v)%Z -> (fltb (magnitude_squared u) (magnitude_squared v) = true <-> (dot u u < dot v v)%Z).
Proof.
  intros Xu Yu Xv Yv Nu Nv D Dp.
  destruct (magnitude_squared_ok u Xu Yu Nu) as [Fu Eu]. destruct (magnitude_squared_ok v Xv Yv Nv) as [Fv Ev].
  rewrite fltb_iff by assumption. pose proof (dot_pos u Nu) as Du. pose proof (dot_pos v Nv) as Dv. pose proof micro_square as [M0 _].
  apply Rabs_le_inv in Eu. apply Rabs_le_inv in Ev. rewrite u53_val in *.
  assert (G : forall a b : coord, i31 (lon a) -> i31 (lat a) -> nonzero a -> det a b = 0%Z -> (dot a a < dot b b)%Z -> 
     micro * micro * IZR (dot a a) * (1 + / 1073741824) <= micro * micro * IZR (dot b b)).
  { intros a b Xa Ya Na Dz Lt. unfold i31 in *. pose proof (dot_pos a Na) as Da. unfold det in Dz.
    assert (K : (dot a a * (1073741824 + 1) <= dot b b * 1073741824)%Z).
    { destruct (Z.eq_dec (lon a) 0) as [Z0|Z0].
      - assert (lat a <> 0)%Z by (intros Z1; apply Na; destruct a as [ax ay]; cbn [lon lat] in *; congruence).
        apply (gap_aux _ _ (lat a) (lat b)); try assumption; [lia|]. unfold dot in *. rewrite Z0 in *.
        assert (lon b = 0)%Z by nia. rewrite H0. ring.
      - apply (gap_aux _ _ (lon a) (lon b)); try assumption; [lia|]. unfold dot. 
        assert (E : (lat a * lon b = lon a * lat b)%Z) by lia.
        transitivity (lon a * lon a * (lon b * lon b) + (lat a * lon b) * (lat a * lon b))%Z; [ring|]. rewrite E. ring. }
    apply IZR_le in K. rewrite !mult_IZR in K. rewrite plus_IZR in K. 
    replace (micro * micro * IZR (dot a a) * (1 + / 1073741824)) with (micro * micro * (IZR (dot a a) * (1 + / 1073741824))) by ring.
    apply Rmult_le_compat_l; lra. }
  assert (Pu : 0 < micro * micro * IZR (dot u u)) by (apply IZR_lt in Du; nra).
  assert (Pv : 0 < micro * micro * IZR (dot v v)) by (apply IZR_lt in Dv; nra).
  split; intros H.
  - destruct (Z.lt_trichotomy (dot u u) (dot v v)) as [L|[L|L]]; [exact L|exfalso..].
    + rewrite (same_point u v D Dp L) in H. lra.
    + assert (Dz : det v u = 0%Z) by (unfold det in *; lia). specialize (G v u Xv Yv Nv Dz L). lra.
  - specialize (G u v Xu Yu Nu D H). lra.
Qed.

(** ** The comparison *)
(** longitudes within 1000 degrees: every coordinate the program forms *)
Definition wide (c : coord) : Prop := (Z.abs (lon c) <= 1000000000 /\ Z.abs (lat c) <= 90000000)%Z.
Lemma pgeo_wide c : pgeo c -> wide c.
Proof. unfold pgeo, wide. lia. Qed.
Lemma from_wide o c : wide o -> wide c -> coord_i32 (from o c) /\ i31 (lon (from o c)) /\ i31 (lat (from o c)) /\ (Z.abs (lat (from o c)) <= 180000000)%Z.
Proof. unfold wide, coord_i32, INT32_MIN, INT32_MAX, i31, from. cbn [lon lat]. lia. Qed.
Lemma from_sub o c : wide o -> wide c -> coord_sub c o = Ok (from o c).
Proof. unfold wide. intros O C. unfold from. apply coord_sub_ok; unfold INT32_MIN, INT32_MAX; lia. Qed.
Lemma from_nonzero o c : c <> o -> nonzero (from o c).
Proof. intros H E. apply H. destruct o as [ox oy], c as [cx cy]. unfold from in E. cbn [lon lat] in E. inversion E. f_equal; lia. Qed.
Lemma det_dot u v : (det u v * det u v + dot u v * dot u v = dot u u * dot v v)%Z.
Proof. unfold det, dot. ring. Qed.
Lemma dot_nonzero u v : nonzero u -> nonzero v -> det u v = 0%Z -> dot u v <> 0%Z.
Proof.
  intros U V D E. pose proof (det_dot u v) as H. rewrite D, E in H. pose proof (dot_pos u U). pose proof (dot_pos v V). nia.
Qed.
Lemma len_dot u v : len u < len v <-> (dot u u < dot v v)%Z.
Proof.
  assert (P : forall w, (0 <= dot w w)%Z) by (intros w; unfold dot; nia). unfold len. split; intros H.
  - apply sqrt_lt_0_alt in H. apply lt_IZR, H.
  - apply sqrt_lt_1; [apply IZR_le, P..|apply IZR_lt, H].
Qed.

Lemma angle_less_ok atan2 o a b : accurate_atan2 atan2 -> wide o -> wide a -> wide b -> a <> o -> b <> o ->
  separated (from o a) (from o b) -> exists r, angle_less atan2 o a b = Ok r /\ (r = true <-> before o a b).
Proof.
  intros T O A B Na Nb S. unfold angle_less. rewrite (proj2 (coord_eqb_neq a o) Na), (proj2 (coord_eqb_neq b o) Nb).
  destruct (from_wide o a O A) as (Ia & Xa & Ya & La). destruct (from_wide o b O B) as (Ib & Xb & Yb & Lb).
  pose proof (from_nonzero o a Na) as Za. pose proof (from_nonzero o b Nb) as Zb.
  rewrite (from_sub o a O A), (from_sub o b O B). cbn [bind]. unfold before.
  set (u := from o a) in *. set (v := from o b) in *.
  assert (Dm : dot_md u v = Ok (dot u v)).
  { unfold dot_md, dot. unfold i31 in *.
    assert (Z.abs (lon u * lon v) <= 2147483648 * 2147483648)%Z by (rewrite Z.abs_mul; apply Z.mul_le_mono_nonneg; lia).
    assert (Z.abs (lat u * lat v) <= 180000000 * 180000000)%Z by (rewrite Z.abs_mul; apply Z.mul_le_mono_nonneg; lia).
    rewrite !i64_ok by (unfold INT64_MIN, INT64_MAX; lia). cbn [bind]. rewrite i64_ok by (unfold INT64_MIN, INT64_MAX; lia). reflexivity. }
  rewrite Dm. cbn [bind]. rewrite vector_orientation_ok by assumption. cbn [bind].
  destruct (angle_to_horizontal_ok atan2 u T Ia Za) as [Fu Eu]. destruct (angle_to_horizontal_ok atan2 v T Ib Zb) as [Fv Ev].
  apply Rabs_le_inv in Eu. apply Rabs_le_inv in Ev. unfold err49 in *.
  assert (Far : err47 <= Rabs (angle v - angle u) ->
    (fltb (angle_to_horizontal atan2 u) (angle_to_horizontal atan2 v) = true <-> angle u < angle v \/ angle u = angle v /\ len u < len v)).
  { intros E. rewrite fltb_iff by assumption. unfold err47 in E. unfold Rabs in E. destruct (Rcase_abs _); split; intros G; lra. }
  destruct (Z.eq_dec (det u v) 0) as [D|D].
  - rewrite D. change (orientation_of_sign 0) with COLLINEAR. cbn [negb orientation_eqb orb].
    destruct (Z.ltb_spec (dot u v) 0) as [P|P].
    + eexists. split; [reflexivity|]. apply Far, opposite_angles; assumption.
    + pose proof (dot_nonzero u v Za Zb D). assert (P' : (0 < dot u v)%Z) by lia.
      eexists. split; [reflexivity|]. rewrite magnitude_order, len_dot by assumption. rewrite (same_direction u v Za Zb D P').
      pose proof (Rlt_irrefl (angle v)). tauto.
  - assert (Q : negb (orientation_eqb (orientation_of_sign (det u v)) COLLINEAR) = true).
    { unfold orientation_of_sign. destruct (Z.ltb_spec (det u v) 0); [reflexivity|]. destruct (Z.ltb_spec 0 (det u v)); [reflexivity|lia]. }
    rewrite Q. cbn [orb]. eexists. split; [reflexivity|]. apply Far, separated_angles; assumption.
Qed.

(** ** [before] is a strict total order on the points other than the observer *)
Lemma before_irrefl o a : ~ before o a a.
Proof. unfold before. lra. Qed.
Lemma before_trans o a b c : before o a b -> before o b c -> before o a c.
Proof. unfold before. lra. Qed.
Lemma before_total o a b : a <> o -> b <> o -> a <> b -> before o a b \/ before o b a.
Proof.
  intros A B N. unfold before. destruct (Rtotal_order (angle (from o a)) (angle (from o b))) as [H|[H|H]]; [tauto| |tauto].
  destruct (Rtotal_order (len (from o a)) (len (from o b))) as [L|[L|L]]; [tauto| |right; right; split; [symmetry; exact H|exact L]].
  exfalso. pose proof (from_nonzero o a A) as Za. pose proof (from_nonzero o b B) as Zb.
  pose proof (sin_diff _ _ Za Zb) as S. pose proof (cos_diff _ _ Za Zb) as C. rewrite H, Rminus_eq_0 in S, C. rewrite sin_0 in S. rewrite cos_0 in C.
  pose proof (len_pos _ Za). pose proof (len_pos _ Zb). assert (0 < len (from o a) * len (from o b)) by nra.
  assert (D : IZR (det (from o a) (from o b)) = 0).
  { apply Rmult_eq_reg_r with (/ (len (from o a) * len (from o b))); [|apply Rinv_neq_0_compat; lra]. rewrite Rmult_0_l. symmetry. exact S. }
  assert (P : IZR (dot (from o a) (from o b)) = len (from o a) * len (from o b)).
  { apply Rmult_eq_reg_r with (/ (len (from o a) * len (from o b))); [|apply Rinv_neq_0_compat; lra]. unfold Rdiv in C. rewrite Rinv_r by lra. lra. }
  apply eq_IZR in D. assert (P' : (0 < dot (from o a) (from o b))%Z) by (apply lt_IZR; rewrite P; assumption).
  assert (E : dot (from o a) (from o a) = dot (from o b) (from o b)).
  { pose proof (len_dot (from o a) (from o b)) as G1. pose proof (len_dot (from o b) (from o a)) as G2.
    apply Z.le_antisymm; apply Z.nlt_ge; intros G; [apply G2 in G|apply G1 in G]; lra. }
  pose proof (same_point _ _ D P' E) as Q. apply N. unfold from in Q. destruct a as [ax ay], b as [bx by'], o as [ox oy]. cbn [lon lat] in Q. inversion Q. f_equal; lia.
Qed.

(** vectors no longer than 11.8 degrees are always separated *)
Lemma near_separated u v : (dot u u <= 2 ^ 47 -> dot v v <= 2 ^ 47 -> separated u v)%Z.
Proof.
  intros U V D. assert (1 <= det u v * det u v)%Z by nia. assert (0 <= dot u u)%Z by (unfold dot; nia). assert (0 <= dot v v)%Z by (unfold dot; nia).
  apply Z.le_trans with (2 ^ 47 * 2 ^ 47)%Z; [apply Z.mul_le_mono_nonneg; assumption|]. change (2 ^ 47 * 2 ^ 47)%Z with (2 ^ 94)%Z.
  change (2 ^ 94)%Z with 19807040628566084398385987584%Z in *. lia.
Qed.
