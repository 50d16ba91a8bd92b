(** Products, lengths and unit vectors in degrees: accuracy. *)
From Coq Require Import ZArith Reals Bool List Lia Lra Psatz.
From Flocq Require Import Core.
From Flocq Require Import BinarySingleNaN.
From Verif Require Import Base F64 Coordinate Vectors Segment SpecGeom Periodicity PeriodicityFacts F64Facts CoordinateFacts PolygonFloat PolylineFacts
  GraphFacts AngleFacts DistFacts.
Import ListNotations.
Local Open Scope R_scope.

(** ** Products *)
Lemma micro2_bounds : 1 / 1000000000000 * (1 - 3 / 10000000000000000) <= micro * micro <= 1 / 1000000000000 * (1 + 3 / 10000000000000000).
Proof.
  pose proof micro_bounds as B. split.
  - apply Rle_trans with ((0.000001 * (1 - 1 / 10000000000000000)) * (0.000001 * (1 - 1 / 10000000000000000))); [lra|]. apply Rmult_le_compat; lra.
  - apply Rle_trans with ((0.000001 * (1 + 1 / 10000000000000000)) * (0.000001 * (1 + 1 / 10000000000000000))); [|lra]. apply Rmult_le_compat; lra.
Qed.

(** a sum of two products, whatever the sign between them *)
Lemma products_close p q P Q A B : Rabs P <= A -> Rabs Q <= B ->
  generic_format radix2 (SpecFloat.fexp 53 1024) p -> generic_format radix2 (SpecFloat.fexp 53 1024) q ->
  Rabs (p - micro * micro * P) <= micro * micro * (4 * u53 * A) -> Rabs (q - micro * micro * Q) <= micro * micro * (4 * u53 * B) ->
  Rabs (rnd (p + q) - (P + Q) / 1000000000000) <= (A + B) / 1000000000000 / 1000000000000000.
Proof.
  intros PA QB Fp Fq Ep Eq. pose proof (rnd_plus_err p q Fp Fq) as R. pose proof micro2_bounds as M.
  set (m := micro * micro) in *. clearbody m. rewrite u53_val in *.
  assert (A0 : 0 <= A) by (pose proof (Rabs_pos P); lra). assert (B0 : 0 <= B) by (pose proof (Rabs_pos Q); lra).
  apply Rabs_le_inv in PA. apply Rabs_le_inv in QB. apply Rabs_le_inv in Ep. apply Rabs_le_inv in Eq.
  assert (mP : - (m * A) <= m * P <= m * A) by nra. assert (mQ : - (m * B) <= m * Q <= m * B) by nra.
  assert (mA : 0 <= m * A <= 1.000001 / 1000000000000 * A) by nra. assert (mB : 0 <= m * B <= 1.000001 / 1000000000000 * B) by nra.
  assert (dP : - (3 / 10000000000000000 / 1000000000000 * A) <= m * P - P / 1000000000000 <= 3 / 10000000000000000 / 1000000000000 * A) by nra.
  assert (dQ : - (3 / 10000000000000000 / 1000000000000 * B) <= m * Q - Q / 1000000000000 <= 3 / 10000000000000000 / 1000000000000 * B) by nra.
  assert (S : Rabs (p + q) <= 1.00001 / 1000000000000 * (A + B)) by (apply Rabs_le; lra).
  assert (R2 : Rabs (rnd (p + q) - (p + q)) <= 1 / 9007199254740992 * (1.00001 / 1000000000000 * (A + B))) by lra.
  apply Rabs_le_inv in R2. apply Rabs_le. lra.
Qed.

Lemma dot_product_close a b : coord_i32 a -> coord_i32 b ->
  is_finite (dot_product a b) = true /\
  Rabs (V (dot_product a b) - IZR (dot a b) / 1000000000000) <=
    IZR (Z.abs (lon a * lon b) + Z.abs (lat a * lat b)) / 1000000000000 / 1000000000000000.
Proof.
  intros [A1 A2] [B1 B2]. apply i32_i31 in A1, A2, B1, B2. unfold dot_product, get_longitude, get_latitude.
  destruct (deg_prod _ _ A1 B1) as (F1 & N1 & E1). destruct (deg_prod _ _ A2 B2) as (F2 & N2 & E2).
  set (p := fmul (microdegrees_to_degrees (lon a)) _) in *. set (q := fmul (microdegrees_to_degrees (lat a)) _) in *.
  destruct (fadd_correct p q F1 F2) as [E F].
  { apply small_le_big. eapply Rle_trans; [apply Rabs_triang|]. lra. }
  split; [exact F|]. rewrite E. unfold dot. rewrite !plus_IZR, !abs_IZR, !mult_IZR.
  apply products_close; try apply format_V; try apply Rle_refl; assumption.
Qed.

Lemma cross_product_close a b : coord_i32 a -> coord_i32 b ->
  is_finite (cross_product_magnitude a b) = true /\
  Rabs (V (cross_product_magnitude a b) - IZR (det a b) / 1000000000000) <=
    IZR (Z.abs (lon a * lat b) + Z.abs (lon b * lat a)) / 1000000000000 / 1000000000000000.
Proof.
  intros [A1 A2] [B1 B2]. apply i32_i31 in A1, A2, B1, B2. unfold cross_product_magnitude, get_longitude, get_latitude.
  destruct (deg_prod _ _ A1 B2) as (F1 & N1 & E1). destruct (deg_prod _ _ B1 A2) as (F2 & N2 & E2).
  set (p := fmul (microdegrees_to_degrees (lon a)) _) in *. set (q := fmul (microdegrees_to_degrees (lon b)) _) in *.
  destruct (fsub_correct p q F1 F2) as [E F].
  { apply small_le_big. eapply Rle_trans; [apply Rabs_triang|]. rewrite Rabs_Ropp. lra. }
  split; [exact F|]. rewrite E. unfold det. rewrite minus_IZR, plus_IZR, !abs_IZR, !mult_IZR.
  apply products_close; try apply format_V; try apply generic_format_opp; try apply format_V; try (rewrite Rabs_Ropp); try apply Rle_refl; try assumption.
  replace (- V q - micro * micro * - (IZR (lon b) * IZR (lat a))) with (- (V q - micro * micro * (IZR (lon b) * IZR (lat a)))) by ring.
  rewrite Rabs_Ropp. exact E2.
Qed.

Lemma near_sign x d s : Rabs (x - IZR d / 1000000000000) <= IZR s / 1000000000000 / 1000000000000000 ->
  (s < 1000000000000000 * Z.abs d)%Z -> (0 < x <-> (0 < d)%Z) /\ (x < 0 <-> (d < 0)%Z).
Proof.
  intros E L. apply IZR_lt in L. rewrite mult_IZR in L. apply Rabs_le_inv in E.
  destruct (Z.lt_trichotomy d 0) as [H|[H|H]].
  - rewrite Z.abs_neq, opp_IZR in L by lia. assert (D := IZR_lt _ _ H). split; split; intros; try lia; lra.
  - subst d. rewrite Z.abs_0 in L. assert (IZR s < 0) by lra. exfalso. lra.
  - rewrite Z.abs_eq in L by lia. assert (D := IZR_lt _ _ H). split; split; intros; try lia; lra.
Qed.

(** ** Lengths *)
Lemma dot_sum v : dot v v = (lon v * lon v + lat v * lat v)%Z. Proof. reflexivity. Qed.
Lemma magnitude_close v : coord_i32 v -> nonzero v ->
  is_finite (magnitude v) = true /\ 1 / 2000000 <= V (magnitude v) <= 4000 /\
  Rabs (V (magnitude v) - micro * sqrt (IZR (dot v v))) <= 5 * u53 * (micro * sqrt (IZR (dot v v))).
Proof.
  intros [X Y] N. pose proof micro_bounds as M. pose proof (micro_pos) as Mp.
  apply i32_i31 in X, Y. destruct (magnitude_squared_ok v X Y N) as [F E]. unfold i31 in X, Y.
  set (D := IZR (dot v v)) in *. assert (D1 : 1 <= D <= 9223372036854775808).
  { unfold D. pose proof (dot_pos v N). split; apply IZR_le; [lia|]. unfold dot. nia. }
  set (T := micro * micro * D) in *. assert (T0 : 0 < T) by (unfold T; apply Rmult_lt_0_compat; [apply Rmult_lt_0_compat|]; lra).
  assert (ST : sqrt T = micro * sqrt D).
  { unfold T. rewrite sqrt_mult_alt by nra. rewrite sqrt_square by lra. reflexivity. }
  assert (C : Rabs (sqrt (V (magnitude_squared v)) - micro * sqrt D) <= 3.1 * u53 * (micro * sqrt D)).
  { rewrite <- ST. 
    assert (H6 : Rabs (sqrt (V (magnitude_squared v)) - sqrt T) * (sqrt (V (magnitude_squared v)) + sqrt T) <= 6 * u53 * (sqrt T * sqrt T)).
    { rewrite sqrt_sqrt by lra. eapply Rle_trans; [|exact E].
      assert (Vp : 0 <= V (magnitude_squared v)) by (apply Rabs_le_inv in E; rewrite u53_val in E; nra).
      rewrite <- (sqrt_sqrt (V (magnitude_squared v))) at 3 by exact Vp. rewrite <- (sqrt_sqrt T) at 3 by lra.
      pose proof (sqrt_pos (V (magnitude_squared v))). pose proof (sqrt_pos T).
      rewrite <- (Rabs_pos_eq (sqrt (V (magnitude_squared v)) + sqrt T)) by lra. rewrite <- Rabs_mult. right. f_equal. ring. }
    assert (L : sqrt (V (magnitude_squared v)) >= sqrt T * (1 - 6 * u53)).
    { pose proof (sqrt_close (V (magnitude_squared v)) T (6 * u53) T0) as K. rewrite u53_val in *. 
      assert (K' := K ltac:(lra) E). apply Rabs_le_inv in K'. lra. }
    pose proof (sqrt_lt_R0 T T0) as S0. set (p := sqrt (V (magnitude_squared v))) in *. set (q := sqrt T) in *. rewrite u53_val in *.
    set (r := Rabs (p - q)) in *. assert (R0 : 0 <= r) by apply Rabs_pos. nra. }
  set (W := micro * sqrt D) in *.
  assert (SD : 1 <= sqrt D <= 3037000500).
  { split; [rewrite <- sqrt_1; apply sqrt_le_1_alt; lra|]. rewrite <- (sqrt_square 3037000500) by lra. apply sqrt_le_1_alt. lra. }
  assert (WB : 0.0000009 <= W <= 3100) by (unfold W; nra).
  apply Rabs_le_inv in C. rewrite u53_val in C.
  set (Q := sqrt (V (magnitude_squared v))) in *.
  assert (R : Rabs (rnd Q - Q) <= u53 * Rabs Q).
  { apply rnd_error. left. apply Rle_trans with (bpow radix2 (-60)); [apply bpow_le; lia|].
    change (bpow radix2 (-60)) with (/ 1152921504606846976). rewrite Rabs_pos_eq by lra. lra. }
  rewrite u53_val, (Rabs_pos_eq Q) in R by lra. apply Rabs_le_inv in R.
  assert (Fm : is_finite (magnitude v) = true).
  { unfold magnitude. apply fsqrt_finite; [exact F|]. destruct (Rle_or_lt 0 (V (magnitude_squared v))) as [H|H]; [exact H|].
    exfalso. unfold Q in C. rewrite sqrt_neg_0 in C by lra. lra. }
  unfold magnitude in *. rewrite fsqrt_correct. fold Q. split; [exact Fm|]. rewrite u53_val. split; [lra|]. apply Rabs_le. lra.
Qed.

(** ** Unit vectors *)
Lemma axis_le v : Rabs (IZR (lon v)) <= sqrt (IZR (dot v v)) /\ Rabs (IZR (lat v)) <= sqrt (IZR (dot v v)).
Proof.
  unfold dot. rewrite plus_IZR, !mult_IZR. split; rewrite <- sqrt_Rsqr_abs; apply sqrt_le_1_alt; unfold Rsqr; nra.
Qed.

Lemma inverse_close v : coord_i32 v -> nonzero v ->
  is_finite (fdiv f_1 (magnitude v)) = true /\
  Rabs (V (fdiv f_1 (magnitude v)) * sqrt (IZR (dot v v)) - 1000000) <= 1 / 100000000.
Proof.
  intros I N. destruct (magnitude_close v I N) as (F & B & E). pose proof micro_bounds as M. set (n := V (magnitude v)) in *.
  set (S := sqrt (IZR (dot v v))) in *. rewrite u53_val in E. apply Rabs_le_inv in E.
  destruct V_f1 as [V1 F1].
  assert (Ib : / 4000 <= / n <= 2000000).
  { split; [apply Rinv_le_contravar; lra|]. rewrite <- (Rinv_inv 2000000). apply Rinv_le_contravar; lra. }
  destruct (fdiv_correct f_1 (magnitude v)) as [D1 D2]; [exact F1|fold n; lra| |].
  { rewrite V1. unfold Rdiv. rewrite Rmult_1_l. fold n. apply small_le_big. rewrite Rabs_pos_eq; lra. }
  split; [exact D2|]. rewrite D1, V1. fold n. unfold Rdiv at 1. rewrite Rmult_1_l.
  assert (R : Rabs (rnd (/ n) - / n) <= u53 * Rabs (/ n)).
  { apply rnd_error. left. rewrite Rabs_pos_eq by lra. eapply Rle_trans; [|apply Ib]. apply Rle_trans with (bpow radix2 (-12)); [apply bpow_le; lia|].
    change (bpow radix2 (-12)) with (/ 4096). lra. }
  rewrite (Rabs_pos_eq (/ n)), u53_val in R by lra. apply Rabs_le_inv in R.
  (* micro S = n (1 + e) *)
  assert (S0 : 0 <= S) by apply sqrt_pos.
  assert (NS : S * (1 - 1 / 1000000000000000) <= 1000000 * n <= S * (1 + 1 / 1000000000000000)) by (split; nra).
  assert (In : n * / n = 1) by (apply Rinv_r; lra).
  set (i := / n) in *. set (r := rnd i) in *.
  assert (Sn : n * (1 - 1 / 500000000000000) <= S / 1000000 <= n * (1 + 1 / 500000000000000)) by lra.
  assert (Si : 1 - 1 / 500000000000000 <= S / 1000000 * i <= 1 + 1 / 500000000000000).
  { assert (i0 : 0 < i) by lra. split.
    - replace (1 - 1 / 500000000000000) with (n * (1 - 1 / 500000000000000) * i) by (transitivity ((n * i) * (1 - 1 / 500000000000000)); [ring|rewrite In; ring]). apply Rmult_le_compat_r; lra.
    - replace (1 + 1 / 500000000000000) with (n * (1 + 1 / 500000000000000) * i) by (transitivity ((n * i) * (1 + 1 / 500000000000000)); [ring|rewrite In; ring]). apply Rmult_le_compat_r; lra. }
  assert (RS : (i - 1 / 9007199254740992 * i) * S <= r * S <= (i + 1 / 9007199254740992 * i) * S) by (split; apply Rmult_le_compat_r; lra).
  apply Rabs_le. replace ((i - 1 / 9007199254740992 * i) * S) with (1000000 * (S / 1000000 * i) * (1 - 1 / 9007199254740992)) in RS by field.
  replace ((i + 1 / 9007199254740992 * i) * S) with (1000000 * (S / 1000000 * i) * (1 + 1 / 9007199254740992)) in RS by field. lra.
Qed.

(** the unit vector, in microdegrees *)
Definition unit_lon (v : coord) : R := 1000000 * IZR (lon v) / sqrt (IZR (dot v v)).
Definition unit_lat (v : coord) : R := 1000000 * IZR (lat v) / sqrt (IZR (dot v v)).

Lemma unit_part z S s : 0 < S -> Rabs (IZR z) <= S -> Rabs (s * S - 1000000) <= 1 / 100000000 ->
  Rabs (IZR z * s - 1000000 * IZR z / S) <= 1 / 100000000.
Proof.
  intros S0 Z E. replace (IZR z * s - 1000000 * IZR z / S) with ((s * S - 1000000) * (IZR z / S)) by (field; lra).
  rewrite Rabs_mult. rewrite <- (Rmult_1_r (1 / 100000000)). apply Rmult_le_compat; try apply Rabs_pos; [exact E|].
  unfold Rdiv. rewrite Rabs_mult, (Rabs_pos_eq (/ S)) by (left; apply Rinv_0_lt_compat, S0). apply Rmult_le_reg_r with S; [exact S0|].
  rewrite Rmult_assoc, Rinv_l by lra. lra.
Qed.

Lemma unit_bound v : nonzero v -> Rabs (unit_lon v) <= 1000000 /\ Rabs (unit_lat v) <= 1000000.
Proof.
  intros N. destruct (axis_le v) as [X Y]. pose proof (dot_pos v N) as P. apply IZR_lt in P. apply sqrt_lt_R0 in P. unfold unit_lon, unit_lat.
  split; unfold Rdiv; rewrite !Rabs_mult, (Rabs_pos_eq (/ _)), (Rabs_pos_eq 1000000) by (try lra; left; apply Rinv_0_lt_compat, P);
    (apply Rmult_le_reg_r with (sqrt (IZR (dot v v))); [exact P|]; rewrite Rmult_assoc, Rinv_l by lra; lra).
Qed.

Lemma unit_vector v : coord_i32 v -> nonzero v ->
  exists r, coord_div v (magnitude v) = Ok r /\ coord_i32 r /\
    Rabs (IZR (lon r) - unit_lon v) <= 500001 / 1000000 /\ Rabs (IZR (lat r) - unit_lat v) <= 500001 / 1000000.
Proof.
  intros I N. destruct (inverse_close v I N) as [F E]. destruct (axis_le v) as [X Y]. pose proof (dot_pos v N) as P. apply IZR_lt in P. apply sqrt_lt_R0 in P.
  pose proof (unit_part _ _ _ P X E) as Ux. pose proof (unit_part _ _ _ P Y E) as Uy. fold (unit_lon v) in Ux. fold (unit_lat v) in Uy.
  destruct (unit_bound v N) as [Bx By]. apply Rabs_le_inv in Ux, Uy, Bx, By.
  unfold coord_div. destruct (coord_mul_total v (fdiv f_1 (magnitude v)) I F) as (r & R); [apply Rabs_le; lra|apply Rabs_le; lra|].
  exists r. split; [exact R|]. destruct (coord_mul_inv _ _ _ I R) as (_ & Ir & Rx & Ry). split; [exact Ir|].
  apply Rabs_le_inv in Rx, Ry. split; apply Rabs_le; lra.
Qed.

(** its length *)
Lemma unit_length v : nonzero v -> Rsqr (unit_lon v) + Rsqr (unit_lat v) = Rsqr 1000000.
Proof.
  intros N. pose proof (dot_pos v N) as P. apply IZR_lt in P. pose proof (sqrt_lt_R0 _ P) as S0. pose proof (sqrt_sqrt _ (Rlt_le _ _ P)) as Q.
  unfold unit_lon, unit_lat, Rsqr. set (S := sqrt (IZR (dot v v))) in *.
  replace (1000000 * IZR (lon v) / S * (1000000 * IZR (lon v) / S) + 1000000 * IZR (lat v) / S * (1000000 * IZR (lat v) / S))
    with (1000000 * 1000000 * ((IZR (lon v) * IZR (lon v) + IZR (lat v) * IZR (lat v)) / (S * S))) by (field; lra).
  rewrite Q. unfold dot. rewrite plus_IZR, !mult_IZR. field. unfold dot in P. rewrite plus_IZR, !mult_IZR in P. lra.
Qed.

Lemma zero_magnitude : coord_div (mkC 0 0) (magnitude (mkC 0 0)) = UB BadCast.
Proof. vm_compute. reflexivity. Qed.

(** ** The foot point with a margin *)
Lemma far_magnitude v : coord_i32 v -> (2 <= dot v v)%Z -> fltb f_1em6 (magnitude v) = true.
Proof.
  intros I D. assert (N : nonzero v) by (intros ->; unfold dot in D; cbn [lon lat] in D; lia).
  destruct (magnitude_close v I N) as (F & B & E). destruct micro_val as [V6 F6]. apply (fltb_iff _ _ F6 F). rewrite V6.
  apply Rabs_le_inv in E. rewrite u53_val in E. pose proof micro_bounds as M. apply IZR_le in D.
  assert (S : 1.4 <= sqrt (IZR (dot v v))) by (rewrite <- (sqrt_square 1.4) by lra; apply sqrt_le_1_alt; lra). nra.
Qed.

Lemma near_magnitude v : (dot v v < 2)%Z -> fltb f_1em6 (magnitude v) = false.
Proof.
  destruct v as [x y]. unfold dot. cbn [lon lat]. intros D.
  assert (C : (x = 0 /\ y = 0 \/ x = 0 /\ y = 1 \/ x = 0 /\ y = -1 \/ x = 1 /\ y = 0 \/ x = -1 /\ y = 0)%Z) by nia.
  repeat (destruct C as [[-> ->]|C]; [vm_compute; reflexivity|]). destruct C as [-> ->]. vm_compute. reflexivity.
Qed.

Definition step (a b : coord) : coord := mkC (lon b - lon a) (lat b - lat a).

Lemma project_margin pr s c m : ngeo c -> ngeo (pr s c) -> is_finite m = true -> Rabs (V m) <= 1000 ->
  let d := step c (pr s c) in
  ((dot d d < 2)%Z -> project pr s c m = Ok (pr s c)) /\
  ((2 <= dot d d)%Z -> exists r, project pr s c m = Ok r /\
     Rabs (IZR (lon r) - (IZR (lon (pr s c)) + V m * unit_lon d)) <= 500001 / 1000000 * (Rabs (V m) + 1) /\
     Rabs (IZR (lat r) - (IZR (lat (pr s c)) + V m * unit_lat d)) <= 500001 / 1000000 * (Rabs (V m) + 1)).
Proof.
  intros Gc Gp Fm Bm d. unfold project. destruct Gc as [C1 C2], Gp as [P1 P2].
  rewrite coord_sub_ok by (unfold INT32_MIN, INT32_MAX; lia). cbn [bind]. fold (step c (pr s c)). fold d.
  assert (Id : coord_i32 d) by (unfold d, step, coord_i32; cbn [lon lat]; unfold INT32_MIN, INT32_MAX; lia).
  split; intros D.
  - cbv zeta. rewrite (near_magnitude d D). reflexivity.
  - cbv zeta. rewrite (far_magnitude d Id D).
    assert (N : nonzero d) by (intros E; rewrite E in D; unfold dot in D; cbn [lon lat] in D; lia).
    destruct (unit_vector d Id N) as (q & Q & Iq & Qx & Qy). rewrite Q. cbn [bind]. destruct (unit_bound d N) as [Ux Uy].
    assert (K : forall (z : Z) u, Rabs (IZR z - u) <= 500001 / 1000000 -> Rabs u <= 1000000 ->
              Rabs (IZR z * V m) <= 1000001 * 1000 /\ Rabs (IZR z * V m - V m * u) <= 500001 / 1000000 * Rabs (V m)).
    { intros z u H1 H2. split.
      - rewrite Rabs_mult. apply Rmult_le_compat; try apply Rabs_pos; [|exact Bm]. apply Rabs_le_inv in H1, H2. apply Rabs_le. lra.
      - replace (IZR z * V m - V m * u) with ((IZR z - u) * V m) by ring. rewrite Rabs_mult. apply Rmult_le_compat_r; [apply Rabs_pos|exact H1]. }
    destruct (K _ _ Qx Ux) as [Kx Lx]. destruct (K _ _ Qy Uy) as [Ky Ly].
    destruct (coord_mul_total q m Iq Fm) as (w & W); [lra|lra|]. rewrite W. cbn [bind].
    destruct (coord_mul_inv _ _ _ Iq W) as (_ & Iw & Wx & Wy).
    assert (B : forall (z : Z) x, Rabs x <= 1000001 * 1000 -> Rabs (IZR z - x) <= / 2 + / 1048576 -> (-1000002000 <= z <= 1000002000)%Z).
    { intros z x H1 H2. apply Rabs_le_inv in H1, H2. split; apply le_IZR; lra. }
    pose proof (B _ _ Kx Wx) as Bx. pose proof (B _ _ Ky Wy) as By.
    exists (mkC (lon (pr s c) + lon w) (lat (pr s c) + lat w)). split.
    { unfold coord_add. rewrite !i32_ok by (unfold INT32_MIN, INT32_MAX; lia). reflexivity. }
    cbn [lon lat]. rewrite !plus_IZR. split.
    + replace (IZR (lon (pr s c)) + IZR (lon w) - (IZR (lon (pr s c)) + V m * unit_lon d)) with
        ((IZR (lon w) - IZR (lon q) * V m) + (IZR (lon q) * V m - V m * unit_lon d)) by ring.
      eapply Rle_trans; [apply Rabs_triang|]. lra.
    + replace (IZR (lat (pr s c)) + IZR (lat w) - (IZR (lat (pr s c)) + V m * unit_lat d)) with
        ((IZR (lat w) - IZR (lat q) * V m) + (IZR (lat q) * V m - V m * unit_lat d)) by ring.
      eapply Rle_trans; [apply Rabs_triang|]. lra.
Qed.

(** ** Length of the rounded vector *)
Lemma rounded_length x y ux uy : Rsqr ux + Rsqr uy = Rsqr 1000000 ->
  Rabs (x - ux) <= 500001 / 1000000 -> Rabs (y - uy) <= 500001 / 1000000 -> Rabs (sqrt (Rsqr x + Rsqr y) - 1000000) <= 1.
Proof.
  intros U X Y. set (e := x - ux) in *. set (f := y - uy) in *. assert (Ex : x = ux + e) by (unfold e; ring). assert (Ey : y = uy + f) by (unfold f; ring).
  clearbody e f. subst x y. unfold Rsqr in *.
  assert (N : e * e + f * f <= 1) by (apply Rabs_le_inv in X, Y; nra).
  assert (C : (ux * e + uy * f) * (ux * e + uy * f) <= 999999 * 999999).
  { apply Rle_trans with ((ux * ux + uy * uy) * (e * e + f * f)).
    - assert (0 <= (ux * f - uy * e) * (ux * f - uy * e)) by apply Rle_0_sqr. lra.
    - rewrite U. apply Rabs_le_inv in X, Y. assert (e * e + f * f <= 6 / 10) by nra. lra. }
  set (k := ux * e + uy * f) in *. assert (K : -999999 <= k <= 999999) by nra.
  assert (Q : (ux + e) * (ux + e) + (uy + f) * (uy + f) = 1000000 * 1000000 + 2 * k + (e * e + f * f)) by (unfold k; lra).
  set (w := (ux + e) * (ux + e) + (uy + f) * (uy + f)) in *.
  assert (E0 : 0 <= e * e + f * f) by nra.
  apply Rabs_le. split.
  - assert (999999 <= sqrt w); [|lra]. rewrite <- (sqrt_square 999999) by lra. apply sqrt_le_1_alt. lra.
  - assert (sqrt w <= 1000001); [|lra]. rewrite <- (sqrt_square 1000001) by lra. apply sqrt_le_1_alt. lra.
Qed.

(** ** Squared lengths *)
Lemma magnitude_is_dot v : magnitude_squared v = dot_product v v. Proof. reflexivity. Qed.
Lemma micro_sqrt v : coord_i32 v -> nonzero v ->
  Rabs (V (magnitude v) - sqrt (IZR (dot v v)) / 1000000) <= sqrt (IZR (dot v v)) / 1000000 / 1000000000000000.
Proof.
  intros I N. destruct (magnitude_close v I N) as (_ & _ & E). rewrite u53_val in E. pose proof micro_bounds as M. pose proof (sqrt_pos (IZR (dot v v))) as S0.
  set (S := sqrt _) in *. apply Rabs_le_inv in E. assert (K : 0.000001 * (1 - 1 / 10000000000000000) * S <= micro * S <= 0.000001 * (1 + 1 / 10000000000000000) * S) by (split; apply Rmult_le_compat_r; lra).
  apply Rabs_le. lra.
Qed.
