(** The distances of the search: real values, accuracy, metric properties. *)
From Coq Require Import ZArith Reals Bool List Lia Lra Psatz Rgeom.
From Flocq Require Import Core.
From Flocq Require Import BinarySingleNaN.
From Verif Require Import Base F64 Coordinate Segment SpecGeom Periodicity PeriodicityFacts F64Facts CoordinateFacts PolygonFloat PolylineFacts
  GraphFacts AngleFacts ShortestPath.
Import ListNotations.
Local Open Scope R_scope.

(** ** Real distances, in microdegrees *)
(** straight-line distance in the plane *)
Definition apart (a b : coord) : R := sqrt (Rsqr (IZR (lon a) - IZR (lon b)) + Rsqr (IZR (lat a) - IZR (lat b))).
(** [a] moved by k periods *)
Definition turned (k : Z) (a : coord) : coord := mkC (lon a + k * 360000001) (lat a).
(** length of an edge that stays in the map, or of one across the meridian *)
Definition edge_length (across : bool) (a b : coord) : R :=
  if across then Rmin (apart (turned 1 a) b) (apart (turned (-1) a) b) else apart a b.
(** distance on the cylinder *)
Definition cylinder (a b : coord) : R := Rmin (edge_length false a b) (edge_length true a b).

Lemma apart_pos a b : 0 <= apart a b.
Proof. apply sqrt_pos. Qed.
Lemma apart_sym a b : apart a b = apart b a.
Proof. unfold apart. rewrite (Rsqr_neg_minus (IZR (lon a))), (Rsqr_neg_minus (IZR (lat a))). reflexivity. Qed.
Lemma apart_triangle a b c : apart a c <= apart a b + apart b c.
Proof. exact (triangle (IZR (lon a)) (IZR (lat a)) (IZR (lon c)) (IZR (lat c)) (IZR (lon b)) (IZR (lat b))). Qed.
Lemma apart_zero a b : apart a b = 0 <-> a = b.
Proof.
  unfold apart. split.
  - intros H. apply sqrt_eq_0 in H; [|pose proof (Rle_0_sqr (IZR (lon a) - IZR (lon b))); pose proof (Rle_0_sqr (IZR (lat a) - IZR (lat b))); lra].
    pose proof (Rle_0_sqr (IZR (lon a) - IZR (lon b))) as P. pose proof (Rle_0_sqr (IZR (lat a) - IZR (lat b))) as Q.
    assert (X : Rsqr (IZR (lon a) - IZR (lon b)) = 0) by lra. assert (Y : Rsqr (IZR (lat a) - IZR (lat b)) = 0) by lra.
    apply Rsqr_eq_0 in X. apply Rsqr_eq_0 in Y. destruct a as [ax ay], b as [bx by']. cbn [lon lat] in *.
    f_equal; apply eq_IZR; lra.
  - intros ->. rewrite !Rminus_diag_eq by reflexivity. unfold Rsqr. rewrite Rmult_0_l, Rplus_0_l. apply sqrt_0.
Qed.
Lemma apart_dot a b : apart a b = sqrt (IZR (dot (mkC (lon a - lon b) (lat a - lat b)) (mkC (lon a - lon b) (lat a - lat b)))).
Proof. unfold apart, dot, Rsqr. cbn [lon lat]. rewrite plus_IZR, !mult_IZR, !minus_IZR. reflexivity. Qed.

Lemma turned_0 a : turned 0 a = a.
Proof. unfold turned. rewrite Z.mul_0_l, Z.add_0_r. destruct a; reflexivity. Qed.
Lemma turned_both j k a b : apart (turned (j + k) a) (turned k b) = apart (turned j a) b.
Proof. unfold apart, turned. cbn [lon lat]. do 2 f_equal. unfold Rsqr. rewrite !plus_IZR, !mult_IZR, plus_IZR. ring. Qed.
Lemma turned_opp k a b : apart (turned k a) b = apart (turned (- k) b) a.
Proof. rewrite <- (turned_both k (- k) a b). rewrite Z.add_opp_diag_r, turned_0. apply apart_sym. Qed.

Lemma edge_length_sym f a b : edge_length f a b = edge_length f b a.
Proof.
  destruct f; cbn [edge_length]; [|apply apart_sym]. rewrite (turned_opp 1 a b), (turned_opp (-1) a b).
  change (- (1))%Z with (-1)%Z. change (- -1)%Z with 1%Z. apply Rmin_comm.
Qed.
Lemma cylinder_sym a b : cylinder a b = cylinder b a.
Proof. unfold cylinder. rewrite (edge_length_sym false), (edge_length_sym true). reflexivity. Qed.
Lemma edge_length_pos f a b : 0 <= edge_length f a b.
Proof. destruct f; cbn [edge_length]; [apply Rmin_glb|]; apply apart_pos. Qed.
Lemma cylinder_pos a b : 0 <= cylinder a b.
Proof. apply Rmin_glb; apply edge_length_pos. Qed.
Lemma cylinder_edge f a b : cylinder a b <= edge_length f a b.
Proof. destruct f; [apply Rmin_r|apply Rmin_l]. Qed.

(** the three copies are enough *)
Lemma apart_le a b c d : (Z.abs (lon a - lon b) <= Z.abs (lon c - lon d))%Z -> (lat a - lat b)%Z = (lat c - lat d)%Z -> apart a b <= apart c d.
Proof.
  intros X Y. rewrite !apart_dot. apply sqrt_le_1_alt, IZR_le. unfold dot. cbn [lon lat]. rewrite Y.
  assert ((lon a - lon b) * (lon a - lon b) <= (lon c - lon d) * (lon c - lon d))%Z by nia. lia.
Qed.
Lemma cylinder_le a b k : ngeo a -> ngeo b -> cylinder a b <= apart (turned k a) b.
Proof.
  intros [A _] [B _]. unfold cylinder. cbn [edge_length].
  assert (K : (k = 0 \/ 1 <= k \/ k <= -1)%Z) by lia. destruct K as [-> |[K|K]].
  - rewrite turned_0. apply Rmin_l.
  - eapply Rle_trans; [apply Rmin_r|]. eapply Rle_trans; [apply Rmin_l|]. apply apart_le; cbn [turned lon lat]; lia.
  - eapply Rle_trans; [apply Rmin_r|]. eapply Rle_trans; [apply Rmin_r|]. apply apart_le; cbn [turned lon lat]; lia.
Qed.
Lemma cylinder_some a b : exists k, cylinder a b = apart (turned k a) b.
Proof.
  unfold cylinder. cbn [edge_length]. unfold Rmin.
  destruct (Rle_dec (apart (turned 1 a) b) (apart (turned (-1) a) b)).
  - destruct (Rle_dec (apart a b) (apart (turned 1 a) b)); [exists 0%Z; rewrite turned_0|exists 1%Z]; reflexivity.
  - destruct (Rle_dec (apart a b) (apart (turned (-1) a) b)); [exists 0%Z; rewrite turned_0|exists (-1)%Z]; reflexivity.
Qed.
Lemma cylinder_triangle a b c : ngeo a -> ngeo b -> ngeo c -> cylinder a c <= cylinder a b + cylinder b c.
Proof.
  intros A B C. destruct (cylinder_some a b) as [j J]. destruct (cylinder_some b c) as [k K]. rewrite J, K.
  eapply Rle_trans; [apply (cylinder_le a c (j + k) A C)|]. rewrite <- (turned_both j k a b). apply apart_triangle.
Qed.
Lemma cylinder_zero a b : ngeo a -> ngeo b -> (cylinder a b = 0 <-> a = b).
Proof.
  intros [A _] [B _]. split; intros H.
  - destruct (cylinder_some a b) as [k K]. assert (X : turned k a = b) by (apply apart_zero; congruence).
    unfold turned in X. rewrite <- X in B |- *. cbn [lon] in B. assert (k = 0)%Z by lia. subst k. destruct a as [ax ay]. cbn [lon lat]. f_equal. lia.
  - subst b. apply Rle_antisym; [|apply cylinder_pos]. eapply Rle_trans; [apply Rmin_l|]. cbn [edge_length]. right. apply apart_zero. reflexivity.
Qed.

(** ** The doubles *)
Definition u5 : R := 5 * u53.
Lemma u5_val : u5 = 5 / 9007199254740992.
Proof. unfold u5. rewrite u53_val. lra. Qed.

Lemma fmin_ok x y : is_finite x = true -> is_finite y = true -> is_finite (fmin x y) = true /\ V (fmin x y) = Rmin (V x) (V y).
Proof.
  intros X Y. unfold fmin. pose proof (fltb_iff y x Y X) as I. destruct (fltb y x).
  - split; [exact Y|]. rewrite Rmin_right; [reflexivity|]. apply Rlt_le, I. reflexivity.
  - split; [exact X|]. rewrite Rmin_left; [reflexivity|]. apply Rnot_lt_le. intros H. apply I in H. discriminate H.
Qed.

Lemma sqrt_close x y e : 0 < y -> 0 <= e <= 1/2 -> Rabs (x - y) <= e * y -> Rabs (sqrt x - sqrt y) <= e * sqrt y.
Proof.
  intros Y E H. apply Rabs_le_inv in H. assert (X : 0 <= x) by nra.
  pose proof (sqrt_lt_R0 y Y) as SY. pose proof (sqrt_pos x) as SX. pose proof (sqrt_sqrt x X) as QX. pose proof (sqrt_sqrt y (Rlt_le _ _ Y)) as QY.
  set (p := sqrt x) in *. set (q := sqrt y) in *. apply Rabs_le. split.
  - destruct (Rle_or_lt (- (e * q)) (p - q)) as [T|T]; [exact T|exfalso].
    assert (K : p * p < q * (1 - e) * (q * (1 - e))) by (apply Rmult_le_0_lt_compat; lra).
    replace (q * (1 - e) * (q * (1 - e))) with (y * ((1 - e) * (1 - e))) in K by (rewrite <- QY; ring). nra.
  - destruct (Rle_or_lt (p - q) (e * q)) as [T|T]; [exact T|exfalso].
    assert (K : q * (1 + e) * (q * (1 + e)) < p * p) by (apply Rmult_le_0_lt_compat; nra).
    replace (q * (1 + e) * (q * (1 + e))) with (y * ((1 + e) * (1 + e))) in K by (rewrite <- QY; ring). nra.
Qed.

Lemma micro_pos : 0 < micro.
Proof. pose proof micro_bounds. lra. Qed.

Lemma magnitude_ok v : (Z.abs (lon v) <= 720000001)%Z -> (Z.abs (lat v) <= 180000000)%Z ->
  is_finite (magnitude v) = true /\ 0 <= V (magnitude v) <= 1024 /\
  Rabs (V (magnitude v) - micro * sqrt (IZR (dot v v))) <= u5 * (micro * sqrt (IZR (dot v v))).
Proof.
  intros X Y. pose proof micro_bounds as M. pose proof micro_pos as Mp.
  destruct (Z.eq_dec (dot v v) 0) as [Z0|NZ].
  { assert (E : v = mkC 0 0) by (destruct v as [x y]; unfold dot in Z0; cbn [lon lat] in Z0; f_equal; nia). subst v.
    assert (E : V (magnitude (mkC 0 0)) = 0).
    { unfold magnitude. rewrite fsqrt_correct.
      assert (Z : V (magnitude_squared (mkC 0 0)) = 0) by (vm_compute; reflexivity). rewrite Z, sqrt_0. apply rnd_0. }
    split; [vm_compute; reflexivity|]. rewrite E, Z0, sqrt_0. split; [lra|]. rewrite Rmult_0_r, Rmult_0_r, Rminus_0_r, Rabs_R0. lra. }
  assert (N : nonzero v) by (intros ->; apply NZ; reflexivity).
  destruct (magnitude_squared_ok v) as [F E]; [unfold i31; lia|unfold i31; lia|exact N|].
  set (D := IZR (dot v v)) in *. assert (D1 : 1 <= D <= 600000000000000000).
  { unfold D. pose proof (dot_pos v N). split; apply IZR_le; [lia|]. unfold dot. nia. }
  set (T := micro * micro * D) in *. assert (T0 : 0 < T) by (unfold T; nra).
  assert (ST : sqrt T = micro * sqrt D).
  { unfold T. rewrite sqrt_mult_alt by nra. rewrite sqrt_square by lra. reflexivity. }
  assert (C : Rabs (sqrt (V (magnitude_squared v)) - micro * sqrt D) <= 3.1 * u53 * (micro * sqrt D)).
  { rewrite <- ST. 
    assert (H6 : Rabs (sqrt (V (magnitude_squared v)) - sqrt T) * (sqrt (V (magnitude_squared v)) + sqrt T) <= 6 * u53 * (sqrt T * sqrt T)).
    { rewrite sqrt_sqrt by lra. eapply Rle_trans; [|exact E].
      assert (Vp : 0 <= V (magnitude_squared v)) by (apply Rabs_le_inv in E; rewrite u53_val in E; nra).
      rewrite <- (sqrt_sqrt (V (magnitude_squared v))) at 3 by exact Vp. rewrite <- (sqrt_sqrt T) at 3 by lra.
      pose proof (sqrt_pos (V (magnitude_squared v))). pose proof (sqrt_pos T).
      rewrite <- (Rabs_pos_eq (sqrt (V (magnitude_squared v)) + sqrt T)) by lra. rewrite <- Rabs_mult. right. f_equal. ring. }
    assert (L : sqrt (V (magnitude_squared v)) >= sqrt T * (1 - 6 * u53)).
    { pose proof (sqrt_close (V (magnitude_squared v)) T (6 * u53) T0) as K. rewrite u53_val in *. 
      assert (K' := K ltac:(lra) E). apply Rabs_le_inv in K'. lra. }
    pose proof (sqrt_lt_R0 T T0) as S0. set (p := sqrt (V (magnitude_squared v))) in *. set (q := sqrt T) in *. rewrite u53_val in *.
    set (r := Rabs (p - q)) in *. assert (R0 : 0 <= r) by apply Rabs_pos. nra. }
  set (W := micro * sqrt D) in *.
  assert (SD : 1 <= sqrt D <= 775000000).
  { split; [rewrite <- sqrt_1; apply sqrt_le_1_alt; lra|]. rewrite <- (sqrt_square 775000000) by lra. apply sqrt_le_1_alt. lra. }
  assert (WB : 0.0000009 <= W <= 776) by (unfold W; nra).
  apply Rabs_le_inv in C. rewrite u53_val in C.
  set (Q := sqrt (V (magnitude_squared v))) in *.
  assert (R : Rabs (rnd Q - Q) <= u53 * Rabs Q).
  { apply rnd_error. left. apply Rle_trans with (bpow radix2 (-60)); [apply bpow_le; lia|].
    change (bpow radix2 (-60)) with (/ 1152921504606846976). rewrite Rabs_pos_eq by lra. lra. }
  rewrite u53_val, (Rabs_pos_eq Q) in R by lra. apply Rabs_le_inv in R.
  assert (Fm : is_finite (magnitude v) = true).
  { unfold magnitude. apply fsqrt_finite; [exact F|]. destruct (Rle_or_lt 0 (V (magnitude_squared v))) as [H|H]; [exact H|].
    exfalso. unfold Q in C. rewrite sqrt_neg_0 in C by lra. lra. }
  unfold magnitude in *. rewrite fsqrt_correct. fold Q. split; [exact Fm|]. rewrite u5_val. split; [lra|]. apply Rabs_le. lra.
Qed.

Lemma min_close x y a b e : 0 <= e <= 1 -> Rabs (x - a) <= e * a -> Rabs (y - b) <= e * b -> Rabs (Rmin x y - Rmin a b) <= e * Rmin a b.
Proof.
  intros E X Y. apply Rabs_le_inv in X. apply Rabs_le_inv in Y. apply Rabs_le.
  unfold Rmin. destruct (Rle_dec x y), (Rle_dec a b); split; nra.
Qed.

(** an answer of the distance functions: finite, at most 1024 degrees, close to [r] microdegrees *)
Definition measures (d : f64) (r : R) : Prop :=
  is_finite d = true /\ 0 <= V d <= 1024 /\ Rabs (V d - micro * r) <= u5 * (micro * r).

Lemma sub_measures a b : (Z.abs (lon a) <= 540000001)%Z -> (Z.abs (lat a) <= 90000000)%Z -> ngeo b ->
  exists d, (d <- coord_sub a b ;; Ok (magnitude d)) = Ok d /\ measures d (apart a b).
Proof.
  intros A A' [B B']. rewrite coord_sub_ok by (unfold INT32_MIN, INT32_MAX; lia). cbn [bind]. eexists. split; [reflexivity|].
  rewrite apart_dot. apply magnitude_ok; cbn [lon lat]; lia.
Qed.

Lemma measures_min x y a b : measures x a -> measures y b -> measures (fmin x y) (Rmin a b).
Proof.
  intros (X1 & X2 & X3) (Y1 & Y2 & Y3). destruct (fmin_ok x y X1 Y1) as [F E]. split; [exact F|]. rewrite E. split.
  - unfold Rmin. destruct (Rle_dec (V x) (V y)); lra.
  - pose proof micro_pos. assert (S : micro * Rmin a b = Rmin (micro * a) (micro * b)).
    { unfold Rmin. destruct (Rle_dec a b), (Rle_dec (micro * a) (micro * b)); try reflexivity; nra. }
    rewrite S. apply min_close; [rewrite u5_val; lra|exact X3|exact Y3].
Qed.

Lemma distance_ok f a b : ngeo a -> ngeo b -> exists d, distance_measurement a b f = Ok d /\ measures d (edge_length f a b).
Proof.
  intros A B. unfold distance_measurement. destruct f; cbn [negb edge_length].
  - rewrite periodic_coordinates_ok by (destruct A; lia). cbn [bind nth].
    destruct (sub_measures (turned 1 a) b) as (x & X & MX); [destruct A; cbn [turned lon lat]; lia..|exact B|].
    destruct (sub_measures (turned (-1) a) b) as (y & Y & MY); [destruct A; cbn [turned lon lat]; lia..|exact B|].
    unfold turned in X, Y. rewrite Z.mul_1_l in X. change (-1 * 360000001)%Z with (-360000001)%Z in Y. 
    replace (lon a - 360000001)%Z with (lon a + -360000001)%Z by lia.
    destruct (coord_sub (mkC (lon a + 360000001) (lat a)) b) as [v1| |]; cbn [bind] in X |- *; [|discriminate X..].
    destruct (coord_sub (mkC (lon a + -360000001) (lat a)) b) as [v2| |]; cbn [bind] in Y |- *; [|discriminate Y..].
    eexists. split; [reflexivity|]. inversion X as [X']. inversion Y as [Y']. apply measures_min; [rewrite X'; exact MX|rewrite Y'; exact MY].
  - apply sub_measures; [destruct A; lia..|exact B].
Qed.

Lemma heuristic_ok a b : ngeo a -> ngeo b -> exists d, heuristic_distance a b = Ok d /\ measures d (cylinder a b).
Proof.
  intros A B. unfold heuristic_distance. destruct (distance_ok false a b A B) as (x & -> & X). cbn [bind].
  destruct (distance_ok true a b A B) as (y & -> & Y). cbn [bind]. eexists. split; [reflexivity|]. apply measures_min; assumption.
Qed.
