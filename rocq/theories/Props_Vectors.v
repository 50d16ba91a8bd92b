(** Vectors in degrees: products, lengths, unit vectors and foot points with a margin. *)
From Coq Require Import ZArith Reals Bool List Lia Lra Psatz.
From Flocq Require Import Core.
From Flocq Require Import BinarySingleNaN.
From Verif Require Import Base F64 Coordinate Vectors Segment SpecGeom F64Facts CoordinateFacts VectorFacts.
Import ListNotations.
Local Open Scope R_scope.

(** length of a vector in microdegrees *)
Definition norm (v : coord) : R := sqrt (Rsqr (IZR (lon v)) + Rsqr (IZR (lat v))).
Lemma norm_dot v : norm v = sqrt (IZR (dot v v)).
Proof. unfold norm, dot, Rsqr. rewrite plus_IZR, !mult_IZR. reflexivity. Qed.
Definition within (e x y : R) : Prop := Rabs (x - y) <= e.

(** ** C78: the unit vector *)
Theorem C78_unit : forall v, coord_i32 v -> v <> mkC 0 0 ->
  exists r, coord_normalize v = Ok r /\
    within (500001 / 1000000) (IZR (lon r)) (1000000 * IZR (lon v) / norm v) /\
    within (500001 / 1000000) (IZR (lat r)) (1000000 * IZR (lat v) / norm v) /\
    within 1 (norm r) 1000000.
Proof.
  intros v I N. destruct (unit_vector v I N) as (r & E & _ & X & Y). exists r. split; [exact E|]. rewrite (norm_dot v).
  split; [exact X|]. split; [exact Y|]. unfold within, norm. exact (rounded_length _ _ _ _ (unit_length v N) X Y).
Qed.
Print Assumptions C78_unit.

(** the zero vector: the quotient is no number and its conversion is undefined *)
Theorem C78_zero : coord_normalize (mkC 0 0) = UB BadCast.
Proof. exact zero_magnitude. Qed.
Print Assumptions C78_zero.

Example C78_example : coord_i32 (mkC 3 (-4)) /\ mkC 3 (-4) <> mkC 0 0 /\ coord_normalize (mkC 3 (-4)) = Ok (mkC 600000 (-800000)) /\
  coord_normalize (mkC 2147483647 (-2147483648)) = Ok (mkC 707107 (-707107)).
Proof. split; [unfold coord_i32, INT32_MIN, INT32_MAX; cbn [lon lat]; lia|]. split; [discriminate|]. split; vm_compute; reflexivity. Qed.

(** ** C79: the foot point with a margin *)
Theorem C79_margin_partial : forall pr s c m, ngeo c -> ngeo (pr s c) -> is_finite m = true -> Rabs (B2R m) <= 1000 ->
  let d := mkC (lon (pr s c) - lon c) (lat (pr s c) - lat c) in
  (norm d <= 1 -> project pr s c m = Ok (pr s c)) /\
  (1 < norm d -> exists r, project pr s c m = Ok r /\
     within (500001 / 1000000 * (Rabs (B2R m) + 1)) (IZR (lon r)) (IZR (lon (pr s c)) + B2R m * (1000000 * IZR (lon d) / norm d)) /\
     within (500001 / 1000000 * (Rabs (B2R m) + 1)) (IZR (lat r)) (IZR (lat (pr s c)) + B2R m * (1000000 * IZR (lat d) / norm d))).
Proof.
  intros pr s c m Gc Gp F B d. destruct (project_margin pr s c m Gc Gp F B) as [A C]. fold (step c (pr s c)) in d. fold d in A, C.
  rewrite norm_dot. split; intros H.
  - apply A. apply Z.lt_nge. intros D. apply IZR_le in D. assert (L : sqrt 2 <= sqrt (IZR (dot d d))) by (apply sqrt_le_1_alt, D).
    pose proof Rlt_sqrt2_0. pose proof (sqrt_sqrt 2 ltac:(lra)). nra.
  - apply C. apply Z.lt_pred_le. apply lt_IZR. cbn [Z.pred Z.add Z.pos_sub]. 
    destruct (Rlt_or_le 1 (IZR (dot d d))) as [L|L]; [exact L|]. apply sqrt_le_1_alt in L. rewrite sqrt_1 in L. lra.
Qed.
Print Assumptions C79_margin_partial.

(** without a margin the foot point is used as it is *)
Theorem C79_no_margin : forall pr s c, ngeo c -> ngeo (pr s c) -> project pr s c f_0 = Ok (pr s c).
Proof.
  intros pr s c Gc Gp. destruct (project_margin pr s c f_0 Gc Gp) as [A C]; [reflexivity|rewrite (proj1 V_f0), Rabs_R0; lra|].
  destruct (Z.lt_ge_cases (dot (step c (pr s c)) (step c (pr s c))) 2) as [L|L]; [exact (A L)|].
  destruct (C L) as (r & R & X & Y). rewrite R. f_equal. rewrite (proj1 V_f0) in X, Y. rewrite Rabs_R0, Rmult_0_l, Rplus_0_r in X, Y.
  assert (K : forall a b, Rabs (IZR a - IZR b) <= 500001 / 1000000 * (0 + 1) -> a = b).
  { intros a b H. rewrite <- minus_IZR in H. apply Rabs_le_inv in H. assert (-1 < a - b < 1)%Z by (split; apply lt_IZR; lra). lia. }
  destruct r as [x y], (pr s c) as [x' y']. cbn [lon lat] in *. f_equal; apply K; assumption.
Qed.
Print Assumptions C79_no_margin.

(** finding: a foot point one microdegree away is not moved, whatever the margin *)
Theorem C79_close_refuted : exists pr s c m, ngeo c /\ ngeo (pr s c) /\ B2R m = 5 /\
  let d := mkC (lon (pr s c) - lon c) (lat (pr s c) - lat c) in norm d = 1 /\ 1000000 * IZR (lon d) / norm d = 1000000 /\
  project pr s c m = Ok (pr s c).
Proof.
  exists (fun _ _ => mkC 1 0), (mkS (mkC 1 (-5)) (mkC 1 5)), (mkC 0 0), (f_of_Z 5).
  split; [unfold ngeo; cbn [lon lat]; lia|]. split; [unfold ngeo; cbn [lon lat]; lia|]. split; [apply (f_of_Z_exact 5); vm_compute; discriminate|].
  cbv zeta. unfold norm. cbn [lon lat Z.sub Z.add Z.opp]. rewrite Rsqr_1, Rsqr_0, Rplus_0_r, sqrt_1. split; [reflexivity|]. split; [field|].
  vm_compute. reflexivity.
Qed.
Print Assumptions C79_close_refuted.

Example C79_example : let pr := fun (_ : segment) (_ : coord) => mkC 3 4 in
  ngeo (mkC 0 0) /\ ngeo (pr (mkS (mkC 0 0) (mkC 0 0)) (mkC 0 0)) /\ is_finite (f_of_Z 5) = true /\
  project pr (mkS (mkC 0 0) (mkC 0 0)) (mkC 0 0) (f_of_Z 5) = Ok (mkC 3000003 4000004).
Proof.
  cbv zeta. split; [unfold ngeo; cbn [lon lat]; lia|]. split; [unfold ngeo; cbn [lon lat]; lia|]. split; vm_compute; reflexivity.
Qed.

(** ** C80: products and lengths *)
Theorem C80_products_partial : forall a b, coord_i32 a -> coord_i32 b ->
  let D := (lon a * lon b + lat a * lat b)%Z in let C := (lon a * lat b - lon b * lat a)%Z in
  let SD := (Z.abs (lon a * lon b) + Z.abs (lat a * lat b))%Z in let SC := (Z.abs (lon a * lat b) + Z.abs (lon b * lat a))%Z in
  is_finite (dot_product a b) = true /\ is_finite (cross_product_magnitude a b) = true /\
  within (IZR SD / 1000000000000 / 1000000000000000) (B2R (dot_product a b)) (IZR D / 1000000000000) /\
  within (IZR SC / 1000000000000 / 1000000000000000) (B2R (cross_product_magnitude a b)) (IZR C / 1000000000000) /\
  ((SD < 1000000000000000 * Z.abs D)%Z -> (0 < B2R (dot_product a b) <-> (0 < D)%Z) /\ (B2R (dot_product a b) < 0 <-> (D < 0)%Z)) /\
  ((SC < 1000000000000000 * Z.abs C)%Z -> (0 < B2R (cross_product_magnitude a b) <-> (0 < C)%Z) /\ (B2R (cross_product_magnitude a b) < 0 <-> (C < 0)%Z)).
Proof.
  intros a b A B D C SD SC. destruct (dot_product_close a b A B) as [F1 E1]. destruct (cross_product_close a b A B) as [F2 E2].
  split; [exact F1|]. split; [exact F2|]. split; [exact E1|]. split; [exact E2|]. split; intros L; eapply near_sign; eassumption.
Qed.
Print Assumptions C80_products_partial.

Theorem C80_lengths : forall v, coord_i32 v ->
  within (Rsqr (norm v) / 1000000000000 / 1000000000000000) (B2R (magnitude_squared v)) (Rsqr (norm v) / 1000000000000) /\
  within (norm v / 1000000 / 1000000000000000) (B2R (magnitude v)) (norm v / 1000000) /\
  (B2R (magnitude v) = 0 <-> v = mkC 0 0).
Proof.
  intros v I. pose proof (norm_dot v) as N.
  assert (Q : Rsqr (norm v) = IZR (dot v v)).
  { rewrite N. apply Rsqr_sqrt. apply IZR_le. unfold dot. nia. }
  split; [|destruct (coord_dec v (mkC 0 0)) as [->|NZ]].
  - unfold within. rewrite Q. destruct (dot_product_close v v I I) as [_ E]. rewrite magnitude_is_dot. replace (Z.abs (lon v * lon v) + Z.abs (lat v * lat v))%Z with (dot v v) in E by (unfold dot; nia). exact E.
  - assert (Z : norm (mkC 0 0) = 0) by (rewrite N; apply sqrt_0). assert (M : B2R (magnitude (mkC 0 0)) = 0) by (vm_compute; reflexivity).
    rewrite Z, M. unfold within. split; [|tauto]. rewrite Rminus_eq_0 || idtac. unfold Rdiv. rewrite !Rmult_0_l, Rminus_0_r, Rabs_R0. lra.
  - unfold within. rewrite N. split; [exact (micro_sqrt v I NZ)|]. split; [|tauto]. intros M.
    destruct (magnitude_close v I NZ) as (_ & B & _). unfold V in B. lra.
Qed.
Print Assumptions C80_lengths.

(** finding: the signs are not those of the integer products; parallel vectors have a cross
    product, and the cross and dot products of vectors on the map have the wrong sign *)
Theorem C80_sign_refuted :
  (let a := mkC 1 3 in let b := mkC 3 9 in parallel a b = Ok true /\ B2R (cross_product_magnitude a b) < 0) /\
  (let a := mkC 106797071 66515101 in let b := mkC 72194203 44963824 in
   ngeo a /\ ngeo b /\ vector_orientation a b = Ok COUNTER_CLOCKWISE /\ B2R (cross_product_magnitude a b) < 0) /\
  (let a := mkC 106797071 66515101 in let b := mkC 44963824 (-72194203) in
   ngeo a /\ ngeo b /\ dot_md a b = Ok 1%Z /\ B2R (dot_product a b) < 0).
Proof.
  assert (K : forall x, is_finite x = true -> fltb x f_0 = true -> B2R x < 0).
  { intros x F L. apply (fltb_iff x f_0 F (proj2 V_f0)) in L. rewrite (proj1 V_f0) in L. exact L. }
  cbv zeta. split; [|split]; repeat (split; [try (vm_compute; reflexivity); unfold ngeo; cbn [lon lat]; lia|]); apply K; vm_compute; reflexivity.
Qed.
Print Assumptions C80_sign_refuted.

Example C80_example : coord_i32 (mkC 3 4) /\ coord_i32 (mkC (-8) 6) /\
  (3 * -8 + 4 * 6 = 0)%Z /\ (Z.abs (3 * 6) + Z.abs (-8 * 4) < 1000000000000000 * Z.abs (3 * 6 - -8 * 4))%Z.
Proof. repeat split; cbn [lon lat]; vm_compute; congruence. Qed.
