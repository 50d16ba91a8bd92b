(** Facts about [Coordinate]: exactness, rounding, orientation. *)
From Coq Require Import ZArith Bool List Lia ZifyBool Reals Lra Psatz.
From Coq Require SpecFloat.
From Flocq Require Import Core BinarySingleNaN.
From Verif Require Import Base F64 F64Facts Coordinate Segment Polygon.
Import ListNotations.
Local Open Scope R_scope.

(** The double nearest to 1e-6. *)
Definition micro : R := IZR 4722366482869645 * bpow radix2 (-72).

Lemma bpow_m72 : bpow radix2 (-72) = / IZR 4722366482869645213696.
Proof. reflexivity. Qed.

Lemma micro_val : V f_1em6 = micro /\ is_finite f_1em6 = true.
Proof.
  split; [|vm_compute; reflexivity].
  assert (E : B2SF f_1em6 = SpecFloat.S754_finite false 4722366482869645 (-72)) by (vm_compute; reflexivity).
  destruct f_1em6 as [s|s| |s m e H]; try discriminate. simpl in E. inversion E; subst.
  unfold V, B2R, F2R, micro. simpl Fnum. simpl Fexp. reflexivity.
Qed.

Lemma million_val : V f_1e6 = 1000000 /\ is_finite f_1e6 = true.
Proof. apply (f_of_Z_exact 1000000). vm_compute. discriminate. Qed.

Lemma micro_bounds : 0.000001 * (1 - 1/10000000000000000) <= micro <= 0.000001 * (1 + 1/10000000000000000).
Proof. unfold micro. rewrite bpow_m72. lra. Qed.

Lemma abs_bound x b : - b <= x <= b -> Rabs x <= b.
Proof. intros. apply Rabs_le. lra. Qed.

Lemma IZR_abs_le z n : (Z.abs z <= n)%Z -> - IZR n <= IZR z <= IZR n.
Proof. intros. split; [rewrite <- opp_IZR|]; apply IZR_le; lia. Qed.

Lemma small_le_big x : Rabs x <= 1267650600228229401496703205376 -> Rabs x <= big.
Proof.
  intros H. eapply Rle_trans; [exact H|]. change 1267650600228229401496703205376 with (bpow radix2 100).
  unfold big. apply bpow_le. lia.
Qed.

(** ** Degrees *)
Definition i31 (z : Z) : Prop := (Z.abs z <= 2147483648)%Z.

Lemma i31_R z : i31 z -> -2147483648 <= IZR z <= 2147483648.
Proof. intros H. apply (IZR_abs_le z 2147483648) in H. exact H. Qed.

Lemma i32_i31 z : (INT32_MIN <= z <= INT32_MAX)%Z -> i31 z.
Proof. unfold INT32_MIN, INT32_MAX, i31. lia. Qed.

Lemma f_of_Z_i31 z : i31 z -> V (f_of_Z z) = IZR z /\ is_finite (f_of_Z z) = true.
Proof. intros H. apply f_of_Z_exact. unfold i31 in H. change (2^53)%Z with 9007199254740992%Z. lia. Qed.

Lemma deg_val z : i31 z ->
  V (microdegrees_to_degrees z) = rnd (micro * IZR z) /\ is_finite (microdegrees_to_degrees z) = true.
Proof.
  intros H. unfold microdegrees_to_degrees.
  destruct micro_val as [M1 M2]. destruct (f_of_Z_i31 z H) as [Z1 Z2].
  apply i31_R in H. pose proof micro_bounds as B.
  destruct (fmul_correct f_1em6 (f_of_Z z) M2 Z2) as [A1 A2].
  - rewrite M1, Z1. apply small_le_big, abs_bound. nra.
  - rewrite M1, Z1 in A1. auto.
Qed.

Lemma bpow_m1022_small : bpow radix2 (-1022) <= 1 / 10000000.
Proof.
  apply Rle_trans with (bpow radix2 (-24)); [apply bpow_le; lia|].
  change (bpow radix2 (-24)) with (/ 16777216). lra.
Qed.

(** rounding the product of an integer with a normal number is relatively accurate *)
Lemma rnd_mult_Z_err m z : 1 / 10000000 <= Rabs m ->
  Rabs (rnd (m * IZR z) - m * IZR z) <= u53 * Rabs (m * IZR z).
Proof.
  intros Hm. apply rnd_error. destruct (Z.eq_dec z 0) as [->|N].
  - right. lra.
  - left. rewrite Rabs_mult. rewrite <- abs_IZR.
    assert (1 <= IZR (Z.abs z)) by (apply IZR_le; lia).
    pose proof bpow_m1022_small. nra.
Qed.

Lemma u53_val : u53 = 1 / 9007199254740992.
Proof. unfold u53. lra. Qed.

Lemma deg_close z : i31 z ->
  Rabs (V (microdegrees_to_degrees z) - micro * IZR z) <= u53 * (micro * IZR (Z.abs z)).
Proof.
  intros H. destruct (deg_val z H) as [E _]. rewrite E.
  pose proof micro_bounds as B.
  assert (Rabs micro = micro) by (apply Rabs_right; lra).
  eapply Rle_trans; [apply rnd_mult_Z_err; rewrite H0; lra|].
  rewrite Rabs_mult, H0, <- abs_IZR. lra.
Qed.

Lemma deg_strict x y : i31 x -> i31 y -> (x < y)%Z ->
  V (microdegrees_to_degrees x) < V (microdegrees_to_degrees y).
Proof.
  intros Hx Hy L. pose proof (deg_close x Hx) as Cx. pose proof (deg_close y Hy) as Cy.
  apply Rabs_le_inv in Cx. apply Rabs_le_inv in Cy.
  assert (Ax : IZR (Z.abs x) <= 2147483648) by (apply IZR_le; exact Hx).
  assert (Ay : IZR (Z.abs y) <= 2147483648) by (apply IZR_le; exact Hy).
  assert (D : IZR x + 1 <= IZR y) by (rewrite <- plus_IZR; apply IZR_le; lia).
  pose proof micro_bounds as B. rewrite u53_val in *.
  assert (micro * IZR (Z.abs x) <= micro * 2147483648) by (apply Rmult_le_compat_l; lra).
  assert (micro * IZR (Z.abs y) <= micro * 2147483648) by (apply Rmult_le_compat_l; lra).
  assert (micro * (IZR x + 1) <= micro * IZR y) by (apply Rmult_le_compat_l; lra).
  lra.
Qed.

Lemma deg_fleb x y : i31 x -> i31 y ->
  (fleb (microdegrees_to_degrees x) (microdegrees_to_degrees y) = true <-> (x <= y)%Z).
Proof.
  intros Hx Hy. rewrite fleb_iff by (apply deg_val; assumption). split; intros H.
  - destruct (Z_lt_le_dec y x) as [L|L]; [|exact L].
    pose proof (deg_strict y x Hy Hx L). lra.
  - destruct (Z.eq_dec x y) as [->|N]; [lra|]. left. apply deg_strict; auto. lia.
Qed.

Lemma deg_fltb x y : i31 x -> i31 y ->
  (fltb (microdegrees_to_degrees x) (microdegrees_to_degrees y) = true <-> (x < y)%Z).
Proof.
  intros Hx Hy. rewrite fltb_iff by (apply deg_val; assumption). split; intros H.
  - destruct (Z_lt_le_dec x y) as [L|L]; [exact L|].
    destruct (Z.eq_dec x y) as [->|N]; [lra|].
    pose proof (deg_strict y x Hy Hx ltac:(lia)). lra.
  - apply deg_strict; auto.
Qed.

(** truncation of a value close to an integer *)
Lemma trunc_near x z : Rabs (x - IZR z) < 1 ->
  Ztrunc x = z \/ (0 < z /\ Ztrunc x = z - 1)%Z \/ (z < 0 /\ Ztrunc x = z + 1)%Z.
Proof.
  intros H. apply Rabs_def2 in H. destruct H as [H1 H2].
  destruct (Rle_or_lt 0 x) as [P|P].
  - rewrite Ztrunc_floor by exact P.
    destruct (Rle_or_lt (IZR z) x) as [Q|Q].
    + left. apply Zfloor_imp. rewrite plus_IZR. lra.
    + right. left. split.
      * apply lt_IZR. lra.
      * apply Zfloor_imp. rewrite minus_IZR, plus_IZR, minus_IZR. lra.
  - rewrite Ztrunc_ceil by lra.
    destruct (Rle_or_lt x (IZR z)) as [Q|Q].
    + left. apply Zceil_imp. rewrite minus_IZR. lra.
    + right. right. split.
      * apply lt_IZR. lra.
      * apply Zceil_imp. rewrite minus_IZR, plus_IZR. lra.
Qed.

Lemma degrees_back z : i31 z ->
  exists w, is_finite (fmul f_1e6 (microdegrees_to_degrees z)) = true /\
    Ztrunc (V (fmul f_1e6 (microdegrees_to_degrees z))) = w /\
    (w = z \/ (0 < z /\ w = z - 1)%Z \/ (z < 0 /\ w = z + 1)%Z) /\
    Rabs (V (fmul f_1e6 (microdegrees_to_degrees z)) - IZR z) <= 1/100000.
Proof.
  intros H. destruct (deg_val z H) as [E F]. pose proof (deg_close z H) as C.
  destruct million_val as [M1 M2]. pose proof micro_bounds as B.
  assert (A : IZR (Z.abs z) <= 2147483648) by (apply IZR_le; exact H).
  pose proof (i31_R z H) as R. apply Rabs_le_inv in C. rewrite u53_val in C.
  assert (A' : 0 <= IZR (Z.abs z)) by (apply IZR_le; lia).
  assert (MA : micro * IZR (Z.abs z) <= micro * 2147483648) by (apply Rmult_le_compat_l; lra).
  set (v := V (microdegrees_to_degrees z)) in *.
  assert (Z1 : - 3/10000000 <= 1000000 * (micro * IZR z) - IZR z <= 3/10000000).
  { replace (1000000 * (micro * IZR z) - IZR z) with ((1000000 * micro - 1) * IZR z) by ring.
    assert (- (1/10000000000000000) <= 1000000 * micro - 1 <= 1/10000000000000000) by lra.
    split; nra. }
  assert (Z2 : - 6/1000000 <= 1000000 * v - IZR z <= 6/1000000) by lra.
  destruct (fmul_correct f_1e6 (microdegrees_to_degrees z) M2 F) as [P1 P2].
  { rewrite M1. fold v. apply small_le_big, abs_bound. lra. }
  rewrite M1 in P1. fold v in P1.
  assert (Z3 : Rabs (rnd (1000000 * v) - 1000000 * v) <= u53 * Rabs (1000000 * v)).
  { apply rnd_error. destruct (Z.eq_dec z 0) as [E0|N].
    - right. rewrite E, E0, Rmult_0_r, rnd_0. lra.
    - left. assert (1 <= Rabs (IZR z)) by (rewrite <- abs_IZR; apply IZR_le; lia).
      pose proof bpow_m1022_small. unfold Rabs in *. destruct (Rcase_abs (IZR z)), (Rcase_abs (1000000*v)); lra. }
  assert (Z4 : Rabs (1000000 * v) <= 2147483649) by (apply abs_bound; lra).
  rewrite u53_val in Z3. apply Rabs_le_inv in Z3.
  eexists. split; [exact P2|]. split; [reflexivity|]. rewrite P1. split.
  - apply trunc_near. apply Rabs_def1; lra.
  - apply Rabs_le. lra.
Qed.

Lemma degrees_to_microdegrees_back z : (INT32_MIN <= z <= INT32_MAX)%Z ->
  exists w, degrees_to_microdegrees (microdegrees_to_degrees z) = Ok w /\
    (w = z \/ (0 < z /\ w = z - 1)%Z \/ (z < 0 /\ w = z + 1)%Z).
Proof.
  intros H. destruct (degrees_back z (i32_i31 z H)) as (w & F & T & D & _).
  exists w. split; [|exact D]. unfold degrees_to_microdegrees. apply f_to_i32_ok; auto.
  unfold INT32_MIN, INT32_MAX in *. lia.
Qed.

Lemma coord_back c : coord_i32 c ->
  exists r, coord_of_degrees (get_longitude c) (get_latitude c) = Ok r /\
    (Z.abs (lon r - lon c) <= 1 /\ Z.abs (lon r) <= Z.abs (lon c) /\
     Z.abs (lat r - lat c) <= 1 /\ Z.abs (lat r) <= Z.abs (lat c))%Z.
Proof.
  intros [H1 H2]. unfold coord_of_degrees, get_longitude, get_latitude.
  destruct (degrees_to_microdegrees_back _ H1) as (x & -> & Dx).
  destruct (degrees_to_microdegrees_back _ H2) as (y & -> & Dy).
  simpl. eexists. split; [reflexivity|]. simpl. lia.
Qed.

(** ** Vector arithmetic *)
Lemma coord_add_ok a b :
  (INT32_MIN <= lon a + lon b <= INT32_MAX)%Z -> (INT32_MIN <= lat a + lat b <= INT32_MAX)%Z ->
  coord_add a b = Ok (mkC (lon a + lon b) (lat a + lat b)).
Proof. intros H1 H2. unfold coord_add. rewrite !i32_ok by assumption. reflexivity. Qed.

Lemma coord_neg_ok a :
  (INT32_MIN < lon a <= INT32_MAX)%Z -> (INT32_MIN < lat a <= INT32_MAX)%Z ->
  coord_neg a = Ok (mkC (- lon a) (- lat a)).
Proof.
  intros H1 H2. unfold coord_neg. unfold INT32_MIN, INT32_MAX in *.
  rewrite !i32_ok by (unfold INT32_MIN, INT32_MAX; lia). reflexivity.
Qed.

Lemma coord_sub_ok a b :
  (INT32_MIN < lon b <= INT32_MAX)%Z -> (INT32_MIN < lat b <= INT32_MAX)%Z ->
  (INT32_MIN <= lon a - lon b <= INT32_MAX)%Z -> (INT32_MIN <= lat a - lat b <= INT32_MAX)%Z ->
  coord_sub a b = Ok (mkC (lon a - lon b) (lat a - lat b)).
Proof.
  intros H1 H2 H3 H4. unfold coord_sub. rewrite coord_neg_ok by assumption. simpl.
  rewrite coord_add_ok; simpl; auto.
Qed.

Lemma coord_add_inv a b r : coord_add a b = Ok r -> r = mkC (lon a + lon b) (lat a + lat b) /\ coord_i32 r.
Proof.
  unfold coord_add. intros H. apply bind_ok in H. destruct H as (x & X & H).
  apply bind_ok in H. destruct H as (y & Y & H). inversion H; subst.
  apply i32_inv in X. apply i32_inv in Y. destruct X as [-> X], Y as [-> Y]. split; [reflexivity|split; assumption].
Qed.
Lemma coord_neg_inv a r : coord_neg a = Ok r -> r = mkC (- lon a) (- lat a) /\ coord_i32 r.
Proof.
  unfold coord_neg. intros H. apply bind_ok in H. destruct H as (x & X & H).
  apply bind_ok in H. destruct H as (y & Y & H). inversion H; subst.
  apply i32_inv in X. apply i32_inv in Y. destruct X as [-> X], Y as [-> Y]. split; [reflexivity|split; assumption].
Qed.
Lemma coord_sub_inv a b r : coord_sub a b = Ok r -> r = mkC (lon a - lon b) (lat a - lat b) /\ coord_i32 r.
Proof.
  unfold coord_sub. intros H. apply bind_ok in H. destruct H as (x & X & H).
  apply coord_neg_inv in X. destruct X as [-> _]. apply coord_add_inv in H. simpl in H. exact H.
Qed.
Lemma i32_cases z : i32 z = Ok z \/ i32 z = UB SignedOverflow.
Proof. unfold i32. destruct (in_i32 z); auto. Qed.

(** ** Scaling *)
Definition scale1 (z : Z) (s : f64) : res Z := f_to_i32 (fround (fmul (f_of_Z z) s)).
Lemma coord_mul_scale c s : coord_mul c s = (x <- scale1 (lon c) s ;; y <- scale1 (lat c) s ;; Ok (mkC x y)).
Proof. reflexivity. Qed.

Lemma scale1_ok z s n : i31 z -> is_finite s = true -> Rabs (IZR z * V s) <= big ->
  Rabs (rnd (IZR z * V s) - IZR n) < / 2 -> (INT32_MIN <= n <= INT32_MAX)%Z -> scale1 z s = Ok n.
Proof.
  intros Hz Fs B N R. unfold scale1. destruct (f_of_Z_i31 z Hz) as [Z1 Z2].
  destruct (fmul_correct (f_of_Z z) s Z2 Fs) as [P1 P2]; [rewrite Z1; exact B|].
  rewrite Z1 in P1. destruct (fround_correct (fmul (f_of_Z z) s)) as [R1 R2].
  apply f_to_i32_ok; [rewrite R2; exact P2| |exact R].
  rewrite R1, P1. rewrite Znearest_imp with (n := n) by exact N.
  apply Ztrunc_IZR.
Qed.

Lemma f_to_i32_inv x z : f_to_i32 x = Ok z ->
  is_finite x = true /\ Ztrunc (V x) = z /\ (INT32_MIN <= z <= INT32_MAX)%Z.
Proof.
  unfold f_to_i32. destruct (is_finite x); [|discriminate].
  assert (E : Btrunc x = Ztrunc (V x)).
  { pose proof (Btrunc_correct 53 1024 _ x) as C. apply eq_IZR. rewrite C.
    unfold round, scaled_mantissa, F2R, cexp, FIX_exp; simpl. rewrite !Rmult_1_r. reflexivity. }
  cbv zeta. rewrite E. unfold in_i32. destruct (_ && _) eqn:B; [|discriminate].
  intros H. inversion H; subst. apply andb_prop in B. lia.
Qed.

Lemma f_to_i32_cases x : (exists z, f_to_i32 x = Ok z) \/ f_to_i32 x = UB BadCast.
Proof. unfold f_to_i32. destruct (is_finite x); auto. cbv zeta. destruct (in_i32 _); eauto. Qed.

Lemma fmul_finite_inv x y : is_finite (fmul x y) = true ->
  V (fmul x y) = rnd (V x * V y) /\ is_finite x = true /\ is_finite y = true.
Proof.
  unfold fmul. intros H. pose proof (Bmult_correct 53 1024 _ _ mode_NE x y) as C.
  change (round_mode mode_NE) with ZnearestE in C. fold (rnd (B2R x * B2R y)) in C.
  destruct (Rlt_bool _ _) eqn:L.
  - destruct C as (C1 & C2 & _). rewrite H in C2. symmetry in C2. apply andb_prop in C2. tauto.
  - exfalso. destruct (Bmult mode_NE x y); try discriminate; simpl in C; unfold binary_overflow in C;
      simpl in C; discriminate.
Qed.

Lemma Znearest_dist c x : Rabs (IZR (Znearest c x) - x) <= / 2.
Proof.
  rewrite <- Rabs_Ropp. replace (- (IZR (Znearest c x) - x)) with (x - IZR (Znearest c x)) by ring.
  apply Znearest_half.
Qed.

Lemma scale1_inv z s n : i31 z -> scale1 z s = Ok n ->
  is_finite s = true /\ (INT32_MIN <= n <= INT32_MAX)%Z /\
  Rabs (IZR n - IZR z * V s) <= / 2 + / 1048576.
Proof.
  intros Hz H. unfold scale1 in H. apply f_to_i32_inv in H. destruct H as (F & T & R).
  destruct (fround_correct (fmul (f_of_Z z) s)) as [R1 R2]. rewrite R2 in F.
  apply fmul_finite_inv in F. destruct F as (P & _ & Fs).
  destruct (f_of_Z_i31 z Hz) as [Z1 Z2]. rewrite Z1 in P.
  rewrite R1, Ztrunc_IZR, P in T. split; [exact Fs|]. split; [exact R|].
  set (p := IZR z * V s) in *. subst n.
  pose proof (Znearest_dist (Zle_bool 0) (rnd p)) as D.
  assert (Bn : Rabs (IZR (Znearest (Zle_bool 0) (rnd p))) <= 2147483648).
  { apply Rabs_le. unfold INT32_MIN, INT32_MAX in R. apply (IZR_abs_le _ 2147483648). lia. }
  assert (Br : Rabs (rnd p) <= 2147483649).
  { replace (rnd p) with (IZR (Znearest (Zle_bool 0) (rnd p)) - (IZR (Znearest (Zle_bool 0) (rnd p)) - rnd p)) by ring.
    eapply Rle_trans; [apply Rabs_triang|]. rewrite Rabs_Ropp. lra. }
  assert (Bp : Rabs p <= 4294967296).
  { destruct (Rle_or_lt (Rabs p) 4294967296) as [L|L]; [exact L|exfalso].
    unfold Rabs in L, Br. destruct (Rcase_abs p).
    - assert (rnd p <= -4294967296).
      { apply (rnd_bound_IZR p (-4294967296)); [vm_compute; discriminate|lra]. }
      destruct (Rcase_abs (rnd p)); lra.
    - assert (4294967296 <= rnd p).
      { apply (rnd_bound_IZR_l p 4294967296); [vm_compute; discriminate|lra]. }
      destruct (Rcase_abs (rnd p)); lra. }
  assert (E : Rabs (rnd p - p) <= / 1048576).
  { destruct (Rle_or_lt (bpow radix2 (-1022)) (Rabs p)) as [L|L].
    - eapply Rle_trans; [apply rnd_error; left; exact L|]. rewrite u53_val. lra.
    - assert (Rabs (rnd p) <= bpow radix2 (-1022)).
      { unfold rnd. apply abs_round_le_generic; auto with typeclass_instances; [|lra].
        apply generic_format_bpow. vm_compute. discriminate. }
      eapply Rle_trans; [apply Rabs_triang|]. rewrite Rabs_Ropp.
      pose proof bpow_m1022_small. lra. }
  replace (IZR (Znearest (Zle_bool 0) (rnd p)) - p) with
    ((IZR (Znearest (Zle_bool 0) (rnd p)) - rnd p) + (rnd p - p)) by ring.
  eapply Rle_trans; [apply Rabs_triang|]. lra.
Qed.

(** ** Special scalars *)
Lemma V_f0 : V f_0 = 0 /\ is_finite f_0 = true.
Proof. apply (f_of_Z_exact 0). vm_compute. discriminate. Qed.
Lemma V_f1 : V f_1 = 1 /\ is_finite f_1 = true.
Proof. apply (f_of_Z_exact 1). vm_compute. discriminate. Qed.
Lemma V_fm1 : V (f_of_Z (-1)) = -1 /\ is_finite (f_of_Z (-1)) = true.
Proof. apply (f_of_Z_exact (-1)). vm_compute. discriminate. Qed.

Lemma rnd_i31 z : i31 z -> rnd (IZR z) = IZR z.
Proof. intros H. apply rnd_IZR. unfold i31 in H. change (2^53)%Z with 9007199254740992%Z. lia. Qed.

Lemma scale1_exact z s k : (INT32_MIN <= z <= INT32_MAX)%Z -> (INT32_MIN <= k <= INT32_MAX)%Z ->
  is_finite s = true -> IZR z * V s = IZR k -> scale1 z s = Ok k.
Proof.
  intros Hz Hk Fs E. apply scale1_ok; auto.
  - apply i32_i31; exact Hz.
  - rewrite E. apply small_le_big, abs_bound. apply i32_i31, i31_R in Hk. lra.
  - rewrite E, rnd_i31 by (apply i32_i31; exact Hk). rewrite Rminus_diag_eq by reflexivity.
    rewrite Rabs_R0. lra.
Qed.

Lemma coord_mul_one c : coord_i32 c -> coord_mul c f_1 = Ok c.
Proof.
  intros [H1 H2]. destruct V_f1 as [A B]. rewrite coord_mul_scale.
  rewrite (scale1_exact (lon c) f_1 (lon c)), (scale1_exact (lat c) f_1 (lat c)); auto;
    try (rewrite A; ring).
  simpl. destruct c; reflexivity.
Qed.

Lemma coord_mul_minus_one c : coord_i32 c -> coord_mul c (f_of_Z (-1)) =
  match coord_neg c with Ok r => Ok r | Throw e => Throw e | UB _ => UB BadCast end.
Proof.
  intros [H1 H2]. destruct V_fm1 as [A B]. rewrite coord_mul_scale. unfold coord_neg.
  assert (G : forall z, (INT32_MIN <= z <= INT32_MAX)%Z -> scale1 z (f_of_Z (-1)) =
     match i32 (- z) with Ok r => Ok r | Throw e => Throw e | UB _ => UB BadCast end).
  { intros z Hz. destruct (i32_cases (- z)) as [E|E]; rewrite E.
    - apply i32_inv in E. apply scale1_exact; auto; try tauto. rewrite A, opp_IZR. ring.
    - assert (z = INT32_MIN).
      { destruct (Z.eq_dec z INT32_MIN) as [->|N]; [reflexivity|].
        rewrite i32_ok in E by (unfold INT32_MIN, INT32_MAX in *; lia). discriminate. }
      subst z. vm_compute. reflexivity. }
  rewrite !G by assumption. destruct (i32 (- lon c)), (i32 (- lat c)); reflexivity.
Qed.

Lemma coord_mul_zero c : coord_i32 c -> coord_mul c f_0 = Ok (mkC 0 0).
Proof.
  intros [H1 H2]. destruct V_f0 as [A B]. rewrite coord_mul_scale.
  rewrite (scale1_exact (lon c) f_0 0), (scale1_exact (lat c) f_0 0); auto;
    try (rewrite A; ring); unfold INT32_MIN, INT32_MAX; lia.
Qed.

Lemma scale1_nonfinite z s : is_finite s = false -> scale1 z s = UB BadCast.
Proof.
  intros F. unfold scale1.
  destruct (f_to_i32_cases (fround (fmul (f_of_Z z) s))) as [(w & E)|E]; [|exact E].
  apply f_to_i32_inv in E. destruct E as (E & _). rewrite (proj2 (fround_correct _)) in E.
  apply fmul_finite_inv in E. destruct E as (_ & _ & E). congruence.
Qed.

Lemma coord_div_zero c : coord_div c f_0 = UB BadCast.
Proof.
  unfold coord_div. rewrite coord_mul_scale. rewrite scale1_nonfinite; [reflexivity|].
  vm_compute. reflexivity.
Qed.

Lemma coord_mul_inv c s r : coord_i32 c -> coord_mul c s = Ok r ->
  is_finite s = true /\ coord_i32 r /\
  Rabs (IZR (lon r) - IZR (lon c) * V s) <= / 2 + / 1048576 /\
  Rabs (IZR (lat r) - IZR (lat c) * V s) <= / 2 + / 1048576.
Proof.
  intros [H1 H2]. rewrite coord_mul_scale. intros H.
  apply bind_ok in H. destruct H as (x & X & H). apply bind_ok in H. destruct H as (y & Y & H).
  inversion H; subst. simpl.
  apply scale1_inv in X; [|apply i32_i31; exact H1]. apply scale1_inv in Y; [|apply i32_i31; exact H2].
  destruct X as (F & X1 & X2), Y as (_ & Y1 & Y2). repeat split; try (apply X1 || apply Y1); auto.
Qed.

Lemma scale1_total z s : i31 z -> is_finite s = true -> Rabs (IZR z * V s) <= 2147483647 ->
  exists n, scale1 z s = Ok n.
Proof.
  intros Hz Fs B. unfold scale1. destruct (f_of_Z_i31 z Hz) as [Z1 Z2].
  destruct (fmul_correct (f_of_Z z) s Z2 Fs) as [P1 P2]; [rewrite Z1; apply small_le_big; lra|].
  rewrite Z1 in P1. destruct (fround_correct (fmul (f_of_Z z) s)) as [R1 R2].
  exists (Znearest (Zle_bool 0) (rnd (IZR z * V s))).
  apply f_to_i32_ok; [rewrite R2; exact P2|rewrite R1, P1; apply Ztrunc_IZR|].
  apply Rabs_le_inv in B. set (p := IZR z * V s) in *.
  assert (U : rnd p <= 2147483647) by (apply (rnd_bound_IZR p 2147483647); [vm_compute; discriminate|lra]).
  assert (L : -2147483647 <= rnd p) by (apply (rnd_bound_IZR_l p (-2147483647)); [vm_compute; discriminate|lra]).
  assert ((-2147483647 <= Znearest (Zle_bool 0) (rnd p) <= 2147483647)%Z).
  { split.
    - rewrite <- (@Zrnd_IZR (Znearest (Zle_bool 0)) _ (-2147483647)). apply Zrnd_le; auto with typeclass_instances.
    - rewrite <- (@Zrnd_IZR (Znearest (Zle_bool 0)) _ 2147483647). apply Zrnd_le; auto with typeclass_instances. }
  unfold INT32_MIN, INT32_MAX. lia.
Qed.

Lemma coord_mul_total c s : coord_i32 c -> is_finite s = true ->
  Rabs (IZR (lon c) * V s) <= 2147483647 -> Rabs (IZR (lat c) * V s) <= 2147483647 ->
  exists r, coord_mul c s = Ok r.
Proof.
  intros [H1 H2] F B1 B2. rewrite coord_mul_scale.
  destruct (scale1_total (lon c) s (i32_i31 _ H1) F B1) as (x & ->).
  destruct (scale1_total (lat c) s (i32_i31 _ H2) F B2) as (y & ->). simpl. eauto.
Qed.

Lemma coord_mul_cases c s : (exists r, coord_mul c s = Ok r) \/ coord_mul c s = UB BadCast.
Proof.
  rewrite coord_mul_scale. unfold scale1.
  destruct (f_to_i32_cases (fround (fmul (f_of_Z (lon c)) s))) as [(x & ->)| ->]; [|auto].
  destruct (f_to_i32_cases (fround (fmul (f_of_Z (lat c)) s))) as [(y & ->)| ->]; [|auto].
  simpl. eauto.
Qed.

(** ** Determinants *)
Definition det (a b : coord) : Z := (lon a * lat b - lon b * lat a)%Z.
Definition dot (a b : coord) : Z := (lon a * lon b + lat a * lat b)%Z.

Lemma prod_i32_bounds x y : (-2147483648 <= x <= 2147483647)%Z -> (-2147483648 <= y <= 2147483647)%Z ->
  (-4611686016279904256 <= x * y <= 4611686018427387904)%Z.
Proof. intros. nia. Qed.

Lemma cross_ok a b : coord_i32 a -> coord_i32 b -> cross_md a b = Ok (det a b).
Proof.
  unfold coord_i32, INT32_MIN, INT32_MAX. intros [A1 A2] [B1 B2]. unfold cross_md, det.
  pose proof (prod_i32_bounds _ _ A1 B2). pose proof (prod_i32_bounds _ _ B1 A2).
  rewrite !i64_ok by (unfold INT64_MIN, INT64_MAX; lia). simpl.
  rewrite !i64_ok by (unfold INT64_MIN, INT64_MAX; lia). reflexivity.
Qed.

Lemma vector_orientation_ok a b : coord_i32 a -> coord_i32 b ->
  vector_orientation a b = Ok (orientation_of_sign (det a b)).
Proof. intros A B. unfold vector_orientation. rewrite cross_ok by assumption. reflexivity. Qed.

Lemma orientation_of_sign_spec z :
  (orientation_of_sign z = CLOCKWISE <-> z < 0)%Z /\
  (orientation_of_sign z = COUNTER_CLOCKWISE <-> 0 < z)%Z /\
  (orientation_of_sign z = COLLINEAR <-> z = 0)%Z.
Proof.
  unfold orientation_of_sign. destruct (z <? 0)%Z eqn:E1; [|destruct (0 <? z)%Z eqn:E2];
    repeat split; intros; try discriminate; try reflexivity; lia.
Qed.

Lemma parallel_ok a b : coord_i32 a -> coord_i32 b -> parallel a b = Ok (det a b =? 0)%Z.
Proof.
  intros A B. unfold parallel. rewrite vector_orientation_ok by assumption. simpl. f_equal.
  unfold orientation_of_sign. destruct (det a b <? 0)%Z eqn:E1; [|destruct (0 <? det a b)%Z eqn:E2]; simpl; lia.
Qed.

(** ** The scalar factor *)
Definition factor (x y : Z) : R := IZR y / IZR x.

Lemma IZR_nz z : z <> 0%Z -> IZR z <> 0.
Proof. intros H E. apply H. apply eq_IZR. exact E. Qed.

Lemma factor_bounds x y : i31 x -> i31 y -> x <> 0%Z ->
  factor x y = 0 \/ 1 / 4294967296 <= Rabs (factor x y) <= 4294967296.
Proof.
  intros Hx Hy N. destruct (Z.eq_dec y 0) as [->|Ny].
  - left. unfold factor. lra.
  - right. unfold factor, Rdiv. rewrite Rabs_mult, Rabs_inv by (apply IZR_nz; exact N).
    rewrite <- !abs_IZR.
    assert (1 <= IZR (Z.abs x) <= 2147483648) by (split; apply IZR_le; unfold i31 in *; lia).
    assert (1 <= IZR (Z.abs y) <= 2147483648) by (split; apply IZR_le; unfold i31 in *; lia).
    assert (/ 2147483648 <= / IZR (Z.abs x) <= 1).
    { split; [apply Rinv_le; lra|]. rewrite <- Rinv_1. apply Rinv_le; lra. }
    split; nra.
Qed.

Lemma fdiv_factor x y : i31 x -> i31 y -> x <> 0%Z ->
  V (fdiv (f_of_Z y) (f_of_Z x)) = rnd (factor x y) /\ is_finite (fdiv (f_of_Z y) (f_of_Z x)) = true.
Proof.
  intros Hx Hy N. destruct (f_of_Z_i31 x Hx) as [X1 X2]. destruct (f_of_Z_i31 y Hy) as [Y1 Y2].
  destruct (fdiv_correct (f_of_Z y) (f_of_Z x) Y2) as [D1 D2].
  - rewrite X1. apply IZR_nz. exact N.
  - rewrite X1, Y1. fold (factor x y). apply small_le_big.
    destruct (factor_bounds x y Hx Hy N) as [E|E]; [rewrite E, Rabs_R0; lra|lra].
  - rewrite X1, Y1 in D1. auto.
Qed.

Lemma rnd_factor_err x y : i31 x -> i31 y -> x <> 0%Z ->
  Rabs (rnd (factor x y) - factor x y) <= u53 * Rabs (factor x y).
Proof.
  intros Hx Hy N. apply rnd_error. destruct (factor_bounds x y Hx Hy N) as [E|E]; [right; exact E|left].
  apply Rle_trans with (bpow radix2 (-100)); [apply bpow_le; lia|].
  change (bpow radix2 (-100)) with (/ 1267650600228229401496703205376). lra.
Qed.

Lemma scale1_factor z w x y : i31 z -> i31 x -> i31 y -> (INT32_MIN <= w <= INT32_MAX)%Z -> x <> 0%Z ->
  (z * y = w * x)%Z -> scale1 z (fdiv (f_of_Z y) (f_of_Z x)) = Ok w.
Proof.
  intros Hz Hx Hy Hw N E.
  destruct (fdiv_factor x y Hx Hy N) as [D1 D2].
  assert (Eq : IZR z * factor x y = IZR w).
  { unfold factor, Rdiv. rewrite <- Rmult_assoc, <- mult_IZR, E, mult_IZR.
    field. apply IZR_nz. exact N. }
  pose proof (rnd_factor_err x y Hx Hy N) as Er.
  set (q := factor x y) in *.
  assert (Bw : Rabs (IZR w) <= 2147483648).
  { apply abs_bound. apply (IZR_abs_le w 2147483648). unfold INT32_MIN, INT32_MAX in Hw. lia. }
  assert (E1 : Rabs (IZR z * rnd q - IZR w) <= u53 * Rabs (IZR w)).
  { rewrite <- Eq. rewrite <- Rmult_minus_distr_l, !Rabs_mult.
    pose proof (Rabs_pos (IZR z)). nra. }
  assert (Zb : Rabs (IZR z) <= 2147483648).
  { apply abs_bound. apply i31_R. exact Hz. }
  assert (B1 : Rabs (IZR z * rnd q) <= 2147483649).
  { replace (IZR z * rnd q) with ((IZR z * rnd q - IZR w) + IZR w) by ring.
    eapply Rle_trans; [apply Rabs_triang|]. rewrite u53_val in E1. lra. }
  apply scale1_ok; auto.
  - rewrite D1. apply small_le_big. lra.
  - rewrite D1.
    assert (E2 : Rabs (rnd (IZR z * rnd q) - IZR z * rnd q) <= u53 * Rabs (IZR z * rnd q)).
    { apply rnd_error. destruct (factor_bounds x y Hx Hy N) as [Q|Q]; fold q in Q.
      - right. rewrite Q, rnd_0. ring.
      - destruct (Z.eq_dec z 0) as [->|Nz]; [right; ring|left].
        assert (1 <= Rabs (IZR z)) by (rewrite <- abs_IZR; apply IZR_le; lia).
        assert (1 / 8589934592 <= Rabs (rnd q)).
        { assert (Rabs q - Rabs (rnd q) <= Rabs (rnd q - q)).
          { rewrite <- (Rabs_Ropp (rnd q - q)). replace (- (rnd q - q)) with (q - rnd q) by ring.
            apply Rabs_triang_inv. }
          rewrite u53_val in Er. lra. }
        apply Rle_trans with (bpow radix2 (-100)); [apply bpow_le; lia|].
        change (bpow radix2 (-100)) with (/ 1267650600228229401496703205376).
        rewrite Rabs_mult. nra. }
    replace (rnd (IZR z * rnd q) - IZR w) with
      ((rnd (IZR z * rnd q) - IZR z * rnd q) + (IZR z * rnd q - IZR w)) by ring.
    eapply Rle_lt_trans; [apply Rabs_triang|]. rewrite u53_val in *. lra.
Qed.

Lemma rnd_sign q : (1 / 4294967296 <= Rabs q \/ q = 0) -> (rnd q < 0 <-> q < 0).
Proof.
  intros [H|H].
  - assert (E : Rabs (rnd q - q) <= u53 * Rabs q).
    { apply rnd_error. left. apply Rle_trans with (bpow radix2 (-100)); [apply bpow_le; lia|].
      change (bpow radix2 (-100)) with (/ 1267650600228229401496703205376). lra. }
    rewrite u53_val in E. apply Rabs_le_inv in E. unfold Rabs in *. destruct (Rcase_abs q); lra.
  - subst. rewrite rnd_0. lra.
Qed.

Lemma factor_sign x y : i31 x -> i31 y -> x <> 0%Z ->
  (fltb (fdiv (f_of_Z y) (f_of_Z x)) f_0 = true <-> (x * y < 0)%Z).
Proof.
  intros Hx Hy N. destruct (fdiv_factor x y Hx Hy N) as [D1 D2]. destruct V_f0 as [F1 F2].
  rewrite fltb_iff by assumption. rewrite D1, F1.
  rewrite rnd_sign by (destruct (factor_bounds x y Hx Hy N); [right|left]; tauto).
  assert (Q : IZR (x * y) = factor x y * (IZR x * IZR x)).
  { rewrite mult_IZR. unfold factor. field. apply IZR_nz, N. }
  assert (P : 0 < IZR x * IZR x).
  { rewrite <- mult_IZR. apply IZR_lt. nia. }
  split; intros H.
  - apply lt_IZR. rewrite Q. nra.
  - apply IZR_lt in H. rewrite Q in H. nra.
Qed.

Definition nonzero (a : coord) : Prop := a <> mkC 0 0.

Lemma scalar_multiple_factor_spec a b : coord_i32 a -> coord_i32 b ->
  exists f, scalar_multiple_factor a b = Ok f /\
    (f <> None <-> det a b = 0%Z) /\
    (forall v, f = Some v -> nonzero a ->
       coord_mul a v = Ok b /\ (fltb v f_0 = true <-> (dot a b < 0)%Z)) /\
    (forall v, f = Some v -> ~ nonzero a -> v = f_0).
Proof.
  intros A B. unfold scalar_multiple_factor. rewrite parallel_ok by assumption. simpl.
  destruct (det a b =? 0)%Z eqn:D; simpl.
  2:{ eexists. split; [reflexivity|]. split; [|split; intros; discriminate].
      split; [congruence|]. intros E. rewrite E in D. discriminate. }
  apply Z.eqb_eq in D. destruct A as [A1 A2], B as [B1 B2].
  pose proof (i32_i31 _ A1). pose proof (i32_i31 _ A2). pose proof (i32_i31 _ B1). pose proof (i32_i31 _ B2).
  unfold det, dot in *.
  destruct ((lon a =? 0) && (lat a =? 0))%Z eqn:Z0.
  - eexists. split; [reflexivity|]. split; [split; congruence|]. split.
    + intros v _ Nz. exfalso. apply Nz. apply andb_prop in Z0. destruct Z0 as [Z1 Z2].
      apply Z.eqb_eq in Z1. apply Z.eqb_eq in Z2. destruct a; simpl in *; subst; reflexivity.
    + intros v E _. congruence.
  - assert (nonzero a) as NZ.
    { intros ->. simpl in Z0. discriminate. }
    destruct (lon a =? 0)%Z eqn:L.
    + apply Z.eqb_eq in L. simpl in Z0. apply Z.eqb_neq in Z0.
      eexists. split; [reflexivity|]. split; [split; congruence|]. split; [|tauto].
      intros v E _. inversion E; subst v; clear E. split.
      * rewrite coord_mul_scale.
        rewrite (scale1_factor (lon a) (lon b)), (scale1_factor (lat a) (lat b)); auto; try nia.
        destruct b; reflexivity.
      * rewrite factor_sign by assumption. nia.
    + apply Z.eqb_neq in L.
      eexists. split; [reflexivity|]. split; [split; congruence|]. split; [|tauto].
      intros v E _. inversion E; subst v; clear E. split.
      * rewrite coord_mul_scale.
        rewrite (scale1_factor (lon a) (lon b)), (scale1_factor (lat a) (lat b)); auto; try nia.
        destruct b; reflexivity.
      * rewrite factor_sign by assumption.
        assert (K : ((lon a * lon b + lat a * lat b) * (lon a * lon a) =
                 (lon a * lon b) * (lon a * lon a + lat a * lat a))%Z).
        { transitivity (lon a * lon b * (lon a * lon a) + lat a * lon a * (lon a * lat b))%Z; [ring|].
          replace (lon a * lat b)%Z with (lon b * lat a)%Z by lia. ring. }
        assert (0 < lon a * lon a)%Z by nia. split; intros; nia.
Qed.

(** ** Summaries for the property theorems *)
Local Open Scope Z_scope.

Definition fits (z : Z) : Prop := -2147483648 <= z <= 2147483647.

Lemma add_exact a b :
  (fits (lon a + lon b) /\ fits (lat a + lat b) -> coord_add a b = Ok (mkC (lon a + lon b) (lat a + lat b))) /\
  (~ (fits (lon a + lon b) /\ fits (lat a + lat b)) -> coord_add a b = UB SignedOverflow).
Proof.
  unfold fits. split; [intros [H1 H2]; apply coord_add_ok; assumption|].
  intros N. unfold coord_add.
  destruct (i32_cases (lon a + lon b)) as [E|E]; rewrite E; [|reflexivity].
  destruct (i32_cases (lat a + lat b)) as [F|F]; simpl; rewrite F; [|reflexivity].
  apply i32_inv in E. apply i32_inv in F. unfold INT32_MIN, INT32_MAX in *. exfalso. apply N. lia.
Qed.

Lemma sub_exact a b :
  (fits (- lon b) /\ fits (- lat b) /\ fits (lon a - lon b) /\ fits (lat a - lat b) ->
     coord_sub a b = Ok (mkC (lon a - lon b) (lat a - lat b))) /\
  (~ (fits (- lon b) /\ fits (- lat b) /\ fits (lon a - lon b) /\ fits (lat a - lat b)) ->
     coord_sub a b = UB SignedOverflow).
Proof.
  split.
  - intros (H1 & H2 & H3 & H4). unfold coord_sub, coord_neg. unfold fits in *.
    rewrite !(i32_ok (- _)) by assumption. simpl. apply add_exact. simpl. unfold fits. lia.
  - intros N. unfold coord_sub, coord_neg.
    destruct (i32_cases (- lon b)) as [E|E]; rewrite E; [|reflexivity].
    destruct (i32_cases (- lat b)) as [F|F]; simpl; rewrite F; [|reflexivity]. simpl.
    apply add_exact. simpl. apply i32_inv in E. apply i32_inv in F.
    unfold fits, INT32_MIN, INT32_MAX in *. intros H. apply N. lia.
Qed.

Lemma group_laws a b c : coord_i32 a -> coord_i32 b -> coord_i32 c ->
  coord_add a b = coord_add b a /\
  (forall x y r r', coord_add a b = Ok x -> coord_add x c = Ok r ->
                    coord_add b c = Ok y -> coord_add a y = Ok r' -> r = r') /\
  coord_add a (mkC 0 0) = Ok a /\ coord_sub a (mkC 0 0) = Ok a /\
  (forall n, coord_neg a = Ok n -> coord_add a n = Ok (mkC 0 0) /\ coord_sub a a = Ok (mkC 0 0) /\ coord_neg n = Ok a) /\
  (forall d, coord_sub a b = Ok d -> coord_add d b = Ok a).
Proof.
  intros A B C. unfold coord_i32, INT32_MIN, INT32_MAX in *.
  assert (Ea : forall x y, mkC x y = a -> True) by auto. clear Ea.
  split; [|split; [|split; [|split; [|split]]]].
  - unfold coord_add. rewrite (Z.add_comm (lon b)), (Z.add_comm (lat b)). reflexivity.
  - intros x y r r' X R Y R'. apply coord_add_inv in X, R, Y, R'. destruct X as [-> _], R as [-> _], Y as [-> _], R' as [-> _].
    simpl. f_equal; ring.
  - rewrite coord_add_ok; simpl; unfold INT32_MIN, INT32_MAX; try lia. rewrite !Z.add_0_r. destruct a; reflexivity.
  - rewrite coord_sub_ok; simpl; unfold INT32_MIN, INT32_MAX; try lia. rewrite !Z.sub_0_r. destruct a; reflexivity.
  - intros n N. destruct (coord_neg_inv a n N) as [-> [R1 R2]]. simpl in R1, R2. unfold INT32_MIN, INT32_MAX in *. split; [|split].
    + rewrite coord_add_ok; simpl; unfold INT32_MIN, INT32_MAX; try lia. rewrite !Z.add_opp_diag_r. reflexivity.
    + rewrite coord_sub_ok; unfold INT32_MIN, INT32_MAX; try lia. rewrite !Z.sub_diag. reflexivity.
    + rewrite coord_neg_ok; simpl; unfold INT32_MIN, INT32_MAX; try lia. rewrite !Z.opp_involutive. destruct a; reflexivity.
  - intros d D. apply coord_sub_inv in D. destruct D as [-> _].
    rewrite coord_add_ok; simpl; unfold INT32_MIN, INT32_MAX; try lia. rewrite !Z.sub_add. destruct a; reflexivity.
Qed.

Lemma coord_mul_exact c s x y : coord_i32 c -> is_finite s = true -> fits x -> fits y ->
  (IZR (lon c) * V s = IZR x)%R -> (IZR (lat c) * V s = IZR y)%R -> coord_mul c s = Ok (mkC x y).
Proof.
  intros [H1 H2] F X Y E1 E2. rewrite coord_mul_scale.
  rewrite (scale1_exact (lon c) s x), (scale1_exact (lat c) s y); auto.
Qed.

Lemma degrees_strict a b : coord_i32 a -> coord_i32 b ->
  (fltb (get_longitude a) (get_longitude b) = true <-> lon a < lon b) /\
  (fltb (get_latitude a) (get_latitude b) = true <-> lat a < lat b) /\
  (feqb (get_longitude a) (get_longitude b) = true /\ feqb (get_latitude a) (get_latitude b) = true <-> a = b).
Proof.
  intros [A1 A2] [B1 B2]. unfold get_longitude, get_latitude.
  assert (Q : forall x y, INT32_MIN <= x <= INT32_MAX -> INT32_MIN <= y <= INT32_MAX ->
    (feqb (microdegrees_to_degrees x) (microdegrees_to_degrees y) = true <-> x = y)).
  { intros x y X Y. apply i32_i31 in X. apply i32_i31 in Y.
    rewrite feqb_iff by (apply deg_val; assumption). split; [|intros ->; reflexivity].
    intros E. destruct (Z.lt_trichotomy x y) as [L|[L|L]]; [|exact L|].
    - pose proof (deg_strict x y X Y L). lra.
    - pose proof (deg_strict y x Y X L). lra. }
  split; [apply deg_fltb; apply i32_i31; assumption|].
  split; [apply deg_fltb; apply i32_i31; assumption|].
  rewrite !Q by assumption. destruct a, b; simpl. split; [intros [-> ->]; reflexivity|].
  intros E; inversion E; auto.
Qed.

Lemma verts_eqb_eq a b : verts_eqb a b = true <-> a = b.
Proof.
  revert b. induction a as [|x a IH]; intros [|y b]; simpl; try (split; congruence).
  rewrite andb_true_iff, IH. unfold coord_eqb. rewrite andb_true_iff, !Z.eqb_eq.
  destruct x, y; simpl. split; [intros [[-> ->] ->]; reflexivity|].
  intros E; inversion E; auto.
Qed.

Lemma equal_hash :
  (forall a b, coord_eqb a b = true -> hash_coord a = hash_coord b) /\
  (forall p q, polygon_eqb p q = true -> hash_polygon p = hash_polygon q).
Proof.
  split.
  - intros [x y] [z w]. unfold coord_eqb. simpl. rewrite andb_true_iff, !Z.eqb_eq. intros [-> ->]. reflexivity.
  - intros [p] [q]. unfold polygon_eqb. simpl. intros E. apply verts_eqb_eq in E. subst. reflexivity.
Qed.

Lemma vector_orientation_facts a b : coord_i32 a -> coord_i32 b ->
  exists o, vector_orientation a b = Ok o /\
    (o = CLOCKWISE <-> lon a * lat b - lat a * lon b < 0) /\
    (o = COUNTER_CLOCKWISE <-> 0 < lon a * lat b - lat a * lon b) /\
    (o = COLLINEAR <-> lon a * lat b - lat a * lon b = 0).
Proof.
  intros A B. rewrite vector_orientation_ok by assumption. eexists. split; [reflexivity|].
  destruct (orientation_of_sign_spec (det a b)) as (C1 & C2 & C3).
  unfold det in *. rewrite (Z.mul_comm (lat a)). auto.
Qed.

Definition opposite (o : orientation) : orientation :=
  match o with CLOCKWISE => COUNTER_CLOCKWISE | COUNTER_CLOCKWISE => CLOCKWISE | COLLINEAR => COLLINEAR end.
Lemma vector_orientation_swap a b o : coord_i32 a -> coord_i32 b ->
  vector_orientation a b = Ok o -> vector_orientation b a = Ok (opposite o).
Proof.
  intros A B. rewrite !vector_orientation_ok by assumption. intros E. inversion E; subst. f_equal.
  replace (det b a) with (- det a b) by (unfold det; ring). unfold orientation_of_sign.
  destruct (det a b <? 0) eqn:L; [|destruct (0 <? det a b) eqn:G];
   destruct (- det a b <? 0) eqn:L'; [|destruct (0 <? - det a b) eqn:G'| |destruct (0 <? - det a b) eqn:G'| |destruct (0 <? - det a b) eqn:G'];
   simpl; try reflexivity; lia.
Qed.

Lemma scale_accurate c s : coord_i32 c ->
  coord_mul c s = UB BadCast \/
   exists r, coord_mul c s = Ok r /\ is_finite s = true /\ coord_i32 r /\
    (Rabs (IZR (lon r) - IZR (lon c) * V s) <= / 2 + / 1048576)%R /\
    (Rabs (IZR (lat r) - IZR (lat c) * V s) <= / 2 + / 1048576)%R.
Proof.
  intros C. destruct (coord_mul_cases c s) as [(r & E)|E]; [right|left; exact E].
  exists r. split; [exact E|]. exact (coord_mul_inv c s r C E).
Qed.

Lemma scale_units c : coord_i32 c ->
  coord_mul c f_1 = Ok c /\ coord_mul c f_0 = Ok (mkC 0 0) /\
  (forall n, coord_neg c = Ok n -> coord_mul c (f_of_Z (-1)) = Ok n) /\
  coord_div c f_0 = UB BadCast.
Proof.
  intros C. split; [apply coord_mul_one; exact C|]. split; [apply coord_mul_zero; exact C|].
  split; [|apply coord_div_zero]. intros n N. rewrite coord_mul_minus_one, N by exact C. reflexivity.
Qed.
