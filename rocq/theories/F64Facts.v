(** Facts about binary64 used by the proofs. *)
From Coq Require Import ZArith Bool Reals Lia Lra.
From Flocq Require Import Core BinarySingleNaN Relative.
From Verif Require Import Base F64.
Local Open Scope R_scope.

Definition rnd (x : R) : R := round radix2 (SpecFloat.fexp 53 1024) ZnearestE x.
Definition V (x : f64) : R := B2R x.
Definition u53 : R := / 9007199254740992.  (* 2^-53 *)

Global Instance fexp_valid : Valid_exp (SpecFloat.fexp 53 1024).
Proof. apply (fexp_correct 53 1024 _). Qed.
Global Instance fexp_mono : Monotone_exp (SpecFloat.fexp 53 1024).
Proof. apply (fexp_monotone 53 1024). Qed.

Lemma rnd_mono x y : x <= y -> rnd x <= rnd y.
Proof. intros. apply round_le; auto with typeclass_instances. Qed.

Lemma rnd_format x : generic_format radix2 (SpecFloat.fexp 53 1024) x -> rnd x = x.
Proof. intros. apply round_generic; auto with typeclass_instances. Qed.

Lemma format_V x : generic_format radix2 (SpecFloat.fexp 53 1024) (V x).
Proof. apply generic_format_B2R. Qed.

Lemma rnd_V x : rnd (V x) = V x.
Proof. apply rnd_format, format_V. Qed.

Lemma rnd_opp x : rnd (- x) = - rnd x.
Proof. unfold rnd. rewrite round_NE_opp. reflexivity. Qed.

Lemma rnd_0 : rnd 0 = 0.
Proof. unfold rnd. apply round_0; auto with typeclass_instances. Qed.

Lemma format_IZR z : (Z.abs z <= 2 ^ 53)%Z ->
  generic_format radix2 (SpecFloat.fexp 53 1024) (IZR z).
Proof.
  intros Hz.
  change (SpecFloat.fexp 53 1024) with (FLT_exp (-1074) 53).
  destruct (Z.eq_dec (Z.abs z) (2 ^ 53)) as [E|E].
  - assert (G : generic_format radix2 (FLT_exp (-1074) 53) (bpow radix2 53)).
    { apply generic_format_bpow. unfold FLT_exp. lia. }
    destruct (Z.abs_eq_or_opp z) as [A|A]; rewrite A in E.
    + rewrite E. exact G.
    + replace z with (- 2 ^ 53)%Z by lia. rewrite opp_IZR.
      apply generic_format_opp. exact G.
  - apply generic_format_FLT. exists (Float radix2 z 0); simpl.
    + unfold F2R; simpl. lra.
    + change (Z.pow_pos 2 53) with (2^53)%Z. lia.
    + lia.
Qed.

Lemma rnd_IZR z : (Z.abs z <= 2 ^ 53)%Z -> rnd (IZR z) = IZR z.
Proof. intros. apply rnd_format, format_IZR, H. Qed.

(** Relative error. *)
Lemma rnd_error x : (bpow radix2 (-1022) <= Rabs x) \/ x = 0 ->
  Rabs (rnd x - x) <= u53 * Rabs x.
Proof.
  intros [H|H].
  - unfold rnd. change (SpecFloat.fexp 53 1024) with (FLT_exp (-1074) 53).
    replace u53 with (/ 2 * bpow radix2 (- (53) + 1)).
    + apply relative_error_N_FLT; try lia. exact H.
    + unfold u53. change (-(53)+1)%Z with (-52)%Z. simpl. lra.
  - subst. rewrite rnd_0. rewrite Rminus_0_r, Rabs_R0. lra.
Qed.

Lemma rnd_bound_IZR x z : (Z.abs z <= 2 ^ 53)%Z -> x <= IZR z -> rnd x <= IZR z.
Proof. intros. rewrite <- (rnd_IZR z) by assumption. apply rnd_mono; assumption. Qed.

Lemma rnd_bound_IZR_l x z : (Z.abs z <= 2 ^ 53)%Z -> IZR z <= x -> IZR z <= rnd x.
Proof. intros. rewrite <- (rnd_IZR z) by assumption. apply rnd_mono; assumption. Qed.

Definition big : R := bpow radix2 1000.

Lemma rnd_big x : Rabs x <= big -> Rabs (rnd x) <= big.
Proof.
  intros. unfold rnd.
  apply abs_round_le_generic; auto with typeclass_instances.
  apply generic_format_bpow.
  vm_compute. discriminate.
Qed.

Lemma big_lt : big < bpow radix2 1024.
Proof. apply bpow_lt. lia. Qed.

Lemma rnd_no_overflow x : Rabs x <= big ->
  Rlt_bool (Rabs (rnd x)) (bpow radix2 1024) = true.
Proof. intros. apply Rlt_bool_true. pose proof (rnd_big _ H). pose proof big_lt. lra. Qed.

Lemma f_of_Z_correct z : Rabs (IZR z) <= big ->
  V (f_of_Z z) = rnd (IZR z) /\ is_finite (f_of_Z z) = true.
Proof.
  intros H. unfold f_of_Z.
  pose proof (binary_normalize_correct 53 1024 _ _ mode_NE z 0 false) as C.
  assert (E : F2R (Float radix2 z 0) = IZR z) by (unfold F2R; simpl; lra).
  rewrite E in C.
  change (round_mode mode_NE) with ZnearestE in C.
  cbv zeta in C. pose proof (rnd_no_overflow _ H) as N. unfold rnd in N. rewrite N in C. tauto.
Qed.

Lemma IZR_big z : (Z.abs z <= 2 ^ 1000)%Z -> Rabs (IZR z) <= big.
Proof.
  intros. rewrite <- abs_IZR. unfold big.
  replace (bpow radix2 1000) with (IZR (2^1000)).
  - apply IZR_le. assumption.
  - rewrite <- IZR_Zpower; [reflexivity|lia].
Qed.

Lemma small_big z : (Z.abs z <= 2 ^ 64)%Z -> Rabs (IZR z) <= big.
Proof. intros. apply IZR_big. assert (2^64 <= 2^1000)%Z by (apply Z.pow_le_mono_r; lia). lia. Qed.

Lemma f_of_Z_exact z : (Z.abs z <= 2 ^ 53)%Z ->
  V (f_of_Z z) = IZR z /\ is_finite (f_of_Z z) = true.
Proof.
  intros. destruct (f_of_Z_correct z) as [A B].
  - apply small_big. assert (2^53 <= 2^64)%Z by (vm_compute; discriminate). lia.
  - rewrite A, rnd_IZR by assumption. auto.
Qed.

Lemma fmul_correct x y : is_finite x = true -> is_finite y = true ->
  Rabs (V x * V y) <= big ->
  V (fmul x y) = rnd (V x * V y) /\ is_finite (fmul x y) = true.
Proof.
  intros Hx Hy H. unfold fmul.
  pose proof (Bmult_correct 53 1024 _ _ mode_NE x y) as C.
  change (round_mode mode_NE) with ZnearestE in C.
  pose proof (rnd_no_overflow _ H) as N. unfold rnd, V in N. rewrite N in C.
  destruct C as (A & B & _). rewrite Hx, Hy in B. split; assumption.
Qed.

Lemma fadd_correct x y : is_finite x = true -> is_finite y = true ->
  Rabs (V x + V y) <= big ->
  V (fadd x y) = rnd (V x + V y) /\ is_finite (fadd x y) = true.
Proof.
  intros Hx Hy H. unfold fadd.
  pose proof (Bplus_correct 53 1024 _ _ mode_NE x y Hx Hy) as C.
  change (round_mode mode_NE) with ZnearestE in C.
  pose proof (rnd_no_overflow _ H) as N. unfold rnd, V in N. rewrite N in C.
  destruct C as (A & B & _). split; assumption.
Qed.

Lemma fsub_correct x y : is_finite x = true -> is_finite y = true ->
  Rabs (V x - V y) <= big ->
  V (fsub x y) = rnd (V x - V y) /\ is_finite (fsub x y) = true.
Proof.
  intros Hx Hy H. unfold fsub.
  pose proof (Bminus_correct 53 1024 _ _ mode_NE x y Hx Hy) as C.
  change (round_mode mode_NE) with ZnearestE in C.
  pose proof (rnd_no_overflow _ H) as N. unfold rnd, V in N. rewrite N in C.
  destruct C as (A & B & _). split; assumption.
Qed.

Lemma fdiv_correct x y : is_finite x = true -> V y <> 0 ->
  Rabs (V x / V y) <= big ->
  V (fdiv x y) = rnd (V x / V y) /\ is_finite (fdiv x y) = true.
Proof.
  intros Hx Hy H. unfold fdiv.
  pose proof (Bdiv_correct 53 1024 _ _ mode_NE x y Hy) as C.
  change (round_mode mode_NE) with ZnearestE in C.
  pose proof (rnd_no_overflow _ H) as N. unfold rnd, V in N. rewrite N in C.
  destruct C as (A & B & _). rewrite Hx in B. split; assumption.
Qed.

Lemma fsqrt_correct x : V (fsqrt x) = rnd (sqrt (V x)).
Proof.
  unfold fsqrt. exact (proj1 (Bsqrt_correct 53 1024 _ _ mode_NE x)).
Qed.

Lemma fsqrt_finite x : is_finite x = true -> 0 <= V x -> is_finite (fsqrt x) = true.
Proof.
  intros Hx H. unfold fsqrt.
  destruct (Bsqrt_correct 53 1024 _ _ mode_NE x) as (_ & B & _).
  rewrite B. destruct x; try discriminate; try reflexivity.
  destruct s; [|reflexivity]. exfalso. unfold V, B2R in H.
  assert (F2R (Float radix2 (cond_Zopp true (Zpos m)) e) < 0).
  { apply F2R_lt_0. simpl. lia. }
  lra.
Qed.

Lemma fltb_iff x y : is_finite x = true -> is_finite y = true ->
  (fltb x y = true <-> V x < V y).
Proof.
  intros Hx Hy. unfold fltb. rewrite (Bltb_correct 53 1024 x y Hx Hy).
  unfold V. case Rlt_bool_spec; intros; split; intros; auto; try discriminate. lra.
Qed.

Lemma fleb_iff x y : is_finite x = true -> is_finite y = true ->
  (fleb x y = true <-> V x <= V y).
Proof.
  intros Hx Hy. unfold fleb. rewrite (Bleb_correct 53 1024 x y Hx Hy).
  unfold V. case Rle_bool_spec; intros; split; intros; auto; try discriminate; try lra.
Qed.

Lemma feqb_iff x y : is_finite x = true -> is_finite y = true ->
  (feqb x y = true <-> V x = V y).
Proof.
  intros Hx Hy. unfold feqb. rewrite (Beqb_correct 53 1024 x y Hx Hy).
  unfold V. case Req_bool_spec; intros; split; intros; auto; try discriminate; try lra.
Qed.

Lemma f_to_i32_ok x z : is_finite x = true -> Ztrunc (V x) = z ->
  (INT32_MIN <= z <= INT32_MAX)%Z -> f_to_i32 x = Ok z.
Proof.
  intros Hf Ht Hr. unfold f_to_i32. rewrite Hf.
  assert (Btrunc x = z) as ->.
  { pose proof (Btrunc_correct 53 1024 _ x) as C.
    apply eq_IZR. rewrite C. subst z.
    unfold round, scaled_mantissa, F2R, cexp, FIX_exp; simpl.
    rewrite !Rmult_1_r. reflexivity. }
  unfold in_i32. rewrite (proj2 (Z.leb_le _ _)), (proj2 (Z.leb_le _ _)) by lia. reflexivity.
Qed.

Lemma fround_correct x :
  V (fround x) = IZR (Znearest (Zle_bool 0) (V x)) /\ is_finite (fround x) = is_finite x.
Proof.
  unfold fround. pose proof (Bnearbyint_correct 53 1024 _ mode_NA x) as (A & B & _).
  split; [|exact B]. unfold V. rewrite A.
  unfold round, scaled_mantissa, F2R, cexp, FIX_exp; simpl.
  rewrite !Rmult_1_r. reflexivity.
Qed.
