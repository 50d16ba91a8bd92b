(** Facts about the Python layer. *)
From Coq Require Import ZArith Reals Bool List Lia Lra Psatz Permutation Arith.
From Flocq Require Import Core BinarySingleNaN Plus_error Relative.
From Verif Require Import Base F64 Coordinate Periodicity Segment Polygon SpecGeom SpecGraph F64Facts CoordinateFacts Graph GraphMore VisgraphFacts SweepGen
  ShortestPath DistFacts SearchFacts SearchSpec SearchGraph SearchQuery PathFacts PathMore PolygonMore PyLayer.
Import ListNotations.
Local Open Scope R_scope.
Notation fmt := (generic_format radix2 (SpecFloat.fexp 53 1024)).

(** ** C61: the remainder is exact *)
Lemma finite_format s m e (B : SpecFloat.bounded 53 1024 m e = true) : e = cexp radix2 (SpecFloat.fexp 53 1024) (V (B754_finite s m e B)).
Proof. exact (canonical_bounded 53 1024 s m e B). Qed.

Lemma ffmod_ok x y : is_finite x = true -> is_finite y = true -> 0 < V y ->
  is_finite (ffmod x y) = true /\ Rabs (V (ffmod x y)) < V y /\ (0 <= V x -> 0 <= V (ffmod x y)) /\ (V x <= 0 -> V (ffmod x y) <= 0) /\
  exists k : Z, V (ffmod x y) = V x - IZR k * V y.
Proof.
  intros Fx Fy Py. destruct x as [sx|sx| |sx mx ex Bx]; try discriminate Fx; destruct y as [sy|sy| |sy my ey By]; try discriminate Fy;
    try (exfalso; change (V (B754_zero sy)) with 0 in Py; lra).
  { cbn [ffmod]. change (V (B754_zero sx)) with 0. rewrite Rabs_R0. split; [reflexivity|]. split; [lra|]. split; [lra|]. split; [lra|]. exists 0%Z. lra. }
  set (x := B754_finite sx mx ex Bx) in *. set (y := B754_finite sy my ey By) in *.
  pose proof (finite_format sx mx ex Bx) as Cx. pose proof (finite_format sy my ey By) as Cy. fold x in Cx. fold y in Cy.
  assert (sy = false) as Sy.
  { destruct sy; [|reflexivity]. exfalso. unfold y, V, B2R, F2R in Py. cbn [cond_Zopp Fnum Fexp] in Py. pose proof (bpow_gt_0 radix2 ey).
    assert (N : IZR (Z.neg my) < 0) by (apply IZR_lt; reflexivity). change (- Z.pos my)%Z with (Z.neg my) in Py. revert Py N. generalize (IZR (Z.neg my)). intros r Py N. clear - N H Py. nra. }
  cbn [ffmod]. fold x y. set (e := Z.min ex ey). set (A := (Z.pos mx * 2 ^ (ex - e))%Z). set (B := (Z.pos my * 2 ^ (ey - e))%Z).
  assert (Vy : V y = IZR B * bpow radix2 e).
  { unfold y, V, B2R, F2R, B. rewrite Sy. cbn [cond_Zopp Fnum Fexp]. rewrite mult_IZR. change (2 ^ (ey - e))%Z with (Zpower radix2 (ey - e)). rewrite IZR_Zpower by lia.
    rewrite Rmult_assoc, <- bpow_plus. do 2 f_equal. lia. }
  assert (Vx : V x = IZR (cond_Zopp sx A) * bpow radix2 e).
  { unfold x, V, B2R, F2R, A. cbn [Fnum Fexp].
    assert (E : IZR (cond_Zopp sx (Z.pos mx * 2 ^ (ex - e))) = IZR (cond_Zopp sx (Z.pos mx)) * bpow radix2 (ex - e)).
    { rewrite <- IZR_Zpower by lia. rewrite <- mult_IZR. f_equal. change (Zpower radix2 (ex - e)) with (2 ^ (ex - e))%Z. destruct sx; cbn [cond_Zopp]; lia. }
    rewrite E, Rmult_assoc, <- bpow_plus. do 2 f_equal. lia. }
  assert (PA : (0 < A)%Z) by (unfold A; pose proof (Z.pow_pos_nonneg 2 (ex - e)); lia).
  assert (PB : (0 < B)%Z) by (unfold B; pose proof (Z.pow_pos_nonneg 2 (ey - e)); lia).
  pose proof (Z.mod_pos_bound A B PB) as M. pose proof (Z.div_mod A B ltac:(lia)) as D.
  set (n := cond_Zopp sx (A mod B)).
  assert (An : Rabs (IZR n) = IZR (A mod B)).
  { rewrite <- abs_IZR. f_equal. unfold n. destruct sx; cbn [cond_Zopp]; lia. }
  pose proof (bpow_gt_0 radix2 e) as Pe.
  assert (Lt : Rabs (IZR n * bpow radix2 e) < V y).
  { rewrite Rabs_mult, An, (Rabs_pos_eq (bpow radix2 e)) by lra. rewrite Vy. apply Rmult_lt_compat_r; [exact Pe|]. apply IZR_lt. lia. }
  assert (Fm : fmt (IZR n * bpow radix2 e)).
  { destruct (Z_lt_le_dec A B) as [L|L].
    - assert (n = cond_Zopp sx A) as -> by (unfold n; rewrite Z.mod_small by lia; reflexivity). rewrite <- Vx. apply format_V.
    - assert (Ey : (ey <= ex)%Z).
      { rewrite Cx, Cy. unfold cexp. apply fexp_mono. apply mag_le_abs; [lra|]. rewrite (Rabs_pos_eq (V y)) by lra. rewrite Vx, Vy, Rabs_mult, (Rabs_pos_eq (bpow radix2 e)) by lra.
        apply Rmult_le_compat_r; [lra|]. rewrite <- abs_IZR. apply IZR_le. destruct sx; cbn [cond_Zopp]; lia. }
      assert (Ee : e = ey) by (unfold e; lia).
      assert (EB : B = Z.pos my) by (unfold B; rewrite Ee, Z.sub_diag; change (2 ^ 0)%Z with 1%Z; lia).
      change (SpecFloat.fexp 53 1024) with (FLT_exp (-1074) 53). apply generic_format_FLT. exists (Float radix2 n e).
      + reflexivity.
      + cbn [Fnum]. change (radix2 ^ 53)%Z with 9007199254740992%Z.
        assert (Bm : (Z.pos my < 9007199254740992)%Z).
        { pose proof By as By'. unfold SpecFloat.bounded, SpecFloat.canonical_mantissa in By'. apply andb_prop in By'. destruct By' as [C _]. apply Zeq_bool_eq in C.
          unfold SpecFloat.fexp, SpecFloat.emin in C. pose proof (Digits.Zdigits_correct radix2 (Z.pos my)) as [_ Hd].
          rewrite <- Digits.Zpos_digits2_pos in Hd. 
          assert (Hd' : (Z.pos (Digits.digits2_pos my) <= 53)%Z) by lia.
          eapply Z.lt_le_trans; [exact Hd|]. change 9007199254740992%Z with (Zpower radix2 53). apply Zpower_le. exact Hd'. }
        unfold n. destruct sx; cbn [cond_Zopp]; lia.
      + cbn [Fexp]. rewrite Ee, Cy. unfold cexp, SpecFloat.fexp. unfold SpecFloat.emin. lia. }
  pose proof (binary_normalize_correct 53 1024 _ _ mode_NE n e sx) as C. change (F2R (Float radix2 n e)) with (IZR n * bpow radix2 e) in C.
  change (round_mode mode_NE) with ZnearestE in C. cbv zeta in C.
  assert (Er : round radix2 (SpecFloat.fexp 53 1024) ZnearestE (IZR n * bpow radix2 e) = IZR n * bpow radix2 e) by (apply rnd_format; exact Fm).
  rewrite Er in C. rewrite Rlt_bool_true in C.
  2:{ eapply Rlt_trans; [exact Lt|]. rewrite <- (Rabs_pos_eq (V y)) by lra. apply (abs_B2R_lt_emax 53 1024 y). }
  destruct C as (Vn & Fn & _). change (B2R) with V in Vn. change (ffmod x y) with (binary_normalize 53 1024 prec53 prec53_lt_1024 mode_NE n e sx). split; [exact Fn|]. rewrite Vn.
  assert (P0 : 0 <= IZR (A mod B)) by (apply IZR_le; lia).
  split; [exact Lt|]. split; [|split].
  - intros Hx. unfold n. destruct sx; cbn [cond_Zopp]; [|nra]. exfalso. rewrite Vx in Hx. cbn [cond_Zopp] in Hx. apply IZR_lt in PA. rewrite opp_IZR in Hx. nra.
  - intros Hx. unfold n. destruct sx; cbn [cond_Zopp]; [rewrite opp_IZR; nra|]. exfalso. rewrite Vx in Hx. cbn [cond_Zopp] in Hx. apply IZR_lt in PA. nra.
  - exists (cond_Zopp sx (A / B)). rewrite Vx, Vy. rewrite <- Rmult_assoc, <- mult_IZR, <- Rmult_minus_distr_r, <- minus_IZR. f_equal. f_equal. unfold n. destruct sx; cbn [cond_Zopp]; lia.
Qed.

Lemma sum_error x y : fmt x -> fmt y -> Rabs (rnd (x + y) - (x + y)) <= u53 * Rabs (x + y).
Proof.
  intros Fx Fy. unfold rnd. change (SpecFloat.fexp 53 1024) with (FLT_exp (-1074) 53) in *.
  destruct (@FLT_plus_error_N_ex radix2 (-1074) 53 eq_refl (fun x => negb (Z.even x)) x y Fx Fy) as (eps & Be & E).
  change (ZnearestE) with (Znearest (fun x => negb (Z.even x))). rewrite E. unfold u_ro in Be. change (bpow radix2 (- (53) + 1)) with (/ 4503599627370496) in Be.
  assert (Be' : Rabs eps <= u53).
  { eapply Rle_trans; [exact Be|]. unfold u53. apply Rmult_le_reg_r with (1 + / 2 * / 4503599627370496); [lra|].
    unfold Rdiv at 1. rewrite Rmult_assoc, Rinv_l by lra. lra. }
  replace ((x + y) * (1 + eps) - (x + y)) with (eps * (x + y)) by ring. rewrite Rabs_mult. apply Rmult_le_compat_r; [apply Rabs_pos|exact Be'].
Qed.

Lemma grid_rnd n : (Z.abs n <= 2 ^ 53)%Z -> rnd (IZR n * bpow radix2 (-40)) = IZR n * bpow radix2 (-40).
Proof.
  intros B. apply rnd_format. destruct (Z.eq_dec (Z.abs n) (2 ^ 53)) as [E|N].
  - assert (exists b : Z, n = (b * 2 ^ 53)%Z /\ (b = 1 \/ b = -1)%Z) as (b & -> & Hb).
    { destruct (Z.abs_eq_or_opp n) as [H|H]; [exists 1%Z|exists (-1)%Z]; split; auto; lia. }
    rewrite mult_IZR. change (IZR (2 ^ 53)) with (bpow radix2 53). rewrite Rmult_assoc, <- bpow_plus.
    apply (generic_format_FLT radix2 (-1074) 53). exists (Float radix2 b 13); cbn [Fnum Fexp]; [reflexivity|destruct Hb as [-> | ->]; reflexivity|lia].
  - apply (generic_format_FLT radix2 (-1074) 53). exists (Float radix2 n (-40)); cbn [Fnum Fexp]; [reflexivity|change (Zpower radix2 53) with (2 ^ 53)%Z; lia|lia].
Qed.

Section Wrap.
Variable half : Z.
Hypothesis Hh : (0 < half <= 1000)%Z.
Notation h := (IZR half).
Let Ph : 1 <= h <= 1000.
Proof. split; apply IZR_le; lia. Qed.

Lemma wrap_ok x : is_finite x = true -> Rabs (V x) <= bpow radix2 900 ->
  exists r, wrap half x = Ok r /\ is_finite r = true /\ - h <= V r <= h /\
    (exists k : Z, Rabs (V r - (V x - IZR k * (2 * h))) <= u53 * Rabs (V x + h) + u53 * (3 * h)) /\
    (rnd (V x + h) = V x + h -> - h <= V x < h -> V r = V x) /\
    (forall n, V x = IZR n * bpow radix2 (-40) -> (Z.abs n <= 2 ^ 52)%Z ->
       - h <= V r < h /\ exists k : Z, V r = V x - IZR k * (2 * h)).
Proof.
  intros Fx Bx. pose proof Ph as Ph'. destruct (f_of_Z_exact half) as [Vh Fh]; [lia|]. destruct (f_of_Z_exact (2 * half)) as [V2 F2]; [lia|]. rewrite mult_IZR in V2.
  assert (B9 : bpow radix2 900 + 3000 <= big).
  { unfold big. apply Rle_trans with (bpow radix2 901); [|apply bpow_le; lia]. change 901%Z with (900 + 1)%Z. rewrite bpow_plus. change (bpow radix2 1) with 2.
    assert (bpow radix2 20 <= bpow radix2 900) by (apply bpow_le; lia). change (bpow radix2 20) with 1048576 in H. lra. }
  unfold wrap, pymod. set (s := fadd x (f_of_Z half)).
  destruct (fadd_correct x (f_of_Z half) Fx Fh) as [Vs Fs]; [rewrite Vh; apply Rabs_le_inv in Bx; apply Rabs_le; lra|]. rewrite Vh in Vs. fold s in Vs, Fs.
  assert (P2 : 0 < V (f_of_Z (2 * half))) by (rewrite V2; lra).
  destruct (ffmod_ok s (f_of_Z (2 * half)) Fs F2 P2) as (Fm & Lm & Pm & Nm & k & Km). set (m := ffmod s (f_of_Z (2 * half))) in *. rewrite V2 in *.
  destruct V_f0 as [V0 F0].
  assert (N0 : feqb (f_of_Z (2 * half)) f_0 = false).
  { destruct (feqb (f_of_Z (2 * half)) f_0) eqn:E; [|reflexivity]. apply (feqb_iff _ _ F2 F0) in E. lra. }
  rewrite N0. assert (G0 : fltb (f_of_Z (2 * half)) f_0 = false).
  { destruct (fltb (f_of_Z (2 * half)) f_0) eqn:E; [|reflexivity]. apply (fltb_iff _ _ F2 F0) in E. lra. }
  rewrite G0. cbn [xorb bind].
  pose proof (sum_error (V x) h (format_V x) (eq_ind _ (fun z => fmt z) (format_V (f_of_Z half)) _ Vh)) as E1. rewrite <- Vs in E1.
  (* the value before the last subtraction *)
  set (m' := if feqb m f_0 then f_0 else if fltb m f_0 then fadd m (f_of_Z (2 * half)) else m).
  assert (K : is_finite m' = true /\ 0 <= V m' <= 2 * h /\
    ((0 <= V m /\ V m' = V m) \/ (V m < 0 /\ V m' = rnd (V m + 2 * h) /\ Rabs (V m' - (V m + 2 * h)) <= u53 * (2 * h)))).
  { apply Rabs_lt_inv in Lm. unfold m'. destruct (feqb m f_0) eqn:Z0.
    - apply (feqb_iff _ _ Fm F0) in Z0. rewrite V0 in *. split; [exact F0|]. split; [lra|]. left. split; lra.
    - destruct (fltb m f_0) eqn:S0.
      + apply (fltb_iff _ _ Fm F0) in S0. rewrite V0 in S0. destruct (fadd_correct m (f_of_Z (2 * half)) Fm F2) as [Va Fa].
        { rewrite V2. apply small_le_big. apply Rabs_le. lra. }
        rewrite V2 in Va. split; [exact Fa|]. rewrite Va.
        pose proof (sum_error (V m) (2 * h) (format_V m) (eq_ind _ (fun z => fmt z) (format_V (f_of_Z (2 * half))) _ V2)) as E2.
        assert (R2 : rnd (2 * h) = 2 * h) by (rewrite <- V2; apply rnd_V). split.
        * split; [rewrite <- rnd_0; apply rnd_mono; lra|rewrite <- R2; apply rnd_mono; lra].
        * right. split; [exact S0|]. split; [reflexivity|]. eapply Rle_trans; [exact E2|]. rewrite u53_val, Rabs_pos_eq by lra. lra.
      + assert (S1 : 0 <= V m) by (apply Rnot_lt_le; intros C; rewrite <- V0 in C; apply (fltb_iff _ _ Fm F0) in C; congruence).
        split; [exact Fm|]. split; [lra|]. left. split; lra. }
  destruct K as (Fm' & Rm & Cm). destruct (fsub_correct m' (f_of_Z half) Fm' Fh) as [Vr Fr].
  { rewrite Vh. apply small_le_big. apply Rabs_le. lra. }
  rewrite Vh in Vr. exists (fsub m' (f_of_Z half)). split; [unfold m'; destruct (fltb m f_0); reflexivity|]. split; [exact Fr|]. rewrite Vr.
  assert (Rh : rnd h = h) by (rewrite <- Vh; apply rnd_V). split.
  { split; [rewrite <- Rh, <- rnd_opp; apply rnd_mono; lra|rewrite <- Rh at 2; apply rnd_mono; lra]. }
  pose proof (sum_error (V m') (- h) (format_V m')) as E3. rewrite <- Vh in E3. specialize (E3 (generic_format_opp _ _ _ (format_V (f_of_Z half)))). rewrite Vh in E3.
  change (V m' + - h) with (V m' - h) in E3.
  assert (Bm : Rabs (V m' - h) <= h) by (apply Rabs_le; lra).
  split; [|split].
  - destruct Cm as [[Pm' Em]|(Nm' & Rm' & Em)].
    + exists k. rewrite Em in *. rewrite u53_val in *. apply Rabs_le_inv in E1. apply Rabs_le_inv in E3. apply Rabs_le. rewrite Km in *.
      split; lra.
    + exists (k - 1)%Z. rewrite minus_IZR. rewrite u53_val in *. apply Rabs_le_inv in E1. apply Rabs_le_inv in E3. apply Rabs_le_inv in Em. apply Rabs_le. rewrite Km in *.
      split; lra.
  - intros Ex Hx. rewrite Ex in Vs. rewrite Vs in *. assert (Pv : 0 <= V m) by (apply Pm; lra). apply Rabs_lt_inv in Lm.
    assert (k = 0)%Z as ->. { assert (-1 < IZR k < 1) by (split; nra). destruct H as [H1 H2]. apply lt_IZR in H1. apply lt_IZR in H2. lia. }
    destruct Cm as [[_ Em]|[Nm' _]]; [|lra]. rewrite Em, Km. replace (V x + h - 0 * (2 * h) - h) with (V x) by ring. apply rnd_V.
  - intros n Hn Bn.
    assert (Gh : h = IZR (half * 2 ^ 40) * bpow radix2 (-40)).
    { rewrite mult_IZR. change (IZR (2 ^ 40)) with (bpow radix2 40). rewrite Rmult_assoc, <- bpow_plus. cbn. lra. }
    assert (Es : V s = IZR (n + half * 2 ^ 40) * bpow radix2 (-40)).
    { rewrite Vs, Hn. rewrite Gh at 1. rewrite <- Rmult_plus_distr_r, <- plus_IZR. apply grid_rnd. clear - Bn Hh. lia. }
    set (l := (n + half * 2 ^ 40 - k * (2 * (half * 2 ^ 40)))%Z).
    assert (Em0 : V m = IZR l * bpow radix2 (-40)).
    { rewrite Km, Es. unfold l. rewrite minus_IZR, (mult_IZR k), (mult_IZR 2), Rmult_minus_distr_r. rewrite Gh at 1. ring. }
    clearbody l.
    assert (Bl : (Z.abs l < 2 * (half * 2 ^ 40))%Z).
    { apply lt_IZR. rewrite abs_IZR. apply Rmult_lt_reg_r with (bpow radix2 (-40)); [apply bpow_gt_0|].
      rewrite mult_IZR, Rmult_assoc, <- Gh. rewrite Em0, Rabs_mult, (Rabs_pos_eq (bpow radix2 (-40))) in Lm by apply bpow_ge_0. exact Lm. }
    assert (Vx : V x = V s - h) by (rewrite Es, Hn; rewrite Gh at 1; rewrite plus_IZR; ring).
    assert (Gm : exists l', V m' = IZR l' * bpow radix2 (-40) /\ (0 <= l' < 2 * (half * 2 ^ 40))%Z /\ exists j, V m' = V s - IZR j * (2 * h)).
    { destruct Cm as [[Pm' Em]|(Nm' & Rm' & Em)].
      - exists l. rewrite Em. split; [exact Em0|]. split; [|exists k; exact Km]. split; [|clear - Bl; lia]. apply le_IZR. rewrite Em0 in Pm'.
        apply Rmult_le_reg_r with (bpow radix2 (-40)); [apply bpow_gt_0|]. lra.
      - exists (l + 2 * (half * 2 ^ 40))%Z.
        assert (Ea : V m + 2 * h = IZR (l + 2 * (half * 2 ^ 40)) * bpow radix2 (-40)).
        { rewrite Em0, plus_IZR, (mult_IZR 2), Rmult_plus_distr_r. rewrite Gh at 1. ring. }
        assert (l < 0)%Z. { apply lt_IZR. rewrite Em0 in Nm'. apply Rmult_lt_reg_r with (bpow radix2 (-40)); [apply bpow_gt_0|]. lra. }
        assert (Eb : V m' = V m + 2 * h) by (rewrite Rm', Ea; apply grid_rnd; clear - Bl H Hh; lia).
        split; [congruence|]. split; [clear - Bl H; lia|]. exists (k - 1)%Z. rewrite Eb, Km, minus_IZR. ring. }
    destruct Gm as (l' & El & Bl' & j & Ej).
    assert (Er : rnd (V m' - h) = V m' - h).
    { rewrite El. rewrite Gh. rewrite <- Rmult_minus_distr_r, <- minus_IZR. apply grid_rnd. clear - Bl' Hh. lia. }
    rewrite Er. split.
    + split; [lra|]. apply Rplus_lt_reg_r with h. replace (V m' - h + h) with (V m') by ring. replace (h + h) with (2 * h) by ring.
      rewrite El. rewrite Gh. rewrite <- Rmult_assoc, <- mult_IZR. apply Rmult_lt_compat_r; [apply bpow_gt_0|]. apply IZR_lt. clear - Bl'. lia.
    + exists j. rewrite Ej, Vx. ring.
Qed.
End Wrap.

(** ** coordinates coming in from Python *)
Lemma micro_of_degrees x (b : Z) : is_finite x = true -> (0 < b <= 2147)%Z -> Rabs (V x) <= IZR b ->
  exists z, degrees_to_microdegrees x = Ok z /\ (Z.abs z <= b * 1000000)%Z /\ Rabs (IZR z - 1000000 * V x) < 1 + 1 / 1000000.
Proof.
  intros Fx Hb Bx. destruct million_val as [M1 M2]. pose proof (IZR_le b 2147 ltac:(lia)) as Hb'. apply Rabs_le_inv in Bx.
  destruct (fmul_correct f_1e6 x M2 Fx) as [P1 P2].
  { rewrite M1. apply small_le_big. apply Rabs_le. lra. }
  rewrite M1 in P1. set (t := fmul f_1e6 x) in *.
  assert (Rb : rnd (IZR (b * 1000000)) = IZR (b * 1000000)) by (apply rnd_IZR; lia).
  assert (Bt : Rabs (V t) <= IZR (b * 1000000)).
  { rewrite P1. apply Rabs_le. split.
    - rewrite <- Rb, <- rnd_opp. apply rnd_mono. rewrite mult_IZR. lra.
    - rewrite <- Rb. apply rnd_mono. rewrite mult_IZR. lra. }
  assert (Bz : (Z.abs (Ztrunc (V t)) <= b * 1000000)%Z).
  { apply le_IZR. rewrite abs_IZR. eapply Rle_trans; [|exact Bt]. rewrite <- abs_IZR. rewrite <- Ztrunc_abs. rewrite Ztrunc_floor by apply Rabs_pos. apply Zfloor_lb. }
  exists (Ztrunc (V t)). split; [|split; [exact Bz|]].
  - apply f_to_i32_ok; [exact P2|reflexivity|]. unfold INT32_MIN, INT32_MAX. lia.
  - assert (T : Rabs (IZR (Ztrunc (V t)) - V t) < 1).
    { destruct (Rle_or_lt 0 (V t)) as [S|S].
      - rewrite Ztrunc_floor by exact S. pose proof (Zfloor_lb (V t)). pose proof (Zfloor_ub (V t)). apply Rabs_lt. lra.
      - rewrite Ztrunc_ceil by lra. pose proof (Zceil_ub (V t)). pose proof (Zceil_lb (V t)). apply Rabs_lt. lra. }
    assert (E : Rabs (V t - 1000000 * V x) <= 1 / 1000000).
    { rewrite P1. destruct (Rle_or_lt (bpow radix2 (-1022)) (Rabs (1000000 * V x))) as [S|S].
      - eapply Rle_trans; [apply rnd_error; left; exact S|]. rewrite u53_val.
        assert (Rabs (1000000 * V x) <= 2147000000) by (apply Rabs_le; lra). lra.
      - assert (S2 : bpow radix2 (-1022) <= 1 / 4000000).
        { apply Rle_trans with (bpow radix2 (-30)); [apply bpow_le; lia|]. change (bpow radix2 (-30)) with (/ 1073741824). lra. }
        assert (Rabs (rnd (1000000 * V x)) <= bpow radix2 (-1022)).
        { assert (Rg : rnd (bpow radix2 (-1022)) = bpow radix2 (-1022)) by (apply rnd_format, generic_format_bpow; vm_compute; congruence).
          apply Rabs_lt_inv in S. apply Rabs_le. split; [rewrite <- Rg, <- rnd_opp|rewrite <- Rg]; apply rnd_mono; lra. }
        apply Rabs_le_inv in H. apply Rabs_lt_inv in S. apply Rabs_le. lra. }
    apply Rabs_lt_inv in T. apply Rabs_le_inv in E. apply Rabs_lt. lra.
Qed.

Definition on_earth (c : pcoord) : Prop :=
  is_finite (p_longitude c) = true /\ is_finite (p_latitude c) = true /\ Rabs (V (p_longitude c)) <= 180 /\ Rabs (V (p_latitude c)) <= 90.
Definition close_by (c : pcoord) (v : coord) : Prop :=
  (Z.abs (lon v) <= 180000000)%Z /\ (Z.abs (lat v) <= 90000000)%Z /\
  Rabs (IZR (lon v) - 1000000 * V (p_longitude c)) < 1 + 1 / 1000000 /\ Rabs (IZR (lat v) - 1000000 * V (p_latitude c)) < 1 + 1 / 1000000.

Lemma vis_coord_ok c : on_earth c -> exists v, vis_coord c = Ok v /\ close_by c v.
Proof.
  intros (F1 & F2 & B1 & B2). destruct (micro_of_degrees (p_longitude c) 180 F1 ltac:(lia) B1) as (a & Ea & Ba & Ca).
  destruct (micro_of_degrees (p_latitude c) 90 F2 ltac:(lia) B2) as (b & Eb & Bb & Cb).
  exists (mkC a b). unfold vis_coord, coord_of_degrees. rewrite Ea. cbn [bind]. rewrite Eb. cbn [bind]. split; [reflexivity|].
  unfold close_by. cbn [lon lat]. repeat split; assumption.
Qed.
Lemma close_in_map c v : close_by c v -> in_the_map v.
Proof. intros (A & B & _). unfold in_the_map, INT32_MIN, INT32_MAX. lia. Qed.

(** ** C59: the rings of a shape *)
(** ring [i] of a shape: the points from its part offset to the next one or the end *)
Definition ring (s : shape) (i : nat) : list (f64 * f64) :=
  let start := nth i (sh_parts s) (length (sh_points s)) in
  let stop := nth (S i) (sh_parts s) (length (sh_points s)) in
  firstn (stop - start) (skipn start (sh_points s)).
Definition flip (p : f64 * f64) : pcoord := mkPC (snd p) (fst p).

Lemma first_part_none parts : nth_error parts 1 = None -> forall points i, first_part parts i points = map flip points.
Proof. intros E. induction points as [|p rest IH]; intros i; cbn [first_part map]; [reflexivity|]. rewrite E, IH. reflexivity. Qed.
Lemma first_part_some parts stop : nth_error parts 1 = Some stop -> forall points i, (i <= stop)%nat -> first_part parts i points = map flip (firstn (stop - i) points).
Proof.
  intros E. induction points as [|p rest IH]; intros i L; cbn [first_part]; [rewrite firstn_nil; reflexivity|]. rewrite E.
  destruct (Nat.eqb_spec stop i) as [->|N]; [rewrite Nat.sub_diag; reflexivity|].
  rewrite IH by lia. replace (stop - i)%nat with (S (stop - S i)) by lia. reflexivity.
Qed.
Lemma first_part_ring s : nth_error (sh_parts s) 0 = Some O -> first_part (sh_parts s) 0 (sh_points s) = map flip (ring s 0).
Proof.
  intros E. unfold ring. rewrite (nth_error_nth _ _ (length (sh_points s)) E). cbn [skipn]. rewrite Nat.sub_0_r.
  destruct (nth_error (sh_parts s) 1) as [stop|] eqn:E1.
  - rewrite (nth_error_nth _ _ (length (sh_points s)) E1). rewrite (first_part_some _ _ E1) by lia. rewrite Nat.sub_0_r. reflexivity.
  - rewrite nth_overflow by (apply nth_error_None; exact E1). rewrite firstn_all. apply first_part_none. exact E1.
Qed.

(** the polygon made from a shape, if any *)
Definition kept (s : shape) : bool := sh_polygon s && (3 <? length (ring s 0))%nat.
Definition open_ring (points : list (f64 * f64)) : list pcoord := map flip (removelast points).

Lemma removelast_length {A} (l : list A) : length (removelast l) = Nat.pred (length l).
Proof. induction l as [|x [|y l] IH]; [reflexivity|reflexivity|]. change (removelast (x :: y :: l)) with (x :: removelast (y :: l)). cbn [length] in *. rewrite IH. reflexivity. Qed.
Lemma removelast_map {A B} (f : A -> B) l : removelast (map f l) = map f (removelast l).
Proof. induction l as [|x [|y l] IH]; [reflexivity|reflexivity|]. cbn [map removelast] in *. rewrite IH. reflexivity. Qed.

Lemma read_shapes_spec shapes : Forall (fun s => nth_error (sh_parts s) 0 = Some O) shapes ->
  read_shapes shapes = Ok (map (fun s => open_ring (ring s 0)) (filter kept shapes)).
Proof.
  intros F. unfold read_shapes. change (map (fun s => open_ring (ring s 0)) (filter kept shapes)) with ([] ++ map (fun s => open_ring (ring s 0)) (filter kept shapes)).
  match goal with |- foldM ?f _ _ = _ => set (step := f) end.
  enough (K : forall acc, foldM step shapes acc = Ok (acc ++ map (fun s => open_ring (ring s 0)) (filter kept shapes))) by apply K.
  induction F as [|s shapes E F IH]; intros acc; [cbn; rewrite app_nil_r; reflexivity|].
  cbn [foldM filter]. unfold step at 1. unfold kept at 1. destruct (sh_polygon s); cbn [andb bind]; [|apply IH].
  rewrite (first_part_ring s E), map_length. destruct (Nat.ltb_spec 3 (length (ring s 0))) as [L|L]; cbn [bind]; [|apply IH].
  unfold py_polygon. rewrite removelast_length, map_length. destruct (Nat.ltb_spec (Nat.pred (length (ring s 0))) 3) as [L2|L2]; [lia|]. cbn [bind].
  rewrite IH. cbn [map]. rewrite <- app_assoc. unfold open_ring. rewrite <- removelast_map. reflexivity.
Qed.

Lemma read_shapes_big shapes : exists polys, read_shapes shapes = Ok polys /\ Forall (fun p => (3 <= length p)%nat) polys.
Proof.
  unfold read_shapes. assert (A : Forall (fun p : list pcoord => (3 <= length p)%nat) []) by constructor.
  match goal with |- exists _, foldM ?f _ _ = _ /\ _ => set (step := f) end. revert A. generalize (@nil (list pcoord)).
  induction shapes as [|s shapes IH]; intros acc A; [exists acc; split; [reflexivity|exact A]|].
  cbn [foldM]. unfold step at 1. destruct (sh_polygon s); cbn [bind]; [|apply IH; exact A].
  destruct (Nat.ltb_spec 3 (length (first_part (sh_parts s) 0 (sh_points s)))) as [L|L]; cbn [bind]; [|apply IH; exact A].
  unfold py_polygon. rewrite removelast_length. destruct (Nat.ltb_spec (Nat.pred (length (first_part (sh_parts s) 0 (sh_points s)))) 3) as [L2|L2]; [lia|]. cbn [bind].
  apply IH. apply Forall_app. split; [exact A|]. constructor; [|constructor]. rewrite removelast_length. lia.
Qed.

(** ** coordinates going back to Python *)
Lemma degrees_close z : (Z.abs z <= 180000000)%Z ->
  is_finite (microdegrees_to_degrees z) = true /\ Rabs (1000000 * V (microdegrees_to_degrees z) - IZR z) <= 1 / 1000000.
Proof.
  intros H. destruct (degrees_ok z) as (F & E & _); [lia|]. split; [exact F|]. rewrite E. pose proof micro_bounds as M.
  pose proof (IZR_abs_le z 180000000 H) as Bz.
  assert (Q : Rabs (rnd (micro * IZR z) - micro * IZR z) <= u53 * Rabs (micro * IZR z)).
  { apply rnd_error. destruct (Z.eq_dec z 0) as [->|N]; [right; lra|left].
    rewrite Rabs_mult, (Rabs_pos_eq micro) by lra. rewrite <- abs_IZR. pose proof (IZR_le 1 (Z.abs z) ltac:(lia)).
    apply Rle_trans with (bpow radix2 (-30)); [apply bpow_le; lia|]. change (bpow radix2 (-30)) with (/ 1073741824). nra. }
  assert (A : Rabs (micro * IZR z) <= 200).
  { rewrite Rabs_mult, (Rabs_pos_eq micro), <- abs_IZR by lra. pose proof (IZR_le (Z.abs z) 180000000 H). pose proof (IZR_le 0 (Z.abs z) ltac:(lia)). nra. }
  assert (B : Rabs (1000000 * (micro * IZR z) - IZR z) <= 1 / 2000000).
  { replace (1000000 * (micro * IZR z) - IZR z) with ((1000000 * micro - 1) * IZR z) by ring. rewrite Rabs_mult.
    assert (Rabs (1000000 * micro - 1) <= 1 / 10000000000000000) by (apply Rabs_le; lra).
    assert (Rabs (IZR z) <= 180000000) by (apply Rabs_le; lra). pose proof (Rabs_pos (IZR z)). pose proof (Rabs_pos (1000000 * micro - 1)). nra. }
  rewrite u53_val in Q. apply Rabs_le_inv in Q. apply Rabs_le_inv in B. apply Rabs_le. lra.
Qed.

(** what Python is given for a coordinate *)
Definition shows (v : coord) (c : pcoord) : Prop :=
  is_finite (p_longitude c) = true /\ is_finite (p_latitude c) = true /\
  Rabs (1000000 * V (p_longitude c) - IZR (lon v)) <= 1 / 1000000 /\ Rabs (1000000 * V (p_latitude c) - IZR (lat v)) <= 1 / 1000000.

Lemma convert_shows path : Forall ngeo path -> Forall2 shows path (convert path).
Proof.
  unfold convert. induction 1 as [|v path [Gx Gy] F IH]; constructor; [|exact IH].
  destruct (degrees_close (lon v)) as [A B]; [lia|]. destruct (degrees_close (lat v)) as [C D]; [lia|].
  repeat split; assumption.
Qed.

Lemma road_ngeo en g source destination lc u v f : fit_for_queries en g -> ngeo (lc_source lc) -> ngeo (lc_dest lc) ->
  road g (en_vis en) lc u v f -> correction_of en source destination lc -> ngeo v.
Proof.
  intros (Bg & Gv & _ & Sw & _) Gs Gd R _.
  assert (S : forall edge c w, ngeo c -> sees (en_vis en) edge c w -> ngeo w).
  { intros edge c w Gc (points & p & E & Ip & <- & _). destruct (Sw c Gc) as (pts & E' & H). rewrite E in E'. injection E' as <-. apply H. exact Ip. }
  destruct R as [A|(_ & [(_ & [[-> Se]|[-> Se]])|(_ & [[-> Se]|[-> Se]])])]; eauto.
  destruct (answer_some_in g u v f Bg A) as (_ & _ & Iv). apply Gv. exact Iv.
Qed.

Lemma path_ngeo en g source destination radius flag fuel path : fit_for_queries en g -> in_the_map source -> in_the_map destination ->
  shortest_path fuel en g source destination radius flag = Some (Ok path) -> Forall ngeo path.
Proof.
  intros Fit Ms Md E. destruct (query_path en g source destination radius flag Fit Ms Md fuel path E) as (lc & Co & K).
  destruct (search_graph_ok en g source destination lc Fit Ms Md Co) as (Gs & Gd & _).
  destruct K as [(_ & ->)|(_ & l & r & -> & _ & J)]; [apply Forall_cons; [exact Gs|apply Forall_cons; [exact Gd|apply Forall_nil]]|].
  constructor; [exact Gs|]. enough (K : forall u l t r, journey (road g (en_vis en) lc) u l t r -> Forall ngeo l) by exact (K _ _ _ _ J).
  clear - Fit Gs Gd Co. induction 1 as [u|u v f l t r R J IH]; constructor; [|exact IH].
  exact (road_ngeo en g source destination lc u v f Fit Gs Gd R Co).
Qed.

(** ** C60 *)
(** one entry of the answer: None exactly when the query threw *)
Definition answers (q : option (res (list coord))) (e : option (list pcoord)) : Prop :=
  (exists p l, q = Some (Ok p) /\ e = Some l /\ Forall2 shows p l) \/ (exists x, q = Some (Throw x) /\ e = None).

Lemma same_length {A B} (P : A -> B -> Prop) l k : Forall2 P l k -> length l = length k.
Proof. induction 1; cbn; congruence. Qed.

Lemma batch_interpolate_ok ens g pairs limit correct :
  (forall i, (i < length pairs)%nat -> fit_for_queries (ens i) g) ->
  (forall a b, In (a, b) pairs -> on_earth a /\ on_earth b) ->
  exists n, forall fuel schedule, (n <= fuel)%nat -> Permutation schedule (seq 0 (length pairs)) ->
    exists l, batch_interpolate fuel ens g pairs limit correct schedule = Some (Ok l) /\ length l = length pairs /\
      forall i c1 c2, nth_error pairs i = Some (c1, c2) -> exists v1 v2 e,
        close_by c1 v1 /\ close_by c2 v2 /\ nth_error l i = Some e /\ answers (shortest_path fuel (ens i) g v1 v2 limit correct) e.
Proof.
  intros Fit Deg.
  destruct (mapM_Forall2 vis_pair (fun p q => close_by (fst p) (fst q) /\ close_by (snd p) (snd q)) pairs) as (qs & Eq & F2).
  { intros [a b] Hin. destruct (Deg a b Hin) as [Da Db]. destruct (vis_coord_ok a Da) as (va & Ea & Ca). destruct (vis_coord_ok b Db) as (vb & Eb & Cb).
    exists (va, vb). unfold vis_pair. cbn [fst snd]. rewrite Ea. cbn [bind]. rewrite Eb. cbn [bind]. split; [reflexivity|split; assumption]. }
  assert (Lq : length pairs = length qs) by (apply (same_length _ _ _ F2)).
  destruct (batch_total ens g qs limit correct) as (n & Hn).
  { intros i L. apply Fit. lia. }
  { intros a b Hin. clear - F2 Hin. induction F2 as [|p q ps qs' H F2 IH]; [destruct Hin|]. destruct Hin as [->|Hin]; [|auto].
    destruct H as [A B]. split; [apply (close_in_map _ _ A)|apply (close_in_map _ _ B)]. }
  exists n. intros fuel schedule L P. rewrite Lq in P. destruct (Hn fuel schedule L P) as (rs & Ers).
  destruct (batch_results _ _ _ _ _ _ _ _ P Ers) as (Lr & Cells).
  assert (Each : forall i r, nth_error rs i = Some r -> exists a b, nth_error qs i = Some (a, b) /\ tells (shortest_path fuel (ens i) g a b limit correct) r).
  { intros i r Hr. assert ((i < length qs)%nat) by (rewrite <- Lr; apply nth_error_Some; congruence).
    destruct (nth_error qs i) as [[a b]|] eqn:E; [|apply nth_error_None in E; lia].
    destruct (Cells i a b E) as (r' & Hr' & T). exists a, b. split; [reflexivity|]. congruence. }
  destruct (mapM_Forall2 batch_entry (fun r e => batch_entry r = Ok e) rs) as (l & El & Fl).
  { intros r Hin. apply In_nth_error in Hin. destruct Hin as (i & Hi). destruct (Each i r Hi) as (a & b & _ & [(p & _ & ->)|(x & _ & ->)]); eexists; split; reflexivity. }
  exists l. unfold batch_interpolate. rewrite Eq, Ers, El. split; [reflexivity|]. split; [rewrite <- (same_length _ _ _ Fl); lia|].
  intros i c1 c2 Hc.
  assert (Q : exists q, nth_error qs i = Some q /\ close_by c1 (fst q) /\ close_by c2 (snd q)).
  { clear - F2 Hc. revert i Hc. induction F2 as [|p q ps qs' H F2 IH]; intros [|i] Hc; cbn in Hc; try discriminate Hc; [|apply IH; exact Hc].
    injection Hc as ->. exists q. cbn [fst snd] in H. cbn. tauto. }
  destruct Q as ([v1 v2] & Hq & E1 & E2). cbn [fst snd] in *. destruct (Cells i v1 v2 Hq) as (r & Hr & T).
  assert (E : exists e, nth_error l i = Some e /\ batch_entry r = Ok e).
  { clear - Fl Hr. revert i Hr. induction Fl as [|p q ps qs' H F2 IH]; intros [|i] Hc; cbn in Hc; try discriminate Hc; [|apply IH; exact Hc].
    injection Hc as ->. exists q. split; [reflexivity|exact H]. }
  destruct E as (e & He & Hb). exists v1, v2, e. split; [exact E1|]. split; [exact E2|]. split; [exact He|].
  destruct T as [(p & S & ->)|(x & S & ->)]; cbn [batch_entry br_error br_path] in Hb; injection Hb as <-; [left|right]; eauto.
  exists p, (convert p). repeat split; try assumption. apply convert_shows. apply (path_ngeo (ens i) g v1 v2 limit correct fuel p); try assumption; eauto using close_in_map.
  apply Fit. apply nth_error_Some. congruence.
Qed.

(** ** from the shapefile to the obstacles *)
Definition on_earth_shape (s : shape) : Prop := Forall (fun p => on_earth (flip p)) (sh_points s).

Lemma ring_in s i p : In p (ring s i) -> In p (sh_points s).
Proof.
  unfold ring. intros H. rewrite <- (firstn_skipn (nth i (sh_parts s) (length (sh_points s))) (sh_points s)). apply in_or_app. right.
  revert H. generalize (nth (S i) (sh_parts s) (length (sh_points s)) - nth i (sh_parts s) (length (sh_points s)))%nat.
  generalize (skipn (nth i (sh_parts s) (length (sh_points s))) (sh_points s)). intros l n H. rewrite <- (firstn_skipn n l). apply in_or_app. left. exact H.
Qed.
Lemma removelast_in {A} (l : list A) x : In x (removelast l) -> In x l.
Proof. induction l as [|y [|z l] IH]; intros H; [destruct H|destruct H|]. destruct H as [<-|H]; [left; reflexivity|right; apply IH; exact H]. Qed.

Lemma obstacles_ok shapes : Forall (fun s => nth_error (sh_parts s) 0 = Some O) shapes -> Forall on_earth_shape shapes ->
  exists polys, read_polygons_from_shapefile shapes = Ok polys /\
    Forall2 (fun s p => exists vs, Forall2 (fun q v => close_by (flip q) v) (removelast (ring s 0)) vs /\ make_polygon vs = Ok p) (filter kept shapes) polys.
Proof.
  intros W E. unfold read_polygons_from_shapefile. rewrite (read_shapes_spec shapes W). cbn [bind].
  assert (E' : Forall on_earth_shape (filter kept shapes)).
  { apply Forall_forall. intros s Hs. apply filter_In in Hs. destruct Hs as [Hs _]. revert s Hs. apply Forall_forall. exact E. }
  clear W E. induction E' as [|s l Es El IH]; [exists []; split; [reflexivity|constructor]|]. destruct IH as (polys & Ep & F).
  destruct (mapM_Forall2 vis_coord close_by (open_ring (ring s 0))) as (vs & Ev & Fv).
  { intros c Hc. apply vis_coord_ok. unfold open_ring in Hc. apply in_map_iff in Hc. destruct Hc as (q & <- & Hq). apply removelast_in, ring_in in Hq.
    revert q Hq. apply Forall_forall. exact Es. }
  assert (Fv' : Forall2 (fun q v => close_by (flip q) v) (removelast (ring s 0)) vs).
  { clear - Fv. unfold open_ring in Fv. revert vs Fv. induction (removelast (ring s 0)) as [|q l IH]; intros vs Fv; inversion Fv; subst; constructor; auto. }
  assert (Pv : Forall pgeo vs).
  { clear - Fv. induction Fv as [|c v l k C F IH]; constructor; auto. destruct C as (A & B & _). unfold pgeo. lia. }
  destruct (construction_selects vs Pv) as (p & idx & Mp & _). exists (p :: polys). cbn [map mapM].
  rewrite Ev. cbn [bind]. rewrite Mp. cbn [bind]. rewrite Ep. cbn [bind]. split; [reflexivity|]. constructor; [exists vs; auto|exact F].
Qed.

(** ** C62 *)
Lemma degrees_range z n : (Z.abs z <= n * 1000000)%Z -> (n <= 180)%Z -> Rabs (V (microdegrees_to_degrees z)) <= IZR n.
Proof.
  intros H L. destruct (degrees_ok z) as (_ & E & _); [lia|]. rewrite E. pose proof micro_bounds as M.
  assert (U : micro <= 1 / 1000000) by (unfold micro; rewrite bpow_m72; lra).
  assert (B : - IZR n <= micro * IZR z <= IZR n).
  { destruct (IZR_abs_le z (n * 1000000) H) as [A B]. rewrite mult_IZR in A, B. assert (0 <= IZR n) by (apply IZR_le; lia).
    assert (Rabs (micro * IZR z) <= IZR n); [|apply Rabs_le_inv; assumption].
    rewrite Rabs_mult, (Rabs_pos_eq micro) by lra. assert (Rabs (IZR z) <= IZR n * 1000000) by (apply Rabs_le; lra). pose proof (Rabs_pos (IZR z)). nra. }
  apply Rabs_le. split.
  - rewrite <- (rnd_IZR n) at 1 by lia. rewrite <- rnd_opp. apply rnd_mono. lra.
  - rewrite <- (rnd_IZR n) by lia. apply rnd_mono. lra.
Qed.

Lemma convert_on_earth path : Forall ngeo path -> Forall on_earth (convert path).
Proof.
  unfold convert. induction 1 as [|v path [Gx Gy] F IH]; constructor; [|exact IH].
  destruct (degrees_close (lon v)) as [A _]; [lia|]. destruct (degrees_close (lat v)) as [C _]; [lia|].
  repeat split; try assumption; [apply (degrees_range (lon v) 180)|apply (degrees_range (lat v) 90)]; lia.
Qed.

Lemma interpolate_ok en g c1 c2 limit correct : fit_for_queries en g -> on_earth c1 -> on_earth c2 ->
  exists v1 v2 n, close_by c1 v1 /\ close_by c2 v2 /\ forall fuel, (n <= fuel)%nat ->
    (exists path l, shortest_path fuel en g v1 v2 limit correct = Some (Ok path) /\ interpolate fuel en g c1 c2 limit correct = Some (Ok l) /\
       Forall2 shows path l /\ Forall on_earth l) \/
    (exists e, shortest_path fuel en g v1 v2 limit correct = Some (Throw e) /\ interpolate fuel en g c1 c2 limit correct = Some (Throw e)).
Proof.
  intros Fit O1 O2. destruct (vis_coord_ok c1 O1) as (v1 & E1 & C1). destruct (vis_coord_ok c2 O2) as (v2 & E2 & C2).
  destruct (query_terminates en g v1 v2 limit correct Fit (close_in_map _ _ C1) (close_in_map _ _ C2)) as (n & Hn).
  exists v1, v2, n. split; [exact C1|]. split; [exact C2|]. intros fuel L. destruct (Hn fuel L) as [N U]. unfold interpolate. rewrite E1, E2.
  destruct (shortest_path fuel en g v1 v2 limit correct) as [[path|e|u]|] eqn:E; [left|right|destruct (U u eq_refl)|destruct (N eq_refl)].
  - assert (G : Forall ngeo path) by (apply (path_ngeo en g v1 v2 limit correct fuel); eauto using close_in_map).
    exists path, (convert path). split; [reflexivity|]. split; [reflexivity|]. split; [apply convert_shows|apply convert_on_earth]; exact G.
  - exists e. split; reflexivity.
Qed.

(** at sea, however the coordinate is rounded *)
Definition at_sea (ix : index) (c : pcoord) : Prop := forall v, close_by c v -> ix_contains ix v = false.
(** the same place but for the rounding to microdegrees *)
Definition near (c p : pcoord) : Prop :=
  Rabs (1000000 * V (p_longitude p) - 1000000 * V (p_longitude c)) <= 1 + 1 / 500000 /\
  Rabs (1000000 * V (p_latitude p) - 1000000 * V (p_latitude c)) <= 1 + 1 / 500000.
Lemma close_shows_near c v p : close_by c v -> shows v p -> near c p.
Proof.
  intros (_ & _ & A & B) (_ & _ & C & D). apply Rabs_lt_inv in A, B. apply Rabs_le_inv in C, D. split; apply Rabs_le; lra.
Qed.
Lemma shows_ends path l a b : Forall2 shows path l -> hd_error path = Some a -> last path a = b ->
  exists p q, hd_error l = Some p /\ last l p = q /\ shows a p /\ shows b q.
Proof.
  intros F Ha Hb. destruct F as [|x p path l S F]; [discriminate Ha|]. injection Ha as ->. exists p, (last (p :: l) p). split; [reflexivity|]. split; [reflexivity|].
  split; [exact S|]. subst b. revert a p S. induction F as [|y q path l S' F IH]; intros a p S; [exact S|].
  change (last (a :: y :: path) a) with (last (y :: path) a). change (last (p :: q :: l) p) with (last (q :: l) p).
  assert (G : forall (T : Type) (z : T) r d1 d2, last (z :: r) d1 = last (z :: r) d2).
  { clear. intros T z r. revert z. induction r as [|w r IH]; intros z d1 d2; [reflexivity|]. change (last (w :: r) d1 = last (w :: r) d2). apply IH. }
  rewrite (G _ y path a y), (G _ q l p q). apply IH. exact S'.
Qed.

Lemma interpolate_ends en g c1 c2 limit correct fuel l : fit_for_queries en g -> on_earth c1 -> on_earth c2 ->
  at_sea (en_index en) c1 -> at_sea (en_index en) c2 -> interpolate fuel en g c1 c2 limit correct = Some (Ok l) ->
  exists p q, hd_error l = Some p /\ last l p = q /\ near c1 p /\ near c2 q.
Proof.
  intros Fit O1 O2 S1 S2 E. destruct (vis_coord_ok c1 O1) as (v1 & E1 & C1). destruct (vis_coord_ok c2 O2) as (v2 & E2 & C2).
  unfold interpolate in E. rewrite E1, E2 in E.
  destruct (shortest_path fuel en g v1 v2 limit correct) as [[path|e|u]|] eqn:Q; try discriminate E. injection E as <-.
  pose proof (path_ngeo en g v1 v2 limit correct fuel path Fit (close_in_map _ _ C1) (close_in_map _ _ C2) Q) as G.
  assert (N : forall c v, close_by c v -> normalize_coord v = Ok v).
  { intros c v (A & B & _). apply (copy_facts v v); [unfold ngeo; lia|]. exists 0%Z. split; [left; reflexivity|]. rewrite Z.add_0_r. destruct v; reflexivity. }
  destruct (query_land en g v1 v2 limit correct Fit (close_in_map _ _ C1) (close_in_map _ _ C2)) as (ns & nd & Ns & Nd & _ & K).
  rewrite (N _ _ C1) in Ns. rewrite (N _ _ C2) in Nd. injection Ns as <-. injection Nd as <-.
  destruct K as (s' & d' & es & ed & Ms & Md & _ & K); [right; auto|]. destruct (K fuel) as [_ K']. destruct (K' path Q) as [Hh Hl].
  destruct Ms as [(_ & -> & _)|(T & _)]; [|rewrite (S1 _ C1) in T; discriminate T].
  destruct Md as [(_ & -> & _)|(T & _)]; [|rewrite (S2 _ C2) in T; discriminate T].
  destruct (shows_ends path (convert path) v1 v2 (convert_shows path G) Hh Hl) as (p & q & Hp & Hq & A & B).
  exists p, q. split; [exact Hp|]. split; [exact Hq|]. split; eapply close_shows_near; eassumption.
Qed.
