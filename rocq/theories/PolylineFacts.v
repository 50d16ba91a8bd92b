(** Facts about the corner test. *)
From Coq Require Import ZArith Bool List Reals Lra Lia.
From Flocq Require Import Core BinarySingleNaN.
From Verif Require Import Base F64 F64Facts Coordinate CoordinateFacts Segment Polyline SpecGeom PolygonFloat.
Local Open Scope Z_scope.

(** ** Statement vocabulary: a corner v1 -> v2 -> v3 of a ring with the solid on its left *)
(** the direction from [v2] to [p] points strictly into the solid *)
Definition into_solid (v1 v2 v3 p : coord) : Prop :=
  (0 < turn v1 v2 v3 /\ 0 < turn v1 v2 p /\ 0 < turn v2 v3 p) \/
  (turn v1 v2 v3 < 0 /\ (0 < turn v1 v2 p \/ 0 < turn v2 v3 p)).
(** inner product of [w - v] and [p - v] *)
Definition inner (v w p : coord) : Z :=
  (lon w - lon v) * (lon p - lon v) + (lat w - lat v) * (lat p - lat v).
(** [p] lies on the ray from [v] through [w], [v] excluded *)
Definition on_ray (v w p : coord) : Prop := turn v w p = 0 /\ 0 < inner v w p.
(** on the ray, at more than (n/d) times the distance of [w] *)
Definition past (n d : Z) (v w p : coord) : Prop := on_ray v w p /\ n * inner v w w < d * inner v w p.
(** the direction is neither along an edge nor into the solid *)
Definition outside (v1 v2 v3 p : coord) : Prop :=
  ~ into_solid v1 v2 v3 p /\ ~ on_ray v2 v1 p /\ ~ on_ray v2 v3 p.

(** the turn is not too small for the size of the edges; always so when the products are
    below 2*10^15, e.g. for edges shorter than 31 degrees *)
Definition clear_corner (v1 v2 v3 : coord) : Prop :=
  turn v1 v2 v3 <> 0 /\
  Z.abs ((lon v2 - lon v1) * (lat v3 - lat v2)) + Z.abs ((lat v2 - lat v1) * (lon v3 - lon v2)) <=
  2000000000000000 * Z.abs (turn v1 v2 v3).

Lemma clear_small v1 v2 v3 : turn v1 v2 v3 <> 0 ->
  Z.abs ((lon v2 - lon v1) * (lat v3 - lat v2)) + Z.abs ((lat v2 - lat v1) * (lon v3 - lon v2)) <= 2000000000000000 ->
  clear_corner v1 v2 v3.
Proof. intros N H. split; [exact N|]. lia. Qed.

Lemma dot_pos X : nonzero X -> (0 < dot X X)%Z.
Proof.
  destruct X as [x y]. intros N. unfold dot. cbn [lon lat]. destruct (Z.eq_dec x 0) as [->|]; [|nia].
  destruct (Z.eq_dec y 0) as [->|]; [|nia]. elim N. reflexivity.
Qed.
Lemma sub_pgeo a b : pgeo a -> pgeo b -> coord_sub a b = Ok (mkC (lon a - lon b) (lat a - lat b)).
Proof. intros [? ?] [? ?]. apply coord_sub_ok; unfold coord_i32, INT32_MIN, INT32_MAX; cbn [lon lat]; lia. Qed.
Lemma diff_i32 a b : pgeo a -> pgeo b -> coord_i32 (mkC (lon a - lon b) (lat a - lat b)).
Proof. intros [? ?] [? ?]. unfold coord_i32, INT32_MIN, INT32_MAX; cbn [lon lat]; lia. Qed.
Lemma diff_i31 a b : pgeo a -> pgeo b -> i31 (lon a - lon b) /\ i31 (lat a - lat b).
Proof. intros [? ?] [? ?]. unfold i31. lia. Qed.

(** ** The sign of the floating point determinant *)
Local Open Scope R_scope.
Lemma deg_prod x y : i31 x -> i31 y ->
  is_finite (fmul (microdegrees_to_degrees x) (microdegrees_to_degrees y)) = true /\
  Rabs (V (fmul (microdegrees_to_degrees x) (microdegrees_to_degrees y))) <= 100000000 /\
  Rabs (V (fmul (microdegrees_to_degrees x) (microdegrees_to_degrees y)) - micro * micro * (IZR x * IZR y)) <=
  micro * micro * (4 * u53 * Rabs (IZR x * IZR y)).
Proof.
  intros Hx Hy. destruct (deg_val x Hx) as [_ Fx]. destruct (deg_val y Hy) as [_ Fy].
  pose proof (dev_val x) as Ex. pose proof (dev_val y) as Ey.
  pose proof (dev_bound x Hx) as Bx. pose proof (dev_bound y Hy) as By. rewrite abs_IZR in Bx, By.
  set (dx := dev x) in *. set (dy := dev y) in *. pose proof micro_bounds as Mb.
  assert (Ax : Rabs (IZR x) <= 2147483648) by (rewrite <- abs_IZR; apply IZR_le; exact Hx).
  assert (Ay : Rabs (IZR y) <= 2147483648) by (rewrite <- abs_IZR; apply IZR_le; exact Hy).
  pose proof (Rabs_pos (IZR x)) as Px. pose proof (Rabs_pos (IZR y)) as Py.
  pose proof (Rabs_pos dx) as Pdx. pose proof (Rabs_pos dy) as Pdy.
  set (X := Rabs (IZR x)) in *. set (Y := Rabs (IZR y)) in *.
  assert (U : u53 = 1 / 9007199254740992) by apply u53_val.
  (* the exact product of the two doubles *)
  assert (P : V (microdegrees_to_degrees x) * V (microdegrees_to_degrees y) = micro * micro * ((IZR x + dx) * (IZR y + dy))) by (rewrite Ex, Ey; ring).
  assert (D : Rabs ((IZR x + dx) * (IZR y + dy) - IZR x * IZR y) <= (5 / 2) * u53 * (X * Y)).
  { replace ((IZR x + dx) * (IZR y + dy) - IZR x * IZR y) with (IZR x * dy + dx * IZR y + dx * dy) by ring.
    eapply Rle_trans; [apply Rabs_triang|]. eapply Rle_trans; [apply Rplus_le_compat_r, Rabs_triang|]. rewrite !Rabs_mult.
    fold X Y.
    assert (X * Rabs dy <= X * (u53 * Y)) by (apply Rmult_le_compat_l; lra).
    assert (Rabs dx * Y <= (u53 * X) * Y) by (apply Rmult_le_compat_r; lra).
    assert (Rabs dx * Rabs dy <= (u53 * X) * (u53 * Y)) by (apply Rmult_le_compat; lra).
    assert (0 <= X * Y) by (apply Rmult_le_pos; lra).
    replace ((u53 * X) * (u53 * Y)) with (u53 * (u53 * (X * Y))) in * by ring.
    assert (u53 * (X * Y) <= 1/2 * (X * Y)) by (apply Rmult_le_compat_r; lra).
    assert (u53 * (u53 * (X * Y)) <= u53 * (1/2 * (X * Y))) by (apply Rmult_le_compat_l; lra). lra. }
  assert (XY : Rabs (IZR x * IZR y) = X * Y) by apply Rabs_mult.
  assert (XY0 : 0 <= X * Y <= 2147483648 * 2147483648).
  { split; [apply Rmult_le_pos; lra|apply Rmult_le_compat; lra]. }
  set (E := (IZR x + dx) * (IZR y + dy)) in *.
  assert (AE : Rabs E <= 2 * (X * Y)).
  { replace E with ((E - IZR x * IZR y) + IZR x * IZR y) by ring. eapply Rle_trans; [apply Rabs_triang|]. rewrite XY.
    rewrite U in D. lra. }
  assert (Mm : 0 < micro * micro <= 1.1 / 1000000000000) by (split; nra).
  assert (ME : Rabs (micro * micro * E) <= 100000000 / 2).
  { rewrite Rabs_mult, (Rabs_right (micro * micro)) by lra.
    assert (micro * micro * Rabs E <= (1.1 / 1000000000000) * (2 * (2147483648 * 2147483648))) by (apply Rmult_le_compat; try lra; apply Rabs_pos). lra. }
  destruct (fmul_correct _ _ Fx Fy) as [C1 C2].
  { rewrite P. apply small_le_big. lra. }
  split; [exact C2|]. rewrite P in C1. rewrite C1.
  assert (Er : Rabs (rnd (micro * micro * E) - micro * micro * E) <= u53 * Rabs (micro * micro * E)).
  { apply rnd_error. destruct (Z.eq_dec x 0) as [->|Nx].
    - right. unfold E. assert (dx = 0) as ->; [|ring]. unfold X in Bx. rewrite Rabs_R0, Rmult_0_r in Bx.
      destruct (Req_dec dx 0) as [Z|Z]; [exact Z|]. apply Rabs_pos_lt in Z. lra.
    - destruct (Z.eq_dec y 0) as [->|Ny].
      + right. unfold E. assert (dy = 0) as ->; [|ring]. unfold Y in By. rewrite Rabs_R0, Rmult_0_r in By.
        destruct (Req_dec dy 0) as [Z|Z]; [exact Z|]. apply Rabs_pos_lt in Z. lra.
      + left. apply Rle_trans with (bpow radix2 (-100)); [apply bpow_le; lia|].
        change (bpow radix2 (-100)) with (/ 1267650600228229401496703205376).
        assert (1 <= X) by (unfold X; rewrite <- abs_IZR; apply IZR_le; lia).
        assert (1 <= Y) by (unfold Y; rewrite <- abs_IZR; apply IZR_le; lia).
        assert (1 <= X * Y) by nra.
        assert (X * Y - Rabs E <= Rabs (E - IZR x * IZR y)).
        { rewrite <- XY. rewrite (Rabs_minus_sym E). apply Rabs_triang_inv. }
        assert (1 / 2 <= Rabs E) by (rewrite U in D; lra).
        rewrite Rabs_mult, (Rabs_right (micro * micro)) by lra.
        assert (0.9 / 1000000000000 <= micro * micro) by nra.
        assert ((0.9 / 1000000000000) * (1 / 2) <= micro * micro * Rabs E) by (apply Rmult_le_compat; lra). lra. }
  split.
  - replace (rnd (micro * micro * E)) with ((rnd (micro * micro * E) - micro * micro * E) + micro * micro * E) by ring.
    eapply Rle_trans; [apply Rabs_triang|]. rewrite U in Er. lra.
  - replace (rnd (micro * micro * E) - micro * micro * (IZR x * IZR y)) with
      ((rnd (micro * micro * E) - micro * micro * E) + micro * micro * (E - IZR x * IZR y)) by ring.
    eapply Rle_trans; [apply Rabs_triang|].
    rewrite (Rabs_mult (micro * micro) (E - _)), (Rabs_right (micro * micro)) by lra. rewrite Rabs_mult, (Rabs_right (micro * micro)) in Er by lra.
    rewrite XY.
    assert (AE2 : Rabs E <= (5 / 4) * (X * Y)).
    { replace E with ((E - IZR x * IZR y) + IZR x * IZR y) by ring. eapply Rle_trans; [apply Rabs_triang|]. rewrite XY. rewrite U in D. lra. }
    assert (micro * micro * Rabs E <= micro * micro * ((5 / 4) * (X * Y))) by (apply Rmult_le_compat_l; lra).
    assert (u53 * (micro * micro * Rabs E) <= u53 * (micro * micro * ((5 / 4) * (X * Y)))) by (apply Rmult_le_compat_l; lra).
    assert (micro * micro * Rabs (E - IZR x * IZR y) <= micro * micro * (5 / 2 * u53 * (X * Y))) by (apply Rmult_le_compat_l; lra).
    assert (0 <= micro * micro * (u53 * (X * Y))) by (apply Rmult_le_pos; [lra|apply Rmult_le_pos; lra]).
    replace (u53 * (micro * micro * (5 / 4 * (X * Y)))) with ((5/4) * (micro * micro * (u53 * (X * Y)))) in * by ring.
    replace (micro * micro * (5 / 2 * u53 * (X * Y))) with ((5/2) * (micro * micro * (u53 * (X * Y)))) in * by ring.
    replace (micro * micro * (4 * u53 * (X * Y))) with (4 * (micro * micro * (u53 * (X * Y)))) by ring. lra.
Qed.

Lemma micro_square : 0 < micro * micro /\ 9 / 10000000000000 <= micro * micro.
Proof.
  pose proof micro_bounds as B. assert (L : 95 / 100000000 <= micro) by lra. 
  assert ((95 / 100000000) * (95 / 100000000) <= micro * micro) by (apply Rmult_le_compat; lra). lra.
Qed.

Lemma is_reflex_ok p : pgeo (pv1 p) -> pgeo (pv2 p) -> pgeo (pv3 p) -> clear_corner (pv1 p) (pv2 p) (pv3 p) ->
  is_reflex p = Ok (turn (pv1 p) (pv2 p) (pv3 p) <? 0)%Z.
Proof.
  destruct p as [v1 v2 v3]. cbn [pv1 pv2 pv3]. intros G1 G2 G3 [N C].
  unfold is_reflex. cbn [pv1 pv2 pv3].
  destruct (diff_i31 v2 v1 G2 G1) as [Ia Ic]. destruct (diff_i31 v3 v2 G3 G2) as [Id Ib].
  rewrite (sub_pgeo v2 v1 G2 G1), (sub_pgeo v3 v2 G3 G2). cbn [bind]. cbv zeta. f_equal. unfold get_longitude, get_latitude. cbn [lon lat].
  set (a := (lon v2 - lon v1)%Z) in *. set (b := (lat v3 - lat v2)%Z) in *.
  set (c := (lat v2 - lat v1)%Z) in *. set (d := (lon v3 - lon v2)%Z) in *.
  assert (T : turn v1 v2 v3 = (a * b - c * d)%Z) by (unfold turn, a, b, c, d; ring).
  rewrite T in *. set (D := (a * b - c * d)%Z) in *.
  destruct (deg_prod a b Ia Ib) as (F1 & B1 & E1).
  destruct (deg_prod c d Ic Id) as (F2 & B2 & E2).
  set (p1 := fmul _ _) in *. set (p2 := fmul (microdegrees_to_degrees c) _) in *.
  destruct (fsub_correct p1 p2 F1 F2) as [V1 V2].
  { apply small_le_big. eapply Rle_trans; [apply Rabs_triang|]. rewrite Rabs_Ropp. lra. }
  destruct V_f0 as [Z1 Z2].
  destruct micro_square as [Mm Mb2].
  assert (Er : Rabs ((V p1 - V p2) - micro * micro * IZR D) <= micro * micro * (4 * u53 * (IZR (Z.abs (a * b)) + IZR (Z.abs (c * d))))).
  { assert (IZR D = IZR a * IZR b - IZR c * IZR d) as -> by (unfold D; rewrite minus_IZR, !mult_IZR; reflexivity).
    replace (V p1 - V p2 - micro * micro * (IZR a * IZR b - IZR c * IZR d)) with
      ((V p1 - micro * micro * (IZR a * IZR b)) + - (V p2 - micro * micro * (IZR c * IZR d))) by ring.
    eapply Rle_trans; [apply Rabs_triang|]. rewrite Rabs_Ropp. rewrite !abs_IZR, !mult_IZR.
    rewrite !Rmult_plus_distr_l. lra. }
  assert (Sm : IZR (Z.abs (a * b)) + IZR (Z.abs (c * d)) <= 2000000000000000 * IZR (Z.abs D)).
  { rewrite <- plus_IZR, <- mult_IZR. apply IZR_le. exact C. }
  assert (Er2 : Rabs ((V p1 - V p2) - micro * micro * IZR D) <= micro * micro * (9 / 10 * IZR (Z.abs D))).
  { eapply Rle_trans; [exact Er|]. apply Rmult_le_compat_l; [lra|]. rewrite u53_val.
    assert (0 <= IZR (Z.abs D)) by (apply IZR_le; lia). lra. }
  apply Rabs_le_inv in Er2.
  set (Q := micro * micro) in *. clearbody Q.
  destruct (Z_lt_le_dec D 0) as [L|L].
  - rewrite (proj2 (Z.ltb_lt D 0) L). apply fltb_iff; [exact V2|exact Z2|]. rewrite V1, Z1.
    rewrite Z.abs_neq in Er2 by lia. rewrite opp_IZR in Er2.
    assert (IZR D <= -1) by (apply (IZR_le D (-1)); lia).
    assert (Q * (9 / 10 * - IZR D) + Q * IZR D = Q * (IZR D / 10)) by field.
    assert (Q * (IZR D / 10) <= Q * (- 1 / 10)) by (apply Rmult_le_compat_l; lra).
    assert (Up : V p1 - V p2 <= - (Q / 10)) by lra.
    assert (Neg : V p1 - V p2 < 0) by lra.
    destruct (Rle_or_lt 0 (rnd (V p1 - V p2))) as [X|X]; [|exact X]. exfalso.
    (* a nonzero difference of doubles does not round to zero *)
    assert (Big : bpow radix2 (-1022) <= Rabs (V p1 - V p2)).
    { rewrite Rabs_left by lra. apply Rle_trans with (bpow radix2 (-100)); [apply bpow_le; lia|].
      change (bpow radix2 (-100)) with (/ 1267650600228229401496703205376). clear - Up Mb2. lra. }
    pose proof (rnd_error _ (or_introl Big)) as R. rewrite (Rabs_left (V p1 - V p2)) in R by lra. fold (rnd (V p1 - V p2)) in R. rewrite u53_val in R.
    apply Rabs_le_inv in R. lra.
  - rewrite (proj2 (Z.ltb_ge D 0) L). apply not_true_is_false. intros X. apply fltb_iff in X; [|exact V2|exact Z2].
    rewrite V1, Z1 in X. rewrite Z.abs_eq in Er2 by lia.
    assert (0 <= V p1 - V p2).
    { assert (0 <= IZR D) by (apply IZR_le; lia). assert (0 <= Q * IZR D) by (apply Rmult_le_pos; lra). lra. }
    apply rnd_mono in H. fold (rnd (V p1 - V p2)) in H. rewrite rnd_0 in H. lra.
Qed.

(** ** The position on an edge *)
Definition edge_limit : f64 := fadd (fadd f_1 f_1em6) f_1em6.
Definition edge_start : f64 := fsub (fopp f_1em6) f_1em6.
Lemma edge_limit_val : is_finite edge_limit = true /\ 1.0000019999 <= V edge_limit <= 1.0000020001.
Proof. split; [reflexivity|]. unfold edge_limit, V. vm_compute B2R. lra. Qed.
Lemma edge_start_val : is_finite edge_start = true /\ V edge_start <= -1 / 1000000.
Proof. split; [reflexivity|]. unfold edge_start, V. vm_compute B2R. lra. Qed.

Lemma ray_factor a b : coord_i32 a -> coord_i32 b -> nonzero a -> det a b = 0%Z ->
  exists f, scalar_multiple_factor a b = Ok (Some f) /\ is_finite f = true /\
    V f = rnd (IZR (dot a b) / IZR (dot a a)) /\
    ((0 < dot a b)%Z -> Rabs (V f - IZR (dot a b) / IZR (dot a a)) <= u53 * (IZR (dot a b) / IZR (dot a a))).
Proof.
  intros A B N D.
  assert (Px : exists x y, i31 x /\ i31 y /\ x <> 0%Z /\ scalar_multiple_factor a b = Ok (Some (fdiv (f_of_Z y) (f_of_Z x))) /\
    (dot a b * x = y * dot a a)%Z).
  { unfold scalar_multiple_factor. rewrite parallel_ok, D by assumption. cbn [bind]. change (0 =? 0)%Z with true. cbn [negb].
    destruct A as [A1 A2], B as [B1 B2]. unfold det, dot in *.
    pose proof (i32_i31 _ A1). pose proof (i32_i31 _ A2). pose proof (i32_i31 _ B1). pose proof (i32_i31 _ B2).
    destruct (lon a =? 0)%Z eqn:L.
    - apply Z.eqb_eq in L. destruct (lat a =? 0)%Z eqn:M; cbn [andb].
      + apply Z.eqb_eq in M. exfalso. apply N. destruct a as [ax ay]; cbn [lon lat] in *; subst. reflexivity.
      + apply Z.eqb_neq in M. exists (lat a), (lat b). split; [assumption|]. split; [assumption|]. split; [exact M|]. split; [reflexivity|].
        rewrite L in *. ring.
    - cbn [andb]. apply Z.eqb_neq in L. exists (lon a), (lon b). split; [assumption|]. split; [assumption|]. split; [exact L|]. split; [reflexivity|].
      assert (E : (lon a * lat b = lon b * lat a)%Z) by lia.
      transitivity (lon b * (lon a * lon a) + lat a * (lon a * lat b))%Z; [ring|]. rewrite E. ring. }
  destruct Px as (x & y & Hx & Hy & Nx & E & Eq).
  assert (Pa : (0 < dot a a)%Z).
  { apply dot_pos, N. }
  assert (Q : IZR (dot a b) / IZR (dot a a) = factor x y).
  { unfold factor. assert (IZR x <> 0) by (apply IZR_nz; exact Nx). assert (IZR (dot a a) <> 0) by (apply IZR_nz; lia).
    apply (f_equal IZR) in Eq. rewrite !mult_IZR in Eq. field_simplify_eq; [|auto]. lra. }
  destruct (fdiv_factor x y Hx Hy Nx) as [D1 D2].
  eexists. split; [exact E|]. split; [exact D2|]. rewrite Q. split; [exact D1|]. intros P. rewrite D1.
  pose proof (rnd_factor_err x y Hx Hy Nx) as Er. rewrite (Rabs_right (factor x y)) in Er; [exact Er|].
  rewrite <- Q. apply Rle_ge. apply Rmult_le_pos; [apply IZR_le; lia|]. left. apply Rinv_0_lt_compat. apply IZR_lt. exact Pa.
Qed.

Lemma within_edge_ray a b f : coord_i32 a -> coord_i32 b -> nonzero a -> det a b = 0%Z -> (0 < dot a b)%Z ->
  scalar_multiple_factor a b = Ok (Some f) ->
  ((1000000000 * dot a b <= 1000001999 * dot a a)%Z -> within_edge f = true) /\
  ((1000002001 * dot a a < 1000000000 * dot a b)%Z -> within_edge f = false).
Proof.
  intros A B N D P E. destruct (ray_factor a b A B N D) as (f' & E' & F & _ & Er). rewrite E in E'. injection E' as <-.
  specialize (Er P).
  assert (Pa : (0 < dot a a)%Z).
  { apply dot_pos, N. }
  set (q := IZR (dot a b) / IZR (dot a a)) in *.
  assert (Qd : q * IZR (dot a a) = IZR (dot a b)) by (unfold q; field; apply IZR_nz; lia).
  assert (Pr : 0 < IZR (dot a a)) by (apply IZR_lt; exact Pa).
  assert (Q0 : 0 < q).
  { unfold q. apply Rdiv_lt_0_compat; [apply IZR_lt; exact P|exact Pr]. }
  destruct edge_limit_val as [L1 L2]. destruct edge_start_val as [S1 S2].
  rewrite u53_val in Er. apply Rabs_le_inv in Er.
  assert (W : within_edge f = fleb edge_start f && fleb f edge_limit) by reflexivity.
  rewrite W. split; intros H.
  - apply (f_equal (fun x => x)) in Qd. apply IZR_le in H. rewrite !mult_IZR in H. rewrite <- Qd in H.
    assert (q <= 1.000001999).
    { apply Rmult_le_reg_r with (IZR (dot a a)); [exact Pr|]. lra. }
    apply andb_true_iff. split; apply fleb_iff; try assumption; lra.
  - apply IZR_lt in H. rewrite !mult_IZR in H. rewrite <- Qd in H.
    assert (1.000002001 < q).
    { apply Rmult_lt_reg_r with (IZR (dot a a)); [exact Pr|]. lra. }
    apply andb_false_iff. right. apply not_true_is_false. intros X. apply fleb_iff in X; [|assumption|assumption]. lra.
Qed.

Local Open Scope Z_scope.
Lemma point_visible_ok v1 v2 v3 p : pgeo v1 -> pgeo v2 -> pgeo v3 -> pgeo p -> clear_corner v1 v2 v3 -> p <> v2 ->
  exists b, point_visible (mkPL v1 v2 v3) p = Ok b /\
    (into_solid v1 v2 v3 p -> b = false) /\
    (outside v1 v2 v3 p -> b = true) /\
    (forall w, w = v1 \/ w = v3 -> on_ray v2 w p ->
       (~ past 1000001999 1000000000 v2 w p -> b = true) /\
       (past 1000002001 1000000000 v2 w p -> b = false)).
Proof.
  intros G1 G2 G3 G4 C Np. pose proof (is_reflex_ok (mkPL v1 v2 v3) G1 G2 G3 C) as Rf. cbn [pv1 pv2 pv3] in Rf.
  destruct C as [C _].
  set (A := mkC (lon v1 - lon v2) (lat v1 - lat v2)). set (B := mkC (lon v3 - lon v2) (lat v3 - lat v2)).
  set (P := mkC (lon p - lon v2) (lat p - lat v2)).
  assert (IA : coord_i32 A) by (apply diff_i32; assumption).
  assert (IB : coord_i32 B) by (apply diff_i32; assumption).
  assert (IP : coord_i32 P) by (apply diff_i32; assumption).
  assert (S1 : coord_sub v1 v2 = Ok A) by (apply sub_pgeo; assumption).
  assert (S2 : coord_sub v3 v2 = Ok B) by (apply sub_pgeo; assumption).
  assert (S3 : coord_sub p v2 = Ok P) by (apply sub_pgeo; assumption).
  assert (T1 : turn v1 v2 v3 = - det A B) by (unfold turn, det, A, B; cbn [lon lat]; ring).
  assert (T2 : turn v1 v2 p = - det A P) by (unfold turn, det, A, P; cbn [lon lat]; ring).
  assert (T3 : turn v2 v3 p = det B P) by (unfold turn, det, B, P; cbn [lon lat]; ring).
  assert (T4 : turn v2 v1 p = det A P) by (unfold turn, det, A, P; cbn [lon lat]; ring).
  assert (D1 : inner v2 v1 p = dot A P) by (unfold inner, dot, A, P; cbn [lon lat]; ring).
  assert (D2 : inner v2 v3 p = dot B P) by (unfold inner, dot, B, P; cbn [lon lat]; ring).
  assert (D3 : inner v2 v1 v1 = dot A A) by (unfold inner, dot, A; cbn [lon lat]; ring).
  assert (D4 : inner v2 v3 v3 = dot B B) by (unfold inner, dot, B; cbn [lon lat]; ring).
  (* P = (det P B * A + det A P * B) / det A B *)
  assert (K1 : det A B * dot A P = - det B P * dot A A + det A P * dot A B) by (unfold det, dot; ring).
  assert (K2 : det A B * dot B P = - det B P * dot A B + det A P * dot B B) by (unfold det, dot; ring).
  assert (NA : nonzero A) by (intros Z; rewrite Z in T1; unfold det in T1; cbn [lon lat] in T1; lia).
  assert (NB : nonzero B) by (intros Z; rewrite Z in T1; unfold det in T1; cbn [lon lat] in T1; lia).
  pose proof (dot_pos A NA) as PA. pose proof (dot_pos B NB) as PB.
  assert (NP : ~ (det A P = 0 /\ det B P = 0)).
  { intros [Z1 Z2]. apply Np. assert (L1 : det A B * lon P = 0).
    { transitivity (- det B P * lon A + det A P * lon B); [unfold det; ring|]. rewrite Z1, Z2. ring. }
    assert (L2 : det A B * lat P = 0).
    { transitivity (- det B P * lat A + det A P * lat B); [unfold det; ring|]. rewrite Z1, Z2. ring. }
    apply Z.mul_eq_0 in L1. apply Z.mul_eq_0 in L2. unfold P in *. cbn [lon lat] in *.
    rewrite T1 in C. destruct L1 as [L1|L1]; [lia|]. destruct L2 as [L2|L2]; [lia|]. clear - L1 L2.
    destruct p as [px py], v2 as [qx qy]. cbn [lon lat] in *. f_equal; lia. }
  unfold point_visible. cbn [pv1 pv2 pv3]. rewrite S1, S2, S3. cbn [bind].
  rewrite !vector_orientation_ok by assumption. cbn [bind]. rewrite Rf. cbn [bind]. cbv zeta.
  assert (Ff : forall X, coord_i32 X -> nonzero X -> det X P = 0 ->
    exists f, (f0 <- scalar_multiple_factor X P;; opt_value f0) = Ok f /\
      (0 < dot X P -> (1000000000 * dot X P <= 1000001999 * dot X X -> within_edge f = true) /\
                      (1000002001 * dot X X < 1000000000 * dot X P -> within_edge f = false))).
  { intros X IX NX DX. destruct (ray_factor X P IX IP NX DX) as (f & E & _). exists f. rewrite E. split; [reflexivity|].
    intros Ps. apply (within_edge_ray X P f IX IP NX DX Ps E). }
  unfold into_solid, outside, past, on_ray, into_solid. rewrite T1, T2, T3.
  assert (Signs : turn v1 v2 v3 <> 0) by exact C. rewrite T1 in Signs. clear Rf.
  assert (Fin : forall b,
     (0 < - det A B /\ 0 < - det A P /\ 0 < det B P \/ - det A B < 0 /\ (0 < - det A P \/ 0 < det B P) -> b = false) ->
     (~ (0 < - det A B /\ 0 < - det A P /\ 0 < det B P \/ - det A B < 0 /\ (0 < - det A P \/ 0 < det B P)) /\
      ~ (det A P = 0 /\ 0 < dot A P) /\ ~ (det B P = 0 /\ 0 < dot B P) -> b = true) ->
     (det A P = 0 /\ 0 < dot A P -> (~ (1000001999 * dot A A < 1000000000 * dot A P) -> b = true) /\ (1000002001 * dot A A < 1000000000 * dot A P -> b = false)) ->
     (det B P = 0 /\ 0 < dot B P -> (~ (1000001999 * dot B B < 1000000000 * dot B P) -> b = true) /\ (1000002001 * dot B B < 1000000000 * dot B P -> b = false)) ->
     exists b0, Ok b = Ok b0 /\
       (0 < - det A B /\ 0 < - det A P /\ 0 < det B P \/ - det A B < 0 /\ (0 < - det A P \/ 0 < det B P) -> b0 = false) /\
       (~ (0 < - det A B /\ 0 < - det A P /\ 0 < det B P \/ - det A B < 0 /\ (0 < - det A P \/ 0 < det B P)) /\
        ~ (turn v2 v1 p = 0 /\ 0 < inner v2 v1 p) /\ ~ (det B P = 0 /\ 0 < inner v2 v3 p) -> b0 = true) /\
       (forall w, w = v1 \/ w = v3 -> turn v2 w p = 0 /\ 0 < inner v2 w p ->
         (~ ((turn v2 w p = 0 /\ 0 < inner v2 w p) /\ 1000001999 * inner v2 w w < 1000000000 * inner v2 w p) -> b0 = true) /\
         ((turn v2 w p = 0 /\ 0 < inner v2 w p) /\ 1000002001 * inner v2 w w < 1000000000 * inner v2 w p -> b0 = false))).
  { intros b H1 H2 H3 H4. exists b. split; [reflexivity|]. split; [exact H1|]. rewrite T4, D1, D2. split; [exact H2|].
    intros w [-> | ->] R.
    - rewrite T4, D1, D3 in *. split; intros X; apply H3; tauto.
    - rewrite T3, D2, D4 in *. split; intros X; apply H4; tauto. }
  unfold orientation_of_sign.
  destruct (Z.ltb_spec (- det A B) 0) as [Rx|Rx]; cbn [negb];
  destruct (Z.ltb_spec (det A P) 0) as [a1|a1]; [|destruct (Z.ltb_spec 0 (det A P)) as [a2|a2]| |destruct (Z.ltb_spec 0 (det A P)) as [a2|a2]];
  (destruct (Z.ltb_spec (det B P) 0) as [b1|b1]; [|destruct (Z.ltb_spec 0 (det B P)) as [b2|b2]]);
  try (apply Fin; [intros X|intros X|intros X|intros X]; try lia; try reflexivity; try (exfalso; nia)).
  all: match goal with |- context [scalar_multiple_factor ?X ?Y] =>
         assert (DX : det X Y = 0) by lia; destruct (Ff X ltac:(assumption) ltac:(assumption) DX) as (f & E & W); rewrite E; cbn [bind];
         assert (PX : 0 < dot X Y) by nia; specialize (W PX) end.
  all: destruct W as [W1 W2]; apply Fin; intros X.
  all: try (exfalso; lia).
  all: split; intros Y; [apply W1; lia|apply W2; exact Y].
Qed.
