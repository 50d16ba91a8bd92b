(** Sorting around an observer: when it is right, and that it need not be. *)
From Coq Require Import ZArith Reals Bool List Lia Lra Permutation.
From Flocq Require Import Core.
From Flocq Require Import BinarySingleNaN.
From Verif Require Import Base F64 Coordinate Segment SpecGeom F64Facts CoordinateFacts PolygonFloat PolylineFacts GraphFacts Sweep SweepFacts SweepMaps AngleFacts.
Import ListNotations.

Lemma coord_eq_dec (a b : coord) : {a = b} + {a <> b}.
Proof. decide equality; apply Z.eq_dec. Qed.

(** ** Sorting separated points *)
Definition all_separated (o : coord) (l : list coord) : Prop :=
  forall a b, In a l -> In b l -> separated (from o a) (from o b).

Lemma angle_less_wide atan2 o a b : wide o -> wide a -> wide b -> exists r, angle_less atan2 o a b = Ok r.
Proof.
  intros O A B. unfold angle_less. destruct (coord_eqb a o); [eauto|]. destruct (coord_eqb b o); [eauto|].
  rewrite (from_sub o a O A), (from_sub o b O B). cbn [bind].
  destruct (from_wide o a O A) as (Ia & _ & _ & La). destruct (from_wide o b O B) as (Ib & _ & _ & Lb).
  destruct (dot_md_total (from o a) (from o b) Ia Ib La Lb) as (z & -> & _). cbn [bind].
  rewrite vector_orientation_ok by assumption. cbn [bind]. destruct (_ || _); eauto.
Qed.
Lemma sort_wide atan2 srt o vs : wide o -> (forall v, In v vs -> wide v) -> sort_ccw atan2 srt o vs = Ok (srt (less_b atan2 o) vs).
Proof.
  intros O V. unfold sort_ccw. destruct (mapM_total (fun a => mapM (fun b => angle_less atan2 o a b) vs) vs) as (r & ->); [|reflexivity].
  intros a A. apply mapM_total. intros b B. apply angle_less_wide; auto.
Qed.

Lemma less_o atan2 o b : less_b atan2 o o b = true.
Proof. unfold less_b, angle_less. rewrite coord_eqb_refl. reflexivity. Qed.
Lemma less_to_o atan2 o a : a <> o -> less_b atan2 o a o = false.
Proof. intros N. unfold less_b, angle_less. rewrite (proj2 (coord_eqb_neq a o) N), coord_eqb_refl. reflexivity. Qed.

Section Sort.
Variables (atan2 : Z -> Z -> f64) (o : coord) (l : list coord).
Hypothesis A : accurate_atan2 atan2.
Hypothesis O : wide o.
Hypothesis L : forall v, In v l -> wide v.
Hypothesis S : all_separated o l.

Lemma less_before a b : In a l -> In b l -> a <> o -> b <> o -> (less_b atan2 o a b = true <-> before o a b).
Proof.
  intros Ha Hb Na Nb. destruct (angle_less_ok atan2 o a b A O (L a Ha) (L b Hb) Na Nb (S a b Ha Hb)) as (r & E & H).
  unfold less_b. rewrite E. exact H.
Qed.
Lemma less_false a b : In a l -> In b l -> a <> o -> b <> o -> less_b atan2 o a b = false -> ~ before o a b.
Proof. intros Ha Hb Na Nb E H. apply (less_before a b Ha Hb Na Nb) in H. congruence. Qed.

Lemma swo_separated : swo_on (less_b atan2 o) l.
Proof.
  split; [|split].
  - intros a b Ha Hb N E. destruct (coord_eq_dec b o) as [-> | Nb]; [rewrite less_to_o in E by assumption; discriminate E|].
    destruct (coord_eq_dec a o) as [-> | Na]; [apply less_to_o; assumption|].
    apply less_before in E; [|assumption..]. apply not_true_is_false. intros E'. apply less_before in E'; [|assumption..].
    exact (before_irrefl o a (before_trans o a b a E E')).
  - intros a b c Ha Hb Hc E1 E2. destruct (coord_eq_dec a o) as [-> | Na]; [apply less_o|].
    destruct (coord_eq_dec b o) as [-> | Nb]; [rewrite less_to_o in E1 by assumption; discriminate E1|].
    destruct (coord_eq_dec c o) as [-> | Nc]; [rewrite less_to_o in E2 by assumption; discriminate E2|].
    apply less_before in E1; [|assumption..]. apply less_before in E2; [|assumption..]. apply less_before; [assumption..|].
    eapply before_trans; eassumption.
  - intros a b c Ha Hb Hc N1 N2 N3 E1 E2 E3 E4. exfalso.
    destruct (coord_eq_dec a o) as [-> | Na]; [rewrite less_o in E1; discriminate E1|].
    destruct (coord_eq_dec b o) as [-> | Nb]; [rewrite less_o in E2; discriminate E2|].
    apply less_false in E1; [|assumption..]. apply less_false in E2; [|assumption..].
    destruct (before_total o a b Na Nb N1); contradiction.
Qed.

Lemma sort_separated ord : library_orders ord -> NoDup l ->
  exists out, sort_ccw atan2 (o_sort ord) o l = Ok out /\ Permutation out l /\
    forall l1 a l2 b l3, out = l1 ++ a :: l2 ++ b :: l3 -> b <> o /\ (a = o \/ before o a b).
Proof.
  intros (_ & _ & P & Q) N. exists (o_sort ord (less_b atan2 o) l). split; [apply sort_wide; assumption|].
  split; [apply P|]. intros l1 a l2 b l3 E. specialize (Q (less_b atan2 o) l N swo_separated). specialize (Q l1 a l2 b l3 E).
  specialize (P (less_b atan2 o) l). rewrite E in P.
  assert (Ia : In a l) by (eapply Permutation_in; [exact P|apply in_or_app; right; left; reflexivity]).
  assert (Ib : In b l) by (eapply Permutation_in; [exact P|apply in_or_app; right; right; apply in_or_app; right; left; reflexivity]).
  assert (Nb : b <> o) by (intros ->; rewrite less_o in Q; discriminate Q). split; [exact Nb|].
  destruct (coord_eq_dec a o) as [Na|Na]; [left; exact Na|right]. apply less_false in Q; [|assumption..].
  assert (Nab : a <> b).
  { intros ->. apply Permutation_sym, Permutation_NoDup in P; [|exact N]. apply NoDup_remove_2 in P. apply P.
    rewrite !in_app_iff. right. right. left. reflexivity. }
  destruct (before_total o a b Na Nb Nab) as [H|H]; [exact H|contradiction].
Qed.
End Sort.

(** ** An accurate arctangent exists *)
Local Open Scope R_scope.
Definition principal (v : coord) : R := if (0 <=? lat v)%Z then angle v else angle v - 2 * PI.
Definition atan2_real (y x : Z) : f64 :=
  if ((y =? 0) && (0 <? x))%Z then f_0 else f_lit (Zfloor (principal (mkC x y) * 4503599627370496)) (-52).
Lemma atan2_real_accurate : accurate_atan2 atan2_real.
Proof.
  intros v I N. fold (principal v). unfold atan2_real. pose proof pi_bounds as P.
  assert (V0 : V f_0 = 0) by (vm_compute; lra).
  destruct ((lat v =? 0) && (0 <? lon v))%Z eqn:E.
  - apply andb_true_iff in E. destruct E as [E1 E2]. apply Z.eqb_eq in E1. apply Z.ltb_lt in E2.
    split; [reflexivity|]. split; [|intros; exact V0]. rewrite V0.
    assert (principal v = 0); [|rewrite H, Rminus_eq_0, Rabs_R0; unfold err50; lra].
    unfold principal, angle. rewrite E1. cbn [Z.leb Z.compare]. pose proof (len_pos v N) as Lp. pose proof (len_sq v) as Ls. rewrite E1 in Ls.
    apply IZR_lt in E2. assert (Q : len v = IZR (lon v)) by (apply Rsqr_inj; unfold Rsqr; lra).
    replace (IZR (lon v) / len v) with 1 by (rewrite Q; field; lra). apply acos_1.
  - assert (B : -4 <= principal v <= 4).
    { unfold principal. destruct (Z.leb_spec 0 (lat v)) as [H|H]; [pose proof (angle_upper v H)|pose proof (angle_lower v N H)]; lra. }
    destruct v as [x y]. cbn [lon lat] in *. set (m := Zfloor (principal (mkC x y) * 4503599627370496)).
    pose proof (Zfloor_lb (principal (mkC x y) * 4503599627370496)) as F1. pose proof (Zfloor_ub (principal (mkC x y) * 4503599627370496)) as F2. fold m in F1, F2.
    assert (L : V (f_lit m (-52)) = rnd (IZR m / 4503599627370496) /\ is_finite (f_lit m (-52)) = true).
    { unfold f_lit. pose proof (binary_normalize_correct 53 1024 _ _ mode_NE m (-52) false) as C.
      assert (Q : F2R (Float radix2 m (-52)) = IZR m / 4503599627370496) by (unfold F2R; simpl; lra).
      rewrite Q in C. change (round_mode mode_NE) with ZnearestE in C. cbv zeta in C.
      assert (Bm : Rabs (IZR m / 4503599627370496) <= big) by (apply small_le_big, Rabs_le; lra).
      pose proof (rnd_no_overflow _ Bm) as K. unfold rnd in K. rewrite K in C. unfold V, rnd. tauto. }
    destruct L as [L1 L2]. split; [exact L2|]. split.
    + rewrite L1. pose proof (rnd_error (IZR m / 4503599627370496)) as R.
      assert (R' : Rabs (rnd (IZR m / 4503599627370496) - IZR m / 4503599627370496) <= u53 * Rabs (IZR m / 4503599627370496)).
      { apply R. destruct (Z.eq_dec m 0) as [-> | Z]; [right; lra|left].
        apply Rle_trans with (bpow radix2 (-52)); [apply bpow_le; lia|]. change (bpow radix2 (-52)) with (/ 4503599627370496).
        unfold Rdiv. rewrite Rabs_mult, (Rabs_pos_eq (/ _)) by lra. assert (1 <= Rabs (IZR m)) by (rewrite <- abs_IZR; apply IZR_le; lia). lra. }
      assert (Rabs (IZR m / 4503599627370496) <= 5) by (apply Rabs_le; lra). rewrite u53_val in R'. unfold err50.
      assert (R2 : Rabs (rnd (IZR m / 4503599627370496) - IZR m / 4503599627370496) <= 5 / 9007199254740992) by lra.
      apply Rabs_le_inv in R2. apply Rabs_le. lra.
    + intros -> X. exfalso. rewrite Z.eqb_refl, (proj2 (Z.ltb_lt _ _) X) in E. discriminate E.
Qed.

(** ** Directions closer than the doubles can tell *)
Lemma pick_list (P : nat -> Z -> Prop) n : (forall i, (i < n)%nat -> exists v, P i v) ->
  exists vs, length vs = n /\ forall i, (i < n)%nat -> P i (nth i vs 0%Z).
Proof.
  induction n as [|n IH]; intros H; [exists []; split; [reflexivity|lia]|].
  destruct IH as (vs & L & Q); [intros i Hi; apply H; lia|]. destruct (H n ltac:(lia)) as (v & Pv).
  exists (vs ++ [v]). split; [rewrite app_length, L; cbn; lia|]. intros i Hi. destruct (Nat.eq_dec i n) as [-> | Ne].
  - rewrite app_nth2, L, Nat.sub_diag by lia. exact Pv.
  - rewrite app_nth1 by lia. apply Q. lia.
Qed.
Lemma pigeonhole (P : nat -> Z -> Prop) (lo : Z) (n : nat) :
  (forall i, (i < S n)%nat -> exists v, P i v /\ (lo <= v < lo + Z.of_nat n)%Z) ->
  exists i j v, (i < S n)%nat /\ (j < S n)%nat /\ i <> j /\ P i v /\ P j v.
Proof.
  intros H. apply pick_list in H. destruct H as (vs & L & Q).
  destruct (ListDec.NoDup_dec Z.eq_dec vs) as [N|N].
  - exfalso. assert (I : incl vs (map (fun k => (lo + Z.of_nat k)%Z) (seq 0 n))).
    { intros v Hv. apply In_nth with (d := 0%Z) in Hv. destruct Hv as (i & Hi & <-). rewrite L in Hi. destruct (Q i Hi) as [_ R].
      apply in_map_iff. exists (Z.to_nat (nth i vs 0 - lo)%Z). split; [lia|]. apply in_seq. lia. }
    apply (NoDup_incl_length N) in I. rewrite map_length, seq_length, L in I. lia.
  - assert (D : exists i j, (i < length vs)%nat /\ (j < length vs)%nat /\ i <> j /\ nth i vs 0%Z = nth j vs 0%Z).
    { clear - N. induction vs as [|v vs IH]; [exfalso; apply N; constructor|].
      destruct (in_dec Z.eq_dec v vs) as [I|I].
      - apply In_nth with (d := 0%Z) in I. destruct I as (i & Hi & E). exists 0%nat, (S i). cbn [length nth]. repeat split; lia.
      - destruct IH as (i & j & Hi & Hj & Ne & E); [intros Nd; apply N; constructor; assumption|].
        exists (S i), (S j). cbn [length nth]. repeat split; lia. }
    destruct D as (i & j & Hi & Hj & Ne & E). rewrite L in *. exists i, j, (nth i vs 0%Z). repeat split; try assumption.
    + apply Q, Hi.
    + rewrite E. apply Q, Hj.
Qed.

(** doubles from 2 upwards are multiples of 2^-51 *)
Lemma grid f : is_finite f = true -> 2 <= V f -> exists m, V f = IZR m / 2251799813685248.
Proof.
  intros F H. pose proof (generic_format_B2R 53 1024 f) as G. fold (V f) in G.
  unfold generic_format, F2R in G. set (e := cexp radix2 (SpecFloat.fexp 53 1024) (V f)) in *. cbn [Fnum Fexp] in G.
  set (m := Ztrunc (scaled_mantissa radix2 (SpecFloat.fexp 53 1024) (V f))) in G.
  assert (E : (-51 <= e)%Z).
  { unfold e, cexp. pose proof (mag_ge_bpow radix2 (V f) 2) as M. cbn in M. rewrite Rabs_pos_eq in M by lra.
    assert (2 <= mag radix2 (V f))%Z by (apply M; lra). unfold SpecFloat.fexp, SpecFloat.emin. lia. }
  exists (m * 2 ^ (e + 51))%Z. rewrite G, mult_IZR. change 2%Z with (radix_val radix2). rewrite IZR_Zpower by lia.
  change (/ 2251799813685248) with (bpow radix2 (-51)) || idtac. unfold Rdiv.
  replace (/ 2251799813685248) with (bpow radix2 (-51)) by reflexivity. rewrite Rmult_assoc, <- bpow_plus. do 2 f_equal. lia.
Qed.

Lemma arc t : - (PI / 3) <= t <= PI / 3 -> Rabs t <= 2 * Rabs (sin t).
Proof.
  pose proof pi_bounds as P.
  assert (Pos : forall t, 0 < t <= PI / 3 -> t <= 2 * sin t).
  { intros s [H1 H2]. destruct (MVT_cor2 sin cos 0 s H1) as (c & E & C); [intros; apply derivable_pt_lim_sin|].
    rewrite sin_0, !Rminus_0_r in E. assert (1 / 2 <= cos c); [|nra]. rewrite <- cos_PI3. apply cos_decr_1; lra. }
  intros [H1 H2]. destruct (Rtotal_order t 0) as [H|[-> | H]].
  - specialize (Pos (- t)). rewrite sin_neg in Pos. rewrite Rabs_left by lra. rewrite (Rabs_left (sin t)); [lra|].
    assert (0 < sin (- t)) by (apply sin_gt_0; lra). rewrite sin_neg in *. lra.
  - rewrite sin_0, Rabs_R0. lra.
  - rewrite !Rabs_pos_eq; [apply Pos; lra| |lra]. left. apply sin_gt_0; lra.
Qed.

Lemma small_arc t : t <= 1 / 10 -> 0 <= sin t -> - (1 / 10) <= t -> t <= 102 / 100 * sin t.
Proof.
  intros H S G. pose proof pi_bounds as P. destruct (Rle_lt_dec t 0) as [L|L]; [lra|].
  destruct (MVT_cor2 sin cos 0 t L) as (c & E & C); [intros; apply derivable_pt_lim_sin|]. rewrite sin_0, !Rminus_0_r in E.
  assert (0 < sin c) by (apply sin_gt_0; lra). assert (sin c < c) by (apply sin_lt_x; lra).
  assert (0 < cos c) by (apply cos_gt_0; lra). pose proof (sin2_cos2 c) as Q. unfold Rsqr in Q. pose proof (COS_bound c). nra.
Qed.

(** seven neighbouring directions and seven multiples of each *)
Definition near_direction (i k : nat) : coord :=
  mkC (- (99999999 + 5 * Z.of_nat i) * (1 + Z.of_nat k)) ((20000000 + Z.of_nat i) * (1 + Z.of_nat k)).
Definition near_observer : coord := mkC 180000000 (-80000000).
Definition near_point (i k : nat) : coord :=
  mkC (lon near_observer + lon (near_direction i k)) (lat near_observer + lat (near_direction i k)).

Section Near.
Open Scope Z_scope.
Lemma nd_bounds i k : (i < 7)%nat -> (k < 7)%nat ->
  - 700000203 <= lon (near_direction i k) <= -99999999 /\ 20000000 <= lat (near_direction i k) <= 140000042.
Proof.
  intros Hi Hk. unfold near_direction. cbn [lon lat].
  assert (0 <= Z.of_nat i <= 6) by lia. assert (0 <= Z.of_nat k <= 6) by lia. nia.
Qed.
Lemma nd_nonzero i k : (i < 7)%nat -> (k < 7)%nat -> nonzero (near_direction i k).
Proof. intros Hi Hk E. pose proof (nd_bounds i k Hi Hk) as B. rewrite E in B. cbn [lon lat] in B. lia. Qed.
Lemma nd_i32 i k : (i < 7)%nat -> (k < 7)%nat -> coord_i32 (near_direction i k).
Proof. intros Hi Hk. pose proof (nd_bounds i k Hi Hk). unfold coord_i32, INT32_MIN, INT32_MAX. lia. Qed.
Lemma nd_from i k : from near_observer (near_point i k) = near_direction i k.
Proof.
  unfold from, near_point. set (d := near_direction i k). set (q := near_observer). cbn [lon lat].
  destruct d as [dx dy]. cbn [lon lat]. f_equal; lia.
Qed.
Lemma np_pgeo i k : (i < 7)%nat -> (k < 7)%nat -> pgeo (near_point i k).
Proof.
  intros Hi Hk. pose proof (nd_bounds i k Hi Hk) as B. unfold pgeo, near_point. set (d := near_direction i k) in *. cbn [lon lat near_observer]. lia.
Qed.
Lemma nd_det i k j m : det (near_direction i k) (near_direction j m) = (Z.of_nat j - Z.of_nat i) * (1 + Z.of_nat k) * (1 + Z.of_nat m).
Proof. unfold det, near_direction. cbn [lon lat]. ring. Qed.
Lemma nd_dot i k j m : (i < 7)%nat -> (k < 7)%nat -> (j < 7)%nat -> (m < 7)%nat -> 10399999000000000 <= dot (near_direction i k) (near_direction j m).
Proof.
  intros Hi Hk Hj Hm. pose proof (nd_bounds i k Hi Hk). pose proof (nd_bounds j m Hj Hm).
  unfold dot. assert (99999999 * 99999999 <= lon (near_direction i k) * lon (near_direction j m)) by nia.
  assert (20000000 * 20000000 <= lat (near_direction i k) * lat (near_direction j m)) by nia. lia.
Qed.
Lemma np_not_observer i k : (i < 7)%nat -> (k < 7)%nat -> near_point i k <> near_observer.
Proof. intros Hi Hk E. apply (nd_nonzero i k Hi Hk). rewrite <- nd_from, E. reflexivity. Qed.
End Near.

Lemma nd_angle i k : (i < 7)%nat -> (k < 7)%nat ->
  2 * (PI / 3) <= angle (near_direction i k) <= PI.
Proof.
  intros Hi Hk. pose proof (nd_bounds i k Hi Hk) as [B1 B2]. pose proof (nd_nonzero i k Hi Hk) as N.
  assert (L0 : (0 <= lat (near_direction i k))%Z) by lia. pose proof (angle_upper _ L0) as U. split; [|apply U].
  destruct (Rle_dec (2 * (PI / 3)) (angle (near_direction i k))) as [H|H]; [exact H|exfalso]. apply Rnot_le_lt in H.
  pose proof pi_bounds as P. apply cos_decreasing_1 in H; [|lra..]. rewrite cos_2PI3, (cos_angle _ N) in H.
  set (v := near_direction i k) in *. pose proof (len_pos v N) as Lp. pose proof (len_sq v) as Ls.
  assert (Lx : len v <= - IZR (lon v) * 2).
  { assert (IZR (lon v) <= -99999999) by (apply IZR_le; lia). assert (20000000 <= IZR (lat v)) by (apply IZR_le; lia).
    apply Rsqr_incr_0_var; [|lra]. unfold Rsqr. rewrite Ls.
    assert (IZR (lat v) <= - IZR (lon v)); [|nra]. rewrite <- opp_IZR. apply IZR_le. clear - Hi Hk. subst v. unfold near_direction. cbn [lon lat]. nia. }
  assert (IZR (lon v) / len v <= -1 / 2); [|lra]. apply Rmult_le_reg_r with (len v); [exact Lp|]. unfold Rdiv at 1. rewrite Rmult_assoc, Rinv_l by lra. lra.
Qed.
Lemma nd_same i k m : (i < 7)%nat -> (k < 7)%nat -> (m < 7)%nat -> angle (near_direction i k) = angle (near_direction i m).
Proof.
  intros Hi Hk Hm. apply same_direction; [apply nd_nonzero; assumption..| |].
  - rewrite nd_det. ring.
  - pose proof (nd_dot i k i m Hi Hk Hi Hm). lia.
Qed.
Lemma nd_spread i k : (i < 7)%nat -> (k < 7)%nat ->
  0 <= angle (near_direction i k) - angle (near_direction 0 0) <= 612 / 1039999900000000000.
Proof.
  intros Hi Hk. rewrite (nd_same i k 0 Hi Hk ltac:(lia)). clear k Hk. assert (H0 : (0 < 7)%nat) by lia.
  pose proof (nd_nonzero i 0 Hi H0) as Ni. pose proof (nd_nonzero 0 0 H0 H0) as N0.
  pose proof (nd_angle i 0 Hi H0) as Ai. pose proof (nd_angle 0 0 H0 H0) as A0. pose proof pi_bounds as P.
  pose proof (sin_diff _ _ N0 Ni) as S. rewrite nd_det in S.
  pose proof (len_pos _ N0) as L0. pose proof (len_pos _ Ni) as Li.
  assert (Q : 10399999000000000 <= len (near_direction 0 0) * len (near_direction i 0)).
  { assert (M : forall j, (j < 7)%nat -> 101980380 <= len (near_direction j 0)).
    { intros j Hj. unfold len. rewrite <- (sqrt_square 101980380) by lra. apply sqrt_le_1_alt. pose proof (nd_dot j 0 j 0 Hj H0 Hj H0) as D.
      apply IZR_le in D. lra. }
    pose proof (len_sq (near_direction 0 0)) as S0. pose proof (len_sq (near_direction i 0)) as Si.
    assert (K : forall j, (j < 7)%nat -> 10399999000000000 <= len (near_direction j 0) * len (near_direction j 0)).
    { intros j Hj. unfold len. rewrite sqrt_sqrt; [apply IZR_le, nd_dot; assumption|apply IZR_le]. pose proof (nd_dot j 0 j 0 Hj H0 Hj H0); lia. }
    pose proof (K 0%nat H0). pose proof (K i Hi). nra. }
  set (a := angle (near_direction i 0)) in *. set (b := angle (near_direction 0 0)) in *.
  assert (Si : 0 <= sin (a - b) <= 6 / 10399999000000000).
  { rewrite S. assert (0 <= IZR ((Z.of_nat i - Z.of_nat 0) * (1 + Z.of_nat 0) * (1 + Z.of_nat 0)) <= 6) by (split; apply IZR_le; lia).
    set (d := IZR _) in *. unfold Rdiv. 
    assert (0 < / (len (near_direction 0 0) * len (near_direction i 0)) <= / 10399999000000000).
    { split; [apply Rinv_0_lt_compat; nra|apply Rinv_le; lra]. }
    split; [nra|]. apply Rmult_le_compat; lra. }
  assert (Ar : Rabs (a - b) <= 2 * Rabs (sin (a - b))) by (apply arc; lra).
  rewrite (Rabs_pos_eq (sin _)) in Ar by lra. apply Rabs_le_inv in Ar. split; [|assert (a - b <= 102 / 100 * sin (a - b)); [apply small_arc; lra|]; lra].
  destruct (Rle_dec 0 (a - b)) as [H|H]; [exact H|exfalso]. assert (sin (a - b) < 0) by (apply sin_lt_0_var; lra). lra.
Qed.

Lemma nd_value atan2 : accurate_atan2 atan2 -> exists lo, forall i k, (i < 7)%nat -> (k < 7)%nat ->
  is_finite (angle_to_horizontal atan2 (near_direction i k)) = true /\
  exists m, V (angle_to_horizontal atan2 (near_direction i k)) = IZR m / 2251799813685248 /\ (lo <= m < lo + 6)%Z.
Proof.
  intros A. set (x := angle (near_direction 0 0) * 2251799813685248 - 2). exists (Zceil x). intros i k Hi Hk.
  pose proof (nd_nonzero i k Hi Hk) as N. pose proof (nd_i32 i k Hi Hk) as I. pose proof (nd_bounds i k Hi Hk) as [_ B].
  assert (L : (0 <= lat (near_direction i k))%Z) by lia.
  rewrite (angle_to_horizontal_upper atan2 _ A I N L). destruct (A _ I N) as (F & E & _). rewrite (proj2 (Z.leb_le _ _) L) in E.
  split; [exact F|]. pose proof (nd_spread i k Hi Hk) as S. pose proof (nd_angle 0 0 ltac:(lia) ltac:(lia)) as A0. pose proof pi_bounds as P.
  unfold err50 in E. apply Rabs_le_inv in E. destruct (grid _ F) as (m & Em); [lra|]. exists m. split; [exact Em|].
  rewrite Em in E. pose proof (Zceil_ub x) as C1. split.
  - apply Zceil_glb. unfold x. lra.
  - apply lt_IZR. rewrite plus_IZR. unfold x in *. lra.
Qed.

Definition near_points : list coord := flat_map (fun i => map (near_point i) (seq 0 7)) (seq 0 7).
Lemma near_in i k : (i < 7)%nat -> (k < 7)%nat -> In (near_point i k) near_points.
Proof. intros Hi Hk. apply in_flat_map. exists i. split; [apply in_seq; lia|]. apply in_map, in_seq. lia. Qed.
Lemma near_ties atan2 : accurate_atan2 atan2 ->
  exists a a' b, In a near_points /\ In a' near_points /\ In b near_points /\
    pgeo near_observer /\ pgeo a /\ pgeo a' /\ pgeo b /\ a <> near_observer /\ a' <> near_observer /\ b <> near_observer /\ a <> a' /\ a <> b /\ a' <> b /\
    angle (from near_observer a) = angle (from near_observer a') /\ angle (from near_observer a) <> angle (from near_observer b) /\
    angle_less atan2 near_observer a b = Ok false /\ angle_less atan2 near_observer b a = Ok false /\
    angle_less atan2 near_observer b a' = Ok false /\ angle_less atan2 near_observer a' b = Ok false /\
    angle_less atan2 near_observer a a' = Ok true.
Proof.
  intros A. destruct (nd_value atan2 A) as (lo & H).
  set (ang i k := V (angle_to_horizontal atan2 (near_direction i k))).
  set (P i m := exists k k', (k < 7)%nat /\ (k' < 7)%nat /\ (k < k')%nat /\ ang i k = IZR m / 2251799813685248 /\ ang i k' = IZR m / 2251799813685248).
  destruct (pigeonhole P lo 6) as (i & j & m & Hi & Hj & Nij & (k & k' & Hk & Hk' & Lk & E1 & E2) & (l & _ & Hl & _ & _ & E3 & _)).
  { intros i Hi. destruct (pigeonhole (fun k m => (k < 7)%nat /\ ang i k = IZR m / 2251799813685248 /\ (lo <= m < lo + 6)%Z) lo 6) as (k & k' & m & Hk & Hk' & Nk & (_ & E1 & M) & (_ & E2 & _)).
    - intros k Hk. destruct (H i k Hi Hk) as (_ & m & Em & M). exists m. repeat split; try assumption; lia.
    - exists m. split; [|lia]. destruct (Nat.lt_ge_cases k k') as [Q|Q]; [exists k, k'|exists k', k]; repeat split; try assumption; lia. }
  assert (L : forall i k j m, (i < 7)%nat -> (k < 7)%nat -> (j < 7)%nat -> (m < 7)%nat -> i <> j -> ang i k = ang j m ->
     angle_less atan2 near_observer (near_point i k) (near_point j m) = Ok false).
  { clear - A H. intros i k j m Hi Hk Hj Hm N E. unfold angle_less.
    assert (Wo : wide near_observer) by (unfold wide, near_observer; cbn [lon lat]; lia).
    rewrite (proj2 (coord_eqb_neq _ _) (np_not_observer i k Hi Hk)), (proj2 (coord_eqb_neq _ _) (np_not_observer j m Hj Hm)).
    pose proof (pgeo_wide _ (np_pgeo i k Hi Hk)) as W1. pose proof (pgeo_wide _ (np_pgeo j m Hj Hm)) as W2.
    rewrite (from_sub _ _ Wo W1), (from_sub _ _ Wo W2). cbn [bind].
    destruct (from_wide _ _ Wo W1) as (I1 & _ & _ & L1). destruct (from_wide _ _ Wo W2) as (I2 & _ & _ & L2).
    destruct (dot_md_total _ _ I1 I2 L1 L2) as (z & -> & _). cbn [bind]. rewrite vector_orientation_ok by assumption. cbn [bind].
    rewrite !nd_from. assert (D : det (near_direction i k) (near_direction j m) <> 0%Z) by (rewrite nd_det; nia).
    assert (Q : negb (orientation_eqb (orientation_of_sign (det (near_direction i k) (near_direction j m))) COLLINEAR) = true).
    { unfold orientation_of_sign. destruct (Z.ltb_spec (det (near_direction i k) (near_direction j m)) 0); [reflexivity|].
      destruct (Z.ltb_spec 0 (det (near_direction i k) (near_direction j m))); [reflexivity|lia]. }
    rewrite Q. cbn [orb]. f_equal. apply not_true_is_false. intros F.
    apply fltb_iff in F; [|apply H; assumption..]. unfold ang in E. lra. }
  exists (near_point i k), (near_point i k'), (near_point j l). do 3 (split; [apply near_in; assumption|]).
  assert (Nik : near_point i k <> near_point i k').
  { intros E. apply (f_equal (fun c => lat (from near_observer c))) in E. rewrite !nd_from in E. unfold near_direction in E. cbn [lat] in E. nia. }
  assert (Nd : forall q, near_point i q <> near_point j l).
  { intros q E. apply (f_equal (from near_observer)) in E. rewrite !nd_from in E. pose proof (nd_det i q j l) as D. rewrite E in D. unfold det in D. nia. }
  split; [unfold pgeo, near_observer; cbn [lon lat]; lia|].
  split; [apply np_pgeo; assumption|]. split; [apply np_pgeo; assumption|]. split; [apply np_pgeo; assumption|].
  split; [apply np_not_observer; assumption|]. split; [apply np_not_observer; assumption|]. split; [apply np_not_observer; assumption|].
  split; [exact Nik|]. split; [apply Nd|]. split; [apply Nd|].
  rewrite !nd_from. split; [apply nd_same; assumption|].
  split.
  { intros E. pose proof (sin_diff _ _ (nd_nonzero i k Hi Hk) (nd_nonzero j l Hj Hl)) as S. rewrite E, Rminus_eq_0 in S. rewrite sin_0, nd_det in S.
    pose proof (len_pos _ (nd_nonzero i k Hi Hk)). pose proof (len_pos _ (nd_nonzero j l Hj Hl)).
    assert (Z0 : IZR ((Z.of_nat j - Z.of_nat i) * (1 + Z.of_nat k) * (1 + Z.of_nat l)) = 0).
    { apply Rmult_eq_reg_r with (/ (len (near_direction i k) * len (near_direction j l))); [|apply Rinv_neq_0_compat; nra]. rewrite Rmult_0_l. symmetry. exact S. }
    apply eq_IZR in Z0. nia. }
  split; [apply L; try assumption; congruence|]. split; [apply L; try assumption; try congruence; lia|].
  split; [apply L; try assumption; try congruence; lia|]. split; [apply L; try assumption; congruence|].
  assert (Sep : separated (from near_observer (near_point i k)) (from near_observer (near_point i k'))).
  { intros D. exfalso. apply D. rewrite !nd_from, nd_det. ring. }
  destruct (angle_less_ok atan2 near_observer (near_point i k) (near_point i k') A) as (r & -> & R).
  { unfold wide, near_observer; cbn [lon lat]; lia. }
  { apply pgeo_wide, np_pgeo; assumption. }
  { apply pgeo_wide, np_pgeo; assumption. }
  { apply np_not_observer; assumption. }
  { apply np_not_observer; assumption. }
  { exact Sep. }
  f_equal. apply R. right. rewrite !nd_from. split; [apply nd_same; assumption|]. apply len_dot. unfold dot, near_direction. cbn [lon lat]. nia.
Qed.
Lemma not_weak_order atan2 : accurate_atan2 atan2 ->
  exists o a a' b, pgeo o /\ pgeo a /\ pgeo a' /\ pgeo b /\ a <> o /\ a' <> o /\ b <> o /\ a <> a' /\ a <> b /\ a' <> b /\
    angle (from o a) = angle (from o a') /\ angle (from o a) <> angle (from o b) /\
    angle_less atan2 o a b = Ok false /\ angle_less atan2 o b a = Ok false /\
    angle_less atan2 o b a' = Ok false /\ angle_less atan2 o a' b = Ok false /\
    angle_less atan2 o a a' = Ok true.
Proof. intros A. destruct (near_ties atan2 A) as (a & a' & b & _ & _ & _ & H). exists near_observer, a, a', b. exact H. Qed.
