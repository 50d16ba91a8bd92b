(** Error analysis of the winding sum of polygon.cpp:62-79, for every order of summation. *)
From Coq Require Import ZArith Bool List Lia ZifyBool Reals Lra Permutation.
From Coq Require SpecFloat.
From Flocq Require Import Core BinarySingleNaN Plus_error.
From Verif Require Import Base F64 F64Facts Coordinate Segment Polygon CoordinateFacts SpecGeom SegmentFacts PolygonFacts.
Import ListNotations.
Local Open Scope R_scope.

(** [v] is the double obtained from the list by some order and bracketing of additions,
    possibly with zeros as neutral elements: what an OpenMP SIMD reduction may compute. *)
Inductive sums_to : list f64 -> f64 -> Prop :=
| sums_zero : sums_to [] f_0
| sums_one x : sums_to [x] x
| sums_node l1 l2 a b : sums_to l1 a -> sums_to l2 b -> sums_to (l1 ++ l2) (fadd a b)
| sums_perm l1 l2 a : Permutation l1 l2 -> sums_to l1 a -> sums_to l2 a.

(** ** Sums of reals *)
Definition rsum (l : list R) : R := fold_right Rplus 0 l.
Lemma rsum_app a b : rsum (a ++ b) = rsum a + rsum b.
Proof. induction a; simpl; lra. Qed.
Lemma rsum_perm a b : Permutation a b -> rsum a = rsum b.
Proof. induction 1; simpl; lra. Qed.
Definition rs (f : nat -> R) (n : nat) : R := rsum (map f (seq 0 n)).
Lemma rs_S f n : rs f (S n) = rs f n + f n.
Proof. unfold rs. rewrite seq_S, map_app, rsum_app. simpl. lra. Qed.
Lemma rs_plus f g n : rs (fun i => f i + g i) n = rs f n + rs g n.
Proof. induction n; [unfold rs; simpl; lra|]. rewrite !rs_S, IHn. lra. Qed.
Lemma rs_scal c f n : rs (fun i => c * f i) n = c * rs f n.
Proof. induction n; [unfold rs; simpl; lra|]. rewrite !rs_S, IHn. lra. Qed.
Lemma rs_ext f g n : (forall i, (i < n)%nat -> f i = g i) -> rs f n = rs g n.
Proof.
  induction n; intros H; [reflexivity|]. rewrite !rs_S, IHn, H by (intros; try apply H; lia). reflexivity.
Qed.
Lemma rs_abs f n c : (forall i, (i < n)%nat -> Rabs (f i) <= c) -> Rabs (rs f n) <= INR n * c.
Proof.
  induction n; intros H; [unfold rs; simpl; rewrite Rabs_R0; lra|]. rewrite rs_S, S_INR.
  eapply Rle_trans; [apply Rabs_triang|]. assert (Rabs (f n) <= c) by (apply H; lia).
  assert (Rabs (rs f n) <= INR n * c) by (apply IHn; intros; apply H; lia). lra.
Qed.
Lemma rs_shift g n : rs (fun i => g ((i + 1) mod n)%nat) n = rs g n.
Proof.
  destruct n as [|m]; [reflexivity|].
  rewrite rs_S. replace ((m + 1) mod S m)%nat with 0%nat.
  2:{ replace (m + 1)%nat with (1 * S m)%nat by lia. symmetry. apply Nat.mod_mul. lia. }
  rewrite (rs_ext _ (fun i => g (S i)) m).
  - unfold rs. change (seq 0 (S m)) with (0%nat :: seq 1 m). rewrite <- seq_shift. cbn [map rsum fold_right].
    rewrite map_map. unfold rsum. lra.
  - intros i H. rewrite Nat.mod_small by lia. f_equal. lia.
Qed.

(** ** One addition *)
Lemma rnd_plus_err x y : generic_format radix2 (SpecFloat.fexp 53 1024) x ->
  generic_format radix2 (SpecFloat.fexp 53 1024) y ->
  Rabs (rnd (x + y) - (x + y)) <= u53 * Rabs (x + y).
Proof.
  intros Fx Fy.
  destruct (Rle_or_lt (bpow radix2 (-1022)) (Rabs (x + y))) as [L|L].
  - apply rnd_error. left. exact L.
  - rewrite rnd_format.
    + rewrite Rminus_diag_eq, Rabs_R0 by reflexivity. pose proof (Rabs_pos (x + y)). rewrite u53_val. lra.
    + change (SpecFloat.fexp 53 1024) with (FLT_exp (-1074) 53) in *.
      apply FLT_format_plus_small; auto with typeclass_instances.
      left. eapply Rlt_le_trans; [exact L|]. apply bpow_le. lia.
Qed.

(** ** Any order of summation *)
Definition small_terms (M : R) (l : list f64) : Prop :=
  Forall (fun x => is_finite x = true /\ Rabs (V x) <= M) l.

Lemma sum_abs M l : small_terms M l -> Rabs (rsum (map V l)) <= INR (length l) * M.
Proof.
  induction 1 as [|x l [_ H] F IH]; [simpl; rewrite Rabs_R0; lra|].
  cbn [map rsum fold_right length]. rewrite S_INR. fold (rsum (map V l)).
  eapply Rle_trans; [apply Rabs_triang|]. lra.
Qed.

Definition adds (n : nat) : R := INR (n - 1).

Lemma sums_close N M l v : 0 <= M -> M <= 1267650600228229401496703205376 / 2097152 -> (Z.of_nat N <= 1048576)%Z ->
  sums_to l v -> small_terms M l -> (length l <= N)%nat ->
  is_finite v = true /\ (l = [] -> V v = 0) /\
  Rabs (V v - rsum (map V l)) <= adds (length l) * (u53 * INR N * M * (1001 / 1000)).
Proof.
  intros M0 M1 HN S. induction S as [|x|l1 l2 a b S1 IH1 S2 IH2|l1 l2 a P S IH]; intros F L.
  - destruct V_f0 as [A B]. split; [exact B|]. split; [auto|]. rewrite A. unfold adds. simpl.
    rewrite Rminus_0_r, Rabs_R0. lra.
  - inversion F as [|? ? [F1 F2] _]; subst. split; [exact F1|]. split; [discriminate|].
    unfold adds. simpl. rewrite Rplus_0_r, Rminus_diag_eq, Rabs_R0 by reflexivity. lra.
  - apply Forall_app in F. destruct F as [F1 F2]. rewrite app_length in L.
    destruct (IH1 F1 ltac:(lia)) as (A1 & A2 & A3). destruct (IH2 F2 ltac:(lia)) as (B1 & B2 & B3).
    set (e := u53 * INR N * M * (1001 / 1000)) in *.
    pose proof (sum_abs M l1 F1) as S1'. pose proof (sum_abs M l2 F2) as S2'.
    assert (N0 : 0 <= INR N <= 1048576).
    { split; [apply pos_INR|]. rewrite INR_IZR_INZ. apply IZR_le. exact HN. }
    assert (E0 : 0 <= e) by (unfold e; rewrite u53_val; assert (0 <= INR N * M) by nra; nra).
    assert (EN : e * 1048576 <= M / 1024 ).
    { unfold e. rewrite u53_val. nra. }
    assert (LN : INR (length l1) + INR (length l2) <= INR N) by (rewrite <- plus_INR; apply le_INR; lia).
    assert (Ad : forall n, 0 <= adds n <= INR n).
    { intros n. unfold adds. split; [apply pos_INR|apply le_INR; lia]. }
    pose proof (Ad (length l1)) as Ad1. pose proof (Ad (length l2)) as Ad2.
    assert (Sz : Rabs (V a + V b) <= INR N * M * (1001 / 1000)).
    { assert (Rabs (V a) <= INR (length l1) * M + adds (length l1) * e).
      { replace (V a) with ((V a - rsum (map V l1)) + rsum (map V l1)) by ring.
        eapply Rle_trans; [apply Rabs_triang|]. lra. }
      assert (Rabs (V b) <= INR (length l2) * M + adds (length l2) * e).
      { replace (V b) with ((V b - rsum (map V l2)) + rsum (map V l2)) by ring.
        eapply Rle_trans; [apply Rabs_triang|]. lra. }
      eapply Rle_trans; [apply Rabs_triang|].
      assert (adds (length l1) * e + adds (length l2) * e <= INR N * e) by nra.
      assert (INR (length l1) * M + INR (length l2) * M <= INR N * M) by nra.
      assert (INR N * e <= INR N * M / 1000) by nra. lra. }
    destruct (fadd_correct a b A1 B1) as [C1 C2].
    { apply small_le_big. eapply Rle_trans; [exact Sz|].
      assert (INR N * M <= 1048576 * (1267650600228229401496703205376 / 2097152)) by nra. lra. }
    split; [exact C2|]. split.
    { intros E. apply app_eq_nil in E. destruct E as [-> ->]. rewrite C1, A2, B2 by reflexivity.
      rewrite Rplus_0_l. apply rnd_0. }
    rewrite map_app, rsum_app, app_length, C1.
    pose proof (rnd_plus_err (V a) (V b) (format_V a) (format_V b)) as RE.
    destruct l1 as [|x1 l1'].
    { rewrite (A2 eq_refl), Rplus_0_l, rnd_V. cbn [map rsum fold_right length]. rewrite Rplus_0_l. exact B3. }
    destruct l2 as [|x2 l2'].
    { rewrite (B2 eq_refl), Rplus_0_r, rnd_V. cbn [map rsum fold_right length].
      rewrite Rplus_0_r, Nat.add_0_r. exact A3. }
    replace (adds (length (x1 :: l1') + length (x2 :: l2'))) with (adds (length (x1 :: l1')) + adds (length (x2 :: l2')) + 1).
    2:{ unfold adds. rewrite <- plus_INR. rewrite <- (S_INR (_ + _)). f_equal. simpl. lia. }
    set (s1 := rsum (map V (x1 :: l1'))) in *. set (s2 := rsum (map V (x2 :: l2'))) in *.
    replace (rnd (V a + V b) - (s1 + s2)) with ((rnd (V a + V b) - (V a + V b)) + ((V a - s1) + (V b - s2))) by ring.
    eapply Rle_trans; [apply Rabs_triang|].
    pose proof (Rabs_triang (V a - s1) (V b - s2)).
    assert (u53 * Rabs (V a + V b) <= e).
    { unfold e. rewrite u53_val. lra. }
    lra.
  - assert (F' : small_terms M l1) by (eapply Permutation_Forall; [apply Permutation_sym; exact P|exact F]).
    rewrite <- (Permutation_length P) in *. destruct (IH F' L) as (A & B & C).
    split; [exact A|]. split.
    + intros ->. apply B. apply Permutation_nil. apply Permutation_sym. exact P.
    + rewrite <- (rsum_perm (map V l1) (map V l2)) by (apply Permutation_map; exact P). exact C.
Qed.

(** the scalar loop is one of the orders *)
Lemma loop_sums l : forall acc v, sums_to acc v -> sums_to (acc ++ l) (fold_left fadd l v).
Proof.
  induction l as [|x l IH]; intros acc v H; simpl; [rewrite app_nil_r; exact H|].
  replace (acc ++ x :: l) with ((acc ++ [x]) ++ l) by (rewrite <- app_assoc; reflexivity).
  apply IH. apply sums_node; [exact H|constructor].
Qed.
Definition terms (vs : list coord) : list f64 := map (winding_term vs) (seq 0 (length vs)).
Lemma winding_sum_sums vs : sums_to (terms vs) (winding_sum vs).
Proof.
  unfold winding_sum.
  assert (E : forall l v, fold_left (fun acc i => fadd acc (winding_term vs i)) l v = fold_left fadd (map (winding_term vs) l) v).
  { induction l; intros; simpl; auto. }
  rewrite E. apply (loop_sums (terms vs) [] f_0). constructor.
Qed.

(** ** One term *)
Definition dev (z : Z) : R := V (microdegrees_to_degrees z) / micro - IZR z.

Lemma micro_pos : 0 < micro. Proof. pose proof micro_bounds. lra. Qed.

Lemma dev_val z : V (microdegrees_to_degrees z) = micro * (IZR z + dev z).
Proof. unfold dev. pose proof micro_pos. field. lra. Qed.
Lemma dev_bound z : i31 z -> Rabs (dev z) <= u53 * IZR (Z.abs z).
Proof.
  intros H. pose proof (deg_close z H) as C. pose proof micro_pos as P.
  rewrite dev_val in C. replace (micro * (IZR z + dev z) - micro * IZR z) with (micro * dev z) in C by ring.
  rewrite Rabs_mult, (Rabs_right micro) in C by lra. nra.
Qed.
Lemma dev_opp z : i31 z -> dev (- z) = - dev z.
Proof.
  intros H. assert (H' : i31 (- z)) by (unfold i31 in *; lia). unfold dev.
  rewrite (proj1 (deg_val _ H)), (proj1 (deg_val _ H')), opp_IZR.
  replace (micro * - IZR z) with (- (micro * IZR z)) by ring. rewrite rnd_opp. pose proof micro_pos. field. lra.
Qed.
Lemma dev_lon c : pgeo c -> Rabs (dev (lon c)) <= 6 / 100000000.
Proof.
  intros [H _]. eapply Rle_trans; [apply dev_bound; unfold i31; lia|].
  apply IZR_le in H. rewrite u53_val. lra.
Qed.
Lemma dev_lat c : pgeo c -> Rabs (dev (lat c)) <= 1 / 100000000.
Proof.
  intros [_ H]. eapply Rle_trans; [apply dev_bound; unfold i31; lia|].
  apply IZR_le in H. rewrite u53_val. lra.
Qed.

Definition xr (c : coord) : R := IZR (lon c) + dev (lon c).
Definition yr (c : coord) : R := IZR (lat c) + dev (lat c).

Lemma Rabs_split x b : Rabs x <= b -> - b <= x <= b.
Proof. apply Rabs_le_inv. Qed.

Definition far (z : R) : Prop := z = 0 \/ 1 / 4 <= Rabs z.
Lemma far_dx a b : pgeo a -> pgeo b -> far (xr b - xr a).
Proof.
  intros A B. pose proof (dev_lon a A) as Da. pose proof (dev_lon b B) as Db. unfold xr.
  apply Rabs_split in Da. apply Rabs_split in Db.
  destruct (Z.eq_dec (lon a) (lon b)) as [E|N]; [left; rewrite E; ring|right].
  destruct (Z_lt_le_dec (lon a) (lon b)).
  - assert (IZR (lon a) + 1 <= IZR (lon b)) by (rewrite <- plus_IZR; apply IZR_le; lia). rewrite Rabs_right; lra.
  - assert (IZR (lon b) + 1 <= IZR (lon a)) by (rewrite <- plus_IZR; apply IZR_le; lia). rewrite Rabs_left1; lra.
Qed.
Lemma far_sy a b : pgeo a -> pgeo b -> far (yr b + yr a).
Proof.
  intros A B. pose proof (dev_lat a A) as Da. pose proof (dev_lat b B) as Db. unfold yr.
  apply Rabs_split in Da. apply Rabs_split in Db.
  destruct (Z.eq_dec (lat b) (- lat a)) as [E|N].
  - left. rewrite E, dev_opp, opp_IZR by (destruct A; unfold i31; lia). ring.
  - right. destruct (Z_lt_le_dec (lat b + lat a) 0).
    + assert (IZR (lat b) + IZR (lat a) <= -1) by (rewrite <- plus_IZR; apply IZR_le; lia). rewrite Rabs_left1; lra.
    + assert (1 <= IZR (lat b) + IZR (lat a)) by (rewrite <- plus_IZR; apply IZR_le; lia). rewrite Rabs_right; lra.
Qed.

Definition edge_term (a b : coord) : f64 :=
  fmul (fsub (get_longitude b) (get_longitude a)) (fadd (get_latitude b) (get_latitude a)).

Lemma mult_close d s D S e1 e2 : Rabs (d - D) <= e1 * Rabs D -> Rabs (s - S) <= e2 * Rabs S -> 0 <= e1 -> 0 <= e2 ->
  Rabs (d * s - D * S) <= (e1 + e2 + e1 * e2) * Rabs (D * S).
Proof.
  intros H1 H2 P1 P2. replace (d * s - D * S) with ((d - D) * (s - S) + D * (s - S) + (d - D) * S) by ring.
  rewrite Rabs_mult.
  eapply Rle_trans; [apply Rabs_triang|]. 
  assert (Rabs ((d - D) * (s - S) + D * (s - S)) <= e1 * Rabs D * (e2 * Rabs S) + Rabs D * (e2 * Rabs S)).
  { eapply Rle_trans; [apply Rabs_triang|]. rewrite !Rabs_mult.
    pose proof (Rabs_pos D). pose proof (Rabs_pos S). pose proof (Rabs_pos (d - D)). pose proof (Rabs_pos (s - S)).
    apply Rplus_le_compat; [apply Rmult_le_compat; auto|apply Rmult_le_compat_l; auto]. }
  rewrite (Rabs_mult (d - D) S).
  assert (Rabs (d - D) * Rabs S <= e1 * Rabs D * Rabs S) by (apply Rmult_le_compat_r; [apply Rabs_pos|exact H1]).
  lra.
Qed.

Lemma edge_term_close a b W : pgeo a -> pgeo b -> 1 <= W <= 1080000002 ->
  Rabs (IZR (lon b) - IZR (lon a)) <= W ->
  is_finite (edge_term a b) = true /\
  Rabs (V (edge_term a b) - micro * micro * ((xr b - xr a) * (yr b + yr a))) <=
     micro * micro * (W * (602 / 10000000000)) /\
  Rabs (V (edge_term a b)) <= micro * micro * (W * 180000023).
Proof.
  intros A B HW HD. unfold edge_term, get_longitude, get_latitude.
  assert (IA : i31 (lon a) /\ i31 (lat a)) by (apply pgeo_i31; exact A).
  assert (IB : i31 (lon b) /\ i31 (lat b)) by (apply pgeo_i31; exact B).
  destruct (deg_val _ (proj1 IA)) as [_ Fxa]. destruct (deg_val _ (proj2 IA)) as [_ Fya].
  destruct (deg_val _ (proj1 IB)) as [_ Fxb]. destruct (deg_val _ (proj2 IB)) as [_ Fyb].
  pose proof micro_bounds as MB. pose proof micro_pos as MP.
  pose proof (dev_lon a A) as D1. pose proof (dev_lon b B) as D2.
  pose proof (dev_lat a A) as D3. pose proof (dev_lat b B) as D4.
  apply Rabs_split in D1. apply Rabs_split in D2. apply Rabs_split in D3. apply Rabs_split in D4.
  apply Rabs_split in HD.
  assert (LA : -90000000 <= IZR (lat a) <= 90000000) by (pose proof (IZR_abs_le _ _ (proj2 A)); lra).
  assert (LB : -90000000 <= IZR (lat b) <= 90000000) by (pose proof (IZR_abs_le _ _ (proj2 B)); lra).
  set (D := xr b - xr a). set (Sm := yr b + yr a).
  assert (HDx : Rabs D <= W * (1 + 12 / 100000000)) by (apply abs_bound; unfold D, xr; lra).
  assert (HSy : Rabs Sm <= 180000001) by (apply abs_bound; unfold Sm, yr; lra).
  assert (Ed : V (microdegrees_to_degrees (lon b)) - V (microdegrees_to_degrees (lon a)) = micro * D).
  { rewrite !dev_val. unfold D, xr. ring. }
  assert (Es : V (microdegrees_to_degrees (lat b)) + V (microdegrees_to_degrees (lat a)) = micro * Sm).
  { rewrite !dev_val. unfold Sm, yr. ring. }
  assert (AbsM : forall z, Rabs (micro * z) = micro * Rabs z) by (intros; rewrite Rabs_mult, (Rabs_right micro) by lra; reflexivity).
  destruct (fsub_correct _ _ Fxb Fxa) as [S1 S2].
  { rewrite Ed. apply small_le_big. rewrite AbsM. nra. }
  destruct (fadd_correct _ _ Fyb Fya) as [T1 T2].
  { rewrite Es. apply small_le_big. rewrite AbsM. nra. }
  assert (Rd : Rabs (rnd (micro * D) - micro * D) <= u53 * Rabs (micro * D)).
  { rewrite <- Ed. unfold Rminus at 1. unfold Rminus. apply rnd_plus_err; [apply format_V|].
    apply generic_format_opp, format_V. }
  assert (Rs : Rabs (rnd (micro * Sm) - micro * Sm) <= u53 * Rabs (micro * Sm)).
  { rewrite <- Es. apply rnd_plus_err; apply format_V. }
  rewrite Ed in S1. rewrite Es in T1.
  set (d := fsub _ _) in *. set (s := fadd _ _) in *.
  rewrite <- S1 in Rd. rewrite <- T1 in Rs.
  pose proof (mult_close (V d) (V s) (micro * D) (micro * Sm) u53 u53 Rd Rs) as MC.
  assert (U0 : 0 <= u53) by (rewrite u53_val; lra). specialize (MC U0 U0).
  set (P := micro * D * (micro * Sm)) in *.
  assert (HP : Rabs P = micro * micro * (Rabs D * Rabs Sm)).
  { unfold P. rewrite Rabs_mult, !AbsM. ring. }
  assert (HDS : 0 <= Rabs D * Rabs Sm <= W * 180000022).
  { pose proof (Rabs_pos D). pose proof (Rabs_pos Sm). split; [nra|].
    assert (HSy' : Rabs Sm <= 180000000 + 2 / 100000000) by (apply abs_bound; unfold Sm, yr; lra).
    apply Rle_trans with (W * (1 + 12 / 100000000) * (180000000 + 2 / 100000000)).
    - apply Rmult_le_compat; lra.
    - nra. }
  assert (MM : 0 < micro * micro <= 1 / 100000000000) by nra.
  set (Q := Rabs D * Rabs Sm) in *.
  assert (BP : 0 <= Rabs P <= micro * micro * (W * 180000022)) by (rewrite HP; nra).
  assert (Bds : Rabs (V d * V s) <= Rabs P * (1 + 3 * u53)).
  { replace (V d * V s) with ((V d * V s - P) + P) by ring. eapply Rle_trans; [apply Rabs_triang|].
    rewrite u53_val in *. lra. }
  assert (W0 : micro * micro * (W * 180000022) <= 1 / 100000000000 * (1080000002 * 180000022)).
  { apply Rmult_le_compat; try lra; nra. }
  destruct (fmul_correct d s S2 T2) as [X1 X2].
  { apply small_le_big. eapply Rle_trans; [exact Bds|]. rewrite u53_val. lra. }
  assert (Rm : Rabs (rnd (V d * V s) - V d * V s) <= u53 * Rabs (V d * V s)).
  { apply rnd_error.
    assert (FarD : V d = 0 \/ micro / 8 <= Rabs (V d)).
    { pose proof (far_dx a b A B) as FD. change (xr b - xr a) with D in FD. destruct FD as [Z|G].
      - left. rewrite S1, Z, Rmult_0_r. apply rnd_0.
      - right. rewrite AbsM in Rd. pose proof (Rabs_triang_inv (micro * D) (micro * D - V d)) as T.
        replace (micro * D - (micro * D - V d)) with (V d) in T by ring.
        rewrite (Rabs_minus_sym (micro * D)), AbsM in T. rewrite u53_val in *. nra. }
    assert (FarS : V s = 0 \/ micro / 8 <= Rabs (V s)).
    { pose proof (far_sy a b A B) as FD. change (yr b + yr a) with Sm in FD. destruct FD as [Z|G].
      - left. rewrite T1, Z, Rmult_0_r. apply rnd_0.
      - right. rewrite AbsM in Rs. pose proof (Rabs_triang_inv (micro * Sm) (micro * Sm - V s)) as T.
        replace (micro * Sm - (micro * Sm - V s)) with (V s) in T by ring.
        rewrite (Rabs_minus_sym (micro * Sm)), AbsM in T. rewrite u53_val in *. nra. }
    destruct FarD as [Z|G1]; [right; rewrite Z; ring|]. destruct FarS as [Z|G2]; [right; rewrite Z; ring|].
    left. rewrite Rabs_mult.
    assert (bpow radix2 (-1022) <= / 1267650600228229401496703205376).
    { change (/ 1267650600228229401496703205376) with (bpow radix2 (-100)). apply bpow_le. lia. }
    assert (micro / 8 * (micro / 8) <= Rabs (V d) * Rabs (V s)) by (apply Rmult_le_compat; lra).
    nra. }
  split; [exact X2|]. rewrite X1.
  assert (Tot : Rabs (rnd (V d * V s) - P) <= 4 * u53 * Rabs P).
  { replace (rnd (V d * V s) - P) with ((rnd (V d * V s) - V d * V s) + (V d * V s - P)) by ring.
    eapply Rle_trans; [apply Rabs_triang|]. rewrite u53_val in *. lra. }
  assert (Tot3 : Rabs (rnd (V d * V s) - P) <= 301 / 100 * u53 * Rabs P).
  { replace (rnd (V d * V s) - P) with ((rnd (V d * V s) - V d * V s) + (V d * V s - P)) by ring.
    eapply Rle_trans; [apply Rabs_triang|]. rewrite u53_val in *. lra. }
  split.
  - replace (micro * micro * (D * Sm)) with P by (unfold P; ring).
    eapply Rle_trans; [exact Tot3|]. rewrite u53_val. nra.
  - replace (rnd (V d * V s)) with ((rnd (V d * V s) - P) + P) by ring.
    eapply Rle_trans; [apply Rabs_triang|]. rewrite u53_val in *. nra.
Qed.

(** ** The whole sum *)
Lemma winding_term_edge vs i : winding_term vs i = edge_term (vat vs i) (ring_next vs i).
Proof. reflexivity. Qed.

Lemma terms_rs vs : rsum (map V (terms vs)) = rs (fun i => V (edge_term (vat vs i) (ring_next vs i))) (length vs).
Proof. unfold terms, rs. rewrite map_map. reflexivity. Qed.

Lemma rs_next_minus (f : coord -> R) vs : rs (fun i => f (ring_next vs i) - f (vat vs i)) (length vs) = 0.
Proof.
  rewrite (rs_ext _ (fun i => f (vat vs ((i + 1) mod length vs)%nat) + (-1) * f (vat vs i)))
    by (intros; unfold ring_next; ring).
  rewrite rs_plus, rs_scal, (rs_shift (fun i => f (vat vs i))). ring.
Qed.

Lemma path_area_index (g : nat -> coord) m : forall i,
  IZR (path_area (map g (seq i (S m)))) =
  rsum (map (fun j => IZR (lon (g j)) * IZR (lat (g (S j))) - IZR (lat (g j)) * IZR (lon (g (S j)))) (seq i m)).
Proof.
  induction m as [|m IH]; intros i; [reflexivity|].
  change (map g (seq i (S (S m)))) with (g i :: g (S i) :: map g (seq (S (S i)) m)).
  change (path_area (g i :: g (S i) :: map g (seq (S (S i)) m))) with
    ((lon (g i) * lat (g (S i)) - lat (g i) * lon (g (S i))) + path_area (map g (seq (S i) (S m))))%Z.
  rewrite plus_IZR, minus_IZR, !mult_IZR, IH. reflexivity.
Qed.

Lemma ring_area_rs vs : IZR (ring_area vs) =
  rs (fun i => IZR (lon (vat vs i)) * IZR (lat (ring_next vs i)) - IZR (lat (vat vs i)) * IZR (lon (ring_next vs i))) (length vs).
Proof.
  destruct vs as [|h t]; [reflexivity|]. unfold ring_area. rewrite <- unrolled. set (vs := h :: t).
  rewrite path_area_index. unfold rs. rewrite <- seq_shift, map_map. f_equal. apply map_ext_in.
  intros j J. apply in_seq in J. rewrite ring_at_S by lia.
  replace (ring_at vs (S (S j))) with (ring_next vs j); [reflexivity|].
  unfold ring_next, ring_at. replace (S (S j) + length vs - 1)%nat with ((j + 1) + 1 * length vs)%nat by lia.
  rewrite Nat.mod_add by (unfold vs; simpl; lia). reflexivity.
Qed.

(** exact winding sum = minus twice the signed area *)
Lemma exact_winding vs C : rs (fun i =>
    (IZR (lon (ring_next vs i)) - IZR (lon (vat vs i))) *
    (IZR (lat (ring_next vs i)) + IZR (lat (vat vs i)) - 2 * C)) (length vs) = - IZR (ring_area vs).
Proof.
  rewrite ring_area_rs.
  rewrite (rs_ext _ (fun i =>
     ((IZR (lon (ring_next vs i)) * IZR (lat (ring_next vs i)) - IZR (lon (vat vs i)) * IZR (lat (vat vs i))) +
      (-1) * (IZR (lon (vat vs i)) * IZR (lat (ring_next vs i)) - IZR (lat (vat vs i)) * IZR (lon (ring_next vs i)))) +
      (- (2 * C)) * (IZR (lon (ring_next vs i)) - IZR (lon (vat vs i))))) by (intros; ring).
  rewrite !rs_plus, !rs_scal.
  rewrite (rs_next_minus (fun c => IZR (lon c) * IZR (lat c))).
  rewrite (rs_next_minus (fun c => IZR (lon c))). ring.
Qed.

Lemma vat_In vs i : (i < length vs)%nat -> In (vat vs i) vs.
Proof. intros. apply nth_In. assumption. Qed.
Lemma ring_next_In vs i : (i < length vs)%nat -> In (ring_next vs i) vs.
Proof. intros. apply nth_In. apply Nat.mod_upper_bound. lia. Qed.

Lemma winding_close vs W H w : Forall pgeo vs -> extent vs W H ->
  (3 <= Z.of_nat (length vs) <= 1048576)%Z -> sums_to (terms vs) w ->
  is_finite w = true /\
  Rabs (V w + micro * micro * IZR (ring_area vs)) <=
    micro * micro * (INR (length vs) * INR (length vs) * ((IZR W + IZR H) * (1 / 10000000))).
Proof.
  intros F [EW E0] Hn S. set (n := length vs) in *.
  assert (N3 : 3 <= INR n <= 1048576) by (rewrite INR_IZR_INZ; split; apply IZR_le; lia).
  set (W1 := IZR (Z.min W 1080000002)).
  assert (HW1 : 1 <= W1 <= 1080000002 /\ W1 <= IZR W).
  { unfold W1. repeat split; apply IZR_le; lia. }
  assert (P : forall c, In c vs -> pgeo c) by (apply Forall_forall; exact F).
  assert (PV : forall i, (i < n)%nat -> pgeo (vat vs i)) by (intros; apply P, vat_In; assumption).
  assert (PN : forall i, (i < n)%nat -> pgeo (ring_next vs i)) by (intros; apply P, ring_next_In; assumption).
  assert (DX : forall i, (i < n)%nat -> Rabs (IZR (lon (ring_next vs i)) - IZR (lon (vat vs i))) <= W1).
  { intros i Hi. destruct (E0 (ring_next vs i) (vat vs i) (ring_next_In vs i Hi) (vat_In vs i Hi)) as [A _].
    rewrite <- minus_IZR, <- abs_IZR. apply IZR_le. destruct (PV i Hi) as [B _]. destruct (PN i Hi) as [B' _]. lia. }
  assert (ST : small_terms (micro * micro * (W1 * 180000023)) (terms vs)).
  { unfold small_terms, terms. apply Forall_forall. intros x X. apply in_map_iff in X. destruct X as (i & <- & I).
    apply in_seq in I. rewrite winding_term_edge.
    destruct (edge_term_close (vat vs i) (ring_next vs i) W1) as (A & _ & B); auto; try lra.
    - apply PV. lia.
    - apply PN. lia.
    - apply DX. lia. }
  pose proof micro_pos as MP. pose proof micro_bounds as MB. set (mm := micro * micro) in *.
  assert (MM : 0 < mm <= 1 / 100000000000) by (unfold mm; nra).
  set (M := mm * (W1 * 180000023)) in *.
  assert (M0 : 0 <= M) by (unfold M; nra).
  assert (M1 : M <= 1267650600228229401496703205376 / 2097152).
  { apply Rle_trans with (1 / 100000000000 * (1080000002 * 180000023)); [|lra].
    unfold M. apply Rmult_le_compat; try lra; nra. }
  assert (LT : length (terms vs) = n) by (unfold terms; rewrite map_length, seq_length; reflexivity).
  destruct (sums_close n M (terms vs) w M0 M1 ltac:(lia) S ST ltac:(lia)) as (Fw & _ & E3).
  split; [exact Fw|]. rewrite LT, terms_rs in E3. fold n in E3.
  assert (AD : adds n = INR n - 1). { unfold adds. rewrite minus_INR by lia. simpl. reflexivity. }
  rewrite AD in E3.
  (* second error: the terms *)
  set (D := fun i => xr (ring_next vs i) - xr (vat vs i)).
  set (Sm := fun i => yr (ring_next vs i) + yr (vat vs i)).
  assert (E2 : Rabs (rs (fun i => V (edge_term (vat vs i) (ring_next vs i))) n - mm * rs (fun i => D i * Sm i) n) <=
               INR n * (mm * (W1 * (602 / 10000000000)))).
  { rewrite <- rs_scal. replace (rs (fun i => V (edge_term (vat vs i) (ring_next vs i))) n - rs (fun i => mm * (D i * Sm i)) n)
      with (rs (fun i => V (edge_term (vat vs i) (ring_next vs i)) + (-1) * (mm * (D i * Sm i))) n)
      by (rewrite rs_plus, rs_scal; ring).
    apply rs_abs. intros i Hi.
    destruct (edge_term_close (vat vs i) (ring_next vs i) W1) as (_ & A & _); auto; try lra.
    replace (V (edge_term (vat vs i) (ring_next vs i)) + -1 * (mm * (D i * Sm i))) with
      (V (edge_term (vat vs i) (ring_next vs i)) - mm * (D i * Sm i)) by ring. exact A. }
  (* first error: the rounded degrees *)
  set (C := IZR (lat (vat vs 0))).
  assert (E1 : Rabs (rs (fun i => D i * Sm i) n + IZR (ring_area vs)) <=
               INR n * (24 / 100000000 * IZR H + W1 * (21 / 1000000000))).
  { replace (rs (fun i => D i * Sm i) n) with (rs (fun i => D i * (Sm i - 2 * C)) n).
    2:{ rewrite (rs_ext _ (fun i => D i * Sm i + (- (2 * C)) * D i)) by (intros; ring).
        rewrite rs_plus, rs_scal. unfold D at 2. rewrite (rs_next_minus xr). ring. }
    replace (IZR (ring_area vs)) with (- - IZR (ring_area vs)) by ring.
    rewrite <- (exact_winding vs C). fold n.
    replace (rs (fun i => D i * (Sm i - 2 * C)) n + - rs (fun i =>
      (IZR (lon (ring_next vs i)) - IZR (lon (vat vs i))) * (IZR (lat (ring_next vs i)) + IZR (lat (vat vs i)) - 2 * C)) n)
    with (rs (fun i => D i * (Sm i - 2 * C) + (-1) *
      ((IZR (lon (ring_next vs i)) - IZR (lon (vat vs i))) * (IZR (lat (ring_next vs i)) + IZR (lat (vat vs i)) - 2 * C))) n)
    by (rewrite rs_plus, rs_scal; ring).
    apply rs_abs. intros i Hi. unfold D, Sm, xr, yr.
    pose proof (DX i Hi) as Dx.
    pose proof (dev_lon _ (PV i Hi)) as d1. pose proof (dev_lon _ (PN i Hi)) as d2.
    pose proof (dev_lat _ (PV i Hi)) as d3. pose proof (dev_lat _ (PN i Hi)) as d4.
    assert (I0 : In (vat vs 0) vs) by (apply vat_In; lia).
    destruct (E0 _ _ (ring_next_In vs i Hi) I0) as [_ h1]. destruct (E0 _ _ (vat_In vs i Hi) I0) as [_ h2].
    apply IZR_abs_le in h1. apply IZR_abs_le in h2. rewrite minus_IZR in h1, h2. fold C in h1, h2.
    set (dx := IZR (lon (ring_next vs i)) - IZR (lon (vat vs i))) in *.
    set (al := dev (lon (ring_next vs i)) - dev (lon (vat vs i))).
    set (yy := IZR (lat (ring_next vs i)) + IZR (lat (vat vs i)) - 2 * C).
    set (be := dev (lat (ring_next vs i)) + dev (lat (vat vs i))).
    match goal with |- Rabs ?e <= _ => replace e with (al * yy + (dx + al) * be) by (unfold al, yy, be, dx; ring) end.
    apply Rabs_split in d1. apply Rabs_split in d2. apply Rabs_split in d3. apply Rabs_split in d4.
    assert (A1 : Rabs al <= 12 / 100000000) by (apply abs_bound; unfold al; lra).
    assert (A2 : Rabs yy <= 2 * IZR H) by (apply abs_bound; unfold yy; lra).
    assert (A3 : Rabs be <= 2 / 100000000) by (apply abs_bound; unfold be; lra).
    assert (A4 : Rabs (dx + al) <= W1 + 12 / 100000000) by (eapply Rle_trans; [apply Rabs_triang|]; lra).
    eapply Rle_trans; [apply Rabs_triang|]. rewrite !Rabs_mult.
    assert (Rabs al * Rabs yy <= 12 / 100000000 * (2 * IZR H)) by (apply Rmult_le_compat; auto using Rabs_pos).
    assert (Rabs (dx + al) * Rabs be <= (W1 + 12 / 100000000) * (2 / 100000000)) by (apply Rmult_le_compat; auto using Rabs_pos).
    lra. }
  assert (H0 : 0 <= IZR H).
  { apply IZR_le. assert (I0 : In (vat vs 0) vs) by (apply vat_In; lia). destruct (E0 _ _ I0 I0). lia. }
  set (tot := rs (fun i => V (edge_term (vat vs i) (ring_next vs i))) n) in *.
  set (ex := rs (fun i => D i * Sm i) n) in *.
  replace (V w + mm * IZR (ring_area vs)) with ((V w - tot) + ((tot - mm * ex) + mm * (ex + IZR (ring_area vs)))) by ring.
  eapply Rle_trans; [apply Rabs_triang|].
  eapply Rle_trans; [apply Rplus_le_compat_l, Rabs_triang|].
  assert (E1' : Rabs (mm * (ex + IZR (ring_area vs))) <= mm * (INR n * (24 / 100000000 * IZR H + W1 * (21 / 1000000000)))).
  { rewrite Rabs_mult, (Rabs_right mm) by lra. apply Rmult_le_compat_l; [lra|exact E1]. }
  assert (E3' : (INR n - 1) * (u53 * INR n * M * (1001 / 1000)) <= mm * (INR n * INR n * (W1 * (2002 / 100000000000)))).
  { unfold M. rewrite u53_val.
    replace ((INR n - 1) * (1 / 9007199254740992 * INR n * (mm * (W1 * 180000023)) * (1001 / 1000))) with
      (mm * ((INR n - 1) * INR n * (W1 * (1 / 9007199254740992 * 180000023 * (1001 / 1000))))) by ring.
    apply Rmult_le_compat_l; [lra|].
    apply Rmult_le_compat; nra. }
  assert (NN : INR n <= INR n * INR n / 3) by nra.
  assert (T : INR n * (24 / 100000000 * IZR H + W1 * (21 / 1000000000)) + INR n * (W1 * (602 / 10000000000)) +
              INR n * INR n * (W1 * (2002 / 100000000000)) <=
              INR n * INR n * ((IZR W + IZR H) * (1 / 10000000))).
  { assert (INR n * (24 / 100000000 * IZR H + W1 * (21 / 1000000000) + W1 * (602 / 10000000000)) <=
            INR n * INR n / 3 * (24 / 100000000 * IZR H + W1 * (21 / 1000000000) + W1 * (602 / 10000000000))).
    { apply Rmult_le_compat_r; lra. }
    assert (INR n * INR n * (24 / 300000000 * IZR H + W1 * (7 / 1000000000) + W1 * (602 / 30000000000) + W1 * (2002 / 100000000000)) <=
            INR n * INR n * ((IZR W + IZR H) * (1 / 10000000))).
    { apply Rmult_le_compat_l; [nra|]. lra. }
    lra. }
  assert (T' := Rmult_le_compat_l mm _ _ ltac:(lra) T). lra.
Qed.
