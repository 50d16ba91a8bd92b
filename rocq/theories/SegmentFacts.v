(** Facts about [LineSegment]. *)
From Coq Require Import ZArith Bool List Lia ZifyBool Reals Lra Psatz.
From Flocq Require Import Core BinarySingleNaN.
From Verif Require Import Base F64 F64Facts Coordinate CoordinateFacts Segment SpecGeom GraphFacts.
Local Open Scope Z_scope.

Ltac ranges := unfold pgeo_seg, pgeo, geo, INT32_MIN, INT32_MAX, INT64_MIN, INT64_MAX in *.

Definition vsub (a b : coord) : coord := mkC (lon a - lon b) (lat a - lat b).

Lemma coord_sub_pgeo a b : pgeo a -> pgeo b -> coord_sub a b = Ok (vsub a b).
Proof. intros [A1 A2] [B1 B2]. apply coord_sub_ok; ranges; lia. Qed.

Lemma mul_bound x y a b : Z.abs x <= a -> Z.abs y <= b -> - (a * b) <= x * y <= a * b.
Proof. intros. nia. Qed.

Lemma i64_mul x y a b : Z.abs x <= a -> Z.abs y <= b -> a * b <= INT64_MAX -> i64 (x * y) = Ok (x * y).
Proof. intros. apply i64_ok. pose proof (mul_bound x y a b H H0). ranges. lia. Qed.

Lemma orientation_pt_ok s p : pgeo_seg s -> pgeo p ->
  orientation_of_point_to_segment s p = Ok (orientation_of_sign (turn (e1 s) (e2 s) p)).
Proof.
  intros [[A1 A2] [B1 B2]] [P1 P2]. unfold orientation_of_point_to_segment, turn.
  rewrite !(i64_ok (_ - _)) by (ranges; lia). simpl.
  rewrite (i64_mul _ _ 1080000002 180000000) by (ranges; lia).
  rewrite (i64_mul _ _ 180000000 1080000002) by (ranges; lia). simpl.
  pose proof (mul_bound (lon (e2 s) - lon (e1 s)) (lat p - lat (e1 s)) 1080000002 180000000 ltac:(lia) ltac:(lia)).
  pose proof (mul_bound (lat (e2 s) - lat (e1 s)) (lon p - lon (e1 s)) 180000000 1080000002 ltac:(lia) ltac:(lia)).
  rewrite i64_ok by (ranges; lia). reflexivity.
Qed.

Lemma turn_shift d a b p : turn (shift d a) (shift d b) (shift d p) = turn a b p.
Proof. unfold turn, shift. simpl. ring. Qed.

(** ** on_segment *)
Lemma between_or x y z : (x <= z /\ z <= y) \/ (y <= z /\ z <= x) <-> Z.min x y <= z <= Z.max x y.
Proof. lia. Qed.

Lemma pgeo_i31 c : pgeo c -> i31 (lon c) /\ i31 (lat c).
Proof. unfold pgeo, i31. lia. Qed.

Lemma on_segment_ok s p : pgeo_seg s -> pgeo p ->
  exists b, on_segment s p = Ok b /\
    (b = true <-> turn (e1 s) (e2 s) p = 0 /\
       Z.min (lon (e1 s)) (lon (e2 s)) <= lon p <= Z.max (lon (e1 s)) (lon (e2 s)) /\
       Z.min (lat (e1 s)) (lat (e2 s)) <= lat p <= Z.max (lat (e1 s)) (lat (e2 s))).
Proof.
  intros S P. unfold on_segment. rewrite orientation_pt_ok by assumption. simpl.
  pose proof (orientation_of_sign_spec (turn (e1 s) (e2 s) p)) as (_ & _ & O).
  destruct (orientation_eqb (orientation_of_sign (turn (e1 s) (e2 s) p)) COLLINEAR) eqn:E; simpl.
  - eexists. split; [reflexivity|].
    assert (T : turn (e1 s) (e2 s) p = 0).
    { apply O. destruct (orientation_of_sign _); try discriminate. reflexivity. }
    destruct S as [S1 S2]. apply pgeo_i31 in S1. apply pgeo_i31 in S2. apply pgeo_i31 in P.
    unfold get_longitude, get_latitude.
    rewrite andb_true_iff, !orb_true_iff, !andb_true_iff, !deg_fleb by tauto.
    rewrite <- !between_or. tauto.
  - eexists. split; [reflexivity|]. split; [discriminate|]. intros [T _]. apply O in T. rewrite T in E. discriminate.
Qed.

Lemma on_closed_segment_iff s p : on_closed_segment s p <->
  turn (e1 s) (e2 s) p = 0 /\
  Z.min (lon (e1 s)) (lon (e2 s)) <= lon p <= Z.max (lon (e1 s)) (lon (e2 s)) /\
  Z.min (lat (e1 s)) (lat (e2 s)) <= lat p <= Z.max (lat (e1 s)) (lat (e2 s)).
Proof.
  unfold on_closed_segment, turn. destruct s as [[a b] [c d]], p as [x y]; simpl. split.
  - intros (q & t & Q & T & E1 & E2).
    assert (X : q * (x - a) = t * (c - a)) by lia.
    assert (Y : q * (y - b) = t * (d - b)) by lia.
    repeat split.
    + assert (q * ((c - a) * (y - b) - (d - b) * (x - a)) = 0).
      { replace (q * ((c - a) * (y - b) - (d - b) * (x - a))) with
          ((c - a) * (q * (y - b)) - (d - b) * (q * (x - a))) by ring. rewrite X, Y. ring. }
      nia.
    + nia.
    + nia.
    + nia.
    + nia.
  - intros (T & X & Y).
    destruct (Z.eq_dec a c) as [->|N].
    + destruct (Z.eq_dec b d) as [->|M].
      * exists 1, 0. lia.
      * exists (Z.abs (d - b)), (Z.abs (y - b)). assert (x = c) by lia. subst x.
        repeat split; try lia; nia.
    + exists (Z.abs (c - a)), (Z.abs (x - a)). repeat split; try lia; nia.
Qed.

Lemma on_segment_membership s p : pgeo_seg s -> pgeo p ->
  exists b, on_segment s p = Ok b /\ (b = true <-> on_closed_segment s p).
Proof.
  intros S P. destruct (on_segment_ok s p S P) as (b & E & H). exists b. split; [exact E|].
  rewrite H. symmetry. apply on_closed_segment_iff.
Qed.

(** ** Equality and adjacency *)
Lemma segment_eqb_iff a b : segment_eqb a b = true <-> (b = a \/ b = flip a).
Proof.
  unfold segment_eqb, flip. rewrite orb_true_iff, !andb_true_iff, !coord_eqb_spec.
  destruct a as [a1 a2], b as [b1 b2]; simpl. split.
  - intros [[-> ->]|[-> ->]]; auto.
  - intros [H|H]; inversion H; auto.
Qed.

Lemma get_adjacent_spec s p :
  (p = e1 s -> get_adjacent_to s p = Ok (e2 s)) /\
  (p = e2 s -> get_adjacent_to s p = Ok (e1 s)) /\
  (p <> e1 s -> p <> e2 s -> get_adjacent_to s p = Throw NotAnEndpoint).
Proof.
  unfold get_adjacent_to. repeat split.
  - intros ->. rewrite coord_eqb_refl. reflexivity.
  - intros ->. rewrite coord_eqb_refl. destruct (coord_eqb (e2 s) (e1 s)) eqn:E; [|reflexivity].
    apply coord_eqb_spec in E. rewrite E. reflexivity.
  - intros N1 N2. rewrite (proj2 (coord_eqb_neq _ _) N1), (proj2 (coord_eqb_neq _ _) N2). reflexivity.
Qed.

(** ** Intersection *)
Definition iD (s o : segment) : Z :=
  let n := vsub (e2 s) (e1 s) in let m := vsub (e1 o) (e2 o) in lon n * lat m - lat n * lon m.
Definition iQx (s o : segment) : Z :=
  let m := vsub (e1 o) (e2 o) in let p := vsub (e1 o) (e1 s) in lat m * lon p - lon m * lat p.
Definition iQy (s o : segment) : Z :=
  let n := vsub (e2 s) (e1 s) in let p := vsub (e1 o) (e1 s) in lon n * lat p - lat n * lon p.

Lemma iD_det s o : iD s o = - seg_det s o.
Proof. unfold iD, seg_det, vsub. simpl. ring. Qed.

Definition ibound : Z := 388800000720000000.  (* 2 * 1080000002 * 180000000 *)

Lemma i64_det x y z w a b :
  Z.abs x <= a -> Z.abs y <= b -> Z.abs z <= b -> Z.abs w <= a -> a * b <= 194400000360000000 ->
  i64 (x * y) = Ok (x * y) /\ i64 (z * w) = Ok (z * w) /\ i64 (x * y - z * w) = Ok (x * y - z * w) /\
  Z.abs (x * y - z * w) <= ibound.
Proof.
  intros. pose proof (mul_bound x y a b H H0). pose proof (mul_bound z w b a H1 H2).
  unfold ibound. ranges. repeat split; try apply i64_ok; ranges; lia.
Qed.

Lemma i64_abs z : Z.abs z <= ibound -> i64 (Z.abs z) = Ok (Z.abs z).
Proof. intros. apply i64_ok. unfold ibound in *. ranges. lia. Qed.

Definition in_range_cond (s o : segment) : bool :=
  negb (negb (((0 <=? iD s o) && (0 <=? iQx s o) && (0 <=? iQy s o)) ||
              ((iD s o <=? 0) && (iQx s o <=? 0) && (iQy s o <=? 0)))
        || (Z.abs (iD s o) <? Z.abs (iQx s o)) || (Z.abs (iD s o) <? Z.abs (iQy s o))).

Lemma intersection_unfold s o : pgeo_seg s -> pgeo_seg o ->
  intersection_with_segment s o =
    (if iD s o =? 0 then
      if coord_eqb (e1 s) (e1 o) || coord_eqb (e1 s) (e2 o) then Ok (Some (e1 s))
      else if coord_eqb (e2 s) (e1 o) || coord_eqb (e2 s) (e2 o) then Ok (Some (e2 s))
      else Ok None
     else if in_range_cond s o then
      nt <- coord_mul (vsub (e2 s) (e1 s)) (fdiv (f_of_Z (iQx s o)) (f_of_Z (iD s o))) ;;
      r <- coord_add (e1 s) nt ;; Ok (Some r)
     else Ok None) /\
  Z.abs (iD s o) <= ibound /\ Z.abs (iQx s o) <= ibound /\ Z.abs (iQy s o) <= ibound.
Proof.
  intros S O. unfold intersection_with_segment.
  assert (S' := S). assert (O' := O). destruct S' as [S1 S2], O' as [O1 O2].
  rewrite !coord_sub_pgeo by assumption. cbv zeta. simpl bind at 1. simpl bind at 1. simpl bind at 1.
  unfold in_range_cond. unfold iD, iQx, iQy, vsub. cbv zeta. cbn [lon lat].
  destruct S1 as [a1 a2], S2 as [b1 b2], O1 as [c1 c2], O2 as [d1 d2].
  set (A := e1 s) in *. set (B := e2 s) in *. set (C := e1 o) in *. set (D := e2 o) in *.
  destruct (i64_det (lon B - lon A) (lat C - lat D) (lat B - lat A) (lon C - lon D) 1080000002 180000000)
    as (D1 & D2 & D3 & D4); try lia.
  destruct (i64_det (lon C - lon A) (lat C - lat D) (lat C - lat A) (lon C - lon D) 1080000002 180000000)
    as (X1 & X2 & X3 & X4); try (clear D1 D2 D3 D4; lia).
  destruct (i64_det (lon B - lon A) (lat C - lat A) (lat B - lat A) (lon C - lon A) 1080000002 180000000)
    as (Y1 & Y2 & Y3 & Y4); try (clear D1 D2 D3 D4 X1 X2 X3 X4; lia).
  rewrite (Z.mul_comm (lat C - lat D) (lon C - lon A)), (Z.mul_comm (lon C - lon D) (lat C - lat A)).
  rewrite D1, D2. cbn [bind]. rewrite D3. cbn [bind]. rewrite X1, X2. cbn [bind]. rewrite X3. cbn [bind].
  rewrite Y1, Y2. cbn [bind]. rewrite Y3. cbn [bind].
  rewrite !i64_abs by assumption.
  split; [|auto].
  destruct (_ =? 0); [reflexivity|]. cbn [bind].
  set (cond := (_ || _)). destruct cond; reflexivity.
Qed.

Lemma in_range_cond_iff s o : iD s o <> 0 ->
  (in_range_cond s o = true <-> segments_meet s o).
Proof.
  intros N. unfold in_range_cond. rewrite negb_true_iff, !orb_false_iff, negb_false_iff.
  rewrite orb_true_iff, !andb_true_iff, !Z.leb_le, !Z.ltb_ge.
  unfold segments_meet.
  assert (CX : iQx s o * (lon (e2 s) - lon (e1 s)) + iQy s o * (lon (e1 o) - lon (e2 o)) =
               iD s o * (lon (e1 o) - lon (e1 s))).
  { unfold iD, iQx, iQy, vsub. cbn [lon lat]. ring. }
  assert (CY : iQx s o * (lat (e2 s) - lat (e1 s)) + iQy s o * (lat (e1 o) - lat (e2 o)) =
               iD s o * (lat (e1 o) - lat (e1 s))).
  { unfold iD, iQx, iQy, vsub. cbn [lon lat]. ring. }
  split.
  - intros [[[[[H1 H2] H3]|[[H1 H2] H3]] H4] H5].
    + exists (iD s o), (iQx s o), (iQy s o). repeat split; try lia.
    + exists (- iD s o), (- iQx s o), (- iQy s o). repeat split; try lia.
  - intros (q & t & u & Q & T & U & E1 & E2).
    assert (K1 : q * iQx s o = t * iD s o).
    { unfold iD, iQx, vsub. cbn [lon lat].
      assert (P1 : q * (lon (e1 o) - lon (e1 s)) = t * (lon (e2 s) - lon (e1 s)) + u * (lon (e1 o) - lon (e2 o))) by lia.
      assert (P2 : q * (lat (e1 o) - lat (e1 s)) = t * (lat (e2 s) - lat (e1 s)) + u * (lat (e1 o) - lat (e2 o))) by lia.
      transitivity ((lat (e1 o) - lat (e2 o)) * (q * (lon (e1 o) - lon (e1 s))) -
                    (lon (e1 o) - lon (e2 o)) * (q * (lat (e1 o) - lat (e1 s)))); [ring|].
      rewrite P1, P2. ring. }
    assert (K2 : q * iQy s o = u * iD s o).
    { unfold iD, iQy, vsub. cbn [lon lat].
      assert (P1 : q * (lon (e1 o) - lon (e1 s)) = t * (lon (e2 s) - lon (e1 s)) + u * (lon (e1 o) - lon (e2 o))) by lia.
      assert (P2 : q * (lat (e1 o) - lat (e1 s)) = t * (lat (e2 s) - lat (e1 s)) + u * (lat (e1 o) - lat (e2 o))) by lia.
      transitivity ((lon (e2 s) - lon (e1 s)) * (q * (lat (e1 o) - lat (e1 s))) -
                    (lat (e2 s) - lat (e1 s)) * (q * (lon (e1 o) - lon (e1 s)))); [ring|].
      rewrite P1, P2. ring. }
    destruct (Z_lt_le_dec (iD s o) 0) as [L|L].
    + repeat split; [right; repeat split| |]; nia.
    + repeat split; [left; repeat split| |]; nia.
Qed.

(** ** Accuracy *)
Local Open Scope R_scope.

Lemma rnd_Z_err z : Rabs (rnd (IZR z) - IZR z) <= u53 * Rabs (IZR z).
Proof.
  apply rnd_error. destruct (Z.eq_dec z 0) as [->|N]; [right; reflexivity|left].
  assert (1 <= Rabs (IZR z)) by (rewrite <- abs_IZR; apply IZR_le; lia).
  pose proof bpow_m1022_small. lra.
Qed.

Lemma rnd_pos_Z z : (0 < z)%Z -> 1 <= rnd (IZR z).
Proof. intros H. apply (rnd_bound_IZR_l (IZR z) 1); [vm_compute; discriminate|]. apply IZR_le; lia. Qed.

(** the double quotient of two integers 0 <= q <= d (or both negated) *)
Lemma fdiv_ratio q d : (d <> 0)%Z -> (Z.abs d <= ibound)%Z -> ((0 <= q <= d) \/ (d <= q <= 0))%Z ->
  let v := fdiv (f_of_Z q) (f_of_Z d) in
  is_finite v = true /\ 0 <= V v <= 1 /\ Rabs (V v - IZR q / IZR d) <= 4 * u53 /\
  (q = d -> V v = 1) /\ (q = 0%Z -> V v = 0).
Proof.
  intros N B S.
  assert (Bq : (Z.abs q <= ibound)%Z) by lia.
  assert (C : forall z, (Z.abs z <= ibound)%Z -> V (f_of_Z z) = rnd (IZR z) /\ is_finite (f_of_Z z) = true).
  { intros z Hz. apply f_of_Z_correct. apply small_big. unfold ibound in Hz. change (2^64)%Z with 18446744073709551616%Z. lia. }
  destruct (C q Bq) as [Q1 Q2]. destruct (C d B) as [D1 D2].
  assert (NZ : IZR d <> 0) by (apply IZR_nz; exact N).
  pose proof (rnd_Z_err q) as Eq. pose proof (rnd_Z_err d) as Ed.
  assert (NR : rnd (IZR d) <> 0 /\ 0 <= rnd (IZR q) / rnd (IZR d) <= 1).
  { destruct S as [S|S].
    - pose proof (rnd_pos_Z d ltac:(lia)) as P.
      assert (0 <= rnd (IZR q)) by (rewrite <- rnd_0; apply rnd_mono; apply IZR_le; lia).
      assert (rnd (IZR q) <= rnd (IZR d)) by (apply rnd_mono; apply IZR_le; lia).
      split; [lra|]. split.
      + apply Rmult_le_pos; [lra|]. left. apply Rinv_0_lt_compat. lra.
      + apply (Rmult_le_reg_r (rnd (IZR d))); [lra|]. unfold Rdiv. rewrite Rmult_assoc, Rinv_l by lra. lra.
    - pose proof (rnd_pos_Z (- d) ltac:(lia)) as P. rewrite opp_IZR, rnd_opp in P.
      assert (rnd (IZR q) <= 0) by (rewrite <- rnd_0; apply rnd_mono; apply IZR_le; lia).
      assert (rnd (IZR d) <= rnd (IZR q)) by (apply rnd_mono; apply IZR_le; lia).
      split; [lra|].
      replace (rnd (IZR q) / rnd (IZR d)) with ((- rnd (IZR q)) / (- rnd (IZR d))) by (field; lra).
      split.
      + apply Rmult_le_pos; [lra|]. left. apply Rinv_0_lt_compat. lra.
      + apply (Rmult_le_reg_r (- rnd (IZR d))); [lra|]. unfold Rdiv. rewrite Rmult_assoc, Rinv_l by lra. lra. }
  destruct NR as [NR R01].
  destruct (fdiv_correct (f_of_Z q) (f_of_Z d) Q2) as [V1 V2].
  { rewrite D1. exact NR. }
  { rewrite Q1, D1. apply small_le_big, abs_bound. lra. }
  rewrite Q1, D1 in V1. cbv zeta. rewrite V1.
  set (r := rnd (IZR q) / rnd (IZR d)) in *.
  split; [exact V2|]. split; [|split; [|split]].
  - split; [rewrite <- rnd_0; apply rnd_mono; lra|].
    apply (rnd_bound_IZR r 1); [vm_compute; discriminate|lra].
  - (* accuracy *)
    assert (Ex : Rabs (r - IZR q / IZR d) <= 5/2 * u53).
    { assert (K : (r - IZR q / IZR d) * IZR d * rnd (IZR d) =
                  (rnd (IZR q) - IZR q) * IZR d - IZR q * (rnd (IZR d) - IZR d)).
      { unfold r. field. split; assumption. }
      assert (A1 : Rabs (IZR q) <= Rabs (IZR d)) by (rewrite <- !abs_IZR; apply IZR_le; lia).
      assert (A2 : 1 <= Rabs (IZR d)) by (rewrite <- abs_IZR; apply IZR_le; lia).
      assert (A3 : Rabs (IZR d) * (1 - u53) <= Rabs (rnd (IZR d))).
      { pose proof (Rabs_triang_inv (IZR d) (IZR d - rnd (IZR d))) as T.
        replace (IZR d - (IZR d - rnd (IZR d))) with (rnd (IZR d)) in T by ring.
        rewrite (Rabs_minus_sym (IZR d)) in T. lra. }
      assert (L : Rabs ((r - IZR q / IZR d) * IZR d * rnd (IZR d)) <= 2 * u53 * (Rabs (IZR d) * Rabs (IZR d))).
      { rewrite K. eapply Rle_trans; [apply Rabs_triang|]. rewrite Rabs_Ropp, !Rabs_mult.
        pose proof (Rabs_pos (IZR q)). pose proof (Rabs_pos (IZR d)).
        assert (0 < u53) by (rewrite u53_val; lra).
        assert (Rabs (rnd (IZR q) - IZR q) * Rabs (IZR d) <= u53 * Rabs (IZR d) * Rabs (IZR d)).
        { apply Rmult_le_compat_r; [lra|]. nra. }
        assert (Rabs (IZR q) * Rabs (rnd (IZR d) - IZR d) <= Rabs (IZR d) * (u53 * Rabs (IZR d))).
        { apply Rmult_le_compat; try lra. apply Rabs_pos. }
        lra. }
      rewrite !Rabs_mult in L. set (e := Rabs (r - IZR q / IZR d)) in *.
      assert (0 <= e) by (unfold e; apply Rabs_pos).
      assert (L2 : e * Rabs (IZR d) * (Rabs (IZR d) * (1 - u53)) <= 2 * u53 * (Rabs (IZR d) * Rabs (IZR d))).
      { eapply Rle_trans; [|exact L]. apply Rmult_le_compat_l; [nra|]. exact A3. }
      set (D := Rabs (IZR d)) in *.
      assert (L3 : (e * (1 - u53) - 2 * u53) * (D * D) <= 0) by nra.
      assert (0 < D * D) by nra.
      assert (e * (1 - u53) <= 2 * u53).
      { destruct (Rle_or_lt (e * (1 - u53)) (2 * u53)); [assumption|exfalso]. nra. }
      rewrite u53_val in *. lra. }
    assert (Er : Rabs (rnd r - r) <= u53 * Rabs r).
    { apply rnd_error. destruct (Z.eq_dec q 0) as [->|Nq].
      - right. unfold r. rewrite rnd_0. unfold Rdiv. ring.
      - left. unfold r, Rdiv. rewrite Rabs_mult, Rabs_inv by exact NR.
        assert (1 <= Rabs (rnd (IZR q))).
        { destruct S as [S|S].
          - pose proof (rnd_pos_Z q ltac:(lia)). rewrite Rabs_right; lra.
          - pose proof (rnd_pos_Z (- q) ltac:(lia)) as P. rewrite opp_IZR, rnd_opp in P.
            rewrite Rabs_left; lra. }
        assert (Rabs (rnd (IZR d)) <= 1152921504606846976).
        { assert (Bd : (Z.abs d <= 576460752303423488)%Z) by (unfold ibound in B; lia).
          apply IZR_le in Bd. rewrite abs_IZR in Bd.
          pose proof (Rabs_triang_inv (rnd (IZR d)) (rnd (IZR d) - IZR d)) as T.
          replace (rnd (IZR d) - (rnd (IZR d) - IZR d)) with (IZR d) in T by ring.
          rewrite u53_val in Ed. lra. }
        assert (0 < Rabs (rnd (IZR d))) by (apply Rabs_pos_lt; exact NR).
        assert (/ 1152921504606846976 <= / Rabs (rnd (IZR d))) by (apply Rinv_le; lra).
        apply Rle_trans with (bpow radix2 (-100)); [apply bpow_le; lia|].
        change (bpow radix2 (-100)) with (/ 1267650600228229401496703205376). nra. }
    rewrite (Rabs_right r) in Er by lra.
    replace (rnd r - IZR q / IZR d) with ((rnd r - r) + (r - IZR q / IZR d)) by ring.
    eapply Rle_trans; [apply Rabs_triang|]. rewrite u53_val in *. lra.
  - intros ->. unfold r. replace (rnd (IZR d) / rnd (IZR d)) with 1 by (field; exact NR).
    apply (rnd_IZR 1). vm_compute. discriminate.
  - intros ->. unfold r. rewrite rnd_0. unfold Rdiv. rewrite Rmult_0_l. apply rnd_0.
Qed.

(** scaling a difference of coordinates by such a quotient *)
Lemma scale1_ratio n q d : (Z.abs n <= 1080000002)%Z ->
  (d <> 0)%Z -> (Z.abs d <= ibound)%Z -> ((0 <= q <= d) \/ (d <= q <= 0))%Z ->
  exists k, scale1 n (fdiv (f_of_Z q) (f_of_Z d)) = Ok k /\
    Rabs (IZR k - IZR n * (IZR q / IZR d)) <= / 2 + / 1048576 /\
    (forall j, IZR n * (IZR q / IZR d) = IZR j -> k = j) /\
    (Z.min 0 n <= k <= Z.max 0 n)%Z.
Proof.
  intros Hn N B S. destruct (fdiv_ratio q d N B S) as (F & R01 & A & _ & _).
  set (v := fdiv (f_of_Z q) (f_of_Z d)) in *. set (x := IZR q / IZR d) in *.
  assert (Hn' : Rabs (IZR n) <= 1080000002) by (rewrite <- abs_IZR; apply IZR_le; exact Hn).
  assert (P1 : Rabs (IZR n * V v) <= 1080000002).
  { rewrite Rabs_mult. rewrite (Rabs_right (V v)) by lra. pose proof (Rabs_pos (IZR n)). nra. }
  assert (i31n : i31 n) by (unfold i31; lia).
  destruct (scale1_total n v i31n F) as (k & Ek); [lra|].
  exists k. split; [exact Ek|].
  assert (Hk : k = Znearest (Zle_bool 0) (rnd (IZR n * V v))).
  { unfold scale1 in Ek. apply f_to_i32_inv in Ek. destruct Ek as (Ff & T & _).
    destruct (f_of_Z_i31 n i31n) as [N1 N2].
    destruct (fmul_correct (f_of_Z n) v N2 F) as [M1 M2]; [rewrite N1; apply small_le_big; lra|].
    rewrite N1 in M1. rewrite (proj1 (fround_correct _)), M1, Ztrunc_IZR in T. congruence. }
  assert (Ev : Rabs (IZR n * V v - IZR n * x) <= 1080000002 * (4 * u53)).
  { rewrite <- Rmult_minus_distr_l, Rabs_mult. pose proof (Rabs_pos (IZR n)).
    apply Rmult_le_compat; try lra; apply Rabs_pos. }
  assert (Er : Rabs (rnd (IZR n * V v) - IZR n * V v) <= 1080000003 * u53).
  { destruct (Rle_or_lt (bpow radix2 (-1022)) (Rabs (IZR n * V v))) as [L|L].
    - eapply Rle_trans; [apply rnd_error; left; exact L|]. rewrite u53_val. lra.
    - assert (Rabs (rnd (IZR n * V v)) <= bpow radix2 (-1022)).
      { unfold rnd. apply abs_round_le_generic; auto with typeclass_instances; [|lra].
        apply generic_format_bpow. vm_compute. discriminate. }
      eapply Rle_trans; [apply Rabs_triang|]. rewrite Rabs_Ropp.
      assert (bpow radix2 (-1022) <= / 1267650600228229401496703205376).
      { change (/ 1267650600228229401496703205376) with (bpow radix2 (-100)). apply bpow_le. lia. }
      rewrite u53_val. lra. }
  assert (E : Rabs (rnd (IZR n * V v) - IZR n * x) <= / 1048576).
  { replace (rnd (IZR n * V v) - IZR n * x) with
      ((rnd (IZR n * V v) - IZR n * V v) + (IZR n * V v - IZR n * x)) by ring.
    eapply Rle_trans; [apply Rabs_triang|]. rewrite u53_val in *. lra. }
  split; [|split].
  - rewrite Hk. pose proof (Znearest_dist (Zle_bool 0) (rnd (IZR n * V v))) as D.
    replace (IZR (Znearest (Zle_bool 0) (rnd (IZR n * V v))) - IZR n * x) with
      ((IZR (Znearest (Zle_bool 0) (rnd (IZR n * V v))) - rnd (IZR n * V v)) + (rnd (IZR n * V v) - IZR n * x)) by ring.
    eapply Rle_trans; [apply Rabs_triang|]. lra.
  - intros j Hj. rewrite Hj in E. rewrite Hk. apply Znearest_imp. lra.
  - assert (Mn : IZR (Z.min 0 n) <= rnd (IZR n * V v) <= IZR (Z.max 0 n)).
    { assert (Q : IZR (Z.min 0 n) <= IZR n * V v <= IZR (Z.max 0 n)).
      { destruct (Z_le_gt_dec 0 n) as [G|G].
        - rewrite Z.min_l, Z.max_r by lia. apply IZR_le in G. split; nra.
        - rewrite Z.min_r, Z.max_l by lia. assert (n <= 0)%Z as G' by lia. apply IZR_le in G'. split; nra. }
      split; [apply rnd_bound_IZR_l|apply rnd_bound_IZR]; try lra;
        change (2^53)%Z with 9007199254740992%Z; lia. }
    rewrite Hk. split.
    + rewrite <- (@Zrnd_IZR (Znearest (Zle_bool 0)) _ (Z.min 0 n)). apply Zrnd_le; auto with typeclass_instances; lra.
    + rewrite <- (@Zrnd_IZR (Znearest (Zle_bool 0)) _ (Z.max 0 n)). apply Zrnd_le; auto with typeclass_instances; lra.
Qed.

Local Open Scope Z_scope.

Definition in_box (s : segment) (r : coord) : Prop :=
  Z.min (lon (e1 s)) (lon (e2 s)) <= lon r <= Z.max (lon (e1 s)) (lon (e2 s)) /\
  Z.min (lat (e1 s)) (lat (e2 s)) <= lat r <= Z.max (lat (e1 s)) (lat (e2 s)).

Lemma in_range_cond_sign s o : in_range_cond s o = true ->
  (0 <= iQx s o <= iD s o) \/ (iD s o <= iQx s o <= 0).
Proof.
  unfold in_range_cond. rewrite negb_true_iff, !orb_false_iff, negb_false_iff.
  rewrite orb_true_iff, !andb_true_iff, !Z.leb_le, !Z.ltb_ge. lia.
Qed.

(** the complete behaviour for non-parallel segments *)
Lemma intersection_nonparallel s o : pgeo_seg s -> pgeo_seg o -> iD s o <> 0 ->
  (in_range_cond s o = false -> intersection_with_segment s o = Ok None) /\
  (in_range_cond s o = true -> exists r, intersection_with_segment s o = Ok (Some r) /\
     let n := vsub (e2 s) (e1 s) in
     (Rabs (IZR (lon r) - (IZR (lon (e1 s)) + IZR (lon n) * (IZR (iQx s o) / IZR (iD s o)))) <= / 2 + / 1048576 /\
      Rabs (IZR (lat r) - (IZR (lat (e1 s)) + IZR (lat n) * (IZR (iQx s o) / IZR (iD s o)))) <= / 2 + / 1048576)%R /\
     (forall j, (IZR (lon (e1 s)) + IZR (lon n) * (IZR (iQx s o) / IZR (iD s o)) = IZR j)%R -> lon r = j) /\
     (forall j, (IZR (lat (e1 s)) + IZR (lat n) * (IZR (iQx s o) / IZR (iD s o)) = IZR j)%R -> lat r = j) /\
     in_box s r).
Proof.
  intros S O N. destruct (intersection_unfold s o S O) as (E & BD & BX & BY).
  rewrite (proj2 (Z.eqb_neq _ _) N) in E. split; intros C; rewrite C in E; [exact E|].
  pose proof (in_range_cond_sign s o C) as Sg.
  destruct S as [[A1 A2] [B1 B2]].
  set (n := vsub (e2 s) (e1 s)) in *.
  destruct (scale1_ratio (lon n) (iQx s o) (iD s o)) as (kx & X1 & X2 & X3 & X4); auto;
    [unfold n, vsub; simpl; lia|].
  destruct (scale1_ratio (lat n) (iQx s o) (iD s o)) as (ky & Y1 & Y2 & Y3 & Y4); auto;
    [unfold n, vsub; simpl; lia|].
  rewrite coord_mul_scale, X1, Y1 in E. cbn [bind] in E.
  assert (Ln : lon n = lon (e2 s) - lon (e1 s)) by reflexivity.
  assert (Tn : lat n = lat (e2 s) - lat (e1 s)) by reflexivity.
  assert (Box : in_box s (mkC (lon (e1 s) + kx) (lat (e1 s) + ky))).
  { clear - X4 Y4 Ln Tn. unfold in_box. cbn [lon lat]. lia. }
  assert (Rng : pgeo (mkC (lon (e1 s) + kx) (lat (e1 s) + ky))).
  { clear - Box A1 A2 B1 B2. unfold in_box, pgeo in *. lia. }
  rewrite coord_add_ok in E by (clear - Rng; cbn [lon lat] in *; ranges; cbn [lon lat] in *; lia).
  cbn [bind lon lat] in E.
  eexists. split; [exact E|]. cbn [lon lat]. split; [|split; [|split]].
  - rewrite !plus_IZR. split.
    + replace (IZR (lon (e1 s)) + IZR kx - (IZR (lon (e1 s)) + IZR (lon n) * (IZR (iQx s o) / IZR (iD s o))))%R
        with (IZR kx - IZR (lon n) * (IZR (iQx s o) / IZR (iD s o)))%R by ring. exact X2.
    + replace (IZR (lat (e1 s)) + IZR ky - (IZR (lat (e1 s)) + IZR (lat n) * (IZR (iQx s o) / IZR (iD s o))))%R
        with (IZR ky - IZR (lat n) * (IZR (iQx s o) / IZR (iD s o)))%R by ring. exact Y2.
  - intros j Hj. rewrite (X3 (j - lon (e1 s))); [clear; lia|]. rewrite minus_IZR. lra.
  - intros j Hj. rewrite (Y3 (j - lat (e1 s))); [clear; lia|]. rewrite minus_IZR. lra.
  - exact Box.
Qed.

Lemma iD_sym s o : iD o s = - iD s o.
Proof. unfold iD, vsub. cbn [lon lat]. ring. Qed.

Lemma nonparallel_iD s o : nonparallel s o <-> iD s o <> 0.
Proof. unfold nonparallel. rewrite iD_det. lia. Qed.

Lemma segments_meet_sym s o : segments_meet s o <-> segments_meet o s.
Proof.
  split; intros (q & t & u & Q & T & U & A & B); exists q, u, t; auto.
Qed.
Lemma segments_meet_flip s o : segments_meet (flip s) o <-> segments_meet s o.
Proof.
  split; intros (q & t & u & Q & T & U & A & B); exists q, (q - t), u; unfold flip in *; cbn [e1 e2] in *;
    repeat split; try lia.
Qed.

Lemma intersection_detection s o : pgeo_seg s -> pgeo_seg o -> nonparallel s o ->
  exists r, intersection_with_segment s o = Ok r /\ (r <> None <-> segments_meet s o).
Proof.
  intros S O N. apply nonparallel_iD in N. destruct (intersection_nonparallel s o S O N) as [F T].
  pose proof (in_range_cond_iff s o N) as I.
  destruct (in_range_cond s o).
  - destruct (T eq_refl) as (r & E & _). exists (Some r). split; [exact E|]. split; [tauto|congruence].
  - exists None. split; [auto|]. split; [congruence|]. intros H. apply I in H. discriminate.
Qed.

Definition found (r : res (option coord)) : option bool :=
  match r with Ok (Some _) => Some true | Ok None => Some false | _ => None end.

Lemma found_meet s o : pgeo_seg s -> pgeo_seg o -> nonparallel s o ->
  (found (intersection_with_segment s o) = Some true /\ segments_meet s o) \/
  (found (intersection_with_segment s o) = Some false /\ ~ segments_meet s o).
Proof.
  intros S O N. destruct (intersection_detection s o S O N) as (r & E & H). rewrite E.
  destruct r; simpl; [left|right]; (split; [reflexivity|]); [apply H; congruence|].
  intros M. apply H in M. congruence.
Qed.

Lemma pgeo_flip s : pgeo_seg s -> pgeo_seg (flip s).
Proof. unfold pgeo_seg, flip. simpl. tauto. Qed.
Lemma nonparallel_sym s o : nonparallel s o -> nonparallel o s.
Proof. rewrite !nonparallel_iD, iD_sym. lia. Qed.
Lemma nonparallel_flip s o : nonparallel s o -> nonparallel (flip s) o.
Proof. unfold nonparallel, seg_det, flip. simpl. lia. Qed.

Lemma intersection_order_free s o : pgeo_seg s -> pgeo_seg o -> nonparallel s o ->
  let f := found (intersection_with_segment s o) in
  found (intersection_with_segment o s) = f /\
  found (intersection_with_segment (flip s) o) = f /\
  found (intersection_with_segment s (flip o)) = f.
Proof.
  intros S O N f. unfold f.
  assert (A := found_meet s o S O N).
  assert (B := found_meet o s O S (nonparallel_sym _ _ N)).
  assert (C := found_meet (flip s) o (pgeo_flip _ S) O (nonparallel_flip _ _ N)).
  assert (D := found_meet s (flip o) S (pgeo_flip _ O)
     (nonparallel_sym _ _ (nonparallel_flip _ _ (nonparallel_sym _ _ N)))).
  rewrite (segments_meet_sym o s) in B. rewrite segments_meet_flip in C.
  rewrite (segments_meet_sym s (flip o)), segments_meet_flip, (segments_meet_sym o s) in D.
  destruct A as [[-> M]|[-> M]], B as [[-> M1]|[-> M1]], C as [[-> M2]|[-> M2]], D as [[-> M3]|[-> M3]]; tauto.
Qed.

Lemma intersection_accuracy s o r : pgeo_seg s -> pgeo_seg o -> nonparallel s o ->
  intersection_with_segment s o = Ok (Some r) ->
  exists x y, on_real s x y /\ on_real o x y /\
    (forall x' y', on_real s x' y' -> on_real o x' y' -> x' = x /\ y' = y) /\
    (Rabs (IZR (lon r) - x) <= / 2 + / 1048576)%R /\ (Rabs (IZR (lat r) - y) <= / 2 + / 1048576)%R /\
    (forall j, x = IZR j -> lon r = j) /\ (forall j, y = IZR j -> lat r = j) /\ in_box s r.
Proof.
  intros S O N E. apply nonparallel_iD in N. destruct (intersection_nonparallel s o S O N) as [F T].
  pose proof (in_range_cond_iff s o N) as I.
  destruct (in_range_cond s o) eqn:C; [|rewrite F in E by reflexivity; discriminate].
  destruct (T eq_refl) as (r' & E' & A1 & A2 & A3 & Box). rewrite E in E'. inversion E'; subst r'. clear E' T F.
  set (tt := (IZR (iQx s o) / IZR (iD s o))%R) in *.
  set (uu := (IZR (iQy s o) / IZR (iD s o))%R).
  assert (ND : IZR (iD s o) <> 0%R) by (apply IZR_nz; exact N).
  unfold vsub in *. cbn [lon lat] in *. rewrite !minus_IZR in *.
  exists (IZR (lon (e1 s)) + (IZR (lon (e2 s)) - IZR (lon (e1 s))) * tt)%R,
         (IZR (lat (e1 s)) + (IZR (lat (e2 s)) - IZR (lat (e1 s))) * tt)%R.
  assert (R01 : forall q, (0 <= q <= iD s o) \/ (iD s o <= q <= 0) -> (0 <= IZR q / IZR (iD s o) <= 1)%R).
  { intros q [H|H].
    - assert (0 < iD s o) by lia. apply IZR_lt in H0. destruct H as [H1 H2]. apply IZR_le in H1. apply IZR_le in H2.
      split.
      + apply Rmult_le_pos; [lra|]. left. apply Rinv_0_lt_compat. lra.
      + apply (Rmult_le_reg_r (IZR (iD s o))); [lra|]. unfold Rdiv. rewrite Rmult_assoc, Rinv_l by lra. lra.
    - assert (iD s o < 0) by lia. apply IZR_lt in H0. destruct H as [H1 H2]. apply IZR_le in H1. apply IZR_le in H2.
      replace (IZR q / IZR (iD s o))%R with ((- IZR q) / (- IZR (iD s o)))%R by (field; exact ND). split.
      + apply Rmult_le_pos; [lra|]. left. apply Rinv_0_lt_compat. lra.
      + apply (Rmult_le_reg_r (- IZR (iD s o))); [lra|]. unfold Rdiv. rewrite Rmult_assoc, Rinv_l by lra. lra. }
  assert (SX : (0 <= iQx s o <= iD s o) \/ (iD s o <= iQx s o <= 0)) by (apply in_range_cond_sign; exact C).
  assert (SY : (0 <= iQy s o <= iD s o) \/ (iD s o <= iQy s o <= 0)).
  { revert C. unfold in_range_cond. rewrite negb_true_iff, !orb_false_iff, negb_false_iff.
    rewrite orb_true_iff, !andb_true_iff, !Z.leb_le, !Z.ltb_ge. lia. }
  assert (KX : (tt * (IZR (lon (e2 s)) - IZR (lon (e1 s))) + uu * (IZR (lon (e1 o)) - IZR (lon (e2 o))) =
               IZR (lon (e1 o)) - IZR (lon (e1 s)))%R).
  { unfold tt, uu. rewrite <- !minus_IZR.
    apply (Rmult_eq_reg_l (IZR (iD s o))); [|exact ND].
    rewrite <- !mult_IZR.
    replace (IZR (iD s o * (lon (e1 o) - lon (e1 s)))) with
      (IZR (iQx s o * (lon (e2 s) - lon (e1 s)) + iQy s o * (lon (e1 o) - lon (e2 o)))).
    - rewrite plus_IZR, !mult_IZR. field. exact ND.
    - f_equal. unfold iD, iQx, iQy, vsub. cbn [lon lat]. ring. }
  assert (KY : (tt * (IZR (lat (e2 s)) - IZR (lat (e1 s))) + uu * (IZR (lat (e1 o)) - IZR (lat (e2 o))) =
               IZR (lat (e1 o)) - IZR (lat (e1 s)))%R).
  { unfold tt, uu. rewrite <- !minus_IZR.
    apply (Rmult_eq_reg_l (IZR (iD s o))); [|exact ND].
    rewrite <- !mult_IZR.
    replace (IZR (iD s o * (lat (e1 o) - lat (e1 s)))) with
      (IZR (iQx s o * (lat (e2 s) - lat (e1 s)) + iQy s o * (lat (e1 o) - lat (e2 o)))).
    - rewrite plus_IZR, !mult_IZR. field. exact ND.
    - f_equal. unfold iD, iQx, iQy, vsub. cbn [lon lat]. ring. }
  split; [|split; [|split; [|split; [|split; [|split; [|split]]]]]].
  - exists tt. split; [apply R01; exact SX|]. split; ring.
  - exists uu. split; [apply R01; exact SY|]. split; lra.
  - intros x' y' (t' & _ & X1 & Y1) (u' & _ & X2 & Y2).
    assert (Tt : (t' * IZR (iD s o) = IZR (iQx s o))%R).
    { unfold iD, iQx, vsub. cbn [lon lat]. rewrite !minus_IZR, !mult_IZR, !minus_IZR.
      assert (Hx : (t' * (IZR (lon (e2 s)) - IZR (lon (e1 s))) =
                   IZR (lon (e1 o)) - IZR (lon (e1 s)) - u' * (IZR (lon (e1 o)) - IZR (lon (e2 o))))%R) by lra.
      assert (Hy : (t' * (IZR (lat (e2 s)) - IZR (lat (e1 s))) =
                   IZR (lat (e1 o)) - IZR (lat (e1 s)) - u' * (IZR (lat (e1 o)) - IZR (lat (e2 o))))%R) by lra.
      transitivity ((t' * (IZR (lon (e2 s)) - IZR (lon (e1 s)))) * (IZR (lat (e1 o)) - IZR (lat (e2 o))) -
                    (t' * (IZR (lat (e2 s)) - IZR (lat (e1 s)))) * (IZR (lon (e1 o)) - IZR (lon (e2 o))))%R; [ring|].
      rewrite Hx, Hy. ring. }
    assert (t' = tt) by (unfold tt; rewrite <- Tt; field; exact ND). subst t'.
    split; [rewrite X1; ring|rewrite Y1; ring].
  - exact (proj1 A1).
  - exact (proj2 A1).
  - exact A2.
  - exact A3.
  - exact Box.
Qed.

(** ** Parallel segments *)
Definition common_endpoint (s o : segment) (r : coord) : Prop :=
  (r = e1 s \/ r = e2 s) /\ (r = e1 o \/ r = e2 o).

Lemma intersection_parallel s o : pgeo_seg s -> pgeo_seg o -> ~ nonparallel s o ->
  exists r, intersection_with_segment s o = Ok r /\
    (forall x, r = Some x -> common_endpoint s o x) /\
    (r = None <-> forall x, ~ common_endpoint s o x).
Proof.
  intros S O N. rewrite nonparallel_iD in N. assert (Z : iD s o = 0) by lia.
  destruct (intersection_unfold s o S O) as (E & _). rewrite Z in E. simpl in E.
  unfold common_endpoint.
  destruct (coord_eqb (e1 s) (e1 o) || coord_eqb (e1 s) (e2 o)) eqn:A.
  - apply orb_true_iff in A. rewrite !coord_eqb_spec in A.
    eexists. split; [exact E|]. split; [intros x H; inversion H; subst; auto|].
    split; [discriminate|]. intros H. exfalso. apply (H (e1 s)). auto.
  - destruct (coord_eqb (e2 s) (e1 o) || coord_eqb (e2 s) (e2 o)) eqn:B.
    + apply orb_true_iff in B. rewrite !coord_eqb_spec in B.
      eexists. split; [exact E|]. split; [intros x H; inversion H; subst; auto|].
      split; [discriminate|]. intros H. exfalso. apply (H (e2 s)). auto.
    + apply orb_false_iff in A. apply orb_false_iff in B. rewrite !coord_eqb_neq in A, B.
      eexists. split; [exact E|]. split; [discriminate|]. split; [|reflexivity].
      intros _ x [[->| ->] H]; intuition congruence.
Qed.

Lemma common_endpoint_shared s o r : common_endpoint s o r ->
  on_closed_segment s r /\ on_closed_segment o r.
Proof.
  assert (H : forall s r, (r = e1 s \/ r = e2 s) -> on_closed_segment s r).
  { intros s' r' [->| ->]; [exists 1, 0|exists 1, 1]; lia. }
  intros [A B]. split; apply H; assumption.
Qed.

(** bounding box keeps the range *)
Lemma in_box_pgeo s r : pgeo_seg s -> in_box s r -> pgeo r.
Proof. intros [[A1 A2] [B1 B2]] [X Y]. unfold pgeo in *. lia. Qed.

(** ** Summaries for the property theorems *)
Lemma point_orientation_facts s p : pgeo_seg s -> pgeo p ->
  exists o, orientation_of_point_to_segment s p = Ok o /\
    (o = CLOCKWISE <-> turn (e1 s) (e2 s) p < 0) /\
    (o = COUNTER_CLOCKWISE <-> 0 < turn (e1 s) (e2 s) p) /\
    (o = COLLINEAR <-> turn (e1 s) (e2 s) p = 0).
Proof.
  intros S P. rewrite orientation_pt_ok by assumption. eexists. split; [reflexivity|].
  apply orientation_of_sign_spec.
Qed.

Lemma point_orientation_shift d s p : pgeo_seg s -> pgeo p ->
  pgeo_seg (mkS (shift d (e1 s)) (shift d (e2 s))) -> pgeo (shift d p) ->
  orientation_of_point_to_segment (mkS (shift d (e1 s)) (shift d (e2 s))) (shift d p) =
  orientation_of_point_to_segment s p.
Proof.
  intros S P S' P'. rewrite !orientation_pt_ok by assumption. cbn [e1 e2]. rewrite turn_shift. reflexivity.
Qed.

Lemma intersection_parallel_full s o : pgeo_seg s -> pgeo_seg o -> ~ nonparallel s o ->
  exists r, intersection_with_segment s o = Ok r /\
    (forall x, r = Some x -> on_closed_segment s x /\ on_closed_segment o x /\ common_endpoint s o x) /\
    (r = None <-> forall x, ~ common_endpoint s o x) /\
    (r <> None -> segments_meet s o).
Proof.
  intros S O N. destruct (intersection_parallel s o S O N) as (r & E & H1 & H2).
  exists r. split; [exact E|]. split; [|split; [exact H2|]].
  - intros x X. apply H1 in X. destruct (common_endpoint_shared s o x X) as [A B]. auto.
  - intros R. destruct r as [x|]; [|congruence].
    destruct (H1 x eq_refl) as [A B].
    destruct A as [A|A], B as [B|B]; [exists 1, 0, 0|exists 1, 0, 1|exists 1, 1, 0|exists 1, 1, 1];
      assert (EE := eq_trans (eq_sym A) B); rewrite EE; lia.
Qed.

Lemma segment_equality :
  (forall a b, segment_eqb a b = true <-> (b = a \/ b = flip a)) /\
  (forall a, segment_eqb a a = true) /\
  (forall a b, segment_eqb a b = segment_eqb b a) /\
  (forall a b c, segment_eqb a b = true -> segment_eqb b c = true -> segment_eqb a c = true).
Proof.
  assert (FF : forall a, flip (flip a) = a) by (intros [x y]; reflexivity).
  split; [exact segment_eqb_iff|]. split; [intros a; apply segment_eqb_iff; auto|]. split.
  - intros a b. apply eq_true_iff_eq. rewrite !segment_eqb_iff.
    split; intros [->| ->]; auto.
  - intros a b c. rewrite !segment_eqb_iff. intros [->| ->] [->| ->]; rewrite ?FF; auto.
Qed.

Lemma adjacent_involution s p :
  (forall q, get_adjacent_to s p = Ok q ->
     (p = e1 s /\ q = e2 s \/ p = e2 s /\ q = e1 s) /\ get_adjacent_to s q = Ok p) /\
  (get_adjacent_to s p = Throw NotAnEndpoint <-> p <> e1 s /\ p <> e2 s) /\
  (forall u, get_adjacent_to s p <> UB u).
Proof.
  destruct (get_adjacent_spec s p) as (A & B & C).
  assert (D : p = e1 s \/ p = e2 s \/ (p <> e1 s /\ p <> e2 s)).
  { destruct (coord_dec p (e1 s)); destruct (coord_dec p (e2 s)); auto. }
  destruct D as [D|[D|[D1 D2]]].
  - rewrite (A D). split; [|split; [split; [discriminate|tauto]|discriminate]].
    intros q Q. inversion Q. subst q. split; [auto|]. rewrite D.
    apply (proj1 (proj2 (get_adjacent_spec s (e2 s)))). reflexivity.
  - rewrite (B D). split; [|split; [split; [discriminate|tauto]|discriminate]].
    intros q Q. inversion Q. subst q. split; [auto|]. rewrite D.
    apply (proj1 (get_adjacent_spec s (e1 s))). reflexivity.
  - rewrite (C D1 D2). split; [discriminate|split; [tauto|discriminate]].
Qed.
