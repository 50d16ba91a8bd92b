(** Facts about the longitude periodicity helpers. *)
From Coq Require Import ZArith Bool List Lia ZifyBool.
From Verif Require Import Base F64 Coordinate Segment Polygon Periodicity.
Import ListNotations.
Local Open Scope Z_scope.

Ltac consts := unfold MAX_LONGITUDE, MIN_LONGITUDE, LONGITUDE_PERIOD, INT32_MIN, INT32_MAX,
  MAX_PERIODIC_LONGITUDE in *.

(** Longitudes that denote the same meridian. *)
Definition congruent_lon (x y : Z) : Prop := exists k, y = x + k * 360000001.

Lemma loop_down_spec f : forall x, INT32_MIN <= x -> x <= 180000000 + Z.of_nat f * 360000001 ->
  x <= INT32_MAX ->
  exists k, 0 <= k /\ loop_down (S f) x = Some (Ok (x - k * 360000001)) /\
    (x <= 180000000 -> k = 0) /\ (180000000 < x -> -180000000 <= x - k * 360000001 <= 180000000).
Proof.
  induction f as [|f IH]; intros x Hl Hu Hm.
  - exists 0. simpl. consts. rewrite (proj2 (Z.ltb_ge _ _)) by lia.
    repeat split; try lia. do 2 f_equal; lia.
  - change (loop_down (S (S f)) x) with
      (if MAX_LONGITUDE <? x then
         match i32 (x - LONGITUDE_PERIOD) with
         | Ok y => loop_down (S f) y | Throw e => Some (Throw e) | UB u => Some (UB u) end
       else Some (Ok x)).
    destruct (MAX_LONGITUDE <? x) eqn:E; consts.
    + apply Z.ltb_lt in E. rewrite i32_ok by (consts; lia).
      destruct (IH (x - 360000001)) as (k & K0 & K1 & K2 & K3); [lia|lia|lia|].
      exists (k + 1). rewrite K1. repeat split; try lia.
      do 2 f_equal; lia.
    + apply Z.ltb_ge in E. exists 0. repeat split; try lia. do 2 f_equal; lia.
Qed.

Lemma loop_up_spec f : forall x, x <= INT32_MAX -> -180000000 - Z.of_nat f * 360000001 <= x ->
  INT32_MIN <= x ->
  exists k, 0 <= k /\ loop_up (S f) x = Some (Ok (x + k * 360000001)) /\
    (-180000000 <= x -> k = 0) /\ (x < -180000000 -> -180000000 <= x + k * 360000001 <= 180000000).
Proof.
  induction f as [|f IH]; intros x Hl Hu Hm.
  - exists 0. simpl. consts. rewrite (proj2 (Z.ltb_ge _ _)) by lia.
    repeat split; try lia. do 2 f_equal; lia.
  - change (loop_up (S (S f)) x) with
      (if x <? MIN_LONGITUDE then
         match i32 (x + LONGITUDE_PERIOD) with
         | Ok y => loop_up (S f) y | Throw e => Some (Throw e) | UB u => Some (UB u) end
       else Some (Ok x)).
    destruct (x <? MIN_LONGITUDE) eqn:E; consts.
    + apply Z.ltb_lt in E. rewrite i32_ok by (consts; lia).
      destruct (IH (x + 360000001)) as (k & K0 & K1 & K2 & K3); [lia|lia|lia|].
      exists (k + 1). rewrite K1. repeat split; try lia.
      do 2 f_equal; lia.
    + apply Z.ltb_ge in E. exists 0. repeat split; try lia. do 2 f_equal; lia.
Qed.

Lemma congruent_range_unique x y :
  congruent_lon x y -> -180000000 <= x <= 180000000 -> -180000000 <= y <= 180000000 -> x = y.
Proof. intros (k & ->) Hx Hy. assert (k = 0) by lia. subst. lia. Qed.

Lemma normalize_coord_ok c : INT32_MIN <= lon c <= INT32_MAX ->
  exists x, normalize_coord c = Ok (mkC x (lat c)) /\ -180000000 <= x <= 180000000 /\
    congruent_lon (lon c) x.
Proof.
  intros H. unfold normalize_coord.
  change periodicity_fuel with (S 7).
  destruct (loop_down_spec 7 (lon c)) as (k & K0 & K1 & K2 & K3); try (consts; lia).
  rewrite K1.
  destruct (loop_up_spec 7 (lon c - k * 360000001)) as (k' & L0 & L1 & L2 & L3).
  - consts. lia.
  - consts. destruct (Z_le_gt_dec (lon c) 180000000); [rewrite K2 by lia; lia|lia].
  - consts. destruct (Z_le_gt_dec (lon c) 180000000); [rewrite K2 by lia; lia|lia].
  - rewrite L1. eexists. split; [reflexivity|]. split.
    + destruct (Z_lt_ge_dec (lon c - k * 360000001) (-180000000)); [lia|].
      rewrite L2 by lia. destruct (Z_le_gt_dec (lon c) 180000000); [|lia].
      rewrite (K2 l) in *. lia.
    + exists (k' - k). lia.
Qed.

Lemma normalize_canonical c : coord_i32 c ->
  exists r, normalize_coord c = Ok r /\
    lat r = lat c /\ -180000000 <= lon r <= 180000000 /\ congruent_lon (lon c) (lon r) /\
    (forall r', lat r' = lat c -> -180000000 <= lon r' <= 180000000 ->
       congruent_lon (lon c) (lon r') -> r' = r) /\
    (-180000000 <= lon c <= 180000000 -> r = c).
Proof.
  intros [H1 H2]. destruct (normalize_coord_ok c H1) as (x & E & R & K).
  exists (mkC x (lat c)). split; [exact E|]. simpl. split; [reflexivity|]. split; [exact R|].
  split; [exact K|]. split.
  - intros [a b] Hl Hr Hk. simpl in *. subst b. f_equal.
    apply congruent_range_unique; auto. destruct K as (k & ->), Hk as (k' & ->).
    exists (k - k'). lia.
  - intros Hc. destruct c as [a b]. simpl in *. f_equal. symmetry.
    apply congruent_range_unique; auto.
Qed.

Lemma periodic_coordinates_ok c : -180000000 <= lon c <= 180000000 ->
  periodic_coordinates c =
    Ok [c; mkC (lon c + 360000001) (lat c); mkC (lon c - 360000001) (lat c)].
Proof.
  intros H. unfold periodic_coordinates. rewrite !i32_ok by (consts; lia). reflexivity.
Qed.

Lemma over_meridian_iff c : over_meridian c = true <-> ~ (-180000000 <= lon c <= 180000000).
Proof. unfold over_meridian. consts. rewrite orb_true_iff, !Z.ltb_lt. lia. Qed.

Lemma normalize_shift c d : -180000000 <= lon c <= 180000000 ->
  (d = 0 \/ d = 360000001 \/ d = -360000001) ->
  normalize_coord (mkC (lon c + d) (lat c)) = Ok c.
Proof.
  intros H D. destruct (normalize_coord_ok (mkC (lon c + d) (lat c))) as (x & E & R & K).
  - simpl. consts. lia.
  - rewrite E. simpl in *. f_equal. destruct c as [a b]; simpl in *. f_equal.
    apply congruent_range_unique; auto. destruct K as (k & ->).
    destruct D as [->|[->| ->]]; [exists (-k)|exists (-k-1)|exists (1-k)]; lia.
Qed.

Lemma copies_come_home c : -180000000 <= lon c <= 180000000 ->
  exists p m, periodic_coordinates c = Ok [c; p; m] /\
    NoDup [c; p; m] /\
    (forall q, In q [c; p; m] -> normalize_coord q = Ok c /\ lat q = lat c) /\
    over_meridian c = false /\ over_meridian p = true /\ over_meridian m = true.
Proof.
  intros H. exists (mkC (lon c + 360000001) (lat c)), (mkC (lon c - 360000001) (lat c)).
  split; [apply periodic_coordinates_ok; exact H|].
  destruct c as [a b]; simpl in *. split; [|split; [|split; [|split]]].
  - repeat constructor; simpl.
    + intros [E|[E|[]]]; inversion E; lia.
    + intros [E|[]]; inversion E; lia.
    + intros [].
  - intros q [<-|[<-|[<-|[]]]]; (split; [|reflexivity]).
    + pose proof (normalize_shift (mkC a b) 0 H ltac:(auto)) as E. simpl in E. rewrite Z.add_0_r in E. exact E.
    + apply (normalize_shift (mkC a b) 360000001 H). auto.
    + pose proof (normalize_shift (mkC a b) (-360000001) H ltac:(auto)) as E. exact E.
  - destruct (over_meridian (mkC a b)) eqn:E; [|reflexivity]. apply over_meridian_iff in E. simpl in E. lia.
  - apply over_meridian_iff. simpl. lia.
  - apply over_meridian_iff. simpl. lia.
Qed.

Lemma over_meridian_moved c : coord_i32 c ->
  (over_meridian c = true <-> normalize_coord c <> Ok c).
Proof.
  intros [H1 H2]. destruct (normalize_coord_ok c H1) as (x & E & R & K).
  rewrite over_meridian_iff, E. split.
  - intros N Eq. inversion Eq. destruct c as [a b]. simpl in *. inversion H0. subst. lia.
  - intros N Hc. apply N. destruct c as [a b]. simpl in *. do 2 f_equal. symmetry.
    apply congruent_range_unique; auto.
Qed.
