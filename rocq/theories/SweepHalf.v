(** What the half scan considers. *)
From Coq Require Import ZArith Reals Bool List Lia Lra Permutation.
From Flocq Require Import Core.
From Flocq Require Import BinarySingleNaN.
From Verif Require Import Base F64 Coordinate Segment Polygon SpecGeom F64Facts CoordinateFacts PolygonFloat PolylineFacts Graph GraphFacts Visgraph Sweep SweepFacts SweepMaps SweepGen AngleFacts AngleSort.
Import ListNotations.

(** a point on or above the parallel precedes every point below it, whatever the directions *)
Lemma upper_lower atan2 o a b : accurate_atan2 atan2 -> wide o -> wide a -> wide b -> a <> o ->
  (lat o <= lat a)%Z -> (lat b < lat o)%Z -> less_b atan2 o a b = true.
Proof.
  intros T O A B Na Ua Ub. assert (Nb : b <> o) by (intros ->; lia).
  unfold less_b, angle_less. rewrite (proj2 (coord_eqb_neq a o) Na), (proj2 (coord_eqb_neq b o) Nb).
  destruct (from_wide o a O A) as (Ia & Xa & Ya & La). destruct (from_wide o b O B) as (Ib & Xb & Yb & Lb).
  pose proof (from_nonzero o a Na) as Za. pose proof (from_nonzero o b Nb) as Zb.
  rewrite (from_sub o a O A), (from_sub o b O B). cbn [bind].
  destruct (dot_md_total _ _ Ia Ib La Lb) as (z & -> & ->). cbn [bind].
  rewrite vector_orientation_ok by assumption. cbn [bind].
  assert (Ha : (0 <= lat (from o a))%Z) by (unfold from; cbn [lat]; lia).
  assert (Hb : (lat (from o b) < 0)%Z) by (unfold from; cbn [lat]; lia).
  set (u := from o a) in *. set (v := from o b) in *.
  assert (Q : negb (orientation_eqb (orientation_of_sign (det u v)) COLLINEAR) || (dot u v <? 0)%Z = true).
  { destruct (Z.eq_dec (det u v) 0) as [D|D].
    - rewrite D. cbn [orientation_of_sign Z.ltb Z.compare orientation_eqb negb orb]. apply Z.ltb_lt.
      pose proof (dot_nonzero u v Za Zb D). destruct (Z.lt_ge_cases (dot u v) 0) as [P|P]; [exact P|exfalso].
      pose proof (same_direction u v Za Zb D ltac:(lia)) as E. pose proof (angle_upper u Ha). pose proof (angle_lower v Zb Hb). lra.
    - apply orb_true_iff. left. unfold orientation_of_sign. destruct (Z.ltb_spec (det u v) 0); [reflexivity|].
      destruct (Z.ltb_spec 0 (det u v)); [reflexivity|lia]. }
  rewrite Q. destruct (angle_to_horizontal_ok atan2 u T Ia Za) as [Fu Eu]. destruct (angle_to_horizontal_ok atan2 v T Ib Zb) as [Fv Ev].
  apply (proj2 (fltb_iff _ _ Fu Fv)). apply Rabs_le_inv in Eu. apply Rabs_le_inv in Ev. unfold err49 in *.
  pose proof (angle_upper u Ha) as U. pose proof (angle_lower v Zb Hb) as W. pose proof (small_angle v Ib Zb ltac:(lia)) as Sm.
  pose proof (abs_sin_le (angle v - PI)%R) as Sl. 
  replace (sin (angle v - PI)) with (- sin (angle v))%R in Sl.
  2:{ rewrite sin_minus, cos_PI, sin_PI. ring. }
  rewrite Rabs_Ropp, (Rabs_pos_eq (angle v - PI)%R) in Sl by lra. lra.
Qed.

Local Open Scope Z_scope.
Lemma nodup_left {A} (l l' : list A) : NoDup (l ++ l') -> NoDup l.
Proof.
  induction l as [|x l IH]; cbn [app]; intros H; [constructor|]. inversion H; subst. constructor; [|auto].
  intros X. apply H2. apply in_or_app. left. exact X.
Qed.
Lemma scanned_ahead init o : forall vs v, In v (scanned init o true vs) -> ahead init o true v = true.
Proof.
  induction vs as [|w vs IH]; intros v V; [destruct V|]. cbn [scanned] in V. destruct (ahead init o true w) eqn:E; [|destruct V].
  destruct V as [<-|V]; [exact E|apply IH, V].
Qed.
Lemma scanned_stop init o : forall vs rest, vs = scanned init o true vs ++ rest -> forall w r, rest = w :: r -> ahead init o true w = false.
Proof.
  induction vs as [|x vs IH]; intros rest E w r Er; [subst; discriminate E|]. cbn [scanned] in E.
  destruct (ahead init o true x) eqn:A; [|subst; inversion E; subst; exact A]. inversion E as [E']. exact (IH rest E' w r Er).
Qed.

Theorem half_exact atan2 ord ps o : accurate_atan2 atan2 -> library_orders ord -> pgeo o -> lon o < 540000001 ->
  (forall c, In c (polygon_vertices ps) -> pgeo c) -> swo_on (less_b atan2 o) (polygon_vertices ps) ->
  exists res seen r2 seen2,
    get_visible_vertices atan2 ord (vistree_of_polygons ps) o true = Ok res /\
    get_visible_vertices atan2 ord (vistree_of_polygons ps) o false = Ok (res ++ r2) /\
    Forall2 reports_as seen res /\ Forall2 reports_as seen2 r2 /\ NoDup seen /\
    (forall v, In v seen -> In v (polygon_vertices ps) /\ v <> o /\ lat o <= lat v) /\
    (forall v, In v seen2 -> In v (polygon_vertices ps) /\ v <> o /\ lat v < lat o) /\
    (forall v, In v (polygon_vertices ps) -> v <> o -> lat o <= lat v -> In v seen \/ blocked_vertex ps o v).
Proof.
  intros T L O Lo G W. destruct (get_visible_ok atan2 ord ps o true L O G) as (res & seen & R & Nd & Iv & S & No & F & H).
  destruct (half_is_prefix atan2 ord ps o res L O G R) as (r2 & rest & seen2 & R2 & Sp & S2 & No2 & F2).
  set (vs := visit_order atan2 ord ps o) in *.
  assert (Sb : sorted_by (less_b atan2 o) vs).
  { unfold vs, visit_order. set (ks := o_vertices ord (map fst (incident_map ps))).
    assert (Ik : forall c, In c ks <-> In c (polygon_vertices ps)).
    { intros c. rewrite <- Iv. unfold vs, visit_order. fold ks. split; apply Permutation_in; [apply Permutation_sym|]; apply (proj1 (proj2 (proj2 L))). }
    apply (proj2 (proj2 (proj2 L))).
    - eapply Permutation_NoDup; [apply (proj1 (proj2 (proj2 L)))|exact Nd].
    - destruct W as (W1 & W2 & W3). split; [|split].
      + intros a b A B. apply W1; apply Ik; assumption.
      + intros a b c A B C. apply W2; apply Ik; assumption.
      + intros a b c A B C. apply W3; apply Ik; assumption. }
  assert (Low : forall v, In v rest -> lat v < lat o /\ v <> o).
  { intros v V. destruct rest as [|w r]; [destruct V|]. pose proof (scanned_stop _ _ _ _ Sp w r eq_refl) as A.
    assert (Aw : lat w < lat o).
    { destruct (Z.lt_ge_cases (lat w) (lat o)) as [X|X]; [exact X|exfalso]. apply (proj2 (ahead_lat o w Lo)) in X. congruence. }
    assert (Nv : lat v < lat o); [|split; [exact Nv|intros ->; lia]].
    destruct V as [<-|V]; [exact Aw|]. apply in_split in V. destruct V as (l2 & l3 & ->).
    specialize (Sb (scanned (init_vec o) o true vs) w l2 v l3 Sp).
    destruct (Z.lt_ge_cases (lat v) (lat o)) as [X|X]; [exact X|exfalso].
    assert (Iw : In w (polygon_vertices ps)) by (apply Iv; rewrite Sp; apply in_or_app; right; left; reflexivity).
    assert (Ivv : In v (polygon_vertices ps)) by (apply Iv; rewrite Sp; apply in_or_app; right; right; apply in_or_app; right; left; reflexivity).
    destruct (coord_eq_dec v o) as [-> | Nv]; [rewrite less_o in Sb; discriminate Sb|].
    rewrite (upper_lower atan2 o v w T (pgeo_wide _ O) (pgeo_wide _ (G v Ivv)) (pgeo_wide _ (G w Iw)) Nv X Aw) in Sb. discriminate Sb. }
  assert (Sub : forall (l l' : list coord), subseq l l' -> forall x, In x l -> In x l').
  { induction 1; intros y Y; [destruct Y|destruct Y; [left|right]; auto|right; auto]. }
  assert (Is : forall v, In v (scanned (init_vec o) o true vs) -> In v (polygon_vertices ps) /\ lat o <= lat v).
  { intros v V. split; [apply Iv; rewrite Sp; apply in_or_app; left; exact V|]. apply (ahead_lat o v Lo). apply (scanned_ahead _ _ _ _ V). }
  exists res, seen, r2, seen2. split; [exact R|]. split; [exact R2|]. split; [exact F|]. split; [exact F2|].
  split.
  { rewrite Sp in Nd. apply nodup_left in Nd. clear - Nd S. induction S as [|x l l' S IH|x l l' S IH]; [constructor| |].
    - inversion Nd; subst. constructor; [|auto]. intros X. apply H1. clear - S X. induction S; [destruct X|destruct X; [left|right]; auto|right; auto].
    - inversion Nd; auto. }
  split; [|split].
  - intros v V. destruct (Is v (Sub _ _ S v V)). repeat split; try assumption. intros ->. contradiction.
  - intros v V. apply (Sub _ _ S2) in V. destruct (Low v V). split; [apply Iv; rewrite Sp; apply in_or_app; right; exact V|]. split; assumption.
  - intros v V Nv Lv. apply H; [|exact Nv]. apply Iv in V. rewrite Sp in V. apply in_app_or in V. destruct V as [V|V]; [exact V|].
    destruct (Low v V). lia.
Qed.
