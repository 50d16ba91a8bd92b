(** Endpoints on land are moved to the nearest shore on the sphere. *)
From Coq Require Import ZArith Reals Bool List Lia Lra Psatz.
From Verif Require Import Base F64 Coordinate Segment Polygon SpecGeom SpecGraph Graph GraphFacts GraphMore PolygonMore Visgraph VisgraphFacts Periodicity PeriodicityFacts SegmentFacts
  Sweep SweepFacts SweepMaps SweepGen SweepCases ShortestPath SearchFacts SearchSpec SearchGraph SearchQuery PathFacts PathMore
  SweepGeo SweepExact SweepGraph SweepLayers SweepWorld Sphere SphereFacts.
Import ListNotations.
Local Open Scope R_scope.

(** ** A triangle up to the pole, and a point in it *)
Definition polar_triangle : polygon := mkP [mkC (-60000000) 30000000; mkC 60000000 30000000; mkC 0 90000000].
Definition on_the_ice : coord := mkC 0 60000000.
Definition at_the_equator : coord := mkC 0 0.
Definition southern_shore : segment := mkS (mkC (-60000000) 30000000) (mkC 60000000 30000000).

Lemma at_pole : to_s2_point (mkC 0 90000000) = mkVec 0 0 1.
Proof.
  unfold to_s2_point. cbn [lon lat]. assert (E : radians 90000000 = PI / 2) by (unfold radians; field).
  rewrite E, deg_0, cos_PI2, sin_PI2, sin_0, cos_0. f_equal; ring.
Qed.
Lemma polar_edges e : edge_of polar_triangle e -> e = southern_shore \/ e = mkS (mkC 60000000 30000000) (mkC 0 90000000) \/ e = mkS (mkC 0 90000000) (mkC (-60000000) 30000000).
Proof. intros E. apply edges_in in E. vm_compute in E. destruct E as [<-|[<-|[<-|[]]]]; auto. Qed.
Lemma shore_edge : edge_of polar_triangle southern_shore.
Proof. apply edges_in. left. reflexivity. Qed.

(** the point of the southern shore nearest to [on_the_ice] *)
Definition shore_point : vec := mkVec (sqrt 3 / sqrt 7) 0 (2 / sqrt 7).
Lemma root_7 : 0 < sqrt 7 /\ sqrt 7 * sqrt 7 = 7.
Proof. split; [apply sqrt_lt_R0; lra|apply sqrt_sqrt; lra]. Qed.
Lemma shore_point_on : on_arc southern_shore shore_point.
Proof.
  destruct roots as (_ & _ & P3 & S3 & _). destruct root_7 as [P7 S7]. split.
  - unfold vec_dot, shore_point. cbn [vx vy vz]. replace (sqrt 3 / sqrt 7 * (sqrt 3 / sqrt 7) + 0 * 0 + 2 / sqrt 7 * (2 / sqrt 7)) with ((sqrt 3 * sqrt 3 + 4) / (sqrt 7 * sqrt 7)) by (field; lra).
    rewrite S3, S7. field.
  - exists (2 / sqrt 7), (2 / sqrt 7). assert (0 < 2 / sqrt 7) by (apply Rdiv_lt_0_compat; lra). split; [lra|]. split; [lra|].
    unfold southern_shore, blend, shore_point. cbn [e1 e2]. rewrite at_west, at_east. cbn [vx vy vz]. f_equal; field; lra.
Qed.
Lemma far x r : r * r = / 7 -> 0 < r -> x * x <= 13 / 16 -> x < 3 / 2 * sqrt 3 * r.
Proof.
  intros R P X. destruct roots as (_ & _ & P3 & S3 & _). destruct (Rlt_or_le x (3 / 2 * sqrt 3 * r)) as [L|L]; [exact L|exfalso].
  assert (0 < sqrt 3 * r) by (apply Rmult_lt_0_compat; assumption).
  assert (Q : (sqrt 3 * r) * (sqrt 3 * r) = 3 / 7) by (replace (sqrt 3 * r * (sqrt 3 * r)) with ((sqrt 3 * sqrt 3) * (r * r)) by ring; rewrite S3, R; field).
  set (y := sqrt 3 * r) in *. replace (3 / 2 * sqrt 3 * r) with (3 / 2 * y) in L by (unfold y; ring). nra.
Qed.
Lemma dot_bound s z x : 3 / 4 * (s * s) + z * z = 1 -> x = sqrt 3 * (s / 8 + z / 2) -> x * x <= 13 / 16.
Proof.
  intros U ->. destruct roots as (_ & _ & _ & S3 & _). replace (sqrt 3 * (s / 8 + z / 2) * (sqrt 3 * (s / 8 + z / 2))) with ((sqrt 3 * sqrt 3) * ((s / 8 + z / 2) * (s / 8 + z / 2))) by ring.
  rewrite S3. pose proof (Rle_0_sqr (3 / 4 * s - 1 / 4 * z)) as Q. unfold Rsqr in Q. nra.
Qed.
(** no point of the triangle is nearer, and no other is as near *)
Lemma shore_point_nearest e p : edge_of polar_triangle e -> on_arc e p ->
  vec_dot (to_s2_point on_the_ice) p <= vec_dot (to_s2_point on_the_ice) shore_point /\
  (vec_dot (to_s2_point on_the_ice) shore_point <= vec_dot (to_s2_point on_the_ice) p -> e = southern_shore /\ p = shore_point).
Proof.
  intros E (U & s & t & Ps & Pt & ->). destruct roots as (_ & _ & P3 & S3 & _). destruct root_7 as [P7 S7].
  unfold on_the_ice. rewrite at_0_60. unfold vec_dot in *. set (r := / sqrt 7).
  assert (R : 0 < r /\ r * r = / 7).
  { split; [apply Rinv_0_lt_compat; lra|]. unfold r. rewrite <- Rinv_mult, S7; [reflexivity|..]; lra. }
  assert (Ds : 1 / 2 * vx shore_point + 0 * vy shore_point + sqrt 3 / 2 * vz shore_point = 3 / 2 * sqrt 3 * r) by (unfold shore_point, r; cbn [vx vy vz]; field; lra).
  cbn [vx vy vz] in *. rewrite Ds. destruct R as [Rp R].
  apply polar_edges in E. destruct E as [->|[-> | ->]]; unfold southern_shore in *; cbn [e1 e2] in *; rewrite ?at_west, ?at_east, ?at_pole in *; unfold blend in *; cbn [vx vy vz] in *.
  - set (g := s + t). set (d := t - s).
    assert (U' : 7 * (g * g) + 9 * (d * d) = 16) by (unfold g, d; nra).
    assert (D : 1 / 2 * (s * (sqrt 3 / 4) + t * (sqrt 3 / 4)) + 0 * (s * - (3 / 4) + t * (3 / 4)) + sqrt 3 / 2 * (s * (1 / 2) + t * (1 / 2)) = 3 / 8 * sqrt 3 * g) by (unfold g; field).
    rewrite D. assert (G : 0 <= g) by (unfold g; lra).
    assert (L : g <= 4 * r) by (apply Rnot_lt_le; intros C; nra). split; [nra|]. intros K.
    assert (Eg : g = 4 * r) by (apply Rle_antisym; [exact L|nra]). assert (Ed : d = 0) by (rewrite Eg in U'; nra).
    split; [reflexivity|]. unfold shore_point. assert (Es : s = 2 * r) by (unfold g, d in *; lra). assert (Et : t = 2 * r) by (unfold g, d in *; lra).
    rewrite Es, Et. unfold r. f_equal; field; lra.
  - match goal with |- ?x <= ?y /\ _ => assert (L : x < y); [|split; [lra|intros K; lra]] end. apply far; [exact R|exact Rp|]. apply (dot_bound s (s / 2 + t)); [nra|field].
  - match goal with |- ?x <= ?y /\ _ => assert (L : x < y); [|split; [lra|intros K; lra]] end. apply far; [exact R|exact Rp|]. apply (dot_bound t (t / 2 + s)); [nra|field].
Qed.

Lemma abs_le x y : Rabs x <= y -> - y <= x <= y.
Proof. unfold Rabs. destruct (Rcase_abs x); lra. Qed.
(** where it is on the map *)
Lemma shore_latitude c : rounds_to shore_point c -> lon c = 0%Z /\ (45000000 - 1 <= lat c <= 60000000 + 1)%Z.
Proof.
  intros (phi & theta & (P1 & P2) & (T1 & T2) & E & L1 & L2). unfold shore_point in E. injection E as Ex Ey Ez.
  destruct roots as (P2' & S2 & P3 & S3 & _). destruct root_7 as [P7 S7]. pose proof PI_RGT_0 as Pi.
  assert (X : 0 < cos phi * cos theta) by (rewrite <- Ex; apply Rdiv_lt_0_compat; lra).
  assert (C : 0 <= cos phi) by (apply cos_ge_0; lra).
  assert (C' : 0 < cos phi) by (destruct C as [C|C]; [exact C|rewrite <- C, Rmult_0_l in X; lra]).
  assert (St : sin theta = 0) by (symmetry in Ey; apply Rmult_integral in Ey; destruct Ey as [Ey|Ey]; [lra|exact Ey]). assert (Ct : 0 < cos theta) by nra.
  assert (T : theta = 0).
  { destruct (Rtotal_order theta 0) as [N|[N|N]]; [|exact N|].
    - assert (sin (- theta) > 0 \/ - theta = PI) as [K|K].
      { destruct (Rtotal_order (- theta) PI) as [M|[M|M]]; [left; apply sin_gt_0; lra|right; exact M|lra]. }
      + rewrite sin_neg in K. lra.
      + lra.
    - destruct (Rtotal_order theta PI) as [M|[M|M]]; [|rewrite M, cos_PI in Ct; lra|lra]. pose proof (sin_gt_0 theta N M). lra. }
  assert (R1 : radians 1 = PI / 180000000) by (unfold radians; lra).
  split.
  - rewrite T, Rminus_0_r, R1 in L2. unfold radians in L2. apply abs_le in L2.
    assert (A : -1 < IZR (lon c) < 1) by (split; apply (Rmult_lt_reg_r PI); try lra). destruct A as [A B]. apply lt_IZR in A, B. lia.
  - assert (Sp : sin phi = 2 / sqrt 7) by (symmetry; exact Ez). clear Ez Ex Ey X.
    assert (Lo : sin (PI / 4) < sin phi) by (rewrite Sp, sin_PI4; apply (Rmult_lt_reg_r (sqrt 7)); [lra|]; rewrite inv_sqrt2; field_simplify; [|lra..]; nra).
    assert (Hi : sin phi < sin (PI / 3)) by (rewrite Sp, sin_PI3; apply (Rmult_lt_reg_r (sqrt 7)); [lra|]; field_simplify; [|lra..]; nra).
    apply sin_increasing_0 in Lo; [|lra..]. apply sin_increasing_0 in Hi; [|lra..].
    rewrite R1 in L1. unfold radians in L1. apply abs_le in L1. destruct L1 as [A B].
    assert (H : IZR (45000000 - 1) < IZR (lat c) < IZR (60000000 + 1)) by (rewrite minus_IZR, plus_IZR; split; apply (Rmult_lt_reg_r PI); try lra).
    destruct H as [H1 H2]. apply lt_IZR in H1, H2. lia.
Qed.

(** ** The query from the triangle to the equator *)
Lemma ice_inside : inside_loop polar_triangle on_the_ice.
Proof. intros e E. apply polar_edges in E. destruct E as [->|[-> | ->]]; unfold southern_shore, on_the_ice; cbn [e1 e2]; rewrite ?at_pole; side. Qed.
Lemma equator_outside : outside_loop polar_triangle at_the_equator.
Proof. exists southern_shore. split; [exact shore_edge|]. unfold southern_shore, at_the_equator; cbn [e1 e2]. side. Qed.
Lemma meridian_meets f e : lon f = 0%Z -> (0 < lat f < 90000000)%Z -> edge_of polar_triangle e -> segments_meet (mkS f at_the_equator) e -> e = southern_shore.
Proof.
  intros Lf Bf E (s & t & u & v & Ps & Pt & P1 & Pu & Pv & P2 & B). apply polar_edges in E. destruct E as [->|[-> | ->]]; [reflexivity|exfalso..].
  all: assert (C : 0 < cos (radians (lat f))) by (apply cos_gt_0; unfold radians; pose proof PI_RGT_0; destruct Bf as [B1 B2]; apply IZR_lt in B1, B2; nra).
  all: cbn [e1 e2] in B; unfold at_the_equator in B; rewrite ?at_0_0, ?at_pole, ?at_east, ?at_west in B; unfold to_s2_point in B; rewrite Lf, deg_0, cos_0, sin_0 in B;
    unfold blend in B; cbn [vx vy vz] in B; injection B as Bx By Bz.
  - assert (U : u = 0) by lra. rewrite U in Bx. nra.
  - assert (V : v = 0) by lra. rewrite V in Bx. nra.
Qed.
Lemma foot_inside f : lon f = 0%Z -> (45000000 - 1 <= lat f <= 60000000 + 1)%Z -> in_interior polar_triangle 1 (lon f) (lat f).
Proof. intros L B e E. apply polar_edges in E. rewrite L. destruct E as [->|[-> | ->]]; unfold southern_shore; cbn [e1 e2 lon lat]; lia. Qed.

Lemma ice_query en g radius fuel : fit_for_queries en g ->
  right_about_point [polar_triangle] (en_index en) on_the_ice -> right_about_point [polar_triangle] (en_index en) at_the_equator ->
  right_about_shore [polar_triangle] (en_index en) on_the_ice -> (forall f, only_met_edges [polar_triangle] (en_index en) (mkS f at_the_equator)) ->
  exists f, shortest_path fuel en g on_the_ice at_the_equator radius true = Some (Ok [f; at_the_equator]) /\ in_interior polar_triangle 1 (lon f) (lat f).
Proof.
  intros Fit [Hi _] [_ Ho] (e & P & p & Ec & [<-|[]] & Ee & Op & Near & Rd) Met.
  assert (Ci : ix_contains (en_index en) on_the_ice = true) by (apply Hi; exists polar_triangle; split; [left; reflexivity|exact ice_inside]).
  assert (Co : ix_contains (en_index en) at_the_equator = false) by (apply Ho; intros P [<-|[]]; exact equator_outside).
  destruct (shore_point_nearest e p Ee Op) as [_ K]. destruct K as [-> ->]; [apply (Near polar_triangle southern_shore); [left; reflexivity|exact shore_edge|exact shore_point_on]|].
  destruct (shore_latitude _ Rd) as [Lf Bf]. set (f := ix_project (en_index en) southern_shore on_the_ice) in *. exists f. split; [|exact (foot_inside f Lf Bf)].
  assert (Ms : in_the_map on_the_ice /\ in_the_map at_the_equator) by (split; repeat split; vm_compute; congruence). destruct Ms as [Ms Md].
  destruct (query_cases en g on_the_ice at_the_equator radius true Fit Ms Md) as (ns & nd & En & Ed & _ & _ & K).
  assert (Ens : normalize_coord on_the_ice = Ok on_the_ice) by (vm_compute; reflexivity). assert (End : normalize_coord at_the_equator = Ok at_the_equator) by (vm_compute; reflexivity).
  rewrite Ens in En. rewrite End in Ed. inversion En; inversion Ed; subst ns nd. clear En Ed.
  destruct (handle_land_collisions (en_index en) on_the_ice at_the_equator true) as [lc|x|u]; [|destruct K as (_ & K & _); discriminate K|destruct K].
  destruct K as [(ns & nd & En & Ed & M1 & M2) K]. rewrite Ens in En. rewrite End in Ed. inversion En; inversion Ed; subst ns nd. clear En Ed.
  destruct M1 as [(X & _)|(_ & seg & Es & Fs & Sh)]; [congruence|]. rewrite Ec in Es. injection Es as <-. fold f in Fs.
  destruct M2 as [(_ & Fd & Sd)|(X & _)]; [|congruence].
  destruct K as [[_ Q]|(Oc & _)]; [rewrite Q, Fs, Fd; reflexivity|]. exfalso. apply Oc. unfold other_crossings. rewrite Fs, Fd, Sh, Sd.
  assert (H : forall x, In x (ix_crossing (en_index en) (mkS f at_the_equator)) -> segment_eqb x southern_shore = true).
  { intros x Ix. destruct (Met f x Ix) as (P & [<-|[]] & Ex & Sx). rewrite (meridian_meets f x Lf ltac:(lia) Ex Sx). vm_compute. reflexivity. }
  revert H. generalize (ix_crossing (en_index en) (mkS f at_the_equator)). intros l H. induction l as [|x l IH]; [reflexivity|]. cbn [filter].
  rewrite (H x (or_introl eq_refl)). cbn [negb andb]. apply IH. intros y Iy. apply H. right. exact Iy.
Qed.

(** ** Where the foot point is not on the land side of the edge *)
Lemma journey_leg roads u l t r : journey roads u l t r -> forall pre a b post, u :: l = pre ++ a :: b :: post -> exists f, roads a b f.
Proof.
  induction 1 as [u|u v f l t r R J IH]; intros pre a b post E.
  - destruct pre as [|x [|y pre]]; discriminate E.
  - destruct pre as [|x pre]; [injection E as <- <- _; eauto|]. injection E as _ E. apply (IH pre a b post E).
Qed.
Lemma behind_edge P e a b : edge_of P e -> (left_of e a <= 0)%Z -> (left_of e b <= 0)%Z -> ~ through_interior a b P.
Proof. intros E A B (q & u & U & I). rewrite interior_left in I. specialize (I e E). nia. Qed.
Lemma behind_edge_out P e a : edge_of P e -> (left_of e a <= 0)%Z -> ~ in_interior P 1 (lon a) (lat a).
Proof. intros E A I. specialize (I e E). unfold left_of, turn in A. lia. Qed.

Section Moved.
Variables (en : env) (g : graph) (source destination : coord) (radius : f64) (flag : bool).
Hypotheses (Fit : fit_for_queries en g) (Own : own_sweep en g) (Ms : in_the_map source) (Md : in_the_map destination).

Lemma moved_leg fuel path lc c e P : shortest_path fuel en g source destination radius flag = Some (Ok path) ->
  correction_of en source destination lc -> searched en lc ->
  (c = lc_source lc /\ lc_source_edge lc = Some e) \/ (c = lc_dest lc /\ lc_dest_edge lc = Some e) ->
  edge_of P e -> (left_of e c <= 0)%Z -> has_vertex g c = false ->
  ~ in_interior P 1 (lon c) (lat c) /\
  forall pre a b post, path = pre ++ a :: b :: post -> a = c \/ b = c -> ~ through_interior a b P.
Proof.
  intros E Co Se Hc Ee Lc Nv. split; [exact (behind_edge_out P e c Ee Lc)|]. intros pre a b post Ep Hab.
  destruct (query_path en g source destination radius flag Fit Ms Md fuel path E) as (lc' & Co' & [(N & _)|(_ & l & r & Ep' & Nd & J)]).
  { elim N. rewrite <- (correction_unique _ _ _ _ _ Co Co'). exact Se. }
  rewrite <- (correction_unique _ _ _ _ _ Co Co') in *. clear lc' Co'.
  destruct (search_graph_ok en g source destination lc Fit Ms Md Co) as (Gs & Gd & _).
  assert (Ds : lc_source lc <> lc_dest lc).
  { intros D. rewrite Ep' in Nd, Ep. inversion J as [u|u v f l' t r' R J']; subst.
    - destruct pre as [|x [|y pre]]; discriminate Ep.
    - inversion Nd as [|x xs Nx Nl]; subst. apply Nx. rewrite D. clear - J'. induction J' as [u|u v f l t r R J IH]; [left; reflexivity|right; exact IH]. }
  assert (Ge : ngeo (e1 e) /\ ngeo (e2 e)).
  { destruct Fit as (_ & _ & _ & _ & Ix). destruct Co as (ns & nd & Es & Ed & M1 & M2).
    destruct (normalize_in_the_map _ Ms) as (ns' & Es' & Gns). rewrite Es in Es'. injection Es' as <-. destruct (normalize_in_the_map _ Md) as (nd' & Ed' & Gnd). rewrite Ed in Ed'. injection Ed' as <-.
    destruct Hc as [[_ Hc]|[_ Hc]]; [destruct M1 as [(_ & _ & X)|(L & seg & Ec & _ & X)]|destruct M2 as [(_ & _ & X)|(L & seg & Ec & _ & X)]]; rewrite X in Hc; try discriminate Hc; injection Hc as ->.
    - destruct (Ix ns Gns L) as (seg & Ec' & A & B & _). rewrite Ec in Ec'. injection Ec' as <-. auto.
    - destruct (Ix nd Gnd L) as (seg & Ec' & A & B & _). rewrite Ec in Ec'. injection Ec' as <-. auto. }
  pose proof Fit as (Bg & Gv & _).
  assert (Vx : forall x, In x (get_vertices g) -> has_vertex g x = true).
  { intros x Ix. destruct Bg as (ps & h & Un & G). rewrite (built_vertices _ _ _ G) in Ix. apply (built_has_vertex _ _ _ _ G). exact Ix. }
  assert (Xv : forall x, has_vertex g x = true -> ngeo x).
  { intros x Ix. apply Gv. destruct Bg as (ps & h & Un & G). rewrite (built_vertices _ _ _ G). apply (built_has_vertex _ _ _ _ G). exact Ix. }
  assert (No : forall edge x, ngeo x -> ~ sees (en_vis en) edge x c) by (intros edge x Gx S; pose proof (sees_vertices en g edge x c Bg Gv Own Gx S); congruence).
  assert (Yes : forall w, endpoint_edge g (en_vis en) lc c w -> (left_of e w <= 0)%Z).
  { intros w (_ & S). assert (S' : sees (en_vis en) (Some e) c w).
    { destruct Hc as [[Hc He]|[Hc He]]; destruct S as [[S1 S]|[S1 S]]; try congruence. }
    assert (Gc : ngeo c) by (destruct Hc as [[-> _]|[-> _]]; assumption). pose proof (Xv w (sees_vertices en g _ c w Bg Gv Own Gc S')) as Gw.
    destruct S' as (xs & q & _ & _ & _ & _ & O). destruct (O e eq_refl) as (o & Eo & No').
    rewrite orientation_pt_ok in Eo; [|unfold pgeo_seg, pgeo, ngeo in *; lia..]. injection Eo as <-. unfold left_of.
    destruct (Z_le_gt_dec (turn (e1 e) (e2 e) w) 0) as [L|L]; [exact L|]. elim No'. destruct (turn (e1 e) (e2 e) w); try lia. reflexivity. }
  rewrite Ep' in Ep. destruct (journey_leg _ _ _ _ _ J pre a b post Ep) as (f & R).
  destruct Hab as [-> | ->]; (apply (behind_edge P e); [exact Ee| |]); try exact Lc.
  - destruct R as [R|(_ & [R|R])].
    + destruct (answer_some_in g c b f Bg R) as (_ & I & _). pose proof (Vx _ I). congruence.
    + exact (Yes b R).
    + destruct R as (_ & [[X S]|[X S]]); rewrite X in S; [elim (No _ _ Gs S)|elim (No _ _ Gd S)].
  - destruct R as [R|(_ & [R|R])].
    + destruct (answer_some_in g a c f Bg R) as (_ & _ & I). pose proof (Vx _ I). congruence.
    + destruct R as (_ & [[X S]|[X S]]); rewrite X in S; [elim (No _ _ Gs S)|elim (No _ _ Gd S)].
    + exact (Yes a R).
Qed.
End Moved.
