(** Lines that are free on the sphere and blocked in the plane, and the other way round. *)
From Coq Require Import ZArith Reals Bool List Lia Lra Psatz.
From Verif Require Import Base F64 Coordinate Segment Polygon SpecGeom SpecGraph Graph GraphFacts GraphMore PolygonMore Visgraph VisgraphFacts Periodicity PeriodicityFacts
  Sweep SweepFacts SweepMaps SweepGen SweepCases ShortestPath SearchFacts SearchSpec SearchGraph SearchQuery PathFacts PathMore
  SweepGeo SweepExact SweepGraph SweepLayers SweepWorld Sphere.
Import ListNotations.
Local Open Scope R_scope.

(** ** Points of the sphere *)
Lemma deg_0 : radians 0 = 0. Proof. unfold radians. lra. Qed.
Lemma deg_30 : radians 30000000 = PI / 6. Proof. unfold radians. field. Qed.
Lemma deg_45 : radians 45000000 = PI / 4. Proof. unfold radians. field. Qed.
Lemma deg_60 : radians 60000000 = PI / 3. Proof. unfold radians. field. Qed.
Lemma deg_neg (p : positive) : radians (Zneg p) = - radians (Zpos p).
Proof. unfold radians. change (Zneg p) with (- Zpos p)%Z. rewrite opp_IZR. field. Qed.
Lemma inv_sqrt2 : 1 / sqrt 2 = sqrt 2 / 2.
Proof. assert (H : sqrt 2 * sqrt 2 = 2) by (apply sqrt_sqrt; lra). assert (0 < sqrt 2) by (apply sqrt_lt_R0; lra). apply (Rmult_eq_reg_r (sqrt 2)); [|lra]. field_simplify; [|lra]. nra. Qed.
Ltac on_the_sphere := unfold to_s2_point; cbn [lon lat]; rewrite ?deg_neg, ?cos_neg, ?sin_neg, ?deg_0, ?deg_30, ?deg_45, ?deg_60, ?cos_0, ?sin_0, ?cos_PI6, ?sin_PI6, ?cos_PI4, ?sin_PI4, ?cos_PI3, ?sin_PI3, ?inv_sqrt2;
  f_equal; try field_simplify; try (match goal with |- context [sqrt 2] => pose proof (sqrt_sqrt 2 ltac:(lra)) end); try (match goal with |- context [sqrt 3] => pose proof (sqrt_sqrt 3 ltac:(lra)) end); try lra; try nra.
Lemma at_west : to_s2_point (mkC (-60000000) 30000000) = mkVec (sqrt 3 / 4) (- (3 / 4)) (1 / 2). Proof. on_the_sphere. Qed.
Lemma at_east : to_s2_point (mkC 60000000 30000000) = mkVec (sqrt 3 / 4) (3 / 4) (1 / 2). Proof. on_the_sphere. Qed.
Lemma at_0_45 : to_s2_point (mkC 0 45000000) = mkVec (sqrt 2 / 2) 0 (sqrt 2 / 2). Proof. on_the_sphere. Qed.
Lemma at_30_0 : to_s2_point (mkC 30000000 0) = mkVec (sqrt 3 / 2) (1 / 2) 0. Proof. on_the_sphere. Qed.
Lemma at_neg30_0 : to_s2_point (mkC (-30000000) 0) = mkVec (sqrt 3 / 2) (- (1 / 2)) 0. Proof. on_the_sphere. Qed.
Lemma at_0_60 : to_s2_point (mkC 0 60000000) = mkVec (1 / 2) 0 (sqrt 3 / 2). Proof. on_the_sphere. Qed.
Lemma at_45_45 : to_s2_point (mkC 45000000 45000000) = mkVec (1 / 2) (1 / 2) (sqrt 2 / 2). Proof. on_the_sphere. Qed.
Lemma at_0_neg45 : to_s2_point (mkC 0 (-45000000)) = mkVec (sqrt 2 / 2) 0 (- (sqrt 2 / 2)). Proof. on_the_sphere. Qed.
Lemma at_0_0 : to_s2_point (mkC 0 0) = mkVec 1 0 0. Proof. on_the_sphere. Qed.

(** ** Arcs *)
Lemma one_side a b c d : vec_det a b c < 0 -> vec_det a b d < 0 -> ~ arcs_meet a b c d.
Proof.
  intros C D (s & t & u & v & _ & _ & _ & U & V & P & E). unfold blend in E. injection E as E1 E2 E3. unfold vec_det in C, D.
  set (nx := vy a * vz b - vz a * vy b) in *. set (ny := vz a * vx b - vx a * vz b) in *. set (nz := vx a * vy b - vy a * vx b) in *.
  assert (Z0 : nx * (s * vx a + t * vx b) + ny * (s * vy a + t * vy b) + nz * (s * vz a + t * vz b) = 0) by (unfold nx, ny, nz; ring).
  rewrite E1, E2, E3 in Z0.
  assert (K : u * (nx * vx c + ny * vy c + nz * vz c) + v * (nx * vx d + ny * vy d + nz * vz d) = 0) by (rewrite <- Z0; ring).
  set (x := nx * vx c + ny * vy c + nz * vz c) in *. set (y := nx * vx d + ny * vy d + nz * vz d) in *. clearbody x y. clear - C D U V P K.
  destruct (Rle_lt_or_eq_dec 0 u U) as [L|L]; [nra|]. subst u. nra.
Qed.

(** ** A query from 60 W to 60 E along 30 N, and two islands *)
Definition from_west : coord := mkC (-60000000) 30000000.
Definition to_east : coord := mkC 60000000 30000000.
Definition south_island : polygon := mkP [mkC 0 45000000; mkC (-30000000) 0; mkC 30000000 0].
Definition north_island : polygon := mkP [mkC 0 45000000; mkC 45000000 45000000; mkC 0 60000000].
(** triangles over the same line, and a point north of it *)
Definition southern_triangle : polygon := mkP [mkC 60000000 30000000; mkC (-60000000) 30000000; mkC 0 0].
Definition northern_triangle : polygon := mkP [mkC (-60000000) 30000000; mkC 60000000 30000000; mkC 0 60000000].
Definition north_point : coord := mkC 0 45000000.

Lemma roots : 0 < sqrt 2 /\ sqrt 2 * sqrt 2 = 2 /\ 0 < sqrt 3 /\ sqrt 3 * sqrt 3 = 3 /\ 17 / 10 < sqrt 3 < 18 / 10.
Proof.
  assert (A : 0 < sqrt 2) by (apply sqrt_lt_R0; lra). assert (B : 0 < sqrt 3) by (apply sqrt_lt_R0; lra).
  assert (C : sqrt 2 * sqrt 2 = 2) by (apply sqrt_sqrt; lra). assert (D : sqrt 3 * sqrt 3 = 3) by (apply sqrt_sqrt; lra).
  split; [exact A|]. split; [exact C|]. split; [exact B|]. split; [exact D|]. clear A C.
  split; match goal with |- ?x < ?y => destruct (Rlt_or_le x y) as [L|L]; [exact L|exfalso; nra] end.
Qed.
Ltac side := unfold vec_det, from_west, to_east, north_point; rewrite ?at_west, ?at_east, ?at_0_45, ?at_30_0, ?at_neg30_0, ?at_0_60, ?at_45_45, ?at_0_neg45, ?at_0_0; cbn [vx vy vz];
  destruct roots as (? & ? & ? & ? & ? & ?); nra.
Lemma edges_in P e : edge_of P e <-> In e (edges_list P). Proof. apply edges_list_ok. Qed.

Lemma south_arc P e : In P [south_island] -> edge_of P e -> ~ segments_meet (mkS from_west to_east) e.
Proof.
  intros [<-|[]] E. apply edges_in in E. assert (S : forall v, In v (verts south_island) -> vec_det (to_s2_point from_west) (to_s2_point to_east) (to_s2_point v) < 0).
  { intros v V. repeat (destruct V as [<-|V]; [side|]). destruct V. }
  unfold segments_meet. cbn [e1 e2]. apply one_side; apply S.
  - repeat (destruct E as [<-|E]; [vm_compute; tauto|]). destruct E.
  - repeat (destruct E as [<-|E]; [vm_compute; tauto|]). destruct E.
Qed.
Lemma north_arc : exists P e, In P [north_island] /\ edge_of P e /\ segments_cross (mkS from_west to_east) e.
Proof.
  exists north_island, (mkS (mkC 0 60000000) (mkC 0 45000000)). split; [left; reflexivity|]. split; [apply edges_in; vm_compute; tauto|].
  destruct roots as (A & B & C & D & E & F). exists 1, 1, ((sqrt 3 - 1) / 2), ((sqrt 3 + 1) * sqrt 2 / 4). split; [lra|]. split; [lra|]. split; [lra|]. split; [nra|].
  cbn [e1 e2]. unfold from_west, to_east. rewrite at_west, at_east, at_0_60, at_0_45. unfold blend. cbn [vx vy vz]. f_equal; nra.
Qed.
Lemma outside_by P e c : In e (edges_list P) -> vec_det (to_s2_point (e1 e)) (to_s2_point (e2 e)) (to_s2_point c) < 0 -> outside_loop P c.
Proof. intros I N. exists e. split; [apply edges_in, I|exact N]. Qed.
Lemma south_ends P : In P [south_island] -> outside_loop P from_west /\ outside_loop P to_east.
Proof.
  intros [<-|[]]. split; [apply (outside_by _ (mkS (mkC 0 45000000) (mkC (-30000000) 0)))|apply (outside_by _ (mkS (mkC 30000000 0) (mkC 0 45000000)))];
    try (vm_compute; tauto); cbn [e1 e2]; side.
Qed.
Lemma north_ends P : In P [north_island] -> outside_loop P from_west /\ outside_loop P to_east.
Proof.
  intros [<-|[]]. split; [apply (outside_by _ (mkS (mkC 0 60000000) (mkC 0 45000000)))|apply (outside_by _ (mkS (mkC 0 45000000) (mkC 45000000 45000000)))];
    try (vm_compute; tauto); cbn [e1 e2]; side.
Qed.
Lemma inside_southern : inside_loop southern_triangle north_point.
Proof. intros e E. apply edges_in in E. vm_compute in E. repeat (destruct E as [<-|E]; [cbn [e1 e2]; side|]). destruct E. Qed.
Lemma outside_northern : outside_loop northern_triangle north_point.
Proof. apply (outside_by _ (mkS (mkC (-60000000) 30000000) (mkC 60000000 30000000))); [vm_compute; tauto|]. cbn [e1 e2]. side. Qed.
Lemma southern_northern : outside_loop northern_triangle (mkC 0 (-45000000)).
Proof. apply (outside_by _ (mkS (mkC (-60000000) 30000000) (mkC 60000000 30000000))); [vm_compute; tauto|]. cbn [e1 e2]. side. Qed.

(** ** The straight line as the answer *)
(** the environment sweeps around the endpoints as the program does *)
Definition own_sweep (en : env) (g : graph) : Prop :=
  exists atan2 ords, (forall c, library_orders (ords c)) /\ en_vis en = endpoint_vis atan2 ords g.
Lemma sees_vertices en g edge c v : built g -> (forall x, In x (get_vertices g) -> ngeo x) -> own_sweep en g -> ngeo c ->
  sees (en_vis en) edge c v -> has_vertex g v = true.
Proof.
  intros (ps & h & Un & G) Gv (atan2 & ords & Lo & Ev) Gc (xs & p & E & I & <- & _ & _). rewrite Ev in E. unfold endpoint_vis in E. rewrite (built_polys _ _ _ G) in E. rewrite (built_vertices _ _ _ G) in Gv.
  destruct (sweep_well_formed atan2 (ords c) ps c false (Lo c)) as (res & seen & E' & F2 & _ & _ & Hs & _).
  { unfold ngeo in Gc. unfold pgeo. lia. }
  { intros x X. specialize (Gv x X). unfold ngeo in Gv. unfold pgeo. lia. }
  rewrite E in E'. inversion E'; subst res. destruct (Forall2_in_right _ _ _ _ _ _ F2 I) as (v & Iv & Nv & _). destruct (Hs v Iv) as [Iv' _]. specialize (Gv v Iv').
  destruct (normalize_coord_ok v) as (x & Ex & Bx & k & Kx); [unfold ngeo in Gv; unfold INT32_MIN, INT32_MAX; lia|]. rewrite Nv in Ex. inversion Ex as [Ep].
  assert (Hx : x = lon v) by (unfold ngeo in Gv; lia). apply (built_has_vertex _ _ _ _ G). rewrite Ep, Hx. destruct v as [a b]. cbn [lon lat]. exact Iv'.
Qed.

Lemma first_leg roads u v l t r : journey roads u (v :: l) t r -> exists f, roads u v f.
Proof. intros J. inversion J; subst. eauto. Qed.
Section Straight.
Variables (en : env) (g : graph) (source destination ns nd : coord) (radius : f64) (flag : bool).
Hypotheses (Fit : fit_for_queries en g) (Own : own_sweep en g) (Ms : in_the_map source) (Md : in_the_map destination)
  (Es : normalize_coord source = Ok ns) (Ed : normalize_coord destination = Ok nd)
  (Ls : ix_contains (en_index en) ns = false) (Ld : ix_contains (en_index en) nd = false).
Lemma at_sea : handle_land_collisions (en_index en) ns nd flag = Ok (mkLC ns nd None None).
Proof. unfold handle_land_collisions, correct_endpoint. rewrite Ls, Ld. cbn [orb]. rewrite andb_false_r. reflexivity. Qed.
Lemma no_crossing_straight fuel : ix_crossing (en_index en) (mkS ns nd) = [] -> shortest_path fuel en g source destination radius flag = Some (Ok [ns; nd]).
Proof. intros X. unfold shortest_path. rewrite Es, Ed. cbn [bind]. rewrite at_sea. cbn [bind]. unfold other_crossings. cbn [lc_source lc_dest lc_source_edge lc_dest_edge]. rewrite X. reflexivity. Qed.
Lemma crossing_bent fuel : has_vertex g ns = false -> has_vertex g nd = false ->
  ix_crossing (en_index en) (mkS ns nd) <> [] -> shortest_path fuel en g source destination radius flag <> Some (Ok [ns; nd]).
Proof.
  intros Vs Vd X E. destruct (query_cases en g source destination radius flag Fit Ms Md) as (ns' & nd' & E1 & E2 & Gs & Gd & _).
  rewrite Es in E1. inversion E1; subst ns'. rewrite Ed in E2. inversion E2; subst nd'. clear E1 E2.
  destruct (query_path en g source destination radius flag Fit Ms Md fuel _ E) as (lc & (s & d & E1 & E2 & M1 & M2) & H).
  rewrite Es in E1. inversion E1; subst s. rewrite Ed in E2. inversion E2; subst d.
  destruct M1 as [(_ & A1 & A2)|(B & _)]; [|congruence]. destruct M2 as [(_ & A3 & A4)|(B & _)]; [|congruence].
  destruct H as [(N & _)|(_ & l & r & P & _ & J)].
  - apply N. apply searched_iff. rewrite A1, A2, A3, A4. destruct (ix_crossing (en_index en) (mkS ns nd)) as [|x xs]; [congruence|]. exists x. split; [left; reflexivity|]. intros sh [Y|Y]; discriminate Y.
  - rewrite A1 in P, J. rewrite A3 in J. inversion P; subst l. apply first_leg in J. destruct J as (f & R). destruct Fit as (B & Gv & _).
    destruct R as [R|(_ & [(_ & R)|(_ & R)])].
    + destruct (answer_some_in g ns nd f B R) as (_ & I & _). destruct B as (ps & h & Un & G). rewrite (built_vertices _ _ _ G) in I. apply (built_has_vertex _ _ _ _ G) in I. congruence.
    + assert (has_vertex g nd = true) by (destruct R as [[_ R]|[_ R]]; exact (sees_vertices en g _ ns nd B Gv Own Gs R)). congruence.
    + assert (has_vertex g ns = true) by (destruct R as [[_ R]|[_ R]]; exact (sees_vertices en g _ nd ns B Gv Own Gd R)). congruence.
Qed.
End Straight.
