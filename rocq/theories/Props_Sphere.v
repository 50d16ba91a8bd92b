(** C72, C73: the index works on the sphere, the rest of the program in the plane. *)
From Coq Require Import ZArith Reals Bool List Lia Lra.
From Verif Require Import Base F64 Coordinate Segment Polygon SpecGeom SpecGraph Graph GraphFacts GraphMore PolygonMore Visgraph VisgraphFacts Periodicity
  Sweep SweepFacts SweepMaps SweepGen SweepCases ShortestPath SearchFacts SearchSpec SearchGraph SearchQuery PathFacts PathMore
  SweepGeo SweepExact SweepGraph SweepLayers SweepWorld SweepForced AngleFacts AngleSort SweepOrder Sphere SphereFacts Props_Path SweepHashOrder BlockedLegs.
Import ListNotations.
Local Open Scope Z_scope.

Lemma island_facts : clear_polygon south_island /\ convex 1 south_island /\ through_interior from_west to_east south_island /\
  clear_polygon north_island /\ convex 1 north_island /\ free_line [north_island] from_west to_east /\ (in_the_map from_west /\ in_the_map to_east) /\
  (forall P, P = south_island \/ P = north_island -> forall c, In c (polygon_vertices [P]) -> ngeo c).
Proof.
  assert (Fn : clear_polygon north_island) by (apply fair_b_ok; vm_compute; reflexivity).
  assert (Cn : convex 1 north_island) by (apply convex_b_ok; vm_compute; reflexivity).
  split; [apply fair_b_ok; vm_compute; reflexivity|]. split; [apply convex_b_ok; vm_compute; reflexivity|].
  split; [apply (through_b_ok _ _ _ 2 1); vm_compute; reflexivity|]. split; [exact Fn|]. split; [exact Cn|]. split; [|split].
  - replace to_east with (wrap 0 to_east) by apply wrap_0. apply free_b_ok; [|unfold ngeo; cbn; lia|unfold ngeo; cbn; lia|lia|vm_compute; reflexivity].
    intros P [<-|[]]. split; [exact Fn|]. split; [exact Cn|]. apply nodup_b_ok. vm_compute. reflexivity.
  - split; repeat split; vm_compute; congruence.
  - intros P [-> | ->] c H; vm_compute in H; repeat (destruct H as [<-|H]; [unfold ngeo; cbn [lon lat]; lia|]); destruct H.
Qed.
Lemma not_interior_by P e c : In e (edges_list P) -> left_of e c <= 0 -> ~ in_interior P 1 (lon c) (lat c).
Proof. intros E L I. apply edges_list_ok in E. specialize (I e E). unfold left_of, turn in L. lia. Qed.
(** C72.  False of the code, both ways, for every index that is right on the sphere about the two
    endpoints and the arc between them: over the first island the answer is the straight line
    although it leads through the island; around the second one it is not, although the line is free. *)
Definition right_about_query (ps : list polygon) (ix : index) (s d : coord) : Prop :=
  right_about_arc ps ix (mkS s d) /\ right_about_point ps ix s /\ right_about_point ps ix d.
Theorem C72_straight_refuted : exists s d south north,
  clear_polygon south /\ convex 1 south /\ through_interior s d south /\
  clear_polygon north /\ convex 1 north /\ free_line [north] s d /\
  (forall en g radius flag fuel, fit_for_queries en g -> right_about_query [south] (en_index en) s d ->
     shortest_path fuel en g s d radius flag = Some (Ok [s; d])) /\
  (forall en g radius flag fuel, fit_for_queries en g -> own_sweep en g -> get_polygons g = [north] -> right_about_query [north] (en_index en) s d ->
     shortest_path fuel en g s d radius flag <> Some (Ok [s; d])).
Proof.
  destruct island_facts as (Fs & Cs & Ts & Fn & Cn & Fl & Ms & _).
  exists from_west, to_east, south_island, north_island. do 6 (split; [assumption|]). split.
  - intros en g radius flag fuel Fit ((A & _) & (_ & Ps) & (_ & Pd)).
    apply no_crossing_straight; [vm_compute; reflexivity|vm_compute; reflexivity| | |apply A; intros P e HP HE; exact (south_arc P e HP HE)].
    + apply Ps. intros P HP. apply (south_ends P HP).
    + apply Pd. intros P HP. apply (south_ends P HP).
  - intros en g radius flag fuel Fit Own Pg ((_ & A) & (_ & Ps) & (_ & Pd)).
    assert (Hv : forall c, has_vertex g c = true <-> In c (polygon_vertices [north_island])).
    { intros c. destruct Fit as ((ps & h & Un & G) & _). rewrite (built_polys _ _ _ G) in Pg. rewrite <- Pg. apply (built_has_vertex _ _ _ _ G). }
    assert (Nv : forall c, ~ In c (polygon_vertices [north_island]) -> has_vertex g c = false) by (intros c N; destruct (has_vertex g c) eqn:E; [apply Hv in E; contradiction|reflexivity]).
    apply (crossing_bent en g from_west to_east from_west to_east radius flag Fit Own (proj1 Ms) (proj2 Ms)); [vm_compute; reflexivity|vm_compute; reflexivity| | | | |apply A, north_arc].
    + apply Ps. intros P HP. apply (north_ends P HP).
    + apply Pd. intros P HP. apply (north_ends P HP).
    + apply Nv. intros H. vm_compute in H. repeat (destruct H as [H|H]; [discriminate H|]). exact H.
    + apply Nv. intros H. vm_compute in H. repeat (destruct H as [H|H]; [discriminate H|]). exact H.
Qed.
Print Assumptions C72_straight_refuted.
Lemma same_query2 fuel vis vis' g s d radius flag : normalize_coord s = Ok s -> normalize_coord d = Ok d -> vis s = vis' s -> vis d = vis' d ->
  shortest_path fuel (blocked_env vis) g s d radius flag = shortest_path fuel (blocked_env vis') g s d radius flag.
Proof.
  intros Ns Nd E1 E2. unfold shortest_path. rewrite Ns, Nd. cbn [bind]. unfold handle_land_collisions, correct_endpoint, create_modified_graph, blocked_env, blocking_index.
  cbn [en_index en_vis en_rows en_pick ix_contains orb]. rewrite !andb_false_r. cbn [bind fst snd].
  cbn [lc_source lc_dest lc_source_edge lc_dest_edge foldM]. unfold add_endpoint. cbn [fst snd]. rewrite E1, E2. reflexivity.
Qed.
(** the hypotheses are met: by the graph generated from either island and an index that answers these
    questions as the sphere does.  Around the second island the path then takes a corner. *)
Definition open_index : index := mkI (fun _ => false) (fun c => Ok (mkS c c)) (fun _ => []) (fun _ c => c).
Definition north_graph : res graph := generate (settled (copies_of [north_island]) true) [north_island].
Lemma north_run : (match north_graph with
  | Ok g => match shortest_path 5 (blocked_env (settled [north_island] false)) g from_west to_east f_max true with
            | Some (Ok [a; b; c]) => coord_eqb a from_west && coord_eqb b (mkC 0 45000000) && coord_eqb c to_east | _ => false end
  | _ => false end) = true.
Proof. vm_compute. reflexivity. Qed.
Example C72_ex : forall atan2, accurate_atan2 atan2 ->
  (exists g, let en := mkEnv open_index (endpoint_vis atan2 (fun _ => plain_orders) g) no_rows (fun _ => first_best f_1) in
     generate (fun v => vis_periodic atan2 plain_orders [south_island] v) [south_island] = Ok g /\ fit_for_queries en g /\ right_about_query [south_island] (en_index en) from_west to_east) /\
  (exists g, let en := blocked_env (endpoint_vis atan2 (fun _ => plain_orders) g) in
     generate (fun v => vis_periodic atan2 plain_orders [north_island] v) [north_island] = Ok g /\ fit_for_queries en g /\ own_sweep en g /\ get_polygons g = [north_island] /\
     right_about_query [north_island] (en_index en) from_west to_east /\
     shortest_path 5 en g from_west to_east f_max true = Some (Ok [from_west; mkC 0 45000000; to_east])).
Proof.
  intros atan2 T.
  destruct island_facts as (_ & _ & _ & _ & _ & _ & _ & Gn).
  assert (Q : forall P ix, P = south_island \/ P = north_island -> index_in_range ix -> exists g, generate (fun v => vis_periodic atan2 plain_orders [P] v) [P] = Ok g /\
    fit_for_queries (mkEnv ix (endpoint_vis atan2 (fun _ => plain_orders) g) no_rows (fun _ => first_best f_1)) g /\ get_polygons g = [P] /\
    (forall c, has_vertex g c = true <-> In c (polygon_vertices [P]))).
  { intros P ix HP Ix. pose proof (periodic_reports atan2 (fun _ => plain_orders) [P] (fun _ => plain_orders_ok) (Gn P HP)) as Rp.
    destruct (generate_ok [P] _ Rp) as (g & E & G). exists g. split; [exact E|]. assert (B : built g) by (exists [P]; eexists; split; [|exact G]; eapply Forall_impl; [|apply calls_adds]; intros []; cbn; tauto).
    assert (Gv : forall c, In c (get_vertices g) -> ngeo c) by (intros c C; rewrite (built_vertices _ _ _ G) in C; exact (Gn P HP c C)).
    split; [|split; [apply (built_polys _ _ _ G)|intros c; apply (built_has_vertex _ _ _ _ G)]].
    split; [exact B|]. split; [exact Gv|]. split; [intros v l; reflexivity|]. split; [|exact Ix]. apply endpoint_vis_answers; [exact B|exact Gv|intros c; exact plain_orders_ok]. }
  assert (Out : forall P c, inside_loop P c -> outside_loop P c -> False) by (intros P c I (e & E & N); specialize (I e E); apply (Rlt_asym _ _ I N)).
  split.
  - destruct (Q south_island open_index) as (g & E & Fit & _); [auto|intros c _ X; discriminate X|]. exists g. cbv zeta. split; [exact E|]. split; [exact Fit|]. split; [|split; (split; [|reflexivity])].
    + split; [reflexivity|]. intros (P & e & HP & HE & (a & b & u & v & A & B & U & V & X)). exfalso. apply (south_arc P e HP HE). exists a, b, u, v. repeat split; try exact X; lra.
    + intros (P & HP & I). exfalso. apply (Out P _ I), (south_ends P HP).
    + intros (P & HP & I). exfalso. apply (Out P _ I), (south_ends P HP).
  - destruct (Q north_island blocking_index) as (g & E & Fit & Pg & Hv); [auto|intros c _ X; discriminate X|]. exists g. cbv zeta. split; [exact E|]. split; [exact Fit|].
    split; [exists atan2, (fun _ => plain_orders); split; [intros c; exact plain_orders_ok|reflexivity]|]. split; [exact Pg|]. split.
    + split; [|split; (split; [|reflexivity])].
      * split; [|discriminate]. intros N. exfalso. destruct north_arc as (P & e & HP & HE & (a & b & u & v & A & B & U & V & X)). apply (N P e HP HE). exists a, b, u, v. repeat split; try exact X; lra.
      * intros (P & HP & I). exfalso. apply (Out P _ I), (north_ends P HP).
      * intros (P & HP & I). exfalso. apply (Out P _ I), (north_ends P HP).
    + pose proof north_run as R. unfold north_graph in R.
      assert (Eg : generate (fun v => vis_periodic atan2 plain_orders [north_island] v) [north_island] = generate (settled (copies_of [north_island]) true) [north_island]).
      { apply generate_same. intros v V.
        assert (C : forallb (fun v => forced_order_b (copies_of [north_island]) v (order_around (copies_of [north_island]) v)) (polygon_vertices [north_island]) = true) by (vm_compute; reflexivity).
        pose proof (proj1 (forallb_forall (fun v => forced_order_b (copies_of [north_island]) v (order_around (copies_of [north_island]) v)) _) C v V) as Cv.
        apply settled_periodic; [exact T|vm_compute; reflexivity|exact Cv|vm_compute; congruence]. }
      rewrite <- Eg, E in R. rewrite (same_query2 5 _ (settled [north_island] false)); [|vm_compute; reflexivity|vm_compute; reflexivity| |].
      * destruct (shortest_path 5 _ g from_west to_east f_max true) as [[[|a [|b [|c [|x l]]]]| |]|]; try discriminate R.
        rewrite !andb_true_iff, !coord_eqb_spec in R. destruct R as [[-> ->] ->]. reflexivity.
      * unfold endpoint_vis. rewrite Pg. apply settled_endpoint; [exact T|vm_compute; reflexivity|vm_compute; congruence].
      * unfold endpoint_vis. rewrite Pg. apply settled_endpoint; [exact T|vm_compute; reflexivity|vm_compute; congruence].
Qed.

(** C72 where the index is right in the plane about the line.  Missing: the index the program has
    (false, above), endpoints on land, endpoints that are vertices. *)
Theorem C72_straight_partial : forall en g source destination ns nd radius flag fuel,
  fit_for_queries en g -> own_sweep en g -> in_the_map source -> in_the_map destination ->
  normalize_coord source = Ok ns -> normalize_coord destination = Ok nd ->
  ix_contains (en_index en) ns = false -> ix_contains (en_index en) nd = false -> has_vertex g ns = false -> has_vertex g nd = false ->
  (ix_crossing (en_index en) (mkS ns nd) = [] <-> free_line (get_polygons g) ns nd) ->
  (shortest_path fuel en g source destination radius flag = Some (Ok [ns; nd]) <-> free_line (get_polygons g) ns nd).
Proof.
  intros en g source destination ns nd radius flag fuel Fit Own Ms Md Es Ed Ls Ld Vs Vd H. split.
  - intros E. apply H. destruct (ix_crossing (en_index en) (mkS ns nd)) as [|x l] eqn:X; [reflexivity|exfalso].
    apply (crossing_bent en g source destination ns nd radius flag Fit Own Ms Md Es Ed Ls Ld fuel Vs Vd); [rewrite X; discriminate|exact E].
  - intros F. apply no_crossing_straight; try assumption. apply H, F.
Qed.
Print Assumptions C72_straight_partial.
(** in the north the line is free and the index says so; in the south neither *)
Example C72_partial_ex : forall atan2 : Z -> Z -> f64, exists en g en' g',
  fit_for_queries en g /\ own_sweep en g /\ fit_for_queries en' g' /\ own_sweep en' g' /\ in_the_map from_west /\ in_the_map to_east /\
  normalize_coord from_west = Ok from_west /\ normalize_coord to_east = Ok to_east /\
  ix_contains (en_index en) from_west = false /\ ix_contains (en_index en) to_east = false /\ ix_contains (en_index en') from_west = false /\ ix_contains (en_index en') to_east = false /\
  has_vertex g from_west = false /\ has_vertex g to_east = false /\ has_vertex g' from_west = false /\ has_vertex g' to_east = false /\
  (ix_crossing (en_index en) (mkS from_west to_east) = [] /\ free_line (get_polygons g) from_west to_east) /\
  (ix_crossing (en_index en') (mkS from_west to_east) <> [] /\ ~ free_line (get_polygons g') from_west to_east).
Proof.
  intros atan2. destruct island_facts as (_ & Cs & Ts & _ & _ & Fn & _ & Gn).
  set (g := make_graph [north_island]). set (g' := make_graph [south_island]).
  assert (Fit : forall P ix, P = south_island \/ P = north_island -> index_in_range ix ->
    fit_for_queries (mkEnv ix (endpoint_vis atan2 (fun _ => plain_orders) (make_graph [P])) no_rows (fun _ => first_best f_1)) (make_graph [P])).
  { intros P ix HP Ix. assert (B : built (make_graph [P])) by (exists [P], []; split; [constructor|reflexivity]).
    assert (Gv : forall c, In c (get_vertices (make_graph [P])) -> ngeo c) by (intros c C; apply (Gn P HP); rewrite <- (built_vertices [P] [] (make_graph [P]) eq_refl); exact C).
    split; [exact B|]. split; [exact Gv|]. split; [intros v l; reflexivity|]. split; [|exact Ix]. apply endpoint_vis_answers; [exact B|exact Gv|intros c; exact plain_orders_ok]. }
  exists (mkEnv open_index (endpoint_vis atan2 (fun _ => plain_orders) g) no_rows (fun _ => first_best f_1)), g, (mkEnv blocking_index (endpoint_vis atan2 (fun _ => plain_orders) g') no_rows (fun _ => first_best f_1)), g'.
  split; [apply Fit; [auto|intros c _ X; discriminate X]|]. split; [exists atan2, (fun _ => plain_orders); split; [intros c; exact plain_orders_ok|reflexivity]|].
  split; [apply Fit; [auto|intros c _ X; discriminate X]|]. split; [exists atan2, (fun _ => plain_orders); split; [intros c; exact plain_orders_ok|reflexivity]|].
  split; [repeat split; vm_compute; congruence|]. split; [repeat split; vm_compute; congruence|].
  do 10 (split; [vm_compute; reflexivity|]). split.
  - split; [reflexivity|]. exact Fn.
  - split; [discriminate|]. intros F. apply (F south_island 0 (or_introl eq_refl)). exact Ts.
Qed.

(** C73.  False of the code, both ways, for every index that is right on the sphere about the
    endpoints: a point outside a triangle is rejected as lying on land, and a point inside one is not. *)
Theorem C73_land_refuted : exists c d P Q,
  clear_polygon P /\ convex 1 P /\ ~ in_interior P 1 (lon c) (lat c) /\ ~ in_interior P 1 (lon d) (lat d) /\ clear_polygon Q /\ convex 1 Q /\ in_interior Q 1 (lon c) (lat c) /\
  (forall en g radius fuel, fit_for_queries en g -> right_about_point [P] (en_index en) c -> shortest_path fuel en g c d radius false = Some (Throw OnLand)) /\
  (forall en g radius fuel, fit_for_queries en g -> right_about_point [Q] (en_index en) c -> right_about_point [Q] (en_index en) d ->
     shortest_path fuel en g c d radius false <> Some (Throw OnLand)).
Proof.
  exists north_point, (mkC 0 (-45000000)), southern_triangle, northern_triangle.
  split; [apply fair_b_ok; vm_compute; reflexivity|]. split; [apply convex_b_ok; vm_compute; reflexivity|].
  split; [apply (not_interior_by _ (mkS (mkC 60000000 30000000) (mkC (-60000000) 30000000))); [vm_compute; tauto|vm_compute; congruence]|].
  split; [apply (not_interior_by _ (mkS (mkC (-60000000) 30000000) (mkC 0 0))); [vm_compute; tauto|vm_compute; congruence]|].
  split; [apply fair_b_ok; vm_compute; reflexivity|]. split; [apply convex_b_ok; vm_compute; reflexivity|].
  split; [intros e E; apply edges_list_ok in E; vm_compute in E; repeat (destruct E as [<-|E]; [vm_compute; reflexivity|]); destruct E|].
  assert (M : in_the_map north_point /\ in_the_map (mkC 0 (-45000000))) by (split; repeat split; vm_compute; congruence). destruct M as [M1 M2].
  assert (N : normalize_coord north_point = Ok north_point /\ normalize_coord (mkC 0 (-45000000)) = Ok (mkC 0 (-45000000))) by (split; vm_compute; reflexivity). destruct N as [N1 N2].
  split; intros en g radius fuel Fit.
  - intros [H _]. destruct (query_land en g _ _ radius false Fit M1 M2) as (ns & nd & E1 & E2 & K & _). rewrite N1 in E1. inversion E1; subst ns.
    apply K; [reflexivity|]. rewrite H; [reflexivity|]. exists southern_triangle. split; [left; reflexivity|]. apply inside_southern.
  - intros [_ H] [_ H']. destruct (query_land en g _ _ radius false Fit M1 M2) as (ns & nd & E1 & E2 & _ & K). rewrite N1 in E1. inversion E1; subst ns. rewrite N2 in E2. inversion E2; subst nd.
    destruct K as (s' & d' & es & ed & _ & _ & _ & K); [|apply K]. right. split; [apply H|apply H']; intros P [<-|[]]; [apply outside_northern|apply southern_northern].
Qed.
Print Assumptions C73_land_refuted.
(** the hypotheses are met by graphs of the triangles, and indexes that answer as the sphere does *)
Definition dry_index : index := mkI (fun _ => true) (fun c => Ok (mkS c c)) (fun _ => []) (fun _ c => c).
Definition lone (ix : index) (P : polygon) : env := mkEnv ix (endpoint_vis (fun _ _ => f_1) (fun _ => plain_orders) (make_graph [P])) no_rows (fun _ => first_best f_1).
Lemma lone_fit ix P : (forall c, In c (polygon_vertices [P]) -> ngeo c) -> index_in_range ix -> fit_for_queries (lone ix P) (make_graph [P]).
Proof.
  intros Gn Ix. assert (B : built (make_graph [P])) by (exists [P], []; split; [constructor|reflexivity]).
  assert (Gv : forall c, In c (get_vertices (make_graph [P])) -> ngeo c) by (intros c C; apply Gn; rewrite <- (built_vertices [P] [] (make_graph [P]) eq_refl); exact C).
  split; [exact B|]. split; [exact Gv|]. split; [intros v l; reflexivity|]. split; [|exact Ix]. apply endpoint_vis_answers; [exact B|exact Gv|intros c; exact plain_orders_ok].
Qed.
Lemma dry_in_range : index_in_range dry_index.
Proof. intros c G _. exists (mkS c c). cbn [e1 e2 dry_index ix_project]. auto. Qed.
Lemma open_in_range : index_in_range open_index.
Proof. intros c _ X. discriminate X. Qed.
Example C73_ex : fit_for_queries (lone dry_index southern_triangle) (make_graph [southern_triangle]) /\ right_about_point [southern_triangle] dry_index north_point /\
  fit_for_queries (lone open_index northern_triangle) (make_graph [northern_triangle]) /\
  right_about_point [northern_triangle] open_index north_point /\ right_about_point [northern_triangle] open_index (mkC 0 (-45000000)).
Proof.
  assert (Out : forall P c, inside_loop P c -> outside_loop P c -> False) by (intros P c I (e & E & N); specialize (I e E); apply (Rlt_asym _ _ I N)).
  split; [apply lone_fit; [|exact dry_in_range]|split; [|split; [apply lone_fit; [|exact open_in_range]|]]].
  - intros c H; vm_compute in H; repeat (destruct H as [<-|H]; [unfold ngeo; cbn [lon lat]; lia|]); destruct H.
  - split; [reflexivity|]. intros H. exfalso. apply (Out southern_triangle north_point inside_southern), H. left. reflexivity.
  - intros c H; vm_compute in H; repeat (destruct H as [<-|H]; [unfold ngeo; cbn [lon lat]; lia|]); destruct H.
  - split; (split; [|reflexivity]); intros (P & [<-|[]] & I); exfalso; [apply (Out _ _ I), outside_northern|apply (Out _ _ I), southern_northern].
Qed.

(** C73 where the index is right in the plane about the endpoints (for a convex polygon, [in_interior]
    is its interior).  Missing: the index the program has (false, above). *)
Theorem C73_land_partial : forall en g source destination ns nd radius fuel,
  fit_for_queries en g -> in_the_map source -> in_the_map destination -> normalize_coord source = Ok ns -> normalize_coord destination = Ok nd ->
  (forall c, c = ns \/ c = nd -> (ix_contains (en_index en) c = true <-> exists P, In P (get_polygons g) /\ in_interior P 1 (lon c) (lat c))) ->
  (shortest_path fuel en g source destination radius false = Some (Throw OnLand) <->
   exists c P, (c = ns \/ c = nd) /\ In P (get_polygons g) /\ in_interior P 1 (lon c) (lat c)) /\
  (forall path, shortest_path fuel en g source destination radius true = Some (Ok path) ->
     (~ exists P, In P (get_polygons g) /\ in_interior P 1 (lon ns) (lat ns)) -> hd_error path = Some ns).
Proof.
  intros en g source destination ns nd radius fuel Fit Ms Md Es Ed H. split.
  - destruct (query_land en g source destination radius false Fit Ms Md) as (ns' & nd' & E1 & E2 & K1 & K2). rewrite Es in E1. inversion E1; subst ns'. rewrite Ed in E2. inversion E2; subst nd'. split.
    + intros E. destruct (ix_contains (en_index en) ns) eqn:Cs.
      * destruct (proj1 (H ns (or_introl eq_refl)) Cs) as (P & HP & I). exists ns, P. auto.
      * destruct (ix_contains (en_index en) nd) eqn:Cd.
        -- destruct (proj1 (H nd (or_intror eq_refl)) Cd) as (P & HP & I). exists nd, P. auto.
        -- destruct K2 as (s' & d' & es & ed & _ & _ & _ & K); [auto|]. elim (proj1 (K fuel) E).
    + intros (c & P & C & HP & I). apply K1; [reflexivity|]. assert (X : ix_contains (en_index en) c = true) by (apply (H c C); exists P; auto).
      destruct C as [-> | ->]; rewrite X; [reflexivity|apply orb_true_r].
  - intros path E N. destruct (query_land en g source destination radius true Fit Ms Md) as (ns' & nd' & E1 & E2 & _ & K). rewrite Es in E1. inversion E1; subst ns'.
    destruct K as (s' & d' & es & ed & M & _ & _ & K); [auto|]. destruct (K fuel) as [_ L]. destruct (L path E) as [L1 _].
    destruct M as [(_ & -> & _)|(C & _)]; [exact L1|]. elim N. apply (H ns (or_introl eq_refl)), C.
Qed.
Print Assumptions C73_land_partial.
(** a point inside the triangle and a point outside *)
Definition one_dry : index := mkI (fun c => coord_eqb c north_point) (fun c => Ok (mkS c c)) (fun _ => []) (fun _ c => c).
Example C73_partial_ex : fit_for_queries (lone one_dry northern_triangle) (make_graph [northern_triangle]) /\
  forall c, c = north_point \/ c = mkC 0 (-45000000) ->
    in_the_map c /\ normalize_coord c = Ok c /\ (ix_contains one_dry c = true <-> exists P, In P (get_polygons (make_graph [northern_triangle])) /\ in_interior P 1 (lon c) (lat c)).
Proof.
  split.
  - apply lone_fit; [intros c H; vm_compute in H; repeat (destruct H as [<-|H]; [unfold ngeo; cbn [lon lat]; lia|]); destruct H|].
    intros c G _. exists (mkS c c). cbn [e1 e2 one_dry ix_project]. auto.
  - intros c [-> | ->]; (split; [repeat split; vm_compute; congruence|]); (split; [vm_compute; reflexivity|]); split; intros X.
    + exists northern_triangle. split; [left; reflexivity|]. intros e E; apply edges_list_ok in E; vm_compute in E; repeat (destruct E as [<-|E]; [vm_compute; reflexivity|]); destruct E.
    + reflexivity.
    + discriminate X.
    + destruct X as (P & [<-|[]] & I). exfalso. revert I. apply (not_interior_by _ (mkS (mkC (-60000000) 30000000) (mkC 60000000 30000000))); [vm_compute; tauto|vm_compute; congruence].
Qed.
