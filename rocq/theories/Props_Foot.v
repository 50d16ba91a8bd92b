(** C102 and C103: endpoints moved exactly onto their edge, or to the land side of it.  No code is modelled here. *)
From Verif Require Import Jordan.
From Coq Require Import ZArith Reals Bool List Lia Lra Permutation String.
From Flocq Require Import Core BinarySingleNaN.
From Verif Require Import PyLayer PyFacts Base F64 Coordinate Segment Polyline Polygon Periodicity Graph Visgraph VisgraphFacts SpecGeom SpecGraph F64Facts CoordinateFacts PolylineFacts
  PolygonMore GraphFacts GraphMore Serializer SerializerMore Sweep SweepFacts SweepMaps SweepGen SweepCases AngleFacts AngleSort SweepOpen SweepOrder SweepGeo SweepSound SweepExact SweepGraph SweepHalfGraph SweepLayers SweepWorld SweepForced SweepHashOrder
  ShortestPath DistFacts SearchFacts SearchSpec SearchGraph SearchQuery PathFacts PathMore FreePaths BlockedLegs OpenWater SweepFronts SeaLines SurveyCheck SurveyFast Coasts CoastExact CoastCheck Pipeline PipelineFacts PipelineFree PipelineOpen PipelineSea CoastRun
  Props_Sweep Props_Path Props_Python Props_Pipeline Props_Exact Props_EndToEnd Props_Open Props_OpenRun Props_Sea Ways WayRun Props_Coast Props_Ways LandWays Props_LandWays Around Props_Around Foot.
Import ListNotations.
Local Open Scope Z_scope.

(** C103.  Where an endpoint lies exactly on an edge of the map, and not at an end of it, the sweep keeps that edge as
    the nearest open one in every direction.  Nothing is seen but the vertices in line with the edge, on either
    side of it.  So a path that is searched for leaves such a source, and reaches such a destination, along the line of the
    edge.  For every map with distinct vertices, every atan2, hash order, weighting and tie-break. *)
Theorem C103_seen : forall atan2 ord ps e o half seen x,
  library_orders ord -> (forall c, In c (polygon_vertices ps) -> pgeo c) -> NoDup (polygon_vertices ps) -> ngeo o ->
  polygon_edge ps e -> ashore e o -> aloof ps e o ->
  get_visible_vertices atan2 ord (vistree_of_polygons ps) o half = Ok seen -> In x seen ->
  exists v, In v (polygon_vertices ps) /\ normalize_coord v = Ok (v_coord x) /\ turn (e1 e) (e2 e) v = 0.
Proof. intros atan2 ord ps e o half seen x L G Nd On Pe As Al. exact (ashore_sees ps e o G On Nd Pe As Al atan2 ord half seen x L). Qed.
Print Assumptions C103_seen.
Theorem C103_path : forall atan2 ords en g source destination lc e radius flag fuel path,
  (forall c, library_orders (ords c)) -> en_vis en = endpoint_vis atan2 ords g -> fit_for_queries en g -> NoDup (get_vertices g) ->
  in_the_map source -> in_the_map destination -> correction_of en source destination lc -> searched en lc -> lc_source lc <> lc_dest lc ->
  shortest_path fuel en g source destination radius flag = Some (Ok path) -> polygon_edge (get_polygons g) e ->
  (ashore e (lc_source lc) -> aloof (get_polygons g) e (lc_source lc) ->
    exists v l, path = lc_source lc :: v :: l /\ In v (get_vertices g) /\ turn (e1 e) (e2 e) v = 0) /\
  (ashore e (lc_dest lc) -> aloof (get_polygons g) e (lc_dest lc) ->
    exists v l, path = l ++ [v; lc_dest lc] /\ In v (get_vertices g) /\ turn (e1 e) (e2 e) v = 0).
Proof.
  intros atan2 ords en g source destination lc e radius flag fuel path L Ev Fit Nd Ms Md Cor Se Ne E Pe.
  destruct (query_success en g source destination radius flag Fit Ms Md fuel lc path E Cor Se) as (l & r & -> & J & _).
  assert (K : ngeo (lc_source lc) /\ ngeo (lc_dest lc)).
  { destruct Cor as (ns & nd & E1 & E2 & M1 & M2). destruct (normalize_in_the_map source Ms) as (x & X & Gx). destruct (normalize_in_the_map destination Md) as (y & Y & Gy). rewrite E1 in X. rewrite E2 in Y. injection X as <-. injection Y as <-.
    split; [exact (proj1 (moved_ngeo _ _ _ _ (proj2 (proj2 (proj2 (proj2 Fit)))) Gx M1))|exact (proj1 (moved_ngeo _ _ _ _ (proj2 (proj2 (proj2 (proj2 Fit)))) Gy M2))]. }
  destruct K as [Gs Gd]. split; intros As Al.
  - destruct (leaves_along atan2 ords en g lc e L Ev Fit Nd Gs Gd Pe l r As Al Ne J) as (v & l' & -> & H). eauto.
  - destruct (arrives_along atan2 ords en g lc e L Ev Fit Nd Gs Gd Pe l r As Al Ne J) as (v & l' & H1 & H). eauto.
Qed.
Print Assumptions C103_path.

(** ** A quay *)
(** land in the west with a shore along a meridian, and an island before it *)
Definition quay : polygon := mkP [mkC 0 (-10000000); mkC 0 10000000; mkC (-8000000) 1000000].
Definition buoy : polygon := mkP [mkC 1200000 3; mkC 1600000 (-1050000); mkC 1500000 1100000].
Definition port : list polygon := [quay; buoy].
Definition quay_side : segment := mkS (mkC 0 (-10000000)) (mkC 0 10000000).
Definition town : coord := mkC (-1000000) 50.
Definition berth : coord := mkC 0 50.
Definition port_goal : coord := mkC 3000000 13.
Definition port_bend : coord := mkC 1500000 1200000.
(** [foot] is where the town is moved to *)
Definition port_index (foot : coord) : index :=
  mkI (fun c => coord_eqb c town) (fun _ => Ok quay_side) (fun _ => [quay_side; mkS (mkC 1200000 3) (mkC 1600000 (-1050000))]) (fun _ _ => foot).
Definition port_env (foot : coord) (vis : vis_oracle) : env := mkEnv (port_index foot) vis no_rows (fun _ => first_best f_1).
Definition port_lc (foot : coord) : correction := mkLC foot port_goal (Some quay_side) None.
Definition plain (c : coord) : orders := plain_orders.

(** the environment matters only through what the two endpoints see *)
Lemma port_same fuel foot vis vis' g : handle_land_collisions (port_index foot) town port_goal true = Ok (port_lc foot) -> vis foot = vis' foot -> vis port_goal = vis' port_goal ->
  shortest_path fuel (port_env foot vis) g town port_goal f_max true = shortest_path fuel (port_env foot vis') g town port_goal f_max true.
Proof.
  intros Hl E1 E2. unfold shortest_path. assert (N1 : normalize_coord town = Ok town) by (vm_compute; reflexivity). assert (N2 : normalize_coord port_goal = Ok port_goal) by (vm_compute; reflexivity). rewrite N1, N2. cbn [bind].
  assert (H : forall vis, handle_land_collisions (en_index (port_env foot vis)) town port_goal true = handle_land_collisions (port_index foot) town port_goal true) by reflexivity. rewrite !H. clear H.
  rewrite Hl. cbn [bind].
  replace (create_modified_graph (en_vis (port_env foot vis)) (en_rows (port_env foot vis)) g (port_lc foot)) with (create_modified_graph (en_vis (port_env foot vis')) (en_rows (port_env foot vis')) g (port_lc foot)); [reflexivity|].
  unfold create_modified_graph, port_lc. cbn [lc_source lc_dest lc_source_edge lc_dest_edge port_env en_vis en_rows foldM]. unfold add_endpoint. cbn [fst snd]. rewrite E1, E2. reflexivity.
Qed.
Definition port_graph : res graph := generate (settled (copies_of port) true) port.
Definition through_b (r : option (res (list coord))) (a b c : coord) : bool :=
  match r with Some (Ok [x; y; z]) => coord_eqb x a && coord_eqb y b && coord_eqb z c | _ => false end.
Lemma through_b_ok r a b c : through_b r a b c = true -> r = Some (Ok [a; b; c]).
Proof.
  destruct r as [[[|x [|y [|z [|w l]]]]| |]|]; cbn [through_b]; intros R; try discriminate R. rewrite !andb_true_iff in R. destruct R as [[R1 R2] R3]. apply coord_eqb_spec in R1, R2, R3. rewrite R1, R2, R3. reflexivity.
Qed.
Definition port_run_b (r : res graph) (foot : coord) : bool :=
  match r with
  | Ok g => through_b (shortest_path 12 (port_env foot (settled port false)) g town port_goal f_max true) foot (mkC 0 10000000) port_goal
  | _ => false end.
Lemma port_ran : port_run_b port_graph berth = true /\ port_run_b port_graph (mkC (-1) 50) = true.
Proof. split; vm_compute; reflexivity. Qed.

Lemma port_drawn : drawn port.
Proof. apply drawn_b_ok. vm_compute. reflexivity. Qed.
Lemma port_settled r g foot : r = Ok g -> port_run_b r foot = true ->
  shortest_path 12 (port_env foot (settled port false)) g town port_goal f_max true = Some (Ok [foot; mkC 0 10000000; port_goal]).
Proof. intros -> R. exact (through_b_ok _ _ _ _ R). Qed.
Lemma port_views : forallb (fun v => forced_order_b (copies_of port) v (order_around (copies_of port) v)) (polygon_vertices port) = true.
Proof. vm_compute. reflexivity. Qed.
Lemma port_periodic : make_polygons_periodic port = Ok (copies_of port) /\ incident_map (copies_of port) <> [].
Proof. split; [vm_compute; reflexivity|vm_compute; congruence]. Qed.
Lemma port_same_graph atan2 : accurate_atan2 atan2 -> port_graph = generate (fun v => vis_periodic atan2 (plain v) port v) port.
Proof.
  intros A. unfold port_graph. apply generate_same. intros v V. pose proof (proj1 (forallb_forall _ (polygon_vertices port)) port_views v V) as Cv. cbv beta in Cv.
  destruct port_periodic as [P1 P2]. symmetry. apply settled_periodic; assumption.
Qed.
Lemma port_forced : forced_order_b port berth (order_around port berth) = true /\ forced_order_b port (mkC (-1) 50) (order_around port (mkC (-1) 50)) = true /\
  forced_order_b port port_goal (order_around port port_goal) = true.
Proof. repeat split; vm_compute; reflexivity. Qed.
Lemma port_collisions : handle_land_collisions (port_index berth) town port_goal true = Ok (port_lc berth) /\
  handle_land_collisions (port_index (mkC (-1) 50)) town port_goal true = Ok (port_lc (mkC (-1) 50)).
Proof. split; vm_compute; reflexivity. Qed.
Lemma port_query atan2 foot : accurate_atan2 atan2 -> foot = berth \/ foot = mkC (-1) 50 ->
  exists g, surveyed atan2 plain port g /\ let en := port_env foot (endpoint_vis atan2 plain g) in
    fit_for_queries en g /\ correction_of en town port_goal (port_lc foot) /\ searched en (port_lc foot) /\
    shortest_path 12 en g town port_goal f_max true = Some (Ok [foot; mkC 0 10000000; port_goal]).
Proof.
  intros A F. destruct (survey_b_ok atan2 plain port A (fun _ => plain_orders_ok)) as (g & Su); [intros P HP; repeat (destruct HP as [<-|HP]; [vm_compute; reflexivity|]); destruct HP|vm_compute; reflexivity|].
  exists g. split; [exact Su|]. cbv zeta. pose proof Su as (_ & _ & Cl & _ & _ & Eg). pose proof (fun c => clear_ngeo port c Cl) as Ng.
  pose proof (periodic_reports atan2 plain port (fun _ => plain_orders_ok) Ng) as Rp. destruct (generate_ok port _ Rp) as (g' & E' & Hg). assert (g' = g) by (unfold plain in *; congruence). subst g'.
  assert (Bu : built g) by apply (true_complete port g (surveyed_true _ _ _ _ Su port_drawn)).
  split; [|split; [|split]].
  - split; [exact Bu|]. split; [rewrite (built_vertices _ _ _ Hg); exact Ng|]. split; [intros v l; reflexivity|]. split; [apply endpoint_vis_answers; [exact Bu|rewrite (built_vertices _ _ _ Hg); exact Ng|intros c; exact plain_orders_ok]|].
    intros c _ _. exists quay_side. split; [reflexivity|]. destruct F as [ -> | -> ]; repeat split; vm_compute; congruence.
  - exists town, port_goal. split; [vm_compute; reflexivity|]. split; [vm_compute; reflexivity|]. split; [right; split; [vm_compute; reflexivity|]; exists quay_side; auto|left; split; [vm_compute; reflexivity|auto]].
  - apply searched_iff. exists (mkS (mkC 1200000 3) (mkC 1600000 (-1050000))). split; [right; left; reflexivity|]. intros sh [X|X]; [injection X as <-; vm_compute; reflexivity|discriminate X].
  - rewrite (port_same 12 foot _ (settled port false)).
    + apply (port_settled port_graph); [rewrite (port_same_graph atan2 A); exact Eg|]. destruct F as [ -> | -> ]; [exact (proj1 port_ran)|exact (proj2 port_ran)].
    + destruct F as [ -> | -> ]; [exact (proj1 port_collisions)|exact (proj2 port_collisions)].
    + unfold endpoint_vis. rewrite (built_polys _ _ _ Hg). apply settled_endpoint; [exact A|destruct F as [ -> | -> ]; [exact (proj1 port_forced)|exact (proj1 (proj2 port_forced))]|discriminate].
    + unfold endpoint_vis. rewrite (built_polys _ _ _ Hg). apply settled_endpoint; [exact A|exact (proj2 (proj2 port_forced))|discriminate].
Qed.
Lemma berth_ashore : polygon_edge port quay_side /\ ashore quay_side berth /\ aloof port quay_side berth.
Proof.
  split; [exists quay, 0%nat; split; [left; reflexivity|]; split; [vm_compute; lia|reflexivity]|]. split; [split; [vm_compute; reflexivity|left; vm_compute; split; reflexivity]|]. apply aloof_b_ok. vm_compute. reflexivity.
Qed.
(** the way around the island *)
Lemma port_way : a_way port 100000000 berth port_goal [rp port_bend].
Proof.
  pose proof (sketched_base _ (proj1 port_drawn)) as Sk. split.
  - cbn [app course]. split; [|split; [|exact I]].
    + apply sails_flip. apply (moors_b_ok port quay_side port_bend berth (10000050 / 20000000) Sk (proj1 berth_ashore)); [lra| |vm_compute; reflexivity].
      apply pt_eq; unfold mix, rp, quay_side, berth; cbn [X Y e1 e2 lon lat]; lra.
    + apply sails_flip, sails_b_ok; [exact Sk|vm_compute; reflexivity].
  - intros p H. cbn [app] in H. repeat (destruct H as [<-|H]; [apply far_bound; vm_compute; congruence|]). destruct H.
Qed.
Lemma port_lengths : (run (rp berth) ([rp port_bend] ++ [rp port_goal]) <= 3842000)%R /\
  forall foot, foot = berth \/ foot = mkC (-1) 50 -> (20399950 <= DistFacts.apart foot (mkC 0 10000000) + DistFacts.apart (mkC 0 10000000) port_goal)%R.
Proof.
  split.
  - cbn [app run]. assert (far (rp berth) (rp port_bend) <= 1921000)%R by (apply far_bound; vm_compute; congruence). assert (far (rp port_bend) (rp port_goal) <= 1921000)%R by (apply far_bound; vm_compute; congruence). lra.
  - intros foot F. assert (10400000 <= DistFacts.apart (mkC 0 10000000) port_goal)%R by (apply apart_at_least; vm_compute; congruence).
    assert (9999950 <= DistFacts.apart foot (mkC 0 10000000))%R by (destruct F as [ -> | -> ]; apply apart_at_least; vm_compute; congruence). lra.
Qed.
Lemma port_step : DistFacts.apart (mkC (-1) 50) berth = 1%R.
Proof. unfold DistFacts.apart, Rsqr. cbn [lon lat berth]. replace ((-1 - 0) * (-1 - 0) + (50 - 50) * (50 - 50))%R with 1%R by ring. exact sqrt_1. Qed.
Example C103_ex : forall atan2, accurate_atan2 atan2 -> exists g, let en := port_env berth (endpoint_vis atan2 plain g) in
  (forall c, library_orders (plain c)) /\ fit_for_queries en g /\ NoDup (get_vertices g) /\ in_the_map town /\ in_the_map port_goal /\
  correction_of en town port_goal (port_lc berth) /\ searched en (port_lc berth) /\ lc_source (port_lc berth) <> lc_dest (port_lc berth) /\
  shortest_path 12 en g town port_goal f_max true = Some (Ok [berth; mkC 0 10000000; port_goal]) /\ polygon_edge (get_polygons g) quay_side /\
  ashore quay_side berth /\ aloof (get_polygons g) quay_side berth.
Proof.
  intros atan2 A. destruct (port_query atan2 berth A (or_introl eq_refl)) as (g & Su & Fit & Cor & Se & E). exists g. cbv zeta.
  assert (Ps : get_polygons g = port /\ get_vertices g = polygon_vertices port).
  { pose proof Su as (_ & _ & Cl & _ & _ & Eg). pose proof (periodic_reports atan2 plain port (fun _ => plain_orders_ok) (fun c => clear_ngeo port c Cl)) as Rp. destruct (generate_ok port _ Rp) as (g' & E' & Hg). assert (g' = g) by (unfold plain in *; congruence). subst g'.
    split; [exact (built_polys _ _ _ Hg)|exact (built_vertices _ _ _ Hg)]. }
  destruct Ps as [Ps Vs]. rewrite Ps, Vs. destruct berth_ashore as (B1 & B2 & B3). split; [intros c; exact plain_orders_ok|]. split; [exact Fit|]. split; [apply Su|].
  split; [repeat split; vm_compute; congruence|]. split; [repeat split; vm_compute; congruence|]. split; [exact Cor|]. split; [exact Se|]. split; [discriminate|]. auto.
Qed.

(** C102.  Full statement: with the land correction a path from a moved endpoint is no longer than any way over the water from
    there, or from the shore beside it, apart from twice the distance between the two.  C98 shows it where
    the endpoint falls on the sea side of its edge.  False of the code where it falls exactly on the edge, as on a shore along a meridian: the path
    first follows the shore to the end of the edge.  Here it is five times as long as the way. *)
Theorem C102_onto_refuted : forall atan2, accurate_atan2 atan2 ->
  exists ps g en source destination lc e rho l' fuel v,
    surveyed atan2 plain ps g /\ drawn ps /\ en_vis en = endpoint_vis atan2 plain g /\ fit_for_queries en g /\ correction_of en source destination lc /\ searched en lc /\
    minimal f_1 (en_pick en) /\ reaches f_max rho /\ lc_source_edge lc = Some e /\ polygon_edge ps e /\ ashore e (lc_source lc) /\ aloof ps e (lc_source lc) /\ lc_dest_edge lc = None /\
    shortest_path fuel en g source destination f_max true = Some (Ok [lc_source lc; v; lc_dest lc]) /\
    a_way ps rho (lc_source lc) (lc_dest lc) l' /\ (5 * run (rp (lc_source lc)) (l' ++ [rp (lc_dest lc)]) < DistFacts.apart (lc_source lc) v + DistFacts.apart v (lc_dest lc))%R.
Proof.
  intros atan2 A. destruct (port_query atan2 berth A (or_introl eq_refl)) as (g & Su & Fit & Cor & Se & E). destruct berth_ashore as (B1 & B2 & B3).
  exists port, g, (port_env berth (endpoint_vis atan2 plain g)), town, port_goal, (port_lc berth), quay_side, 100000000%R, [rp port_bend], 12%nat, (mkC 0 10000000).
  split; [exact Su|]. split; [exact port_drawn|]. split; [reflexivity|]. split; [exact Fit|]. split; [exact Cor|]. split; [exact Se|]. split; [apply first_best_minimal|]. split; [exact f_max_reaches|].
  split; [reflexivity|]. split; [exact B1|]. split; [exact B2|]. split; [exact B3|]. split; [reflexivity|]. split; [exact E|]. split; [exact port_way|]. destruct port_lengths as [H1 H2]. specialize (H2 _ (or_introl eq_refl)). cbn [lc_source lc_dest port_lc]. lra.
Qed.
Print Assumptions C102_onto_refuted.
(** and where it falls on the land side of the edge, here by a micro-degree; the way is from the point of the shore beside it *)
Theorem C102_inland_refuted : forall atan2, accurate_atan2 atan2 ->
  exists ps g en source destination lc e rho shore l' fuel v,
    surveyed atan2 plain ps g /\ drawn ps /\ en_vis en = endpoint_vis atan2 plain g /\ fit_for_queries en g /\ correction_of en source destination lc /\ searched en lc /\
    minimal f_1 (en_pick en) /\ reaches f_max rho /\ lc_source_edge lc = Some e /\ polygon_edge ps e /\ ashore e shore /\ DistFacts.apart (lc_source lc) shore = 1%R /\ lc_dest_edge lc = None /\
    shortest_path fuel en g source destination f_max true = Some (Ok [lc_source lc; v; lc_dest lc]) /\
    a_way ps rho shore (lc_dest lc) l' /\ (5 * (run (rp shore) (l' ++ [rp (lc_dest lc)]) + 2 * 1) < DistFacts.apart (lc_source lc) v + DistFacts.apart v (lc_dest lc))%R.
Proof.
  intros atan2 A. destruct (port_query atan2 (mkC (-1) 50) A (or_intror eq_refl)) as (g & Su & Fit & Cor & Se & E). destruct berth_ashore as (B1 & B2 & _).
  exists port, g, (port_env (mkC (-1) 50) (endpoint_vis atan2 plain g)), town, port_goal, (port_lc (mkC (-1) 50)), quay_side, 100000000%R, berth, [rp port_bend], 12%nat, (mkC 0 10000000).
  split; [exact Su|]. split; [exact port_drawn|]. split; [reflexivity|]. split; [exact Fit|]. split; [exact Cor|]. split; [exact Se|]. split; [apply first_best_minimal|]. split; [exact f_max_reaches|].
  split; [reflexivity|]. split; [exact B1|]. split; [exact B2|]. split; [exact port_step|]. split; [reflexivity|]. split; [exact E|]. split; [exact port_way|]. destruct port_lengths as [H1 H2]. specialize (H2 _ (or_intror eq_refl)). cbn [lc_source lc_dest port_lc]. lra.
Qed.
Print Assumptions C102_inland_refuted.
