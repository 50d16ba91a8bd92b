(** C92, C93: on maps of any shape, no edge of the graph and no leg of a path makes landfall. *)
From Coq Require Import ZArith Reals Bool List Lia Lra Permutation String.
From Flocq Require Import Core BinarySingleNaN.
From Verif Require Import PyLayer PyFacts Base F64 Coordinate Segment Polyline Polygon Periodicity Graph Visgraph VisgraphFacts SpecGeom SpecGraph F64Facts CoordinateFacts PolylineFacts
  PolygonMore GraphFacts GraphMore Serializer SerializerMore Sweep SweepFacts SweepMaps SweepGen SweepCases AngleFacts AngleSort SweepOpen SweepOrder SweepGeo SweepSound SweepExact SweepGraph SweepHalfGraph SweepLayers SweepWorld SweepForced SweepHashOrder
  ShortestPath DistFacts SearchFacts SearchSpec SearchGraph SearchQuery PathFacts PathMore FreePaths BlockedLegs OpenWater SweepFronts SeaLines SurveyCheck SurveyFast Pipeline PipelineFacts PipelineFree PipelineOpen PipelineSea
  Props_Sweep Props_Path Props_Python Props_Pipeline Props_Exact Props_EndToEnd Props_Open Props_OpenRun.
Import ListNotations.
Local Open Scope Z_scope.

(** C92.  The sweep from [o] over polygons of any shape reports no vertex to which the line from [o]
    enters land, if one of the edges it enters across ranks before the edges behind the vertex ([in_order]).
    Missing: other maps (false, below). *)
Theorem C92_sweep_partial : forall atan2 ord ps o half, accurate_atan2 atan2 -> library_orders ord -> pgeo o -> lon o < 540000001 ->
  (forall c, In c (polygon_vertices ps) -> pgeo c) -> NoDup (polygon_vertices ps) -> all_separated o (polygon_vertices ps) ->
  (forall P, In P ps -> (3 <= List.length (verts P))%nat) -> off_edges o ps -> roomy ps -> in_order half o ps ->
  exists res seen, get_visible_vertices atan2 ord (vistree_of_polygons ps) o half = Ok res /\ Forall2 reports_as seen res /\
    (forall v, In v seen -> In v (polygon_vertices ps) /\ v <> o /\ (half = true -> lat o <= lat v) /\
      (forall s, polygon_edge ps s -> ~ enters o v s) /\
      (forall p n, corner_of ps p o n -> point_visible (mkPL p o n) v = Ok true)) /\
    (forall v, In v (polygon_vertices ps) -> v <> o -> (half = true -> lat o <= lat v) -> In v seen \/ blocked_vertex ps o v).
Proof. exact sweep_fronts. Qed.
Print Assumptions C92_sweep_partial.
(** every edge of the generated graph is a line, around the world if it is marked as crossing the
    meridian and else direct, which does not enter land on the way from one of its ends *)
Theorem C92_edges_partial : forall atan2 ords ps g, surveyed atan2 ords ps g ->
  forall a b, has_edge g a b = Ok true -> exists k, -1 <= k <= 1 /\ is_edge_meridian_crossing g a b = Ok (negb (k =? 0)) /\ sea_way ps a (wrap k b).
Proof.
  intros atan2 ords ps g Su a b He. pose proof (surveyed_sounded _ _ _ _ Su) as (_ & _ & _ & (qs & h & _ & G) & _ & H).
  assert (Cr : exists f, is_edge_meridian_crossing g a b = Ok f).
  { destruct (grun_queries qs h g G a b) as (Q1 & Q2 & Q3). destruct (coord_dec a b) as [E|N]; [destruct (Q3 E); eauto|].
    destruct (in_dec coord_dec a (polygon_vertices qs)) as [A|A]; [|destruct (Q2 N (or_introl A)); congruence].
    destruct (in_dec coord_dec b (polygon_vertices qs)) as [B|B]; [|destruct (Q2 N (or_intror B)); congruence]. destruct (Q1 N A B); eauto. }
  destruct Cr as (f & Cr). destruct (H a b f) as (_ & _ & _ & k & K & Ef & S); [unfold answer; rewrite He, Cr; reflexivity|]. exists k. split; [exact K|]. split; [congruence|exact S].
Qed.
Print Assumptions C92_edges_partial.
(** what the notion means over convex polygons: the line misses their interior *)
Theorem C92_convex : forall ps o v, (forall P, In P ps -> convex 1 P) -> NoDup (polygon_vertices ps) -> off_edges o ps -> (forall P, In P ps -> ~ in_interior P 1 (lon o) (lat o)) ->
  sea_here ps o v -> forall P, In P ps -> ~ through_interior o v P.
Proof. exact sea_free. Qed.
Print Assumptions C92_convex.
(** and every line through open water (C90) is one *)
Theorem C92_open : forall ps a b, a <> b -> (forall P, In P ps -> (3 <= List.length (verts P))%nat) -> NoDup (polygon_vertices ps) -> open_line ps a b -> sea_line ps a b.
Proof.
  intros ps a b D Le Nd H j. apply open_sea_here; auto. intros E. apply D. apply (f_equal (wrap (- j))) in E. rewrite !wrap_wrap, Z.add_opp_diag_l, !wrap_0 in E. exact E.
Qed.
Print Assumptions C92_open.

Lemma cove_surveyed atan2 ords : accurate_atan2 atan2 -> (forall v, library_orders (ords v)) -> exists g, surveyed atan2 ords cove g.
Proof.
  intros A L. destruct cove_views as (F & N & V & _). pose proof (fun c => clear_ngeo cove c F) as Ng. pose proof (periodic_reports atan2 ords cove L Ng) as R.
  destruct (generate_ok cove _ R) as (g & E & _). exists g. repeat (split; [assumption|]). exact E.
Qed.
(** two islands, one of them a bay: the graph has the edge across the mouth of the bay, and none from
    the head of the bay to the sea outside it *)
Example C92_ex : forall atan2 ords, accurate_atan2 atan2 -> (forall v, library_orders (ords v)) ->
  exists g, surveyed atan2 ords cove g /\ has_edge g (mkC 15000000 19000000) (mkC 4700000 20200000) = Ok true /\
    is_edge_meridian_crossing g (mkC 15000000 19000000) (mkC 4700000 20200000) = Ok false /\
    has_edge g (mkC 5000000 5700000) (mkC 0 0) = Ok false /\ has_edge g (mkC 15100000 5200000) (mkC (-200000) 19900000) = Ok false.
Proof.
  intros atan2 ords A L. destruct (cove_surveyed atan2 ords A L) as (g & Su). exists g. split; [exact Su|]. pose proof (surveyed_mapped _ _ _ _ Su) as M.
  assert (G : forall c, In c (polygon_vertices cove) -> ngeo c) by (intros c; apply clear_ngeo, M).
  set (p1 := mkC 15000000 19000000). set (p2 := mkC 4700000 20200000).
  assert (I1 : In p1 (polygon_vertices cove)) by (vm_compute; tauto). assert (I2 : In p2 (polygon_vertices cove)) by (vm_compute; tauto).
  destruct (C90_open_lines_are_edges _ _ _ _ M p1 p2 0 I1 I2) as [H1 H2]; [discriminate|lia| |].
  { rewrite wrap_0. apply open_direct; [exact G|apply G, I1|apply G, I2|apply open_b_ok; vm_compute; reflexivity]. }
  split; [exact H1|]. split; [exact (H2 eq_refl)|].
  assert (Q : forall a b, a <> b -> In a (polygon_vertices cove) -> In b (polygon_vertices cove) -> cut_off_b cove a b = true -> has_edge g a b = Ok false).
  { intros a b D Ia Ib C. pose proof (mapped_complete _ _ _ _ M) as (_ & (qs & h & _ & Gr) & P & _). rewrite (built_polys _ _ _ Gr) in P.
    assert (Iv : forall c, In c (polygon_vertices cove) -> In c (polygon_vertices qs)) by (intros c; rewrite !in_polygon_vertices; intros (R & HR & I); exists R; split; [apply P, HR|exact I]).
    destruct (grun_queries qs h g Gr a b) as (Q1 & _). destruct (Q1 D (Iv a Ia) (Iv b Ib)) as [He _]. destruct (spec_connected a b h); [|exact He]. exfalso.
    destruct (C92_edges_partial _ _ _ _ Su a b He) as (k & K & _ & S). exact (cut_off_b_ok cove a b k C K S). }
  split; (apply Q; [discriminate|vm_compute; tauto|vm_compute; tauto|vm_compute; reflexivity]).
Qed.
(** the hypotheses of the other two *)
Example C92_convex_ex : (forall P, In P isles -> convex 1 P) /\ NoDup (polygon_vertices isles) /\ open_line cove (mkC 15000000 19000000) (mkC 4700000 20200000) /\
  (forall P, In P cove -> (3 <= List.length (verts P))%nat) /\ NoDup (polygon_vertices cove).
Proof.
  destruct isles_hypotheses as (_ & N & _). destruct cove_views as (F & N' & _). split; [intros P HP; apply isles_facts, HP|]. split; [exact N|].
  split; [|split; [|exact N']].
  - pose proof (fun c => clear_ngeo cove c F) as G. apply open_direct; [exact G|apply G; vm_compute; tauto|apply G; vm_compute; tauto|apply open_b_ok; vm_compute; reflexivity].
  - intros P HP. rewrite Forall_forall in F. apply (clear_polygon_facts P), F, HP.
Qed.

(** false of the code for other maps: four triangles, no two of which meet, and an edge which enters
    land from either end, whichever way around the world *)
Theorem C92_landfall_refuted : forall atan2, accurate_atan2 atan2 ->
  exists ps ord g a b, library_orders ord /\ Forall (convex 1) ps /\ NoDup (polygon_vertices ps) /\ (forall c, In c (polygon_vertices ps) -> ngeo c) /\ ForallOrdPairs disjoint ps /\
    generate (fun v => vis_periodic atan2 ord ps v) ps = Ok g /\ has_edge g a b = Ok true /\ forall k, -1 <= k <= 1 -> ~ sea_way ps a (wrap k b).
Proof.
  intros atan2 T. destruct (blocked_edge atan2 T) as (g & E & H). destruct tipped_facts as (W1 & W2 & W3 & W4).
  exists tipped_map, plain_orders, g, (mkC 0 0), hidden_vertex. repeat (split; [first [exact plain_orders_ok|assumption]|]).
  intros k. apply cut_off_b_ok. vm_compute. reflexivity.
Qed.
Print Assumptions C92_landfall_refuted.

(** C93.  Endpoints at sea with an ordered view, or vertices of the map; whatever the index answers,
    as long as it does not miss that the straight line is blocked.  Missing: other maps (false,
    below), and endpoints moved to the shore. *)
Theorem C93_legs_partial : forall atan2 ords ords' ps g en source destination ns nd radius flag fuel path,
  surveyed atan2 ords ps g -> sounded_query atan2 ords' ps g en source destination ns nd ->
  (ix_crossing (en_index en) (mkS ns nd) = [] -> sea_way ps ns nd) ->
  shortest_path fuel en g source destination radius flag = Some (Ok path) ->
  (exists l, path = ns :: l) /\ (exists l, path = l ++ [nd]) /\ sea_legs g ps path.
Proof.
  intros atan2 ords ords' ps g en source destination ns nd radius flag fuel path Su.
  exact (paths_at_sea atan2 ords' ps g en source destination ns nd radius flag fuel path (surveyed_sounded _ _ _ _ Su)).
Qed.
Print Assumptions C93_legs_partial.
(** from a shape file: the path makes no landfall, and is no longer than any route through open water;
    or there is no such route *)
Theorem C93_one_run_partial : forall atan2 ords shapes ps out s limit, accurate_atan2 atan2 -> (forall v, library_orders (ords v)) ->
  surveyed_shapes shapes ps limit -> fresh s out ->
  exists s', generate_cmd (fun ps v => vis_periodic atan2 (ords v) ps v) (Ok shapes) out s = (s', Ok tt) /\ answers_surveyed atan2 ps limit out s'.
Proof. exact generate_surveyed. Qed.
Print Assumptions C93_one_run_partial.
(** the same of a graph generated in splits and merged *)
Theorem C93_splits_partial : forall atan2 ords shuffle enum shapes ps (num : nat) dir inputs out s limit, accurate_atan2 atan2 -> (forall v, library_orders (ords v)) ->
  (forall l, Permutation (shuffle l) l) -> enumerates enum -> surveyed_shapes shapes ps limit -> ps <> [] ->
  (1 <= num)%nat -> NoDup (map dir (seq 0 num)) -> (forall i, (i < num)%nat -> fresh s (dir i)) ->
  Permutation inputs (map dir (seq 0 num)) -> fresh s out -> ~ In out inputs ->
  let vis := fun ps v => vis_periodic atan2 (ords v) ps v in
  exists s1 s2, sequence (map (fun cur => generate_range_cmd vis shuffle (Ok shapes) (dir cur) (Z.of_nat cur) (Z.of_nat num)) (seq 0 num)) s = (s1, Ok tt) /\
    merge_cmd limit enum inputs out s1 = (s2, Ok tt) /\ answers_surveyed atan2 ps limit out s2.
Proof. exact distributed_surveyed. Qed.
Print Assumptions C93_splits_partial.

Lemma cove_shapes : surveyed_shapes (map shape_of cove) cove 10000.
Proof.
  destruct (shapes_of_ok cove) as [W E]; [vm_compute; reflexivity|]. destruct cove_views as (F & N & V & _).
  split; [exact W|]. split; [exact E|]. split; [apply read_b_ok; vm_compute; reflexivity|]. split; [exact F|]. split; [exact N|]. split; [exact V|]. split; vm_compute; congruence.
Qed.
Lemma cove_query atan2 ords g : (forall v, library_orders (ords v)) ->
  survey_query atan2 ords cove g (bay_env atan2 ords g) (mkC 10000000 15000000) (mkC 10000000 (-10000000)) (mkC 10000000 15000000) (mkC 10000000 (-10000000)).
Proof.
  intros L. split; [exact (bay_query atan2 ords g L)|]. destruct cove_views as (_ & _ & _ & V1 & V2). split; (split; [split; vm_compute; congruence|right; assumption]).
Qed.
Lemma cove_route : let s := mkC 10000000 15000000 in let d := mkC 10000000 (-10000000) in
  let p1 := mkC 4700000 20200000 in let p2 := mkC (-200000) 19900000 in let p3 := mkC 0 0 in
  (exists r, open_route cove s d s [p1; p2; p3; d] d r) /\ Forall (within s f_max) [p1; p2; p3; d].
Proof.
  intros s d p1 p2 p3. destruct cove_views as (F & _). pose proof (fun c => clear_ngeo cove c F) as G.
  assert (O : forall a b, ngeo a -> ngeo b -> open_b cove a b = true -> open_line cove a b) by (intros a b Ga Gb H; apply open_direct; [exact G|exact Ga|exact Gb|apply open_b_ok, H]).
  assert (Gs : ngeo s) by (split; vm_compute; congruence). assert (Gd : ngeo d) by (split; vm_compute; congruence).
  assert (I1 : In p1 (polygon_vertices cove)) by (vm_compute; tauto). assert (I2 : In p2 (polygon_vertices cove)) by (vm_compute; tauto). assert (I3 : In p3 (polygon_vertices cove)) by (vm_compute; tauto).
  split; [eexists|apply all_within0; [exact Gs|repeat constructor; vm_compute; congruence]].
  apply open_straight; [apply O; [exact Gs|apply G, I1|vm_compute; reflexivity]|discriminate|right; left; reflexivity|left; exact I1|right; exact I1|].
  apply open_straight; [apply O; [apply G, I1|apply G, I2|vm_compute; reflexivity]|discriminate|left; exact I1|left; exact I2|right; exact I2|].
  apply open_straight; [apply O; [apply G, I2|apply G, I3|vm_compute; reflexivity]|discriminate|left; exact I2|left; exact I3|right; exact I3|].
  apply open_straight; [apply O; [apply G, I3|exact Gd|vm_compute; reflexivity]|discriminate|left; exact I3|right; right; reflexivity|left; exact I3|]. constructor.
Qed.
(** from inside the bay to the sea south of it, which the bay separates *)
Example C93_ex : forall atan2 ords, accurate_atan2 atan2 -> (forall v, library_orders (ords v)) ->
  let s := mkC 10000000 15000000 in let d := mkC 10000000 (-10000000) in
  fresh disk ["out"%string] /\ surveyed_shapes (map shape_of cove) cove 10000 /\ ~ sea_way cove s d /\
  exists s' g fuel path, generate_cmd (fun ps v => vis_periodic atan2 (ords v) ps v) (Ok (map shape_of cove)) ["out"%string] disk = (s', Ok tt) /\
    load_graph_from_file 10000 (default_graph_path ["out"%string]) s' = Ok g /\ survey_query atan2 ords cove g (bay_env atan2 ords g) s d s d /\
    interpolate_cmd 10000 ["out"%string] (bay_env atan2 ords) fuel (place 10 15) (place 10 (-10)) f_max true s' = Some (Ok (convert path)) /\ sea_legs g cove path.
Proof.
  intros atan2 ords A L s d. assert (Fr : fresh disk ["out"%string]) by (repeat split). split; [exact Fr|]. split; [exact cove_shapes|]. split; [apply no_way_b_ok; vm_compute; reflexivity|].
  assert (E1 : vis_coord (place 10 15) = Ok s) by (vm_compute; reflexivity). assert (E2 : vis_coord (place 10 (-10)) = Ok d) by (vm_compute; reflexivity).
  destruct (C93_one_run_partial atan2 ords _ _ _ _ _ A L cove_shapes Fr) as (s' & E & g & Eg & H). exists s', g. pose proof (cove_query atan2 ords g L) as Qu.
  destruct (H ords (bay_env atan2 ords) (place 10 15) (place 10 (-10)) s d s d f_max true E1 E2 Qu) as (n & K).
  exists n. destruct (K n (le_n n)) as [(path & R & _ & _ & Sl & _)|(_ & X)].
  - exists path. split; [exact E|]. split; [exact Eg|]. split; [exact Qu|]. split; [exact R|exact Sl].
  - exfalso. apply X. destruct cove_route as [(r & Ro) Wi]. eexists _, r. split; [exact Ro|exact Wi].
Qed.
(** and in three splits *)
Example C93_splits_ex : (forall l, Permutation (rotate l) l) /\ enumerates distinct /\ surveyed_shapes (map shape_of cove) cove 10000 /\ cove <> [] /\
  NoDup (map split_dir (seq 0 3)) /\ (forall i, (i < 3)%nat -> fresh split_disk (split_dir i)) /\
  Permutation [split_dir 2; split_dir 0; split_dir 1] (map split_dir (seq 0 3)) /\ fresh split_disk ["out"%string] /\
  ~ In ["out"%string] [split_dir 2; split_dir 0; split_dir 1].
Proof.
  destruct C66_ex as (_ & A & B & _ & C & D & E & F & G & _). split; [exact A|]. split; [exact B|]. split; [exact cove_shapes|]. split; [discriminate|].
  split; [exact C|]. split; [exact D|]. split; [exact E|]. split; [exact F|exact G].
Qed.
(** false of the code for other maps: over three triangles, no two of which meet, the path enters land
    from either end of its only leg, although the index says that the straight line is blocked *)
Theorem C93_legs_refuted : forall atan2, accurate_atan2 atan2 ->
  exists ps ord g en source destination path, library_orders ord /\
    Forall (convex 1) ps /\ NoDup (polygon_vertices ps) /\ (forall c, In c (polygon_vertices ps) -> ngeo c) /\ ForallOrdPairs disjoint ps /\
    generate (fun v => vis_periodic atan2 ord ps v) ps = Ok g /\
    en_vis en = endpoint_vis atan2 (fun _ => ord) g /\ row_orders (en_rows en) /\ index_in_range (en_index en) /\ minimal f_1 (en_pick en) /\
    ngeo source /\ In destination (polygon_vertices ps) /\ ix_crossing (en_index en) (mkS source destination) <> [] /\
    shortest_path 5 en g source destination f_max true = Some (Ok path) /\ ~ sea_legs g ps path.
Proof.
  intros atan2 T. destruct (blocked_leg atan2 T) as (g & E & C & H). destruct walled_facts as (W1 & W2 & W3 & W4).
  exists walled_map, plain_orders, g, (blocked_env (endpoint_vis atan2 (fun _ => plain_orders) g)), (mkC 0 0), hidden_vertex, [mkC 0 0; hidden_vertex].
  repeat (split; [first [exact plain_orders_ok|assumption]|]). split; [reflexivity|]. split; [intros v l; reflexivity|].
  split; [intros c _ X; discriminate X|]. split; [apply first_best_minimal|]. split; [split; vm_compute; congruence|]. split; [vm_compute; tauto|]. split; [discriminate|].
  split; [exact H|]. intros F. destruct (F 0%nat (mkC 0 0) hidden_vertex eq_refl eq_refl) as [X|[X _]]; [|congruence].
  revert X. apply no_way_b_ok. vm_compute. reflexivity.
Qed.
Print Assumptions C93_legs_refuted.
