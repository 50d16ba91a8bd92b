(** C94, C95: on maps drawn with simple rings of any shape, the graph is the visibility graph of the map, and a path is
    the shortest of all routes through open water. *)
From Verif Require Import Jordan.
From Coq Require Import ZArith Reals Bool List Lia Lra Permutation String.
From Flocq Require Import Core BinarySingleNaN.
From Verif Require Import PyLayer PyFacts Base F64 Coordinate Segment Polyline Polygon Periodicity Graph Visgraph VisgraphFacts SpecGeom SpecGraph F64Facts CoordinateFacts PolylineFacts
  PolygonMore GraphFacts GraphMore Serializer SerializerMore Sweep SweepFacts SweepMaps SweepGen SweepCases AngleFacts AngleSort SweepOpen SweepOrder SweepGeo SweepSound SweepExact SweepGraph SweepHalfGraph SweepLayers SweepWorld SweepForced SweepHashOrder
  ShortestPath DistFacts SearchFacts SearchSpec SearchGraph SearchQuery PathFacts PathMore FreePaths BlockedLegs OpenWater SweepFronts SeaLines SurveyCheck SurveyFast Coasts CoastExact CoastCheck Pipeline PipelineFacts PipelineFree PipelineOpen PipelineSea CoastRun
  Props_Sweep Props_Path Props_Python Props_Pipeline Props_Exact Props_EndToEnd Props_Open Props_OpenRun Props_Sea.
Import ListNotations.
Local Open Scope Z_scope.

(** C94.  Two vertices are joined exactly if a straight line between them, direct or around the world, runs through open
    water; the edge is marked as crossing the meridian exactly if the direct line does not.
    Missing: vertices without an ordered view of the map (false, below). *)
Theorem C94_graph_partial : forall atan2 ords ps g, surveyed atan2 ords ps g -> drawn ps ->
  forall a b, In a (polygon_vertices ps) -> In b (polygon_vertices ps) -> a <> b ->
    (has_edge g a b = Ok true <-> exists k, -1 <= k <= 1 /\ open_line ps a (wrap k b)) /\
    (has_edge g a b = Ok true -> (is_edge_meridian_crossing g a b = Ok true <-> ~ open_line ps a b)).
Proof.
  intros atan2 ords ps g Su Dr a b A B D. destruct (surveyed_true _ _ _ _ Su Dr) as (_ & _ & (qs & h & _ & G) & Pq & H). rewrite (built_polys _ _ _ G) in Pq.
  assert (Iv : forall c, In c (polygon_vertices ps) -> In c (polygon_vertices qs)) by (intros c; apply Permutation_in, vertices_perm; symmetry; exact Pq).
  destruct (grun_queries qs h g G a b) as (Q1 & _). destruct (Q1 D (Iv a A) (Iv b B)) as [He Hc]. specialize (H a b). unfold answer in H. rewrite He, Hc in *.
  destruct (spec_connected a b h) eqn:Ec.
  - destruct (proj1 (H _) eq_refl) as (_ & _ & _ & Lk). split; [split; [intros _|reflexivity]|intros _].
    + destruct (spec_crossing a b h); unfold linked_by in Lk; [destruct Lk as (_ & k & K & O); exists k; split; [lia|exact O]|exists 0; split; [lia|rewrite wrap_0; exact Lk]].
    + destruct (spec_crossing a b h); unfold linked_by in Lk; split; intros X; try tauto; discriminate X.
  - split; [split; [intros X; discriminate X|]|intros X; discriminate X]. intros (k & K & O). exfalso.
    assert (X : exists f : bool, None = Some f); [|destruct X as (f & X); discriminate X].
    destruct (Coq.Logic.Classical_Prop.classic (open_line ps a b)) as [O'|O']; [exists false; apply H; auto|exists true; apply H]. split; [exact A|]. split; [exact B|]. split; [exact D|].
    split; [exact O'|]. exists k. split; [|exact O]. destruct (Z.eq_dec k 0) as [->|]; [rewrite wrap_0 in O; contradiction|lia].
Qed.
Print Assumptions C94_graph_partial.
(** every point of such a line lies on a shore or at sea: no shore winds around it *)
Theorem C94_wet_partial : forall atan2 ords ps g, surveyed atan2 ords ps g -> drawn ps -> forall a b, has_edge g a b = Ok true ->
  exists k, -1 <= k <= 1 /\ is_edge_meridian_crossing g a b = Ok (negb (k =? 0)) /\ open_line ps a (wrap k b) /\ wet (map_copies ps) a (wrap k b).
Proof.
  intros atan2 ords ps g Su Dr a b He. pose proof (surveyed_sounded _ _ _ _ Su) as (_ & F & N & _ & _ & So). pose proof (fun c => clear_ngeo ps c F) as Ng.
  destruct (C92_edges_partial _ _ _ _ Su a b He) as (k & K & Cr & W). exists k. split; [exact K|]. split; [exact Cr|].
  destruct (So a b (negb (k =? 0))) as (A & B & D & _); [unfold answer; rewrite He, Cr; reflexivity|]. assert (Ov : forall o, In o (polygon_vertices ps) -> ordered_view true o (map_copies ps)) by apply Su.
  apply drawn_way in W; auto. split; [exact W|]. apply drawn_wet; auto.
Qed.
Print Assumptions C94_wet_partial.
(** the answers of the graph depend on the map alone: not on the order of the polygons, the hash tables, or the arc
    tangent of the platform *)
Theorem C94_determined_partial : forall atan2 atan2' ords ords' ps ps' g g', surveyed atan2 ords ps g -> surveyed atan2' ords' ps' g' -> Permutation ps ps' -> drawn ps -> drawn ps' ->
  forall a b, answer g a b = answer g' a b.
Proof. intros atan2 atan2' ords ords' ps ps' g g' Su Su' P Dr Dr'. exact (true_determined ps ps' g g' (surveyed_true _ _ _ _ Su Dr) (surveyed_true _ _ _ _ Su' Dr') P). Qed.
Print Assumptions C94_determined_partial.
(** an endpoint at sea sees exactly the vertices to which the straight line is open *)
Theorem C94_endpoint_partial : forall atan2 ords ords' ps g, surveyed atan2 ords ps g -> drawn ps -> (forall v, library_orders (ords' v)) ->
  forall c, ngeo c -> ordered_view false c ps -> off_land c ps -> ~ In c (polygon_vertices ps) ->
  exists points, endpoint_vis atan2 ords' g c = Ok points /\
    forall v, v <> c -> ((exists p, In p points /\ v_coord p = v) <-> In v (polygon_vertices ps) /\ open_line ps c v).
Proof.
  intros atan2 ords ords' ps g Su Dr L c Gc Ov Ol Nc. pose proof (surveyed_true _ _ _ _ Su Dr) as Tg. assert (T : accurate_atan2 atan2) by apply Su.
  assert (Bg : built g) by apply Tg. assert (G : forall x, In x (get_vertices g) -> ngeo x).
  { intros x X. pose proof (true_complete _ _ Tg) as Co. apply (co_ngeo _ _ Co), (co_vertices _ _ Co). destruct Bg as (qs & h & _ & G). rewrite (built_vertices _ _ _ G) in X. rewrite (built_polys _ _ _ G). exact X. }
  destruct (endpoint_vis_answers atan2 ords' g Bg G L c Gc) as (points & E & _). exists points. split; [exact E|]. intros v Nv.
  rewrite <- (sees_exactly atan2 ords' ps g T Tg Dr L c v Gc Ov Ol Nc). split.
  - intros (p & I & Ep). exists points, p. repeat (split; [assumption|]). intros shore X. discriminate X.
  - intros (points' & p & E' & I & Ep & _). rewrite E in E'. injection E' as <-. eauto.
Qed.
Print Assumptions C94_endpoint_partial.
(** the geometry: over simple counter-clockwise rings of any shape, a line which enters no land on the way from a point at
    sea to a vertex is open, and every point of it lies on a shore or at sea *)
Theorem C94_lines : forall qs o v, NoDup (polygon_vertices qs) -> sketched qs -> off_land o qs -> off_edges o qs ->
  (forall p n, corner_of qs p o n -> turn p o n <> 0) -> In v (polygon_vertices qs) -> o <> v ->
  (sea_here qs o v <-> open_here qs o v) /\ (open_here qs o v -> wet qs o v).
Proof.
  intros qs o v N Sk Ol Oe Cc V D. assert (Bk : open_here qs o v -> sea_here qs o v) by (apply open_sea_here; [exact D|intros P HP; apply Sk, HP|exact N]).
  split; [split; [apply sea_open; assumption|exact Bk]|]. intros H P r. apply sea_wet; auto.
Qed.
Print Assumptions C94_lines.

Definition cove_head := mkC 5000000 5700000.
(** two islands, one of them a bay: from the shore inside the bay to its mouth, and not to the shore outside *)
Example C94_ex : forall atan2 ords, accurate_atan2 atan2 -> (forall v, library_orders (ords v)) ->
  exists g, surveyed atan2 ords cove g /\ drawn cove /\
    has_edge g (mkC 15000000 19000000) (mkC 4700000 20200000) = Ok true /\ is_edge_meridian_crossing g (mkC 15000000 19000000) (mkC 4700000 20200000) <> Ok true /\
    has_edge g cove_head (mkC 0 0) = Ok false /\ ~ (exists k, -1 <= k <= 1 /\ open_line cove cove_head (wrap k (mkC 0 0))).
Proof.
  intros atan2 ords A L. destruct (C92_ex atan2 ords A L) as (g & Su & E1 & E2 & E3 & _). exists g. destruct cove_drawn as (Dr & _). split; [exact Su|]. split; [exact Dr|]. split; [exact E1|].
  split; [rewrite E2; discriminate|]. split; [exact E3|]. intros X.
  destruct (C94_graph_partial _ _ _ _ Su Dr cove_head (mkC 0 0)) as [H _]; [vm_compute; tauto|vm_compute; tauto|discriminate|]. apply H in X. unfold cove_head in X. rewrite E3 in X. discriminate X.
Qed.
(** an island with two tips at one latitude, which are in line with their own copies: the tips are joined, around the world *)
Definition tips : list polygon :=
  [mkP [mkC 0 0; mkC 5000000 (-4100000); mkC 10000000 0; mkC 5300000 5000000];
   mkP [mkC 20000000 9000000; mkC 27000000 11500000; mkC 22000000 14000000]].
Lemma tips_surveyed atan2 ords : accurate_atan2 atan2 -> (forall v, library_orders (ords v)) -> exists g, surveyed atan2 ords tips g.
Proof.
  intros A L. assert (F : Forall clear_polygon tips).
  { assert (C : forallb fair_b tips = true) by (vm_compute; reflexivity). pose proof (proj1 (forallb_forall fair_b tips) C) as C'. clear C.
    apply Forall_forall. intros P HP. apply fair_b_ok; [exact (C' P HP)|]. destruct HP as [<-|[<-|[]]]; vm_compute; reflexivity. }
  assert (N : NoDup (polygon_vertices tips)) by (apply nodup_b_ok; vm_compute; reflexivity).
  assert (C : forallb (fun o => ordered_view_f true o (map_copies tips)) (polygon_vertices tips) = true) by (vm_compute; reflexivity).
  pose proof (periodic_reports atan2 ords tips L (fun c => clear_ngeo tips c F)) as R. destruct (generate_ok tips _ R) as (g & E & _). exists g. repeat (split; [assumption|]). split; [|exact E].
  rewrite forallb_forall in C. intros o O. apply ordered_view_f_ok; [vm_compute; reflexivity|apply C, O].
Qed.
Example C94_tips_ex : forall atan2 ords, accurate_atan2 atan2 -> (forall v, library_orders (ords v)) ->
  exists g, surveyed atan2 ords tips g /\ drawn tips /\ ~ distinct_directions (mkC 0 0) (map_copies tips) /\
    has_edge g (mkC 0 0) (mkC 10000000 0) = Ok true /\ is_edge_meridian_crossing g (mkC 0 0) (mkC 10000000 0) = Ok true.
Proof.
  intros atan2 ords A L. destruct (tips_surveyed atan2 ords A L) as (g & Su). exists g. assert (Dr : drawn tips) by (apply drawn_b_ok; vm_compute; reflexivity). split; [exact Su|]. split; [exact Dr|].
  pose proof Su as (_ & _ & F & N & V & _). pose proof (fun c => clear_ngeo tips c F) as G. split.
  { intros D. apply (D (mkC 10000000 0) (mkC 370000001 0)); [vm_compute; tauto|vm_compute; tauto|discriminate|discriminate|discriminate|]. split; vm_compute; reflexivity. }
  destruct (C94_graph_partial _ _ _ _ Su Dr (mkC 0 0) (mkC 10000000 0)) as [H1 H2]; [vm_compute; tauto|vm_compute; tauto|discriminate|].
  assert (E : has_edge g (mkC 0 0) (mkC 10000000 0) = Ok true).
  { apply H1. exists (-1). split; [lia|]. apply open_copies; [exact G|vm_compute; tauto|vm_compute; tauto|lia|apply open_b_ok; vm_compute; reflexivity]. }
  split; [exact E|]. apply (H2 E). intros X. assert (W : sea_way tips (mkC 0 0) (mkC 10000000 0)); [left; apply C92_open; [discriminate| |exact N|exact X]|revert W; apply no_way_b_ok; vm_compute; reflexivity].
  intros P HP. rewrite Forall_forall in F. apply (clear_polygon_facts P), F, HP.
Qed.
(** the same map with its islands in the other order, and another hash order *)
Example C94_determined_ex : forall atan2 ords, accurate_atan2 atan2 -> (forall v, library_orders (ords v)) ->
  exists g g', surveyed atan2 ords cove g /\ surveyed atan2 (fun _ => other_orders) (rev cove) g' /\ Permutation cove (rev cove) /\ drawn cove /\ drawn (rev cove).
Proof.
  intros atan2 ords A L. destruct (cove_surveyed atan2 ords A L) as (g & Su). pose proof Su as (_ & _ & F & N & V & _).
  assert (P : Permutation cove (rev cove)) by apply Permutation_rev. assert (F' : Forall clear_polygon (rev cove)) by (apply Forall_rev, F).
  assert (N' : NoDup (polygon_vertices (rev cove))) by (eapply Permutation_NoDup; [apply vertices_perm, P|exact N]).
  assert (L' : forall v : coord, library_orders ((fun _ => other_orders) v)) by (intros _; exact other_orders_ok).
  pose proof (periodic_reports atan2 (fun _ => other_orders) (rev cove) L' (fun c => clear_ngeo (rev cove) c F')) as R.
  destruct (generate_ok (rev cove) _ R) as (g' & E & _). exists g, g'. split; [exact Su|]. split; [|split; [exact P|split; [apply cove_drawn|apply drawn_b_ok; vm_compute; reflexivity]]].
  repeat (split; [assumption|]). split; [|exact E].
  intros o O. apply (ordered_perm true o (map_copies cove)); [apply Permutation_flat_map, P|]. apply V. revert O. apply Permutation_in, vertices_perm, Permutation_sym, P.
Qed.
Example C94_endpoint_ex : let c := mkC 10000000 15000000 in ngeo c /\ ordered_view false c cove /\ off_land c cove /\ ~ In c (polygon_vertices cove) /\
  open_line cove c (mkC 4700000 20200000) /\ ~ open_line cove c (mkC 0 0).
Proof.
  intros c. destruct cove_views as (F & N & _ & V & _). pose proof (fun c => clear_ngeo cove c F) as G. destruct cove_drawn as (_ & O & _).
  assert (Gc : ngeo c) by (split; vm_compute; congruence).
  split; [exact Gc|]. split; [exact V|]. split; [exact O|]. split; [vm_compute; intuition discriminate|]. split.
  - apply open_direct; [exact G|exact Gc|apply G; vm_compute; tauto|apply open_b_ok; vm_compute; reflexivity].
  - intros X. assert (W : sea_way cove c (mkC 0 0)); [left; apply C92_open; [discriminate| |exact N|exact X]|revert W; apply no_way_b_ok; vm_compute; reflexivity].
    intros P HP. rewrite Forall_forall in F. apply (clear_polygon_facts P), F, HP.
Qed.
(** the hypotheses of the geometry, at a point inside the bay *)
Example C94_lines_ex : let o := mkC 10000000 15000000 in let v := mkC 4700000 20200000 in
  NoDup (polygon_vertices cove) /\ sketched cove /\ off_land o cove /\ off_edges o cove /\ In v (polygon_vertices cove) /\ open_here cove o v.
Proof.
  intros o v. destruct cove_views as (F & N & _ & (V1 & V2 & V3 & V4 & _) & _). destruct cove_drawn as (D & O & _). split; [exact N|]. split; [apply sketched_base, D|]. split; [exact O|].
  split; [exact V2|]. split; [vm_compute; tauto|apply open_b_ok; vm_compute; reflexivity].
Qed.
(** false of the code for other maps, even of four triangles no two of which meet: an edge between two vertices which no
    line through open water joins *)
Theorem C94_graph_refuted : forall atan2, accurate_atan2 atan2 ->
  exists ps ord g a b, library_orders ord /\ drawn ps /\ Forall (convex 1) ps /\ NoDup (polygon_vertices ps) /\ (forall c, In c (polygon_vertices ps) -> ngeo c) /\ ForallOrdPairs disjoint ps /\
    generate (fun v => vis_periodic atan2 ord ps v) ps = Ok g /\ In a (polygon_vertices ps) /\ In b (polygon_vertices ps) /\ a <> b /\ has_edge g a b = Ok true /\
    ~ exists k, -1 <= k <= 1 /\ open_line ps a (wrap k b).
Proof.
  intros atan2 T. destruct (blocked_edge atan2 T) as (g & E & H). destruct tipped_facts as (W1 & W2 & W3 & W4).
  exists tipped_map, plain_orders, g, (mkC 0 0), hidden_vertex. split; [exact plain_orders_ok|]. split; [apply drawn_b_ok; vm_compute; reflexivity|]. repeat (split; [assumption|]).
  split; [vm_compute; tauto|]. split; [vm_compute; tauto|]. split; [discriminate|]. split; [exact H|]. intros (k & K & O).
  assert (W : sea_way tipped_map (mkC 0 0) (wrap k hidden_vertex)); [left|revert K W; apply cut_off_b_ok; vm_compute; reflexivity].
  apply C92_open; [|intros P HP; repeat (destruct HP as [<-|HP]; [vm_compute; lia|]); destruct HP|exact W2|exact O].
  intros X. apply (f_equal lat) in X. vm_compute in X. discriminate X.
Qed.
Print Assumptions C94_graph_refuted.

(** C95.  A path exactly if there is a route through open water over the vertices of the map inside the radius, and then
    the shortest of them, up to rounding and the weight of the heuristic.
    Missing: other maps (false, below), and endpoints moved to the shore. *)
Theorem C95_shortest_partial : forall atan2 ords ords' ps g en source destination ns nd radius flag fuel path w,
  surveyed atan2 ords ps g -> drawn ps -> coast_query atan2 ords' ps g en source destination ns nd ->
  shortest_path fuel en g source destination radius flag = Some (Ok path) -> Z.of_nat (List.length path) <= 1000000 ->
  minimal w (en_pick en) -> is_finite w = true -> (Rabs (V w) <= bpow radix2 900)%R ->
  exists l r, path = ns :: l /\ sailed ps ns nd ns l nd r /\
    forall l' r', sailed ps ns nd ns l' nd r' -> Forall (within ns radius) l' -> Z.of_nat (List.length l') <= 1000000 ->
      (r <= Rmax 1 (V w) * r' * (1 + / 2000000000))%R.
Proof.
  intros atan2 ords ords' ps g en source destination ns nd radius flag fuel path w Su Dr Cq.
  exact (best_route atan2 ords' ps g en source destination ns nd (proj1 Su) (surveyed_true _ _ _ _ Su Dr) Dr Cq radius flag fuel path w).
Qed.
Print Assumptions C95_shortest_partial.
Theorem C95_found_partial : forall atan2 ords ords' ps g en source destination ns nd radius flag,
  surveyed atan2 ords ps g -> drawn ps -> coast_query atan2 ords' ps g en source destination ns nd ->
  exists n, forall fuel, (n <= fuel)%nat ->
    ((exists path, shortest_path fuel en g source destination radius flag = Some (Ok path)) <-> exists l r, sailed ps ns nd ns l nd r /\ Forall (within ns radius) l) /\
    (shortest_path fuel en g source destination radius flag = Some (Throw NoPath) <-> ~ exists l r, sailed ps ns nd ns l nd r /\ Forall (within ns radius) l).
Proof.
  intros atan2 ords ords' ps g en source destination ns nd radius flag Su Dr Cq.
  exact (route_found atan2 ords' ps g en source destination ns nd (proj1 Su) (surveyed_true _ _ _ _ Su Dr) Dr Cq radius flag).
Qed.
Print Assumptions C95_found_partial.
(** from a shape file, in one run *)
Theorem C95_one_run_partial : forall atan2 ords shapes ps out s limit, accurate_atan2 atan2 -> (forall v, library_orders (ords v)) ->
  drawn_shapes shapes ps limit -> fresh s out ->
  exists s', generate_cmd (fun ps v => vis_periodic atan2 (ords v) ps v) (Ok shapes) out s = (s', Ok tt) /\ answers_best atan2 ps limit out s'.
Proof. exact generate_drawn. Qed.
Print Assumptions C95_one_run_partial.
(** and in splits *)
Theorem C95_splits_partial : forall atan2 ords shuffle enum shapes ps (num : nat) dir inputs out s limit, accurate_atan2 atan2 -> (forall v, library_orders (ords v)) ->
  (forall l, Permutation (shuffle l) l) -> enumerates enum -> drawn_shapes shapes ps limit -> ps <> [] ->
  (1 <= num)%nat -> NoDup (map dir (seq 0 num)) -> (forall i, (i < num)%nat -> fresh s (dir i)) ->
  Permutation inputs (map dir (seq 0 num)) -> fresh s out -> ~ In out inputs ->
  let vis := fun ps v => vis_periodic atan2 (ords v) ps v in
  exists s1 s2, sequence (map (fun cur => generate_range_cmd vis shuffle (Ok shapes) (dir cur) (Z.of_nat cur) (Z.of_nat num)) (seq 0 num)) s = (s1, Ok tt) /\
    merge_cmd limit enum inputs out s1 = (s2, Ok tt) /\ answers_best atan2 ps limit out s2.
Proof. exact distributed_drawn. Qed.
Print Assumptions C95_splits_partial.

Lemma cove_coast atan2 ords g : (forall v, library_orders (ords v)) ->
  coast_query atan2 ords cove g (bay_env atan2 ords g) (mkC 10000000 15000000) (mkC 10000000 (-10000000)) (mkC 10000000 15000000) (mkC 10000000 (-10000000)).
Proof.
  intros L. split; [exact (bay_query atan2 ords g L)|]. destruct cove_views as (_ & _ & _ & V1 & V2). destruct cove_drawn as (_ & O1 & O2).
  split; (split; [split; vm_compute; congruence|right; split; assumption]).
Qed.
Lemma cove_sailed : let s := mkC 10000000 15000000 in let d := mkC 10000000 (-10000000) in
  let p1 := mkC 4700000 20200000 in let p2 := mkC (-200000) 19900000 in let p3 := mkC 0 0 in
  (exists r, sailed cove s d s [p1; p2; p3; d] d r) /\ Forall (within s f_max) [p1; p2; p3; d].
Proof.
  intros s d p1 p2 p3. destruct cove_views as (F & _). pose proof (fun c => clear_ngeo cove c F) as G.
  assert (O : forall a b, ngeo a -> ngeo b -> open_b cove a b = true -> open_line cove a b) by (intros a b Ga Gb H; apply open_direct; [exact G|exact Ga|exact Gb|apply open_b_ok, H]).
  assert (Gs : ngeo s) by (split; vm_compute; congruence). assert (Gd : ngeo d) by (split; vm_compute; congruence).
  assert (I1 : In p1 (polygon_vertices cove)) by (vm_compute; tauto). assert (I2 : In p2 (polygon_vertices cove)) by (vm_compute; tauto). assert (I3 : In p3 (polygon_vertices cove)) by (vm_compute; tauto).
  split; [eexists|apply all_within0; [exact Gs|repeat constructor; vm_compute; congruence]].
  apply sailed_straight; [apply O; [exact Gs|apply G, I1|vm_compute; reflexivity]|discriminate|right; left; reflexivity|left; exact I1|right; exact I1|].
  apply sailed_straight; [apply O; [apply G, I1|apply G, I2|vm_compute; reflexivity]|discriminate|left; exact I1|left; exact I2|right; exact I2|].
  apply sailed_straight; [apply O; [apply G, I2|apply G, I3|vm_compute; reflexivity]|discriminate|left; exact I2|left; exact I3|right; exact I3|].
  apply sailed_straight; [apply O; [apply G, I3|exact Gd|vm_compute; reflexivity]|discriminate|left; exact I3|right; right; reflexivity|left; exact I3|]. constructor.
Qed.
(** from inside the bay to the sea south of it: there is a route, and the path is as short as any *)
Example C95_ex : forall atan2 ords, accurate_atan2 atan2 -> (forall v, library_orders (ords v)) ->
  let s := mkC 10000000 15000000 in let d := mkC 10000000 (-10000000) in
  exists g fuel path, surveyed atan2 ords cove g /\ drawn cove /\ coast_query atan2 ords cove g (bay_env atan2 ords g) s d s d /\
    minimal f_1 (en_pick (bay_env atan2 ords g)) /\ is_finite f_1 = true /\ (exists l r, sailed cove s d s l d r /\ Forall (within s f_max) l) /\
    shortest_path fuel (bay_env atan2 ords g) g s d f_max true = Some (Ok path).
Proof.
  intros atan2 ords A L s d. destruct (cove_surveyed atan2 ords A L) as (g & Su). pose proof (cove_coast atan2 ords g L) as Cq. destruct cove_drawn as (Dr & _).
  destruct (C95_found_partial atan2 ords ords cove g (bay_env atan2 ords g) s d s d f_max true Su Dr Cq) as (n & H). destruct (H n (le_n n)) as [H1 _].
  assert (Ro : exists l r, sailed cove s d s l d r /\ Forall (within s f_max) l) by (destruct cove_sailed as [(r & Ro) Wi]; eexists _, r; split; [exact Ro|exact Wi]).
  destruct (proj2 H1 Ro) as (path & E). exists g, n, path. split; [exact Su|]. split; [exact Dr|]. split; [exact Cq|]. split; [apply first_best_minimal|]. split; [reflexivity|]. split; [exact Ro|exact E].
Qed.
Example C95_runs_ex : forall atan2 ords, accurate_atan2 atan2 -> (forall v, library_orders (ords v)) ->
  let s := mkC 10000000 15000000 in let d := mkC 10000000 (-10000000) in
  fresh disk ["out"%string] /\ drawn_shapes (map shape_of cove) cove 10000 /\
  exists s' g fuel l, generate_cmd (fun ps v => vis_periodic atan2 (ords v) ps v) (Ok (map shape_of cove)) ["out"%string] disk = (s', Ok tt) /\
    load_graph_from_file 10000 (default_graph_path ["out"%string]) s' = Ok g /\ coast_query atan2 ords cove g (bay_env atan2 ords g) s d s d /\
    interpolate_cmd 10000 ["out"%string] (bay_env atan2 ords) fuel (place 10 15) (place 10 (-10)) f_max true s' = Some (Ok (convert (s :: l))) /\
    exists t, sailed cove s d s l d t.
Proof.
  intros atan2 ords A L s d. assert (Fr : fresh disk ["out"%string]) by (repeat split). assert (Ds : drawn_shapes (map shape_of cove) cove 10000) by (split; [exact cove_shapes|apply cove_drawn]).
  split; [exact Fr|]. split; [exact Ds|].
  assert (E1 : vis_coord (place 10 15) = Ok s) by (vm_compute; reflexivity). assert (E2 : vis_coord (place 10 (-10)) = Ok d) by (vm_compute; reflexivity).
  destruct (C95_one_run_partial atan2 ords _ _ _ _ _ A L Ds Fr) as (s' & E & g & Eg & _ & H). exists s', g. pose proof (cove_coast atan2 ords g L) as Qu.
  destruct (H ords (bay_env atan2 ords) (place 10 15) (place 10 (-10)) s d s d f_max true E1 E2 Qu) as (n & K).
  exists n. destruct (K n (le_n n)) as [(l & t & R & Sl & _)|(_ & X)].
  - exists l. split; [exact E|]. split; [exact Eg|]. split; [exact Qu|]. split; [exact R|]. exists t. exact Sl.
  - exfalso. apply X. destruct cove_sailed as [(r & Ro) Wi]. eexists _, r. split; [exact Ro|exact Wi].
Qed.
Example C95_splits_ex : (forall l, Permutation (rotate l) l) /\ enumerates distinct /\ drawn_shapes (map shape_of cove) cove 10000 /\ cove <> [] /\
  NoDup (map split_dir (seq 0 3)) /\ (forall i, (i < 3)%nat -> fresh split_disk (split_dir i)) /\
  Permutation [split_dir 2; split_dir 0; split_dir 1] (map split_dir (seq 0 3)) /\ fresh split_disk ["out"%string] /\
  ~ In ["out"%string] [split_dir 2; split_dir 0; split_dir 1].
Proof.
  destruct C93_splits_ex as (A & B & C & D). split; [exact A|]. split; [exact B|]. split; [split; [exact C|apply cove_drawn]|exact D].
Qed.
(** false of the code for other maps, even of three triangles no two of which meet: the path is no route through open
    water, although the index says that the straight line is blocked *)
Theorem C95_shortest_refuted : forall atan2, accurate_atan2 atan2 ->
  exists ps ord g en source destination path, library_orders ord /\ drawn ps /\
    Forall (convex 1) ps /\ NoDup (polygon_vertices ps) /\ (forall c, In c (polygon_vertices ps) -> ngeo c) /\ ForallOrdPairs disjoint ps /\
    generate (fun v => vis_periodic atan2 ord ps v) ps = Ok g /\
    en_vis en = endpoint_vis atan2 (fun _ => ord) g /\ row_orders (en_rows en) /\ index_in_range (en_index en) /\ minimal f_1 (en_pick en) /\
    ngeo source /\ off_land source (map_copies ps) /\ In destination (polygon_vertices ps) /\ ix_crossing (en_index en) (mkS source destination) <> [] /\
    shortest_path 5 en g source destination f_max true = Some (Ok path) /\
    ~ exists l r, path = source :: l /\ sailed ps source destination source l destination r.
Proof.
  intros atan2 T. destruct (blocked_leg atan2 T) as (g & E & C & H). destruct walled_facts as (W1 & W2 & W3 & W4).
  exists walled_map, plain_orders, g, (blocked_env (endpoint_vis atan2 (fun _ => plain_orders) g)), (mkC 0 0), hidden_vertex, [mkC 0 0; hidden_vertex].
  split; [exact plain_orders_ok|]. split; [apply drawn_b_ok; vm_compute; reflexivity|].
  repeat (split; [assumption|]). split; [reflexivity|]. split; [intros v l; reflexivity|].
  split; [intros c _ X; discriminate X|]. split; [apply first_best_minimal|]. split; [split; vm_compute; congruence|]. split; [apply off_land_b_ok; vm_compute; reflexivity|]. split; [vm_compute; tauto|]. split; [discriminate|].
  split; [exact H|]. intros (l & r & X & Sl). injection X as <-. inversion Sl as [|u v l t r' O D A B K S|u v k l t r' K O N D A B S]; subst.
  - assert (W : sea_way walled_map (mkC 0 0) hidden_vertex); [left|revert W; apply no_way_b_ok; vm_compute; reflexivity].
    apply C92_open; [discriminate|intros P HP; repeat (destruct HP as [<-|HP]; [vm_compute; lia|]); destruct HP|exact W2|exact O].
  - vm_compute in A. intuition discriminate.
Qed.
Print Assumptions C95_shortest_refuted.
