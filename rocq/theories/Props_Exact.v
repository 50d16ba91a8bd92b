(** C67-C70: over convex polygons in layers and in general position the sweep, the graph and the
    paths are what the geometry says. *)
From Coq Require Import ZArith Reals Bool List Lia Lra Permutation.
From Flocq Require Import Core BinarySingleNaN.
From Verif Require Import Base F64 Coordinate Segment Polyline Polygon Periodicity Graph Visgraph SpecGeom SpecGraph F64Facts CoordinateFacts PolylineFacts
  PolygonMore GraphFacts GraphMore Sweep SweepFacts SweepMaps SweepGen SweepCases AngleFacts AngleSort SweepOrder SweepGeo SweepSound SweepExact SweepGraph SweepHalfGraph SweepWorld SweepHashOrder
  ShortestPath DistFacts SearchFacts SearchSpec SearchGraph SearchQuery PathFacts PathMore FreePaths Props_Sweep Props_Path BlockedLegs SweepUnsorted.
Import ListNotations.
Local Open Scope Z_scope.

(** C67.  The vertices seen are exactly those the line to which misses the interior of every
    polygon.  Missing: other arrangements of polygons, for which it is false (C45, and below). *)
Theorem C67_sweep_exact_partial : forall atan2 ord ps o half, accurate_atan2 atan2 -> library_orders ord -> pgeo o -> lon o < 540000001 ->
  (forall c, In c (polygon_vertices ps) -> pgeo c) -> NoDup (polygon_vertices ps) -> clear_view o ps ->
  exists res seen, get_visible_vertices atan2 ord (vistree_of_polygons ps) o half = Ok res /\ Forall2 reports_as seen res /\
    forall v, In v seen <->
      In v (polygon_vertices ps) /\ v <> o /\ (half = true -> lat o <= lat v) /\
      forall P, In P ps -> ~ through_interior o v P.
Proof.
  intros atan2 ord ps o half A L O E G N (S1 & S2 & S3 & S4 & S5 & S6 & S7). apply sweep_exact; assumption.
Qed.
Print Assumptions C67_sweep_exact_partial.
(** from (-100, 5) the middle island hides some vertices of the eastern one, and not others of itself *)
Example C67_sweep_ex : clear_view (mkC (-100000000) 5000000) isles /\ NoDup (polygon_vertices isles) /\
  (forall c, In c (polygon_vertices isles) -> pgeo c) /\
  In (mkC 149400000 10500000) (polygon_vertices isles) /\ through_interior (mkC (-100000000) 5000000) (mkC 149400000 10500000) middle_isle.
Proof.
  split; [apply isles_points|]. split; [apply isles_hypotheses|]. split.
  { intros c H. vm_compute in H. repeat (destruct H as [<-|H]; [split; vm_compute; congruence|]). destruct H. }
  split; [vm_compute; tauto|]. apply (through_b_ok _ _ _ 25 10). vm_compute. reflexivity.
Qed.
(** the generated graph is the visibility graph on the cylinder; an edge is marked as crossing the
    meridian if and only if the direct line is not free *)
Theorem C67_graph_exact_partial : forall atan2 ords ps, accurate_atan2 atan2 -> (forall v, library_orders (ords v)) ->
  Forall clear_polygon ps -> NoDup (polygon_vertices ps) -> (forall o, In o (polygon_vertices ps) -> clear_view o (map_copies ps)) ->
  exists g, generate (fun v => vis_periodic atan2 (ords v) ps v) ps = Ok g /\
    forall a b, In a (polygon_vertices ps) -> In b (polygon_vertices ps) -> a <> b ->
      (has_edge g a b = Ok true <-> exists k, -1 <= k <= 1 /\ free_line ps a (wrap k b)) /\
      (is_edge_meridian_crossing g a b = Ok true <-> has_edge g a b = Ok true /\ ~ free_line ps a b).
Proof.
  intros atan2 ords ps A L F N C. destruct (graph_exact atan2 ords ps A L F N C) as (g & E & H). exists g. split; [exact E|].
  intros a b Ia Ib D. destruct (H a b Ia Ib D) as (H1 & H2 & _). split; assumption.
Qed.
Print Assumptions C67_graph_exact_partial.
(** three islands: one pair sees each other around the world only, one not at all, one directly *)
Example C67_graph_ex : forall atan2 ords, accurate_atan2 atan2 -> (forall v, library_orders (ords v)) ->
  exists g, generate (fun v => vis_periodic atan2 (ords v) isles v) isles = Ok g /\
    has_edge g (mkC (-150000000) 10000000) (mkC 150000000 8800000) = Ok true /\
    is_edge_meridian_crossing g (mkC (-150000000) 10000000) (mkC 150000000 8800000) = Ok true /\
    has_edge g (mkC (-148000000) 10700000) (mkC 149400000 10500000) <> Ok true /\
    has_edge g (mkC 9000000 (-3000000)) (mkC 149400000 10500000) = Ok true /\
    is_edge_meridian_crossing g (mkC 9000000 (-3000000)) (mkC 149400000 10500000) <> Ok true.
Proof.
  intros atan2 ords A L. destruct isles_hypotheses as (F & N & C). destruct (C67_graph_exact_partial atan2 ords isles A L F N C) as (g & E & H).
  destruct isles_lines as (L1 & L2 & L3 & L4). exists g. split; [exact E|].
  destruct (H (mkC (-150000000) 10000000) (mkC 150000000 8800000)) as [A1 A2]; [vm_compute; tauto|vm_compute; tauto|discriminate|].
  destruct (H (mkC (-148000000) 10700000) (mkC 149400000 10500000)) as [B1 B2]; [vm_compute; tauto|vm_compute; tauto|discriminate|].
  destruct (H (mkC 9000000 (-3000000)) (mkC 149400000 10500000)) as [D1 D2]; [vm_compute; tauto|vm_compute; tauto|discriminate|].
  assert (A3 : has_edge g (mkC (-150000000) 10000000) (mkC 150000000 8800000) = Ok true) by (apply A1; exists (-1); split; [lia|exact L2]).
  split; [exact A3|]. split; [apply A2; split; assumption|]. split; [intros X; apply B1 in X; destruct X as (k & K & X); exact (L3 k K X)|].
  split; [apply D1; exists 0; rewrite wrap_0; split; [lia|exact L4]|]. intros X. apply D2 in X. destruct X as [_ X]. contradiction.
Qed.

(** four triangles, no two of which meet: the graph has an edge through one of them which is not
    free around the world either *)
Theorem C67_graph_exact_refuted : forall atan2, accurate_atan2 atan2 ->
  exists ps ord g a b, library_orders ord /\
    Forall (convex 1) ps /\ NoDup (polygon_vertices ps) /\ (forall c, In c (polygon_vertices ps) -> ngeo c) /\ ForallOrdPairs disjoint ps /\
    generate (fun v => vis_periodic atan2 ord ps v) ps = Ok g /\ has_edge g a b = Ok true /\
    forall k, -1 <= k <= 1 -> ~ free_line ps a (wrap k b).
Proof.
  intros atan2 T. destruct (blocked_edge atan2 T) as (g & E & H). destruct tipped_facts as (W1 & W2 & W3 & W4).
  exists tipped_map, plain_orders, g, (mkC 0 0), hidden_vertex. repeat (split; [first [exact plain_orders_ok|assumption]|]).
  intros k. apply walled_lines; [left; reflexivity|right; left; reflexivity].
Qed.
Print Assumptions C67_graph_exact_refuted.

(** C68.  Endpoints at sea with a clear view, or vertices of the map; whatever the index answers, as
    long as it does not miss that the straight line is blocked.  Missing: other arrangements of
    polygons (false, below), and endpoints moved to the shore. *)
Theorem C68_legs_free_partial : forall atan2 ords ords' ps g en source destination ns nd,
  charted atan2 ords ps g -> charted_query atan2 ords' ps g en source destination ns nd ->
  forall radius flag fuel path, (ix_crossing (en_index en) (mkS ns nd) = [] -> free_line ps ns nd) ->
  shortest_path fuel en g source destination radius flag = Some (Ok path) ->
  (exists l, path = ns :: l) /\ (exists l, path = l ++ [nd]) /\ free_legs g ps path.
Proof. intros atan2 ords ords' ps g en source destination ns nd Ch. exact (paths_free atan2 ords' ps g en source destination ns nd (charted_drawn _ _ _ _ Ch)). Qed.
Print Assumptions C68_legs_free_partial.

(** false of the code for other maps: the path over three of the triangles above leads straight through one,
    although the index says that the straight line is blocked *)
Theorem C68_legs_free_refuted : forall atan2, accurate_atan2 atan2 ->
  exists ps ord g en source destination path, library_orders ord /\
    Forall (convex 1) ps /\ NoDup (polygon_vertices ps) /\ (forall c, In c (polygon_vertices ps) -> ngeo c) /\ ForallOrdPairs disjoint ps /\
    generate (fun v => vis_periodic atan2 ord ps v) ps = Ok g /\
    en_vis en = endpoint_vis atan2 (fun _ => ord) g /\ row_orders (en_rows en) /\ index_in_range (en_index en) /\ minimal f_1 (en_pick en) /\
    ngeo source /\ In destination (polygon_vertices ps) /\ ix_crossing (en_index en) (mkS source destination) <> [] /\
    shortest_path 5 en g source destination f_max true = Some (Ok path) /\ ~ free_legs g ps path.
Proof.
  intros atan2 T. destruct (blocked_leg atan2 T) as (g & E & C & H). destruct walled_facts as (W1 & W2 & W3 & W4).
  exists walled_map, plain_orders, g, (blocked_env (endpoint_vis atan2 (fun _ => plain_orders) g)), (mkC 0 0), hidden_vertex, [mkC 0 0; hidden_vertex].
  repeat (split; [first [exact plain_orders_ok|assumption]|]). split; [reflexivity|]. split; [intros v l; reflexivity|].
  split; [intros c _ X; discriminate X|]. split; [apply first_best_minimal|]. split; [split; vm_compute; congruence|]. split; [vm_compute; tauto|]. split; [discriminate|].
  split; [exact H|]. intros F. destruct (F 0%nat (mkC 0 0) hidden_vertex eq_refl eq_refl) as [X|[X _]]; [|congruence].
  apply (walled_lines walled_map 0); [left; reflexivity|right; left; reflexivity|lia|]. rewrite wrap_0. exact X.
Qed.
Print Assumptions C68_legs_free_refuted.

(** C69.  The returned path is no longer than any route of free lines through vertices of the map,
    up to rounding (and the weighting).  Missing: routes which go around the world to or from an
    endpoint (C58), or between two vertices that also see each other directly (refuted below). *)
Theorem C69_no_shorter_route_partial : forall atan2 ords ords' ps g en source destination ns nd,
  charted atan2 ords ps g -> charted_query atan2 ords' ps g en source destination ns nd ->
  forall radius flag fuel path w, ix_crossing (en_index en) (mkS ns nd) <> [] ->
  shortest_path fuel en g source destination radius flag = Some (Ok path) -> Z.of_nat (length path) <= 1000000 ->
  minimal w (en_pick en) -> is_finite w = true -> (Rabs (V w) <= bpow radix2 900)%R ->
  exists l r, path = ns :: l /\ journey (road g (en_vis en) (mkLC ns nd None None)) ns l nd r /\
    forall l' r', free_route ps ns nd ns l' nd r' -> Forall (within ns radius) l' -> Z.of_nat (length l') <= 1000000 ->
      (r <= Rmax 1 (V w) * r' * (1 + / 2000000000))%R.
Proof. intros atan2 ords ords' ps g en source destination ns nd Ch. exact (no_shorter_route atan2 ords' ps g en source destination ns nd (charted_drawn _ _ _ _ Ch)). Qed.
Print Assumptions C69_no_shorter_route_partial.
(** and without a path there is no such route *)
Theorem C69_no_route_partial : forall atan2 ords ords' ps g en source destination ns nd,
  charted atan2 ords ps g -> charted_query atan2 ords' ps g en source destination ns nd ->
  forall radius flag fuel, ix_crossing (en_index en) (mkS ns nd) <> [] ->
  shortest_path fuel en g source destination radius flag = Some (Throw NoPath) ->
  ~ exists l r, free_route ps ns nd ns l nd r /\ Forall (within ns radius) l.
Proof. intros atan2 ords ords' ps g en source destination ns nd Ch. exact (no_route atan2 ords' ps g en source destination ns nd (charted_drawn _ _ _ _ Ch)). Qed.
Print Assumptions C69_no_route_partial.

(** a query among the three islands: the middle island is in the way *)
Definition honest_index : index := mkI (fun _ => false) (fun _ => Ok (mkS S0 P0)) (fun _ => [mkS (mkC 1000000 (-40300000)) (mkC 9000000 (-3000000))]) (fun _ c => S0).
Definition isles_env (atan2 : Z -> Z -> f64) (ords : coord -> orders) (g : graph) : env :=
  mkEnv honest_index (endpoint_vis atan2 ords g) no_rows (fun _ => first_best f_1).
Example C68_C69_ex : forall atan2 ords, accurate_atan2 atan2 -> (forall v, library_orders (ords v)) ->
  let s := mkC (-100000000) 5000000 in let d := mkC 80000000 3000000 in let p := mkC 1000000 (-40300000) in
  ~ free_line isles s d /\
  exists g, charted atan2 ords isles g /\ charted_query atan2 ords isles g (isles_env atan2 ords g) s d s d /\
    minimal f_1 (en_pick (isles_env atan2 ords g)) /\
    free_route isles s d s [p; d] d (apart s p + (apart p d + 0))%R /\ Forall (within s f_max) [p; d] /\
    exists fuel path, shortest_path fuel (isles_env atan2 ords g) g s d f_max true = Some (Ok path).
Proof.
  intros atan2 ords A L s d p. destruct isles_points as (V1 & V2 & Nf & F1 & F2). split; [exact Nf|].
  destruct isles_hypotheses as (F & N & C). destruct (C67_graph_exact_partial atan2 ords isles A L F N C) as (g & E & _). exists g.
  assert (Ch : charted atan2 ords isles g) by (split; [exact A|split; [exact L|split; [exact F|split; [exact N|split; [exact C|exact E]]]]]).
  split; [exact Ch|].
  assert (Cq : charted_query atan2 ords isles g (isles_env atan2 ords g) s d s d).
  { split; [exact L|]. split; [reflexivity|]. split; [intros v l; reflexivity|]. split; [intros c _ X; discriminate X|].
    split; [repeat split; vm_compute; congruence|]. split; [repeat split; vm_compute; congruence|]. split; [vm_compute; reflexivity|]. split; [vm_compute; reflexivity|].
    split; [reflexivity|]. split; [reflexivity|]. split; (split; [split; vm_compute; congruence|right; assumption]). }
  split; [exact Cq|]. split; [apply first_best_minimal|].
  rewrite wrap_0 in F1, F2.
  assert (Ip : In p (polygon_vertices isles)) by (vm_compute; tauto).
  assert (Ro : free_route isles s d s [p; d] d (apart s p + (apart p d + 0))%R).
  { apply route_straight; [exact F1|discriminate|right; left; reflexivity|left; exact Ip|right; exact Ip|].
    apply route_straight; [exact F2|discriminate|left; exact Ip|right; right; reflexivity|left; exact Ip|]. constructor. }
  split; [exact Ro|].
  assert (Wi : Forall (within s f_max) [p; d]) by (apply all_within0; [split; vm_compute; congruence|repeat constructor; vm_compute; congruence]).
  split; [exact Wi|].
  pose proof (query_fit _ _ _ _ _ _ _ _ _ (charted_drawn _ _ _ _ Ch) Cq) as Fit. assert (Ms : in_the_map s) by (repeat split; vm_compute; congruence). assert (Md : in_the_map d) by (repeat split; vm_compute; congruence).
  destruct (query_terminates (isles_env atan2 ords g) g s d f_max true Fit Ms Md) as (n & T). destruct (T n (le_n n)) as [T1 T2].
  destruct (shortest_path n (isles_env atan2 ords g) g s d f_max true) as [r|] eqn:Q; [|congruence]. exists n.
  destruct (query_failure (isles_env atan2 ords g) g s d f_max true Fit Ms Md n (mkLC s d None None) r Q) as [(path & ->)|(-> & X)].
  - apply (query_correction _ _ _ _ _ _ _ _ _ Cq). reflexivity.
  - apply searched_iff. eexists. split; [left; reflexivity|]. intros shore [Y|Y]; discriminate Y.
  - left. reflexivity.
  - exists path. exact Q.
  - exfalso. refine (C69_no_route_partial _ _ _ _ _ _ _ _ _ _ Ch Cq f_max true n _ Q _); [intros Y; discriminate Y|]. eexists _, _. split; [exact Ro|exact Wi].
Qed.

(** false of the code: the tops of two islands on either side of the meridian see each other both
    ways; the edge is not marked as crossing, and its length is that of the way around the world *)
Theorem C69_edge_length_refuted : forall atan2 ords, accurate_atan2 atan2 -> (forall v, library_orders (ords v)) ->
  exists g a b, charted atan2 ords strait g /\ free_line strait a (wrap 1 b) /\ answer g a b = Some false /\
    (100 * apart a (wrap 1 b) < edge_length false a b)%R.
Proof.
  intros atan2 ords A L. destruct strait_hypotheses as (F & N & C). destruct (C67_graph_exact_partial atan2 ords strait A L F N C) as (g & E & H).
  destruct strait_lines as [L1 L2]. set (a := mkC 178400000 1100000). set (b := mkC (-178500000) 1300000).
  assert (Ch : charted atan2 ords strait g) by (split; [exact A|split; [exact L|split; [exact F|split; [exact N|split; [exact C|exact E]]]]]).
  exists g, a, b. split; [exact Ch|]. split; [exact L2|]. split.
  - apply (vertex_edges _ _ _ (charted_drawn _ _ _ _ Ch)). split; [vm_compute; tauto|]. split; [vm_compute; tauto|]. split; [discriminate|]. split; [exists 1; split; [lia|exact L2]|].
    rewrite wrap_0 in L1. exact L1.
  - unfold edge_length, apart, a, b, wrap, Rsqr. cbn [lon lat].
    assert (Y : forall x y, (0 <= y -> y * y <= x -> y <= sqrt x)%R) by (intros x y Y0 H1; rewrite <- (sqrt_square y Y0); apply sqrt_le_1; nra).
    assert (Z1 : (sqrt ((178400000 - (-178500000 + 1 * 360000001)) * (178400000 - (-178500000 + 1 * 360000001)) + (1100000 - 1300000) * (1100000 - 1300000)) < 3200000)%R).
    { rewrite <- (sqrt_square 3200000) by lra. apply sqrt_lt_1; lra. }
    rewrite plus_IZR, mult_IZR.
    assert (Z2 : (356000000 <= sqrt ((178400000 - -178500000) * (178400000 - -178500000) + (1100000 - 1300000) * (1100000 - 1300000)))%R) by (apply Y; lra).
    lra.
Qed.
Print Assumptions C69_edge_length_refuted.

(** C70.  Missing: other arrangements of polygons, for which it is false (below). *)
Theorem C70_determined_partial : forall atan2 atan2' ords ords' ps g g',
  charted atan2 ords ps g -> charted atan2' ords' ps g' -> forall a b, answer g a b = answer g' a b.
Proof. exact graph_determined. Qed.
Print Assumptions C70_determined_partial.
Example C70_ex : forall atan2 ords, accurate_atan2 atan2 -> (forall v, library_orders (ords v)) -> exists g, charted atan2 ords isles g.
Proof.
  intros atan2 ords A L. destruct isles_hypotheses as (F & N & C). destruct (C67_graph_exact_partial atan2 ords isles A L F N C) as (g & E & _). exists g.
  split; [exact A|split; [exact L|split; [exact F|split; [exact N|split; [exact C|exact E]]]]].
Qed.

(** C70, other maps.  Two edges cross the half line from (0, 0) to the east less than a microdegree
    apart, so which counts as nearer is settled by the order in which a hash set of pointers lists
    them; the edge from (0, 0) to (3000, 2500) is in the graph for one order only. *)
Theorem C70_determined_refuted : forall atan2, accurate_atan2 atan2 ->
  exists ps ord ord' g g' a b, library_orders ord /\ library_orders ord' /\
    generate (fun v => vis_periodic atan2 ord ps v) ps = Ok g /\ generate (fun v => vis_periodic atan2 ord' ps v) ps = Ok g' /\
    has_edge g a b = Ok true /\ has_edge g' a b = Ok false.
Proof.
  intros atan2 T. destruct (hash_order_shows atan2 T) as (g & g' & H). exists close_map, plain_orders, other_orders, g, g', (mkC 0 0), seen_far.
  split; [exact plain_orders_ok|]. split; [exact other_orders_ok|]. exact H.
Qed.
Print Assumptions C70_determined_refuted.

(** C47, for the generated graph: whichever of two vertices is the lower, its half scan joins it to
    each copy of the other or finds that copy blocked.  Missing: comparisons that are no strict weak
    order (C44), for which std::sort promises nothing. *)
Theorem C47_generation_partial : forall atan2 ords ps, accurate_atan2 atan2 -> (forall v, library_orders (ords v)) -> Forall clear_polygon ps ->
  (forall o, In o (polygon_vertices ps) -> swo_on (less_b atan2 o) (polygon_vertices (map_copies ps))) ->
  exists g, generate (fun v => vis_periodic atan2 (ords v) ps v) ps = Ok g /\
    forall a b k, In a (polygon_vertices ps) -> In b (polygon_vertices ps) -> a <> b -> lat a <= lat b -> -1 <= k <= 1 ->
      (has_edge g a b = Ok true /\ (k = 0 -> is_edge_meridian_crossing g a b <> Ok true)) \/ blocked_vertex (map_copies ps) a (wrap k b).
Proof. exact half_graph. Qed.
Print Assumptions C47_generation_partial.
Example C47_generation_ex : forall atan2, accurate_atan2 atan2 -> Forall clear_polygon isles /\
  forall o, In o (polygon_vertices isles) -> swo_on (less_b atan2 o) (polygon_vertices (map_copies isles)).
Proof.
  intros atan2 A. destruct isles_hypotheses as (F & _ & C). split; [exact F|]. intros o O. apply C44_strict_weak_order_partial; [exact A| | |apply (C o O)].
  - vm_compute in O. repeat (destruct O as [<-|O]; [split; vm_compute; congruence|]). destruct O.
  - intros v V. vm_compute in V. repeat (destruct V as [<-|V]; [split; vm_compute; congruence|]). destruct V.
Qed.
(** false of the code on other maps: for every accurate atan2 the comparison around a vertex of this map
    of disjoint triangles is no strict weak order; a library which then lists the vertices below first
    ends the half scan at once, and the vertex is joined to none above it, not even along its own polygon *)
Theorem C47_every_pair_refuted : forall atan2, accurate_atan2 atan2 ->
  exists ps ord g o v, library_orders ord /\
    Forall clear_polygon ps /\ Forall (convex 1) ps /\ NoDup (polygon_vertices ps) /\ ForallOrdPairs disjoint ps /\
    generate (fun v => vis_periodic atan2 ord ps v) ps = Ok g /\ polygon_edge ps (mkS o v) /\ lat o < lat v /\
    ~ blocked_vertex (map_copies ps) o v /\ has_edge g o v = Ok false /\
    forall w, In w (polygon_vertices ps) -> lat o < lat w -> has_edge g o w = Ok false.
Proof.
  intros atan2 T. destruct (ties_lose_edges atan2 T) as (g & E & H). destruct tie_map_facts as (F1 & F2 & F3 & F4).
  exists tie_map, loose_orders, g, near_observer, upper_end. split; [exact loose_orders_ok|]. repeat (split; [assumption|]).
  split; [exists (mkP [near_observer; upper_end; lower_end]), 0%nat; split; [left; reflexivity|split; [cbn; lia|reflexivity]]|].
  split; [reflexivity|]. split; [exact upper_unblocked|]. split; [|exact H]. apply H; [right; left; reflexivity|reflexivity].
Qed.
Print Assumptions C47_every_pair_refuted.
