(** Property theorems C32, C33 and C43-C48 (open_edges.cpp, angle_sorter.cpp,
    vistree_generator.cpp and generation with them). *)
From Coq Require Import ZArith Reals Bool List Lia Permutation.
From Verif Require Import Base F64 Coordinate Segment Polyline Polygon Periodicity Graph Visgraph SpecGeom SpecGraph
  CoordinateFacts PolylineFacts GraphMore GraphFacts Sweep SweepFacts SweepMaps SweepGen AngleFacts AngleSort SweepHalf SweepForced SweepCases SweepOrder SweepGeo SweepSound SweepLayers OpenEdgesFacts.
Import ListNotations.
Local Open Scope Z_scope.

(** the orders of [plain_orders]: insertion sort, containers in insertion order *)
Example library_orders_ex : library_orders plain_orders.
Proof. exact plain_orders_ok. Qed.
Example accurate_atan2_ex : accurate_atan2 atan2_real.
Proof. exact atan2_real_accurate. Qed.

(** C32.  [Ok] excludes exceptions and undefined behaviour.  Any arctangent (even a wrong
    one), any iteration order (one per sweep) and any order of the parallel [add_edge] calls. *)
Theorem C32_generation_total : forall atan2 ords ps,
  (forall v, library_orders (ords v)) -> (forall c, In c (polygon_vertices ps) -> ngeo c) ->
  let vis := fun v => vis_periodic atan2 (ords v) ps v in
  exists g, generate vis ps = Ok g /\
    (forall calls, Permutation calls (flat_map (vertex_calls vis) (polygon_vertices ps)) -> parallel_generate ps calls = Ok g) /\
    (forall a b, has_edge g a b = Ok true -> In a (polygon_vertices ps) /\ In b (polygon_vertices ps) /\ a <> b) /\
    (forall a b u, has_edge g a b <> UB u).
Proof. exact generation_total. Qed.
Print Assumptions C32_generation_total.

Example C32_ex : (forall c, In c (polygon_vertices hiding_map) -> ngeo c) /\
  (forall c, In c (polygon_vertices [mkP [mkC (-180000000) (-90000000); mkC 180000000 (-90000000); mkC 180000000 90000000]]) -> ngeo c).
Proof. split; intros c H; vm_compute in H; repeat (destruct H as [<-|H]; [split; vm_compute; congruence|]); destruct H. Qed.

(** C33 is false of the code: with a triangle reaching to 181 degrees an exception leaves the
    parallel loop of the generation, whatever the arctangent and the orders *)
Theorem C33_beyond_meridian_refuted : forall atan2 ords, accurate_atan2 atan2 -> (forall v, library_orders (ords v)) ->
  generate (fun v => vis_periodic atan2 (ords v) meridian_triangle v) meridian_triangle = UB EscapesParallel.
Proof. exact meridian_throws. Qed.
Print Assumptions C33_beyond_meridian_refuted.
(** its normalised equivalent is accepted *)
Example C33_equivalent_ex : forall c, In c (polygon_vertices [mkP [mkC 179000000 0; mkC (-179000001) 100000; mkC 180000000 1000000]]) -> ngeo c.
Proof. intros c H; vm_compute in H; repeat (destruct H as [<-|H]; [split; vm_compute; congruence|]); destruct H. Qed.

(** C33, what remains: when generation does succeed, no edge joins two vertices beyond the
    meridian.  Missing: that such polygons are accepted at all (false, see above). *)
Theorem C33_never_joined_partial : forall atan2 ords ps g a b,
  generate (fun v => vis_periodic atan2 (ords v) ps v) ps = Ok g -> has_edge g a b = Ok true ->
  -180000000 <= lon a <= 180000000 \/ -180000000 <= lon b <= 180000000.
Proof. exact beyond_never_joined. Qed.
Print Assumptions C33_never_joined_partial.

(** C43, for histories in which no two edges open at once share a distance, no edge is added
    twice and edges are removed in the direction they were added.  Missing: other histories
    (false, see below). *)
Theorem C43_open_edges_partial : forall h, tidy h [] ->
  (oe_empty (orun h) = true <-> open_after h [] = []) /\
  (open_after h [] <> [] -> exists d s, In (d, s) (open_after h []) /\ closest_edge (orun h) = Ok s /\
     forall d' s', In (d', s') (open_after h []) -> d <= d').
Proof. exact tidy_history. Qed.
Print Assumptions C43_open_edges_partial.

Definition edge_a : segment := mkS (mkC 1 1) (mkC 5 9).
Definition edge_b : segment := mkS (mkC 2 1) (mkC 7 9).
Example C43_ex : tidy [OAdd 5 edge_a; OAdd 3 edge_b; ORem edge_b; OAdd 3 (mkS (mkC 0 0) (mkC 4 4)); ORem edge_a] [] /\
  open_after [OAdd 5 edge_a; OAdd 3 edge_b; ORem edge_b] [] = [(5, edge_a)].
Proof.
  split; [|vm_compute; reflexivity]. unfold edge_a, edge_b, same_edge, flip.
  cbn [tidy]. split; [intros d s []|]. split; [intros d s [E|[]]; inversion E; split; [lia|intros [F|F]; discriminate F]|].
  split; [intros d s [E|[E|[]]]; inversion E; intros [F|F]; try discriminate F; reflexivity|]. cbn.
  split; [intros d s [E|[]]; inversion E; split; [lia|intros [F|F]; discriminate F]|]. split; [|exact I].
  intros d s [E|[E|[]]]; inversion E; intros [F|F]; try discriminate F; reflexivity.
Qed.

(** C43 is false of the code: of two edges at the same distance the second is lost ... *)
Theorem C43_same_distance_refuted :
  oe_empty (orun [OAdd 5 edge_a; OAdd 5 edge_b; ORem edge_a]) = true /\
  open_after [OAdd 5 edge_a; OAdd 5 edge_b; ORem edge_a] [] = [(5, edge_b)].
Proof. split; vm_compute; reflexivity. Qed.
Print Assumptions C43_same_distance_refuted.
(** ... an edge added again at another distance stays after its removal ... *)
Theorem C43_added_twice_refuted :
  closest_edge (orun [OAdd 5 edge_a; OAdd 3 edge_a; ORem edge_a]) = Ok edge_a /\
  open_after [OAdd 5 edge_a; OAdd 3 edge_a; ORem edge_a] [] = [].
Proof. split; vm_compute; reflexivity. Qed.
Print Assumptions C43_added_twice_refuted.
(** ... and an equal edge written the other way round is not found *)
Theorem C43_reversed_refuted :
  segment_eqb edge_a (flip edge_a) = true /\ closest_edge (orun [OAdd 5 edge_a; ORem (flip edge_a)]) = Ok edge_a.
Proof. split; vm_compute; reflexivity. Qed.
Print Assumptions C43_reversed_refuted.

(** C44, for points whose directions from the observer are equal or at least 2^-47 apart (sine).
    Missing: closer directions (false, see below). *)
Theorem C44_sorted_partial : forall atan2 o l ord, accurate_atan2 atan2 -> wide o -> (forall v, In v l -> wide v) ->
  all_separated o l -> library_orders ord -> NoDup l ->
  exists out, sort_ccw atan2 (o_sort ord) o l = Ok out /\ Permutation out l /\
    forall l1 a l2 b l3, out = l1 ++ a :: l2 ++ b :: l3 -> b <> o /\ (a = o \/ before o a b).
Proof. intros atan2 o l ord A O L S. exact (sort_separated atan2 o l A O L S ord). Qed.
Print Assumptions C44_sorted_partial.

Theorem C44_strict_weak_order_partial : forall atan2 o l, accurate_atan2 atan2 -> wide o -> (forall v, In v l -> wide v) ->
  all_separated o l -> swo_on (less_b atan2 o) l.
Proof. exact swo_separated. Qed.
Print Assumptions C44_strict_weak_order_partial.

(** all points within 11.8 degrees of the observer are separated *)
Theorem C44_near_points : forall o l, (forall a, In a l -> dot (from o a) (from o a) <= 2 ^ 47) -> all_separated o l.
Proof. intros o l H a b A B. apply near_separated; auto. Qed.
Print Assumptions C44_near_points.
Example C44_ex : all_separated (mkC 0 0) [mkC 1 1; mkC 8388608 0; mkC 2 2; mkC (-1) 8388607; mkC 0 0; mkC 1000000 999999].
Proof.
  apply C44_near_points. intros a H. cbn [In] in H. repeat (destruct H as [<-|H]; [vm_compute; congruence|]). destruct H.
Qed.

(** C44 is false of the code: for every arctangent there are an observer and points [a], [a2]
    in one direction and [b] in another such that [b] ties with both, yet [a] precedes [a2] *)
Theorem C44_strict_weak_order_refuted : forall atan2, accurate_atan2 atan2 ->
  exists o a a2 b, pgeo o /\ pgeo a /\ pgeo a2 /\ pgeo b /\ a <> o /\ a2 <> o /\ b <> o /\ a <> a2 /\ a <> b /\ a2 <> b /\
    angle (from o a) = angle (from o a2) /\ angle (from o a) <> angle (from o b) /\
    angle_less atan2 o a b = Ok false /\ angle_less atan2 o b a = Ok false /\
    angle_less atan2 o b a2 = Ok false /\ angle_less atan2 o a2 b = Ok false /\
    angle_less atan2 o a a2 = Ok true.
Proof. exact not_weak_order. Qed.
Print Assumptions C44_strict_weak_order_refuted.
(** and the comparison is not irreflexive *)
Theorem C44_irreflexive_refuted : forall atan2 o, angle_less atan2 o o o = Ok true.
Proof. intros. unfold angle_less. rewrite coord_eqb_refl. reflexivity. Qed.
Print Assumptions C44_irreflexive_refuted.

(** C45 is false of the code: three disjoint triangles, a vertex reported although an edge of
    the second triangle crosses the line to it; for every arctangent and every order *)
Theorem C45_hidden_reported_refuted :
  polygon_edge hiding_map hiding_edge /\ crosses_inside hiding_edge (mkC 0 0) hidden_vertex /\
  forall atan2 ord, accurate_atan2 atan2 -> library_orders ord ->
  exists res, get_visible_vertices atan2 ord (vistree_of_polygons hiding_map) (mkC 0 0) false = Ok res /\
    In (mkV hidden_vertex false) res.
Proof. exact (conj (proj1 hiding_crosses) (conj (proj2 hiding_crosses) hiding_reported)). Qed.
Print Assumptions C45_hidden_reported_refuted.

(** C45, what remains: a reported vertex does not lie into the solid of the observer's own
    corner.  Missing: edges further away (false, see above). *)
Theorem C45_own_corner_partial : forall atan2 ord ps o half,
  library_orders ord -> pgeo o -> (forall c, In c (polygon_vertices ps) -> pgeo c) -> In o (polygon_vertices ps) ->
  exists res seen p n, get_visible_vertices atan2 ord (vistree_of_polygons ps) o half = Ok res /\ Forall2 reports_as seen res /\
    NoDup seen /\ corner_of ps p o n /\
    forall v, In v seen -> In v (polygon_vertices ps) /\ v <> o /\ point_visible (mkPL p o n) v = Ok true /\
      (clear_corner p o n -> ~ into_solid p o n v /\
         forall w, w = p \/ w = n -> ~ past 1000002001 1000000000 o w v).
Proof. exact reported_corner. Qed.
Print Assumptions C45_own_corner_partial.
Example C45_ex : In (mkC 5000000 6000000) (polygon_vertices hiding_map) /\
  corner_of hiding_map (mkC 6000000 1000000) (mkC 5000000 6000000) (mkC 1000000 100000) /\
  clear_corner (mkC 6000000 1000000) (mkC 5000000 6000000) (mkC 1000000 100000) /\
  into_solid (mkC 6000000 1000000) (mkC 5000000 6000000) (mkC 1000000 100000) (mkC 4900000 5700000).
Proof.
  split; [vm_compute; auto|]. split.
  - exists (mkP [mkC 6000000 1000000; mkC 5000000 6000000; mkC 1000000 100000]), 1%nat. split; [left; reflexivity|]. split; [cbn; lia|]. split; [reflexivity|split; reflexivity].
  - split; [split; vm_compute; congruence|]. left. vm_compute. auto.
Qed.

(** C45, edges further away, for disjoint strictly convex polygons in layers about the observer
    (polygons seen in one direction are separated by a circle about it): no reported vertex lies
    behind another polygon.  The line may enter the other polygon through an edge or a vertex.
    Missing: other arrangements (false, see above). *)
Theorem C45_layered_partial : forall atan2 ord ps o half, accurate_atan2 atan2 -> library_orders ord ->
  pgeo o -> lon o < 540000001 -> (forall c, In c (polygon_vertices ps) -> pgeo c) ->
  NoDup (polygon_vertices ps) -> all_separated o (polygon_vertices ps) ->
  (forall P, In P ps -> exists sg, convex sg P) -> off_edges o ps -> layered o ps ->
  exists res seen, get_visible_vertices atan2 ord (vistree_of_polygons ps) o half = Ok res /\ Forall2 reports_as seen res /\
    forall v, In v seen -> In v (polygon_vertices ps) /\ v <> o /\
      forall P, In P ps -> ~ In v (verts P) -> ~ cuts o v P.
Proof.
  intros atan2 ord ps o half A L O E G N S C F Y. destruct (sweep_sound atan2 ord ps o half A L O E G N S C F Y) as (res & seen & R & Fs & H).
  exists res, seen. split; [exact R|]. split; [exact Fs|]. intros v V. destruct (H v V) as (H1 & H2 & H3). split; [exact H1|]. split; [exact H2|].
  intros P HP Nv. apply H3; [exact HP|]. intros X. contradiction.
Qed.
Print Assumptions C45_layered_partial.
(** and none lies behind its own polygon, if that polygon is counter-clockwise, no vertex of it is
    within a microdegree of its other edges, and its vertices and its crossings with the eastward
    half line are at different distances (false otherwise, see [C45_equal_distances_refuted]) *)
Theorem C45_layered_own_partial : forall atan2 ord ps o half, accurate_atan2 atan2 -> library_orders ord ->
  pgeo o -> lon o < 540000001 -> (forall c, In c (polygon_vertices ps) -> pgeo c) ->
  NoDup (polygon_vertices ps) -> all_separated o (polygon_vertices ps) ->
  (forall P, In P ps -> exists sg, convex sg P) -> off_edges o ps -> layered o ps ->
  exists res seen, get_visible_vertices atan2 ord (vistree_of_polygons ps) o half = Ok res /\ Forall2 reports_as seen res /\
    forall v P, In v seen -> In P ps -> In v (verts P) -> convex 1 P -> thick P -> distinct_keys o P -> ~ cuts o v P.
Proof.
  intros atan2 ord ps o half A L O E G N S C F Y. destruct (sweep_sound atan2 ord ps o half A L O E G N S C F Y) as (res & seen & R & Fs & H).
  exists res, seen. split; [exact R|]. split; [exact Fs|]. intros v P V HP Iv C1 T D. destruct (H v V) as (H1 & H2 & H3). apply H3; [exact HP|].
  intros _. split; [exact C1|split; assumption].
Qed.
Print Assumptions C45_layered_own_partial.
(** three polygons in layers meet the hypotheses; a vertex behind the first and behind its own is
    not reported, for every arctangent and every order *)
Example C45_layered_ex : cuts (mkC 0 0) layered_hidden near_quad /\ cuts (mkC 0 0) layered_hidden far_quad /\
  forall atan2 ord half, accurate_atan2 atan2 -> library_orders ord ->
  exists res seen, get_visible_vertices atan2 ord (vistree_of_polygons layered_map) (mkC 0 0) half = Ok res /\
    Forall2 reports_as seen res /\ ~ In layered_hidden seen.
Proof.
  destruct layered_hypotheses as (O & E & G & N & D & C & F & Y & Ow & C1 & C2). split; [exact C1|]. split; [exact C2|].
  intros atan2 ord half A L. destruct (C45_layered_partial atan2 ord layered_map (mkC 0 0) half A L O E G N (C44_near_points _ _ D) C F Y) as (res & seen & R & Fs & H).
  exists res, seen. split; [exact R|]. split; [exact Fs|]. intros X. destruct (H _ X) as (_ & _ & H3).
  apply (H3 near_quad); [left; reflexivity| |exact C1]. cbn [near_quad verts In]. unfold layered_hidden. intros Y'. repeat (destruct Y' as [Y'|Y']; [discriminate Y'|]). exact Y'.
Qed.
Example C45_layered_own_ex : forall P, In P layered_map -> convex 1 P /\ thick P /\ distinct_keys (mkC 0 0) P.
Proof. exact (proj1 (proj2 (proj2 (proj2 (proj2 (proj2 (proj2 (proj2 (proj2 layered_hypotheses))))))))). Qed.
(** a single strictly convex polygon, with two vertices at one distance from the observer: the open
    edges are kept in a map by the distance of the first end point, the second of the two edges is
    dropped, and a vertex on the far side is reported *)
Theorem C45_equal_distances_refuted :
  convex 1 pentagon /\ thick pentagon /\ off_edges (mkC 0 0) [pentagon] /\ layered (mkC 0 0) [pentagon] /\
  cuts (mkC 0 0) pentagon_far pentagon /\
  forall atan2 ord, accurate_atan2 atan2 -> library_orders ord ->
  exists res, get_visible_vertices atan2 ord (vistree_of_polygons [pentagon]) (mkC 0 0) false = Ok res /\
    In (mkV pentagon_far false) res.
Proof.
  destruct pentagon_shape as (H1 & H2 & H3 & H4 & H5). split; [exact H1|]. split; [exact H2|]. split; [exact H3|]. split; [exact H4|]. split; [exact H5|].
  exact pentagon_reported.
Qed.
Print Assumptions C45_equal_distances_refuted.

(** C46.  Every arctangent (even a wrong one) and every order. *)
Theorem C46_rejected_are_blocked : forall atan2 ord ps o,
  library_orders ord -> pgeo o -> (forall c, In c (polygon_vertices ps) -> pgeo c) ->
  exists res seen, get_visible_vertices atan2 ord (vistree_of_polygons ps) o false = Ok res /\ Forall2 reports_as seen res /\
    forall v, In v (polygon_vertices ps) -> v <> o -> In v seen \/
      (exists p n, corner_of ps p o n /\ point_visible (mkPL p o n) v = Ok false /\
         (clear_corner p o n -> into_solid p o n v \/ exists w, (w = p \/ w = n) /\ past 1000001999 1000000000 o w v)) \/
      (exists e, polygon_edge ps e /\ ~ touches e o /\ meets_before e o v).
Proof.
  intros atan2 ord ps o L O G. destruct (get_visible_ok atan2 ord ps o false L O G) as (res & seen & R & _ & Iv & _ & _ & F & H).
  exists res, seen. split; [exact R|]. split; [exact F|]. intros v V N. rewrite scanned_full in H.
  destruct (H v (proj2 (Iv v) V) N) as [X|[(p & n & C & E)|X]]; [left; exact X|right; left|right; right; exact X].
  exists p, n. split; [exact C|]. split; [exact E|]. intros Cc.
  assert (K : forall q, q = p \/ q = n -> pgeo q).
  { destruct C as (Q & i & Q1 & Q2 & -> & _ & ->). intros q Hq. apply G, in_polygon_vertices. exists Q. split; [exact Q1|].
    unfold ring_prev, ring_next, vat in Hq. destruct Hq as [-> | ->]; apply nth_In, Nat.mod_upper_bound; lia. }
  apply hidden_geometric; auto.
Qed.
Print Assumptions C46_rejected_are_blocked.
(** the first triangle's far corner is not reported, and an edge is in the way *)
Example C46_ex :
  (forall c, In c (polygon_vertices hiding_map) -> pgeo c) /\ pgeo (mkC 0 0) /\
  polygon_edge hiding_map (mkS (mkC 5000000 6000000) (mkC 1000000 100000)) /\
  meets_before (mkS (mkC 5000000 6000000) (mkC 1000000 100000)) (mkC 0 0) (mkC 6000000 1000000).
Proof.
  split; [intros c H; vm_compute in H; repeat (destruct H as [<-|H]; [split; vm_compute; congruence|]); destruct H|].
  split; [split; vm_compute; congruence|]. split.
  - exists (mkP [mkC 6000000 1000000; mkC 5000000 6000000; mkC 1000000 100000]), 1%nat. split; [left; reflexivity|]. split; [cbn; lia|reflexivity].
  - exists 314, 310, 55. cbn [e1 e2 lon lat]. lia.
Qed.

(** C47.  The half scan reports among the vertices on or above the observer's parallel and
    rejects only blocked ones; the full scan's result is the half scan's followed by reports
    of vertices strictly below.  Missing: vertex sets on which the comparison is no strict
    weak order, where std::sort promises nothing (C44, and C47_every_pair_refuted in Props_Exact). *)
Theorem C47_half_scan_partial : forall atan2 ord ps o, accurate_atan2 atan2 -> library_orders ord -> pgeo o -> lon o < 540000001 ->
  (forall c, In c (polygon_vertices ps) -> pgeo c) -> swo_on (less_b atan2 o) (polygon_vertices ps) ->
  exists res seen r2 seen2,
    get_visible_vertices atan2 ord (vistree_of_polygons ps) o true = Ok res /\
    get_visible_vertices atan2 ord (vistree_of_polygons ps) o false = Ok (res ++ r2) /\
    Forall2 reports_as seen res /\ Forall2 reports_as seen2 r2 /\ NoDup seen /\
    (forall v, In v seen -> In v (polygon_vertices ps) /\ v <> o /\ lat o <= lat v) /\
    (forall v, In v seen2 -> In v (polygon_vertices ps) /\ v <> o /\ lat v < lat o) /\
    (forall v, In v (polygon_vertices ps) -> v <> o -> lat o <= lat v -> In v seen \/ blocked_vertex ps o v).
Proof. exact half_exact. Qed.
Print Assumptions C47_half_scan_partial.

(** around the observer (0, 0) the vertices of the map above meet the hypotheses *)
Example C47_ex : forall atan2, accurate_atan2 atan2 -> swo_on (less_b atan2 (mkC 0 0)) (polygon_vertices hiding_map).
Proof.
  intros atan2 A. apply C44_strict_weak_order_partial; [exact A|split; vm_compute; congruence| |].
  - intros v H. vm_compute in H. repeat (destruct H as [<-|H]; [split; vm_compute; congruence|]). destruct H.
  - apply C44_near_points. intros a H. vm_compute in H. repeat (destruct H as [<-|H]; [vm_compute; congruence|]). destruct H.
Qed.

(** so of two vertices at least one scan reports the other or finds it blocked *)
Theorem C47_every_pair_partial : forall atan2 ord ps, accurate_atan2 atan2 -> library_orders ord ->
  (forall c, In c (polygon_vertices ps) -> ngeo c) -> (forall o, In o (polygon_vertices ps) -> swo_on (less_b atan2 o) (polygon_vertices ps)) ->
  forall a b, In a (polygon_vertices ps) -> In b (polygon_vertices ps) -> a <> b ->
  exists o v res, (o = a /\ v = b \/ o = b /\ v = a) /\
    get_visible_vertices atan2 ord (vistree_of_polygons ps) o true = Ok res /\
    ((exists x, In x res /\ reports_as v x) \/ blocked_vertex ps o v).
Proof. exact half_pairs. Qed.
Print Assumptions C47_every_pair_partial.

(** C48, for the map as given (any observer, its periodic copies not in the map).  Missing:
    that the normalised reports are distinct from each other and from the observer, false once
    the map holds periodic copies, see below. *)
Theorem C48_well_formed_partial : forall atan2 ord ps o half,
  library_orders ord -> pgeo o -> (forall c, In c (polygon_vertices ps) -> pgeo c) ->
  exists res seen, get_visible_vertices atan2 ord (vistree_of_polygons ps) o half = Ok res /\
    Forall2 reports_as seen res /\ NoDup seen /\ (polygon_vertices ps = [] -> res = []) /\
    (forall v, In v seen -> In v (polygon_vertices ps) /\ v <> o) /\
    (forall x, In x res -> -180000000 <= lon (v_coord x) <= 180000000).
Proof. exact sweep_well_formed. Qed.
Print Assumptions C48_well_formed_partial.
Example C48_ex : library_orders plain_orders /\ pgeo (mkC 5000000 6000000) /\ (forall c, In c (polygon_vertices hiding_map) -> pgeo c) /\
  In (mkC 5000000 6000000) (polygon_vertices hiding_map) /\ (3 < length (polygon_vertices hiding_map))%nat.
Proof.
  split; [exact library_orders_ex|]. split; [repeat split; vm_compute; congruence|]. split; [|split; [vm_compute; tauto|vm_compute; lia]].
  intros c C. vm_compute in C. repeat (destruct C as [<-|C]; [repeat split; vm_compute; congruence|]). destruct C.
Qed.

(** C48 is false of the code on the maps generation uses: with the periodic copies in the map
    the observer sees its own copies, which normalise to itself, twice *)
Theorem C48_sees_itself_refuted : forall atan2 ord, accurate_atan2 atan2 -> library_orders ord ->
  vis_periodic atan2 ord lone_triangle (mkC 1000000 1000000) = Ok [mkV (mkC 1000000 1000000) true; mkV (mkC 1000000 1000000) true].
Proof. exact sees_itself. Qed.
Print Assumptions C48_sees_itself_refuted.
