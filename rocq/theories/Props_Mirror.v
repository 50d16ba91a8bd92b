(** C104: moving or mirroring the map moves or mirrors the graph and keeps the lengths of paths. *)
From Verif Require Import Jordan.
From Coq Require Import ZArith Reals Bool List Lia Lra Permutation String.
From Flocq Require Import Core BinarySingleNaN.
From Verif Require Import PyLayer PyFacts Base F64 Coordinate Segment Polyline Polygon Periodicity Graph Visgraph VisgraphFacts SpecGeom SpecGraph F64Facts CoordinateFacts PolylineFacts
  PolygonMore GraphFacts GraphMore Serializer SerializerMore Sweep SweepFacts SweepMaps SweepGen SweepCases AngleFacts AngleSort SweepOpen SweepOrder SweepGeo SweepSound SweepExact SweepGraph SweepHalfGraph SweepLayers SweepWorld SweepForced SweepHashOrder
  ShortestPath DistFacts SearchFacts SearchSpec SearchGraph SearchQuery PathFacts PathMore FreePaths BlockedLegs OpenWater SweepFronts SeaLines SurveyCheck SurveyFast Coasts CoastExact CoastCheck Pipeline PipelineFacts PipelineFree PipelineOpen PipelineSea CoastRun
  Props_Sweep Props_Path Props_Python Props_Pipeline Props_Exact Props_EndToEnd Props_Open Props_OpenRun Props_Sea Ways WayRun Around Props_Coast Props_Around Mirror.
Import ListNotations.
Local Open Scope Z_scope.

(** C104.  A map may be shifted, mirrored east and west, and mirrored north and south: the graph of the image joins the
    images of two vertices exactly if the graph of the map joins the two, and marks them alike.
    Missing: maps which, or the images of which, are not surveyed or drawn (for which C94 is false). *)
Theorem C104_graph_partial : forall m atan2 atan2' ords ords' ps g g',
  surveyed atan2 ords ps g -> drawn ps -> surveyed atan2' ords' (map (image m) ps) g' -> drawn (map (image m) ps) ->
  forall a b, answer g' (moved m a) (moved m b) = answer g a b.
Proof.
  intros m atan2 atan2' ords ords' ps g g' Su Dr Su' Dr'. exact (image_answers m ps g g' (surveyed_true _ _ _ _ Su Dr) (surveyed_true _ _ _ _ Su' Dr')).
Qed.
Print Assumptions C104_graph_partial.
(** a path is found on the map exactly if one is found on the image *)
Theorem C104_found_partial : forall m atan2 atan2' o1 o2 o1' o2' ps g g' en en' source destination source' destination' ns nd radius rho flag,
  surveyed atan2 o1 ps g -> drawn ps -> coast_query atan2 o2 ps g en source destination ns nd ->
  surveyed atan2' o1' (map (image m) ps) g' -> drawn (map (image m) ps) -> coast_query atan2' o2' (map (image m) ps) g' en' source' destination' (moved m ns) (moved m nd) ->
  reaches radius rho -> (forall v, In v (polygon_vertices ps) \/ v = ns \/ v = nd -> (apart ns v <= rho)%R) ->
  exists n, forall fuel fuel', (n <= fuel)%nat -> (n <= fuel')%nat ->
    ((exists path, shortest_path fuel en g source destination radius flag = Some (Ok path)) <-> exists path', shortest_path fuel' en' g' source' destination' radius flag = Some (Ok path')).
Proof. exact image_found. Qed.
Print Assumptions C104_found_partial.
(** and the two paths are equally long, up to rounding and the weight of the heuristic *)
Theorem C104_paths_partial : forall m atan2 atan2' o1 o2 o1' o2' ps g g' en en' source destination source' destination' ns nd radius rho flag fuel fuel' path path' w w',
  surveyed atan2 o1 ps g -> drawn ps -> coast_query atan2 o2 ps g en source destination ns nd ->
  surveyed atan2' o1' (map (image m) ps) g' -> drawn (map (image m) ps) -> coast_query atan2' o2' (map (image m) ps) g' en' source' destination' (moved m ns) (moved m nd) ->
  reaches radius rho -> (forall v, In v (polygon_vertices ps) \/ v = ns \/ v = nd -> (apart ns v <= rho)%R) ->
  shortest_path fuel en g source destination radius flag = Some (Ok path) -> Z.of_nat (List.length path) <= 1000000 ->
  shortest_path fuel' en' g' source' destination' radius flag = Some (Ok path') -> Z.of_nat (List.length path') <= 1000000 ->
  minimal w (en_pick en) -> is_finite w = true -> (Rabs (V w) <= bpow radix2 900)%R ->
  minimal w' (en_pick en') -> is_finite w' = true -> (Rabs (V w') <= bpow radix2 900)%R ->
  exists l r l' r', path = ns :: l /\ sailed ps ns nd ns l nd r /\
    path' = moved m ns :: l' /\ sailed (map (image m) ps) (moved m ns) (moved m nd) (moved m ns) l' (moved m nd) r' /\
    (r <= Rmax 1 (V w) * r' * (1 + / 2000000000))%R /\ (r' <= Rmax 1 (V w') * r * (1 + / 2000000000))%R.
Proof.
  intros m atan2 atan2' o1 o2 o1' o2' ps g g' en en' source destination source' destination' ns nd radius rho flag fuel fuel' path path' w w' Su Dr Cq Su' Dr' Cq' Re Nr.
  exact (image_paths m atan2 atan2' o1 o2 o1' o2' ps g g' en en' source destination source' destination' ns nd radius rho flag Su Dr Cq Su' Dr' Cq' Re Nr fuel fuel' path path' w w').
Qed.
Print Assumptions C104_paths_partial.

(** mirrored east and west, and moved *)
Definition mirrored := mkM true false 3000000 1000000.
Example C104_ex : forall atan2 ords, accurate_atan2 atan2 -> (forall v, library_orders (ords v)) ->
  let s := mkC 0 0 in let d := mkC 10000000 0 in let qs := map (image mirrored) tips in
  exists g g' fuel path path', surveyed atan2 ords tips g /\ drawn tips /\ surveyed atan2 ords qs g' /\ drawn qs /\
    coast_query atan2 ords tips g (bay_env atan2 ords g) s d s d /\
    coast_query atan2 ords qs g' (bay_env atan2 ords g') (moved mirrored s) (moved mirrored d) (moved mirrored s) (moved mirrored d) /\
    reaches (B754_infinity false) 1000000000 /\ (forall v, In v (polygon_vertices tips) \/ v = s \/ v = d -> (apart s v <= 1000000000)%R) /\
    minimal f_1 (en_pick (bay_env atan2 ords g)) /\ minimal f_1 (en_pick (bay_env atan2 ords g')) /\
    shortest_path fuel (bay_env atan2 ords g) g s d (B754_infinity false) true = Some (Ok path) /\
    shortest_path fuel (bay_env atan2 ords g') g' (moved mirrored s) (moved mirrored d) (B754_infinity false) true = Some (Ok path') /\
    answer g' (moved mirrored s) (moved mirrored d) = Some true.
Proof.
  intros atan2 ords A L s d qs. destruct (C94_tips_ex atan2 ords A L) as (g & Su & Dr & _ & He & Hc).
  destruct (survey_b_ok atan2 ords qs A L) as (g' & Su'); [intros P HP; repeat (destruct HP as [<-|HP]; [vm_compute; reflexivity|]); destruct HP|vm_compute; reflexivity|].
  assert (Dr' : drawn qs) by (apply drawn_b_ok; vm_compute; reflexivity).
  assert (Q : forall ps g s d, surveyed atan2 ords ps g -> In s (polygon_vertices ps) -> In d (polygon_vertices ps) -> in_the_map s -> in_the_map d -> normalize_coord s = Ok s -> normalize_coord d = Ok d ->
    coast_query atan2 ords ps g (bay_env atan2 ords g) s d s d).
  { intros ps h a b Sv Ia Ib Ma Mb Na Nb. assert (F : Forall clear_polygon ps) by apply Sv. pose proof (fun c => clear_ngeo ps c F) as G.
    split; [|split; (split; [apply G; assumption|left; assumption])]. split; [exact L|]. split; [reflexivity|]. split; [intros v l; reflexivity|]. split; [intros c _ X; discriminate X|].
    repeat (split; [assumption|]). split; [apply G, Ia|]. split; [apply G, Ib|]. split; [reflexivity|]. split; [reflexivity|discriminate]. }
  assert (Q1 : coast_query atan2 ords tips g (bay_env atan2 ords g) s d s d) by (apply Q; [exact Su|vm_compute; tauto|vm_compute; tauto|repeat split; vm_compute; congruence|repeat split; vm_compute; congruence|vm_compute; reflexivity|vm_compute; reflexivity]).
  assert (Q2 : coast_query atan2 ords qs g' (bay_env atan2 ords g') (moved mirrored s) (moved mirrored d) (moved mirrored s) (moved mirrored d))
    by (apply Q; [exact Su'|vm_compute; tauto|vm_compute; tauto|repeat split; vm_compute; congruence|repeat split; vm_compute; congruence|vm_compute; reflexivity|vm_compute; reflexivity]).
  assert (Re : reaches (B754_infinity false) 1000000000) by (left; reflexivity).
  assert (Nr : forall v, In v (polygon_vertices tips) \/ v = s \/ v = d -> (apart s v <= 1000000000)%R).
  { intros v Iv. assert (M : In v (s :: d :: polygon_vertices tips)) by (cbn [In]; destruct Iv as [I|[ -> | -> ]]; auto).
    rewrite <- far_apart. assert (C : forallb (fun v => (lon s - lon v) * (lon s - lon v) + (lat s - lat v) * (lat s - lat v) <=? 1000000000 * 1000000000) (s :: d :: polygon_vertices tips) = true) by (vm_compute; reflexivity).
    rewrite forallb_forall in C. specialize (C v M). apply Z.leb_le in C. apply (far_bound s v 1000000000); [lia|exact C]. }
  pose proof (C104_found_partial mirrored atan2 atan2 ords ords ords ords tips g g' _ _ s d _ _ s d (B754_infinity false) 1000000000 true Su Dr Q1 Su' Dr' Q2 Re Nr) as (n & Fo).
  destruct (C95_found_partial atan2 ords ords tips g _ s d s d (B754_infinity false) true Su Dr Q1) as (n1 & H1).
  assert (Ro : exists l r, sailed tips s d s l d r /\ Forall (within s (B754_infinity false)) l).
  { assert (F : Forall clear_polygon tips) by apply Su. pose proof (fun c => clear_ngeo tips c F) as G. assert (Is : In s (polygon_vertices tips)) by (vm_compute; tauto). assert (Id : In d (polygon_vertices tips)) by (vm_compute; tauto).
    set (p := mkC 5000000 (-4100000)). assert (Ip : In p (polygon_vertices tips)) by (vm_compute; tauto).
    assert (O : forall a b, In a (polygon_vertices tips) -> In b (polygon_vertices tips) -> open_b tips a b = true -> open_line tips a b) by (intros a b Ia Ib H; apply open_direct; [exact G|apply G, Ia|apply G, Ib|apply open_b_ok, H]).
    exists [p; d]. eexists. split.
    - apply sailed_straight; [apply O; [exact Is|exact Ip|vm_compute; reflexivity]|discriminate|left; exact Is|left; exact Ip|right; exact Ip|].
      apply sailed_straight; [apply O; [exact Ip|exact Id|vm_compute; reflexivity]|discriminate|left; exact Ip|left; exact Id|right; exact Id|]. constructor.
    - repeat constructor; (apply (reaches_within _ 1000000000); [exact Re|apply G, Is|apply G; assumption|apply Nr; auto]). }
  destruct (proj1 (H1 (Nat.max n n1) (Nat.le_max_r _ _))) as [_ H2]. destruct (H2 Ro) as (path & E).
  destruct (Fo (Nat.max n n1) (Nat.max n n1) (Nat.le_max_l _ _) (Nat.le_max_l _ _)) as [H3 _]. destruct H3 as (path' & E'); [exists path; exact E|].
  exists g, g', (Nat.max n n1), path, path'. do 8 (split; [assumption|]). split; [apply first_best_minimal|]. split; [apply first_best_minimal|]. split; [exact E|]. split; [exact E'|].
  unfold qs in Su', Dr'. rewrite (C104_graph_partial mirrored _ _ _ _ _ _ _ Su Dr Su' Dr'). unfold answer. fold s d in He, Hc. rewrite He, Hc. reflexivity.
Qed.
