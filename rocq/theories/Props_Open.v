(** C90: on maps of any shape, no line or route through open water is missed. *)
From Coq Require Import ZArith Reals Bool List Lia Lra Permutation.
From Flocq Require Import Core BinarySingleNaN.
From Verif Require Import Base F64 Coordinate Segment Polyline Polygon Periodicity Graph Visgraph SpecGeom SpecGraph F64Facts CoordinateFacts PolylineFacts
  PolygonMore GraphFacts GraphMore Sweep SweepFacts SweepMaps SweepGen SweepCases AngleFacts AngleSort SweepOrder SweepGeo SweepExact SweepGraph SweepHalfGraph SweepLayers SweepWorld SweepForced
  ShortestPath DistFacts SearchFacts SearchSpec SearchGraph SearchQuery PathFacts PathMore FreePaths Props_Sweep Props_Path Props_Exact OpenWater.
Import ListNotations.
Local Open Scope Z_scope.

(** C90.  The polygons may be of any shape, touch, or overlap; every line between vertices through
    open water, around the world or not, is an edge, and a direct one is not marked as crossing. *)
Theorem C90_open_lines_are_edges : forall atan2 ords ps g, mapped atan2 ords ps g ->
  forall a b k, In a (polygon_vertices ps) -> In b (polygon_vertices ps) -> a <> b -> -1 <= k <= 1 -> open_line ps a (wrap k b) ->
  has_edge g a b = Ok true /\ (k = 0 -> is_edge_meridian_crossing g a b = Ok false).
Proof.
  intros atan2 ords ps g M a b k A B D K O. destruct (mapped_complete _ _ _ _ M) as (_ & _ & _ & H). destruct (H a b k A B D K O) as (f & An & F).
  unfold answer in An. destruct (has_edge g a b) as [[|]| |]; try discriminate An. destruct (is_edge_meridian_crossing g a b) as [c| |]; try discriminate An.
  split; [reflexivity|]. intros Z. inversion An; subst c. rewrite (F Z). reflexivity.
Qed.
Print Assumptions C90_open_lines_are_edges.

(** a returned path is no longer than any route through open water, up to rounding and the weighting *)
Theorem C90_no_shorter_route : forall atan2 ords ords' ps g en source destination ns nd,
  mapped atan2 ords ps g -> sea_query atan2 ords' g en source destination ns nd ->
  forall radius flag fuel path w,
  shortest_path fuel en g source destination radius flag = Some (Ok path) -> Z.of_nat (length path) <= 1000000 ->
  minimal w (en_pick en) -> is_finite w = true -> (Rabs (V w) <= bpow radix2 900)%R ->
  exists l r, path = ns :: l /\ journey (road g (en_vis en) (mkLC ns nd None None)) ns l nd r /\
    forall l' r', open_route ps ns nd ns l' nd r' -> Forall (within ns radius) l' -> Z.of_nat (length l') <= 1000000 ->
      (r <= Rmax 1 (V w) * r' * (1 + / 2000000000))%R.
Proof. intros atan2 ords ords' ps g en source destination ns nd M. exact (no_shorter_open atan2 ords' ps g en source destination ns nd (mapped_complete _ _ _ _ M)). Qed.
Print Assumptions C90_no_shorter_route.
(** and where there is such a route, there is a path *)
Theorem C90_route_found : forall atan2 ords ords' ps g en source destination ns nd,
  mapped atan2 ords ps g -> sea_query atan2 ords' g en source destination ns nd ->
  forall radius flag, (exists l r, open_route ps ns nd ns l nd r /\ Forall (within ns radius) l) ->
  exists n, forall fuel, (n <= fuel)%nat -> exists path, shortest_path fuel en g source destination radius flag = Some (Ok path).
Proof. intros atan2 ords ords' ps g en source destination ns nd M. exact (open_route_found atan2 ords' ps g en source destination ns nd (mapped_complete _ _ _ _ M)). Qed.
Print Assumptions C90_route_found.
(** the same of a graph which only answers like the generated one: one that was saved, loaded, or merged *)
Theorem C90_route_found_stored : forall atan2 ords ords' ps g g' en source destination ns nd,
  mapped atan2 ords ps g -> built g' -> (forall P, In P (get_polygons g') <-> In P ps) -> (forall a b, answer g' a b = answer g a b) ->
  sea_query atan2 ords' g' en source destination ns nd ->
  forall radius flag, (exists l r, open_route ps ns nd ns l nd r /\ Forall (within ns radius) l) ->
  exists n, forall fuel, (n <= fuel)%nat -> exists path, shortest_path fuel en g' source destination radius flag = Some (Ok path).
Proof.
  intros atan2 ords ords' ps g g' en source destination ns nd M B P An.
  exact (open_route_found atan2 ords' ps g' en source destination ns nd (complete_like _ _ _ (mapped_complete _ _ _ _ M) B P An)).
Qed.
Print Assumptions C90_route_found_stored.

(** a bay, open to the north, with another island to the north west of it; from inside the bay to the sea south of it *)
Definition bay : list polygon :=
  [mkP [mkC 0 0; mkC 20000000 0; mkC 20000000 21000000; mkC 15000000 19000000; mkC 15000000 5000000; mkC 5000000 5000000; mkC 5000000 20000000; mkC 0 20000000];
   mkP [mkC (-9000000) 24000000; mkC (-5000000) 25000000; mkC (-8000000) 31000000; mkC (-7000000) 26000000]].
Lemma bay_mapped atan2 ords : accurate_atan2 atan2 -> (forall v, library_orders (ords v)) -> exists g, mapped atan2 ords bay g.
Proof.
  intros A L.
  assert (F : Forall clear_polygon bay).
  { assert (C : forallb fair_b bay = true) by (vm_compute; reflexivity). pose proof (proj1 (forallb_forall fair_b bay) C) as C'. clear C.
    apply Forall_forall. intros P HP. apply fair_b_ok; [exact (C' P HP)|]. destruct HP as [<-|[<-|[]]]; vm_compute; reflexivity. }
  assert (W : forall o, In o (polygon_vertices bay) -> swo_on (less_b atan2 o) (polygon_vertices (map_copies bay))).
  { assert (C : forallb (fun o => forallb (fun a => forallb (fun b => separated_b (from o a) (from o b)) (polygon_vertices (map_copies bay))) (polygon_vertices (map_copies bay))) (polygon_vertices bay) = true) by (vm_compute; reflexivity).
    assert (D : forallb wide_b (polygon_vertices (map_copies bay)) = true) by (vm_compute; reflexivity).
    assert (D' : forallb wide_b (polygon_vertices bay) = true) by (vm_compute; reflexivity).
    rewrite forallb_forall in C, D, D'. assert (Wb : forall c, wide_b c = true -> wide c) by (intros c; unfold wide_b, wide; rewrite andb_true_iff, !Z.leb_le; tauto).
    intros o O. apply C44_strict_weak_order_partial; [exact A|apply Wb, D', O|intros v V; apply Wb, D, V|]. intros a b Ia Ib. specialize (C o O). rewrite forallb_forall in C. specialize (C a Ia). rewrite forallb_forall in C. apply separated_b_ok, (C b Ib). }
  destruct (half_graph atan2 ords bay A L F W) as (g & E & _). exists g. split; [exact A|]. split; [exact L|]. split; [exact F|]. split; [|split; [exact W|exact E]].
  intros p o n (P & i & HP & I & -> & -> & ->). apply clear_small.
  - destruct HP as [<-|[<-|[]]]; cbn [verts length] in I; do 9 (destruct i as [|i]; [vm_compute; congruence|]); lia.
  - destruct HP as [<-|[<-|[]]]; cbn [verts length] in I; do 9 (destruct i as [|i]; [vm_compute; congruence|]); lia.
Qed.
Definition bay_index : index := mkI (fun _ => false) (fun _ => Ok (mkS S0 P0)) (fun _ => [mkS (mkC 15000000 5000000) (mkC 5000000 5000000)]) (fun _ c => S0).
Definition bay_env (atan2 : Z -> Z -> f64) (ords : coord -> orders) (g : graph) : env := mkEnv bay_index (endpoint_vis atan2 ords g) no_rows (fun _ => first_best f_1).
(** out of the bay, along the coast, and to the south *)
Lemma bay_route : let s := mkC 10000000 15000000 in let d := mkC 10000000 (-10000000) in
  let p1 := mkC 5000000 20000000 in let p2 := mkC 0 20000000 in let p3 := mkC 0 0 in
  (exists r, open_route bay s d s [p1; p2; p3; d] d r) /\ Forall (within s f_max) [p1; p2; p3; d].
Proof.
  intros s d p1 p2 p3.
  assert (G : forall c, In c (polygon_vertices bay) -> ngeo c) by (intros c C; vm_compute in C; repeat (destruct C as [<-|C]; [split; vm_compute; congruence|]); destruct C).
  assert (O : forall a b, ngeo a -> ngeo b -> open_b bay a b = true -> open_line bay a b) by (intros a b Ga Gb H; apply open_direct; [exact G|exact Ga|exact Gb|apply open_b_ok, H]).
  assert (Gs : ngeo s) by (split; vm_compute; congruence). assert (Gd : ngeo d) by (split; vm_compute; congruence).
  assert (I1 : In p1 (polygon_vertices bay)) by (vm_compute; tauto). assert (I2 : In p2 (polygon_vertices bay)) by (vm_compute; tauto). assert (I3 : In p3 (polygon_vertices bay)) by (vm_compute; tauto).
  split; [eexists|apply all_within0; [exact Gs|repeat constructor; vm_compute; congruence]].
  apply open_straight; [apply O; [exact Gs|apply G, I1|vm_compute; reflexivity]|discriminate|right; left; reflexivity|left; exact I1|right; exact I1|].
  apply open_straight; [apply O; [apply G, I1|apply G, I2|vm_compute; reflexivity]|discriminate|left; exact I1|left; exact I2|right; exact I2|].
  apply open_straight; [apply O; [apply G, I2|apply G, I3|vm_compute; reflexivity]|discriminate|left; exact I2|left; exact I3|right; exact I3|].
  apply open_straight; [apply O; [apply G, I3|exact Gd|vm_compute; reflexivity]|discriminate|left; exact I3|right; right; reflexivity|left; exact I3|]. constructor.
Qed.
Lemma bay_query atan2 ords g : (forall v, library_orders (ords v)) ->
  sea_query atan2 ords g (bay_env atan2 ords g) (mkC 10000000 15000000) (mkC 10000000 (-10000000)) (mkC 10000000 15000000) (mkC 10000000 (-10000000)).
Proof.
  intros L. split; [exact L|]. split; [reflexivity|]. split; [intros v l; reflexivity|]. split; [intros c _ X; discriminate X|].
  split; [repeat split; vm_compute; congruence|]. split; [repeat split; vm_compute; congruence|]. split; [vm_compute; reflexivity|]. split; [vm_compute; reflexivity|].
  split; [split; vm_compute; congruence|]. split; [split; vm_compute; congruence|]. split; [reflexivity|]. split; [reflexivity|discriminate].
Qed.
Example C90_ex : forall atan2 ords, accurate_atan2 atan2 -> (forall v, library_orders (ords v)) ->
  let s := mkC 10000000 15000000 in let d := mkC 10000000 (-10000000) in
  let p1 := mkC 5000000 20000000 in let p2 := mkC 0 20000000 in let p3 := mkC 0 0 in
  ~ open_line bay s d /\ ~ open_line bay p1 p3 /\
  exists g r, mapped atan2 ords bay g /\ sea_query atan2 ords g (bay_env atan2 ords g) s d s d /\ minimal f_1 (en_pick (bay_env atan2 ords g)) /\
    open_route bay s d s [p1; p2; p3; d] d r /\ Forall (within s f_max) [p1; p2; p3; d] /\
    exists fuel path, shortest_path fuel (bay_env atan2 ords g) g s d f_max true = Some (Ok path).
Proof.
  intros atan2 ords A L s d p1 p2 p3. destruct (bay_mapped atan2 ords A L) as (g & M).
  split; [|split].
  - intros X. destruct (X 0) as (H & _). rewrite !wrap_0 in H.
    destruct (H (mkS (mkC 0 0) (mkC 20000000 0)) 10 5 6) as [(Z & _)|[(Z & _)|(_ & [Z|Z])]]; try (vm_compute; congruence); try (cbn; lia); try discriminate; try (split; vm_compute; congruence).
    exists (nth 0 bay (mkP [])), 0%nat. split; [left; reflexivity|]. split; [cbn; lia|reflexivity].
  - intros X. destruct (X 0) as (_ & H & _). rewrite !wrap_0 in H. apply (H (mkC 5000000 5000000) (mkC 0 20000000)).
    + exists (nth 0 bay (mkP [])), 6%nat. split; [left; reflexivity|]. split; [cbn; lia|]. repeat split; reflexivity.
    + left. repeat split; vm_compute; reflexivity.
  - destruct bay_route as [(r & Ro) Wi]. exists g, r. split; [exact M|]. pose proof (bay_query atan2 ords g L) as Sq.
    split; [exact Sq|]. split; [apply first_best_minimal|]. split; [exact Ro|]. split; [exact Wi|].
    destruct (C90_route_found _ _ _ _ _ _ _ _ _ _ M Sq f_max true) as (n & T); [eexists _, _; split; [exact Ro|exact Wi]|]. exists n. apply T. lia.
Qed.
