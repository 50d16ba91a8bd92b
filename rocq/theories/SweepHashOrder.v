(** A map on which the generated graph depends on the iteration order of a hash set.
    Two edges cross the eastward half line from (0, 0) less than a microdegree apart. *)
From Coq Require Import ZArith Reals Bool List Lia Permutation.
From Verif Require Import Base F64 Coordinate Segment Polyline Polygon Periodicity Graph Visgraph VisgraphFacts SpecGeom SpecGraph CoordinateFacts
  PolygonMore GraphFacts GraphMore Sweep SweepFacts SweepMaps SweepGen SweepForced SweepCases AngleFacts AngleSort.
Import ListNotations.
Local Open Scope Z_scope.

Definition rear : polygon := mkP [mkC 0 0; mkC (-1000) 600; mkC (-1000) (-610)].
Definition sliver : polygon := mkP [mkC 1000 (-100); mkC 1000 100; mkC 950 7].
Definition block : polygon := mkP [mkC 1000 (-4000); mkC 4000 130; mkC 3000 2500; mkC 1001 5000].
Definition close_map : list polygon := [rear; sliver; block].
Definition seen_far : coord := mkC 3000 2500.
(** the segments the other way round *)
Definition other_orders : orders := mkO (fun l => l) (@rev segment) isort.
Lemma other_orders_ok : library_orders other_orders.
Proof. destruct plain_orders_ok as (A & _ & C & D). split; [exact A|]. split; [intros l; apply Permutation_sym, Permutation_rev|]. split; [exact C|exact D]. Qed.
Definition reports_from (ord : orders) (o : coord) : res (list visible) :=
  let ps := copies_of close_map in
  bind (get_tangent_vector (initial_scanline o)) (fun init =>
    bind (initial_edges o (o_segments ord (flat_map snd (incident_map ps)))) (fun oe => sweep (incident_map ps) init o true (order_around ps o) oe)).

Lemma close_reports atan2 ord v : accurate_atan2 atan2 -> library_orders ord -> In v (polygon_vertices close_map) ->
  vis_periodic atan2 ord close_map v = reports_from ord v.
Proof.
  intros T L V.
  assert (C : forallb (fun v => forced_order_b (copies_of close_map) v (order_around (copies_of close_map) v)) (polygon_vertices close_map) = true) by (vm_compute; reflexivity).
  pose proof (proj1 (forallb_forall (fun v => forced_order_b (copies_of close_map) v (order_around (copies_of close_map) v)) (polygon_vertices close_map)) C v V) as Cv.
  cbv beta in Cv. clear C. unfold vis_periodic. replace (make_polygons_periodic close_map) with (Ok (copies_of close_map)) by (vm_compute; reflexivity).
  cbn [bind]. rewrite (forced_open (copies_of close_map) v (order_around (copies_of close_map) v) true atan2 ord Cv); [reflexivity|vm_compute; congruence|exact T|exact L].
Qed.
Lemma generate_same ps vis vis' : (forall v, In v (polygon_vertices ps) -> vis v = vis' v) -> generate vis ps = generate vis' ps.
Proof.
  intros H. unfold generate. f_equal. generalize (make_graph ps). revert H. generalize (polygon_vertices ps). induction l as [|v l IH]; intros H g; [reflexivity|].
  cbn [foldM]. unfold connect_vertex at 1 3. rewrite (H v (or_introl eq_refl)). destruct (bind (vis' v) _) as [g'| |]; cbn [bind]; [|reflexivity|reflexivity].
  apply IH. intros w W. apply H. right. exact W.
Qed.
Lemma hash_order_shows atan2 : accurate_atan2 atan2 ->
  exists g g', generate (fun v => vis_periodic atan2 plain_orders close_map v) close_map = Ok g /\
    generate (fun v => vis_periodic atan2 other_orders close_map v) close_map = Ok g' /\
    has_edge g (mkC 0 0) seen_far = Ok true /\ has_edge g' (mkC 0 0) seen_far = Ok false.
Proof.
  intros T.
  rewrite (generate_same close_map _ (reports_from plain_orders)); [|intros v V; apply (close_reports atan2 plain_orders v T plain_orders_ok V)].
  rewrite (generate_same close_map (fun v => vis_periodic atan2 other_orders close_map v) (reports_from other_orders)); [|intros v V; apply (close_reports atan2 other_orders v T other_orders_ok V)].
  assert (K : forall ord b, (match generate (reports_from ord) close_map with Ok g => match has_edge g (mkC 0 0) seen_far with Ok c => Bool.eqb c b | _ => false end | _ => false end) = true ->
    exists g, generate (reports_from ord) close_map = Ok g /\ has_edge g (mkC 0 0) seen_far = Ok b).
  { intros ord b. destruct (generate (reports_from ord) close_map) as [g| |]; try discriminate. intros E. exists g. split; [reflexivity|].
    destruct (has_edge g (mkC 0 0) seen_far) as [c| |]; try discriminate E. apply eqb_prop in E. subst c. reflexivity. }
  destruct (K plain_orders true) as (g & G & H); [vm_compute; reflexivity|].
  destruct (K other_orders false) as (g' & G' & H'); [vm_compute; reflexivity|].
  exists g, g'. auto.
Qed.
