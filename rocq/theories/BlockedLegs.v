(** A path whose only leg passes through a polygon, whichever way around the world. *)
From Coq Require Import ZArith Reals Bool List Lia Permutation.
From Flocq Require Import Core BinarySingleNaN.
From Verif Require Import Base F64 Coordinate Segment Polyline Polygon Periodicity Graph Visgraph SpecGeom SpecGraph F64Facts CoordinateFacts
  PolygonMore GraphFacts GraphMore VisgraphFacts Sweep SweepFacts SweepMaps SweepGen SweepCases SweepForced AngleFacts AngleSort SweepOrder SweepGeo SweepSound SweepExact SweepGraph SweepLayers SweepWorld SweepHashOrder
  ShortestPath DistFacts SearchFacts SearchSpec SearchGraph SearchQuery PathFacts PathMore FreePaths Props_Path.
Import ListNotations.
Local Open Scope Z_scope.

(** the map of C45 with its first triangle enlarged, so that it blocks the ways around the world;
    and the same with a triangle whose tip is in the place of the observer *)
Definition big : polygon := mkP [mkC 100000000 (-80000000); mkC 60000000 85000000; mkC 1000000 100000].
Definition before_it : polygon := mkP [mkC 1300000 1300000; mkC 1000000 1400000; mkC 1200000 1000000].
Definition behind_it : polygon := mkP [mkC 2000000 2100000; mkC 2100000 2200000; mkC 2000000 2300000].
Definition tip : polygon := mkP [mkC 0 0; mkC (-1000000) 600000; mkC (-1000000) (-610000)].
Definition walled_map : list polygon := [big; before_it; behind_it].
Definition tipped_map : list polygon := [big; before_it; behind_it; tip].
Definition blocking_index : index := mkI (fun _ => false) (fun _ => Ok hiding_edge) (fun _ => [hiding_edge]) (fun _ c => c).
Definition blocked_env (vis : vis_oracle) : env := mkEnv blocking_index vis no_rows (fun _ => first_best f_1).

(** the sweep with the atan2 comparison settled *)
Definition settled (ps : list polygon) (half : bool) (o : coord) : res (list visible) :=
  bind (get_tangent_vector (initial_scanline o)) (fun init =>
    bind (initial_edges o (flat_map snd (incident_map ps))) (fun oe => sweep (incident_map ps) init o half (order_around ps o) oe)).

Lemma settled_periodic atan2 ps v : accurate_atan2 atan2 -> make_polygons_periodic ps = Ok (copies_of ps) ->
  forced_order_b (copies_of ps) v (order_around (copies_of ps) v) = true -> incident_map (copies_of ps) <> [] ->
  vis_periodic atan2 plain_orders ps v = settled (copies_of ps) true v.
Proof.
  intros T M F N. unfold vis_periodic. rewrite M. cbn [bind].
  rewrite (forced_open (copies_of ps) v (order_around (copies_of ps) v) true atan2 plain_orders F N T plain_orders_ok). reflexivity.
Qed.
Lemma settled_endpoint atan2 ps o : accurate_atan2 atan2 -> forced_order_b ps o (order_around ps o) = true -> incident_map ps <> [] ->
  get_visible_vertices atan2 plain_orders (vistree_of_polygons ps) o false = settled ps false o.
Proof. intros T F N. rewrite (forced_open ps o (order_around ps o) false atan2 plain_orders F N T plain_orders_ok). reflexivity. Qed.

Definition blocked_graph : res graph := generate (settled (copies_of walled_map) true) walled_map.
Lemma blocked_run : (match blocked_graph with
  | Ok g => match shortest_path 5 (blocked_env (settled walled_map false)) g (mkC 0 0) hidden_vertex f_max true with
            | Some (Ok [a; b]) => coord_eqb a (mkC 0 0) && coord_eqb b hidden_vertex | _ => false end
  | _ => false end) = true.
Proof. vm_compute. reflexivity. Qed.

(** the destination is a vertex, so the sweep is asked about the source only *)
Lemma same_query fuel vis vis' g s d radius flag : normalize_coord s = Ok s -> normalize_coord d = Ok d -> vis s = vis' s -> has_vertex g d = true ->
  shortest_path fuel (blocked_env vis) g s d radius flag = shortest_path fuel (blocked_env vis') g s d radius flag.
Proof.
  intros Ns Nd Es Hd. unfold shortest_path. rewrite Ns, Nd. cbn [bind]. unfold handle_land_collisions, correct_endpoint, create_modified_graph, blocked_env, blocking_index.
  cbn [en_index en_vis en_rows en_pick ix_contains orb]. rewrite !andb_false_r. cbn [bind fst snd].
  cbn [lc_source lc_dest lc_source_edge lc_dest_edge foldM]. unfold add_endpoint. cbn [fst snd]. rewrite Es, Hd. reflexivity.
Qed.

(** [P] and [Q] lie on different sides of a line *)
Definition disjoint (P Q : polygon) : Prop := exists a b c,
  (forall v, In v (verts P) -> 0 <= a * lon v + b * lat v + c) /\ (forall v, In v (verts Q) -> a * lon v + b * lat v + c < 0).
Definition disjoint_b (P Q : polygon) (l : Z * Z * Z) : bool :=
  let '(a, b, c) := l in
  forallb (fun v => 0 <=? a * lon v + b * lat v + c) (verts P) && forallb (fun v => a * lon v + b * lat v + c <? 0) (verts Q).
Lemma disjoint_b_ok P Q l : disjoint_b P Q l = true -> disjoint P Q.
Proof.
  destruct l as [[a b] c]. unfold disjoint_b. rewrite andb_true_iff, !forallb_forall. intros [A B]. exists a, b, c.
  split; intros v V; [apply Z.leb_le, A, V|apply Z.ltb_lt, B, V].
Qed.

Lemma tipped_facts : Forall (convex 1) tipped_map /\ NoDup (polygon_vertices tipped_map) /\ (forall c, In c (polygon_vertices tipped_map) -> ngeo c) /\
  ForallOrdPairs disjoint tipped_map.
Proof.
  split; [repeat constructor; apply convex_b_ok; vm_compute; reflexivity|].
  split; [apply nodup_b_ok; vm_compute; reflexivity|].
  split.
  { intros c H. vm_compute in H. repeat (destruct H as [<-|H]; [unfold ngeo; cbn [lon lat]; lia|]). destruct H. }
  assert (S : forall P Q s, disjoint_b P Q (lat (e1 s) - lat (e2 s), lon (e2 s) - lon (e1 s), lon (e1 s) * lat (e2 s) - lon (e2 s) * lat (e1 s)) = true -> disjoint P Q) by (intros P Q s H; eapply disjoint_b_ok, H).
  assert (X : forall P Q x, disjoint_b P Q (-1, 0, x) = true -> disjoint P Q) by (intros P Q x H; eapply disjoint_b_ok, H).
  assert (W : forall P Q x, disjoint_b P Q (1, 0, - x) = true -> disjoint P Q) by (intros P Q x H; eapply disjoint_b_ok, H).
  constructor; [|constructor; [|constructor; [|constructor; constructor]]].
  - constructor; [apply (S _ _ (mkS (mkC 60000000 85000000) (mkC 1000000 100000))); vm_compute; reflexivity|].
    constructor; [apply (S _ _ (mkS (mkC 60000000 85000000) (mkC 1000000 100000))); vm_compute; reflexivity|].
    constructor; [apply (W _ _ 500000); vm_compute; reflexivity|constructor].
  - constructor; [apply (X _ _ 1500000); vm_compute; reflexivity|]. constructor; [apply (W _ _ 500000); vm_compute; reflexivity|constructor].
  - constructor; [apply (W _ _ 500000); vm_compute; reflexivity|constructor].
Qed.
Lemma walled_facts : Forall (convex 1) walled_map /\ NoDup (polygon_vertices walled_map) /\ (forall c, In c (polygon_vertices walled_map) -> ngeo c) /\
  ForallOrdPairs disjoint walled_map.
Proof.
  destruct tipped_facts as (A & _ & C & D). change tipped_map with (walled_map ++ [tip]) in *. split; [apply Forall_app in A; apply A|].
  split; [apply nodup_b_ok; vm_compute; reflexivity|]. split; [intros c I; apply C, in_polygon_vertices; apply in_polygon_vertices in I; destruct I as (P & HP & I); exists P; split; [apply in_or_app; left; exact HP|exact I]|].
  unfold walled_map in *. cbn [app] in D. repeat match goal with H : ForallOrdPairs _ (_ :: _) |- _ => inversion H; clear H; subst end.
  repeat match goal with H : Forall _ (_ :: _) |- _ => inversion H; clear H; subst end. repeat constructor; assumption.
Qed.

Lemma walled_lines ps k : In big ps -> In before_it ps -> -1 <= k <= 1 -> ~ free_line ps (mkC 0 0) (wrap k hidden_vertex).
Proof.
  intros Ib Ii K. assert (D : k = -1 \/ k = 0 \/ k = 1) by lia.
  assert (B : forall P j a c q u, In P ps -> through_b a c (wrap_polygon j P) q u = true -> ~ free_line ps a c).
  { intros P j a c q u HP H X. apply (X P j HP). eapply through_b_ok, H. }
  destruct D as [-> | [-> | ->]].
  - apply (B big (-1) _ _ 358 310 Ib). vm_compute. reflexivity.
  - apply (B before_it 0 _ _ 2000 1180 Ii). vm_compute. reflexivity.
  - apply (B big 0 _ _ 362 50 Ib). vm_compute. reflexivity.
Qed.

Lemma blocked_edge atan2 : accurate_atan2 atan2 ->
  exists g, generate (fun v => vis_periodic atan2 plain_orders tipped_map v) tipped_map = Ok g /\ has_edge g (mkC 0 0) hidden_vertex = Ok true.
Proof.
  intros T. destruct tipped_facts as (_ & _ & G & _).
  pose proof (periodic_reports atan2 (fun _ => plain_orders) tipped_map (fun _ => plain_orders_ok) G) as R.
  destruct (generate_ok tipped_map _ R) as (g & E & _). exists g. split; [exact E|].
  destruct (generate_edges tipped_map _ g (mkC 0 0) hidden_vertex R E) as [H _]; [vm_compute; tauto|vm_compute; tauto|discriminate|].
  apply H. exists false. left. unfold reported. rewrite settled_periodic; [|exact T|vm_compute; reflexivity|vm_compute; reflexivity|vm_compute; congruence].
  assert (B : match settled (copies_of tipped_map) true (mkC 0 0) with Ok xs => existsb (fun x => coord_eqb (v_coord x) hidden_vertex && negb (v_across x)) xs | _ => false end = true) by (vm_compute; reflexivity).
  destruct (settled (copies_of tipped_map) true (mkC 0 0)) as [xs| |]; try discriminate B. apply existsb_exists in B. destruct B as (x & X & B).
  apply andb_true_iff in B. rewrite coord_eqb_spec, negb_true_iff in B. exists xs, x. tauto.
Qed.

Lemma blocked_leg atan2 : accurate_atan2 atan2 ->
  exists g, generate (fun v => vis_periodic atan2 plain_orders walled_map v) walled_map = Ok g /\
    is_edge_meridian_crossing g (mkC 0 0) hidden_vertex <> Ok true /\
    shortest_path 5 (blocked_env (endpoint_vis atan2 (fun _ => plain_orders) g)) g (mkC 0 0) hidden_vertex f_max true = Some (Ok [mkC 0 0; hidden_vertex]).
Proof.
  intros T.
  assert (E : generate (fun v => vis_periodic atan2 plain_orders walled_map v) walled_map = blocked_graph).
  { apply generate_same. intros v V.
    assert (C : forallb (fun v => forced_order_b (copies_of walled_map) v (order_around (copies_of walled_map) v)) (polygon_vertices walled_map) = true) by (vm_compute; reflexivity).
    pose proof (proj1 (forallb_forall (fun v => forced_order_b (copies_of walled_map) v (order_around (copies_of walled_map) v)) (polygon_vertices walled_map)) C v V) as Cv.
    apply settled_periodic; [exact T|vm_compute; reflexivity|exact Cv|vm_compute; congruence]. }
  pose proof blocked_run as R. rewrite <- E in R. clear E. set (r := generate _ walled_map) in *. destruct r as [g| |] eqn:Eg; try discriminate R.
  exists g. split; [reflexivity|].
  pose proof (periodic_reports atan2 (fun _ => plain_orders) walled_map (fun _ => plain_orders_ok) (proj1 (proj2 (proj2 walled_facts)))) as Rp.
  destruct (generate_ok walled_map _ Rp) as (g' & E' & G). fold r in E'. rewrite Eg in E'. inversion E'; subst g'.
  assert (Hv : forall c, has_vertex g c = true <-> In c (polygon_vertices walled_map)) by (intros c; apply (built_has_vertex _ _ _ _ G)).
  split.
  - destruct (grun_queries walled_map _ g G (mkC 0 0) hidden_vertex) as (_ & Q & _). destruct Q as [_ Q]; [discriminate| |rewrite Q; discriminate].
    left. intros H. vm_compute in H. repeat (destruct H as [H|H]; [discriminate H|]). exact H.
  - rewrite (same_query 5 _ (settled walled_map false)); [|vm_compute; reflexivity|vm_compute; reflexivity| |apply Hv; vm_compute; tauto].
    + destruct (shortest_path 5 _ g (mkC 0 0) hidden_vertex f_max true) as [[[|a [|b [|c l]]]| |]|]; try discriminate R.
      apply andb_true_iff in R. destruct R as [A B]. apply coord_eqb_spec in A. apply coord_eqb_spec in B. subst. reflexivity.
    + unfold endpoint_vis. rewrite (built_polys _ _ _ G). apply settled_endpoint; [exact T|vm_compute; reflexivity|vm_compute; congruence].
Qed.
