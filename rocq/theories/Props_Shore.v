(** C82: endpoints on land.  Beside each theorem an example meets its hypotheses. *)
From Coq Require Import ZArith Reals Bool List Lia Lra.
From Flocq Require Import Core.
From Verif Require Import Base F64 Coordinate Segment Polygon SpecGeom SpecGraph Graph GraphFacts GraphMore PolygonMore Visgraph VisgraphFacts Periodicity
  Sweep SweepFacts SweepMaps SweepGen SweepCases ShortestPath SearchFacts SearchSpec SearchGraph SearchQuery PathFacts PathMore
  SweepGeo SweepExact SweepGraph SweepLayers SweepWorld SweepForced AngleFacts AngleSort SweepOrder Sphere SphereFacts ShoreFacts Props_Path SweepHashOrder BlockedLegs Props_Sphere.
Import ListNotations.
Local Open Scope Z_scope.

(** C82.  False of the code, for every index that is right on the sphere: the endpoint is moved to the
    nearest point of the great circle, which in the plane is well inside the polygon, and the path
    from there is the straight line. *)
Theorem C82_moved_refuted : exists c d P, clear_polygon P /\ convex 1 P /\ ~ in_interior P 1 (lon d) (lat d) /\
  forall en g radius fuel, fit_for_queries en g ->
    right_about_point [P] (en_index en) c -> right_about_point [P] (en_index en) d -> right_about_shore [P] (en_index en) c ->
    (forall f, only_met_edges [P] (en_index en) (mkS f d)) ->
    exists f, shortest_path fuel en g c d radius true = Some (Ok [f; d]) /\ in_interior P 1 (lon f) (lat f).
Proof.
  exists on_the_ice, at_the_equator, polar_triangle. split; [apply fair_b_ok; vm_compute; reflexivity|]. split; [apply convex_b_ok; vm_compute; reflexivity|].
  split; [apply (not_interior_by _ southern_shore); [vm_compute; tauto|vm_compute; congruence]|exact ice_query].
Qed.
Print Assumptions C82_moved_refuted.

(** the hypotheses are met by an index that answers as the sphere does *)
Definition ice_latitude : Z := ZnearestE (asin (2 / sqrt 7) * 180000000 / PI).
Definition ice_index : index := mkI (fun c => coord_eqb c on_the_ice) (fun _ => Ok southern_shore) (fun _ => []) (fun _ _ => mkC 0 ice_latitude).
Lemma ice_foot : rounds_to shore_point (mkC 0 ice_latitude).
Proof.
  destruct root_7 as [P7 S7]. pose proof PI_RGT_0 as Pi.
  assert (B : (0 < 2 / sqrt 7 < 1)%R).
  { split; [apply Rdiv_lt_0_compat; lra|]. apply (Rmult_lt_reg_r (sqrt 7)); [lra|]. unfold Rdiv. rewrite Rmult_assoc, Rinv_l by lra.
    destruct (Rlt_or_le 2 (sqrt 7)) as [L|L]; [lra|]. assert (sqrt 7 * sqrt 7 <= 2 * 2)%R by (apply Rmult_le_compat; lra). lra. }
  exists (asin (2 / sqrt 7)), 0%R. split; [pose proof (asin_bound (2 / sqrt 7)); lra|]. split; [lra|]. split; [|split].
  - rewrite cos_0, sin_0, sin_asin, cos_asin by lra. unfold shore_point. f_equal; [|ring].
    replace (1 - (2 / sqrt 7)²)%R with (3 / 7)%R; [rewrite sqrt_div_alt by lra; ring|].
    unfold Rsqr. replace (2 / sqrt 7 * (2 / sqrt 7))%R with (4 / (sqrt 7 * sqrt 7))%R by (field; lra). rewrite S7. field.
  - cbn [lat]. unfold radians, ice_latitude. set (x := (asin (2 / sqrt 7) * 180000000 / PI)%R).
    replace (asin (2 / sqrt 7)) with (x / 180000000 * PI)%R by (unfold x; field; lra).
    replace (IZR (ZnearestE x) / 180000000 * PI - x / 180000000 * PI)%R with (- (x - IZR (ZnearestE x)) * (PI / 180000000))%R by field.
    rewrite Rabs_mult, Rabs_Ropp, (Rabs_pos_eq (PI / 180000000)) by lra. replace (1 / 180000000 * PI / 2)%R with (/ 2 * (PI / 180000000))%R by field.
    apply Rmult_le_compat_r; [lra|]. apply Znearest_half.
  - cbn [lon]. rewrite deg_0, Rminus_0_r, Rabs_R0. unfold radians. lra.
Qed.
Example C82_ex : fit_for_queries (lone ice_index polar_triangle) (make_graph [polar_triangle]) /\
  right_about_point [polar_triangle] ice_index on_the_ice /\ right_about_point [polar_triangle] ice_index at_the_equator /\
  right_about_shore [polar_triangle] ice_index on_the_ice /\ (forall f, only_met_edges [polar_triangle] ice_index (mkS f at_the_equator)) /\
  in_interior polar_triangle 1 0 ice_latitude.
Proof.
  destruct (shore_latitude _ ice_foot) as [_ B]. cbn [lat] in B.
  assert (Out : forall P c, inside_loop P c -> outside_loop P c -> False) by (intros P c I (e & E & N); specialize (I e E); apply (Rlt_asym _ _ I N)).
  split; [|split; [|split; [|split; [|split]]]].
  - apply lone_fit; [intros c H; vm_compute in H; repeat (destruct H as [<-|H]; [unfold ngeo; cbn [lon lat]; lia|]); destruct H|].
    intros c _ _. exists southern_shore. cbn [ice_index ix_closest ix_project southern_shore e1 e2]. unfold ngeo. cbn [lon lat]. repeat split; lia.
  - split; [reflexivity|]. intros H. exfalso. apply (Out polar_triangle on_the_ice ice_inside), H. left. reflexivity.
  - split; [|reflexivity]. intros (P & [<-|[]] & I). exfalso. exact (Out _ _ I equator_outside).
  - exists southern_shore, polar_triangle, shore_point. split; [reflexivity|]. split; [left; reflexivity|]. split; [exact shore_edge|]. split; [exact shore_point_on|].
    split; [|exact ice_foot]. intros Q e p [<-|[]] E O. apply (shore_point_nearest e p E O).
  - intros f e [].
  - apply (foot_inside (mkC 0 ice_latitude) eq_refl B).
Qed.

(** C82 where the foot point is not on the land side of its edge in the plane: it is not inside the
    polygon of the edge, and no leg of the path at it leads through that polygon.  Missing: foot points
    that round to the land side, the index the program has (false, above), foot points that are corners
    (their legs are edges of the graph, C68), straight answers (C72). *)
Theorem C82_moved_partial : forall en g source destination radius flag,
  fit_for_queries en g -> own_sweep en g -> in_the_map source -> in_the_map destination ->
  forall fuel path lc c e P, shortest_path fuel en g source destination radius flag = Some (Ok path) ->
  correction_of en source destination lc -> searched en lc ->
  (c = lc_source lc /\ lc_source_edge lc = Some e) \/ (c = lc_dest lc /\ lc_dest_edge lc = Some e) ->
  edge_of P e -> turn (e1 e) (e2 e) c <= 0 -> has_vertex g c = false ->
  ~ in_interior P 1 (lon c) (lat c) /\
  forall pre a b post, path = pre ++ a :: b :: post -> a = c \/ b = c -> ~ through_interior a b P.
Proof. exact moved_leg. Qed.
Print Assumptions C82_moved_partial.

Lemma same_sweeps fuel ix vis vis' rows pick g s d radius flag :
  (forall ns nd lc, normalize_coord s = Ok ns -> normalize_coord d = Ok nd -> handle_land_collisions ix ns nd flag = Ok lc ->
     vis (lc_source lc) = vis' (lc_source lc) /\ vis (lc_dest lc) = vis' (lc_dest lc)) ->
  shortest_path fuel (mkEnv ix vis rows pick) g s d radius flag = shortest_path fuel (mkEnv ix vis' rows pick) g s d radius flag.
Proof.
  intros H. unfold shortest_path. destruct (normalize_coord s) as [ns| |] eqn:Es; try reflexivity. destruct (normalize_coord d) as [nd| |] eqn:Ed; try reflexivity.
  cbn [bind en_index en_vis en_rows en_pick]. destruct (handle_land_collisions ix ns nd flag) as [lc| |] eqn:El; try reflexivity. cbn [bind].
  destruct (H ns nd lc eq_refl eq_refl El) as [A B].
  assert (C : create_modified_graph vis rows g lc = create_modified_graph vis' rows g lc).
  { unfold create_modified_graph. cbn [foldM]. unfold add_endpoint. cbn [fst snd]. rewrite A, B. reflexivity. }
  rewrite C. reflexivity.
Qed.
(** a point inside the northern island, moved to its southern edge; the path leads along this edge *)
Definition inland : coord := mkC 15000000 50000000.
Definition landing : coord := mkC 15000000 45000000.
Definition beyond : coord := mkC 60000000 60000000.
Definition shore : segment := mkS (mkC 0 45000000) (mkC 45000000 45000000).
Definition shore_index : index := mkI (fun c => coord_eqb c inland) (fun _ => Ok shore) (fun _ => [mkS (mkC 45000000 45000000) (mkC 0 60000000)]) (fun _ _ => landing).
Definition shore_env (vis : vis_oracle) : env := mkEnv shore_index vis no_rows (fun _ => first_best f_1).
Definition shore_lc : correction := mkLC landing beyond (Some shore) None.
Lemma shore_run : shortest_path 5 (shore_env (settled [north_island] false)) (make_graph [north_island]) inland beyond f_max true =
  Some (Ok [landing; mkC 45000000 45000000; beyond]).
Proof. vm_compute. reflexivity. Qed.
Example C82_partial_ex : forall atan2, accurate_atan2 atan2 ->
  let g := make_graph [north_island] in let en := shore_env (endpoint_vis atan2 (fun _ => plain_orders) g) in
  fit_for_queries en g /\ own_sweep en g /\ in_the_map inland /\ in_the_map beyond /\
  shortest_path 5 en g inland beyond f_max true = Some (Ok [landing; mkC 45000000 45000000; beyond]) /\
  correction_of en inland beyond shore_lc /\ searched en shore_lc /\ edge_of north_island shore /\ turn (e1 shore) (e2 shore) landing <= 0 /\ has_vertex g landing = false /\
  in_interior north_island 1 (lon inland) (lat inland).
Proof.
  intros atan2 T g en. subst g. split; [|split; [|split; [|split; [|split; [|split; [|split; [|split; [|split; [|split]]]]]]]]].
  - assert (B : built (make_graph [north_island])) by (exists [north_island], []; split; [constructor|reflexivity]).
    assert (Gv : forall c, In c (get_vertices (make_graph [north_island])) -> ngeo c) by (intros c H; vm_compute in H; repeat (destruct H as [<-|H]; [unfold ngeo; cbn [lon lat]; lia|]); destruct H).
    split; [exact B|]. split; [exact Gv|]. split; [intros v l; reflexivity|]. split; [apply endpoint_vis_answers; [exact B|exact Gv|intros c; exact plain_orders_ok]|].
    intros c _ _. exists shore. unfold ngeo, shore. cbn. repeat split; lia.
  - exists atan2, (fun _ => plain_orders). split; [intros c; exact plain_orders_ok|reflexivity].
  - repeat split; vm_compute; congruence.
  - repeat split; vm_compute; congruence.
  - rewrite <- shore_run. unfold en, shore_env. apply same_sweeps. intros ns nd lc Es Ed El.
    vm_compute in Es. injection Es as <-. vm_compute in Ed. injection Ed as <-. vm_compute in El. injection El as <-. cbn [lc_source lc_dest].
    unfold endpoint_vis. split; (apply settled_endpoint; [exact T|vm_compute; reflexivity|vm_compute; congruence]).
  - exists inland, beyond. split; [vm_compute; reflexivity|]. split; [vm_compute; reflexivity|]. split; [right; split; [vm_compute; reflexivity|]; exists shore; auto|left; split; [vm_compute; reflexivity|auto]].
  - apply searched_iff. exists (mkS (mkC 45000000 45000000) (mkC 0 60000000)). split; [left; reflexivity|]. intros sh [X|X]; [injection X as <-; vm_compute; reflexivity|discriminate X].
  - apply edges_in. left. reflexivity.
  - vm_compute. congruence.
  - vm_compute. reflexivity.
  - intros e E. apply edges_in in E. vm_compute in E. repeat (destruct E as [<-|E]; [vm_compute; reflexivity|]). destruct E.
Qed.
