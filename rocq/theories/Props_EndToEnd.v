(** C83: from a shape file to a path.  Beside each theorem an example meets its hypotheses. *)
From Coq Require Import ZArith Reals Bool List Lia Lra Permutation String.
From Flocq Require Import Core BinarySingleNaN.
From Verif Require Import Base F64 Coordinate Polygon PolygonMore SpecGeom SpecGraph F64Facts CoordinateFacts Graph GraphFacts GraphMore Visgraph VisgraphFacts Serializer SerializerMore Segment Sweep Periodicity
  AngleFacts AngleSort SweepGeo SweepMaps SweepGen SweepForced SweepCases SweepSound SweepExact SweepGraph SweepLayers SweepWorld SweepHashOrder
  ShortestPath DistFacts SearchFacts SearchSpec SearchGraph SearchQuery PathFacts PathMore FreePaths BlockedLegs PyLayer PyFacts Pipeline PipelineFacts PipelineFree
  Props_Path Props_Sweep Props_Python Props_Pipeline Props_Exact.
Import ListNotations.
Local Open Scope Z_scope.

(** ** C83: a path over the graph of a shape file avoids the land of the file, and no route is shorter *)
(** proved for shapes which make convex polygons all of whose vertices have a clear view, and for
    endpoints at sea with a clear view or at vertices; missing: other maps, see the refutation *)
Theorem C83_one_run_partial : forall atan2 ords shapes ps out s limit, accurate_atan2 atan2 -> (forall v, library_orders (ords v)) ->
  charted_shapes shapes ps limit -> fresh s out ->
  exists s', generate_cmd (fun ps v => vis_periodic atan2 (ords v) ps v) (Ok shapes) out s = (s', Ok tt) /\ answers_charted atan2 ps limit out s'.
Proof. exact generate_free. Qed.
Print Assumptions C83_one_run_partial.
(** the same of a graph generated in splits and merged *)
Theorem C83_splits_partial : forall atan2 ords shuffle enum shapes ps (num : nat) dir inputs out s limit, accurate_atan2 atan2 -> (forall v, library_orders (ords v)) ->
  (forall l, Permutation (shuffle l) l) -> enumerates enum -> charted_shapes shapes ps limit -> ps <> [] ->
  (1 <= num)%nat -> NoDup (map dir (seq 0 num)) -> (forall i, (i < num)%nat -> fresh s (dir i)) ->
  Permutation inputs (map dir (seq 0 num)) -> fresh s out -> ~ In out inputs ->
  let vis := fun ps v => vis_periodic atan2 (ords v) ps v in
  exists s1 s2, sequence (map (fun cur => generate_range_cmd vis shuffle (Ok shapes) (dir cur) (Z.of_nat cur) (Z.of_nat num)) (seq 0 num)) s = (s1, Ok tt) /\
    merge_cmd limit enum inputs out s1 = (s2, Ok tt) /\ answers_charted atan2 ps limit out s2.
Proof. exact distributed_free. Qed.
Print Assumptions C83_splits_partial.

(** *** the three islands of C67 as a shape file *)
(** the double nearest to half a microdegree beyond [n] microdegrees *)
Definition degrees_of (n : Z) : f64 := fdiv (f_of_Z (2 * n + Z.sgn n)) (f_of_Z 2000000).
(** a closed ring, clockwise as in a shape file *)
Definition shape_of (p : polygon) : shape :=
  mkSh true (map (fun c => (degrees_of (lon c), degrees_of (lat c))) (rev (verts p) ++ firstn 1 (rev (verts p)))) [O].
Definition globe_b (p : f64 * f64) : bool :=
  is_finite (fst p) && is_finite (snd p) && fleb (fz (-180)) (fst p) && fleb (fst p) (fz 180) && fleb (fz (-90)) (snd p) && fleb (snd p) (fz 90).
Lemma globe_b_ok p : globe_b p = true -> on_earth (flip p).
Proof.
  unfold globe_b. rewrite !andb_true_iff. intros (((((A & B) & C) & D) & E) & F).
  destruct (fz_finite (-180)) as [F1 V1]; [lia|]. destruct (fz_finite 180) as [F2 V2]; [lia|]. destruct (fz_finite (-90)) as [F3 V3]; [lia|]. destruct (fz_finite 90) as [F4 V4]; [lia|].
  apply fleb_iff in C; [|assumption..]. apply fleb_iff in D; [|assumption..]. apply fleb_iff in E; [|assumption..]. apply fleb_iff in F; [|assumption..].
  rewrite V1 in C. rewrite V2 in D. rewrite V3 in E. rewrite V4 in F. unfold on_earth, flip. cbn [p_longitude p_latitude].
  split; [exact A|]. split; [exact B|]. split; apply Rabs_le; lra.
Qed.
Lemma shapes_of_ok ps : forallb (fun p => forallb globe_b (sh_points (shape_of p))) ps = true ->
  Forall (fun s => nth_error (sh_parts s) 0 = Some O) (map shape_of ps) /\ Forall on_earth_shape (map shape_of ps).
Proof.
  intros H. split; apply Forall_forall; intros s S; apply in_map_iff in S; destruct S as (p & <- & P); [reflexivity|].
  rewrite forallb_forall in H. specialize (H p P). apply Forall_forall. intros q Q. apply globe_b_ok. rewrite forallb_forall in H. apply H, Q.
Qed.
Definition read_b (ps : list polygon) : bool :=
  match read_polygons_from_shapefile (map shape_of ps) with Ok qs => if list_eq_dec polygon_dec qs ps then true else false | _ => false end.
Lemma read_b_ok ps : read_b ps = true -> read_polygons_from_shapefile (map shape_of ps) = Ok ps.
Proof. unfold read_b. destruct (read_polygons_from_shapefile _) as [qs| |]; try discriminate. destruct (list_eq_dec polygon_dec qs ps); [congruence|discriminate]. Qed.

Lemma isles_charted : charted_shapes (map shape_of isles) isles 10000.
Proof.
  destruct (shapes_of_ok isles) as [A B]; [vm_compute; reflexivity|]. destruct isles_hypotheses as (F & N & C).
  split; [exact A|]. split; [exact B|]. split; [apply read_b_ok; vm_compute; reflexivity|]. split; [exact F|]. split; [exact N|]. split; [exact C|]. split; vm_compute; congruence.
Qed.
(** from the shape file to a path between two points which the middle island separates *)
Example C83_ex : forall atan2 ords, accurate_atan2 atan2 -> (forall v, library_orders (ords v)) ->
  fresh disk ["out"%string] /\ charted_shapes (map shape_of isles) isles 10000 /\
  let s := mkC (-100000000) 5000000 in let d := mkC 80000000 3000000 in
  vis_coord (place (-100) 5) = Ok s /\ vis_coord (place 80 3) = Ok d /\ ~ free_line isles s d /\
  exists s' g fuel path, generate_cmd (fun ps v => vis_periodic atan2 (ords v) ps v) (Ok (map shape_of isles)) ["out"%string] disk = (s', Ok tt) /\
    load_graph_from_file 10000 (default_graph_path ["out"%string]) s' = Ok g /\
    charted_query atan2 ords isles g (isles_env atan2 ords g) s d s d /\
    interpolate_cmd 10000 ["out"%string] (isles_env atan2 ords) fuel (place (-100) 5) (place 80 3) f_max true s' = Some (Ok (convert path)) /\ free_legs g isles path.
Proof.
  intros atan2 ords A L. assert (Fr : fresh disk ["out"%string]) by (repeat split). split; [exact Fr|]. split; [exact isles_charted|]. intros s d.
  assert (E1 : vis_coord (place (-100) 5) = Ok s) by (vm_compute; reflexivity). assert (E2 : vis_coord (place 80 3) = Ok d) by (vm_compute; reflexivity).
  split; [exact E1|]. split; [exact E2|]. destruct isles_points as (V1 & V2 & Nf & F1 & F2). split; [exact Nf|].
  destruct (C83_one_run_partial atan2 ords _ _ _ _ _ A L isles_charted Fr) as (s' & E & g & Eg & H). exists s', g.
  assert (Cq : charted_query atan2 ords isles g (isles_env atan2 ords g) s d s d).
  { split; [exact L|]. split; [reflexivity|]. split; [intros v l; reflexivity|]. split; [intros c _ X; discriminate X|].
    split; [repeat split; vm_compute; congruence|]. split; [repeat split; vm_compute; congruence|]. split; [vm_compute; reflexivity|]. split; [vm_compute; reflexivity|].
    split; [reflexivity|]. split; [reflexivity|]. split; (split; [split; vm_compute; congruence|right; assumption]). }
  destruct (H ords (isles_env atan2 ords) (place (-100) 5) (place 80 3) s d s d f_max true E1 E2 Cq) as (n & K); [intros X; discriminate X|].
  exists n. destruct (K n (le_n n)) as [(path & R & _ & _ & Fl & _)|(_ & _ & X)].
  - exists path. split; [exact E|]. split; [exact Eg|]. split; [exact Cq|]. split; [exact R|exact Fl].
  - exfalso. apply X. set (p := mkC 1000000 (-40300000)). assert (Ip : In p (polygon_vertices isles)) by (vm_compute; tauto). rewrite wrap_0 in F1, F2.
    exists [p; d], (apart s p + (apart p d + 0))%R. split.
    + apply route_straight; [exact F1|discriminate|right; left; reflexivity|left; exact Ip|right; exact Ip|].
      apply route_straight; [exact F2|discriminate|left; exact Ip|right; right; reflexivity|left; exact Ip|]. constructor.
    + apply all_within0; [split; vm_compute; congruence|repeat constructor; vm_compute; congruence].
Qed.
(** and in three splits *)
Example C83_splits_ex : (forall l, Permutation (rotate l) l) /\ enumerates distinct /\ charted_shapes (map shape_of isles) isles 10000 /\ isles <> [] /\
  NoDup (map split_dir (seq 0 3)) /\ (forall i, (i < 3)%nat -> fresh split_disk (split_dir i)) /\
  Permutation [split_dir 2; split_dir 0; split_dir 1] (map split_dir (seq 0 3)) /\ fresh split_disk ["out"%string] /\
  ~ In ["out"%string] [split_dir 2; split_dir 0; split_dir 1].
Proof.
  destruct C66_ex as (_ & A & B & _ & C & D & E & F & G & _). split; [exact A|]. split; [exact B|]. split; [exact isles_charted|]. split; [discriminate|].
  split; [exact C|]. split; [exact D|]. split; [exact E|]. split; [exact F|exact G].
Qed.

(** false of the code for other shapes: three triangles, no two of which meet, and a path which leads
    straight through one of them *)
Definition stored (g : graph) : res graph := f <- serialize_to_file g None ;; deserialize_from_file 10000 f.
Definition straight_through (g : graph) : bool :=
  (if list_eq_dec polygon_dec (get_polygons g) walled_map then true else false) && has_vertex g hidden_vertex &&
  match is_edge_meridian_crossing g (mkC 0 0) hidden_vertex with Ok true => false | _ => true end &&
  match shortest_path 5 (blocked_env (settled walled_map false)) g (mkC 0 0) hidden_vertex f_max true with
  | Some (Ok [a; b]) => coord_eqb a (mkC 0 0) && coord_eqb b hidden_vertex | _ => false end.
Lemma walled_stored : match blocked_graph with Ok g => match stored g with Ok g' => straight_through g' | _ => false end | _ => false end = true.
Proof. vm_compute. reflexivity. Qed.
Lemma walled_graph atan2 : accurate_atan2 atan2 -> generate (fun v => vis_periodic atan2 plain_orders walled_map v) walled_map = blocked_graph.
Proof.
  intros T. apply generate_same. intros v V.
  assert (C : forallb (fun v => forced_order_b (copies_of walled_map) v (order_around (copies_of walled_map) v)) (polygon_vertices walled_map) = true) by (vm_compute; reflexivity).
  pose proof (proj1 (forallb_forall (fun v => forced_order_b (copies_of walled_map) v (order_around (copies_of walled_map) v)) (polygon_vertices walled_map)) C v V) as Cv.
  apply settled_periodic; [exact T|vm_compute; reflexivity|exact Cv|vm_compute; congruence].
Qed.
Definition hidden_place : pcoord := flip (degrees_of (lon hidden_vertex), degrees_of (lat hidden_vertex)).
Definition blocked_query (atan2 : Z -> Z -> f64) (g : graph) : env := blocked_env (endpoint_vis atan2 (fun _ => plain_orders) g).
Theorem C83_free_of_land_refuted : forall atan2, accurate_atan2 atan2 ->
  exists shapes ps, Forall (fun s => nth_error (sh_parts s) 0 = Some O) shapes /\ Forall on_earth_shape shapes /\ read_polygons_from_shapefile shapes = Ok ps /\
    Forall (convex 1) ps /\ NoDup (polygon_vertices ps) /\ (forall c, In c (polygon_vertices ps) -> ngeo c) /\ ForallOrdPairs disjoint ps /\
    exists s' g path, generate_cmd (fun ps v => vis_periodic atan2 plain_orders ps v) (Ok shapes) ["out"%string] disk = (s', Ok tt) /\
      load_graph_from_file 10000 (default_graph_path ["out"%string]) s' = Ok g /\ usual_env (blocked_query atan2 g) g /\ minimal f_1 (en_pick (blocked_query atan2 g)) /\
      vis_coord (place 0 0) = Ok (mkC 0 0) /\ vis_coord hidden_place = Ok hidden_vertex /\ ix_crossing (en_index (blocked_query atan2 g)) (mkS (mkC 0 0) hidden_vertex) <> [] /\
      interpolate_cmd 10000 ["out"%string] (blocked_query atan2) 5 (place 0 0) hidden_place f_max true s' = Some (Ok (convert path)) /\ ~ free_legs g ps path.
Proof.
  intros atan2 T. exists (map shape_of walled_map), walled_map. destruct (shapes_of_ok walled_map) as [A B]; [vm_compute; reflexivity|]. destruct walled_facts as (W1 & W2 & W3 & W4).
  assert (Er : read_polygons_from_shapefile (map shape_of walled_map) = Ok walled_map) by (apply read_b_ok; vm_compute; reflexivity).
  repeat (split; [assumption|]). pose proof walled_stored as S. rewrite <- (walled_graph atan2 T) in S.
  destruct (generate (fun v => vis_periodic atan2 plain_orders walled_map v) walled_map) as [g0| |] eqn:Eg; try discriminate S.
  unfold stored in S. destruct (serialize_to_file g0 None) as [f| |] eqn:Ef; try discriminate S. cbn [bind] in S.
  destruct (deserialize_from_file 10000 f) as [g| |] eqn:El; try discriminate S.
  exists (put (default_graph_path ["out"%string]) (Doc f) (put ["out"%string] Dir disk)), g, [mkC 0 0; hidden_vertex].
  assert (Ld : load_graph_from_file 10000 (default_graph_path ["out"%string]) (put (default_graph_path ["out"%string]) (Doc f) (put ["out"%string] Dir disk)) = Ok g).
  { unfold load_graph_from_file. rewrite put_same. exact El. }
  unfold straight_through in S. rewrite !andb_true_iff in S. destruct S as (((S1 & S2) & S3) & S4). destruct (list_eq_dec polygon_dec (get_polygons g) walled_map) as [Ep|]; [|discriminate S1].
  assert (E1 : vis_coord (place 0 0) = Ok (mkC 0 0)) by (vm_compute; reflexivity). assert (E2 : vis_coord hidden_place = Ok hidden_vertex) by (vm_compute; reflexivity).
  split.
  { unfold generate_cmd, andthen, lift, effect. change (mkdir ["out"%string] disk) with (Ok (put ["out"%string] Dir disk)). cbn [bind].
    rewrite Er, Eg. unfold save_graph_to_file. rewrite default_parent, put_same, put_other by apply default_differs. replace (disk (default_graph_path ["out"%string])) with (@None node) by reflexivity. cbn [is_dir negb andb]. rewrite Ef. reflexivity. }
  split; [exact Ld|]. split.
  { split; [exists atan2, (fun _ => plain_orders); split; [intros _; exact plain_orders_ok|reflexivity]|]. split; [intros v l; reflexivity|intros c _ X; discriminate X]. }
  split; [apply first_best_minimal|]. split; [exact E1|]. split; [exact E2|]. split; [discriminate|]. split.
  - unfold interpolate_cmd. rewrite Ld. unfold interpolate. rewrite E1, E2. unfold blocked_query.
    rewrite (same_query 5 _ (settled walled_map false)); [|vm_compute; reflexivity|vm_compute; reflexivity| |exact S2].
    + destruct (shortest_path 5 _ g (mkC 0 0) hidden_vertex f_max true) as [[[|a [|b [|c l]]]| |]|]; try discriminate S4.
      apply andb_true_iff in S4. destruct S4 as [X Y]. apply coord_eqb_spec in X. apply coord_eqb_spec in Y. subst. reflexivity.
    + unfold endpoint_vis. rewrite Ep. apply settled_endpoint; [exact T|vm_compute; reflexivity|vm_compute; congruence].
  - intros F. destruct (F 0%nat (mkC 0 0) hidden_vertex eq_refl eq_refl) as [X|[X _]]; [|rewrite X in S3; discriminate S3].
    apply (walled_lines walled_map 0); [left; reflexivity|right; left; reflexivity|lia|]. rewrite wrap_0. exact X.
Qed.
Print Assumptions C83_free_of_land_refuted.
