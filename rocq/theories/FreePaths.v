(** Paths over maps on which every vertex has a clear view: every leg is free, and no free route is shorter. *)
From Coq Require Import ZArith Reals Bool List Lia Lra Psatz Permutation.
From Flocq Require Import Core BinarySingleNaN.
From Verif Require Import Base F64 Coordinate Segment Polyline Polygon Periodicity PeriodicityFacts Graph Visgraph VisgraphFacts SpecGeom SpecGraph F64Facts CoordinateFacts SegmentFacts PolylineFacts
  PolygonMore GraphFacts GraphMore Sweep SweepFacts SweepMaps SweepGen SweepCases AngleFacts AngleSort SweepOrder SweepGeo SweepSound SweepExact SweepGraph
  Overlay OverlayFacts ShortestPath DistFacts SearchFacts SearchSpec SearchGraph SearchQuery PathFacts PathMore.
Import ListNotations.
Local Open Scope Z_scope.

(** ** Vocabulary *)
(** [g] was generated from [ps], all of whose vertices have a clear view of the map and its copies *)
Definition charted (atan2 : Z -> Z -> f64) (ords : coord -> orders) (ps : list polygon) (g : graph) : Prop :=
  accurate_atan2 atan2 /\ (forall v, library_orders (ords v)) /\ Forall clear_polygon ps /\ NoDup (polygon_vertices ps) /\
  (forall o, In o (polygon_vertices ps) -> clear_view o (map_copies ps)) /\
  generate (fun v => vis_periodic atan2 (ords v) ps v) ps = Ok g.
(** [g] is a graph over the polygons [ps], in some order, with the edges which are free *)
Definition drawn (atan2 : Z -> Z -> f64) (ps : list polygon) (g : graph) : Prop :=
  accurate_atan2 atan2 /\ Forall clear_polygon ps /\ NoDup (polygon_vertices ps) /\
  (forall o, In o (polygon_vertices ps) -> clear_view o (map_copies ps)) /\
  built g /\ Permutation (get_polygons g) ps /\
  forall a b f, answer g a b = Some f <->
    In a (polygon_vertices ps) /\ In b (polygon_vertices ps) /\ a <> b /\ (exists k, -1 <= k <= 1 /\ free_line ps a (wrap k b)) /\
    (if f then ~ free_line ps a b else free_line ps a b).
(** a vertex of the map, or a point with a clear view of it *)
Definition charted_point (ps : list polygon) (c : coord) : Prop :=
  ngeo c /\ (In c (polygon_vertices ps) \/ clear_view c ps).
(** the straight line between consecutive points is free, or the edge is marked as crossing the
    meridian and the line around the world is *)
Definition free_legs (g : graph) (ps : list polygon) (path : list coord) : Prop :=
  forall i u v, nth_error path i = Some u -> nth_error path (S i) = Some v ->
    free_line ps u v \/ (is_edge_meridian_crossing g u v = Ok true /\ exists k, (k = 1 \/ k = -1) /\ free_line ps u (wrap k v)).

(** ** Copies do not meet lines within the map *)
Lemma near_copy P a b j : convex 1 P -> NoDup (verts P) -> (forall c, In c (verts P) -> ngeo c) -> ngeo a -> ngeo b -> j <> 0 ->
  ~ through_interior a b (wrap_polygon j P).
Proof.
  intros C N G [A _] [B _] J (q & u & U & H).
  destruct (interior_between _ q _ _ (convex_wrap j P C) (nodup_wrap j P N) ltac:(lia) H) as [(c & Ic & Hc) (d & Id & Hd)].
  unfold wrap_polygon in Ic, Id. cbn [verts] in Ic, Id. apply in_map_iff in Ic. apply in_map_iff in Id.
  destruct Ic as (c' & <- & Ic). destruct Id as (d' & <- & Id). destruct (G c' Ic) as [Gc _]. destruct (G d' Id) as [Gd _]. unfold wrap in *. cbn [lon lat] in *.
  assert (K : j < 0 \/ 0 < j) by lia. destruct K as [K|K].
  - assert (lon d' + j * 360000001 < lon a /\ lon d' + j * 360000001 < lon b) by lia. nia.
  - assert (lon a < lon c' + j * 360000001 /\ lon b < lon c' + j * 360000001) by lia. nia.
Qed.

Lemma clear_ngeo ps c : Forall clear_polygon ps -> In c (polygon_vertices ps) -> ngeo c.
Proof.
  intros F I. apply in_polygon_vertices in I. destruct I as (P & HP & I). rewrite Forall_forall in F.
  destruct (clear_polygon_facts P (F P HP)) as (X & _). rewrite Forall_forall in X. apply X, I.
Qed.
(** the order of the polygons does not matter *)
Lemma vertices_perm ps qs : Permutation ps qs -> Permutation (polygon_vertices ps) (polygon_vertices qs).
Proof. intros P. unfold polygon_vertices. rewrite <- !flat_map_concat_map. apply Permutation_flat_map, P. Qed.
Lemma clear_view_perm o ps qs : Permutation ps qs -> clear_view o ps -> clear_view o qs.
Proof.
  intros P (S1 & S2 & S3 & S4 & S5 & S6 & S7). pose proof (Permutation_sym P) as P'. pose proof (vertices_perm _ _ P') as Pv.
  split; [intros a b A B; apply S1; eapply Permutation_in; eassumption|].
  split; [intros Q HQ; apply S2; eapply Permutation_in; eassumption|].
  split; [intros s (Q & i & HQ & H); apply S3; exists Q, i; split; [eapply Permutation_in; eassumption|exact H]|].
  split; [intros A B HA HB; apply S4; eapply Permutation_in; eassumption|].
  split; [intros a b A B; apply S5; eapply Permutation_in; eassumption|].
  split; [intros Q HQ; apply S6; eapply Permutation_in; eassumption|].
  intros p n (Q & i & HQ & H). apply S7. exists Q, i. split; [eapply Permutation_in; eassumption|exact H].
Qed.

Lemma charted_drawn atan2 ords ps g : charted atan2 ords ps g -> drawn atan2 ps g.
Proof.
  intros (T & L & F & N & C & E). pose proof (fun c => clear_ngeo ps c F) as Ng. pose proof (periodic_reports atan2 ords ps L Ng) as R.
  destruct (generate_ok ps _ R) as (g' & E' & G). rewrite E in E'. inversion E'; subst g'. clear E'.
  split; [exact T|]. split; [exact F|]. split; [exact N|]. split; [exact C|].
  split. { exists ps. eexists. split; [|exact G]. eapply Forall_impl; [|apply calls_adds]. intros []; cbn; tauto. }
  split; [rewrite (built_polys _ _ _ G); reflexivity|]. intros a b f.
  destruct (graph_exact atan2 ords ps T L F N C) as (g' & E' & H). rewrite E in E'. inversion E'; subst g'. clear E'.
  destruct (generation_total atan2 ords ps L Ng) as (g' & E' & _ & Q & _). rewrite E in E'. inversion E'; subst g'. clear E'.
  unfold answer. split.
  - destruct (has_edge g a b) as [[|]| |] eqn:He; try discriminate. intros An. destruct (Q a b He) as (A & B & D). destruct (H a b A B D) as (H1 & H2 & H3).
    split; [exact A|]. split; [exact B|]. split; [exact D|]. split; [apply H1, He|].
    destruct (is_edge_meridian_crossing g a b) as [c| |] eqn:Cr; try discriminate. inversion An; subst c.
    destruct f; [apply (proj1 H2 eq_refl)|apply H3; [reflexivity|exact He]].
  - intros (A & B & D & K & Fr). destruct (H a b A B D) as (H1 & H2 & H3). rewrite (proj2 H1 K).
    destruct (grun_queries ps _ g G a b) as (Q1 & _). destruct (Q1 D A B) as [_ Q2]. destruct f.
    + rewrite (proj2 H2 (conj (proj2 H1 K) Fr)). reflexivity.
    + match type of Q2 with _ = Ok ?c => destruct c end; rewrite Q2; [|reflexivity]. destruct (proj1 H2 Q2). contradiction.
Qed.
(** any graph over these polygons which answers like a drawn one *)
Lemma drawn_like atan2 ps g g' : drawn atan2 ps g -> built g' -> Permutation (get_polygons g') ps -> (forall a b, answer g' a b = answer g a b) -> drawn atan2 ps g'.
Proof.
  intros (T & F & N & C & B & P & H) B' P' An. repeat (split; [assumption|]). intros a b f. rewrite An. apply H.
Qed.

Section Drawn.
Variables (atan2 : Z -> Z -> f64) (ords' : coord -> orders) (ps : list polygon) (g : graph).
Hypotheses (Dr : drawn atan2 ps g) (L' : forall v, library_orders (ords' v)).
Notation vis := (endpoint_vis atan2 ords' g).

Lemma ch_ngeo c : In c (polygon_vertices ps) -> ngeo c.
Proof. destruct Dr as (_ & F & _). apply clear_ngeo, F. Qed.
Lemma ch_vertices : Permutation (get_vertices g) (polygon_vertices ps).
Proof.
  destruct Dr as (_ & _ & _ & _ & (qs & h & _ & G) & P & _). rewrite (built_vertices _ _ _ G). apply vertices_perm. rewrite (built_polys _ _ _ G) in P. exact P.
Qed.
Lemma ch_convex P : In P ps -> convex 1 P /\ NoDup (verts P) /\ forall c, In c (verts P) -> ngeo c.
Proof.
  destruct Dr as (_ & F & N & C & _). intros HP. rewrite Forall_forall in F. destruct (clear_polygon_facts P (F P HP)) as (X & _ & Le & _).
  split; [|split; [apply (nodup_parts ps), HP; exact N|apply Forall_forall, X]].
  destruct (verts P) as [|c l] eqn:V; [cbn [length] in Le; lia|].
  destruct (C c) as (_ & O & _); [apply in_polygon_vertices; exists P; split; [exact HP|rewrite V; left; reflexivity]|].
  apply (O P), copies_in. exists P, 0. rewrite wrap_polygon_0. repeat split; try lia. exact HP.
Qed.
Lemma free_direct a b : ngeo a -> ngeo b -> (free_line ps a b <-> forall P, In P ps -> ~ through_interior a b P).
Proof.
  intros A B. split.
  - intros H P HP. rewrite <- (wrap_polygon_0 P). apply H, HP.
  - intros H P j HP. destruct (Z.eq_dec j 0) as [->|J]; [rewrite wrap_polygon_0; apply H, HP|]. destruct (ch_convex P HP) as (C & N & G). apply near_copy; assumption.
Qed.
Lemma vertex_edges a b f : answer g a b = Some f <->
  In a (polygon_vertices ps) /\ In b (polygon_vertices ps) /\ a <> b /\ (exists k, -1 <= k <= 1 /\ free_line ps a (wrap k b)) /\
  (if f then ~ free_line ps a b else free_line ps a b).
Proof. apply Dr. Qed.

(** ** Query endpoints *)
Lemma sees_exact c v : ngeo c -> clear_view c ps -> ~ In c (polygon_vertices ps) ->
  (sees vis None c v <-> In v (polygon_vertices ps) /\ free_line ps c v).
Proof.
  intros Gc Cv Nc. destruct Dr as (T & F & N & C & Bg & Pg & _). pose proof (vertices_perm _ _ Pg) as Pv.
  assert (Iv : forall c, In c (polygon_vertices (get_polygons g)) <-> In c (polygon_vertices ps)) by (intros w; split; apply Permutation_in; [exact Pv|symmetry; exact Pv]).
  assert (Ip : forall P, In P (get_polygons g) <-> In P ps) by (intros P; split; apply Permutation_in; [exact Pg|symmetry; exact Pg]).
  destruct (clear_view_perm c ps (get_polygons g) (Permutation_sym Pg) Cv) as (S1 & S2 & S3 & S4 & S5 & S6 & S7).
  destruct (sweep_exact atan2 (ords' c) (get_polygons g) c false T (L' c) (ngeo_pgeo c Gc)) as (res & seen & R & Fr & Ex'); try assumption;
    [destruct Gc; lia|intros v' V; apply ngeo_pgeo, ch_ngeo, Iv, V|eapply Permutation_NoDup; [apply Permutation_sym, Pv|exact N]|].
  assert (Ex : forall v, In v seen <-> In v (polygon_vertices ps) /\ v <> c /\ (false = true -> lat c <= lat v) /\ forall P, In P ps -> ~ through_interior c v P).
  { intros w. rewrite Ex', Iv. assert (K : (forall P, In P (get_polygons g) -> ~ through_interior c w P) <-> (forall P, In P ps -> ~ through_interior c w P)) by (split; intros X P HP; apply X, Ip, HP). tauto. }
  assert (Ev : vis c = Ok res) by (unfold endpoint_vis; exact R).
  assert (Nm : forall w, In w (polygon_vertices ps) -> normalize_coord w = Ok w).
  { intros w W. destruct (copy_facts w _ (ch_ngeo w W) (copy_of_wrap w 0 ltac:(lia))) as (_ & X & _). rewrite wrap_0 in X. exact X. }
  split.
  - intros (points & p & Ep & Hp & Vp & _). rewrite Ev in Ep. inversion Ep; subst points. destruct (Forall2_in_r _ _ _ _ Fr Hp) as (w & Iw & Nw & _).
    apply Ex in Iw. destruct Iw as (Iw & _ & _ & H). rewrite (Nm w Iw) in Nw. inversion Nw as [X]. rewrite <- Vp, <- X. split; [exact Iw|].
    apply free_direct; [exact Gc|apply ch_ngeo, Iw|exact H].
  - intros (Hv & H). assert (Nv : v <> c) by (intros ->; contradiction).
    assert (Is : In v seen) by (apply Ex; split; [exact Hv|]; split; [exact Nv|]; split; [discriminate|apply free_direct; [exact Gc|apply ch_ngeo, Hv|exact H]]).
    destruct (Forall2_at _ _ _ _ Fr Is) as (p & Hp & Np & _). rewrite (Nm v Hv) in Np. inversion Np as [X].
    exists res, p. split; [exact Ev|]. split; [exact Hp|]. split; [auto|]. split; [congruence|]. intros shore X'. discriminate X'.
Qed.
Lemma has_vertex_in c : has_vertex g c = true <-> In c (polygon_vertices ps).
Proof.
  pose proof ch_vertices as Pv. destruct Dr as (_ & _ & _ & _ & (qs & h & _ & G) & _). rewrite (built_has_vertex _ _ _ _ G).
  rewrite (built_vertices _ _ _ G) in Pv. split; apply Permutation_in; [exact Pv|symmetry; exact Pv].
Qed.

Variables (s d : coord).
Hypotheses (Cs : charted_point ps s) (Cd : charted_point ps d).
Notation lc := (mkLC s d None None).
(** between vertices, as the graph has it; between an endpoint off the map and a vertex, in a straight line *)
Lemma road_exact u v f : road g vis lc u v f <->
  (In u (polygon_vertices ps) /\ In v (polygon_vertices ps) /\ u <> v /\ (exists k, -1 <= k <= 1 /\ free_line ps u (wrap k v)) /\ (if f then ~ free_line ps u v else free_line ps u v)) \/
  (f = false /\ free_line ps u v /\
   (In v (polygon_vertices ps) /\ ~ In u (polygon_vertices ps) /\ (u = s \/ u = d) \/ In u (polygon_vertices ps) /\ ~ In v (polygon_vertices ps) /\ (v = s \/ v = d))).
Proof.
  assert (EE : forall c v, endpoint_edge g vis lc c v <-> ~ In c (polygon_vertices ps) /\ (c = s \/ c = d) /\ In v (polygon_vertices ps) /\ free_line ps c v).
  { intros c w. unfold endpoint_edge. cbn [lc_source lc_dest lc_source_edge lc_dest_edge].
    assert (V : has_vertex g c = false <-> ~ In c (polygon_vertices ps)) by (rewrite <- has_vertex_in; destruct (has_vertex g c); split; congruence). rewrite V.
    assert (K : forall c, charted_point ps c -> ~ In c (polygon_vertices ps) -> (sees vis None c w <-> In w (polygon_vertices ps) /\ free_line ps c w)).
    { intros c0 [G [X|X]] Nc; [contradiction|]. apply sees_exact; assumption. }
    split.
    - intros (Nc & [[-> X]|[-> X]]); apply K in X; tauto.
    - intros (Nc & [-> | ->] & X); (split; [exact Nc|]); [left|right]; (split; [reflexivity|]); apply K; tauto. }
  assert (Sy : forall a b, free_line ps a b -> free_line ps b a).
  { intros a b H. pose proof (free_sym ps a b 0) as X. rewrite wrap_0 in X. apply X in H. change (-0) with 0 in H. rewrite wrap_0 in H. exact H. }
  unfold road. rewrite vertex_edges, !EE. split.
  - intros [H|(Ef & [H|H])]; [left; exact H|right..].
    + tauto.
    + split; [exact Ef|]. split; [apply Sy|]; tauto.
  - intros [H|(Ef & H & [X|X])]; [left; exact H|right; split; [exact Ef|]..]; [left; tauto|right].
    split; [tauto|]. split; [tauto|]. split; [tauto|apply Sy, H].
Qed.
Lemma journey_free u l t r : journey (road g vis lc) u l t r -> free_legs g ps (u :: l).
Proof.
  intros J. induction J as [u|u v f l t r R J IH]; intros i a b A B.
  - destruct i; [discriminate B|destruct i; discriminate B].
  - destruct i as [|i]; [|exact (IH i a b A B)]. cbn in A, B. inversion A; subst a. inversion B; subst b. apply road_exact in R.
    destruct R as [(Iu & Iv & D & K & H)|(_ & H & _)]; [|left; exact H]. destruct f; [right|left; exact H].
    assert (An : answer g u v = Some true) by (apply vertex_edges; tauto). split.
    + unfold answer in An. destruct (has_edge g u v) as [[|]| |]; try discriminate An. destruct (is_edge_meridian_crossing g u v); try discriminate An. congruence.
    + destruct K as (k & K1 & K2). exists k. split; [|exact K2]. assert (Kc : k = 0 \/ k = 1 \/ k = -1) by lia. destruct Kc as [->|Kc]; [|exact Kc].
      rewrite wrap_0 in K2. contradiction.
Qed.

(** ** Routes *)
(** a route of free lines; each line starts or ends in a vertex of the map, and goes around the
    world only between two vertices that do not see each other directly *)
Inductive free_route : coord -> list coord -> coord -> R -> Prop :=
| route_end u : free_route u [] u 0%R
| route_straight u v l t r : free_line ps u v -> u <> v ->
    In u (polygon_vertices ps) \/ u = s \/ u = d -> In v (polygon_vertices ps) \/ v = s \/ v = d -> In u (polygon_vertices ps) \/ In v (polygon_vertices ps) ->
    free_route v l t r -> free_route u (v :: l) t (apart u v + r)%R
| route_around u v k l t r : k = 1 \/ k = -1 -> free_line ps u (wrap k v) -> ~ free_line ps u v -> u <> v ->
    In u (polygon_vertices ps) -> In v (polygon_vertices ps) ->
    free_route v l t r -> free_route u (v :: l) t (apart u (wrap k v) + r)%R.
Lemma around_length u v k : k = 1 \/ k = -1 -> (edge_length true u v <= apart u (wrap k v))%R.
Proof.
  intros K. assert (A : apart u (wrap k v) = apart (turned (- k) u) v).
  { unfold apart, wrap, turned. cbn [lon lat]. f_equal. f_equal. f_equal. rewrite !plus_IZR, !mult_IZR, opp_IZR. ring. }
  rewrite A. unfold edge_length. destruct K as [-> | ->]; [apply Rmin_r|apply Rmin_l].
Qed.
Lemma route_journey u l t r : free_route u l t r -> exists r', journey (road g vis lc) u l t r' /\ (r' <= r)%R.
Proof.
  induction 1 as [u|u v l t r H D Su Sv J Ro (r' & J' & Le)|u v k l t r K H N D U V Ro (r' & J' & Le)].
  - exists 0%R. split; [constructor|lra].
  - exists (edge_length false u v + r')%R. split; [|unfold edge_length; lra]. constructor; [|exact J']. apply road_exact.
    destruct (in_dec coord_dec u (polygon_vertices ps)) as [Iu|Iu]; destruct (in_dec coord_dec v (polygon_vertices ps)) as [Iv|Iv]; [|right; tauto|right; tauto|tauto].
    left. split; [exact Iu|]. split; [exact Iv|]. split; [exact D|]. split; [|exact H]. exists 0. rewrite wrap_0. split; [lia|exact H].
  - exists (edge_length true u v + r')%R. split; [|pose proof (around_length u v k K); lra]. constructor; [|exact J']. apply road_exact. left.
    split; [exact U|]. split; [exact V|]. split; [exact D|]. split; [exists k; split; [lia|exact H]|exact N].
Qed.
End Drawn.

(** ** Queries *)
(** the sweep of the program, and the rows of the graph in some order *)
Definition charted_query (atan2 : Z -> Z -> f64) (ords' : coord -> orders) (ps : list polygon) (g : graph) (en : env) (source destination ns nd : coord) : Prop :=
  (forall v, library_orders (ords' v)) /\ en_vis en = endpoint_vis atan2 ords' g /\ row_orders (en_rows en) /\ index_in_range (en_index en) /\
  in_the_map source /\ in_the_map destination /\ normalize_coord source = Ok ns /\ normalize_coord destination = Ok nd /\
  ix_contains (en_index en) ns = false /\ ix_contains (en_index en) nd = false /\ charted_point ps ns /\ charted_point ps nd.

Section Query.
Variables (atan2 : Z -> Z -> f64) (ords' : coord -> orders) (ps : list polygon) (g : graph) (en : env) (source destination ns nd : coord).
Hypotheses (Dr : drawn atan2 ps g) (Cq : charted_query atan2 ords' ps g en source destination ns nd).

Lemma query_fit : fit_for_queries en g.
Proof.
  destruct Cq as (L & Ev & Rw & Ix & _). pose proof (ch_vertices _ _ _ Dr) as Pv. assert (B : built g) by apply Dr.
  assert (G : forall c, In c (get_vertices g) -> ngeo c) by (intros c C; apply (ch_ngeo _ _ _ Dr); eapply Permutation_in; [exact Pv|exact C]).
  split; [exact B|]. split; [exact G|]. split; [exact Rw|]. split; [|exact Ix]. rewrite Ev. apply endpoint_vis_answers; assumption.
Qed.
Lemma query_correction lc : correction_of en source destination lc <-> lc = mkLC ns nd None None.
Proof.
  destruct Cq as (_ & _ & _ & _ & _ & _ & Es & Ed & Ls & Ld & _). split.
  - intros (ns' & nd' & E1 & E2 & M1 & M2). rewrite Es in E1. inversion E1; subst ns'. rewrite Ed in E2. inversion E2; subst nd'.
    destruct M1 as [(_ & A & B)|(X & _)]; [|congruence]. destruct M2 as [(_ & C & D)|(X & _)]; [|congruence]. destruct lc as [a b c e]. cbn [lc_source lc_dest lc_source_edge lc_dest_edge] in *. congruence.
  - intros ->. exists ns, nd. split; [exact Es|]. split; [exact Ed|]. split; left; auto.
Qed.
Theorem paths_free radius flag fuel path : (ix_crossing (en_index en) (mkS ns nd) = [] -> free_line ps ns nd) ->
  shortest_path fuel en g source destination radius flag = Some (Ok path) ->
  (exists l, path = ns :: l) /\ (exists l, path = l ++ [nd]) /\ free_legs g ps path.
Proof.
  intros Ho E. pose proof query_fit as Fit. pose proof Cq as (L & Ev & _ & _ & Ms & Md & _ & _ & _ & _ & Ps & Pd).
  destruct (query_path en g source destination radius flag Fit Ms Md fuel path E) as (lc & Co & H). apply query_correction in Co. subst lc. cbn [lc_source lc_dest] in H.
  destruct H as [(Ns & ->)|(Se & l & r & -> & _ & J)].
  - split; [eauto|]. split; [exists [ns]; reflexivity|]. intros i a b A B. destruct i as [|[|i]]; [|discriminate B|destruct i; discriminate B]. cbn in A, B. inversion A; subst a. inversion B; subst b.
    left. apply Ho. destruct (ix_crossing (en_index en) (mkS ns nd)) as [|x l] eqn:X; [reflexivity|exfalso]. apply Ns. apply searched_iff.
    exists x. cbn [lc_source lc_dest lc_source_edge lc_dest_edge]. rewrite X. split; [left; reflexivity|]. intros shore [Y|Y]; discriminate Y.
  - split; [eauto|]. split.
    + clear - J. induction J as [u|u v f l t r _ _ (l' & IH)]; [exists []; reflexivity|]. exists (u :: l'). cbn [app]. rewrite IH. reflexivity.
    + rewrite Ev in J. eapply (journey_free atan2 ords' ps g Dr L ns nd Ps Pd), J.
Qed.
Theorem no_shorter_route radius flag fuel path w : ix_crossing (en_index en) (mkS ns nd) <> [] ->
  shortest_path fuel en g source destination radius flag = Some (Ok path) -> Z.of_nat (length path) <= 1000000 ->
  minimal w (en_pick en) -> is_finite w = true -> (Rabs (V w) <= bpow radix2 900)%R ->
  exists l r, path = ns :: l /\ journey (road g (en_vis en) (mkLC ns nd None None)) ns l nd r /\
    forall l' r', free_route ps ns nd ns l' nd r' -> Forall (within ns radius) l' -> Z.of_nat (length l') <= 1000000 ->
      (r <= Rmax 1 (V w) * r' * (1 + / 2000000000))%R.
Proof.
  intros Nx E Len Mn Fw Bw. pose proof query_fit as Fit. pose proof Cq as (L & Ev & _ & _ & Ms & Md & _ & _ & _ & _ & Ps & Pd).
  assert (Se : searched en (mkLC ns nd None None)).
  { destruct (ix_crossing (en_index en) (mkS ns nd)) as [|x l] eqn:X; [congruence|]. apply searched_iff. exists x. cbn [lc_source lc_dest lc_source_edge lc_dest_edge]. rewrite X.
    split; [left; reflexivity|]. intros shore [Y|Y]; discriminate Y. }
  destruct (query_optimal en g source destination radius flag Fit Ms Md fuel path _ w E (proj2 (query_correction _) eq_refl) Se Mn Fw Bw) as (l & r & -> & J & O).
  cbn [lc_source lc_dest] in J, O. exists l, r. split; [reflexivity|]. split; [exact J|]. intros l' r' Ro Wi Len'.
  destruct (route_journey atan2 ords' ps g Dr L ns nd Ps Pd _ _ _ _ Ro) as (r2 & J2 & Le). rewrite <- Ev in J2.
  cbn [length] in Len.
  assert (K : (r <= Rmax 1 (V w) * r2 * (1 + / 2000000000))%R).
  { apply (rounding_factor r (Rmax 1 (V w)) r2 (length l) (length l')); [eapply journey_pos; exact J|apply Rmax_l|eapply journey_pos; exact J2|lia|lia|]. apply O; assumption. }
  eapply Rle_trans; [exact K|]. apply Rmult_le_compat_r; [lra|]. apply Rmult_le_compat_l; [|exact Le]. apply Rle_trans with 1%R; [lra|apply Rmax_l].
Qed.
Theorem no_route radius flag fuel : ix_crossing (en_index en) (mkS ns nd) <> [] ->
  shortest_path fuel en g source destination radius flag = Some (Throw NoPath) ->
  ~ exists l r, free_route ps ns nd ns l nd r /\ Forall (within ns radius) l.
Proof.
  intros Nx E (l & r & Ro & Wi). pose proof query_fit as Fit. pose proof Cq as (L & Ev & _ & _ & Ms & Md & Es & Ed & Ls & Ld & Ps & Pd).
  destruct (query_failure en g source destination radius flag Fit Ms Md fuel (mkLC ns nd None None) _ E (proj2 (query_correction _) eq_refl)) as [(path & X)|(_ & X)]; [| |discriminate X|].
  - destruct (ix_crossing (en_index en) (mkS ns nd)) as [|x xs] eqn:X; [congruence|]. apply searched_iff. exists x. cbn [lc_source lc_dest lc_source_edge lc_dest_edge]. rewrite X.
    split; [left; reflexivity|]. intros shore [Y|Y]; discriminate Y.
  - right. exists ns, nd. auto.
  - apply X. destruct (route_journey atan2 ords' ps g Dr L ns nd Ps Pd _ _ _ _ Ro) as (r2 & J2 & _). rewrite <- Ev in J2. exists l, r2. auto.
Qed.
End Query.

(** ** The generated graph does not depend on the arctangent or the iteration orders *)
Theorem graph_determined atan2 atan2' ords ords' ps g g' : charted atan2 ords ps g -> charted atan2' ords' ps g' ->
  forall a b, answer g a b = answer g' a b.
Proof.
  intros C C' a b. pose proof (vertex_edges _ _ _ (charted_drawn _ _ _ _ C) a b) as H. pose proof (vertex_edges _ _ _ (charted_drawn _ _ _ _ C') a b) as H'.
  destruct (answer g a b) as [f|] eqn:A.
  - symmetry. apply H', H. reflexivity.
  - destruct (answer g' a b) as [f|] eqn:A'; [|reflexivity]. assert (X : None = Some f) by (apply H, H'; reflexivity). discriminate X.
Qed.
