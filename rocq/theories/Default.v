(** Queries with the default settings: no search radius, the plain heuristic.  No code is modelled here. *)
From Coq Require Import ZArith Reals Bool List Lia Lra Psatz Permutation String Classical.
From Flocq Require Import Core BinarySingleNaN.
From Verif Require Import Jordan.
From Verif Require Import PyLayer PyFacts Base F64 Coordinate Segment Polygon PolygonMore Periodicity PeriodicityFacts SegmentFacts Serializer SerializerMore Graph GraphFacts GraphMore Visgraph VisgraphFacts SpecGeom SpecGraph F64Facts CoordinateFacts
  Sweep SweepFacts SweepMaps SweepGen SweepOrder AngleFacts AngleSort SweepGeo SweepSound SweepExact SweepGraph SweepLayers SweepFronts
  ShortestPath DistFacts SearchFacts SearchSpec SearchGraph SearchQuery PathFacts PathMore FreePaths OpenWater SeaLines Coasts CoastExact CoastCheck CoastRun Pipeline PipelineFacts PipelineFree PipelineOpen PipelineSea Ways LandWays WayRun Around Stretch Detour Touch.
Import ListNotations.
Local Open Scope Z_scope.

(** ** Vocabulary *)
(** the index misses no land on the line between [a] and [b], and what it reports is there: an edge of the map meets the line *)
Definition index_line (ps : list polygon) (ix : index) (a b : coord) : Prop :=
  (ix_crossing ix (mkS a b) = [] -> sails ps (rp a) (rp b)) /\ (ix_crossing ix (mkS a b) <> [] -> edge_between ps a b).
(** between two places at sea *)
Definition default_query (atan2 : Z -> Z -> f64) (ords' : coord -> orders) (ps : list polygon) (g : graph) (en : env) (source destination ns nd : coord) : Prop :=
  (forall v, library_orders (ords' v)) /\ en_vis en = endpoint_vis atan2 ords' g /\ row_orders (en_rows en) /\ index_in_range (en_index en) /\
  in_the_map source /\ in_the_map destination /\ normalize_coord source = Ok ns /\ normalize_coord destination = Ok nd /\ at_sea ps ns /\ at_sea ps nd /\
  ix_contains (en_index en) ns = false /\ ix_contains (en_index en) nd = false /\ minimal f_1 (en_pick en) /\ index_line ps (en_index en) ns nd.
(** a route, or the straight line, which is as short as any way over the water; or there is no way at all *)
Definition shortest_answer (ps : list polygon) (ns nd : coord) (r : option (res (list pcoord))) : Prop :=
  (exists l t, r = Some (Ok (convert (ns :: l))) /\ (sailed ps ns nd ns l nd t \/ l = [nd] /\ sails ps (rp ns) (rp nd) /\ t = apart ns nd) /\
     forall l', course ps (rp ns) (l' ++ [rp nd]) -> (t <= run (rp ns) (l' ++ [rp nd]) * (1 + / 2000000000))%R) \/
  (r = Some (Throw NoPath) /\ ~ exists l', course ps (rp ns) (l' ++ [rp nd])).
Definition answers_default (atan2 : Z -> Z -> f64) (ps : list polygon) (limit : Z) (folder : path) (s : fs) : Prop :=
  exists g, load_graph_from_file limit (default_graph_path folder) s = Ok g /\
  forall ords en c1 c2 source destination ns nd,
    vis_coord c1 = Ok source -> vis_coord c2 = Ok destination -> default_query atan2 ords ps g (en g) source destination ns nd ->
    exists n, forall fuel, (n <= fuel)%nat -> shortest_answer ps ns nd (interpolate_cmd limit folder en fuel c1 c2 unlimited false s).

(** an index which reports exactly the lines that meet an edge *)
Lemma exact_index ps ix a b : (forall c, In c (polygon_vertices ps) -> ngeo c) -> drawn ps -> viewed ps -> at_sea ps a ->
  (ix_crossing ix (mkS a b) = [] <-> ~ edge_between ps a b) -> index_line ps ix a b.
Proof.
  intros Ng Dr Vw Sa H. split; intros E.
  - apply between_sails; [assumption..|]. apply H, E.
  - apply NNPP. intros N. apply E, H, N.
Qed.
Lemma default_answers atan2 ords' ps g en c1 c2 source destination ns nd :
  accurate_atan2 atan2 -> true_graph ps g -> drawn ps -> viewed ps -> default_query atan2 ords' ps g en source destination ns nd ->
  Z.of_nat (List.length (polygon_vertices ps)) <= 999998 -> vis_coord c1 = Ok source -> vis_coord c2 = Ok destination ->
  exists n, forall fuel, (n <= fuel)%nat -> shortest_answer ps ns nd (interpolate fuel en g c1 c2 unlimited false).
Proof.
  intros T Tg Dr Vw (L & Ev & Rw & Ix & Ms & Md & Es & Ed & Ss & Sd & Ls & Ld & Mn & I1 & I2) Sz E1 E2.
  assert (X : ix_crossing (en_index en) (mkS ns nd) = [] \/ ix_crossing (en_index en) (mkS ns nd) <> []) by (destruct (ix_crossing (en_index en) (mkS ns nd)); [left; reflexivity|right; discriminate]). destruct X as [X|X].
  - specialize (I1 X). exists 0%nat. intros fuel _. left. exists [nd], (apart ns nd). split; [|split; [right; auto|]].
    + unfold interpolate. rewrite E1, E2. unfold shortest_path, handle_land_collisions, other_crossings. rewrite Es, Ed. cbn [bind]. rewrite Ls, Ld, andb_false_r. cbn [bind correct_endpoint fst snd lc_source lc_dest]. rewrite X. reflexivity.
    + intros l' _. pose proof (run_straight (rp nd) l' (rp ns)) as H. rewrite far_apart in H. pose proof (apart_pos ns nd). nra.
  - specialize (I2 X). assert (Cq : coast_query atan2 ords' ps g en source destination ns nd).
    { split; [|split; assumption]. repeat (split; [assumption|]). split; [apply Ss|]. split; [apply Sd|]. repeat (split; [assumption|]). exact X. }
    pose proof Cq as (Sq & _). pose proof (true_complete ps g Tg) as Co. pose proof (sea_fit _ _ _ _ _ _ _ _ _ Co Sq) as Fit.
    destruct (query_terminates en g source destination unlimited false Fit Ms Md) as (n & Te). exists n. intros fuel Lf. destruct (Te fuel Lf) as [T1 _].
    unfold interpolate. rewrite E1, E2. destruct (shortest_path fuel en g source destination unlimited false) as [r|] eqn:Q; [|congruence].
    assert (V1 : V f_1 = 1%R) by apply V_f1. assert (Bw : (Rabs (V f_1) <= bpow radix2 900)%R) by (rewrite V1, Rabs_R1; change 1%R with (bpow radix2 0); apply bpow_le; lia).
    destruct (query_failure en g source destination unlimited false Fit Ms Md fuel _ r Q (sea_correction _ _ _ _ _ _ _ _ Sq) (sea_searched _ _ _ _ _ _ _ _ Sq)) as [(path & ->)|(-> & _)].
    + right. exists ns, nd. auto.
    + left. destruct (path_route atan2 ords' ps g en source destination ns nd T Tg Dr Cq unlimited false fuel path Q) as (l & t & -> & A & _).
      exists l, t. split; [reflexivity|]. split; [left; exact A|]. intros l' C. destruct (some_bound (rp ns) (l' ++ [rp nd])) as (rho & Hb).
      destruct (best_touch atan2 ords' ps g en source destination ns nd T Tg Dr Vw Cq I2 unlimited rho false fuel _ f_1 (or_introl eq_refl) Sz Q Mn eq_refl Bw) as (l0 & t0 & Y & A' & O). injection Y as <-.
      replace t with t0 by exact (sailed_length _ _ _ _ _ _ _ _ A' A). specialize (O l' (conj C Hb)). rewrite V1, Rmax_left, Rmult_1_l in O by lra. exact O.
    + right. split; [reflexivity|]. intros (l' & C). destruct (some_bound (rp ns) (l' ++ [rp nd])) as (rho & Hb).
      apply (no_touch atan2 ords' ps g en source destination ns nd T Tg Dr Vw Cq I2 unlimited rho false fuel (or_introl eq_refl) Q). exists l'. split; assumption.
Qed.
Lemma default_folder atan2 shapes ps limit folder s : accurate_atan2 atan2 -> drawn_shapes shapes ps limit -> Z.of_nat (List.length (polygon_vertices ps)) <= 999998 ->
  answers_best atan2 ps limit folder s -> answers_default atan2 ps limit folder s.
Proof.
  intros T ((_ & _ & _ & _ & _ & Vw & _) & Dr) Sz (g & E & Tg & _). exists g. split; [exact E|]. intros ords en c1 c2 source destination ns nd E1 E2 Qu.
  destruct (default_answers atan2 ords ps g (en g) c1 c2 source destination ns nd T Tg Dr Vw Qu Sz E1 E2) as (n & H). exists n. intros fuel L. unfold interpolate_cmd. rewrite E. apply H, L.
Qed.
