(** From a shape file of any map to a path: no leg makes landfall, and no way through open water is missed. *)
From Coq Require Import ZArith Reals Bool List Lia Lra Permutation String.
From Flocq Require Import Core BinarySingleNaN.
From Verif Require Import Base F64 Coordinate Segment Polygon PolygonMore Polyline PolylineFacts Periodicity Graph GraphFacts GraphMore Visgraph VisgraphFacts SpecGeom SpecGraph F64Facts CoordinateFacts Serializer SerializerMore
  Sweep SweepFacts SweepMaps SweepGen SweepOrder AngleFacts AngleSort SweepGeo SweepGraph SweepFronts
  ShortestPath DistFacts SearchFacts SearchSpec SearchGraph SearchQuery PathFacts PathMore FreePaths OpenWater SeaLines PyLayer PyFacts Pipeline PipelineFacts PipelineFree PipelineOpen.
Import ListNotations.
Local Open Scope Z_scope.

(** a path between the endpoints none of whose legs makes landfall, no longer than any route through
    open water; or none because there is no such route *)
Definition sea_answer (ps : list polygon) (g : graph) (en : env) (ns nd : coord) (radius : f64) (r : option (res (list pcoord))) : Prop :=
  (exists path, r = Some (Ok (convert path)) /\ (exists l, path = ns :: l) /\ (exists l, path = l ++ [nd]) /\ sea_legs g ps path /\
     (Z.of_nat (List.length path) <= 1000000 -> forall w, minimal w (en_pick en) -> is_finite w = true -> (Rabs (V w) <= bpow radix2 900)%R ->
      exists l t, path = ns :: l /\ journey (road g (en_vis en) (mkLC ns nd None None)) ns l nd t /\
        forall l' t', open_route ps ns nd ns l' nd t' -> Forall (within ns radius) l' -> Z.of_nat (List.length l') <= 1000000 ->
          (t <= Rmax 1 (V w) * t' * (1 + / 2000000000))%R)) \/
  (r = Some (Throw NoPath) /\ ~ exists l t, open_route ps ns nd ns l nd t /\ Forall (within ns radius) l).
(** a query between points at sea which are vertices of the map or have an ordered view of it, and
    which the index does not take to be connected in a straight line *)
Definition survey_query (atan2 : Z -> Z -> f64) (ords' : coord -> orders) (ps : list polygon) (g : graph) (en : env) (source destination ns nd : coord) : Prop :=
  sea_query atan2 ords' g en source destination ns nd /\ sounded_point ps ns /\ sounded_point ps nd.
Lemma survey_sounded atan2 ords' ps g en source destination ns nd : survey_query atan2 ords' ps g en source destination ns nd -> sounded_query atan2 ords' ps g en source destination ns nd.
Proof. intros ((A & B & C & D & E & F & G & H & _ & _ & I & J & _) & K & L). repeat (split; [assumption|]). assumption. Qed.
Lemma sounded_answers atan2 ords' ps g en c1 c2 source destination ns nd radius flag :
  sounded atan2 ps g -> complete ps g -> survey_query atan2 ords' ps g en source destination ns nd -> vis_coord c1 = Ok source -> vis_coord c2 = Ok destination ->
  exists n, forall fuel, (n <= fuel)%nat -> sea_answer ps g en ns nd radius (interpolate fuel en g c1 c2 radius flag).
Proof.
  intros So Co Qu E1 E2. pose proof Qu as (Sq & Ps & Pd). pose proof (sea_fit _ _ _ _ _ _ _ _ _ Co Sq) as Fit. pose proof Sq as (_ & _ & _ & _ & Ms & Md & Es & Ed & _ & _ & Ls & Ld & Nx).
  destruct (query_terminates en g source destination radius flag Fit Ms Md) as (n & T). exists n. intros fuel Lf. destruct (T fuel Lf) as [T1 _].
  unfold interpolate. rewrite E1, E2. destruct (shortest_path fuel en g source destination radius flag) as [r|] eqn:Q; [|congruence].
  destruct (query_failure en g source destination radius flag Fit Ms Md fuel (mkLC ns nd None None) r Q (sea_correction _ _ _ _ _ _ _ _ Sq) (sea_searched _ _ _ _ _ _ _ _ Sq)) as [(path & ->)|(-> & _)].
  - right. exists ns, nd. auto.
  - left. exists path. split; [reflexivity|].
    destruct (paths_at_sea atan2 ords' ps g en source destination ns nd radius flag fuel path So (survey_sounded _ _ _ _ _ _ _ _ _ Qu) (fun X => match Nx X with end) Q) as (A & B & C).
    split; [exact A|]. split; [exact B|]. split; [exact C|]. intros Le w Mn Fw Bw. exact (no_shorter_open _ _ _ _ _ _ _ _ _ Co Sq radius flag fuel path w Q Le Mn Fw Bw).
  - right. split; [reflexivity|]. exact (no_open_route _ _ _ _ _ _ _ _ _ Co Sq radius flag fuel Q).
Qed.

(** ** Shapes *)
(** shapes on earth which make a map of any form, all of whose vertices have an ordered view *)
Definition surveyed_shapes (shapes : list shape) (ps : list polygon) (limit : Z) : Prop :=
  Forall (fun s => nth_error (sh_parts s) 0 = Some O) shapes /\ Forall on_earth_shape shapes /\ read_polygons_from_shapefile shapes = Ok ps /\
  Forall clear_polygon ps /\ NoDup (polygon_vertices ps) /\ (forall o, In o (polygon_vertices ps) -> ordered_view true o (map_copies ps)) /\ fits ps limit.
(** any query of the graph in [folder] *)
Definition answers_surveyed (atan2 : Z -> Z -> f64) (ps : list polygon) (limit : Z) (folder : path) (s : fs) : Prop :=
  exists g, load_graph_from_file limit (default_graph_path folder) s = Ok g /\
  forall ords en c1 c2 source destination ns nd radius flag,
    vis_coord c1 = Ok source -> vis_coord c2 = Ok destination -> survey_query atan2 ords ps g (en g) source destination ns nd ->
    exists n, forall fuel, (n <= fuel)%nat -> sea_answer ps g (en g) ns nd radius (interpolate_cmd limit folder en fuel c1 c2 radius flag s).
Lemma sounded_folder atan2 ps limit folder s g : sounded atan2 ps g -> complete ps g -> load_graph_from_file limit (default_graph_path folder) s = Ok g -> answers_surveyed atan2 ps limit folder s.
Proof.
  intros So Co E. exists g. split; [exact E|]. intros ords en c1 c2 source destination ns nd radius flag E1 E2 Qu.
  destruct (sounded_answers atan2 ords ps g (en g) c1 c2 source destination ns nd radius flag So Co Qu E1 E2) as (n & H). exists n. intros fuel L.
  unfold interpolate_cmd. rewrite E. apply H, L.
Qed.
Theorem generate_surveyed atan2 ords shapes ps out s limit : accurate_atan2 atan2 -> (forall v, library_orders (ords v)) -> surveyed_shapes shapes ps limit -> fresh s out ->
  exists s', generate_cmd (fun ps v => vis_periodic atan2 (ords v) ps v) (Ok shapes) out s = (s', Ok tt) /\ answers_surveyed atan2 ps limit out s'.
Proof.
  intros T L (W & E & Er & F & N & C & Fi) (N1 & N2 & N3).
  destruct (generate_pipeline atan2 ords shapes out s limit L W E N1 N2 N3) as (ps' & g & Er' & Eg & H). rewrite Er in Er'. injection Er' as <-.
  destruct (H (clear_fixed ps F) Fi) as (s' & g' & E1 & E2 & B & Sg & _). exists s'. split; [exact E1|].
  assert (Su : surveyed atan2 ords ps g) by (repeat (split; [assumption|]); assumption).
  pose proof (surveyed_sounded _ _ _ _ Su) as So. pose proof (mapped_complete _ _ _ _ (surveyed_mapped _ _ _ _ Su)) as Co. pose proof Sg as (S1 & S2 & S3 & _).
  assert (An : forall a b, answer g' a b = answer g a b) by (intros a b; unfold answer; rewrite S2, S3; reflexivity).
  apply (sounded_folder atan2 ps limit out s' g'); [| |exact E2].
  - eapply sounded_like; [exact So|exact B| |exact An]. rewrite S1. apply So.
  - eapply complete_like; [exact Co|exact B| |exact An]. rewrite S1. apply Co.
Qed.
Theorem distributed_surveyed atan2 ords shuffle enum shapes ps (num : nat) dir inputs out s limit : accurate_atan2 atan2 -> (forall v, library_orders (ords v)) ->
  (forall l, Permutation (shuffle l) l) -> enumerates enum -> surveyed_shapes shapes ps limit -> ps <> [] ->
  (1 <= num)%nat -> NoDup (map dir (seq 0 num)) -> (forall i, (i < num)%nat -> fresh s (dir i)) ->
  Permutation inputs (map dir (seq 0 num)) -> fresh s out -> ~ In out inputs ->
  let vis := fun ps v => vis_periodic atan2 (ords v) ps v in
  exists s1 s2, sequence (map (fun cur => generate_range_cmd vis shuffle (Ok shapes) (dir cur) (Z.of_nat cur) (Z.of_nat num)) (seq 0 num)) s = (s1, Ok tt) /\
    merge_cmd limit enum inputs out s1 = (s2, Ok tt) /\ answers_surveyed atan2 ps limit out s2.
Proof.
  intros T L Sh En (W & E & Er & F & N & C & Fi) Ne N1 N2 N3 Pi Fo No vis.
  destruct (distributed_pipeline atan2 ords shuffle enum shapes num dir inputs out s limit L Sh En W E N1 N2 N3 Pi Fo No) as (ps' & g & Er' & Eg & H). rewrite Er in Er'. injection Er' as <-.
  destruct (H Ne (clear_fixed ps F) Fi) as (s1 & s2 & m & E1 & E2 & E3 & B & Nd & In_m & Sa). exists s1, s2. split; [exact E1|]. split; [exact E2|].
  assert (Su : surveyed atan2 ords ps g) by (repeat (split; [assumption|]); assumption).
  pose proof (surveyed_sounded _ _ _ _ Su) as So. pose proof (mapped_complete _ _ _ _ (surveyed_mapped _ _ _ _ Su)) as Co.
  assert (An : forall a b, answer m a b = answer g a b) by (intros a b; unfold answer; destruct (Sa a b) as [-> ->]; reflexivity).
  apply (sounded_folder atan2 ps limit out s2 m); [| |exact E3].
  - eapply sounded_like; [exact So|exact B| |exact An]. apply NoDup_Permutation; [exact Nd|apply clear_parts_distinct; assumption|exact In_m].
  - eapply complete_like; [exact Co|exact B|exact In_m|exact An].
Qed.
