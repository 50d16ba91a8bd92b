(** From a shape file of any map to a path: no way through open water is missed. *)
From Coq Require Import ZArith Reals Bool List Lia Lra Permutation String.
From Flocq Require Import Core BinarySingleNaN.
From Verif Require Import Base F64 Coordinate Segment Polygon PolygonMore Polyline PolylineFacts Periodicity Graph GraphFacts GraphMore Visgraph VisgraphFacts SpecGeom SpecGraph F64Facts CoordinateFacts Serializer SerializerMore
  Sweep SweepFacts SweepMaps SweepGen SweepOrder AngleFacts AngleSort SweepGeo SweepGraph
  ShortestPath DistFacts SearchFacts SearchSpec SearchGraph SearchQuery PathFacts PathMore FreePaths OpenWater PyLayer PyFacts Pipeline PipelineFacts PipelineFree.
Import ListNotations.
Local Open Scope Z_scope.

(** a path no longer than any route through open water, or none because there is no such route *)
Definition open_answer (ps : list polygon) (g : graph) (en : env) (ns nd : coord) (radius : f64) (r : option (res (list pcoord))) : Prop :=
  (exists path, r = Some (Ok (convert path)) /\
     (Z.of_nat (List.length path) <= 1000000 -> forall w, minimal w (en_pick en) -> is_finite w = true -> (Rabs (V w) <= bpow radix2 900)%R ->
      exists l t, path = ns :: l /\ journey (road g (en_vis en) (mkLC ns nd None None)) ns l nd t /\
        forall l' t', open_route ps ns nd ns l' nd t' -> Forall (within ns radius) l' -> Z.of_nat (List.length l') <= 1000000 ->
          (t <= Rmax 1 (V w) * t' * (1 + / 2000000000))%R)) \/
  (r = Some (Throw NoPath) /\ ~ exists l t, open_route ps ns nd ns l nd t /\ Forall (within ns radius) l).
Lemma complete_answers atan2 ords' ps g en c1 c2 source destination ns nd radius flag :
  complete ps g -> sea_query atan2 ords' g en source destination ns nd -> vis_coord c1 = Ok source -> vis_coord c2 = Ok destination ->
  exists n, forall fuel, (n <= fuel)%nat -> open_answer ps g en ns nd radius (interpolate fuel en g c1 c2 radius flag).
Proof.
  intros Co Sq E1 E2. pose proof (sea_fit _ _ _ _ _ _ _ _ _ Co Sq) as Fit. pose proof Sq as (_ & _ & _ & _ & Ms & Md & Es & Ed & _ & _ & Ls & Ld & _).
  destruct (query_terminates en g source destination radius flag Fit Ms Md) as (n & T). exists n. intros fuel Lf. destruct (T fuel Lf) as [T1 _].
  unfold interpolate. rewrite E1, E2. destruct (shortest_path fuel en g source destination radius flag) as [r|] eqn:Q; [|congruence].
  destruct (query_failure en g source destination radius flag Fit Ms Md fuel (mkLC ns nd None None) r Q (sea_correction _ _ _ _ _ _ _ _ Sq) (sea_searched _ _ _ _ _ _ _ _ Sq)) as [(path & ->)|(-> & _)].
  - right. exists ns, nd. auto.
  - left. exists path. split; [reflexivity|]. intros Le w Mn Fw Bw. exact (no_shorter_open _ _ _ _ _ _ _ _ _ Co Sq radius flag fuel path w Q Le Mn Fw Bw).
  - right. split; [reflexivity|]. exact (no_open_route _ _ _ _ _ _ _ _ _ Co Sq radius flag fuel Q).
Qed.

(** ** Shapes *)
(** shapes on earth which make the polygons [ps], of any form; what the comparison of directions and
    the orientation of corners need; and files that are large enough *)
Definition mapped_shapes (atan2 : Z -> Z -> f64) (shapes : list shape) (ps : list polygon) (limit : Z) : Prop :=
  Forall (fun s => nth_error (sh_parts s) 0 = Some O) shapes /\ Forall on_earth_shape shapes /\ read_polygons_from_shapefile shapes = Ok ps /\
  Forall clear_polygon ps /\ (forall p o n, corner_of ps p o n -> clear_corner p o n) /\
  (forall o, In o (polygon_vertices ps) -> swo_on (less_b atan2 o) (polygon_vertices (map_copies ps))) /\ fits ps limit.
(** any query of the graph in [folder] between points at sea *)
Definition answers_open (atan2 : Z -> Z -> f64) (ps : list polygon) (limit : Z) (folder : path) (s : fs) : Prop :=
  exists g, load_graph_from_file limit (default_graph_path folder) s = Ok g /\
  forall ords en c1 c2 source destination ns nd radius flag,
    vis_coord c1 = Ok source -> vis_coord c2 = Ok destination -> sea_query atan2 ords g (en g) source destination ns nd ->
    exists n, forall fuel, (n <= fuel)%nat -> open_answer ps g (en g) ns nd radius (interpolate_cmd limit folder en fuel c1 c2 radius flag s).
Lemma complete_folder atan2 ps limit folder s g : complete ps g -> load_graph_from_file limit (default_graph_path folder) s = Ok g -> answers_open atan2 ps limit folder s.
Proof.
  intros Co E. exists g. split; [exact E|]. intros ords en c1 c2 source destination ns nd radius flag E1 E2 Sq.
  destruct (complete_answers atan2 ords ps g (en g) c1 c2 source destination ns nd radius flag Co Sq E1 E2) as (n & H). exists n. intros fuel L.
  unfold interpolate_cmd. rewrite E. apply H, L.
Qed.
Theorem generate_open atan2 ords shapes ps out s limit : accurate_atan2 atan2 -> (forall v, library_orders (ords v)) -> mapped_shapes atan2 shapes ps limit -> fresh s out ->
  exists s', generate_cmd (fun ps v => vis_periodic atan2 (ords v) ps v) (Ok shapes) out s = (s', Ok tt) /\ answers_open atan2 ps limit out s'.
Proof.
  intros T L (W & E & Er & F & Cc & Sw & Fi) (N1 & N2 & N3).
  destruct (generate_pipeline atan2 ords shapes out s limit L W E N1 N2 N3) as (ps' & g & Er' & Eg & H). rewrite Er in Er'. injection Er' as <-.
  destruct (H (clear_fixed ps F) Fi) as (s' & g' & E1 & E2 & B & Sg & _). exists s'. split; [exact E1|].
  pose proof (mapped_complete atan2 ords ps g (conj T (conj L (conj F (conj Cc (conj Sw Eg)))))) as Co. pose proof Sg as (S1 & S2 & S3 & _).
  apply (complete_folder atan2 ps limit out s' g'); [|exact E2].
  eapply complete_like; [exact Co|exact B| |].
  - rewrite S1. apply Co.
  - intros a b. unfold answer. rewrite S2, S3. reflexivity.
Qed.
Theorem distributed_open atan2 ords shuffle enum shapes ps (num : nat) dir inputs out s limit : accurate_atan2 atan2 -> (forall v, library_orders (ords v)) ->
  (forall l, Permutation (shuffle l) l) -> enumerates enum -> mapped_shapes atan2 shapes ps limit -> ps <> [] ->
  (1 <= num)%nat -> NoDup (map dir (seq 0 num)) -> (forall i, (i < num)%nat -> fresh s (dir i)) ->
  Permutation inputs (map dir (seq 0 num)) -> fresh s out -> ~ In out inputs ->
  let vis := fun ps v => vis_periodic atan2 (ords v) ps v in
  exists s1 s2, sequence (map (fun cur => generate_range_cmd vis shuffle (Ok shapes) (dir cur) (Z.of_nat cur) (Z.of_nat num)) (seq 0 num)) s = (s1, Ok tt) /\
    merge_cmd limit enum inputs out s1 = (s2, Ok tt) /\ answers_open atan2 ps limit out s2.
Proof.
  intros T L Sh En (W & E & Er & F & Cc & Sw & Fi) Ne N1 N2 N3 Pi Fo No vis.
  destruct (distributed_pipeline atan2 ords shuffle enum shapes num dir inputs out s limit L Sh En W E N1 N2 N3 Pi Fo No) as (ps' & g & Er' & Eg & H). rewrite Er in Er'. injection Er' as <-.
  destruct (H Ne (clear_fixed ps F) Fi) as (s1 & s2 & m & E1 & E2 & E3 & B & Nd & In_m & Sa). exists s1, s2. split; [exact E1|]. split; [exact E2|].
  pose proof (mapped_complete atan2 ords ps g (conj T (conj L (conj F (conj Cc (conj Sw Eg)))))) as Co.
  apply (complete_folder atan2 ps limit out s2 m); [|exact E3]. eapply complete_like; [exact Co|exact B|exact In_m|].
  intros a b. unfold answer. destruct (Sa a b) as [-> ->]. reflexivity.
Qed.
