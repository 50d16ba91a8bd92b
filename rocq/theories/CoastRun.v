(** Queries on a map drawn with simple rings, and the way there from a shape file: the path is the shortest of all routes
    through open water.  No code is modelled here. *)
From Coq Require Import ZArith Reals Bool List Lia Lra Permutation String.
From Flocq Require Import Core BinarySingleNaN.
From Verif Require Import PyLayer PyFacts Base F64 Coordinate Segment Polygon PolygonMore Polyline PolylineFacts Periodicity Graph GraphFacts GraphMore Visgraph VisgraphFacts SpecGeom SpecGraph F64Facts CoordinateFacts Serializer SerializerMore
  Sweep SweepFacts SweepMaps SweepGen SweepOrder AngleFacts AngleSort SweepGeo SweepGraph SweepFronts
  ShortestPath DistFacts SearchFacts SearchSpec SearchGraph SearchQuery PathFacts PathMore FreePaths OpenWater SeaLines Coasts CoastExact Pipeline PipelineFacts PipelineFree PipelineOpen PipelineSea.
Import ListNotations.
Local Open Scope Z_scope.

(** a query between points at sea, which the index does not take to be connected in a straight line *)
Definition coast_query (atan2 : Z -> Z -> f64) (ords' : coord -> orders) (ps : list polygon) (g : graph) (en : env) (source destination ns nd : coord) : Prop :=
  sea_query atan2 ords' g en source destination ns nd /\ at_sea ps ns /\ at_sea ps nd.

Section Query.
Variables (atan2 : Z -> Z -> f64) (ords' : coord -> orders) (ps : list polygon) (g : graph) (en : env) (source destination ns nd : coord).
Hypotheses (T : accurate_atan2 atan2) (Tg : true_graph ps g) (Dr : drawn ps) (Cq : coast_query atan2 ords' ps g en source destination ns nd).
Notation lc := (mkLC ns nd None None).
Lemma cq_journey u l t r : journey (road g (en_vis en) lc) u l t r <-> sailed ps ns nd u l t r.
Proof.
  destruct Cq as ((L & Ev & _) & Cs & Cd). rewrite Ev. exact (journey_exact atan2 ords' ps g T Tg Dr L ns nd Cs Cd u l t r).
Qed.
Theorem best_route radius flag fuel path w :
  shortest_path fuel en g source destination radius flag = Some (Ok path) -> Z.of_nat (List.length path) <= 1000000 ->
  minimal w (en_pick en) -> is_finite w = true -> (Rabs (V w) <= bpow radix2 900)%R ->
  exists l r, path = ns :: l /\ sailed ps ns nd ns l nd r /\
    forall l' r', sailed ps ns nd ns l' nd r' -> Forall (within ns radius) l' -> Z.of_nat (List.length l') <= 1000000 ->
      (r <= Rmax 1 (V w) * r' * (1 + / 2000000000))%R.
Proof.
  intros E Len Mn Fw Bw. pose proof Cq as (Sq & _). pose proof (true_complete ps g Tg) as Co. pose proof (sea_fit _ _ _ _ _ _ _ _ _ Co Sq) as Fit. pose proof Sq as (_ & _ & _ & _ & Ms & Md & _).
  destruct (query_optimal en g source destination radius flag Fit Ms Md fuel path _ w E (sea_correction _ _ _ _ _ _ _ _ Sq) (sea_searched _ _ _ _ _ _ _ _ Sq) Mn Fw Bw) as (l & r & -> & J & O).
  cbn [lc_source lc_dest] in J, O. exists l, r. split; [reflexivity|]. split; [apply cq_journey, J|]. intros l' r' Ro Wi Len'.
  apply cq_journey in Ro. cbn [List.length] in Len.
  apply (rounding_factor r (Rmax 1 (V w)) r' (List.length l) (List.length l')); [eapply journey_pos; exact J|apply Rmax_l|eapply journey_pos; exact Ro|lia|lia|]. apply O; assumption.
Qed.
(** whatever the order in which the search picks *)
Theorem path_sailed radius flag fuel path : shortest_path fuel en g source destination radius flag = Some (Ok path) ->
  exists l r, path = ns :: l /\ sailed ps ns nd ns l nd r /\ Forall (within ns radius) l.
Proof.
  intros E. pose proof Cq as (Sq & _). pose proof (true_complete ps g Tg) as Co. pose proof (sea_fit _ _ _ _ _ _ _ _ _ Co Sq) as Fit. pose proof Sq as (_ & _ & _ & _ & Ms & Md & _).
  destruct (query_success en g source destination radius flag Fit Ms Md fuel _ path E (sea_correction _ _ _ _ _ _ _ _ Sq) (sea_searched _ _ _ _ _ _ _ _ Sq)) as (l & r & -> & J & Wi).
  exists l, r. split; [reflexivity|]. split; [apply cq_journey, J|exact Wi].
Qed.
Theorem no_route radius flag fuel : shortest_path fuel en g source destination radius flag = Some (Throw NoPath) ->
  ~ exists l r, sailed ps ns nd ns l nd r /\ Forall (within ns radius) l.
Proof.
  intros E (l & r & Ro & Wi). pose proof Cq as (Sq & _). pose proof (true_complete ps g Tg) as Co. pose proof (sea_fit _ _ _ _ _ _ _ _ _ Co Sq) as Fit. pose proof Sq as (_ & _ & _ & _ & Ms & Md & Es & Ed & _ & _ & Ls & Ld & _).
  destruct (query_failure en g source destination radius flag Fit Ms Md fuel _ _ E (sea_correction _ _ _ _ _ _ _ _ Sq) (sea_searched _ _ _ _ _ _ _ _ Sq)) as [(path & X)|(_ & X)]; [|discriminate X|].
  - right. exists ns, nd. auto.
  - apply X. exists l, r. split; [apply cq_journey, Ro|exact Wi].
Qed.
(** a path if and only if there is a route, once the search is given enough steps *)
Theorem route_found radius flag : exists n, forall fuel, (n <= fuel)%nat ->
  ((exists path, shortest_path fuel en g source destination radius flag = Some (Ok path)) <-> exists l r, sailed ps ns nd ns l nd r /\ Forall (within ns radius) l) /\
  (shortest_path fuel en g source destination radius flag = Some (Throw NoPath) <-> ~ exists l r, sailed ps ns nd ns l nd r /\ Forall (within ns radius) l).
Proof.
  pose proof Cq as (Sq & _). pose proof (true_complete ps g Tg) as Co. pose proof (sea_fit _ _ _ _ _ _ _ _ _ Co Sq) as Fit. pose proof Sq as (_ & _ & _ & _ & Ms & Md & Es & Ed & _ & _ & Ls & Ld & _).
  destruct (query_terminates en g source destination radius flag Fit Ms Md) as (n & Te). exists n. intros fuel Lf. destruct (Te fuel Lf) as [T1 _].
  destruct (shortest_path fuel en g source destination radius flag) as [r|] eqn:Q; [|congruence].
  destruct (query_failure en g source destination radius flag Fit Ms Md fuel _ r Q (sea_correction _ _ _ _ _ _ _ _ Sq) (sea_searched _ _ _ _ _ _ _ _ Sq)) as [(path & ->)|(-> & _)].
  - right. exists ns, nd. auto.
  - destruct (path_sailed radius flag fuel path Q) as (l & r & _ & A & B). split; split.
    + intros _. exists l, r. split; [exact A|exact B].
    + intros _. exists path. reflexivity.
    + intros X. discriminate X.
    + intros X. elim X. exists l, r. split; [exact A|exact B].
  - pose proof (no_route radius flag fuel Q) as N. split; split.
    + intros (p & X). discriminate X.
    + intros X. elim (N X).
    + intros _. exact N.
    + intros _. reflexivity.
Qed.
End Query.

(** a route has one length *)
Lemma sailed_length ps s d u l t r r' : sailed ps s d u l t r -> sailed ps s d u l t r' -> r = r'.
Proof.
  intros H. revert r'. induction H as [u|u v l t r O Ne A B C H IH|u v k l t r K O No Ne A B H IH]; intros r' X; inversion X; subst; try contradiction; f_equal; apply IH; assumption.
Qed.

(** the path is the shortest of all routes through open water; or there is none, and there is no route *)
Definition best_answer (ps : list polygon) (en : env) (ns nd : coord) (radius : f64) (r : option (res (list pcoord))) : Prop :=
  (exists l t, r = Some (Ok (convert (ns :: l))) /\ sailed ps ns nd ns l nd t /\ Forall (within ns radius) l /\
     (Z.of_nat (List.length (ns :: l)) <= 1000000 -> forall w, minimal w (en_pick en) -> is_finite w = true -> (Rabs (V w) <= bpow radix2 900)%R ->
        forall l' t', sailed ps ns nd ns l' nd t' -> Forall (within ns radius) l' -> Z.of_nat (List.length l') <= 1000000 ->
          (t <= Rmax 1 (V w) * t' * (1 + / 2000000000))%R)) \/
  (r = Some (Throw NoPath) /\ ~ exists l t, sailed ps ns nd ns l nd t /\ Forall (within ns radius) l).
Lemma true_answers atan2 ords' ps g en c1 c2 source destination ns nd radius flag :
  accurate_atan2 atan2 -> true_graph ps g -> drawn ps -> coast_query atan2 ords' ps g en source destination ns nd -> vis_coord c1 = Ok source -> vis_coord c2 = Ok destination ->
  exists n, forall fuel, (n <= fuel)%nat -> best_answer ps en ns nd radius (interpolate fuel en g c1 c2 radius flag).
Proof.
  intros T Tg Dr Cq E1 E2. pose proof Cq as (Sq & _). pose proof (true_complete ps g Tg) as Co. pose proof (sea_fit _ _ _ _ _ _ _ _ _ Co Sq) as Fit. pose proof Sq as (_ & _ & _ & _ & Ms & Md & Es & Ed & _ & _ & Ls & Ld & _).
  destruct (query_terminates en g source destination radius flag Fit Ms Md) as (n & Te). exists n. intros fuel Lf. destruct (Te fuel Lf) as [T1 _].
  unfold interpolate. rewrite E1, E2. destruct (shortest_path fuel en g source destination radius flag) as [r|] eqn:Q; [|congruence].
  destruct (query_failure en g source destination radius flag Fit Ms Md fuel _ r Q (sea_correction _ _ _ _ _ _ _ _ Sq) (sea_searched _ _ _ _ _ _ _ _ Sq)) as [(path & ->)|(-> & _)].
  - right. exists ns, nd. auto.
  - left. destruct (path_sailed atan2 ords' ps g en source destination ns nd T Tg Dr Cq radius flag fuel path Q) as (l & t & -> & A & B).
    exists l, t. split; [reflexivity|]. split; [exact A|]. split; [exact B|]. intros Le w Mn Fw Bw l' t' Ro Wi Le'.
    destruct (best_route atan2 ords' ps g en source destination ns nd T Tg Dr Cq radius flag fuel _ w Q Le Mn Fw Bw) as (l0 & t0 & X & A' & O). injection X as <-.
    replace t with t0 by exact (sailed_length _ _ _ _ _ _ _ _ A' A). exact (O l' t' Ro Wi Le').
  - right. split; [reflexivity|]. exact (no_route atan2 ords' ps g en source destination ns nd T Tg Dr Cq radius flag fuel Q).
Qed.

(** ** Shapes *)
(** shapes on earth which make a map of simple rings, all of whose vertices have an ordered view *)
Definition drawn_shapes (shapes : list shape) (ps : list polygon) (limit : Z) : Prop := surveyed_shapes shapes ps limit /\ drawn ps.
(** any query of the graph in [folder] *)
Definition answers_best (atan2 : Z -> Z -> f64) (ps : list polygon) (limit : Z) (folder : path) (s : fs) : Prop :=
  exists g, load_graph_from_file limit (default_graph_path folder) s = Ok g /\ true_graph ps g /\
  forall ords en c1 c2 source destination ns nd radius flag,
    vis_coord c1 = Ok source -> vis_coord c2 = Ok destination -> coast_query atan2 ords ps g (en g) source destination ns nd ->
    exists n, forall fuel, (n <= fuel)%nat -> best_answer ps (en g) ns nd radius (interpolate_cmd limit folder en fuel c1 c2 radius flag s).
Lemma true_folder atan2 ps limit folder s g : accurate_atan2 atan2 -> true_graph ps g -> drawn ps -> load_graph_from_file limit (default_graph_path folder) s = Ok g -> answers_best atan2 ps limit folder s.
Proof.
  intros T Tg Dr E. exists g. split; [exact E|]. split; [exact Tg|]. intros ords en c1 c2 source destination ns nd radius flag E1 E2 Qu.
  destruct (true_answers atan2 ords ps g (en g) c1 c2 source destination ns nd radius flag T Tg Dr Qu E1 E2) as (n & H). exists n. intros fuel L.
  unfold interpolate_cmd. rewrite E. apply H, L.
Qed.
Theorem generate_drawn atan2 ords shapes ps out s limit : accurate_atan2 atan2 -> (forall v, library_orders (ords v)) -> drawn_shapes shapes ps limit -> fresh s out ->
  exists s', generate_cmd (fun ps v => vis_periodic atan2 (ords v) ps v) (Ok shapes) out s = (s', Ok tt) /\ answers_best atan2 ps limit out s'.
Proof.
  intros T L ((W & E & Er & F & N & C & Fi) & Dr) (N1 & N2 & N3).
  destruct (generate_pipeline atan2 ords shapes out s limit L W E N1 N2 N3) as (ps' & g & Er' & Eg & H). rewrite Er in Er'. injection Er' as <-.
  destruct (H (clear_fixed ps F) Fi) as (s' & g' & E1 & E2 & B & Sg & _). exists s'. split; [exact E1|].
  assert (Su : surveyed atan2 ords ps g) by (repeat (split; [assumption|]); assumption).
  pose proof (surveyed_true _ _ _ _ Su Dr) as Tg. pose proof Sg as (S1 & S2 & S3 & _).
  assert (An : forall a b, answer g' a b = answer g a b) by (intros a b; unfold answer; rewrite S2, S3; reflexivity).
  apply (true_folder atan2 ps limit out s' g'); [exact T| |exact Dr|exact E2].
  eapply true_like; [exact Tg|exact B| |exact An]. rewrite S1. apply Tg.
Qed.
Theorem distributed_drawn atan2 ords shuffle enum shapes ps (num : nat) dir inputs out s limit : accurate_atan2 atan2 -> (forall v, library_orders (ords v)) ->
  (forall l, Permutation (shuffle l) l) -> enumerates enum -> drawn_shapes shapes ps limit -> ps <> [] ->
  (1 <= num)%nat -> NoDup (map dir (seq 0 num)) -> (forall i, (i < num)%nat -> fresh s (dir i)) ->
  Permutation inputs (map dir (seq 0 num)) -> fresh s out -> ~ In out inputs ->
  let vis := fun ps v => vis_periodic atan2 (ords v) ps v in
  exists s1 s2, sequence (map (fun cur => generate_range_cmd vis shuffle (Ok shapes) (dir cur) (Z.of_nat cur) (Z.of_nat num)) (seq 0 num)) s = (s1, Ok tt) /\
    merge_cmd limit enum inputs out s1 = (s2, Ok tt) /\ answers_best atan2 ps limit out s2.
Proof.
  intros T L Sh En ((W & E & Er & F & N & C & Fi) & Dr) Ne N1 N2 N3 Pi Fo No vis.
  destruct (distributed_pipeline atan2 ords shuffle enum shapes num dir inputs out s limit L Sh En W E N1 N2 N3 Pi Fo No) as (ps' & g & Er' & Eg & H). rewrite Er in Er'. injection Er' as <-.
  destruct (H Ne (clear_fixed ps F) Fi) as (s1 & s2 & m & E1 & E2 & E3 & B & Nd & In_m & Sa). exists s1, s2. split; [exact E1|]. split; [exact E2|].
  assert (Su : surveyed atan2 ords ps g) by (repeat (split; [assumption|]); assumption).
  pose proof (surveyed_true _ _ _ _ Su Dr) as Tg.
  assert (An : forall a b, answer m a b = answer g a b) by (intros a b; unfold answer; destruct (Sa a b) as [-> ->]; reflexivity).
  apply (true_folder atan2 ps limit out s2 m); [exact T| |exact Dr|exact E3].
  eapply true_like; [exact Tg|exact B| |exact An]. apply NoDup_Permutation; [exact Nd|apply clear_parts_distinct; assumption|exact In_m].
Qed.
