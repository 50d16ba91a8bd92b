(** C108: a query with the default settings gives the shortest way over the water; C96 for lines which only touch the land. *)
From Verif Require Import Jordan.
From Coq Require Import ZArith Reals Bool List Lia Lra Permutation String.
From Flocq Require Import Core BinarySingleNaN.
From Verif Require Import PyLayer PyFacts Base F64 Coordinate Segment Polyline Polygon Periodicity Graph Visgraph VisgraphFacts SpecGeom SpecGraph F64Facts CoordinateFacts PolylineFacts
  PolygonMore GraphFacts GraphMore Serializer SerializerMore Sweep SweepFacts SweepMaps SweepGen SweepCases AngleFacts AngleSort SweepOpen SweepOrder SweepGeo SweepSound SweepExact SweepGraph SweepHalfGraph SweepLayers SweepWorld SweepForced SweepHashOrder
  ShortestPath DistFacts SearchFacts SearchSpec SearchGraph SearchQuery PathFacts PathMore FreePaths BlockedLegs OpenWater SweepFronts SeaLines SurveyCheck Coasts CoastExact CoastCheck Pipeline PipelineFacts PipelineFree PipelineOpen PipelineSea CoastRun
  Props_Sweep Props_Path Props_Python Props_Pipeline Props_Exact Props_EndToEnd Props_Open Props_OpenRun Props_Sea Ways LandWays WayRun Around Stretch Detour Touch Default Props_Coast Props_Ways Props_Detour.
Import ListNotations.
Local Open Scope Z_scope.

(** C96 where the straight line may only touch the land: it meets an edge of the map, across it or at a vertex *)
Theorem C96_touching_partial : forall atan2 ords ords' ps g en source destination ns nd radius rho flag fuel path w,
  surveyed atan2 ords ps g -> drawn ps -> coast_query atan2 ords' ps g en source destination ns nd -> edge_between ps ns nd -> reaches radius rho ->
  Z.of_nat (List.length (polygon_vertices ps)) <= 999998 ->
  shortest_path fuel en g source destination radius flag = Some (Ok path) -> minimal w (en_pick en) -> is_finite w = true -> (Rabs (V w) <= bpow radix2 900)%R ->
  exists l r, path = ns :: l /\ sailed ps ns nd ns l nd r /\
    forall l', a_way ps rho ns nd l' -> (r <= Rmax 1 (V w) * run (rp ns) (l' ++ [rp nd]) * (1 + / 2000000000))%R.
Proof.
  intros atan2 ords ords' ps g en source destination ns nd radius rho flag fuel path w Su Dr Cq Eb Re Sz. pose proof Su as (T & _ & _ & _ & Vw & _).
  exact (best_touch atan2 ords' ps g en source destination ns nd T (surveyed_true _ _ _ _ Su Dr) Dr Vw Cq Eb radius rho flag fuel path w Re Sz).
Qed.
Print Assumptions C96_touching_partial.
Theorem C96_touching_found_partial : forall atan2 ords ords' ps g en source destination ns nd radius rho flag,
  surveyed atan2 ords ps g -> drawn ps -> coast_query atan2 ords' ps g en source destination ns nd -> edge_between ps ns nd -> reaches radius rho ->
  ((exists l, a_way ps rho ns nd l) -> exists n, forall fuel, (n <= fuel)%nat -> exists path, shortest_path fuel en g source destination radius flag = Some (Ok path)) /\
  (forall fuel, shortest_path fuel en g source destination radius flag = Some (Throw NoPath) -> ~ exists l, a_way ps rho ns nd l).
Proof.
  intros atan2 ords ords' ps g en source destination ns nd radius rho flag Su Dr Cq Eb Re. pose proof Su as (T & _ & _ & _ & Vw & _). pose proof (surveyed_true _ _ _ _ Su Dr) as Tg. split.
  - exact (touch_found atan2 ords' ps g en source destination ns nd T Tg Dr Vw Cq Eb radius rho flag Re).
  - intros fuel. exact (no_touch atan2 ords' ps g en source destination ns nd T Tg Dr Vw Cq Eb radius rho flag fuel Re).
Qed.
Print Assumptions C96_touching_found_partial.

(** C108.  After a map was made in one run, any two places at sea, given by latitude and longitude: without a search
    radius, without moving endpoints and with a weight of one the answer is a path as short as any way over the water, to
    within one part in two thousand million, or an error, if there is no way at all.
    The index may report a line which only touches the land.
    Missing: ways around the world (a path of that kind may be shorter still), and maps which are not surveyed or drawn. *)
Theorem C108_one_run_partial : forall atan2 ords shapes ps out s limit, accurate_atan2 atan2 -> (forall v, library_orders (ords v)) ->
  drawn_shapes shapes ps limit -> Z.of_nat (List.length (polygon_vertices ps)) <= 999998 -> fresh s out ->
  exists s', generate_cmd (fun ps v => vis_periodic atan2 (ords v) ps v) (Ok shapes) out s = (s', Ok tt) /\ answers_default atan2 ps limit out s'.
Proof.
  intros atan2 ords shapes ps out s limit T L Ds Sz Fr. destruct (generate_drawn atan2 ords shapes ps out s limit T L Ds Fr) as (s' & E & H). exists s'. split; [exact E|].
  exact (default_folder atan2 shapes ps limit out s' T Ds Sz H).
Qed.
Print Assumptions C108_one_run_partial.
(** and in splits, merged *)
Theorem C108_splits_partial : forall atan2 ords shuffle enum shapes ps (num : nat) dir inputs out s limit, accurate_atan2 atan2 -> (forall v, library_orders (ords v)) ->
  (forall l, Permutation (shuffle l) l) -> enumerates enum -> drawn_shapes shapes ps limit -> Z.of_nat (List.length (polygon_vertices ps)) <= 999998 -> ps <> [] ->
  (1 <= num)%nat -> NoDup (map dir (seq 0 num)) -> (forall i, (i < num)%nat -> fresh s (dir i)) ->
  Permutation inputs (map dir (seq 0 num)) -> fresh s out -> ~ In out inputs ->
  let vis := fun ps v => vis_periodic atan2 (ords v) ps v in
  exists s1 s2, sequence (map (fun cur => generate_range_cmd vis shuffle (Ok shapes) (dir cur) (Z.of_nat cur) (Z.of_nat num)) (seq 0 num)) s = (s1, Ok tt) /\
    merge_cmd limit enum inputs out s1 = (s2, Ok tt) /\ answers_default atan2 ps limit out s2.
Proof.
  intros atan2 ords shuffle enum shapes ps num dir inputs out s limit T L Sh En Ds Sz Ne N1 N2 N3 Pi Fo No vis.
  destruct (distributed_drawn atan2 ords shuffle enum shapes ps num dir inputs out s limit T L Sh En Ds Ne N1 N2 N3 Pi Fo No) as (s1 & s2 & E1 & E2 & H). exists s1, s2. split; [exact E1|]. split; [exact E2|].
  exact (default_folder atan2 shapes ps limit out s2 T Ds Sz H).
Qed.
Print Assumptions C108_splits_partial.

(** out of the bay to the south, and an answer which is a path *)
Example C108_ex : forall atan2 ords, accurate_atan2 atan2 -> (forall v, library_orders (ords v)) ->
  fresh disk ["out"%string] /\ drawn_shapes (map shape_of cove) cove 10000 /\ Z.of_nat (List.length (polygon_vertices cove)) <= 999998 /\
  exists s' g fuel l t, generate_cmd (fun ps v => vis_periodic atan2 (ords v) ps v) (Ok (map shape_of cove)) ["out"%string] disk = (s', Ok tt) /\
    load_graph_from_file 10000 (default_graph_path ["out"%string]) s' = Ok g /\ vis_coord (place 10 15) = Ok inner /\ vis_coord (place 10 (-10)) = Ok south /\
    default_query atan2 ords cove g (bay_env atan2 ords g) inner south inner south /\
    interpolate_cmd 10000 ["out"%string] (bay_env atan2 ords) fuel (place 10 15) (place 10 (-10)) unlimited false s' = Some (Ok (convert (inner :: l))) /\
    sailed cove inner south inner l south t /\ (t <= run (rp inner) (map rp bends ++ [rp south]) * (1 + / 2000000000))%R.
Proof.
  intros atan2 ords A L. assert (Fr : fresh disk ["out"%string]) by (repeat split). assert (Ds : drawn_shapes (map shape_of cove) cove 10000) by (split; [exact cove_shapes|apply cove_drawn]).
  assert (Sz : Z.of_nat (List.length (polygon_vertices cove)) <= 999998) by (vm_compute; congruence). split; [exact Fr|]. split; [exact Ds|]. split; [exact Sz|].
  assert (E1 : vis_coord (place 10 15) = Ok inner) by (vm_compute; reflexivity). assert (E2 : vis_coord (place 10 (-10)) = Ok south) by (vm_compute; reflexivity).
  destruct (C108_one_run_partial atan2 ords _ _ _ _ _ A L Ds Sz Fr) as (s' & E & g & Eg & H). destruct cove_way as ((Co & _) & Nd & _).
  assert (Eb : edge_between cove inner south).
  { exists (mkS (mkC 0 0) (mkC 20000000 500000)). split; [exists (List.nth 0 cove (mkP [])), 0%nat; split; [left; reflexivity|split; [vm_compute; lia|reflexivity]]|].
    exists (59 / 100)%R, (1 / 2)%R. split; [lra|]. split; [lra|]. apply pt_eq; unfold mix, rp; cbn [X Y lon lat e1 e2]; lra. }
  assert (Qu : default_query atan2 ords cove g (bay_env atan2 ords g) inner south inner south).
  { pose proof (cove_coast atan2 ords g L) as (Sq & Ss & Sd). destruct Sq as (Q1 & Q2 & Q3 & Q4 & Q5 & Q6 & Q7 & Q8 & _ & _ & Q9 & Q10 & Q11). repeat (split; [assumption|]). split; [apply first_best_minimal|]. split; [intros Y; congruence|intros _; exact Eb]. }
  destruct (H ords (bay_env atan2 ords) (place 10 15) (place 10 (-10)) inner south inner south E1 E2 Qu) as (n & K).
  destruct (K n (le_n n)) as [(l & t & R & [Sl|(_ & X & _)] & Op)|(_ & X)].
  - exists s', g, n, l, t. split; [exact E|]. split; [exact Eg|]. split; [exact E1|]. split; [exact E2|]. split; [exact Qu|]. split; [exact R|]. split; [exact Sl|]. apply Op. exact Co.
  - exfalso. destruct Nd as [Y|[Y|Y]]; [vm_compute in Y; intuition discriminate|vm_compute in Y; intuition discriminate|apply Y, X].
  - exfalso. apply X. eexists. exact Co.
Qed.
(** past the south west corner: the line only touches the land there, the index reports it, and the query is allowed *)
Notation off_west := (mkC (-5000000) 5000000). Notation off_south := (mkC 6000000 (-6000000)).
Lemma touching : at_sea cove off_west /\ at_sea cove off_south /\ edge_between cove off_west off_south /\ sails cove (rp off_west) (rp off_south).
Proof.
  destruct cove_views as (Cl & Nd & Vw & _). pose proof (fun c => clear_ngeo cove c Cl) as G. pose proof (proj1 cove_drawn) as Dr.
  assert (Cr : roomy_b cove = true) by (vm_compute; reflexivity).
  assert (S1 : at_sea cove off_west) by (split; [split; vm_compute; congruence|right; split; [apply ordered_view_b_ok; [exact Cr|vm_compute; reflexivity]|apply off_land_b_ok; vm_compute; reflexivity]]).
  assert (S2 : at_sea cove off_south) by (split; [split; vm_compute; congruence|right; split; [apply ordered_view_b_ok; [exact Cr|vm_compute; reflexivity]|apply off_land_b_ok; vm_compute; reflexivity]]).
  assert (I0 : In (mkC 0 0) (polygon_vertices cove)) by (vm_compute; tauto).
  assert (Le : forall c, at_sea cove c -> c <> mkC 0 0 -> open_b cove c (mkC 0 0) = true -> sails cove (rp c) (rp (mkC 0 0))).
  { intros c Sc N O. apply (open_sails cove G Nd Dr Vw); [apply (sea_fine cove G Dr Vw), Sc|exact I0|exact N|]. apply open_direct; [exact G|apply Sc|apply G, I0|apply open_b_ok, O]. }
  assert (Eb : edge_between cove off_west off_south).
  { exists (mkS (mkC 0 0) (mkC 20000000 500000)). split; [exists (List.nth 0 cove (mkP [])), 0%nat; split; [left; reflexivity|split; [vm_compute; lia|reflexivity]]|].
    exists (5 / 11)%R, 0%R. split; [lra|]. split; [lra|]. apply pt_eq; unfold mix, rp; cbn [X Y lon lat e1 e2]; lra. }
  split; [exact S1|]. split; [exact S2|]. split; [exact Eb|].
  intros r R. pose proof (Le off_west S1 ltac:(discriminate) ltac:(vm_compute; reflexivity)) as A. pose proof (Le off_south S2 ltac:(discriminate) ltac:(vm_compute; reflexivity)) as B.
    destruct (Rle_dec r (5 / 11)) as [H|H].
    + specialize (A (11 / 5 * r)%R ltac:(lra)). replace (mix (rp off_west) (rp off_south) r) with (mix (rp off_west) (rp (mkC 0 0)) (11 / 5 * r)) by (apply pt_eq; unfold mix, rp; cbn [X Y lon lat]; lra). exact A.
    + specialize (B (11 / 6 * (1 - r))%R ltac:(lra)). replace (mix (rp off_west) (rp off_south) r) with (mix (rp off_south) (rp (mkC 0 0)) (11 / 6 * (1 - r))) by (apply pt_eq; unfold mix, rp; cbn [X Y lon lat]; lra). exact B.
Qed.
Example C108_touch_ex : forall atan2 ords g, (forall v, library_orders (ords v)) ->
  default_query atan2 ords cove g (bay_env atan2 ords g) off_west off_south off_west off_south /\ ix_crossing (en_index (bay_env atan2 ords g)) (mkS off_west off_south) <> [] /\
  sails cove (rp off_west) (rp off_south) /\ ~ In off_west (polygon_vertices cove) /\ ~ In off_south (polygon_vertices cove).
Proof.
  intros atan2 ords g L. destruct touching as (S1 & S2 & Eb & Sl). split; [|split; [discriminate|split; [exact Sl|split; vm_compute; intuition discriminate]]].
  split; [exact L|]. split; [reflexivity|]. split; [intros v l; reflexivity|]. split; [intros c _ X; discriminate X|].
  split; [repeat split; vm_compute; congruence|]. split; [repeat split; vm_compute; congruence|]. split; [vm_compute; reflexivity|]. split; [vm_compute; reflexivity|].
  split; [exact S1|]. split; [exact S2|]. split; [reflexivity|]. split; [reflexivity|]. split; [apply first_best_minimal|]. split; [intros X; discriminate X|intros _; exact Eb].
Qed.
(** the same for C96, with a way straight past the corner *)
Example C96_touching_ex : forall atan2 ords, accurate_atan2 atan2 -> (forall v, library_orders (ords v)) ->
  exists g fuel path, surveyed atan2 ords cove g /\ drawn cove /\ coast_query atan2 ords cove g (bay_env atan2 ords g) off_west off_south off_west off_south /\ edge_between cove off_west off_south /\
    reaches f_max 100000000 /\ Z.of_nat (List.length (polygon_vertices cove)) <= 999998 /\ a_way cove 100000000 off_west off_south [] /\ ~ not_direct cove off_west off_south /\
    minimal f_1 (en_pick (bay_env atan2 ords g)) /\ is_finite f_1 = true /\ shortest_path fuel (bay_env atan2 ords g) g off_west off_south f_max true = Some (Ok path).
Proof.
  intros atan2 ords A L. destruct (cove_surveyed atan2 ords A L) as (g & Su). destruct cove_drawn as (Dr & _). destruct touching as (S1 & S2 & Eb & Sl). destruct (C108_touch_ex atan2 ords g L) as (Qu & Ne & _ & V1 & V2).
  destruct Qu as (Q1 & Q2 & Q3 & Q4 & Q5 & Q6 & Q7 & Q8 & _ & _ & Q9 & Q10 & Mi & _).
  assert (Cq : coast_query atan2 ords cove g (bay_env atan2 ords g) off_west off_south off_west off_south).
  { split; [|split; assumption]. repeat (split; [assumption|]). split; [apply S1|]. split; [apply S2|]. split; [exact Q9|]. split; [exact Q10|exact Ne]. }
  assert (Wa : a_way cove 100000000 off_west off_south []) by (split; [split; [exact Sl|exact I]|intros p [<-|[]]; apply far_bound; vm_compute; congruence]).
  destruct (C96_touching_found_partial atan2 ords ords cove g (bay_env atan2 ords g) _ _ _ _ f_max 100000000 true Su Dr Cq Eb f_max_reaches) as (H & _). destruct (H (ex_intro _ _ Wa)) as (n & K). destruct (K n (le_n n)) as (path & E).
  exists g, n, path. do 4 (split; [assumption|]). split; [exact f_max_reaches|]. split; [vm_compute; congruence|]. split; [exact Wa|]. split; [intros [X|[X|X]]; contradiction|]. split; [exact Mi|]. split; [reflexivity|exact E].
Qed.
