(** C96: no way over the water is shorter than the path.  No code is modelled here. *)
From Verif Require Import Jordan.
From Coq Require Import ZArith Reals Bool List Lia Lra Permutation String.
From Flocq Require Import Core BinarySingleNaN.
From Verif Require Import PyLayer PyFacts Base F64 Coordinate Segment Polyline Polygon Periodicity Graph Visgraph VisgraphFacts SpecGeom SpecGraph F64Facts CoordinateFacts PolylineFacts
  PolygonMore GraphFacts GraphMore Serializer SerializerMore Sweep SweepFacts SweepMaps SweepGen SweepCases AngleFacts AngleSort SweepOpen SweepOrder SweepGeo SweepSound SweepExact SweepGraph SweepHalfGraph SweepLayers SweepWorld SweepForced SweepHashOrder
  ShortestPath DistFacts SearchFacts SearchSpec SearchGraph SearchQuery PathFacts PathMore FreePaths BlockedLegs OpenWater SweepFronts SeaLines SurveyCheck Coasts CoastExact CoastCheck Pipeline PipelineFacts PipelineFree PipelineOpen PipelineSea CoastRun
  Props_Sweep Props_Path Props_Python Props_Pipeline Props_Exact Props_EndToEnd Props_Open Props_OpenRun Props_Sea Ways WayRun Props_Coast.
Import ListNotations.
Local Open Scope Z_scope.

(** C96.  Ways are over the plane: courses with bends at any points, every point of which lies on a shore or outside
    every polygon.  Missing: other maps (false, below), ways around the world; endpoints moved to the shore are in C98. *)
(** any way can be replaced by one with bends at vertices which is no longer, in any convex region around it *)
Theorem C96_bends : forall ps (D : pt -> Prop), NoDup (polygon_vertices ps) -> sketched ps ->
  (forall p q h, D p -> D q -> (0 <= h <= 1)%R -> D (mix p q h)) ->
  forall l a z, course ps a (l ++ [z]) -> D a -> D z -> (forall p, In p l -> D p) ->
  exists ws, (forall w, In w ws -> In w (polygon_vertices ps) /\ D (rp w)) /\ course ps a (map rp ws ++ [z]) /\ (run a (map rp ws ++ [z]) <= run a (l ++ [z]))%R.
Proof. intros ps D Nd Sk Cv. exact (smoothed ps Nd Sk D Cv). Qed.
Print Assumptions C96_bends.
(** no way at all is shorter than the path *)
Theorem C96_shortest_partial : forall atan2 ords ords' ps g en source destination ns nd radius rho flag fuel path w,
  surveyed atan2 ords ps g -> drawn ps -> coast_query atan2 ords' ps g en source destination ns nd -> not_direct ps ns nd -> reaches radius rho ->
  Z.of_nat (List.length (polygon_vertices ps)) <= 999998 ->
  shortest_path fuel en g source destination radius flag = Some (Ok path) -> minimal w (en_pick en) -> is_finite w = true -> (Rabs (V w) <= bpow radix2 900)%R ->
  exists l r, path = ns :: l /\ sailed ps ns nd ns l nd r /\
    forall l', a_way ps rho ns nd l' -> (r <= Rmax 1 (V w) * run (rp ns) (l' ++ [rp nd]) * (1 + / 2000000000))%R.
Proof.
  intros atan2 ords ords' ps g en source destination ns nd radius rho flag fuel path w Su Dr Cq Bl Re Sz.
  pose proof Su as (T & _ & _ & _ & Vw & _).
  exact (best_way atan2 ords' ps g en source destination ns nd T (surveyed_true _ _ _ _ Su Dr) Dr Vw Cq Bl radius rho flag fuel path w Re Sz).
Qed.
Print Assumptions C96_shortest_partial.
(** a path if there is any way, NoPath only if there is none *)
Theorem C96_found_partial : forall atan2 ords ords' ps g en source destination ns nd radius rho flag,
  surveyed atan2 ords ps g -> drawn ps -> coast_query atan2 ords' ps g en source destination ns nd -> not_direct ps ns nd -> reaches radius rho ->
  ((exists l, a_way ps rho ns nd l) -> exists n, forall fuel, (n <= fuel)%nat -> exists path, shortest_path fuel en g source destination radius flag = Some (Ok path)) /\
  (forall fuel, shortest_path fuel en g source destination radius flag = Some (Throw NoPath) -> ~ exists l, a_way ps rho ns nd l).
Proof.
  intros atan2 ords ords' ps g en source destination ns nd radius rho flag Su Dr Cq Bl Re. pose proof Su as (T & _ & _ & _ & Vw & _). pose proof (surveyed_true _ _ _ _ Su Dr) as Tg. split.
  - exact (way_found atan2 ords' ps g en source destination ns nd T Tg Dr Vw Cq Bl radius rho flag Re).
  - intros fuel. exact (no_way atan2 ords' ps g en source destination ns nd T Tg Dr Vw Cq Bl radius rho flag fuel Re).
Qed.
Print Assumptions C96_found_partial.
(** and a route with no leg around the world is itself a way, as long as it is said to be *)
Theorem C96_is_way_partial : forall atan2 ords ords' ps g en source destination ns nd l t r,
  surveyed atan2 ords ps g -> drawn ps -> coast_query atan2 ords' ps g en source destination ns nd -> sailed ps ns nd ns l t r ->
  (forall u v l1 l2, ns :: l = l1 ++ u :: v :: l2 -> open_line ps u v) -> course ps (rp ns) (map rp l) /\ r = run (rp ns) (map rp l).
Proof.
  intros atan2 ords ords' ps g en source destination ns nd l t r Su Dr Cq. pose proof Su as (T & _ & _ & _ & Vw & _).
  exact (route_way atan2 ords' ps g en source destination ns nd (surveyed_true _ _ _ _ Su Dr) Dr Vw Cq l t r).
Qed.
Print Assumptions C96_is_way_partial.
(** from a shape file, in one run *)
Theorem C96_one_run_partial : forall atan2 ords shapes ps out s limit, accurate_atan2 atan2 -> (forall v, library_orders (ords v)) ->
  drawn_shapes shapes ps limit -> Z.of_nat (List.length (polygon_vertices ps)) <= 999998 -> fresh s out ->
  exists s', generate_cmd (fun ps v => vis_periodic atan2 (ords v) ps v) (Ok shapes) out s = (s', Ok tt) /\ answers_ways atan2 ps limit out s'.
Proof.
  intros atan2 ords shapes ps out s limit T L Ds Sz Fr. destruct (generate_drawn atan2 ords shapes ps out s limit T L Ds Fr) as (s' & E & H). exists s'. split; [exact E|].
  exact (ways_folder atan2 shapes ps limit out s' T Ds Sz H).
Qed.
Print Assumptions C96_one_run_partial.
(** and in splits *)
Theorem C96_splits_partial : forall atan2 ords shuffle enum shapes ps (num : nat) dir inputs out s limit, accurate_atan2 atan2 -> (forall v, library_orders (ords v)) ->
  (forall l, Permutation (shuffle l) l) -> enumerates enum -> drawn_shapes shapes ps limit -> Z.of_nat (List.length (polygon_vertices ps)) <= 999998 -> ps <> [] ->
  (1 <= num)%nat -> NoDup (map dir (seq 0 num)) -> (forall i, (i < num)%nat -> fresh s (dir i)) ->
  Permutation inputs (map dir (seq 0 num)) -> fresh s out -> ~ In out inputs ->
  let vis := fun ps v => vis_periodic atan2 (ords v) ps v in
  exists s1 s2, sequence (map (fun cur => generate_range_cmd vis shuffle (Ok shapes) (dir cur) (Z.of_nat cur) (Z.of_nat num)) (seq 0 num)) s = (s1, Ok tt) /\
    merge_cmd limit enum inputs out s1 = (s2, Ok tt) /\ answers_ways atan2 ps limit out s2.
Proof.
  intros atan2 ords shuffle enum shapes ps num dir inputs out s limit T L Sh En Ds Sz Ne N1 N2 N3 Pi Fo No vis.
  destruct (distributed_drawn atan2 ords shuffle enum shapes ps num dir inputs out s limit T L Sh En Ds Ne N1 N2 N3 Pi Fo No) as (s1 & s2 & E1 & E2 & H). exists s1, s2. split; [exact E1|]. split; [exact E2|].
  exact (ways_folder atan2 shapes ps limit out s2 T Ds Sz H).
Qed.
Print Assumptions C96_splits_partial.

(** out of the bay and around its western arm, with bends in open water *)
Definition bends : list coord := [mkC 8000000 24000000; mkC (-4000000) 22000000; mkC (-4000000) (-3000000)].
Lemma cove_way : let s := mkC 10000000 15000000 in let d := mkC 10000000 (-10000000) in
  a_way cove 100000000 s d (map rp bends) /\ not_direct cove s d /\ Forall (fun b => ~ In b (polygon_vertices cove)) bends.
Proof.
  intros s d. assert (Sk : sketched cove) by (apply sketched_base, cove_drawn). split; [split|split].
  - cbn [map bends app course]. repeat (split; [apply sails_b_ok; [exact Sk|vm_compute; reflexivity]|]). exact I.
  - intros p H. cbn [map bends app] in H. repeat (destruct H as [<-|H]; [apply far_bound; vm_compute; congruence|]). destruct H.
  - right. right. intros Sa. pose proof (Sa (12 / 25)%R ltac:(lra)) as A. replace (mix (rp s) (rp d) (12 / 25)) with (rp (mkC 10000000 3000000)) in A by (apply pt_eq; unfold s, d, mix, rp; cbn [X Y lon lat]; lra).
    revert A. eapply inland_b_ok; [exact Sk|left; reflexivity|vm_compute; reflexivity].
  - repeat constructor; vm_compute; intuition discriminate.
Qed.
Lemma f_max_reaches : reaches f_max 100000000.
Proof.
  right. split; [reflexivity|]. change (V f_max) with (IZR 9007199254740991 * bpow radix2 971)%R. apply Rle_trans with (IZR 9007199254740991 * 1)%R.
  - pose proof micro_bounds as M. rewrite u5_val. lra.
  - apply Rmult_le_compat_l; [lra|]. change 1%R with (bpow radix2 0). apply bpow_le. lia.
Qed.
Example C96_bends_ex : let s := mkC 10000000 15000000 in let d := mkC 10000000 (-10000000) in
  exists ws, (forall w, In w ws -> In w (polygon_vertices cove)) /\ course cove (rp s) (map rp ws ++ [rp d]) /\ (run (rp s) (map rp ws ++ [rp d]) <= run (rp s) (map rp bends ++ [rp d]))%R /\ ws <> [].
Proof.
  intros s d. destruct cove_way as ((Co & _) & Nd' & _). fold s d in Co, Nd'. destruct cove_views as (_ & Nd & _).
  destruct (C96_bends cove (fun _ => True) Nd (sketched_base _ (proj1 (proj1 cove_drawn))) (fun _ _ _ _ _ _ => I) _ _ _ Co I I (fun _ _ => I)) as (ws & W & C & R).
  exists ws. split; [intros w Hw; apply (W w Hw)|]. split; [exact C|]. split; [exact R|]. intros ->. destruct C as [C _]. destruct Nd' as [X|[X|X]]; [| |contradiction]; vm_compute in X; intuition discriminate.
Qed.
Example C96_ex : forall atan2 ords, accurate_atan2 atan2 -> (forall v, library_orders (ords v)) ->
  let s := mkC 10000000 15000000 in let d := mkC 10000000 (-10000000) in
  exists g fuel path, surveyed atan2 ords cove g /\ drawn cove /\ coast_query atan2 ords cove g (bay_env atan2 ords g) s d s d /\ not_direct cove s d /\ reaches f_max 100000000 /\
    Z.of_nat (List.length (polygon_vertices cove)) <= 999998 /\ (exists l, a_way cove 100000000 s d l) /\
    minimal f_1 (en_pick (bay_env atan2 ords g)) /\ is_finite f_1 = true /\ shortest_path fuel (bay_env atan2 ords g) g s d f_max true = Some (Ok path).
Proof.
  intros atan2 ords A L s d. destruct (cove_surveyed atan2 ords A L) as (g & Su). pose proof (cove_coast atan2 ords g L) as Cq. destruct cove_drawn as (Dr & _). destruct cove_way as (Wa & Nd & _). fold s d in Wa, Nd, Cq.
  destruct (C96_found_partial atan2 ords ords cove g (bay_env atan2 ords g) s d s d f_max 100000000 true Su Dr Cq Nd f_max_reaches) as (H & _). destruct (H (ex_intro _ _ Wa)) as (n & K). destruct (K n (le_n n)) as (path & E).
  exists g, n, path. split; [exact Su|]. split; [exact Dr|]. split; [exact Cq|]. split; [exact Nd|]. split; [exact f_max_reaches|]. split; [vm_compute; congruence|]. split; [exists (map rp bends); exact Wa|]. split; [apply first_best_minimal|]. split; [reflexivity|exact E].
Qed.
Example C96_is_way_ex : let s := mkC 10000000 15000000 in let d := mkC 10000000 (-10000000) in
  let l := [mkC 4700000 20200000; mkC (-200000) 19900000; mkC 0 0; d] in
  (exists r, sailed cove s d s l d r) /\ (forall u v l1 l2, s :: l = l1 ++ u :: v :: l2 -> open_line cove u v).
Proof.
  intros s d l. split; [apply cove_sailed|]. destruct cove_views as (F & _). pose proof (fun c => clear_ngeo cove c F) as G.
  assert (O : forall a b, ngeo a -> ngeo b -> open_b cove a b = true -> open_line cove a b) by (intros a b Ga Gb H; apply open_direct; [exact G|exact Ga|exact Gb|apply open_b_ok, H]).
  assert (All : forall l1 l u v l2, Forall ngeo l -> (forall i, (S i < List.length l)%nat -> open_b cove (nth i l s) (nth (S i) l s) = true) -> l = l1 ++ u :: v :: l2 -> open_line cove u v).
  { induction l1 as [|h l1 IH]; intros l0 u v l2 Fl Op E; subst l0; cbn [app] in *.
    - inversion Fl as [|? ? A B]. inversion B as [|? ? C D]. apply O; [exact A|exact C|]. apply (Op 0%nat). cbn [List.length]. lia.
    - inversion Fl. apply (IH (l1 ++ u :: v :: l2) u v l2); [assumption| |reflexivity]. intros i Hi. apply (Op (S i)). cbn [List.length]. lia. }
  intros u v l1 l2. apply All.
  - repeat constructor; vm_compute; congruence.
  - intros i Hi. cbn [List.length l] in Hi. do 4 (destruct i as [|i]; [vm_compute; reflexivity|]). lia.
Qed.
Example C96_runs_ex : forall atan2 ords, accurate_atan2 atan2 -> (forall v, library_orders (ords v)) ->
  let s := mkC 10000000 15000000 in let d := mkC 10000000 (-10000000) in
  fresh disk ["out"%string] /\ drawn_shapes (map shape_of cove) cove 10000 /\ Z.of_nat (List.length (polygon_vertices cove)) <= 999998 /\
  exists s' g fuel l, generate_cmd (fun ps v => vis_periodic atan2 (ords v) ps v) (Ok (map shape_of cove)) ["out"%string] disk = (s', Ok tt) /\
    load_graph_from_file 10000 (default_graph_path ["out"%string]) s' = Ok g /\ coast_query atan2 ords cove g (bay_env atan2 ords g) s d s d /\
    interpolate_cmd 10000 ["out"%string] (bay_env atan2 ords) fuel (place 10 15) (place 10 (-10)) f_max true s' = Some (Ok (convert (s :: l))) /\
    exists t, sailed cove s d s l d t /\ (t <= Rmax 1 (V f_1) * run (rp s) (map rp bends ++ [rp d]) * (1 + / 2000000000))%R.
Proof.
  intros atan2 ords A L s d. assert (Fr : fresh disk ["out"%string]) by (repeat split). assert (Ds : drawn_shapes (map shape_of cove) cove 10000) by (split; [exact cove_shapes|apply cove_drawn]).
  assert (Sz : Z.of_nat (List.length (polygon_vertices cove)) <= 999998) by (vm_compute; congruence). split; [exact Fr|]. split; [exact Ds|]. split; [exact Sz|].
  assert (E1 : vis_coord (place 10 15) = Ok s) by (vm_compute; reflexivity). assert (E2 : vis_coord (place 10 (-10)) = Ok d) by (vm_compute; reflexivity).
  destruct (C96_one_run_partial atan2 ords _ _ _ _ _ A L Ds Sz Fr) as (s' & E & g & Eg & H). exists s', g. pose proof (cove_coast atan2 ords g L) as Qu. destruct cove_way as (Wa & Nd & _). fold s d in Wa, Nd.
  destruct (H ords (bay_env atan2 ords) (place 10 15) (place 10 (-10)) s d s d f_max 100000000%R true E1 E2 Qu Nd f_max_reaches) as (n & K).
  exists n. destruct (K n (le_n n)) as [(l & t & R & Sl & Op)|(_ & X)].
  - exists l. split; [exact E|]. split; [exact Eg|]. split; [exact Qu|]. split; [exact R|]. exists t. split; [exact Sl|]. apply Op; [apply first_best_minimal|reflexivity| |exact Wa].
    change (V f_1) with (IZR 4503599627370496 * bpow radix2 (-52))%R. change (bpow radix2 (-52)) with (/ IZR 4503599627370496)%R. rewrite Rinv_r by lra. rewrite Rabs_R1. change 1%R with (bpow radix2 0). apply bpow_le. lia.
  - exfalso. apply X. eexists. exact Wa.
Qed.
(** where the index finds nothing in between, the straight line is answered, and no way is shorter, whatever the map *)
Theorem C96_direct : forall ps en g source destination ns nd radius rho flag fuel,
  normalize_coord source = Ok ns -> normalize_coord destination = Ok nd -> ix_contains (en_index en) ns = false -> ix_contains (en_index en) nd = false ->
  ix_crossing (en_index en) (mkS ns nd) = [] ->
  shortest_path fuel en g source destination radius flag = Some (Ok [ns; nd]) /\
  forall l, a_way ps rho ns nd l -> (run (rp ns) [rp nd] <= run (rp ns) (l ++ [rp nd]))%R.
Proof.
  intros ps en g source destination ns nd radius rho flag fuel E1 E2 C1 C2 X. split.
  - unfold shortest_path, handle_land_collisions, other_crossings. rewrite E1, E2. cbn [bind]. rewrite C1, C2, andb_false_r. cbn [bind correct_endpoint fst snd lc_source lc_dest]. rewrite X. reflexivity.
  - intros l _. generalize (rp ns). induction l as [|b l IH]; intros a; cbn [app run].
    + apply Rle_refl.
    + pose proof (IH b) as K. cbn [run] in K. pose proof (far_triangle a b (rp nd)). lra.
Qed.
Print Assumptions C96_direct.
Example C96_direct_ex : exists ix, let s := mkC 10000000 15000000 in let d := mkC 10000000 30000000 in
  ix_contains ix s = false /\ ix_contains ix d = false /\ ix_crossing ix (mkS s d) = [] /\ a_way cove 100000000 s d [rp (mkC 8000000 24000000)].
Proof.
  exists (mkI (fun _ => false) (fun _ => UB NullDeref) (fun _ => []) (fun _ c => c)). cbn [ix_contains ix_crossing]. repeat (split; [reflexivity|]). assert (Sk : sketched cove) by (apply sketched_base, cove_drawn). split.
  - cbn [app course]. repeat (split; [apply sails_b_ok; [exact Sk|vm_compute; reflexivity]|]). exact I.
  - intros p H. cbn [app] in H. repeat (destruct H as [<-|H]; [apply far_bound; vm_compute; congruence|]). destruct H.
Qed.
(** false of the code for other maps, even of three triangles no two of which meet: the path is no way, it goes over
    land, although the index says that the straight line is blocked *)
Theorem C96_shortest_refuted : forall atan2, accurate_atan2 atan2 ->
  exists ps ord g en source destination path, library_orders ord /\ drawn ps /\
    Forall (convex 1) ps /\ NoDup (polygon_vertices ps) /\ (forall c, In c (polygon_vertices ps) -> ngeo c) /\ ForallOrdPairs disjoint ps /\
    generate (fun v => vis_periodic atan2 ord ps v) ps = Ok g /\
    en_vis en = endpoint_vis atan2 (fun _ => ord) g /\ row_orders (en_rows en) /\ index_in_range (en_index en) /\ minimal f_1 (en_pick en) /\
    ngeo source /\ off_land source (map_copies ps) /\ In destination (polygon_vertices ps) /\ ix_crossing (en_index en) (mkS source destination) <> [] /\
    shortest_path 5 en g source destination f_max true = Some (Ok (source :: path)) /\ ~ course ps (rp source) (map rp path).
Proof.
  intros atan2 T. destruct (blocked_leg atan2 T) as (g & E & C & H). destruct walled_facts as (W1 & W2 & W3 & W4). assert (Dr : drawn walled_map) by (apply drawn_b_ok; vm_compute; reflexivity).
  exists walled_map, plain_orders, g, (blocked_env (endpoint_vis atan2 (fun _ => plain_orders) g)), (mkC 0 0), hidden_vertex, [hidden_vertex].
  split; [exact plain_orders_ok|]. split; [exact Dr|].
  repeat (split; [assumption|]). split; [reflexivity|]. split; [intros v l; reflexivity|].
  split; [intros c _ X; discriminate X|]. split; [apply first_best_minimal|]. split; [split; vm_compute; congruence|]. split; [apply off_land_b_ok; vm_compute; reflexivity|]. split; [vm_compute; tauto|]. split; [discriminate|].
  split; [exact H|].
  intros (Sa & _). pose proof (Sa (3 / 5)%R ltac:(lra)) as A. replace (mix (rp (mkC 0 0)) (rp hidden_vertex) (3 / 5)) with (rp (mkC 1200000 1260000)) in A by (apply pt_eq; unfold hidden_vertex, mix, rp; cbn [X Y lon lat]; lra).
  revert A. eapply inland_b_ok; [apply sketched_base, Dr|right; left; reflexivity|vm_compute; reflexivity].
Qed.
Print Assumptions C96_shortest_refuted.
