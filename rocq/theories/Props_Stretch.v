(** C100, C101: every stretch of a path is as short as any way between its ends, so a path does not cross itself. *)
From Verif Require Import Jordan.
From Coq Require Import ZArith Reals Bool List Lia Lra Permutation String.
From Flocq Require Import Core BinarySingleNaN.
From Verif Require Import PyLayer PyFacts Base F64 Coordinate Segment Polyline Polygon Periodicity Graph Visgraph VisgraphFacts SpecGeom SpecGraph F64Facts CoordinateFacts PolylineFacts
  PolygonMore GraphFacts GraphMore Serializer SerializerMore Sweep SweepFacts SweepMaps SweepGen SweepCases AngleFacts AngleSort SweepOpen SweepOrder SweepGeo SweepSound SweepExact SweepGraph SweepHalfGraph SweepLayers SweepWorld SweepForced SweepHashOrder
  ShortestPath DistFacts SearchFacts SearchSpec SearchGraph SearchQuery PathFacts PathMore FreePaths BlockedLegs OpenWater SweepFronts SeaLines SurveyCheck Coasts CoastExact CoastCheck Pipeline PipelineFacts PipelineFree PipelineOpen PipelineSea CoastRun
  Props_Sweep Props_Path Props_Python Props_Pipeline Props_Exact Props_EndToEnd Props_Open Props_OpenRun Props_Sea Ways WayRun Touch Around Stretch Props_Coast Props_Ways.
Import ListNotations.
Local Open Scope Z_scope.

(** C100.  Any stretch of the path may be replaced by any way over the water between its ends, with bends anywhere: the
    whole does not get shorter, up to rounding and the weight of the heuristic.
    Missing: what C96 leaves out (other maps, ways around the world, endpoints moved to the shore). *)
Theorem C100_stretch_partial : forall atan2 ords ords' ps g en source destination ns nd radius rho flag fuel path w,
  surveyed atan2 ords ps g -> drawn ps -> coast_query atan2 ords' ps g en source destination ns nd -> edge_between ps ns nd -> reaches radius rho ->
  Z.of_nat (List.length (polygon_vertices ps)) <= 999998 ->
  shortest_path fuel en g source destination radius flag = Some (Ok path) -> minimal w (en_pick en) -> is_finite w = true -> (Rabs (V w) <= bpow radix2 900)%R ->
  exists l r, path = ns :: l /\ sailed ps ns nd ns l nd r /\
    forall l1 a m b l3, path = l1 ++ a :: m ++ b :: l3 -> exists rs, sailed ps ns nd a (m ++ [b]) b rs /\ (rs <= r)%R /\
      forall l', course ps (rp a) (l' ++ [rp b]) -> (forall p, In p (rp a :: l' ++ [rp b]) -> (far (rp ns) p <= rho)%R) ->
        (r <= Rmax 1 (V w) * (r - rs + run (rp a) (l' ++ [rp b])) * (1 + / 2000000000))%R.
Proof.
  intros atan2 ords ords' ps g en source destination ns nd radius rho flag fuel path w Su Dr Cq Bl Re Sz. pose proof Su as (T & _ & _ & _ & Vw & _).
  exact (best_stretch atan2 ords' ps g en source destination ns nd T (surveyed_true _ _ _ _ Su Dr) Dr Vw Cq Bl radius rho flag fuel path w Re Sz).
Qed.
Print Assumptions C100_stretch_partial.

(** C101.  With a weight of at most one, and no longer than 4000 degrees, a path does not cross itself: of the legs which
    are not around the world two that follow one another meet only where they join, and two others do not meet at all.
    Missing: legs around the world, and the maps and endpoints that C96 leaves out. *)
Theorem C101_simple_partial : forall atan2 ords ords' ps g en source destination ns nd radius rho flag fuel path w,
  surveyed atan2 ords ps g -> drawn ps -> coast_query atan2 ords' ps g en source destination ns nd -> edge_between ps ns nd -> reaches radius rho ->
  Z.of_nat (List.length (polygon_vertices ps)) <= 999998 ->
  shortest_path fuel en g source destination radius flag = Some (Ok path) -> minimal w (en_pick en) -> is_finite w = true -> (-1 <= V w <= 1)%R ->
  (forall v, In v path -> (apart ns v <= rho)%R) ->
  exists l r, path = ns :: l /\ sailed ps ns nd ns l nd r /\ ((r <= 4000000000)%R ->
    (forall l1 a b m c d l3, path = l1 ++ a :: b :: m ++ c :: d :: l3 -> open_line ps a b -> open_line ps c d ->
      forall h k, (0 <= h <= 1)%R -> (0 <= k <= 1)%R -> mix (rp a) (rp b) h <> mix (rp c) (rp d) k) /\
    (forall l1 a b c l3, path = l1 ++ a :: b :: c :: l3 -> open_line ps a b -> open_line ps b c ->
      forall h k, (0 <= h <= 1)%R -> (0 <= k <= 1)%R -> mix (rp a) (rp b) h = mix (rp b) (rp c) k -> h = 1%R /\ k = 0%R)).
Proof.
  intros atan2 ords ords' ps g en source destination ns nd radius rho flag fuel path w Su Dr Cq Bl Re Sz E Mn Fw Bw Wi. pose proof Su as (T & _ & _ & _ & Vw & _). pose proof (surveyed_true _ _ _ _ Su Dr) as Tg.
  destruct (legs_apart atan2 ords' ps g en source destination ns nd T Tg Dr Vw Cq Bl radius rho flag fuel path w Re Sz E Mn Fw Bw Wi) as (l & r & Ep & Sa & H1).
  destruct (legs_join atan2 ords' ps g en source destination ns nd T Tg Dr Vw Cq Bl radius rho flag fuel path w Re Sz E Mn Fw Bw Wi) as (l2 & r2 & Ep2 & Sa2 & H2).
  rewrite Ep in Ep2. injection Ep2 as <-. rewrite (sailed_length _ _ _ _ _ _ _ _ Sa2 Sa) in H2. exists l, r.
  split; [exact Ep|]. split; [exact Sa|]. intros Lr. split; [exact (H1 Lr)|exact (H2 Lr)].
Qed.
Print Assumptions C101_simple_partial.

(** out of a bay: all of the map is near enough, and the path is short *)
Example C101_ex : forall atan2 ords, accurate_atan2 atan2 -> (forall v, library_orders (ords v)) ->
  let s := mkC 10000000 15000000 in let d := mkC 10000000 (-10000000) in
  exists g fuel path, surveyed atan2 ords cove g /\ drawn cove /\ coast_query atan2 ords cove g (bay_env atan2 ords g) s d s d /\ edge_between cove s d /\ reaches f_max 100000000 /\
    Z.of_nat (List.length (polygon_vertices cove)) <= 999998 /\ shortest_path fuel (bay_env atan2 ords g) g s d f_max true = Some (Ok path) /\
    minimal f_1 (en_pick (bay_env atan2 ords g)) /\ is_finite f_1 = true /\ (-1 <= V f_1 <= 1)%R /\ (forall v, In v path -> (apart s v <= 100000000)%R) /\
    (2 < List.length path)%nat /\ exists l r, path = s :: l /\ sailed cove s d s l d r /\ (r <= 4000000000)%R.
Proof.
  intros atan2 ords A L s d. destruct (C96_ex atan2 ords A L) as (g & fuel & path & Su & Dr & Cq & Nd & Re & Sz & Wa & Mn & Fw & E). fold s d in Cq, Nd, Wa, E.
  pose proof (surveyed_true _ _ _ _ Su Dr) as Tg.
  assert (Eb : edge_between cove s d) by (apply not_direct_meets; [exact (fun c => clear_ngeo cove c (proj1 cove_views))|exact Dr|exact (proj1 (proj2 (proj2 (proj2 (proj2 Su)))))|apply Cq|exact Nd]).
  assert (V1 : V f_1 = 1%R) by apply V_f1. assert (Bw : (Rabs (V f_1) <= bpow radix2 900)%R) by (rewrite V1, Rabs_R1; change 1%R with (bpow radix2 0); apply bpow_le; lia).
  destruct (C96_shortest_partial atan2 ords ords cove g (bay_env atan2 ords g) s d s d f_max 100000000 true fuel path f_1 Su Dr Cq Nd Re Sz E Mn Fw Bw) as (l & r & Ep & Sa & Be).
  exists g, fuel, path. do 7 (split; [assumption|]). split; [exact Mn|]. split; [exact Fw|]. split; [rewrite V1; lra|]. split; [|split].
  - intros v Iv. rewrite Ep in Iv. assert (M : In v (s :: d :: polygon_vertices cove)) by (destruct Iv as [<-|Iv]; [left; reflexivity|destruct (sailed_places _ _ _ _ _ _ _ Sa v Iv) as [X|[ -> | -> ]]; cbn [In]; auto]).
    rewrite <- far_apart. assert (C : forallb (fun v => (lon s - lon v) * (lon s - lon v) + (lat s - lat v) * (lat s - lat v) <=? 100000000 * 100000000) (s :: d :: polygon_vertices cove) = true) by (vm_compute; reflexivity).
    rewrite forallb_forall in C. specialize (C v M). apply Z.leb_le in C. apply (far_bound s v 100000000); [lia|exact C].
  - rewrite Ep. destruct l as [|v [|v' l]]; cbn [List.length]; [inversion Sa| |lia]. exfalso. inversion Sa as [|u' v'' l' t' r3 O' Ne A1 B C1 J3|u' v'' k' l' t' r3 K O No Ne A1 B J3]; subst.
    + inversion J3; subst. pose proof (leg_way atan2 ords cove g (bay_env atan2 ords g) s d s d Tg Dr (proj1 (proj2 (proj2 (proj2 (proj2 Su))))) Cq s d [] d _ Sa O') as Sl. destruct Nd as [X|[X|X]]; [| |contradiction]; vm_compute in X; intuition discriminate.
    + vm_compute in A1. intuition discriminate.
  - exists l, r. split; [exact Ep|]. split; [exact Sa|]. destruct cove_way as (Wa' & _). specialize (Be _ Wa'). rewrite V1, Rmax_left in Be by lra.
    assert (Rn : (run (rp s) (map rp bends ++ [rp d]) <= 1000000000)%R).
    { cbn [map bends app run]. repeat match goal with |- context [far (rp ?a) (rp ?b)] => let F := fresh in assert (F : (far (rp a) (rp b) <= 100000000)%R) by (apply far_bound; vm_compute; congruence); revert F; generalize (far (rp a) (rp b)); intros ? F end. lra. }
    fold s d in Be. lra.
Qed.
(** a stretch of that path, and a way between its ends which is not along it *)
Example C100_ex : forall atan2 ords, accurate_atan2 atan2 -> (forall v, library_orders (ords v)) ->
  let s := mkC 10000000 15000000 in let d := mkC 10000000 (-10000000) in
  exists g fuel path m, surveyed atan2 ords cove g /\ drawn cove /\ coast_query atan2 ords cove g (bay_env atan2 ords g) s d s d /\ edge_between cove s d /\ reaches f_max 100000000 /\
    shortest_path fuel (bay_env atan2 ords g) g s d f_max true = Some (Ok path) /\ minimal f_1 (en_pick (bay_env atan2 ords g)) /\ path = [] ++ s :: m ++ d :: [] /\
    course cove (rp s) (map rp bends ++ [rp d]) /\ (forall p, In p (rp s :: map rp bends ++ [rp d]) -> (far (rp s) p <= 100000000)%R).
Proof.
  intros atan2 ords A L s d. destruct (C101_ex atan2 ords A L) as (g & fuel & path & Su & Dr & Cq & Nd & Re & Sz & E & Mn & Fw & _ & _ & _ & l & r & Ep & Sa & _). fold s d in Cq, Nd, E, Ep, Sa.
  destruct (exists_last (l := l)) as (m & z & ->); [intros ->; inversion Sa|].
  assert (z = d) as -> by (clear - Sa; revert Sa; generalize s at 2; generalize r; induction m as [|x m IH]; intros r' u J; cbn [app] in J; inversion J as [|? ? ? ? ? ? ? ? ? ? J'|? ? ? ? ? ? ? ? ? ? ? ? J']; subst; [inversion J'; reflexivity|inversion J'; reflexivity|exact (IH _ _ J')|exact (IH _ _ J')]).
  exists g, fuel, path, m. do 7 (split; [assumption|]). split; [exact Ep|]. destruct cove_way as ((Co & Wi) & _). split; [exact Co|]. intros p [<-|I]; [rewrite far_same; lra|apply Wi, I].
Qed.
