(** C107: more land takes edges away and makes no path shorter. *)
From Verif Require Import Jordan.
From Coq Require Import ZArith Reals Bool List Lia Lra Permutation String.
From Flocq Require Import Core BinarySingleNaN.
From Verif Require Import PyLayer PyFacts Base F64 Coordinate Segment Polyline Polygon Periodicity Graph Visgraph VisgraphFacts SpecGeom SpecGraph F64Facts CoordinateFacts PolylineFacts
  PolygonMore GraphFacts GraphMore Serializer SerializerMore Sweep SweepFacts SweepMaps SweepGen SweepCases AngleFacts AngleSort SweepOpen SweepOrder SweepGeo SweepSound SweepExact SweepGraph SweepHalfGraph SweepLayers SweepWorld SweepForced SweepHashOrder
  ShortestPath DistFacts SearchFacts SearchSpec SearchGraph SearchQuery PathFacts PathMore FreePaths BlockedLegs OpenWater SweepFronts SeaLines SurveyCheck Coasts CoastExact CoastCheck Pipeline PipelineFacts PipelineFree PipelineOpen PipelineSea CoastRun
  Props_Sweep Props_Path Props_Python Props_Pipeline Props_Exact Props_EndToEnd Props_Open Props_OpenRun Props_Sea Ways LandWays WayRun Touch Around Stretch Detour MoreLand SurveyFast Props_Coast Props_Ways Props_Around Props_Detour.
Import ListNotations.
Local Open Scope Z_scope.

(** C107.  An edge of a map with further polygons between two of the old vertices is an edge of the map without them,
    and if it was not around the world it still is not. *)
Theorem C107_edges_partial : forall atan2 atan2' ords ords' ps qs g h, surveyed atan2 ords ps g -> drawn ps -> surveyed atan2' ords' qs h -> drawn qs -> incl ps qs ->
  forall a b f, In a (polygon_vertices ps) -> In b (polygon_vertices ps) -> answer h a b = Some f -> exists f', answer g a b = Some f' /\ (f = false -> f' = false).
Proof. intros atan2 atan2' ords ords' ps qs g h Su Dr Su' Dr'. exact (edges_incl ps qs g h (surveyed_true _ _ _ _ Su Dr) (surveyed_true _ _ _ _ Su' Dr')). Qed.
Print Assumptions C107_edges_partial.
(** Two maps, the second with water only where the first has water: further polygons, or larger ones.  If there is a path
    on the second, of legs that are not around the world, there is one on the first and it is no longer, up to rounding
    and the weight of the heuristic.
    Missing: legs around the world, maps not surveyed or not drawn, and points that are moved to the shore. *)
Theorem C107_paths_partial : forall atan2 ords ords' o o' ps qs g h en en' sa sc sa' sc' a c radius' flag flag' fuel fuel' path path' w,
  surveyed atan2 ords ps g -> drawn ps -> surveyed atan2 ords' qs h -> drawn qs -> (forall z, afloat qs z -> afloat ps z) ->
  coast_query atan2 o ps g en sa sc a c -> coast_query atan2 o' qs h en' sa' sc' a c -> edge_between ps a c -> a <> c -> Z.of_nat (List.length (polygon_vertices ps)) <= 999998 ->
  shortest_path fuel' en' h sa' sc' radius' flag' = Some (Ok path') -> (forall u v m m', path' = m ++ u :: v :: m' -> open_line qs u v) ->
  shortest_path fuel en g sa sc unlimited flag = Some (Ok path) -> minimal w (en_pick en) -> is_finite w = true -> (Rabs (V w) <= bpow radix2 900)%R ->
  exists l r l' r', path = a :: l /\ sailed ps a c a l c r /\ path' = a :: l' /\ sailed qs a c a l' c r' /\ (r <= Rmax 1 (V w) * r' * (1 + / 2000000000))%R.
Proof.
  intros atan2 ords ords' o o' ps qs g h en en' sa sc sa' sc' a c radius' flag flag' fuel fuel' path path' w Su Dr Su' Dr' Le Cq Cq' Bl Ac Sz E' D' E.
  pose proof Su as (T & _ & _ & _ & Vw & _). pose proof Su' as (_ & _ & _ & _ & Vw' & _).
  exact (less_shorter atan2 o o' ps qs g h en en' sa sc sa' sc' a c T (surveyed_true _ _ _ _ Su Dr) Dr Vw (surveyed_true _ _ _ _ Su' Dr') Dr' Vw' Cq Cq' Le Bl Ac radius' flag flag' fuel' path' E' D' fuel path w E Sz).
Qed.
Print Assumptions C107_paths_partial.
Theorem C107_found_partial : forall atan2 ords ords' o o' ps qs g h en en' sa sc sa' sc' a c radius' flag flag' fuel' path',
  surveyed atan2 ords ps g -> drawn ps -> surveyed atan2 ords' qs h -> drawn qs -> (forall z, afloat qs z -> afloat ps z) ->
  coast_query atan2 o ps g en sa sc a c -> coast_query atan2 o' qs h en' sa' sc' a c -> edge_between ps a c -> a <> c ->
  shortest_path fuel' en' h sa' sc' radius' flag' = Some (Ok path') -> (forall u v m m', path' = m ++ u :: v :: m' -> open_line qs u v) ->
  exists n, forall fuel, (n <= fuel)%nat -> exists path, shortest_path fuel en g sa sc unlimited flag = Some (Ok path).
Proof.
  intros atan2 ords ords' o o' ps qs g h en en' sa sc sa' sc' a c radius' flag flag' fuel' path' Su Dr Su' Dr' Le Cq Cq' Bl Ac E' D'.
  pose proof Su as (T & _ & _ & _ & Vw & _). pose proof Su' as (_ & _ & _ & _ & Vw' & _).
  exact (less_found atan2 o o' ps qs g h en en' sa sc sa' sc' a c T (surveyed_true _ _ _ _ Su Dr) Dr Vw (surveyed_true _ _ _ _ Su' Dr') Dr' Vw' Cq Cq' Le Bl Ac radius' flag flag' fuel' path' E' D').
Qed.
Print Assumptions C107_found_partial.

(** the cove with and without an island in its mouth, which hides one arm from the other *)
Definition open_mouth : list polygon := [mkP [mkC 0 0; mkC 20000000 500000; mkC 20300000 21000000; mkC 15000000 19000000; mkC 15100000 5200000; mkC 5000000 5700000; mkC 4700000 20200000; mkC (-200000) 19900000]].
Definition island_mouth : list polygon := open_mouth ++ [mkP [mkC 8000000 17000000; mkC 12000000 17500000; mkC 11000000 22500000]].
Lemma mouths : drawn open_mouth /\ drawn island_mouth /\ survey_b open_mouth = true /\ survey_b island_mouth = true /\ (forall P, In P island_mouth -> make_polygon (verts P) = Ok P) /\
  forall ps z, (ps = open_mouth \/ ps = island_mouth) -> z = inner \/ z = south -> at_sea ps z.
Proof.
  assert (D1 : drawn open_mouth) by (apply drawn_b_ok; vm_compute; reflexivity). assert (D2 : drawn island_mouth) by (apply drawn_b_ok; vm_compute; reflexivity).
  split; [exact D1|]. split; [exact D2|]. split; [vm_compute; reflexivity|]. split; [vm_compute; reflexivity|]. split; [intros P HP; repeat (destruct HP as [<-|HP]; [vm_compute; reflexivity|]); destruct HP|].
  intros ps z Hp Hz. split; [destruct Hz as [-> | ->]; split; vm_compute; congruence|]. right.
  destruct Hp as [-> | ->], Hz as [-> | ->]; (split; [apply ordered_view_f_ok; [vm_compute; reflexivity..]|apply off_land_b_ok; vm_compute; reflexivity]).
Qed.
Lemma mouth_query atan2 ords ps g x y : (forall v, library_orders (ords v)) -> (ps = open_mouth \/ ps = island_mouth) -> x = inner \/ x = south -> y = inner \/ y = south ->
  coast_query atan2 ords ps g (bay_env atan2 ords g) x y x y.
Proof.
  intros L Hp Ix Iy. destruct mouths as (_ & _ & _ & _ & _ & S).
  assert (P : forall z, z = inner \/ z = south -> in_the_map z /\ normalize_coord z = Ok z /\ ngeo z) by (intros z [-> | ->]; (split; [repeat split; vm_compute; congruence|]; split; [vm_compute; reflexivity|split; vm_compute; congruence])).
  destruct (P x Ix) as (Mx & Nx & Gx). destruct (P y Iy) as (My & Ny & Gy). split; [|split; apply S; assumption].
  split; [exact L|]. split; [reflexivity|]. split; [intros v l; reflexivity|]. split; [intros c _ X; discriminate X|]. do 6 (split; [assumption|]). split; [reflexivity|]. split; [reflexivity|discriminate].
Qed.
Lemma mouth_direct s d u l t r : sailed island_mouth s d u l t r -> (r <= 200000000)%R -> forall a b m m', u :: l = m ++ a :: b :: m' -> open_line island_mouth a b.
Proof.
  intros J. induction J as [u|u v l t r O Ne A B C H IH|u v k l t r K O No Ne A B H IH]; intros Le a b m m' E.
  - destruct m as [|x [|y m]]; discriminate E.
  - destruct m as [|x m]; cbn [app] in E; [injection E as <- <- _; exact O|]. injection E as _ E. apply (IH) with (m := m) (m' := m'); [pose proof (apart_pos u v); lra|exact E].
  - exfalso. pose proof (sailed_pos _ _ _ _ _ _ _ H).
    assert (Far : forall k, k = 1 \/ k = -1 -> (300000000 <= apart u (wrap k v))%R).
    { intros k' K'. assert (Ch : forall k, k = 1 \/ k = -1 -> forallb (fun u => forallb (fun v => 300000000 * 300000000 <=? dot (mkC (lon u - lon (wrap k v)) (lat u - lat (wrap k v))) (mkC (lon u - lon (wrap k v)) (lat u - lat (wrap k v))))
        (polygon_vertices island_mouth)) (polygon_vertices island_mouth) = true) by (intros q [-> | ->]; vm_compute; reflexivity).
      specialize (Ch k' K'). rewrite forallb_forall in Ch. specialize (Ch u A). rewrite forallb_forall in Ch. specialize (Ch v B). apply Z.leb_le, IZR_le in Ch.
      rewrite apart_dot. rewrite <- (sqrt_square 300000000) by lra. apply sqrt_le_1_alt. rewrite mult_IZR in Ch. exact Ch. }
    pose proof (Far 1 (or_introl eq_refl)). pose proof (Far (-1) (or_intror eq_refl)). unfold Rmin in Le. destruct (Rle_dec _ _); lra.
Qed.
(** out of the bay past the island *)
Lemma mouth_route : exists r, sailed island_mouth inner south inner [mkC 4700000 20200000; mkC (-200000) 19900000; mkC 0 0; south] south r /\ (r <= 150000000)%R.
Proof.
  set (p1 := mkC 4700000 20200000). set (p2 := mkC (-200000) 19900000). set (p3 := mkC 0 0).
  assert (G : forall c, In c (polygon_vertices island_mouth) -> ngeo c) by (intros c C; vm_compute in C; repeat (destruct C as [<-|C]; [split; vm_compute; congruence|]); destruct C).
  assert (O : forall a b, ngeo a -> ngeo b -> open_b island_mouth a b = true -> open_line island_mouth a b) by (intros a b Ga Gb H; apply open_direct; [exact G|exact Ga|exact Gb|apply open_b_ok, H]).
  assert (Gs : ngeo inner) by (split; vm_compute; congruence). assert (Gd : ngeo south) by (split; vm_compute; congruence).
  assert (I1 : In p1 (polygon_vertices island_mouth)) by (vm_compute; tauto). assert (I2 : In p2 (polygon_vertices island_mouth)) by (vm_compute; tauto). assert (I3 : In p3 (polygon_vertices island_mouth)) by (vm_compute; tauto).
  pose proof (G _ I1). pose proof (G _ I2). pose proof (G _ I3).
  assert (B : forall a b, (lon a - lon b) * (lon a - lon b) + (lat a - lat b) * (lat a - lat b) <= 35000000 * 35000000 -> (apart a b <= 35000000)%R) by (intros a b H'; rewrite <- far_apart; apply far_bound; [lia|exact H']).
  eexists. split; [repeat (apply sailed_straight; [apply O; [assumption|assumption|vm_compute; reflexivity]|discriminate|auto|auto|auto|]); constructor|].
  repeat match goal with |- context [apart ?a ?b] => let X := fresh in assert (X : (apart a b <= 35000000)%R) by (apply B; vm_compute; congruence); revert X; generalize (apart a b); intros ? X end; lra.
Qed.
Example C107_ex : forall atan2 ords, accurate_atan2 atan2 -> (forall v, library_orders (ords v)) ->
  let a := mkC 4700000 20200000 in let b := mkC 15000000 19000000 in
  exists g h fuel' path' fuel path, let en := bay_env atan2 ords g in let en' := bay_env atan2 ords h in
    surveyed atan2 ords open_mouth g /\ drawn open_mouth /\ surveyed atan2 ords island_mouth h /\ drawn island_mouth /\ incl open_mouth island_mouth /\
    answer g a b = Some false /\ answer h a b <> Some false /\ answer h a (mkC (-200000) 19900000) = Some false /\
    (forall z, afloat island_mouth z -> afloat open_mouth z) /\ coast_query atan2 ords open_mouth g en inner south inner south /\ coast_query atan2 ords island_mouth h en' inner south inner south /\
    edge_between open_mouth inner south /\ shortest_path fuel' en' h inner south unlimited true = Some (Ok path') /\
    (forall u v m m', path' = m ++ u :: v :: m' -> open_line island_mouth u v) /\
    shortest_path fuel en g inner south unlimited true = Some (Ok path) /\ minimal f_1 (en_pick en) /\ is_finite f_1 = true.
Proof.
  intros atan2 ords A L a b. destruct mouths as (Dr & Dr' & C1 & C2 & Mk & _). assert (Ic : incl open_mouth island_mouth) by (intros P HP; apply in_app_iff; left; exact HP).
  destruct (survey_b_ok atan2 ords open_mouth A L (fun P HP => Mk P (Ic P HP)) C1) as (g & Su). destruct (survey_b_ok atan2 ords island_mouth A L Mk C2) as (h & Su').
  pose proof (mouth_query atan2 ords open_mouth g inner south L (or_introl eq_refl) (or_introl eq_refl) (or_intror eq_refl)) as Q.
  pose proof (mouth_query atan2 ords island_mouth h inner south L (or_intror eq_refl) (or_introl eq_refl) (or_intror eq_refl)) as Q'.
  pose proof (surveyed_true _ _ _ _ Su Dr) as Tg. pose proof (surveyed_true _ _ _ _ Su' Dr') as Tg'. pose proof (less_incl _ _ Ic) as Le.
  assert (G : forall c, In c (polygon_vertices island_mouth) -> ngeo c) by (intros c C; vm_compute in C; repeat (destruct C as [<-|C]; [split; vm_compute; congruence|]); destruct C).
  destruct mouth_route as (r0 & S0 & L0).
  assert (Wi : Forall (within inner unlimited) [mkC 4700000 20200000; mkC (-200000) 19900000; mkC 0 0; south]) by (repeat constructor; (apply unlimited_within; split; vm_compute; congruence)).
  destruct (C95_found_partial atan2 ords ords island_mouth h _ inner south inner south unlimited true Su' Dr' Q') as (n' & H). destruct (proj1 (H n' (le_n n'))) as [_ H2]. destruct H2 as (path' & E'); [eexists _, r0; split; [exact S0|exact Wi]|].
  pose proof (path_size atan2 ords island_mouth h _ inner south inner south A Tg' Dr' Q' _ _ _ _ E') as Sp. assert (Sz : (List.length (polygon_vertices island_mouth) = 11)%nat) by (vm_compute; reflexivity). assert (V1 : V f_1 = 1%R) by apply V_f1.
  assert (D' : forall u v m m', path' = m ++ u :: v :: m' -> open_line island_mouth u v).
  { destruct (best_route atan2 ords island_mouth h _ inner south inner south A Tg' Dr' Q' unlimited true n' path' f_1 E' ltac:(lia) (first_best_minimal _) eq_refl) as (l' & r' & Ep & Sa & O).
    { rewrite V1, Rabs_R1. change 1%R with (bpow radix2 0). apply bpow_le. lia. }
    specialize (O _ r0 S0 Wi ltac:(vm_compute; congruence)). rewrite V1, Rmax_left in O by lra. intros u v m m' Em. apply (mouth_direct inner south inner l' south r' Sa) with (m := m) (m' := m'); [lra|rewrite <- Ep; exact Em]. }
  assert (Bl : edge_between open_mouth inner south).
  { apply not_direct_meets; [intros c Hc; apply G; revert Hc; vm_compute; tauto|exact Dr|exact (proj1 (proj2 (proj2 (proj2 (proj2 Su)))))|apply Q|]. right. right. intros Sa. pose proof (Sa (12 / 25)%R ltac:(lra)) as Af. replace (mix (rp inner) (rp south) (12 / 25)) with (rp (mkC 10000000 3000000)) in Af by (apply pt_eq; unfold mix, rp; cbn [X Y lon lat]; lra).
    revert Af. eapply inland_b_ok; [apply sketched_base, Dr|left; reflexivity|vm_compute; reflexivity]. }
  destruct (C107_found_partial atan2 ords ords ords ords open_mouth island_mouth g h _ _ inner south inner south inner south unlimited true true n' path' Su Dr Su' Dr' Le Q Q' Bl ltac:(discriminate) E' D') as (n & K).
  destruct (K n (le_n n)) as (path & E). exists g, h, n', path', n, path. cbv zeta. do 5 (split; [assumption|]).
  pose proof Tg as (_ & _ & _ & _ & An). pose proof Tg' as (_ & _ & _ & _ & An').
  split; [apply An; split; [vm_compute; tauto|]; split; [vm_compute; tauto|]; split; [discriminate|]; apply open_direct; [intros c Hc; apply G; revert Hc; vm_compute; tauto|apply G; vm_compute; tauto|apply G; vm_compute; tauto|apply open_b_ok; vm_compute; reflexivity]|].
  split.
  { intros X. apply An' in X. destruct X as (_ & _ & _ & X). cbn [linked_by] in X. assert (W : sea_way island_mouth a b).
    - left. apply C92_open; [discriminate| |apply Tg'|exact X]. intros P HP. destruct Tg' as (F & _). rewrite Forall_forall in F. apply (clear_polygon_facts P), F, HP.
    - revert W. apply no_way_b_ok. vm_compute. reflexivity. }
  split; [apply An'; split; [vm_compute; tauto|]; split; [vm_compute; tauto|]; split; [discriminate|]; apply open_direct; [exact G|apply G; vm_compute; tauto|apply G; vm_compute; tauto|apply open_b_ok; vm_compute; reflexivity]|].
  do 7 (split; [assumption|]). split; [apply first_best_minimal|reflexivity].
Qed.
