(** C105, C106: a path by way of a third place is not shorter, and moving an end changes the length by at most as much. *)
From Verif Require Import Jordan.
From Coq Require Import ZArith Reals Bool List Lia Lra Permutation String.
From Flocq Require Import Core BinarySingleNaN.
From Verif Require Import PyLayer PyFacts Base F64 Coordinate Segment Polyline Polygon Periodicity Graph Visgraph VisgraphFacts SpecGeom SpecGraph F64Facts CoordinateFacts PolylineFacts
  PolygonMore GraphFacts GraphMore Serializer SerializerMore Sweep SweepFacts SweepMaps SweepGen SweepCases AngleFacts AngleSort SweepOpen SweepOrder SweepGeo SweepSound SweepExact SweepGraph SweepHalfGraph SweepLayers SweepWorld SweepForced SweepHashOrder
  ShortestPath DistFacts SearchFacts SearchSpec SearchGraph SearchQuery PathFacts PathMore FreePaths BlockedLegs OpenWater SweepFronts SeaLines SurveyCheck Coasts CoastExact CoastCheck Pipeline PipelineFacts PipelineFree PipelineOpen PipelineSea CoastRun
  Props_Sweep Props_Path Props_Python Props_Pipeline Props_Exact Props_EndToEnd Props_Open Props_OpenRun Props_Sea Ways LandWays WayRun Touch Around Stretch Detour Props_Coast Props_Ways.
Import ListNotations.
Local Open Scope Z_scope.

(** C105.  Three queries on one graph: from [a] to [c] without a search radius, from [a] to [b] and from [b] to [c] with
    any.  If the last two are answered so is the first, and its path is no longer than theirs together, up to rounding
    and the weight of the heuristic.  First [b] a vertex, with legs of any kind. *)
Theorem C105_vertex_partial : forall atan2 ords o o1 o2 ps g en en1 en2 sa sa1 sb sb2 sc sc2 a b c radius1 radius2 flag flag1 flag2 fuel fuel1 fuel2 path path1 path2 w,
  surveyed atan2 ords ps g -> drawn ps ->
  coast_query atan2 o ps g en sa sc a c -> coast_query atan2 o1 ps g en1 sa1 sb a b -> coast_query atan2 o2 ps g en2 sb2 sc2 b c ->
  In b (polygon_vertices ps) -> Z.of_nat (List.length (polygon_vertices ps)) <= 499999 ->
  shortest_path fuel1 en1 g sa1 sb radius1 flag1 = Some (Ok path1) -> shortest_path fuel2 en2 g sb2 sc2 radius2 flag2 = Some (Ok path2) ->
  shortest_path fuel en g sa sc unlimited flag = Some (Ok path) -> minimal w (en_pick en) -> is_finite w = true -> (Rabs (V w) <= bpow radix2 900)%R ->
  exists l r l1 r1 l2 r2, path = a :: l /\ sailed ps a c a l c r /\ path1 = a :: l1 /\ sailed ps a b a l1 b r1 /\ path2 = b :: l2 /\ sailed ps b c b l2 c r2 /\
    (r <= Rmax 1 (V w) * (r1 + r2) * (1 + / 2000000000))%R.
Proof.
  intros atan2 ords o o1 o2 ps g en en1 en2 sa sa1 sb sb2 sc sc2 a b c radius1 radius2 flag flag1 flag2 fuel fuel1 fuel2 path path1 path2 w Su Dr Cq Cq1 Cq2 Vb Sz E1 E2 E.
  exact (detour atan2 o o1 o2 ps g en en1 en2 sa sa1 sb sb2 sc sc2 a b c (proj1 Su) (surveyed_true _ _ _ _ Su Dr) Dr Cq Cq1 Cq2 radius1 radius2 flag flag1 flag2 fuel1 fuel2 path1 path2 E1 E2 Vb fuel path w E Sz).
Qed.
Print Assumptions C105_vertex_partial.
Theorem C105_vertex_found_partial : forall atan2 ords o o1 o2 ps g en en1 en2 sa sa1 sb sb2 sc sc2 a b c radius1 radius2 flag flag1 flag2 fuel1 fuel2 path1 path2,
  surveyed atan2 ords ps g -> drawn ps ->
  coast_query atan2 o ps g en sa sc a c -> coast_query atan2 o1 ps g en1 sa1 sb a b -> coast_query atan2 o2 ps g en2 sb2 sc2 b c ->
  In b (polygon_vertices ps) ->
  shortest_path fuel1 en1 g sa1 sb radius1 flag1 = Some (Ok path1) -> shortest_path fuel2 en2 g sb2 sc2 radius2 flag2 = Some (Ok path2) ->
  exists n, forall fuel, (n <= fuel)%nat -> exists path, shortest_path fuel en g sa sc unlimited flag = Some (Ok path).
Proof.
  intros atan2 ords o o1 o2 ps g en en1 en2 sa sa1 sb sb2 sc sc2 a b c radius1 radius2 flag flag1 flag2 fuel1 fuel2 path1 path2 Su Dr Cq Cq1 Cq2 Vb E1 E2.
  exact (detour_found atan2 o o1 o2 ps g en en1 en2 sa sa1 sb sb2 sc sc2 a b c (proj1 Su) (surveyed_true _ _ _ _ Su Dr) Dr Cq Cq1 Cq2 radius1 radius2 flag flag1 flag2 fuel1 fuel2 path1 path2 E1 E2 Vb).
Qed.
Print Assumptions C105_vertex_found_partial.
(** Then [b] anywhere on the water, where neither path has a leg around the world.
    Missing in both: other maps, endpoints moved to the shore; here also legs around the world. *)
Theorem C105_water_partial : forall atan2 ords o o1 o2 ps g en en1 en2 sa sa1 sb sb2 sc sc2 a b c radius1 radius2 flag flag1 flag2 fuel fuel1 fuel2 path path1 path2 w,
  surveyed atan2 ords ps g -> drawn ps ->
  coast_query atan2 o ps g en sa sc a c -> coast_query atan2 o1 ps g en1 sa1 sb a b -> coast_query atan2 o2 ps g en2 sb2 sc2 b c ->
  edge_between ps a c -> a <> b -> b <> c -> Z.of_nat (List.length (polygon_vertices ps)) <= 999998 ->
  shortest_path fuel1 en1 g sa1 sb radius1 flag1 = Some (Ok path1) -> shortest_path fuel2 en2 g sb2 sc2 radius2 flag2 = Some (Ok path2) ->
  (forall u v m m', path1 = m ++ u :: v :: m' -> open_line ps u v) -> (forall u v m m', path2 = m ++ u :: v :: m' -> open_line ps u v) ->
  shortest_path fuel en g sa sc unlimited flag = Some (Ok path) -> minimal w (en_pick en) -> is_finite w = true -> (Rabs (V w) <= bpow radix2 900)%R ->
  exists l r l1 r1 l2 r2, path = a :: l /\ sailed ps a c a l c r /\ path1 = a :: l1 /\ sailed ps a b a l1 b r1 /\ path2 = b :: l2 /\ sailed ps b c b l2 c r2 /\
    (r <= Rmax 1 (V w) * (r1 + r2) * (1 + / 2000000000))%R.
Proof.
  intros atan2 ords o o1 o2 ps g en en1 en2 sa sa1 sb sb2 sc sc2 a b c radius1 radius2 flag flag1 flag2 fuel fuel1 fuel2 path path1 path2 w Su Dr Cq Cq1 Cq2 Bl Ab Bc Sz E1 E2 D1 D2 E.
  pose proof Su as (T & _ & _ & _ & Vw & _).
  exact (detour_water atan2 o o1 o2 ps g en en1 en2 sa sa1 sb sb2 sc sc2 a b c T (surveyed_true _ _ _ _ Su Dr) Dr Vw Cq Cq1 Cq2 radius1 radius2 flag flag1 flag2 fuel1 fuel2 path1 path2 E1 E2 Bl Ab Bc D1 D2 fuel path w E Sz).
Qed.
Print Assumptions C105_water_partial.
Theorem C105_water_found_partial : forall atan2 ords o o1 o2 ps g en en1 en2 sa sa1 sb sb2 sc sc2 a b c radius1 radius2 flag flag1 flag2 fuel1 fuel2 path1 path2,
  surveyed atan2 ords ps g -> drawn ps ->
  coast_query atan2 o ps g en sa sc a c -> coast_query atan2 o1 ps g en1 sa1 sb a b -> coast_query atan2 o2 ps g en2 sb2 sc2 b c ->
  edge_between ps a c -> a <> b -> b <> c ->
  shortest_path fuel1 en1 g sa1 sb radius1 flag1 = Some (Ok path1) -> shortest_path fuel2 en2 g sb2 sc2 radius2 flag2 = Some (Ok path2) ->
  (forall u v m m', path1 = m ++ u :: v :: m' -> open_line ps u v) -> (forall u v m m', path2 = m ++ u :: v :: m' -> open_line ps u v) ->
  exists n, forall fuel, (n <= fuel)%nat -> exists path, shortest_path fuel en g sa sc unlimited flag = Some (Ok path).
Proof.
  intros atan2 ords o o1 o2 ps g en en1 en2 sa sa1 sb sb2 sc sc2 a b c radius1 radius2 flag flag1 flag2 fuel1 fuel2 path1 path2 Su Dr Cq Cq1 Cq2 Bl Ab Bc E1 E2 D1 D2.
  pose proof Su as (T & _ & _ & _ & Vw & _).
  exact (detour_water_found atan2 o o1 o2 ps g en en1 en2 sa sa1 sb sb2 sc sc2 a b c T (surveyed_true _ _ _ _ Su Dr) Dr Vw Cq Cq1 Cq2 radius1 radius2 flag flag1 flag2 fuel1 fuel2 path1 path2 E1 E2 Bl Ab Bc D1 D2).
Qed.
Print Assumptions C105_water_found_partial.

(** C106.  The source moved in a straight line over the water: the path from the new place is longer by at most the
    length of that line, up to rounding and the weight, and there is one if there was one before.
    Missing: as for C105. *)
Theorem C106_moved_partial : forall atan2 ords o o2 ps g en en2 sa sb sc sc2 a b c radius2 flag flag2 fuel fuel2 path path2 w,
  surveyed atan2 ords ps g -> drawn ps -> coast_query atan2 o ps g en sa sc a c -> coast_query atan2 o2 ps g en2 sb sc2 b c ->
  edge_between ps a c -> sails ps (rp a) (rp b) -> b <> c -> Z.of_nat (List.length (polygon_vertices ps)) <= 999998 ->
  shortest_path fuel2 en2 g sb sc2 radius2 flag2 = Some (Ok path2) -> (forall u v m m', path2 = m ++ u :: v :: m' -> open_line ps u v) ->
  shortest_path fuel en g sa sc unlimited flag = Some (Ok path) -> minimal w (en_pick en) -> is_finite w = true -> (Rabs (V w) <= bpow radix2 900)%R ->
  exists l r l2 r2, path = a :: l /\ sailed ps a c a l c r /\ path2 = b :: l2 /\ sailed ps b c b l2 c r2 /\
    (r <= Rmax 1 (V w) * (apart a b + r2) * (1 + / 2000000000))%R.
Proof.
  intros atan2 ords o o2 ps g en en2 sa sb sc sc2 a b c radius2 flag flag2 fuel fuel2 path path2 w Su Dr Cq Cq2 Bl Sl Bc Sz E2 D2 E.
  pose proof Su as (T & _ & _ & _ & Vw & _).
  exact (shifted atan2 o o2 ps g en en2 sa sb sc sc2 a b c T (surveyed_true _ _ _ _ Su Dr) Dr Vw Cq Cq2 radius2 flag flag2 fuel2 path2 E2 Bl Sl Bc D2 fuel path w E Sz).
Qed.
Print Assumptions C106_moved_partial.
Theorem C106_moved_found_partial : forall atan2 ords o o2 ps g en en2 sa sb sc sc2 a b c radius2 flag flag2 fuel2 path2,
  surveyed atan2 ords ps g -> drawn ps -> coast_query atan2 o ps g en sa sc a c -> coast_query atan2 o2 ps g en2 sb sc2 b c ->
  edge_between ps a c -> sails ps (rp a) (rp b) -> b <> c ->
  shortest_path fuel2 en2 g sb sc2 radius2 flag2 = Some (Ok path2) -> (forall u v m m', path2 = m ++ u :: v :: m' -> open_line ps u v) ->
  exists n, forall fuel, (n <= fuel)%nat -> exists path, shortest_path fuel en g sa sc unlimited flag = Some (Ok path).
Proof.
  intros atan2 ords o o2 ps g en en2 sa sb sc sc2 a b c radius2 flag flag2 fuel2 path2 Su Dr Cq Cq2 Bl Sl Bc E2 D2.
  pose proof Su as (T & _ & _ & _ & Vw & _).
  exact (shifted_found atan2 o o2 ps g en en2 sa sb sc sc2 a b c T (surveyed_true _ _ _ _ Su Dr) Dr Vw Cq Cq2 radius2 flag flag2 fuel2 path2 E2 Bl Sl Bc D2).
Qed.
Print Assumptions C106_moved_found_partial.
(** and the destination moved likewise *)
Theorem C106_moved_end_partial : forall atan2 ords o o1 ps g en en1 sa sa1 sb sc a b c radius1 flag flag1 fuel fuel1 path path1 w,
  surveyed atan2 ords ps g -> drawn ps -> coast_query atan2 o ps g en sa sc a c -> coast_query atan2 o1 ps g en1 sa1 sb a b ->
  edge_between ps a c -> sails ps (rp b) (rp c) -> a <> b -> Z.of_nat (List.length (polygon_vertices ps)) <= 999998 ->
  shortest_path fuel1 en1 g sa1 sb radius1 flag1 = Some (Ok path1) -> (forall u v m m', path1 = m ++ u :: v :: m' -> open_line ps u v) ->
  shortest_path fuel en g sa sc unlimited flag = Some (Ok path) -> minimal w (en_pick en) -> is_finite w = true -> (Rabs (V w) <= bpow radix2 900)%R ->
  exists l r l1 r1, path = a :: l /\ sailed ps a c a l c r /\ path1 = a :: l1 /\ sailed ps a b a l1 b r1 /\
    (r <= Rmax 1 (V w) * (r1 + apart b c) * (1 + / 2000000000))%R.
Proof.
  intros atan2 ords o o1 ps g en en1 sa sa1 sb sc a b c radius1 flag flag1 fuel fuel1 path path1 w Su Dr Cq Cq1 Bl Sl Ab Sz E1 D1 E.
  pose proof Su as (T & _ & _ & _ & Vw & _).
  exact (shifted_end atan2 o o1 ps g en en1 sa sa1 sb sc a b c T (surveyed_true _ _ _ _ Su Dr) Dr Vw Cq Cq1 radius1 flag flag1 fuel1 path1 E1 Bl Sl Ab D1 fuel path w E Sz).
Qed.
Print Assumptions C106_moved_end_partial.
Theorem C106_moved_end_found_partial : forall atan2 ords o o1 ps g en en1 sa sa1 sb sc a b c radius1 flag flag1 fuel1 path1,
  surveyed atan2 ords ps g -> drawn ps -> coast_query atan2 o ps g en sa sc a c -> coast_query atan2 o1 ps g en1 sa1 sb a b ->
  edge_between ps a c -> sails ps (rp b) (rp c) -> a <> b ->
  shortest_path fuel1 en1 g sa1 sb radius1 flag1 = Some (Ok path1) -> (forall u v m m', path1 = m ++ u :: v :: m' -> open_line ps u v) ->
  exists n, forall fuel, (n <= fuel)%nat -> exists path, shortest_path fuel en g sa sc unlimited flag = Some (Ok path).
Proof.
  intros atan2 ords o o1 ps g en en1 sa sa1 sb sc a b c radius1 flag flag1 fuel1 path1 Su Dr Cq Cq1 Bl Sl Ab E1 D1.
  pose proof Su as (T & _ & _ & _ & Vw & _).
  exact (shifted_end_found atan2 o o1 ps g en en1 sa sa1 sb sc a b c T (surveyed_true _ _ _ _ Su Dr) Dr Vw Cq Cq1 radius1 flag flag1 fuel1 path1 E1 Bl Sl Ab D1).
Qed.
Print Assumptions C106_moved_end_found_partial.

(** ** The cove: its vertices, a place in the bay and one to the south *)
Notation inner := (mkC 10000000 15000000). Notation south := (mkC 10000000 (-10000000)).
Lemma cove_query atan2 ords g x y : (forall v, library_orders (ords v)) -> In x (inner :: south :: polygon_vertices cove) -> In y (inner :: south :: polygon_vertices cove) ->
  coast_query atan2 ords cove g (bay_env atan2 ords g) x y x y.
Proof.
  intros L Ix Iy. destruct cove_views as (F & _ & _ & V1 & V2). destruct cove_drawn as (_ & O1 & O2). pose proof (fun c => clear_ngeo cove c F) as G.
  assert (P : forall z, In z (inner :: south :: polygon_vertices cove) -> in_the_map z /\ normalize_coord z = Ok z /\ ngeo z /\ at_sea cove z).
  { intros z Iz. assert (Gz : ngeo z) by (destruct Iz as [<-|[<-|I]]; [split; vm_compute; congruence|split; vm_compute; congruence|apply G, I]).
    assert (Sz : at_sea cove z) by (split; [exact Gz|]; destruct Iz as [<-|[<-|I]]; [right; split; assumption|right; split; assumption|left; exact I]).
    split; [|split; [|split; assumption]]; vm_compute in Iz; repeat (destruct Iz as [<-|Iz]; [first [vm_compute; reflexivity|repeat split; vm_compute; congruence]|]); destruct Iz. }
  destruct (P x Ix) as (Mx & Nx & Gx & Sx). destruct (P y Iy) as (My & Ny & Gy & Sy). split; [|split; assumption].
  split; [exact L|]. split; [reflexivity|]. split; [intros v l; reflexivity|]. split; [intros c _ X; discriminate X|]. do 6 (split; [assumption|]). split; [reflexivity|]. split; [reflexivity|discriminate].
Qed.
(** legs around the world are long *)
Lemma cove_direct s d u l t r : sailed cove s d u l t r -> (r <= 200000000)%R -> forall a b m m', u :: l = m ++ a :: b :: m' -> open_line cove a b.
Proof.
  intros J. induction J as [u|u v l t r O Ne A B C H IH|u v k l t r K O No Ne A B H IH]; intros Le a b m m' E.
  - destruct m as [|x [|y m]]; discriminate E.
  - destruct m as [|x m]; cbn [app] in E; [injection E as <- <- _; exact O|]. injection E as _ E. apply (IH) with (m := m) (m' := m'); [pose proof (apart_pos u v); lra|exact E].
  - exfalso. pose proof (sailed_pos _ _ _ _ _ _ _ H).
    assert (Far : forall k, k = 1 \/ k = -1 -> (300000000 <= apart u (wrap k v))%R).
    { intros k' K'. assert (Ch : forall k, k = 1 \/ k = -1 -> forallb (fun u => forallb (fun v => 300000000 * 300000000 <=? dot (mkC (lon u - lon (wrap k v)) (lat u - lat (wrap k v))) (mkC (lon u - lon (wrap k v)) (lat u - lat (wrap k v))))
        (polygon_vertices cove)) (polygon_vertices cove) = true) by (intros q [-> | ->]; vm_compute; reflexivity).
      specialize (Ch k' K'). rewrite forallb_forall in Ch. specialize (Ch u A). rewrite forallb_forall in Ch. specialize (Ch v B). apply Z.leb_le, IZR_le in Ch.
      rewrite apart_dot. rewrite <- (sqrt_square 300000000) by lra. apply sqrt_le_1_alt. rewrite mult_IZR in Ch. exact Ch. }
    pose proof (Far 1 (or_introl eq_refl)). pose proof (Far (-1) (or_intror eq_refl)). unfold Rmin in Le. destruct (Rle_dec _ _); lra.
Qed.
(** a route over known legs gives a path, which is short and so has no leg around the world *)
Lemma cove_path atan2 ords g x y l r : surveyed atan2 ords cove g -> (forall v, library_orders (ords v)) -> In x (inner :: south :: polygon_vertices cove) -> In y (inner :: south :: polygon_vertices cove) ->
  sailed cove x y x l y r -> (r <= 150000000)%R -> Z.of_nat (List.length l) <= 1000000 ->
  exists n path, shortest_path n (bay_env atan2 ords g) g x y unlimited true = Some (Ok path) /\ forall a b m m', path = m ++ a :: b :: m' -> open_line cove a b.
Proof.
  intros Su L Ix Iy Sl Le Ln. pose proof (proj1 cove_drawn) as Dr. pose proof (cove_query atan2 ords g x y L Ix Iy) as Cq. pose proof Su as (A & _). pose proof (fun c => clear_ngeo cove c (proj1 cove_views)) as G.
  assert (Wi : Forall (within x unlimited) l).
  { apply Forall_forall. intros v Iv. pose proof Cq as (_ & Cx & Cy). apply unlimited_within; [apply Cx|]. destruct (sailed_places _ _ _ _ _ _ _ Sl v Iv) as [I|[ -> | -> ]]; [apply G, I|apply Cx|apply Cy]. }
  destruct (C95_found_partial atan2 ords ords cove g _ x y x y unlimited true Su Dr Cq) as (n & H). destruct (proj1 (H n (le_n n))) as [_ H2]. destruct H2 as (path & E); [exists l, r; split; assumption|].
  exists n, path. split; [exact E|]. pose proof (surveyed_true _ _ _ _ Su Dr) as Tg. pose proof (path_size atan2 ords cove g _ x y x y A Tg Dr Cq _ _ _ _ E) as Sp.
  assert (Sz : (List.length (polygon_vertices cove) = 12)%nat) by (vm_compute; reflexivity). assert (V1 : V f_1 = 1%R) by apply V_f1.
  destruct (best_route atan2 ords cove g _ x y x y A Tg Dr Cq unlimited true n path f_1 E ltac:(lia) (first_best_minimal _) eq_refl) as (l' & r' & Ep & Sa & O).
  { rewrite V1, Rabs_R1. change 1%R with (bpow radix2 0). apply bpow_le. lia. }
  specialize (O l r Sl Wi Ln). rewrite V1, Rmax_left in O by lra. intros a b m m' Em. apply (cove_direct x y x l' y r' Sa) with (m := m) (m' := m'); [lra|rewrite <- Ep; exact Em].
Qed.
Lemma cove_legs : let p1 := mkC 4700000 20200000 in let p2 := mkC (-200000) 19900000 in let p3 := mkC 0 0 in let q := mkC 20300000 21000000 in let q1 := mkC 15000000 19000000 in
  (exists r, sailed cove inner p2 inner [p1; p2] p2 r /\ (r <= 150000000)%R) /\ (exists r, sailed cove p2 south p2 [p3; south] south r /\ (r <= 150000000)%R) /\
  (exists r, sailed cove p2 inner p2 [p1; inner] inner r /\ (r <= 150000000)%R) /\ (exists r, sailed cove inner q inner [q1; q] q r /\ (r <= 150000000)%R) /\
  (exists r, sailed cove p1 south p1 [p2; p3; south] south r /\ (r <= 150000000)%R) /\ (exists r, sailed cove south p1 south [p3; p2; p1] p1 r /\ (r <= 150000000)%R).
Proof.
  intros p1 p2 p3 q q1. destruct cove_views as (F & _). pose proof (fun c => clear_ngeo cove c F) as G.
  assert (O : forall a b, ngeo a -> ngeo b -> open_b cove a b = true -> open_line cove a b) by (intros a b Ga Gb H; apply open_direct; [exact G|exact Ga|exact Gb|apply open_b_ok, H]).
  assert (Gs : ngeo inner) by (split; vm_compute; congruence). assert (Gd : ngeo south) by (split; vm_compute; congruence).
  assert (I1 : In p1 (polygon_vertices cove)) by (vm_compute; tauto). assert (I2 : In p2 (polygon_vertices cove)) by (vm_compute; tauto). assert (I3 : In p3 (polygon_vertices cove)) by (vm_compute; tauto).
  assert (I4 : In q (polygon_vertices cove)) by (vm_compute; tauto). assert (I5 : In q1 (polygon_vertices cove)) by (vm_compute; tauto).
  pose proof (G _ I1). pose proof (G _ I2). pose proof (G _ I3). pose proof (G _ I4). pose proof (G _ I5).
  assert (B : forall a b, (lon a - lon b) * (lon a - lon b) + (lat a - lat b) * (lat a - lat b) <= 50000000 * 50000000 -> (apart a b <= 50000000)%R) by (intros a b H'; rewrite <- far_apart; apply far_bound; [lia|exact H']).
  repeat split; (eexists; split; [repeat (apply sailed_straight; [apply O; [assumption|assumption|vm_compute; reflexivity]|discriminate|auto|auto|auto|]); constructor|]);
    repeat match goal with |- context [apart ?a ?b] => let X := fresh in assert (X : (apart a b <= 50000000)%R) by (apply B; vm_compute; congruence); revert X; generalize (apart a b); intros ? X end; lra.
Qed.
(** out of the bay to the south by way of a vertex at its mouth *)
Example C105_vertex_ex : forall atan2 ords, accurate_atan2 atan2 -> (forall v, library_orders (ords v)) ->
  let b := mkC (-200000) 19900000 in
  exists g fuel1 path1 fuel2 path2 fuel path, let en := bay_env atan2 ords g in surveyed atan2 ords cove g /\ drawn cove /\
    coast_query atan2 ords cove g en inner south inner south /\ coast_query atan2 ords cove g en inner b inner b /\ coast_query atan2 ords cove g en b south b south /\
    In b (polygon_vertices cove) /\ Z.of_nat (List.length (polygon_vertices cove)) <= 499999 /\
    shortest_path fuel1 en g inner b unlimited true = Some (Ok path1) /\ shortest_path fuel2 en g b south unlimited true = Some (Ok path2) /\
    shortest_path fuel en g inner south unlimited true = Some (Ok path) /\ minimal f_1 (en_pick en) /\ is_finite f_1 = true.
Proof.
  intros atan2 ords A L b. destruct (cove_surveyed atan2 ords A L) as (g & Su). pose proof (proj1 cove_drawn) as Dr. assert (Ib : In b (polygon_vertices cove)) by (vm_compute; tauto).
  destruct cove_legs as ((r1 & S1 & L1) & (r2 & S2 & L2) & _).
  assert (M : forall x, In x (inner :: south :: b :: []) -> In x (inner :: south :: polygon_vertices cove)) by (intros x [<-|[<-|[<-|[]]]]; cbn [In]; auto).
  destruct (cove_path atan2 ords g inner b _ _ Su L ltac:(apply M; cbn; auto) ltac:(apply M; cbn; auto) S1 L1 ltac:(vm_compute; congruence)) as (n1 & path1 & E1 & _).
  destruct (cove_path atan2 ords g b south _ _ Su L ltac:(apply M; cbn; auto) ltac:(apply M; cbn; auto) S2 L2 ltac:(vm_compute; congruence)) as (n2 & path2 & E2 & _).
  assert (Q : forall x y, In x (inner :: south :: b :: []) -> In y (inner :: south :: b :: []) -> coast_query atan2 ords cove g (bay_env atan2 ords g) x y x y) by (intros x y Ix Iy; apply cove_query; auto).
  pose proof (Q inner south ltac:(cbn; auto) ltac:(cbn; auto)) as Q0. pose proof (Q inner b ltac:(cbn; auto) ltac:(cbn; auto)) as Q1. pose proof (Q b south ltac:(cbn; auto) ltac:(cbn; auto)) as Q2.
  destruct (C105_vertex_found_partial atan2 ords ords ords ords cove g _ _ _ inner inner b b south south inner b south unlimited unlimited true true true n1 n2 path1 path2 Su Dr Q0 Q1 Q2 Ib E1 E2) as (n & H).
  destruct (H n (le_n n)) as (path & E). exists g, n1, path1, n2, path2, n, path. cbv zeta. do 6 (split; [assumption|]). split; [vm_compute; congruence|]. do 3 (split; [assumption|]). split; [apply first_best_minimal|reflexivity].
Qed.
(** across the mouth of the bay, from one arm to the other, by way of a place inside it *)
Example C105_water_ex : forall atan2 ords, accurate_atan2 atan2 -> (forall v, library_orders (ords v)) ->
  let a := mkC (-200000) 19900000 in let c := mkC 20300000 21000000 in
  exists g fuel1 path1 fuel2 path2 fuel path, let en := bay_env atan2 ords g in surveyed atan2 ords cove g /\ drawn cove /\
    coast_query atan2 ords cove g en a c a c /\ coast_query atan2 ords cove g en a inner a inner /\ coast_query atan2 ords cove g en inner c inner c /\
    ~ In inner (polygon_vertices cove) /\ edge_between cove a c /\ a <> inner /\ inner <> c /\
    shortest_path fuel1 en g a inner unlimited true = Some (Ok path1) /\ shortest_path fuel2 en g inner c unlimited true = Some (Ok path2) /\
    (forall u v m m', path1 = m ++ u :: v :: m' -> open_line cove u v) /\ (forall u v m m', path2 = m ++ u :: v :: m' -> open_line cove u v) /\
    shortest_path fuel en g a c unlimited true = Some (Ok path) /\ minimal f_1 (en_pick en) /\ is_finite f_1 = true.
Proof.
  intros atan2 ords A L a c. destruct (cove_surveyed atan2 ords A L) as (g & Su). pose proof (proj1 cove_drawn) as Dr. assert (Ia : In a (polygon_vertices cove)) by (vm_compute; tauto). assert (Ic : In c (polygon_vertices cove)) by (vm_compute; tauto).
  destruct cove_legs as (_ & _ & (r1 & S1 & L1) & (r2 & S2 & L2) & _).
  assert (M : forall x, In x (inner :: a :: c :: []) -> In x (inner :: south :: polygon_vertices cove)) by (intros x [<-|[<-|[<-|[]]]]; cbn [In]; auto).
  destruct (cove_path atan2 ords g a inner _ _ Su L ltac:(apply M; cbn; auto) ltac:(apply M; cbn; auto) S1 L1 ltac:(vm_compute; congruence)) as (n1 & path1 & E1 & D1).
  destruct (cove_path atan2 ords g inner c _ _ Su L ltac:(apply M; cbn; auto) ltac:(apply M; cbn; auto) S2 L2 ltac:(vm_compute; congruence)) as (n2 & path2 & E2 & D2).
  assert (Q : forall x y, In x (inner :: a :: c :: []) -> In y (inner :: a :: c :: []) -> coast_query atan2 ords cove g (bay_env atan2 ords g) x y x y) by (intros x y Ix Iy; apply cove_query; auto).
  pose proof (Q a c ltac:(cbn; auto) ltac:(cbn; auto)) as Q0. pose proof (Q a inner ltac:(cbn; auto) ltac:(cbn; auto)) as Q1. pose proof (Q inner c ltac:(cbn; auto) ltac:(cbn; auto)) as Q2.
  pose proof Su as (_ & _ & _ & _ & Vw & _). assert (Bl : edge_between cove a c) by (apply not_direct_meets; [exact (fun c => clear_ngeo cove c (proj1 cove_views))|exact Dr|exact Vw|apply Q0|left; exact Ia]). assert (Na : a <> inner) by discriminate. assert (Nc : inner <> c) by discriminate.
  destruct (C105_water_found_partial atan2 ords ords ords ords cove g _ _ _ a a inner inner c c a inner c unlimited unlimited true true true n1 n2 path1 path2 Su Dr Q0 Q1 Q2 Bl Na Nc E1 E2 D1 D2) as (n & H).
  destruct (H n (le_n n)) as (path & E). exists g, n1, path1, n2, path2, n, path. cbv zeta. do 5 (split; [assumption|]). split; [vm_compute; intuition discriminate|]. do 8 (split; [assumption|]). split; [apply first_best_minimal|reflexivity].
Qed.
(** the source moved from a place in the bay to the tip of its western arm *)
Example C106_ex : forall atan2 ords, accurate_atan2 atan2 -> (forall v, library_orders (ords v)) ->
  let b := mkC 4700000 20200000 in
  exists g fuel2 path2 fuel path, let en := bay_env atan2 ords g in surveyed atan2 ords cove g /\ drawn cove /\
    coast_query atan2 ords cove g en inner south inner south /\ coast_query atan2 ords cove g en b south b south /\
    edge_between cove inner south /\ sails cove (rp inner) (rp b) /\ b <> south /\
    shortest_path fuel2 en g b south unlimited true = Some (Ok path2) /\ (forall u v m m', path2 = m ++ u :: v :: m' -> open_line cove u v) /\
    shortest_path fuel en g inner south unlimited true = Some (Ok path) /\ minimal f_1 (en_pick en) /\ is_finite f_1 = true.
Proof.
  intros atan2 ords A L b. destruct (cove_surveyed atan2 ords A L) as (g & Su). pose proof (proj1 cove_drawn) as Dr. assert (Ib : In b (polygon_vertices cove)) by (vm_compute; tauto).
  destruct cove_legs as (_ & _ & _ & _ & (r2 & S2 & L2) & _).
  assert (M : forall x, In x (inner :: south :: b :: []) -> In x (inner :: south :: polygon_vertices cove)) by (intros x [<-|[<-|[<-|[]]]]; cbn [In]; auto).
  destruct (cove_path atan2 ords g b south _ _ Su L ltac:(apply M; cbn; auto) ltac:(apply M; cbn; auto) S2 L2 ltac:(vm_compute; congruence)) as (n2 & path2 & E2 & D2).
  assert (Q : forall x y, In x (inner :: south :: b :: []) -> In y (inner :: south :: b :: []) -> coast_query atan2 ords cove g (bay_env atan2 ords g) x y x y) by (intros x y Ix Iy; apply cove_query; auto).
  pose proof (Q inner south ltac:(cbn; auto) ltac:(cbn; auto)) as Q0. pose proof (Q b south ltac:(cbn; auto) ltac:(cbn; auto)) as Q2. pose proof Su as (_ & _ & _ & _ & Vw & _). pose proof (fun c => clear_ngeo cove c (proj1 cove_views)) as G.
  assert (Bl : edge_between cove inner south) by (apply not_direct_meets; [exact G|exact Dr|exact Vw|apply Q0|apply cove_way]).
  assert (Sl : sails cove (rp inner) (rp b)).
  { destruct cove_sailed as ((r & Sa) & _).
    apply (leg_way atan2 ords cove g _ inner south inner south (surveyed_true _ _ _ _ Su Dr) Dr Vw Q0 inner b _ _ _ Sa). apply open_direct; [exact G|split; vm_compute; congruence|apply G, Ib|apply open_b_ok; vm_compute; reflexivity]. }
  assert (Nb : b <> south) by discriminate.
  destruct (C106_moved_found_partial atan2 ords ords ords cove g _ _ inner b south south inner b south unlimited true true n2 path2 Su Dr Q0 Q2 Bl Sl Nb E2 D2) as (n & H).
  destruct (H n (le_n n)) as (path & E). exists g, n2, path2, n, path. cbv zeta. do 10 (split; [assumption|]). split; [apply first_best_minimal|reflexivity].
Qed.
(** and the other way around: the destination moved from the tip into the bay *)
Example C106_end_ex : forall atan2 ords, accurate_atan2 atan2 -> (forall v, library_orders (ords v)) ->
  let b := mkC 4700000 20200000 in
  exists g fuel1 path1 fuel path, let en := bay_env atan2 ords g in surveyed atan2 ords cove g /\ drawn cove /\
    coast_query atan2 ords cove g en south inner south inner /\ coast_query atan2 ords cove g en south b south b /\
    edge_between cove south inner /\ sails cove (rp b) (rp inner) /\ south <> b /\
    shortest_path fuel1 en g south b unlimited true = Some (Ok path1) /\ (forall u v m m', path1 = m ++ u :: v :: m' -> open_line cove u v) /\
    shortest_path fuel en g south inner unlimited true = Some (Ok path) /\ minimal f_1 (en_pick en) /\ is_finite f_1 = true.
Proof.
  intros atan2 ords A L b. destruct (C106_ex atan2 ords A L) as (g & _ & _ & _ & _ & Su & Dr & _ & _ & Bl & Sl & _). cbv zeta in Bl. assert (Ib : In b (polygon_vertices cove)) by (vm_compute; tauto).
  destruct cove_legs as (_ & _ & _ & _ & _ & (r2 & S2 & L2)).
  assert (M : forall x, In x (inner :: south :: b :: []) -> In x (inner :: south :: polygon_vertices cove)) by (intros x [<-|[<-|[<-|[]]]]; cbn [In]; auto).
  destruct (cove_path atan2 ords g south b _ _ Su L ltac:(apply M; cbn; auto) ltac:(apply M; cbn; auto) S2 L2 ltac:(vm_compute; congruence)) as (n1 & path1 & E1 & D1).
  assert (Q : forall x y, In x (inner :: south :: b :: []) -> In y (inner :: south :: b :: []) -> coast_query atan2 ords cove g (bay_env atan2 ords g) x y x y) by (intros x y Ix Iy; apply cove_query; auto).
  pose proof (Q south inner ltac:(cbn; auto) ltac:(cbn; auto)) as Q0. pose proof (Q south b ltac:(cbn; auto) ltac:(cbn; auto)) as Q1.
  assert (Bl' : edge_between cove south inner) by (destruct Bl as (e & Ee & Me); exists e; split; [exact Ee|apply meet_flip, Me]).
  apply sails_flip in Sl. fold b in Sl. assert (Nb : south <> b) by discriminate.
  destruct (C106_moved_end_found_partial atan2 ords ords ords cove g _ _ south south b inner south b inner unlimited true true n1 path1 Su Dr Q0 Q1 Bl' Sl Nb E1 D1) as (n & H).
  destruct (H n (le_n n)) as (path & E). exists g, n1, path1, n, path. cbv zeta. do 10 (split; [assumption|]). split; [apply first_best_minimal|reflexivity].
Qed.
