(** C98: ways over the water from endpoints which were moved to a shore.  No code is modelled here. *)
From Verif Require Import Jordan.
From Coq Require Import ZArith Reals Bool List Lia Lra Permutation String.
From Flocq Require Import Core BinarySingleNaN.
From Verif Require Import PyLayer PyFacts Base F64 Coordinate Segment Polyline Polygon Periodicity Graph Visgraph VisgraphFacts SpecGeom SpecGraph F64Facts CoordinateFacts PolylineFacts
  PolygonMore GraphFacts GraphMore Serializer SerializerMore Sweep SweepFacts SweepMaps SweepGen SweepCases AngleFacts AngleSort SweepOpen SweepOrder SweepGeo SweepSound SweepExact SweepGraph SweepHalfGraph SweepLayers SweepWorld SweepForced SweepHashOrder
  ShortestPath DistFacts SearchFacts SearchSpec SearchGraph SearchQuery PathFacts PathMore FreePaths BlockedLegs OpenWater SweepFronts SeaLines SurveyCheck SurveyFast Coasts CoastExact CoastCheck Pipeline PipelineFacts PipelineFree PipelineOpen PipelineSea CoastRun
  Props_Sweep Props_Path Props_Python Props_Pipeline Props_Exact Props_EndToEnd Props_Open Props_OpenRun Props_Sea Ways WayRun Props_Coast Props_Ways LandWays.
Import ListNotations.
Local Open Scope Z_scope.

(** C98.  An endpoint on land is moved to a shore, and from there no vertex on the land side of the line of that shore
    is considered.  Where the endpoint lies off the shore, on the sea side of it, the path can be longer than the
    shortest way (false, below), but by no more than twice the distance to the shore.  Missing: other maps, ways around the
    world, and endpoints moved exactly onto an edge or onto land (C82). *)
Theorem C98_shortest_partial : forall atan2 ords ords' ps g en source destination lc ds dd radius rho flag fuel path w,
  surveyed atan2 ords ps g -> drawn ps -> shore_query atan2 ords' ps g en source destination lc ->
  beside ps (lc_source lc) (lc_source_edge lc) ds -> beside ps (lc_dest lc) (lc_dest_edge lc) dd -> not_direct ps (lc_source lc) (lc_dest lc) ->
  reaches radius (rho + ds + dd) -> Z.of_nat (List.length (polygon_vertices ps)) <= 999998 ->
  shortest_path fuel en g source destination radius flag = Some (Ok path) -> minimal w (en_pick en) -> is_finite w = true -> (Rabs (V w) <= bpow radix2 900)%R ->
  exists l r, path = lc_source lc :: l /\ sailed ps (lc_source lc) (lc_dest lc) (lc_source lc) l (lc_dest lc) r /\
    forall l', a_way ps rho (lc_source lc) (lc_dest lc) l' ->
      (r <= Rmax 1 (V w) * (run (rp (lc_source lc)) (l' ++ [rp (lc_dest lc)]) + 2 * ds + 2 * dd) * (1 + / 2000000000))%R.
Proof.
  intros atan2 ords ords' ps g en source destination lc ds dd radius rho flag fuel path w Su Dr Sq Bs Bd Bl Re Sz. pose proof Su as (T & _ & _ & _ & Vw & _).
  exact (shore_best atan2 ords' ps g en source destination lc ds dd T (surveyed_true _ _ _ _ Su Dr) Dr Vw Sq Bs Bd Bl radius rho flag fuel path w Re Sz).
Qed.
Print Assumptions C98_shortest_partial.
(** a path if there is any way, NoPath only if there is none *)
Theorem C98_found_partial : forall atan2 ords ords' ps g en source destination lc ds dd radius rho,
  surveyed atan2 ords ps g -> drawn ps -> shore_query atan2 ords' ps g en source destination lc ->
  beside ps (lc_source lc) (lc_source_edge lc) ds -> beside ps (lc_dest lc) (lc_dest_edge lc) dd -> not_direct ps (lc_source lc) (lc_dest lc) ->
  reaches radius (rho + ds + dd) ->
  ((exists l, a_way ps rho (lc_source lc) (lc_dest lc) l) -> exists n, forall fuel, (n <= fuel)%nat -> exists path, shortest_path fuel en g source destination radius true = Some (Ok path)) /\
  (forall fuel, shortest_path fuel en g source destination radius true = Some (Throw NoPath) -> ~ exists l, a_way ps rho (lc_source lc) (lc_dest lc) l).
Proof.
  intros atan2 ords ords' ps g en source destination lc ds dd radius rho Su Dr Sq Bs Bd Bl Re. pose proof Su as (T & _ & _ & _ & Vw & _).
  exact (shore_found atan2 ords' ps g en source destination lc ds dd T (surveyed_true _ _ _ _ Su Dr) Dr Vw Sq Bs Bd Bl radius rho Re).
Qed.
Print Assumptions C98_found_partial.
(** from a shape file, in one run *)
Theorem C98_one_run_partial : forall atan2 ords shapes ps out s limit, accurate_atan2 atan2 -> (forall v, library_orders (ords v)) ->
  drawn_shapes shapes ps limit -> Z.of_nat (List.length (polygon_vertices ps)) <= 999998 -> fresh s out ->
  exists s', generate_cmd (fun ps v => vis_periodic atan2 (ords v) ps v) (Ok shapes) out s = (s', Ok tt) /\ answers_shores atan2 ps limit out s'.
Proof.
  intros atan2 ords shapes ps out s limit T L Ds Sz Fr. destruct (generate_drawn atan2 ords shapes ps out s limit T L Ds Fr) as (s' & E & H). exists s'. split; [exact E|].
  exact (shores_folder atan2 shapes ps limit out s' T Ds Sz H).
Qed.
Print Assumptions C98_one_run_partial.
(** and in splits *)
Theorem C98_splits_partial : forall atan2 ords shuffle enum shapes ps (num : nat) dir inputs out s limit, accurate_atan2 atan2 -> (forall v, library_orders (ords v)) ->
  (forall l, Permutation (shuffle l) l) -> enumerates enum -> drawn_shapes shapes ps limit -> Z.of_nat (List.length (polygon_vertices ps)) <= 999998 -> ps <> [] ->
  (1 <= num)%nat -> NoDup (map dir (seq 0 num)) -> (forall i, (i < num)%nat -> fresh s (dir i)) ->
  Permutation inputs (map dir (seq 0 num)) -> fresh s out -> ~ In out inputs ->
  let vis := fun ps v => vis_periodic atan2 (ords v) ps v in
  exists s1 s2, sequence (map (fun cur => generate_range_cmd vis shuffle (Ok shapes) (dir cur) (Z.of_nat cur) (Z.of_nat num)) (seq 0 num)) s = (s1, Ok tt) /\
    merge_cmd limit enum inputs out s1 = (s2, Ok tt) /\ answers_shores atan2 ps limit out s2.
Proof.
  intros atan2 ords shuffle enum shapes ps num dir inputs out s limit T L Sh En Ds Sz Ne N1 N2 N3 Pi Fo No vis.
  destruct (distributed_drawn atan2 ords shuffle enum shapes ps num dir inputs out s limit T L Sh En Ds Ne N1 N2 N3 Pi Fo No) as (s1 & s2 & E1 & E2 & H). exists s1, s2. split; [exact E1|]. split; [exact E2|].
  exact (shores_folder atan2 shapes ps limit out s2 T Ds Sz H).
Qed.
Print Assumptions C98_splits_partial.

(** ** A cape and an island *)
(** the endpoint is moved from the cape to a point south of its shore; the island is in the way *)
Definition cape : list polygon := [mkP [mkC (-1000000) (-100000); mkC 0 0; mkC (-500000) 800000]; mkP [mkC 10000000 5000000; mkC 11000000 7000000; mkC 9000000 8000000]].
Definition cape_inland : coord := mkC (-500000) 250000.
Definition cape_foot : coord := mkC (-100000) (-110000).
Definition cape_goal : coord := mkC 20000000 10070000.
Definition cape_shore : segment := mkS (mkC (-1000000) (-100000)) (mkC 0 0).
Definition cape_corner : coord := mkC 10000000 5000000.
Definition cape_index : index := mkI (fun c => coord_eqb c cape_inland) (fun _ => Ok cape_shore) (fun _ => [mkS cape_corner (mkC 11000000 7000000)]) (fun _ _ => cape_foot).
Definition cape_env (atan2 : Z -> Z -> f64) (ords : coord -> orders) (g : graph) : env := mkEnv cape_index (endpoint_vis atan2 ords g) no_rows (fun _ => first_best f_1).
Definition cape_lc : correction := mkLC cape_foot cape_goal (Some cape_shore) None.
Lemma cape_drawn : drawn cape /\ off_land cape_foot cape /\ off_land cape_goal cape.
Proof. split; [apply drawn_b_ok; vm_compute; reflexivity|]. split; apply off_land_b_ok; vm_compute; reflexivity. Qed.
Lemma cape_views : Forall clear_polygon cape /\ NoDup (polygon_vertices cape) /\ (forall o, In o (polygon_vertices cape) -> ordered_view true o (map_copies cape)) /\
  ordered_view false cape_foot cape /\ ordered_view false cape_goal cape.
Proof.
  assert (C1 : nodup_b (polygon_vertices cape) = true) by (vm_compute; reflexivity).
  assert (C2 : forallb fair_b cape = true) by (vm_compute; reflexivity).
  assert (C3 : roomy_b (map_copies cape) = true) by (vm_compute; reflexivity).
  assert (C4 : forallb (fun o => ordered_view_f true o (map_copies cape)) (polygon_vertices cape) = true) by (vm_compute; reflexivity).
  assert (C5 : roomy_b cape = true) by (vm_compute; reflexivity).
  pose proof (proj1 (forallb_forall fair_b cape) C2) as C2'. pose proof (proj1 (forallb_forall (fun o => ordered_view_f true o (map_copies cape)) (polygon_vertices cape)) C4) as C4'.
  clear C2 C4. split; [|split; [apply nodup_b_ok, C1|split; [intros o O; apply ordered_view_f_ok; [exact C3|exact (C4' o O)]|]]].
  - apply Forall_forall. intros P HP. apply fair_b_ok; [exact (C2' P HP)|]. destruct HP as [<-|[<-|[]]]; vm_compute; reflexivity.
  - split; (apply ordered_view_f_ok; [exact C5|vm_compute; reflexivity]).
Qed.
(** to a point of an edge from the sea side of it *)
Definition moors_b (ps : list polygon) (e : segment) (a b : coord) : bool :=
  (turn (e1 e) (e2 e) a <? 0) && forallb (fun P => forallb (fun e' => (coord_eqb (e1 e') (e1 e) && coord_eqb (e2 e') (e2 e)) || aside_b e' (mkS a b) || aside_b (mkS a b) e') (edges_list P) && (wind P a =? 0)) ps.
Lemma moors_b_ok ps e a b h : sketched ps -> polygon_edge ps e -> (0 <= h <= 1)%R -> rp b = mix (rp (e1 e)) (rp (e2 e)) h -> moors_b ps e a b = true -> sails ps (rp a) (rp b).
Proof.
  intros Sk Pe Hh Eb H r R P HP. unfold moors_b in H. rewrite andb_true_iff, Z.ltb_lt, forallb_forall in H. destruct H as [Tu H]. specialize (H P HP). rewrite andb_true_iff, forallb_forall, Z.eqb_eq in H. destruct H as [H W].
  pose proof (proj1 (proj2 Sk P HP)) as N3.
  assert (Cases : (r = 1%R /\ edge_of P e) \/ (r < 1)%R \/ ~ edge_of P e).
  { destruct (Req_dec r 1) as [->|Nr]; [|right; left; lra]. assert (Sd : forall x y : segment, {x = y} + {x <> y}) by (decide equality; apply coord_dec). destruct (in_dec Sd e (edges_list P)) as [I|I]; [left; split; [reflexivity|]; apply edges_list_ok, I|right; right; intros K; apply I, edges_list_ok, K]. }
  destruct Cases as [[-> Ee]|Cases]; [left; exists e, h; split; [exact Ee|]; split; [exact Hh|]; rewrite mix_1; symmetry; exact Eb|].
  right. rewrite <- (r_winding P N3) in W. rewrite <- W. symmetry. apply moving; [apply (r_per P N3 0)|]. apply r_misses; [exact N3|]. intros e' E (x & t & Hx & Ht & M). specialize (H e' (proj1 (edges_list_ok P e') E)).
  assert (Me : meet (rp a) (rp b) (rp (e1 e')) (rp (e2 e'))) by (exists (x * r)%R, t; split; [nra|]; split; [exact Ht|]; rewrite <- M; apply pt_eq; unfold mix; cbn [X Y]; ring).
  rewrite !orb_true_iff, andb_true_iff in H. destruct H as [[[H1 H2]|H]|H]; [|exact (aside_b_ok _ _ H Me)|exact (aside_b_ok _ _ H (meet_swap _ _ _ _ Me))].
  apply coord_eqb_spec in H1, H2. assert (Ee : e' = e) by (destruct e' as [p q], e as [p' q']; cbn [e1 e2] in *; congruence). rewrite Ee in E, M. destruct Cases as [Lt|N]; [|contradiction].
  apply (IZR_lt _ 0) in Tu. rewrite <- cross_turn in Tu. set (d := minus (rp (e2 e)) (rp (e1 e))) in *.
  assert (Z1 : cross d (minus (mix (rp (e1 e)) (rp (e2 e)) t) (rp (e1 e))) = 0%R) by (unfold d, cross, minus, mix; cbn [X Y]; ring).
  rewrite <- M in Z1. rewrite Eb in Z1.
  replace (cross d (minus (mix (rp a) (mix (rp a) (mix (rp (e1 e)) (rp (e2 e)) h) r) x) (rp (e1 e)))) with ((1 - x * r) * cross d (minus (rp a) (rp (e1 e))))%R in Z1 by (unfold d, cross, minus, mix; cbn [X Y]; ring).
  assert (x * r < 1)%R by nra. apply Rmult_integral in Z1. destruct Z1; lra.
Qed.
Lemma cape_beside : beside cape cape_foot (Some cape_shore) 100000 /\ beside cape cape_goal None 0.
Proof.
  split; [|split; [lra|intros e E; discriminate E]]. split; [lra|]. intros e E. injection E as <-.
  assert (Pe : polygon_edge cape cape_shore) by (exists (mkP [mkC (-1000000) (-100000); mkC 0 0; mkC (-500000) 800000]), 0%nat; split; [left; reflexivity|]; split; [vm_compute; lia|reflexivity]).
  split; [exact Pe|]. split; [vm_compute; congruence|]. exists (9 / 10)%R. split; [lra|].
  assert (Eb : rp (mkC (-100000) (-10000)) = mix (rp (e1 cape_shore)) (rp (e2 cape_shore)) (9 / 10)) by (apply pt_eq; unfold mix, rp, cape_shore; cbn [X Y e1 e2 lon lat]; lra).
  split; rewrite <- Eb.
  - apply (moors_b_ok cape cape_shore cape_foot _ (9 / 10) (sketched_base _ (proj1 (proj1 cape_drawn))) Pe ltac:(lra) Eb). vm_compute. reflexivity.
  - apply far_bound; vm_compute; congruence.
Qed.
Lemma cape_surveyed atan2 ords : accurate_atan2 atan2 -> (forall v, library_orders (ords v)) -> exists g, surveyed atan2 ords cape g.
Proof.
  intros A L. destruct cape_views as (F & N & V & _). pose proof (fun c => clear_ngeo cape c F) as Ng. pose proof (periodic_reports atan2 ords cape L Ng) as R.
  destruct (generate_ok cape _ R) as (g & E & _). exists g. repeat (split; [assumption|]). exact E.
Qed.
Lemma cape_query atan2 ords g : (forall v, library_orders (ords v)) -> shore_query atan2 ords cape g (cape_env atan2 ords g) cape_inland cape_goal cape_lc.
Proof.
  intros L. split; [exact L|]. split; [reflexivity|]. split; [intros v l; reflexivity|].
  split; [intros c _ _; exists cape_shore; split; [reflexivity|]; repeat split; vm_compute; congruence|].
  split; [repeat split; vm_compute; congruence|]. split; [repeat split; vm_compute; congruence|]. split; [|split; [|split]].
  - exists cape_inland, cape_goal. split; [vm_compute; reflexivity|]. split; [vm_compute; reflexivity|]. split; [right; split; [vm_compute; reflexivity|]; exists cape_shore; auto|left; split; [vm_compute; reflexivity|auto]].
  - apply searched_iff. exists (mkS cape_corner (mkC 11000000 7000000)). split; [left; reflexivity|]. intros sh [X|X]; [injection X as <-; vm_compute; reflexivity|discriminate X].
  - destruct cape_views as (_ & _ & _ & V1 & _). destruct cape_drawn as (_ & O1 & _). split; [split; vm_compute; congruence|right; auto].
  - destruct cape_views as (_ & _ & _ & _ & V1). destruct cape_drawn as (_ & _ & O1). split; [split; vm_compute; congruence|right; auto].
Qed.
Lemma cape_way : a_way cape 99900000 cape_foot cape_goal [rp cape_corner] /\ not_direct cape cape_foot cape_goal.
Proof.
  destruct cape_views as (F & N & Vw & V1 & V2). destruct cape_drawn as (Dr & O1 & O2). pose proof (fun c => clear_ngeo cape c F) as Ng.
  assert (A1 : at_sea cape cape_foot) by (split; [split; vm_compute; congruence|right; auto]). assert (A2 : at_sea cape cape_goal) by (split; [split; vm_compute; congruence|right; auto]).
  assert (Ic : In cape_corner (polygon_vertices cape)) by (vm_compute; tauto). split; [split|].
  - assert (Go : forall c, at_sea cape c -> c <> cape_corner -> open_b cape c cape_corner = true -> sails cape (rp c) (rp cape_corner)).
    { intros c Hc Nc H. apply open_sails; [exact Ng|exact N|exact Dr|exact Vw|apply sea_fine; assumption|exact Ic|exact Nc|]. apply open_direct; [exact Ng|apply Hc|apply Ng, Ic|apply open_b_ok, H]. }
    cbn [app course]. split; [apply Go; [exact A1|discriminate|vm_compute; reflexivity]|]. split; [|exact I]. apply sails_flip, Go; [exact A2|discriminate|vm_compute; reflexivity].
  - intros p H. cbn [app] in H. repeat (destruct H as [<-|H]; [apply far_bound; vm_compute; congruence|]). destruct H.
  - right. right. intros Sa. pose proof (Sa (201 / 400)%R ltac:(lra)) as A. replace (mix (rp cape_foot) (rp cape_goal) (201 / 400)) with (rp (mkC 10000250 5005450)) in A by (apply pt_eq; unfold cape_foot, cape_goal, mix, rp; cbn [X Y lon lat]; lra).
    revert A. eapply inland_b_ok; [apply sketched_base, Dr|right; left; reflexivity|vm_compute; reflexivity].
Qed.
Lemma cape_reaches : reaches f_max (99900000 + 100000 + 0).
Proof. replace (99900000 + 100000 + 0)%R with 100000000%R by lra. exact f_max_reaches. Qed.
Example C98_ex : forall atan2 ords, accurate_atan2 atan2 -> (forall v, library_orders (ords v)) ->
  exists g fuel path, surveyed atan2 ords cape g /\ drawn cape /\ shore_query atan2 ords cape g (cape_env atan2 ords g) cape_inland cape_goal cape_lc /\
    beside cape (lc_source cape_lc) (lc_source_edge cape_lc) 100000 /\ beside cape (lc_dest cape_lc) (lc_dest_edge cape_lc) 0 /\ not_direct cape (lc_source cape_lc) (lc_dest cape_lc) /\
    reaches f_max (99900000 + 100000 + 0) /\ Z.of_nat (List.length (polygon_vertices cape)) <= 999998 /\
    (exists l, a_way cape 99900000 (lc_source cape_lc) (lc_dest cape_lc) l) /\ minimal f_1 (en_pick (cape_env atan2 ords g)) /\ is_finite f_1 = true /\
    shortest_path fuel (cape_env atan2 ords g) g cape_inland cape_goal f_max true = Some (Ok path).
Proof.
  intros atan2 ords A L. destruct (cape_surveyed atan2 ords A L) as (g & Su). destruct cape_drawn as (Dr & _). pose proof (cape_query atan2 ords g L) as Sq. destruct cape_beside as [B1 B2]. destruct cape_way as [Wa Nd].
  destruct (C98_found_partial atan2 ords ords cape g (cape_env atan2 ords g) cape_inland cape_goal cape_lc 100000 0 f_max 99900000 Su Dr Sq B1 B2 Nd cape_reaches) as [H _].
  destruct (H (ex_intro _ _ Wa)) as (n & K). destruct (K n (le_n n)) as (path & E). exists g, n, path. repeat (split; [assumption|]). split; [exact cape_reaches|]. split; [vm_compute; congruence|]. split; [eexists; exact Wa|].
  split; [apply first_best_minimal|]. split; [reflexivity|exact E].
Qed.
Lemma apart_at_least a b n : 0 <= n -> n * n <= (lon a - lon b) * (lon a - lon b) + (lat a - lat b) * (lat a - lat b) -> (IZR n <= DistFacts.apart a b)%R.
Proof.
  intros N H. unfold DistFacts.apart. rewrite <- (sqrt_Rsqr (IZR n)) by (apply (IZR_le 0), N). apply sqrt_le_1_alt. unfold Rsqr. rewrite <- !minus_IZR, <- !mult_IZR, <- plus_IZR. apply IZR_le, H.
Qed.
Lemma V_1 : V f_1 = 1%R.
Proof. change (V f_1) with (IZR 4503599627370496 * bpow radix2 (-52))%R. change (bpow radix2 (-52)) with (/ IZR 4503599627370496)%R. apply Rinv_r. lra. Qed.
(** without the allowance it is false of the code: the corner of the island is in sight, but behind the line of the shore,
    and the path goes around the tip of the cape first *)
Theorem C98_shortest_refuted : forall atan2 ords, accurate_atan2 atan2 -> (forall v, library_orders (ords v)) ->
  exists ps g en source destination lc ds radius rho fuel l r l',
    surveyed atan2 ords ps g /\ drawn ps /\ shore_query atan2 ords ps g en source destination lc /\
    beside ps (lc_source lc) (lc_source_edge lc) ds /\ beside ps (lc_dest lc) (lc_dest_edge lc) 0 /\ not_direct ps (lc_source lc) (lc_dest lc) /\ reaches radius (rho + ds + 0) /\ minimal f_1 (en_pick en) /\
    shortest_path fuel en g source destination radius true = Some (Ok (lc_source lc :: l)) /\ sailed ps (lc_source lc) (lc_dest lc) (lc_source lc) l (lc_dest lc) r /\
    a_way ps rho (lc_source lc) (lc_dest lc) l' /\ (Rmax 1 (V f_1) * run (rp (lc_source lc)) (l' ++ [rp (lc_dest lc)]) * (1 + / 2000000000) < r)%R.
Proof.
  intros atan2 ords A L. destruct (C98_ex atan2 ords A L) as (g & fuel & path & Su & Dr & Sq & B1 & B2 & Nd & Re & _ & _ & Mn & _ & E). destruct cape_way as [Wa _].
  pose proof (surveyed_true _ _ _ _ Su Dr) as Tg. pose proof Sq as (_ & _ & _ & _ & Ms & Md & Cor & Se & As & Ad). pose proof (lq_fit atan2 ords cape g _ _ _ _ Tg Sq) as Fit.
  destruct (query_success _ g _ _ f_max true Fit Ms Md fuel _ path E Cor Se) as (l & r & -> & J & _).
  exists cape, g, (cape_env atan2 ords g), cape_inland, cape_goal, cape_lc, 100000%R, f_max, 99900000%R, fuel, l, r, [rp cape_corner].
  split; [exact Su|]. split; [exact Dr|]. split; [exact Sq|]. split; [exact B1|]. split; [exact B2|]. split; [exact Nd|]. split; [exact Re|]. split; [exact Mn|]. split; [exact E|].
  split; [exact (lq_open atan2 ords cape g _ _ _ _ A Tg Dr Sq _ _ _ _ J)|]. split; [exact Wa|].
  pose proof (fun c => clear_ngeo cape c (proj1 Tg)) as Ng.
  destruct (first_leg cape Ng Dr cape_foot cape_goal (Some cape_shore) None 100000 As Ad B1 atan2 ords g A Tg L l r J) as (w & l' & r' & -> & Iw & La & -> & Sa); [vm_compute; intuition discriminate|discriminate|].
  destruct (sailed_far cape Ng cape_foot cape_goal As Ad w l' cape_goal r' Sa (Ng w Iw)) as [Far _].
  rewrite V_1. rewrite Rmax_left by lra. cbn [lc_source lc_dest cape_lc app run].
  assert (U1 : (far (rp cape_foot) (rp cape_corner) <= 11319104)%R) by (apply far_bound; vm_compute; congruence). assert (U2 : (far (rp cape_corner) (rp cape_goal) <= 11211821)%R) by (apply far_bound; vm_compute; congruence).
  assert (Low : (22540000 <= DistFacts.apart cape_foot w + r')%R); [|lra].
  assert (Cy : forall n, 0 <= n -> n * n <= (lon w - lon cape_goal) * (lon w - lon cape_goal) + (lat w - lat cape_goal) * (lat w - lat cape_goal) ->
    n * n <= (lon w - lon (wrap 1 cape_goal)) * (lon w - lon (wrap 1 cape_goal)) + (lat w - lat (wrap 1 cape_goal)) * (lat w - lat (wrap 1 cape_goal)) ->
    n * n <= (lon w - lon (wrap (-1) cape_goal)) * (lon w - lon (wrap (-1) cape_goal)) + (lat w - lat (wrap (-1) cape_goal)) * (lat w - lat (wrap (-1) cape_goal)) -> (IZR n <= r')%R).
  { intros n N H0 H1 H2. eapply Rle_trans; [|exact Far]. unfold cylinder. apply Rmin_glb; [apply apart_at_least; assumption|]. rewrite around_exact. apply Rmin_glb; apply apart_at_least; assumption. }
  specialize (La cape_shore eq_refl). vm_compute in Iw. repeat (destruct Iw as [<-|Iw]); try (vm_compute in La; congruence); [| |destruct Iw].
  - pose proof (Cy 23000000 ltac:(lia) ltac:(vm_compute; congruence) ltac:(vm_compute; congruence) ltac:(vm_compute; congruence)). pose proof (apart_pos cape_foot (mkC (-1000000) (-100000))). lra.
  - pose proof (Cy 22392000 ltac:(lia) ltac:(vm_compute; congruence) ltac:(vm_compute; congruence) ltac:(vm_compute; congruence)).
    assert (148000 <= DistFacts.apart cape_foot (mkC 0 0))%R by (apply apart_at_least; vm_compute; congruence). lra.
Qed.
Print Assumptions C98_shortest_refuted.
Definition as_pcoord (c : coord) : pcoord := mkPC (get_latitude c) (get_longitude c).
Example C98_runs_ex : forall atan2 ords, accurate_atan2 atan2 -> (forall v, library_orders (ords v)) ->
  fresh disk ["out"%string] /\ drawn_shapes (map shape_of cape) cape 10000 /\ Z.of_nat (List.length (polygon_vertices cape)) <= 999998 /\
  exists s' g fuel l, generate_cmd (fun ps v => vis_periodic atan2 (ords v) ps v) (Ok (map shape_of cape)) ["out"%string] disk = (s', Ok tt) /\
    load_graph_from_file 10000 (default_graph_path ["out"%string]) s' = Ok g /\ shore_query atan2 ords cape g (cape_env atan2 ords g) cape_inland cape_goal cape_lc /\
    interpolate_cmd 10000 ["out"%string] (cape_env atan2 ords) fuel (as_pcoord cape_inland) (as_pcoord cape_goal) f_max true s' = Some (Ok (convert (cape_foot :: l))) /\
    exists t, sailed cape cape_foot cape_goal cape_foot l cape_goal t /\ (t <= Rmax 1 (V f_1) * (run (rp cape_foot) [rp cape_corner; rp cape_goal] + 2 * 100000 + 2 * 0) * (1 + / 2000000000))%R.
Proof.
  intros atan2 ords A L. assert (Fr : fresh disk ["out"%string]) by (repeat split).
  assert (Sh : surveyed_shapes (map shape_of cape) cape 10000).
  { destruct (shapes_of_ok cape) as [W E]; [vm_compute; reflexivity|]. destruct cape_views as (F & N & V & _).
    split; [exact W|]. split; [exact E|]. split; [apply read_b_ok; vm_compute; reflexivity|]. split; [exact F|]. split; [exact N|]. split; [exact V|]. split; vm_compute; congruence. }
  assert (Ds : drawn_shapes (map shape_of cape) cape 10000) by (split; [exact Sh|apply cape_drawn]).
  assert (Sz : Z.of_nat (List.length (polygon_vertices cape)) <= 999998) by (vm_compute; congruence). split; [exact Fr|]. split; [exact Ds|]. split; [exact Sz|].
  assert (E1 : vis_coord (as_pcoord cape_inland) = Ok cape_inland) by (vm_compute; reflexivity). assert (E2 : vis_coord (as_pcoord cape_goal) = Ok cape_goal) by (vm_compute; reflexivity).
  destruct (C98_one_run_partial atan2 ords _ _ _ _ _ A L Ds Sz Fr) as (s' & E & g & Eg & H). exists s', g. pose proof (cape_query atan2 ords g L) as Qu. destruct cape_way as (Wa & Nd). destruct cape_beside as [B1 B2].
  destruct (H ords (cape_env atan2 ords) (as_pcoord cape_inland) (as_pcoord cape_goal) cape_inland cape_goal cape_lc 100000%R 0%R f_max 99900000%R E1 E2 Qu B1 B2 Nd cape_reaches) as (n & K).
  exists n. destruct (K n (le_n n)) as [(l & t & R & Sl & Op)|(_ & X)].
  - exists l. split; [exact E|]. split; [exact Eg|]. split; [exact Qu|]. split; [exact R|]. exists t. split; [exact Sl|]. refine (Op f_1 (first_best_minimal f_1) eq_refl _ [rp cape_corner] Wa).
    rewrite V_1, Rabs_R1. change 1%R with (bpow radix2 0). apply bpow_le. lia.
  - exfalso. apply X. eexists. exact Wa.
Qed.
