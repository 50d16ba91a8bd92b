(** C99: a leg around the world is as long as the line through open water that it stands for. *)
From Verif Require Import Jordan.
From Coq Require Import ZArith Reals Bool List Lia Lra Permutation String.
From Flocq Require Import Core BinarySingleNaN.
From Verif Require Import PyLayer PyFacts Base F64 Coordinate Segment Polyline Polygon Periodicity Graph Visgraph VisgraphFacts SpecGeom SpecGraph F64Facts CoordinateFacts PolylineFacts
  PolygonMore GraphFacts GraphMore Serializer SerializerMore Sweep SweepFacts SweepMaps SweepGen SweepCases AngleFacts AngleSort SweepOpen SweepOrder SweepGeo SweepSound SweepExact SweepGraph SweepHalfGraph SweepLayers SweepWorld SweepForced SweepHashOrder
  ShortestPath DistFacts SearchFacts SearchSpec SearchGraph SearchQuery PathFacts PathMore FreePaths BlockedLegs OpenWater SweepFronts SeaLines SurveyCheck SurveyFast Coasts CoastExact CoastCheck Pipeline PipelineFacts PipelineFree PipelineOpen PipelineSea CoastRun Around
  Props_Sweep Props_Path Props_Python Props_Pipeline Props_Exact Props_EndToEnd Props_Open Props_OpenRun Props_Sea Props_Coast.
Import ListNotations.
Local Open Scope Z_scope.

(** C99.  The length given to an edge which is marked as crossing the meridian is at most that of a line around the world
    through open water, and equal to it unless that line goes more than once around the world.
    Missing: in the other case the line that is measured need not be open (false, below). *)
Theorem C99_length_partial : forall atan2 ords ps g, surveyed atan2 ords ps g -> drawn ps ->
  forall u v, has_edge g u v = Ok true -> is_edge_meridian_crossing g u v = Ok true ->
  exists d r k, distance_measurement u v true = Ok d /\ measures d r /\ (k = 1 \/ k = -1) /\ open_line ps u (wrap k v) /\
    (r <= apart u (wrap k v))%R /\ (Z.abs (lon u - lon (wrap k v)) <= girth -> r = apart u (wrap k v)).
Proof.
  intros atan2 ords ps g Su Dr u v He Hc. destruct (surveyed_true _ _ _ _ Su Dr) as (F & _ & _ & _ & H).
  destruct (proj1 (H u v true)) as (A & B & D & _ & k & K & O); [unfold answer; rewrite He, Hc; reflexivity|].
  destruct (distance_ok true u v) as (d & E & M); [apply (clear_ngeo ps), A; exact F|apply (clear_ngeo ps), B; exact F|]. exists d, (edge_length true u v), k. destruct (around_measured u v k K) as [Le Q].
  split; [exact E|]. split; [exact M|]. split; [exact K|]. split; [exact O|]. split; [exact Le|]. intros L. destruct Q as [Q|Q]; [exact Q|lia].
Qed.
Print Assumptions C99_length_partial.
(** if some land reaches as far north and as far south as both ends, and is not as wide as they are apart, then the length
    is that of a line through open water which goes around at most once *)
Theorem C99_barrier_partial : forall atan2 ords ps g, surveyed atan2 ords ps g -> drawn ps ->
  forall u v P, has_edge g u v = Ok true -> is_edge_meridian_crossing g u v = Ok true ->
  In P ps -> spans P u v -> narrower P (Z.abs (lon u - lon v)) ->
  exists d k, distance_measurement u v true = Ok d /\ measures d (apart u (wrap k v)) /\ (k = 1 \/ k = -1) /\ open_line ps u (wrap k v) /\ Z.abs (lon u - lon (wrap k v)) <= girth.
Proof.
  intros atan2 ords ps g Su Dr u v P He Hc HP Sp Na. destruct (C99_length_partial _ _ _ _ Su Dr u v He Hc) as (d & r & k & E & M & K & O & Le & Q).
  assert (F : Forall clear_polygon ps) by apply Su. pose proof (fun c => clear_ngeo ps c F) as G. assert (Gp : forall c, In c (verts P) -> ngeo c) by (intros c I; apply G, in_polygon_vertices; eauto).
  assert (N3 : (3 <= List.length (verts P))%nat) by (rewrite Forall_forall in F; apply (clear_polygon_facts P), F, HP).
  destruct (surveyed_true _ _ _ _ Su Dr) as (_ & _ & _ & _ & H). destruct (proj1 (H u v true)) as (A & B & D & _); [unfold answer; rewrite He, Hc; reflexivity|]. pose proof (G u A) as Gu. pose proof (G v B) as Gv.
  destruct (Z_le_gt_dec (Z.abs (lon u - lon (wrap k v))) girth) as [L|L]; [exists d, k; rewrite <- (Q L); auto|]. exfalso.
  destruct K as [ -> | -> ]; unfold girth, wrap in L; cbn [lon] in L; destruct Gu as [Gu _], Gv as [Gv _].
  - revert O. apply (not_around ps P HP N3 Gp); [apply G, A|apply G, B|exact Sp|]. replace (lon v - lon u) with (Z.abs (lon u - lon v)) by lia. exact Na.
  - apply open_sym in O. change (- -1) with 1 in O. revert O. apply (not_around ps P HP N3 Gp); [apply G, B|apply G, A| |replace (lon u - lon v) with (Z.abs (lon u - lon v)) by lia; exact Na].
    destruct Sp as ((c & C1 & C2 & C3) & (c' & C4 & C5 & C6)). split; [exists c|exists c']; auto.
Qed.
Print Assumptions C99_barrier_partial.

Definition east := mkC 170000000 0.
Definition west := mkC (-170000000) 10000000.
Definition east_isle := mkP [east; mkC 168000000 (-3000000); mkC 172000000 (-3100000)].
Definition west_isle := mkP [west; mkC (-168000000) 13000000; mkC (-172000000) 13100000].
(** a long island from south to north on the other side of the world *)
Definition long_isle := mkP [mkC (-1000000) (-50000000); mkC 1100000 (-49900000); mkC 100000 50000000].
Definition dyke := [east_isle; west_isle; long_isle].
(** a small island there, and one between the two *)
Definition gyre := [east_isle; west_isle; mkP [mkC (-1000000) 4200000; mkC 1000000 4100000; mkC 100000 6000000]; mkP [mkC 174000000 1500000; mkC 176000000 1600000; mkC 175100000 4000000]].
Definition survey_b (ps : list polygon) : bool :=
  nodup_b (polygon_vertices ps) && forallb fair_b ps && roomy_b (map_copies ps) && forallb (fun o => ordered_view_f true o (map_copies ps)) (polygon_vertices ps).
Lemma survey_b_ok atan2 ords ps : accurate_atan2 atan2 -> (forall v, library_orders (ords v)) -> (forall P, In P ps -> make_polygon (verts P) = Ok P) -> survey_b ps = true -> exists g, surveyed atan2 ords ps g.
Proof.
  unfold survey_b. rewrite !andb_true_iff, !forallb_forall. intros A L W (((C1 & C2) & C3) & C4).
  assert (F : Forall clear_polygon ps) by (apply Forall_forall; intros P HP; apply fair_b_ok; auto).
  pose proof (periodic_reports atan2 ords ps L (fun c => clear_ngeo ps c F)) as R. destruct (generate_ok ps _ R) as (g & E & _). exists g. repeat (split; [assumption|]).
  split; [apply nodup_b_ok, C1|]. split; [intros o O; apply ordered_view_f_ok; [exact C3|apply C4, O]|exact E].
Qed.
(** the two islands are joined around the world, past the long island *)
Example C99_ex : forall atan2 ords, accurate_atan2 atan2 -> (forall v, library_orders (ords v)) ->
  exists g, surveyed atan2 ords dyke g /\ drawn dyke /\ has_edge g east west = Ok true /\ is_edge_meridian_crossing g east west = Ok true /\
    In long_isle dyke /\ spans long_isle east west /\ narrower long_isle (Z.abs (lon east - lon west)) /\ Z.abs (lon east - lon (wrap 1 west)) <= girth.
Proof.
  intros atan2 ords A L. destruct (survey_b_ok atan2 ords dyke A L) as (g & Su); [intros P HP; repeat (destruct HP as [<-|HP]; [vm_compute; reflexivity|]); destruct HP|vm_compute; reflexivity|].
  assert (Dr : drawn dyke) by (apply drawn_b_ok; vm_compute; reflexivity). exists g. split; [exact Su|]. split; [exact Dr|].
  assert (F : Forall clear_polygon dyke) by apply Su. pose proof (fun c => clear_ngeo dyke c F) as G.
  destruct (C94_graph_partial _ _ _ _ Su Dr east west) as [H1 H2]; [vm_compute; tauto|vm_compute; tauto|discriminate|].
  assert (He : has_edge g east west = Ok true) by (apply H1; exists 1; split; [lia|apply open_around; [exact G|vm_compute; congruence..|vm_compute; reflexivity]]).
  split; [exact He|]. split.
  - apply H2; [exact He|]. intros X. assert (W : sea_way dyke east west); [left|revert W; apply no_way_b_ok; vm_compute; reflexivity].
    apply C92_open; [discriminate|intros P HP; repeat (destruct HP as [<-|HP]; [vm_compute; lia|]); destruct HP|apply Su|exact X].
  - split; [vm_compute; tauto|]. split; [split; [exists (mkC 100000 50000000)|exists (mkC (-1000000) (-50000000))]; (split; [vm_compute; tauto|split; vm_compute; congruence])|]. split; [|vm_compute; congruence].
    intros c c' I I'. cbn in I, I'. repeat (destruct I as [<-|I]; [repeat (destruct I' as [<-|I']; [reflexivity|]); destruct I'|]). destruct I.
Qed.

(** ** False of the code *)
Lemma gyre_leg : forallb (fun w => coord_eqb w east || coord_eqb w west || (22360682 <? reach east w + reach w west)) (polygon_vertices gyre) = true.
Proof. vm_compute. reflexivity. Qed.
(** the two islands are joined by a line almost twice around the world, and by no other; the edge is given the length of
    the short line, across the island between them, and the path between the two is that edge *)
Theorem C99_length_refuted : forall atan2 ords, accurate_atan2 atan2 -> (forall v, library_orders (ords v)) ->
  exists ps g en u v d fuel, surveyed atan2 ords ps g /\ drawn ps /\ coast_query atan2 ords ps g en u v u v /\ minimal f_1 (en_pick en) /\
    has_edge g u v = Ok true /\ is_edge_meridian_crossing g u v = Ok true /\
    distance_measurement u v true = Ok d /\ (V d < 23)%R /\
    (forall k, -1 <= k <= 1 -> open_line ps u (wrap k v) -> (700000000 <= apart u (wrap k v))%R) /\
    shortest_path fuel en g u v f_max true = Some (Ok [u; v]).
Proof.
  intros atan2 ords A L. destruct (survey_b_ok atan2 ords gyre A L) as (g & Su); [intros P HP; repeat (destruct HP as [<-|HP]; [vm_compute; reflexivity|]); destruct HP|vm_compute; reflexivity|].
  assert (Dr : drawn gyre) by (apply drawn_b_ok; vm_compute; reflexivity).
  assert (F : Forall clear_polygon gyre) by apply Su. pose proof (fun c => clear_ngeo gyre c F) as G. assert (Nd : NoDup (polygon_vertices gyre)) by apply Su.
  assert (I1 : In east (polygon_vertices gyre)) by (vm_compute; tauto). assert (I2 : In west (polygon_vertices gyre)) by (vm_compute; tauto). assert (Ne : east <> west) by discriminate.
  destruct (C94_graph_partial _ _ _ _ Su Dr east west I1 I2 Ne) as [H1 H2].
  assert (O1 : open_line gyre east (wrap (-1) west)) by (apply open_around; [exact G|vm_compute; congruence..|vm_compute; reflexivity]).
  assert (Sl : forall k, k = 0 \/ k = 1 -> ~ open_line gyre east (wrap k west)).
  { intros k K X. assert (W : sea_way gyre east (wrap k west)); [left|revert W; apply no_way_b_ok; destruct K as [ -> | -> ]; vm_compute; reflexivity].
    apply C92_open; [intros Y; apply (f_equal lat) in Y; discriminate Y|intros P HP; repeat (destruct HP as [<-|HP]; [vm_compute; lia|]); destruct HP|exact Nd|exact X]. }
  assert (No : ~ open_line gyre east west) by (rewrite <- (wrap_0 west); apply Sl; left; reflexivity).
  assert (He : has_edge g east west = Ok true) by (apply H1; exists (-1); split; [lia|exact O1]). assert (Hc : is_edge_meridian_crossing g east west = Ok true) by (apply H2; assumption).
  destruct (distance_ok true east west (G _ I1) (G _ I2)) as (d & Ed & Md).
  assert (Cq : coast_query atan2 ords gyre g (bay_env atan2 ords g) east west east west).
  { split; [|split; (split; [apply G; assumption|left; assumption])]. split; [exact L|]. split; [reflexivity|]. split; [intros v l; reflexivity|]. split; [intros c _ X; discriminate X|].
    split; [repeat split; vm_compute; congruence|]. split; [repeat split; vm_compute; congruence|]. split; [vm_compute; reflexivity|]. split; [vm_compute; reflexivity|].
    split; [apply G, I1|]. split; [apply G, I2|]. split; [reflexivity|]. split; [reflexivity|discriminate]. }
  assert (Mi : minimal f_1 (en_pick (bay_env atan2 ords g))) by apply first_best_minimal.
  (* the length of the short line *)
  assert (Rt : forall k y, 0 <= y -> (lon east - lon (wrap k west)) * (lon east - lon (wrap k west)) + (lat east - lat west) * (lat east - lat west) <= y * y -> (apart east (wrap k west) <= IZR y)%R).
  { intros k y Y H. rewrite apart_lon. rewrite <- (sqrt_square (IZR y)) by (apply IZR_le, Y). rewrite <- mult_IZR. apply sqrt_le_1_alt, IZR_le, H. }
  assert (Sh : (edge_length true east west <= 22360681)%R) by (rewrite around_exact; eapply Rle_trans; [apply Rmin_l|]; apply Rt; vm_compute; congruence).
  assert (Way : sailed gyre east west east [west] west (edge_length true east west + 0)%R).
  { rewrite around_exact. apply (sailed_around gyre east west east west (-1)); auto. constructor. }
  assert (Wi : Forall (within east f_max) [west]) by (apply all_within0; [apply G, I1|repeat constructor; apply G, I2]).
  destruct (C95_found_partial atan2 ords ords gyre g (bay_env atan2 ords g) east west east west f_max true Su Dr Cq) as (n & Hf). destruct (Hf n (le_n n)) as [[_ Hp] _]. destruct Hp as (path & Ep); [eauto|].
  exists gyre, g, (bay_env atan2 ords g), east, west, d, n. split; [exact Su|]. split; [exact Dr|]. split; [exact Cq|]. split; [exact Mi|]. split; [exact He|]. split; [exact Hc|]. split; [exact Ed|]. split.
  { destruct Md as (_ & _ & Md). apply Rabs_le_inv in Md. rewrite u5_val in Md. unfold micro in Md. rewrite bpow_m72 in Md. pose proof (edge_length_pos true east west). lra. }
  split.
  { intros k K O. destruct (Z.eq_dec k (-1)) as [ -> |]; [|elim (Sl k); [lia|exact O]]. rewrite apart_lon. rewrite <- (sqrt_square 700000000) by lra. apply sqrt_le_1_alt. rewrite <- mult_IZR. apply IZR_le. vm_compute. congruence. }
  (* no other path is as short *)
  pose proof Cq as (Sq & _). pose proof (surveyed_true _ _ _ _ Su Dr) as Tg. pose proof (true_complete _ _ Tg) as Co. pose proof (sea_fit _ _ _ _ _ _ _ _ _ Co Sq) as Fit. pose proof Sq as (_ & _ & _ & _ & Ms & Md' & _).
  assert (Gd : forall c, In c (polygon_vertices gyre) \/ c = east \/ c = west -> ngeo c) by (intros c [C|[ -> | -> ]]; apply G; assumption).
  assert (Nod : NoDup path /\ (List.length path <= 12)%nat).
  { destruct (query_path (bay_env atan2 ords g) g east west f_max true Fit Ms Md' n path Ep) as (lc & Cl & K).
    assert (lc = mkLC east west None None) as -> by exact (correction_unique _ _ _ _ _ Cl (sea_correction _ _ _ _ _ _ _ _ Sq)).
    destruct K as [(X & _)|(_ & l & r & -> & N & J)]; [elim X; exact (sea_searched _ _ _ _ _ _ _ _ Sq)|]. split; [exact N|].
    apply (cq_journey _ _ _ _ _ _ _ _ _ A Tg Dr Cq) in J. cbn [lc_source lc_dest] in *. change 12%nat with (List.length (polygon_vertices gyre)). apply NoDup_incl_length; [exact N|].
    intros x [<-|I]; [exact I1|]. destruct (sailed_places _ _ _ _ _ _ _ J x I) as [V|[ -> | -> ]]; assumption. }
  destruct Nod as [Np Lp].
  destruct (C95_shortest_partial _ _ _ _ _ _ _ _ _ _ f_max true n path f_1 Su Dr Cq Ep) as (l & r & -> & J & Best); [lia|exact Mi|reflexivity| |].
  { rewrite (proj1 V_f1), Rabs_R1. change 1%R with (bpow radix2 0). apply bpow_le. lia. }
  specialize (Best _ _ Way Wi ltac:(vm_compute; congruence)). rewrite (proj1 V_f1), Rmax_left in Best by lra.
  assert (Br : (r < 22360682)%R) by lra. rewrite Ep. f_equal. f_equal. f_equal.
  assert (Split : exists w l' q, l = w :: l' /\ sailed gyre east west w l' west q /\ (cylinder east w + q <= r)%R /\ In w (polygon_vertices gyre)).
  { inversion J as [|a w l' t q O D P1 P2 P3 J'|a w k l' t q K O N D P1 P2 J']; subst.
    - exists w, l', q. split; [reflexivity|]. split; [exact J'|]. split; [|destruct P2 as [V|[ -> | -> ]]; assumption]. pose proof (cylinder_edge false east w) as E. cbn [edge_length] in E. lra.
    - exists w, l', q. split; [reflexivity|]. split; [exact J'|]. split; [|exact P2]. pose proof (cylinder_edge true east w) as E. rewrite around_exact in E. lra. }
  destruct Split as (w & l' & q & -> & J' & Lq & Iw). destruct (sailed_reach _ _ _ _ _ _ _ Gd J' (G _ Iw)) as [Lr _].
  pose proof gyre_leg as C. rewrite forallb_forall in C. specialize (C w Iw). rewrite !orb_true_iff, !coord_eqb_spec, Z.ltb_lt in C. destruct C as [[ -> | -> ]|C].
  - inversion Np as [|x y Nx _]; subst. elim Nx. left. reflexivity.
  - f_equal. destruct l' as [|x l']; [reflexivity|]. pose proof (sailed_last _ _ _ _ _ _ _ J' ltac:(discriminate)) as Iw'. inversion Np as [|? ? _ Np']; subst. inversion Np' as [|? ? Nx _]; subst. contradiction.
  - exfalso. pose proof (reach_ok east w). pose proof (reach_ok w west). apply IZR_lt in C. rewrite plus_IZR in C. lra.
Qed.
Print Assumptions C99_length_refuted.
