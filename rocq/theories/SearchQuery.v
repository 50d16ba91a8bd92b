(** Whole queries: land correction, the search graph and the search put together. *)
From Coq Require Import ZArith Reals Bool List Lia Lra Psatz Permutation.
From Flocq Require Import Core.
From Flocq Require Import BinarySingleNaN.
From Verif Require Import Base F64 Coordinate Segment Polygon SpecGeom SpecGraph F64Facts CoordinateFacts SegmentFacts Periodicity PeriodicityFacts
  Graph GraphFacts GraphMore Overlay OverlayFacts Visgraph Sweep SweepFacts SweepMaps SweepCases
  ShortestPath DistFacts SearchFacts SearchSpec SearchGraph.
Import ListNotations.

(** ** Land correction *)
Section Land.
Local Open Scope R_scope.

Lemma apart_axes a b : Rabs (IZR (lon a - lon b)) <= apart a b /\ Rabs (IZR (lat a - lat b)) <= apart a b.
Proof.
  unfold apart. rewrite !minus_IZR. split; rewrite <- sqrt_Rsqr_abs; apply sqrt_le_1_alt;
    [pose proof (Rle_0_sqr (IZR (lat a) - IZR (lat b)))|pose proof (Rle_0_sqr (IZR (lon a) - IZR (lon b)))]; lra.
Qed.

(** with the margin 0 the projection is used as it is *)
Lemma project_exact pr seg c : ngeo c -> ngeo (pr seg c) -> project pr seg c f_0 = Ok (pr seg c).
Proof.
  intros Gc Gp. unfold project. destruct Gp as [P1 P2]. pose proof Gc as [C1 C2].
  destruct (sub_measures (pr seg c) c) as (d & Ed & M); [lia|lia|exact Gc|].
  rewrite coord_sub_ok in * by (unfold INT32_MIN, INT32_MAX; lia). cbn [bind] in *.
  set (diff := mkC (lon (pr seg c) - lon c) (lat (pr seg c) - lat c)) in *.
  assert (Em : magnitude diff = d) by (inversion Ed; reflexivity). rewrite Em. clear Ed.
  destruct (fltb f_1em6 d) eqn:L; [|reflexivity].
  destruct M as (Fd & Bd & Er). pose proof u5_val as U5. pose proof micro_pos as Pm. destruct micro_bounds as [m1 m2].
  destruct micro_val as [V6 F6]. apply (fltb_iff _ _ F6 Fd) in L. rewrite V6 in L.
  assert (Pd : 1 / 2000000 < V d) by lra.
  destruct (apart_axes (pr seg c) c) as [X1 X2]. apply Rabs_le_inv in Er.
  assert (Ap : 0 <= apart (pr seg c) c) by (unfold apart; apply sqrt_pos).
  set (a := apart (pr seg c) c) in *.
  assert (Am : micro * a <= 2 * V d) by nra.
  assert (A6 : a <= 2000002 * V d) by nra.
  destruct (fdiv_correct f_1 d) as [D1 D2]; [vm_compute; reflexivity|lra| |].
  { destruct V_f1 as [-> _]. unfold Rdiv. rewrite Rmult_1_l.
    apply small_le_big. rewrite Rabs_pos_eq by (left; apply Rinv_0_lt_compat; lra). apply Rle_trans with 2000000; [|lra]. rewrite <- (Rinv_inv 2000000). apply Rinv_le_contravar; lra. }
  destruct V_f1 as [V1 _]. rewrite V1 in D1. unfold Rdiv in D1. rewrite Rmult_1_l in D1.
  assert (Pi : 0 < / V d <= 2000000).
  { split; [apply Rinv_0_lt_compat; lra|]. rewrite <- (Rinv_inv 2000000). apply Rinv_le_contravar; lra. }
  assert (Q : 0 <= V (fdiv f_1 d) <= 2 * / V d).
  { rewrite D1. assert (Lo : / 1024 <= / V d) by (apply Rinv_le_contravar; lra).
    pose proof (rnd_error (/ V d)) as Re. rewrite Rabs_pos_eq in Re by lra.
    assert (Nr : bpow radix2 (-1022) <= / V d).
    { eapply Rle_trans; [|exact Lo]. change (/ 1024) with (bpow radix2 (-10)). apply bpow_le. lia. }
    specialize (Re (or_introl Nr)). apply Rabs_le_inv in Re. rewrite u53_val in Re. lra. }
  assert (Fit : forall z, Rabs (IZR z) <= a -> Rabs (IZR z * V (fdiv f_1 d)) <= 2147483647).
  { intros z Hz. rewrite Rabs_mult, (Rabs_pos_eq (V _)) by lra.
    apply Rle_trans with (2000002 * V d * (2 * / V d)).
    - apply Rmult_le_compat; [apply Rabs_pos|lra|lra|lra].
    - replace (2000002 * V d * (2 * / V d)) with (4000004 * (V d * / V d)) by ring. rewrite Rinv_r by lra. lra. }
  unfold coord_div. assert (Di : coord_i32 diff) by (unfold diff, coord_i32; cbn [lon lat]; unfold INT32_MIN, INT32_MAX; lia).
  destruct (coord_mul_total diff (fdiv f_1 d) Di D2 (Fit _ X1) (Fit _ X2)) as (q & Eq). rewrite Eq. cbn [bind].
  destruct (coord_mul_inv _ _ _ Di Eq) as (_ & Iq & _). rewrite (coord_mul_zero q Iq). cbn [bind].
  unfold coord_add. cbn [lon lat]. rewrite !Z.add_0_r, !i32_ok by (unfold INT32_MIN, INT32_MAX; lia). cbn [bind].
  destruct (pr seg c); reflexivity.
Qed.
End Land.

(** ** The endpoints of a query *)
(** where an endpoint is moved to, and the shore it then lies on *)
Definition moved (ix : index) (c c' : coord) (shore : option segment) : Prop :=
  (ix_contains ix c = false /\ c' = c /\ shore = None) \/
  (ix_contains ix c = true /\ exists seg, ix_closest ix c = Ok seg /\ c' = ix_project ix seg c /\ shore = Some seg).

(** for a point on land the spatial index knows a closest segment, and a point of it on the globe *)
Definition index_in_range (ix : index) : Prop :=
  forall c, ngeo c -> ix_contains ix c = true -> exists seg,
    ix_closest ix c = Ok seg /\ ngeo (e1 seg) /\ ngeo (e2 seg) /\ ngeo (ix_project ix seg c).

Lemma correct_endpoint_ok ix c : index_in_range ix -> ngeo c ->
  exists c' shore, correct_endpoint ix (ix_contains ix c) c = Ok (c', shore) /\ moved ix c c' shore.
Proof.
  intros I G. unfold correct_endpoint. destruct (ix_contains ix c) eqn:E.
  - destruct (I c G E) as (seg & Es & _ & _ & Gp). rewrite Es. cbn [bind]. rewrite (project_exact _ _ _ G Gp). cbn [bind].
    do 2 eexists. split; [reflexivity|]. right. split; [exact E|]. exists seg. auto.
  - do 2 eexists. split; [reflexivity|]. left. auto.
Qed.

Lemma land_ok ix s d flag : index_in_range ix -> ngeo s -> ngeo d ->
  (flag = false -> ix_contains ix s || ix_contains ix d = true -> handle_land_collisions ix s d flag = Throw OnLand) /\
  (flag = true \/ (ix_contains ix s = false /\ ix_contains ix d = false) ->
    exists lc, handle_land_collisions ix s d flag = Ok lc /\
      moved ix s (lc_source lc) (lc_source_edge lc) /\ moved ix d (lc_dest lc) (lc_dest_edge lc)).
Proof.
  intros I Gs Gd. unfold handle_land_collisions. split.
  - intros -> ->. reflexivity.
  - intros H. assert (E : negb flag && (ix_contains ix s || ix_contains ix d) = false).
    { destruct H as [->|[-> ->]]; [reflexivity|apply andb_false_r]. }
    rewrite E. destruct (correct_endpoint_ok ix s I Gs) as (s' & es & -> & Ms). destruct (correct_endpoint_ok ix d I Gd) as (d' & ed & -> & Md).
    cbn [bind fst snd]. eexists. split; [reflexivity|]. split; assumption.
Qed.

Lemma land_inv ix s d flag lc : index_in_range ix -> ngeo s -> ngeo d -> handle_land_collisions ix s d flag = Ok lc ->
  moved ix s (lc_source lc) (lc_source_edge lc) /\ moved ix d (lc_dest lc) (lc_dest_edge lc).
Proof.
  intros I Gs Gd E. destruct (land_ok ix s d flag I Gs Gd) as [A B].
  assert (H : flag = true \/ (ix_contains ix s = false /\ ix_contains ix d = false)).
  { destruct flag; [auto|]. destruct (ix_contains ix s) eqn:Es; [rewrite (A eq_refl eq_refl) in E; discriminate E|].
    destruct (ix_contains ix d) eqn:Ed; [rewrite (A eq_refl eq_refl) in E; discriminate E|]. auto. }
  destruct (B H) as (lc' & E' & M). rewrite E in E'. inversion E'; subst. exact M.
Qed.

Lemma moved_ngeo ix c c' e : index_in_range ix -> ngeo c -> moved ix c c' e ->
  ngeo c' /\ forall seg, e = Some seg -> pgeo_seg seg.
Proof.
  intros I G [(_ & -> & ->)|(L & seg & E & -> & ->)].
  - split; [exact G|]. intros seg H. discriminate H.
  - destruct (I c G L) as (seg' & E' & G1 & G2 & G3). rewrite E in E'. inversion E'; subst seg'.
    split; [exact G3|]. intros seg' H. inversion H; subst seg'. unfold ngeo in G1, G2. split; unfold pgeo; lia.
Qed.

(** ** What a query may rely on *)
Definition in_the_map (c : coord) : Prop := (INT32_MIN <= lon c <= INT32_MAX)%Z /\ (Z.abs (lat c) <= 90000000)%Z.
Definition sweep_answers (vis : vis_oracle) : Prop := forall c, ngeo c -> exists points, vis c = Ok points /\
  forall p, In p points -> ngeo (v_coord p) /\ v_across p = false.
Definition fit_for_queries (en : env) (g : graph) : Prop :=
  built g /\ (forall c, In c (get_vertices g) -> ngeo c) /\ row_orders (en_rows en) /\ sweep_answers (en_vis en) /\ index_in_range (en_index en).

(** the sweep that the program uses qualifies *)
Lemma endpoint_vis_answers atan2 ords g : built g -> (forall c, In c (get_vertices g) -> ngeo c) -> (forall c, library_orders (ords c)) ->
  sweep_answers (endpoint_vis atan2 ords g).
Proof.
  intros (ps & h & Un & G) Gv Lo c Gc. unfold endpoint_vis. rewrite (built_polys _ _ _ G). rewrite (built_vertices _ _ _ G) in Gv.
  destruct (sweep_well_formed atan2 (ords c) ps c false (Lo c)) as (res & seen & E & F2 & _ & _ & Hs & Hr).
  { unfold ngeo in Gc. unfold pgeo. lia. }
  { intros v Iv. specialize (Gv v Iv). unfold ngeo in Gv. unfold pgeo. lia. }
  exists res. split; [exact E|]. intros p Ip. destruct (Forall2_in_right _ _ _ _ _ _ F2 Ip) as (v & Iv & Nv & Ac).
  destruct (Hs v Iv) as [Iv' _]. specialize (Gv v Iv'). specialize (Hr p Ip).
  destruct (normalize_coord_ok v) as (x & Ex & Bx & _); [unfold ngeo in Gv; unfold INT32_MIN, INT32_MAX; lia|].
  rewrite Nv in Ex. inversion Ex as [Ep]. split.
  - rewrite Ep in *. unfold ngeo in *. cbn [lon lat] in *. lia.
  - rewrite Ac. destruct (over_meridian v) eqn:O; [|reflexivity]. apply over_meridian_iff in O. unfold ngeo in Gv. lia.
Qed.

Lemma normalize_in_the_map c : in_the_map c -> exists c', normalize_coord c = Ok c' /\ ngeo c'.
Proof.
  intros [A B]. destruct (normalize_coord_ok c A) as (x & E & Bx & _). exists (mkC x (lat c)). split; [exact E|]. unfold ngeo. cbn [lon lat]. lia.
Qed.

(** ** The search graph is always built *)
Lemma connect_endpoint_ok edge c g ps hb m p : grun (make_graph ps) hb = Ok g -> m_base m = g -> v_across p = false ->
  (forall seg, edge = Some seg -> pgeo_seg seg) -> ngeo (v_coord p) ->
  exists m', connect_endpoint edge c m p = Ok m' /\ m_base m' = g.
Proof.
  intros G B A Sh Gp. unfold connect_endpoint.
  assert (K : exists b : bool, match edge with None => Ok true | Some sh => o <- orientation_of_point_to_segment sh (v_coord p) ;; Ok (negb (orientation_eqb o COUNTER_CLOCKWISE)) end = Ok b).
  { destruct edge as [sh|]; [|eauto]. rewrite orientation_pt_ok; [cbn [bind]; eauto|apply Sh; reflexivity|]. unfold ngeo in Gp. unfold pgeo. lia. }
  destruct K as (b & ->). cbn [bind]. destruct b; [|exists m; auto]. rewrite A.
  assert (D : forall m a x, m_base m = g -> exists m', m_add_directed_edge m a x false = (m', Ok tt) /\ m_base m' = g).
  { clear. intros m a x B. unfold m_add_directed_edge. destruct (coord_eqb a x); [exists m; auto|].
    destruct (m_entry (m_touch m a) a x); eexists; (split; [reflexivity|]); cbn [m_set m_base]; rewrite base_touch; exact B. }
  destruct (D m c (v_coord p) B) as (m1 & E1 & B1). destruct (D m1 (v_coord p) c B1) as (m2 & E2 & B2).
  unfold m_add_edge, mthen. rewrite E1. cbn [fst snd]. rewrite E2. exists m2. auto.
Qed.

Lemma add_endpoint_ok vis g ps hb m c edge : grun (make_graph ps) hb = Ok g -> m_base m = g -> sweep_answers vis -> ngeo c ->
  (forall seg, edge = Some seg -> pgeo_seg seg) -> exists m', add_endpoint vis g m (c, edge) = Ok m' /\ m_base m' = g.
Proof.
  intros G B Sw Gc Sh. unfold add_endpoint. cbn [fst snd]. destruct (has_vertex g c); [exists m; auto|].
  destruct (Sw c Gc) as (points & -> & Hp). cbn [bind].
  assert (B1 : m_base (fst (m_add_vertex m c)) = g) by (unfold m_add_vertex; cbn [fst]; destruct (m_has_vertex m c); exact B).
  revert B1. generalize (fst (m_add_vertex m c)). clear B m. induction points as [|p points IH]; intros m B; [exists m; auto|].
  cbn [foldM]. destruct (Hp p (or_introl eq_refl)) as [Gp Ap].
  destruct (connect_endpoint_ok edge c g ps hb m p G B Ap Sh Gp) as (m1 & -> & B1). cbn [bind]. apply IH; [|exact B1]. intros q Iq. apply Hp. right. exact Iq.
Qed.

(** a correction of endpoints as [land_inv] finds it *)
Definition correction_of (en : env) (source destination : coord) (lc : correction) : Prop :=
  exists ns nd, normalize_coord source = Ok ns /\ normalize_coord destination = Ok nd /\
    moved (en_index en) ns (lc_source lc) (lc_source_edge lc) /\ moved (en_index en) nd (lc_dest lc) (lc_dest_edge lc).

Lemma create_ok vis rows g lc : built g -> (forall c, In c (get_vertices g) -> ngeo c) -> row_orders rows -> sweep_answers vis ->
  ngeo (lc_source lc) -> ngeo (lc_dest lc) -> (forall seg, lc_source_edge lc = Some seg -> pgeo_seg seg) -> (forall seg, lc_dest_edge lc = Some seg -> pgeo_seg seg) ->
  exists sg dom, create_modified_graph vis rows g lc = Ok sg /\ usable sg dom /\ In (lc_source lc) dom /\
    forall u v f, joined sg u v /\ sg_crossing sg u v = Ok f <-> road g vis lc u v f.
Proof.
  intros Bg Gv Rw Sw Gs' Gd' Ss Sd. pose proof Bg as (ps & hb & Un & G).
  assert (C : exists sg, create_modified_graph vis rows g lc = Ok sg).
  { unfold create_modified_graph. destruct (has_vertex g (lc_source lc) && has_vertex g (lc_dest lc)); [eauto|]. cbn [foldM].
    destruct (add_endpoint_ok vis g ps hb (make_mgraph g) (lc_source lc) (lc_source_edge lc) G eq_refl Sw Gs' Ss) as (m1 & -> & B1). cbn [bind].
    destruct (add_endpoint_ok vis g ps hb m1 (lc_dest lc) (lc_dest_edge lc) G B1 Sw Gd' Sd) as (m2 & -> & B2). cbn [bind]. eauto. }
  destruct C as (sg & C). exists sg.
  destruct (created_graph g ps hb Un G vis rows lc Rw sg) as (dom & U & Is & R); [|exact C|].
  - intros c I. unfold query_vertices in I. apply in_app_or in I. destruct I as [I|I]; [apply Gv; rewrite (built_vertices _ _ _ G); exact I|].
    apply in_app_or in I. destruct I as [[<-|[<-|[]]]|I]; [exact Gs'|exact Gd'|]. apply in_flat_map in I. destruct I as (x & Ix' & I).
    assert (Gx : ngeo x) by (destruct Ix' as [<-|[<-|[]]]; assumption). destruct (Sw x Gx) as (points & Ep & Hp). rewrite Ep in I.
    apply in_map_iff in I. destruct I as (p & <- & Ip). apply Hp. exact Ip.
  - exists dom. auto.
Qed.

Lemma search_graph_ok en g source destination lc : fit_for_queries en g -> in_the_map source -> in_the_map destination ->
  correction_of en source destination lc ->
  ngeo (lc_source lc) /\ ngeo (lc_dest lc) /\
  exists sg dom, create_modified_graph (en_vis en) (en_rows en) g lc = Ok sg /\ usable sg dom /\ In (lc_source lc) dom /\
    forall u v f, joined sg u v /\ sg_crossing sg u v = Ok f <-> road g (en_vis en) lc u v f.
Proof.
  intros (Bg & Gv & Rw & Sw & Ix) Ms Md (ns & nd & Es & Ed & Vs & Vd).
  destruct (normalize_in_the_map source Ms) as (ns' & Es' & Gs). rewrite Es in Es'. inversion Es'; subst ns'.
  destruct (normalize_in_the_map destination Md) as (nd' & Ed' & Gd). rewrite Ed in Ed'. inversion Ed'; subst nd'.
  destruct (moved_ngeo _ _ _ _ Ix Gs Vs) as [Gs' Ss]. destruct (moved_ngeo _ _ _ _ Ix Gd Vd) as [Gd' Sd].
  split; [exact Gs'|]. split; [exact Gd'|]. apply create_ok; assumption.
Qed.

(** what a query does once the endpoints are known *)
Lemma query_cases en g source destination radius flag : fit_for_queries en g -> in_the_map source -> in_the_map destination ->
  exists ns nd, normalize_coord source = Ok ns /\ normalize_coord destination = Ok nd /\ ngeo ns /\ ngeo nd /\
  match handle_land_collisions (en_index en) ns nd flag with
  | Ok lc => correction_of en source destination lc /\
     ((other_crossings (en_index en) lc = [] /\ forall fu, shortest_path fu en g source destination radius flag = Some (Ok [lc_source lc; lc_dest lc])) \/
      (other_crossings (en_index en) lc <> [] /\ exists sg dom,
         usable sg dom /\ In (lc_source lc) dom /\ ngeo (lc_dest lc) /\
         (forall u v f, joined sg u v /\ sg_crossing sg u v = Ok f <-> road g (en_vis en) lc u v f) /\
         forall fu, shortest_path fu en g source destination radius flag = search_path fu (en_pick en) sg (lc_source lc) (lc_dest lc) radius))
  | Throw e => e = OnLand /\ flag = false /\ ix_contains (en_index en) ns || ix_contains (en_index en) nd = true /\
      forall fu, shortest_path fu en g source destination radius flag = Some (Throw OnLand)
  | UB _ => False
  end.
Proof.
  intros F Ms Md. pose proof F as (_ & _ & _ & _ & Ix).
  destruct (normalize_in_the_map source Ms) as (ns & Es & Gs). destruct (normalize_in_the_map destination Md) as (nd & Ed & Gd).
  exists ns, nd. split; [exact Es|]. split; [exact Ed|]. split; [exact Gs|]. split; [exact Gd|].
  destruct (land_ok (en_index en) ns nd flag Ix Gs Gd) as [A B].
  destruct (negb flag && (ix_contains (en_index en) ns || ix_contains (en_index en) nd)) eqn:T.
  - apply andb_prop in T. destruct T as [T1 T2]. apply negb_true_iff in T1. rewrite (A T1 T2). repeat (split; [assumption || reflexivity|]).
    intros fu. unfold shortest_path. rewrite Es, Ed. cbn [bind]. rewrite (A T1 T2). reflexivity.
  - assert (H : flag = true \/ (ix_contains (en_index en) ns = false /\ ix_contains (en_index en) nd = false)).
    { destruct flag; [auto|]. cbn [negb andb] in T. apply orb_false_iff in T. auto. }
    destruct (B H) as (lc & El & Mv). rewrite El. assert (Co : correction_of en source destination lc) by (exists ns, nd; tauto).
    split; [exact Co|]. destruct (other_crossings (en_index en) lc) as [|x xs] eqn:Oc.
    + left. split; [reflexivity|]. intros fu. unfold shortest_path. rewrite Es, Ed. cbn [bind]. rewrite El. cbn [bind]. rewrite Oc. reflexivity.
    + right. split; [discriminate|]. destruct (search_graph_ok en g source destination lc F Ms Md Co) as (_ & Gd' & sg & dom & C & U & Is & R).
      exists sg, dom. repeat (split; [assumption|]). intros fu. unfold shortest_path. rewrite Es, Ed. cbn [bind]. rewrite El. cbn [bind]. rewrite Oc, C. reflexivity.
Qed.
