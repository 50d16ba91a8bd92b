(** Endpoints moved exactly onto an edge.  No code is modelled here. *)
From Coq Require Import ZArith Reals Bool List Lia Lra Permutation.
From Verif Require Import Base F64 Coordinate Segment Polyline Polygon Periodicity Graph Visgraph SpecGeom SpecGraph SegmentFacts CoordinateFacts GraphFacts PolylineFacts
  Sweep SweepFacts SweepMaps SweepGen SweepGeo SweepSound Boundary PeriodicityFacts GraphMore VisgraphFacts SweepCases SweepLayers ShortestPath SearchFacts SearchSpec SearchGraph SearchQuery PathFacts.
Import ListNotations.
Local Open Scope Z_scope.

(** [o] is a point of the edge [e], not an end of it, and the edge is not level *)
Definition ashore (e : segment) (o : coord) : Prop :=
  turn (e1 e) (e2 e) o = 0 /\ (lat (e1 e) < lat o < lat (e2 e) \/ lat (e2 e) < lat o < lat (e1 e)).
(** every other edge keeps a micro-degree away from [o] *)
Definition aloof (ps : list polygon) (e : segment) (o : coord) : Prop :=
  forall s x y, polygon_edge ps s -> s <> e -> on_real s x y -> (1 <= Rabs (x - IZR (lon o)) \/ 1 <= Rabs (y - IZR (lat o)))%R.

Section Onto.
Variables (ps : list polygon) (e : segment) (o : coord).
Hypotheses (G : forall c, In c (polygon_vertices ps) -> pgeo c) (On : ngeo o) (Nd : NoDup (polygon_vertices ps)).
Hypotheses (Pe : polygon_edge ps e) (As : ashore e o) (Al : aloof ps e o).

Lemma O : pgeo o.
Proof. unfold pgeo. unfold ngeo in On. lia. Qed.
Lemma share a n : (0 < n -> 0 <= a <= n -> 0 <= a / n <= 1)%R.
Proof.
  intros N A. assert (I : (0 < / n)%R) by (apply Rinv_0_lt_compat, N). split; [apply Rmult_le_pos; lra|]. apply Rmult_le_reg_r with n; [exact N|]. unfold Rdiv. rewrite Rmult_assoc, Rinv_l by lra. lra.
Qed.
Lemma on_edge : on_real e (IZR (lon o)) (IZR (lat o)).
Proof.
  destruct As as [Tu Bt]. set (a := lat o - lat (e1 e)). set (n := lat (e2 e) - lat (e1 e)).
  assert (Nn : IZR n <> 0%R) by (intros X; apply (eq_IZR n 0) in X; subst n; lia).
  exists (IZR a / IZR n)%R. split; [|split].
  - destruct Bt as [Bt|Bt].
    + apply share; [apply (IZR_lt 0); subst n; lia|]. split; [apply (IZR_le 0)|apply IZR_le]; subst a n; lia.
    + replace (IZR a / IZR n)%R with (IZR (- a) / IZR (- n))%R by (rewrite !opp_IZR; field; exact Nn). apply share; [apply (IZR_lt 0); subst n; lia|]. split; [apply (IZR_le 0)|apply IZR_le]; subst a n; lia.
  - apply (Rmult_eq_reg_r (IZR n)); [|exact Nn]. replace (((1 - IZR a / IZR n) * IZR (lon (e1 e)) + IZR a / IZR n * IZR (lon (e2 e))) * IZR n)%R with ((IZR n - IZR a) * IZR (lon (e1 e)) + IZR a * IZR (lon (e2 e)))%R by (field; exact Nn).
    rewrite <- minus_IZR, <- !mult_IZR, <- plus_IZR. f_equal. unfold turn in Tu. subst a n. lia.
  - apply (Rmult_eq_reg_r (IZR n)); [|exact Nn]. replace (((1 - IZR a / IZR n) * IZR (lat (e1 e)) + IZR a / IZR n * IZR (lat (e2 e))) * IZR n)%R with ((IZR n - IZR a) * IZR (lat (e1 e)) + IZR a * IZR (lat (e2 e)))%R by (field; exact Nn).
    rewrite <- minus_IZR, <- !mult_IZR, <- plus_IZR. f_equal. subst a n. ring.
Qed.
Lemma not_end : o <> e1 e /\ o <> e2 e.
Proof. destruct As as [_ Bt]. split; intros ->; lia. Qed.
Lemma e_pgeo : pgeo_seg e.
Proof. exact (edge_pgeo ps e G Pe). Qed.
Lemma no_flip s : polygon_edge ps s -> segment_eqb e s = true -> s = e.
Proof.
  intros P H. apply segment_eqb_iff in H. destruct H as [H|H]; [exact H|]. assert (Sd : {s = e} + {s <> e}) by (decide equality; apply coord_dec). destruct Sd as [E|N]; [exact E|]. exfalso.
  assert (R : on_real s (IZR (lon o)) (IZR (lat o))).
  { destruct on_edge as (t & T & A & B). exists (1 - t)%R. rewrite H. unfold flip. cbn [e1 e2]. split; [lra|]. split; [rewrite A|rewrite B]; ring. }
  destruct (Al s _ _ P N R) as [X|X]; unfold Rminus in X; rewrite Rplus_opp_r, Rabs_R0 in X; lra.
Qed.

(** where the edge itself is met, and the others *)
Lemma meets_here v : pgeo v -> nonparallel e (mkS o v) -> intersection_with_segment e (mkS o v) = Ok (Some o).
Proof.
  intros Gv N. assert (Go : pgeo_seg (mkS o v)) by (split; [exact O|assumption]). destruct (intersection_detection e (mkS o v) e_pgeo Go N) as (r & R & M).
  assert (Mt : segments_meet e (mkS o v)).
  { destruct As as [Tu Bt]. unfold turn in Tu. destruct Bt as [Bt|Bt].
    - exists (lat (e2 e) - lat (e1 e)), (lat o - lat (e1 e)), 0. cbn [e1 e2]. repeat split; try lia.
    - exists (lat (e1 e) - lat (e2 e)), (lat (e1 e) - lat o), 0. cbn [e1 e2]. repeat split; try lia. }
  apply M in Mt. destruct r as [r|]; [|congruence].
  destruct (intersection_accuracy e (mkS o v) r e_pgeo Go N R) as (x & y & _ & _ & Un & _ & _ & Jx & Jy & _).
  destruct (Un (IZR (lon o)) (IZR (lat o))) as [Ex Ey]; [exact on_edge|exists 0%R; cbn [e1 e2]; split; [lra|split; ring]|].
  rewrite R. do 2 f_equal. apply coord_ext; [apply Jx; auto|apply Jy; auto].
Qed.
Lemma meets_off s v r : polygon_edge ps s -> s <> e -> pgeo v -> intersection_with_segment s (mkS o v) = Ok (Some r) -> r <> o.
Proof.
  intros P Ne Gv R E. subst r. pose proof (edge_pgeo ps s G P) as Gs. assert (Go : pgeo_seg (mkS o v)) by (split; [exact O|assumption]).
  destruct (Z.eq_dec (seg_det s (mkS o v)) 0) as [D|D].
  - destruct (intersection_parallel_full s (mkS o v) Gs Go) as (r & R' & H & _); [intros X; apply X, D|]. rewrite R in R'. injection R' as <-. destruct (H o eq_refl) as (_ & _ & [C _]).
    assert (Rl : on_real s (IZR (lon o)) (IZR (lat o))) by (destruct C as [ -> | -> ]; [exists 0%R|exists 1%R]; (split; [lra|]; split; ring)).
    destruct (Al s _ _ P Ne Rl) as [X|X]; unfold Rminus in X; rewrite Rplus_opp_r, Rabs_R0 in X; lra.
  - destruct (intersection_accuracy s (mkS o v) o Gs Go D R) as (x & y & Os & _ & _ & A1 & A2 & _). rewrite Rabs_minus_sym in A1, A2.
    destruct (Al s x y P Ne Os) as [X|X]; lra.
Qed.

(** the edge is the nearest *)
Definition walled (oe : open_edges) : Prop := exists l, oe_sorted oe = (0, e) :: l.
Definition all_off (oe : open_edges) : Prop := forall d s, In (d, s) (oe_sorted oe) -> 0 < d.
Lemma emplace_in d s l d' s' : In (d', s') (emplace d s l) -> (d' = d /\ s' = s) \/ In (d', s') l.
Proof.
  induction l as [|[d1 s1] l IH]; cbn [emplace]; [intros [X|[]]; injection X as <- <-; auto|]. destruct (d <? d1); [intros [X|X]; [injection X as <- <-; auto|auto]|].
  destruct (d =? d1); [auto|]. intros [X|X]; [right; left; exact X|]. destruct (IH X) as [H|H]; [auto|right; right; exact H].
Qed.
Lemma add_off oe d s : all_off oe -> 0 < d -> all_off (oe_add oe d s).
Proof. intros A D d' s' I. cbn [oe_add oe_sorted] in I. destruct (emplace_in _ _ _ _ _ I) as [[-> _]|I']; [exact D|exact (A _ _ I')]. Qed.
Lemma add_wall oe : all_off oe -> walled (oe_add oe 0 e).
Proof.
  intros A. unfold walled. cbn [oe_add oe_sorted]. unfold all_off in A. destruct (oe_sorted oe) as [|[d s] l]; cbn [emplace]; [eauto|].
  pose proof (A d s (or_introl eq_refl)). destruct (0 <? d) eqn:E; [eauto|]. apply Z.ltb_ge in E. lia.
Qed.
Lemma add_walled oe d s : walled oe -> 0 <= d -> walled (oe_add oe d s).
Proof.
  intros [l E] D. unfold walled. cbn [oe_add oe_sorted]. rewrite E. cbn [emplace]. destruct (d <? 0) eqn:X; [apply Z.ltb_lt in X; lia|]. destruct (d =? 0); eauto.
Qed.
Lemma remove_walled oe s : walled oe -> segment_eqb e s = false -> walled (oe_remove oe s).
Proof.
  intros [l E] D. unfold walled, oe_remove. destruct (get_distance s (oe_dist oe)) as [d|]; [|eauto]. cbn [oe_sorted]. rewrite E. cbn [erase_sorted]. rewrite D, andb_false_r. eauto.
Qed.
Lemma key_of r d w : coord_sub r o = Ok w -> magnitude_squared_md w = Ok d -> pgeo r -> d = dist2 o r.
Proof. intros E1 E2 Gr. destruct (msq_pgeo r o Gr O) as (d' & E & ->). rewrite E1 in E. cbn [bind] in E. rewrite E2 in E. injection E as ->. reflexivity. Qed.
Lemma dist_pos r : r <> o -> 0 < dist2 o r.
Proof.
  intros N. unfold dist2. pose proof (Z.square_nonneg (lon r - lon o)) as A. pose proof (Z.square_nonneg (lat r - lat o)) as B.
  destruct (Z.eq_dec (lon r) (lon o)) as [E1|E1]; [destruct (Z.eq_dec (lat r) (lat o)) as [E2|E2]; [elim N; apply coord_ext; assumption|]|]; nia.
Qed.

(** *** At the start *)
Lemma scan_pgeo : pgeo (mkC MAX_PERIODIC_LONGITUDE (lat o)).
Proof. destruct O as [_ O2]. split; cbn [lon lat]; [vm_compute; congruence|exact O2]. Qed.
Lemma start_walled segs oe : Forall (polygon_edge ps) segs -> In e segs -> initial_edges o segs = Ok oe -> walled oe.
Proof.
  unfold initial_edges. cbv zeta. set (body := fun oe s => _).
  assert (Off : forall oe s oe', polygon_edge ps s -> s <> e -> body oe s = Ok oe' -> oe' = oe \/ exists d, 0 < d /\ oe' = oe_add oe d s).
  { intros q s q' P Ne E. unfold body in E. destruct (coord_eqb o (e1 s) || coord_eqb o (e2 s)); [injection E as <-; auto|].
    destruct (intersection_with_segment s (initial_scanline o)) as [[r|]| |] eqn:X; cbn [bind] in E; [|injection E as <-; auto|discriminate E..].
    destruct (on_segment (initial_scanline o) (e1 s)) as [[|]| |]; cbn [bind] in E; [injection E as <-; auto| |discriminate E..].
    destruct (on_segment (initial_scanline o) (e2 s)) as [[|]| |]; cbn [bind] in E; [injection E as <-; auto| |discriminate E..].
    destruct (coord_sub r o) as [w| |] eqn:W; cbn [bind] in E; try discriminate E. destruct (magnitude_squared_md w) as [d| |] eqn:D; cbn [bind] in E; try discriminate E. injection E as <-.
    assert (Gr : pgeo r).
    { destruct (intersection_total s (initial_scanline o)) as (r' & R & H); [exact (edge_pgeo ps s G P)|split; [exact O|exact scan_pgeo]|]. rewrite X in R. injection R as <-. apply H. reflexivity. }
    right. exists d. split; [|reflexivity]. rewrite (key_of r d w W D Gr). apply dist_pos. exact (meets_off s _ r P Ne scan_pgeo X). }
  assert (Here : forall oe oe', body oe e = Ok oe' -> oe' = oe_add oe 0 e).
  { intros q q' E. unfold body in E. destruct not_end as [N1 N2]. destruct As as [Tu Bt].
    destruct (coord_eqb o (e1 e)) eqn:X1; [apply coord_eqb_spec in X1; contradiction|]. destruct (coord_eqb o (e2 e)) eqn:X2; [apply coord_eqb_spec in X2; contradiction|]. cbn [orb] in E.
    unfold initial_scanline in E. rewrite meets_here in E; [|exact scan_pgeo|].
    2:{ unfold nonparallel, seg_det. cbn [e1 e2 lon lat]. assert (lon o < MAX_PERIODIC_LONGITUDE) by (pose proof (proj1 On); unfold MAX_PERIODIC_LONGITUDE, MAX_LONGITUDE, LONGITUDE_PERIOD; lia). nia. }
    cbn [bind] in E.
    assert (Out : forall c, c = e1 e \/ c = e2 e -> on_segment (mkS o (mkC MAX_PERIODIC_LONGITUDE (lat o))) c = Ok false).
    { intros c C. unfold on_segment. rewrite orientation_pt_ok; [|split; [exact O|exact scan_pgeo]|destruct C as [ -> | -> ]; apply e_pgeo]. cbn [bind e1 e2]. set (z := turn _ _ c).
      assert (z <> 0); [|unfold orientation_of_sign; destruct (z <? 0) eqn:Z1; [reflexivity|]; destruct (0 <? z) eqn:Z2; [reflexivity|]; apply Z.ltb_ge in Z1, Z2; lia].
      unfold z, turn. cbn [lon lat]. assert (lon o < MAX_PERIODIC_LONGITUDE) by (pose proof (proj1 On); unfold MAX_PERIODIC_LONGITUDE, MAX_LONGITUDE, LONGITUDE_PERIOD; lia). destruct C as [ -> | -> ]; nia. }
    rewrite !Out in E by auto. cbn [bind] in E. rewrite sub_pgeo in E by exact O. cbn [bind] in E. rewrite !Z.sub_diag in E. vm_compute (magnitude_squared_md _) in E. cbn [bind] in E. injection E as <-. reflexivity. }
  assert (Fold : forall segs oe oe', Forall (polygon_edge ps) segs -> foldM body segs oe = Ok oe' -> (walled oe -> walled oe') /\ (all_off oe -> In e segs -> walled oe')).
  { clear segs oe. induction segs as [|s segs IH]; intros q q' F E.
    - cbn [foldM] in E. injection E as <-. split; [auto|intros _ []].
    - cbn [foldM] in E. destruct (body q s) as [q1| |] eqn:B; cbn [bind] in E; try discriminate E. inversion F as [|? ? Ps F']; subst. destruct (IH _ _ F' E) as [H1 H2].
      assert (Sd : {s = e} + {s <> e}) by (decide equality; apply coord_dec). destruct Sd as [->|Ne].
      + rewrite (Here _ _ B) in *. split; [intros W; apply H1, add_walled; [exact W|lia]|]. intros A _. apply H1, add_wall, A.
      + destruct (Off _ _ _ Ps Ne B) as [->|(d & D & ->)].
        * split; [exact H1|]. intros A [X|X]; [contradiction|exact (H2 A X)].
        * split; [intros W; apply H1, add_walled; [exact W|lia]|]. intros A [X|X]; [contradiction|apply H2; [apply add_off; assumption|exact X]]. }
  intros F I E. apply (proj2 (Fold _ _ _ F E)); [intros d s []|exact I].
Qed.

(** *** At every vertex *)
Lemma oriented ss scan want l s : orientation_segments ss scan want = Ok l -> In s l ->
  In s ss /\ exists a so, get_adjacent_to s (e2 scan) = Ok a /\ orientation_of_point_to_segment scan a = Ok so /\ so = want.
Proof.
  revert l. induction ss as [|s1 ss IH]; intros l E I; cbn [orientation_segments] in E; [injection E as <-; destruct I|].
  destruct (get_adjacent_to s1 (e2 scan)) as [a| |] eqn:A; cbn [bind] in E; try discriminate E. destruct (orientation_of_point_to_segment scan a) as [so| |] eqn:P; cbn [bind] in E; try discriminate E.
  destruct (orientation_segments ss scan want) as [rest| |]; cbn [bind] in E; try discriminate E. injection E as <-.
  destruct (orientation_eqb so want) eqn:Q; [destruct I as [<-|I]|].
  - split; [left; reflexivity|]. exists a, so. repeat split; auto. destruct so, want; cbn in Q; congruence.
  - destruct (IH _ eq_refl I) as [H1 H2]. split; [right; exact H1|exact H2].
  - destruct (IH _ eq_refl I) as [H1 H2]. split; [right; exact H1|exact H2].
Qed.
(** the edge itself neither opens nor closes *)
Lemma level v ss want l s : orientation_segments ss (mkS o v) want = Ok l -> want <> COLLINEAR -> In s l -> polygon_edge ps s -> segment_eqb e s = false.
Proof.
  intros E W I P. destruct (segment_eqb e s) eqn:X; [|reflexivity]. exfalso. apply (no_flip s P) in X. subst s. destruct (oriented _ _ _ _ _ E I) as (_ & a & so & A & B & C). cbn [e2] in A.
  unfold get_adjacent_to in A. destruct As as [Tu _].
  assert (K : (v = e1 e /\ a = e2 e) \/ (v = e2 e /\ a = e1 e)).
  { destruct (coord_eqb v (e1 e)) eqn:V1; [apply coord_eqb_spec in V1; injection A as <-; auto|]. destruct (coord_eqb v (e2 e)) eqn:V2; [apply coord_eqb_spec in V2; injection A as <-; auto|discriminate A]. }
  rewrite orientation_pt_ok in B; [|split; [exact O|]; destruct K as [[-> _]|[-> _]]; apply e_pgeo|destruct K as [[_ ->]|[_ ->]]; apply e_pgeo]. injection B as <-. cbn [e1 e2] in C.
  assert (Z0 : turn o v a = 0) by (destruct K as [[-> ->]|[-> ->]]; unfold turn in *; lia). rewrite Z0 in C. apply W. rewrite <- C. reflexivity.
Qed.
Lemma erase_walled ss oe : walled oe -> (forall s, In s ss -> segment_eqb e s = false) -> walled (erase_segments ss oe).
Proof.
  unfold erase_segments. revert oe. induction ss as [|s ss IH]; intros oe W H; [exact W|]. cbn [fold_left]. apply IH; [apply remove_walled; [exact W|apply H; left; reflexivity]|intros x X; apply H; right; exact X].
Qed.
Lemma i64_same z y : i64 z = Ok y -> y = z.
Proof. unfold i64. destruct (_ : bool); congruence. Qed.
Lemma adds_walled ss oe v oe' : walled oe -> add_segments ss oe o v = Ok oe' -> walled oe'.
Proof.
  unfold add_segments. revert oe. induction ss as [|s ss IH]; intros oe W E; cbn [foldM] in E; [injection E as <-; exact W|].
  destruct (intersection_with_segment s (mkS o v)) as [x| |]; cbn [bind] in E; try discriminate E. destruct (opt_value x) as [r| |]; cbn [bind] in E; try discriminate E.
  destruct (coord_sub r o) as [w| |]; cbn [bind] in E; try discriminate E. destruct (magnitude_squared_md w) as [d| |] eqn:D; cbn [bind] in E; try discriminate E.
  apply (IH (oe_add oe d s)); [|exact E]. apply add_walled; [exact W|]. unfold magnitude_squared_md in D.
  destruct (i64 (lon w * lon w)) as [p| |] eqn:E1; cbn [bind] in D; try discriminate D. destruct (i64 (lat w * lat w)) as [q| |] eqn:E2; cbn [bind] in D; try discriminate D.
  apply i64_same in E1, E2, D. nia.
Qed.
Lemma not_vertex : vm_find (incident_map ps) o = None.
Proof.
  destruct (vm_find (incident_map ps) o) as [ss|] eqn:F; [|reflexivity]. exfalso. destruct (incident_map_good ps) as [[_ H] _]. destruct (H o ss F) as (p & n & C & _).
  destruct (corner_edges ps p o n C) as [_ P]. assert (Ne : mkS o n <> e) by (intros X; apply (proj1 not_end); rewrite <- X; reflexivity).
  assert (Rl : on_real (mkS o n) (IZR (lon o)) (IZR (lat o))) by (exists 0%R; cbn [e1 e2]; split; [lra|]; split; ring).
  destruct (Al _ _ _ P Ne Rl) as [X|X]; unfold Rminus in X; rewrite Rplus_opp_r, Rabs_R0 in X; lra.
Qed.
Lemma hidden oe v b : walled oe -> pgeo v -> is_vertex_visible (incident_map ps) oe o v = Ok b -> b = true -> turn (e1 e) (e2 e) v = 0.
Proof.
  intros [l W] Gv E ->. unfold is_vertex_visible in E. destruct (coord_eqb v o) eqn:X; [discriminate E|]. rewrite not_vertex in E. cbn [bind negb] in E. unfold oe_empty, closest_edge in E. rewrite W in E. cbn [bind] in E.
  destruct (Z.eq_dec (turn (e1 e) (e2 e) v) 0) as [Z|Z]; [exact Z|]. exfalso.
  rewrite meets_here in E; [|exact Gv|unfold nonparallel, seg_det; cbn [e1 e2]; destruct As as [Tu _]; unfold turn in *; lia]. cbn [bind] in E. injection E as E. apply coord_eqb_spec in E. subst v.
  rewrite (proj2 (coord_eqb_spec o o) eq_refl) in X. discriminate X.
Qed.
Lemma sweep_level init half vs oe res x : walled oe -> sweep (incident_map ps) init o half vs oe = Ok res -> In x res ->
  exists v, In v (polygon_vertices ps) /\ normalize_coord v = Ok (v_coord x) /\ turn (e1 e) (e2 e) v = 0.
Proof.
  revert oe res. induction vs as [|v vs IH]; intros oe res W E I; cbn [sweep] in E; [injection E as <-; destruct I|].
  destruct (coord_eqb o v); [exact (IH _ _ W E I)|].
  destruct (past_half half init o v) as [[|]| |]; cbn [bind] in E; [injection E as <-; destruct I| |discriminate E..].
  unfold vm_at in E. destruct (vm_find (incident_map ps) v) as [inc|] eqn:F; cbn [bind] in E; [|discriminate E].
  destruct (map_ok_polygons ps o G v inc F) as (Gv & _ & Fi).
  destruct (orientation_segments inc (mkS o v) CLOCKWISE) as [cw| |] eqn:Cw; cbn [bind] in E; try discriminate E. destruct (orientation_segments inc (mkS o v) COUNTER_CLOCKWISE) as [ccw| |]; cbn [bind] in E; try discriminate E.
  assert (W1 : walled (erase_segments cw oe)).
  { apply erase_walled; [exact W|]. intros s S. apply (level v inc CLOCKWISE cw s Cw); [discriminate|exact S|]. rewrite Forall_forall in Fi. apply Fi. exact (proj1 (oriented _ _ _ _ _ Cw S)). }
  destruct (is_vertex_visible (incident_map ps) (erase_segments cw oe) o v) as [b| |] eqn:B; cbn [bind] in E; try discriminate E.
  destruct (if b then normalize_coord v else Ok v) as [n| |] eqn:N; cbn [bind] in E; try discriminate E.
  destruct (add_segments ccw (erase_segments cw oe) o v) as [oe2| |] eqn:A; cbn [bind] in E; try discriminate E.
  destruct (sweep (incident_map ps) init o half vs oe2) as [rest| |] eqn:R; cbn [bind] in E; try discriminate E. injection E as <-.
  pose proof (IH _ _ (adds_walled _ _ _ _ W1 A) R) as H. destruct b; [|exact (H I)]. destruct I as [<-|I]; [|exact (H I)]. exists v. cbn [v_coord].
  split; [apply (proj1 (proj2 (incident_map_good ps) v)); apply in_map_iff; exists (v, inc); split; [reflexivity|apply find_in, F]|]. split; [exact N|]. exact (hidden _ _ _ W1 Gv B eq_refl).
Qed.
(** from a point on an edge no vertex is seen but those in line with the edge *)
Theorem ashore_sees atan2 ord half res x : library_orders ord -> get_visible_vertices atan2 ord (vistree_of_polygons ps) o half = Ok res -> In x res ->
  exists v, In v (polygon_vertices ps) /\ normalize_coord v = Ok (v_coord x) /\ turn (e1 e) (e2 e) v = 0.
Proof.
  intros L E I. unfold get_visible_vertices, visible_from in E. cbn [vistree_of_polygons vt_map vt_segments] in E.
  destruct (incident_map ps) as [|k m] eqn:M; [injection E as <-; destruct I|]. rewrite <- M in *. clear M k m.
  destruct (sort_ccw _ _ _ _) as [vs| |]; cbn [bind] in E; try discriminate E. destruct (get_tangent_vector (initial_scanline o)) as [init| |]; cbn [bind] in E; try discriminate E.
  set (segs := o_segments ord (flat_map snd (incident_map ps))) in *. assert (Pm : Permutation segs (flat_map snd (incident_map ps))) by apply L.
  destruct (initial_edges o segs) as [oe| |] eqn:In0; cbn [bind] in E; try discriminate E. apply (sweep_level init half vs oe res x); [|exact E|exact I].
  apply (start_walled segs oe); [| |exact In0].
  - eapply Permutation_Forall; [apply Permutation_sym, Pm|apply segments_edges].
  - apply (Permutation_in _ (Permutation_sym Pm)), (Permutation_in _ (Permutation_sym (sweep_segments ps Nd))), in_or_app. left. apply polygon_edge_segments, Pe.
Qed.
End Onto.

(** ** Queries *)
Section Query.
Variables (atan2 : Z -> Z -> f64) (ords : coord -> orders) (en : env) (g : graph) (source destination : coord) (lc : correction) (e : segment).
Hypotheses (L : forall c, library_orders (ords c)) (Ev : en_vis en = endpoint_vis atan2 ords g) (Fit : fit_for_queries en g) (Nd : NoDup (get_vertices g)).
Hypotheses (Gs : ngeo (lc_source lc)) (Gd : ngeo (lc_dest lc)) (Pe : polygon_edge (get_polygons g) e).

Lemma vertices_of : polygon_vertices (get_polygons g) = get_vertices g.
Proof. destruct Fit as ((ps & h & _ & G) & _). rewrite (built_polys _ _ _ G), (built_vertices _ _ _ G). reflexivity. Qed.
Lemma vertices_pgeo c : In c (polygon_vertices (get_polygons g)) -> pgeo c.
Proof. rewrite vertices_of. intros I. destruct Fit as (_ & Gv & _). specialize (Gv c I). unfold ngeo in Gv. unfold pgeo. lia. Qed.
Lemma has_it c : has_vertex g c = true <-> In c (get_vertices g).
Proof. destruct Fit as ((ps & h & _ & G) & _). rewrite (built_vertices _ _ _ G). apply (built_has_vertex _ _ _ _ G). Qed.
Lemma stays v : ngeo v -> normalize_coord v = Ok v.
Proof. intros H. pose proof (normalize_shift v 0) as K. rewrite Z.add_0_r in K. destruct v as [x y]. cbn [lon lat] in K. apply K; [unfold ngeo in H; cbn [lon lat] in H; lia|auto]. Qed.
Lemma in_line c s v : ngeo c -> ashore e c -> aloof (get_polygons g) e c -> sees (en_vis en) s c v -> In v (get_vertices g) /\ turn (e1 e) (e2 e) v = 0.
Proof.
  intros Gc As Al (pts & p & E & I & <- & _). rewrite Ev in E. unfold endpoint_vis in E.
  destruct (ashore_sees (get_polygons g) e c vertices_pgeo Gc) with (atan2 := atan2) (ord := ords c) (half := false) (res := pts) (x := p) as (v & Iv & Nv & Tv); try assumption; [rewrite vertices_of; exact Nd|apply L|].
  rewrite vertices_of in Iv. destruct Fit as (_ & Gv & _). pose proof (Gv v Iv) as Gn. rewrite (stays v Gn) in Nv. injection Nv as <-. auto.
Qed.
Lemma seen_vertex c s v : ngeo c -> sees (en_vis en) s c v -> In v (get_vertices g).
Proof.
  intros Gc (pts & p & E & I & <- & _). rewrite Ev in E. unfold endpoint_vis in E. destruct Fit as (_ & Gv & _).
  destruct (sweep_well_formed atan2 (ords c) (get_polygons g) c false (L c)) as (res & seen & E' & F2 & _ & _ & Hs & _); [unfold ngeo in Gc; unfold pgeo; lia|exact vertices_pgeo|].
  rewrite E in E'. injection E' as <-. destruct (Forall2_in_right _ _ _ _ _ _ F2 I) as (v & Iv & Nv & _). destruct (Hs v Iv) as [Iv' _]. rewrite vertices_of in Iv'. rewrite (stays v (Gv v Iv')) in Nv. injection Nv as <-. exact Iv'.
Qed.
Lemma off_map c : ngeo c -> ashore e c -> aloof (get_polygons g) e c -> has_vertex g c = false.
Proof.
  intros Gc As Al. destruct (has_vertex g c) eqn:H; [|reflexivity]. exfalso. apply has_it in H. rewrite <- vertices_of in H. apply (proj2 (incident_map_good (get_polygons g)) c), in_map_iff in H. destruct H as ((c' & ss) & Ec & I). cbn [fst] in Ec. subst c'.
  destruct (incident_map_good (get_polygons g)) as [[N _] _]. apply (in_find _ _ _ N) in I. rewrite (not_vertex (get_polygons g) e c Gc As Al) in I. discriminate I.
Qed.
Lemma map_vertex u v f : answer g u v = Some f -> In u (get_vertices g) /\ In v (get_vertices g).
Proof. intros A. destruct (answer_some_in g u v f (proj1 Fit) A) as (_ & Iu & Iv). auto. Qed.

(** the first leg from a source on an edge *)
Lemma leaves_along l r : ashore e (lc_source lc) -> aloof (get_polygons g) e (lc_source lc) -> lc_source lc <> lc_dest lc ->
  journey (road g (en_vis en) lc) (lc_source lc) l (lc_dest lc) r -> exists v l', l = v :: l' /\ In v (get_vertices g) /\ turn (e1 e) (e2 e) v = 0.
Proof.
  intros As Al Ne J. pose proof (off_map _ Gs As Al) as Nv. inversion J as [|u v f l' t r' R J']; subst; [contradiction|]. exists v, l'. split; [reflexivity|].
  destruct R as [A|(_ & [(_ & [[_ S]|[E _]])|(_ & [[Ex S]|[Ex S]])])]; try rewrite Ex in S.
  - exfalso. destruct (map_vertex _ _ _ A) as [I _]. apply has_it in I. congruence.
  - exact (in_line _ _ _ Gs As Al S).
  - contradiction.
  - exfalso. pose proof (seen_vertex _ _ _ Gs S) as I. apply has_it in I. congruence.
  - exfalso. pose proof (seen_vertex _ _ _ Gd S) as I. apply has_it in I. congruence.
Qed.
Lemma last_road (roads : coord -> coord -> bool -> Prop) s l t r : journey roads s l t r -> l <> [] -> exists l' u f, s :: l = l' ++ [u; t] /\ roads u t f.
Proof.
  induction 1 as [u|u v f l t r R J IH]; intros N; [contradiction|]. destruct l as [|w l].
  - inversion J; subst. exists [], u, f. auto.
  - destruct IH as (l' & x & f' & E & R'); [discriminate|]. exists (u :: l'), x, f'. rewrite E. auto.
Qed.
(** the last leg to a destination on an edge *)
Lemma arrives_along l r : ashore e (lc_dest lc) -> aloof (get_polygons g) e (lc_dest lc) -> lc_source lc <> lc_dest lc ->
  journey (road g (en_vis en) lc) (lc_source lc) l (lc_dest lc) r -> exists v l', lc_source lc :: l = l' ++ [v; lc_dest lc] /\ In v (get_vertices g) /\ turn (e1 e) (e2 e) v = 0.
Proof.
  intros As Al Ne J. pose proof (off_map _ Gd As Al) as Nv.
  destruct (last_road _ _ _ _ _ J) as (l' & v & f & E & R); [intros ->; inversion J; contradiction|]. exists v, l'. split; [exact E|].
  destruct R as [A|(_ & [(_ & [[Ex S]|[Ex S]])|(_ & [[X _]|[_ S]])])]; try rewrite Ex in S.
  - exfalso. destruct (map_vertex _ _ _ A) as [_ I]. apply has_it in I. congruence.
  - exfalso. pose proof (seen_vertex _ _ _ Gs S) as I. apply has_it in I. congruence.
  - exfalso. pose proof (seen_vertex _ _ _ Gd S) as I. apply has_it in I. congruence.
  - congruence.
  - exact (in_line _ _ _ Gd As Al S).
Qed.
End Query.

(** ** A check *)
Definition far_off_b (o : coord) (s : segment) : bool :=
  let z := Z.abs (turn (e1 s) (e2 s) o) in (0 <? z) && (Z.abs (lon (e2 s) - lon (e1 s)) + Z.abs (lat (e2 s) - lat (e1 s)) <=? z).
Definition aloof_b (ps : list polygon) (e : segment) (o : coord) : bool :=
  forallb (fun P => forallb (fun s => (coord_eqb (e1 s) (e1 e) && coord_eqb (e2 s) (e2 e)) || far_off_b o s) (edges_list P)) ps.
Lemma far_off_ok o s x y : far_off_b o s = true -> on_real s x y -> (1 <= Rabs (x - IZR (lon o)) \/ 1 <= Rabs (y - IZR (lat o)))%R.
Proof.
  unfold far_off_b. cbv zeta. rewrite andb_true_iff, Z.ltb_lt, Z.leb_le. intros [P H] (t & T & Ex & Ey).
  destruct (Rle_lt_dec 1 (Rabs (x - IZR (lon o)))) as [A|A]; [auto|]. destruct (Rle_lt_dec 1 (Rabs (y - IZR (lat o)))) as [B|B]; [auto|]. exfalso.
  set (dx := lon (e2 s) - lon (e1 s)) in *. set (dy := lat (e2 s) - lat (e1 s)) in *. set (z := turn (e1 s) (e2 s) o) in *.
  assert (Ez : IZR z = (IZR dx * (IZR (lat o) - y) - IZR dy * (IZR (lon o) - x))%R).
  { rewrite Ex, Ey. unfold z, turn, dx, dy. rewrite !minus_IZR, !mult_IZR, !minus_IZR. ring. }
  assert (U : (Rabs (IZR z) <= Rabs (IZR dx) * Rabs (y - IZR (lat o)) + Rabs (IZR dy) * Rabs (x - IZR (lon o)))%R).
  { rewrite Ez. unfold Rminus at 1. eapply Rle_trans; [apply Rabs_triang|]. rewrite Rabs_Ropp, !Rabs_mult. rewrite (Rabs_minus_sym (IZR (lat o)) y), (Rabs_minus_sym (IZR (lon o)) x). lra. }
  apply IZR_le in H. rewrite plus_IZR, !abs_IZR in H. apply (IZR_lt 0) in P. rewrite abs_IZR in P.
  pose proof (Rabs_pos (IZR dx)) as P1. pose proof (Rabs_pos (IZR dy)) as P2. pose proof (Rabs_pos (x - IZR (lon o))) as P3. pose proof (Rabs_pos (y - IZR (lat o))) as P4.
  set (a := Rabs (IZR dx)) in *. set (b := Rabs (IZR dy)) in *. set (p := Rabs (x - IZR (lon o))) in *. set (q := Rabs (y - IZR (lat o))) in *. clearbody a b p q.
  assert (0 <= a * (1 - q))%R by (apply Rmult_le_pos; lra). assert (0 <= b * (1 - p))%R by (apply Rmult_le_pos; lra).
  assert (A0 : (a * (1 - q) = 0)%R) by lra. assert (B0 : (b * (1 - p) = 0)%R) by lra. apply Rmult_integral in A0, B0. assert (a = 0%R) by lra. assert (b = 0%R) by lra. subst a b. lra.
Qed.
Lemma aloof_b_ok ps e o : aloof_b ps e o = true -> aloof ps e o.
Proof.
  unfold aloof_b. rewrite forallb_forall. intros H s x y (P & i & HP & I & E) N R. specialize (H P HP). rewrite forallb_forall in H. specialize (H s (proj1 (edges_list_ok P s) (ex_intro _ i (conj I E)))).
  apply orb_true_iff in H. destruct H as [H|H]; [|exact (far_off_ok o s x y H R)]. exfalso. apply N. apply andb_true_iff in H. destruct H as [H1 H2]. apply coord_eqb_spec in H1, H2. destruct s as [p q], e as [p' q']. cbn [e1 e2] in *. congruence.
Qed.
