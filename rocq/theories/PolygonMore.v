(** Orientation of polygons and periodic copies. *)
From Coq Require Import ZArith Bool List Lia Reals Lra Permutation Sorted.
From Verif Require Import Base F64 F64Facts Coordinate Segment Polygon Periodicity PeriodicityFacts
  CoordinateFacts SpecGeom SegmentFacts PolygonFacts PolygonFloat.
Import ListNotations.
Local Open Scope Z_scope.

(** lines 72-78 and 45-60 of polygon.cpp for a given value of the reduction variable *)
Definition orientation_of_sum (w : f64) : orientation :=
  if fltb w f_0 then COUNTER_CLOCKWISE else if fltb f_0 w then CLOCKWISE else COLLINEAR.
Definition normalize_with (w : f64) (vs : list coord) : list coord :=
  if (length vs <=? 2)%nat then vs
  else match orientation_of_sum w with CLOCKWISE => rev vs | _ => vs end.

Lemma normalize_with_model vs : normalize_orientation vs = normalize_with (winding_sum vs) vs.
Proof. reflexivity. Qed.

Lemma make_polygon_pure vs : Forall pgeo vs ->
  make_polygon vs = Ok (mkP (normalize_orientation (cyc vs))).
Proof. intros F. unfold make_polygon, preprocess_vertices. rewrite remove_collinear_ok by exact F. reflexivity. Qed.

Lemma winding_sign vs w : Forall pgeo vs -> (3 <= length vs)%nat -> clear_area vs -> sums_to (terms vs) w ->
  orientation_of_sum w = if 0 <? ring_area vs then COUNTER_CLOCKWISE else CLOCKWISE.
Proof.
  intros F L (N & W & H & E & A) S.
  destruct (winding_close vs W H w F E ltac:(lia) S) as [Fw C].
  pose proof micro_pos as MP. assert (MM : (0 < micro * micro)%R) by nra. set (mm := (micro * micro)%R) in *.
  set (n := Z.of_nat (length vs)) in *.
  assert (B : (INR (length vs) * INR (length vs) * ((IZR W + IZR H) * (1 / 10000000)) < IZR (Z.abs (ring_area vs)))%R).
  { apply IZR_lt in A. rewrite !mult_IZR, plus_IZR in A. rewrite INR_IZR_INZ. fold n. lra. }
  apply (Rmult_lt_compat_l mm) in B; [|exact MM].
  unfold orientation_of_sum.
  assert (L1 : fltb w f_0 = true <-> (V w < 0)%R) by (rewrite fltb_iff by (auto; reflexivity); rewrite (proj1 V_f0); reflexivity).
  assert (L2 : fltb f_0 w = true <-> (0 < V w)%R) by (rewrite fltb_iff by (auto; reflexivity); rewrite (proj1 V_f0); reflexivity).
  apply Rabs_split in C.
  assert (Z0 : ring_area vs = 0 -> False).
  { intros Z0. rewrite Z0 in *. replace (Z.abs 0) with 0 in * by reflexivity. lra. }
  destruct (Z.ltb_spec 0 (ring_area vs)) as [P|P].
  - rewrite Z.abs_eq in B by lia. assert (T : fltb w f_0 = true) by (apply L1; lra). rewrite T. reflexivity.
  - assert (T2 : fltb f_0 w = true).
    { apply L2. rewrite Z.abs_neq in B by lia. rewrite opp_IZR in B. lra. }
    assert (T1 : fltb w f_0 = false).
    { apply not_true_is_false. intros T1. apply L1 in T1. apply L2 in T2. lra. }
    rewrite T1, T2. reflexivity.
Qed.

Lemma two_area vs : (length vs <= 2)%nat -> ring_area vs = 0.
Proof.
  destruct vs as [|a [|b [|c t]]]; simpl; try lia; intros; unfold ring_area; simpl; lia.
Qed.

Lemma clear_area_incl vs r : incl r vs -> (length r <= length vs)%nat -> Z.abs (ring_area r) = Z.abs (ring_area vs) ->
  clear_area vs -> clear_area r.
Proof.
  intros I L A (N & W & H & (E1 & E2) & C). split; [lia|]. exists W, H. split.
  - split; [exact E1|]. intros a b Ha Hb. apply E2; apply I; assumption.
  - rewrite A. eapply Z.le_lt_trans; [|exact C].
    destruct vs as [|v vs].
    { destruct r; [|simpl in L; lia]. lia. }
    destruct (E2 v v (or_introl eq_refl) (or_introl eq_refl)) as [_ H0].
    assert (Z.of_nat (length r) <= Z.of_nat (length (v :: vs))) by lia.
    assert (0 <= H) by lia.
    apply Z.mul_le_mono_nonneg_r; [lia|]. apply Z.mul_le_mono_nonneg; lia.
Qed.

Lemma cyc_incl vs : incl (cyc vs) vs.
Proof.
  rewrite cyc_index. intros x X. apply in_map_iff in X. destruct X as (i & <- & I). apply filter_In in I.
  destruct I as [I _]. apply in_seq in I. apply nth_In. lia.
Qed.
Lemma cyc_pgeo vs : Forall pgeo vs -> Forall pgeo (cyc vs).
Proof. rewrite !Forall_forall. intros F x X. apply F, cyc_incl, X. Qed.

Lemma clear_cyc vs : no_repeats vs -> clear_area vs ->
  clear_area (cyc vs) /\ ring_area (cyc vs) = ring_area vs /\ (3 <= length (cyc vs))%nat.
Proof.
  intros N C. destruct (cyc_facts vs (no_repeats_ring vs N)) as (_ & A & _).
  split; [|split]; auto.
  - eapply clear_area_incl; [apply cyc_incl|apply cyc_length| |exact C]. rewrite A. reflexivity.
  - destruct (Nat.le_gt_cases (length (cyc vs)) 2) as [L|L]; [|lia]. apply two_area in L.
    destruct C as (_ & W & H & E & C). rewrite <- A, L in C. exfalso.
    destruct vs as [|v vs]; [simpl in C; lia|]. destruct E as [E1 E2].
    destruct (E2 v v (or_introl eq_refl) (or_introl eq_refl)) as [_ H0].
    assert (0 <= Z.of_nat (length (v :: vs)) * Z.of_nat (length (v :: vs)) * (W + H)) by (apply Z.mul_nonneg_nonneg; lia). lia.
Qed.

(** with a clear area the stored ring is the counter-clockwise one, in every summation order *)
Lemma normalize_clear r w : Forall pgeo r -> (3 <= length r)%nat -> clear_area r -> sums_to (terms r) w ->
  normalize_with w r = if 0 <? ring_area r then r else rev r.
Proof.
  intros F L C S. unfold normalize_with. destruct (Nat.leb_spec (length r) 2) as [K|_]; [lia|].
  rewrite (winding_sign r w F L C S). destruct (0 <? ring_area r); reflexivity.
Qed.

Definition ccw (r : list coord) : list coord := if 0 <? ring_area r then r else rev r.

Lemma ccw_area r : ring_area (ccw r) = Z.abs (ring_area r).
Proof. unfold ccw. destruct (Z.ltb_spec 0 (ring_area r)); [lia|]. rewrite ring_area_rev. lia. Qed.

Lemma make_polygon_clear vs : Forall pgeo vs -> no_repeats vs -> clear_area vs ->
  make_polygon vs = Ok (mkP (ccw (cyc vs))).
Proof.
  intros F N C. rewrite make_polygon_pure by exact F. destruct (clear_cyc vs N C) as (C1 & A & L).
  rewrite normalize_with_model, (normalize_clear (cyc vs) _ (cyc_pgeo vs F) L C1 (winding_sum_sums _)). reflexivity.
Qed.

Lemma fixed_clear r : Forall pgeo r -> cyc r = r -> (3 <= length r)%nat -> clear_area r -> 0 < ring_area r ->
  make_polygon r = Ok (mkP r).
Proof.
  intros F Y L C A. rewrite make_polygon_pure, Y by exact F.
  rewrite normalize_with_model, (normalize_clear r _ F L C (winding_sum_sums _)).
  destruct (Z.ltb_spec 0 (ring_area r)); [reflexivity|lia].
Qed.

Lemma clear_area_rev r : clear_area r -> clear_area (rev r).
Proof.
  intros C. eapply clear_area_incl; [| | |exact C].
  - intros x X. apply in_rev. exact X.
  - rewrite rev_length. lia.
  - rewrite ring_area_rev. lia.
Qed.
Lemma clear_area_ccw r : clear_area r -> clear_area (ccw r).
Proof. unfold ccw. intros C. destruct (0 <? ring_area r); [exact C|apply clear_area_rev, C]. Qed.
Lemma ccw_pgeo r : Forall pgeo r -> Forall pgeo (ccw r).
Proof. unfold ccw. intros C. destruct (0 <? ring_area r); [exact C|apply Forall_rev, C]. Qed.
Lemma ccw_length r : length (ccw r) = length r.
Proof. unfold ccw. destruct (0 <? ring_area r); [reflexivity|apply rev_length]. Qed.
Lemma ccw_fixed r : cyc r = r -> cyc (ccw r) = ccw r.
Proof. unfold ccw. intros C. destruct (0 <? ring_area r); [exact C|rewrite cyc_rev, C; reflexivity]. Qed.

(** what construction from a clear ring gives *)
Lemma built_ring vs : Forall pgeo vs -> no_repeats vs -> clear_area vs ->
  let r := ccw (cyc vs) in
  Forall pgeo r /\ cyc r = r /\ (3 <= length r)%nat /\ clear_area r /\ 0 < ring_area r.
Proof.
  intros F N C r. destruct (clear_cyc vs N C) as (C1 & A & L). unfold r.
  split; [apply ccw_pgeo, cyc_pgeo, F|]. split; [apply ccw_fixed, cyc_facts, no_repeats_ring, N|].
  split; [rewrite ccw_length; exact L|]. split; [apply clear_area_ccw, C1|].
  rewrite ccw_area. destruct C1 as (_ & W & H & E & C1).
  destruct (Z.eq_dec (ring_area (cyc vs)) 0) as [Z0|Z0]; [|lia]. rewrite Z0 in C1. exfalso.
  destruct (cyc vs) as [|v t]; [simpl in L; lia|]. destruct E as [E1 E2].
  destruct (E2 v v (or_introl eq_refl) (or_introl eq_refl)) as [_ H0].
  assert (0 <= Z.of_nat (length (v :: t)) * Z.of_nat (length (v :: t)) * (W + H)) by (apply Z.mul_nonneg_nonneg; lia). lia.
Qed.

Lemma rebuild_clear vs p : Forall pgeo vs -> no_repeats vs -> clear_area vs ->
  make_polygon vs = Ok p -> make_polygon (verts p) = Ok p.
Proof.
  intros F N C E. rewrite make_polygon_clear in E by assumption. inversion E; subst p. cbn [verts].
  destruct (built_ring vs F N C) as (A1 & A2 & A3 & A4 & A5). apply fixed_clear; assumption.
Qed.

(** without an area bound: the same ring or its reversal *)
Lemma normalize_cases r : normalize_orientation r = r \/ normalize_orientation r = rev r.
Proof. unfold normalize_orientation. destruct (length r <=? 2)%nat; auto. destruct (get_orientation_of_vertices r); auto. Qed.

Lemma rebuild_any vs p : Forall pgeo vs -> no_repeats vs -> make_polygon vs = Ok p ->
  make_polygon (verts p) = Ok p \/ make_polygon (verts p) = Ok (mkP (rev (verts p))).
Proof.
  intros F N E. rewrite make_polygon_pure in E by exact F. inversion E; subst p. cbn [verts].
  destruct (cyc_facts vs (no_repeats_ring vs N)) as (Y & _ & _).
  set (r := normalize_orientation (cyc vs)).
  assert (YR : cyc r = r).
  { unfold r. destruct (normalize_cases (cyc vs)) as [->| ->]; [exact Y|rewrite cyc_rev, Y; reflexivity]. }
  assert (FR : Forall pgeo r).
  { unfold r. destruct (normalize_cases (cyc vs)) as [->| ->]; [|apply Forall_rev]; apply cyc_pgeo, F. }
  rewrite make_polygon_pure, YR by exact FR.
  destruct (normalize_cases r) as [->| ->]; auto.
Qed.

(** ** A dropped vertex is one on the closed segment between its neighbours *)
Lemma keepb_straight p c n : keepb p c n = false <-> on_closed_segment (mkS p n) c.
Proof.
  rewrite on_closed_segment_iff. unfold keepb, turn. cbn [e1 e2].
  rewrite orb_false_iff, negb_false_iff, Z.eqb_eq, Z.ltb_ge.
  unfold det, dot, vsub. destruct p as [px py], c as [cx cy], n as [nx ny]. cbn [lon lat].
  set (a := cx - px). set (b := cy - py). set (c := nx - cx). set (d := ny - cy).
  replace nx with (px + a + c) by (unfold a, c; lia). replace ny with (py + b + d) by (unfold b, d; lia).
  replace cx with (px + a) by (unfold a; lia). replace cy with (py + b) by (unfold b; lia).
  clearbody a b c d. clear cx cy nx ny.
  split.
  - intros [H1 H2].
    assert (D : a * d = b * c) by lia.
    assert (K : 0 <= a * c /\ 0 <= b * d).
    { destruct (Z_lt_le_dec (a * c) 0) as [X|X]; destruct (Z_lt_le_dec (b * d) 0) as [Y|Y]; try lia; exfalso.
      - assert (0 < (a * c) * - (b * d) -> False); [|nia]. intros. assert ((a*c)*(b*d) = (a*d)*(a*d)) by (rewrite D at 2; ring). nia.
      - assert (0 < (b * d) * - (a * c) -> False); [|nia]. intros. assert ((a*c)*(b*d) = (a*d)*(a*d)) by (rewrite D at 2; ring). nia. }
    split; [lia|]. split; nia.
  - intros (H1 & H2 & H3). split; [lia|].
    assert (0 <= a * c) by nia. assert (0 <= b * d) by nia. nia.
Qed.

Lemma keep_at_straight vs i : keep_at vs i = false <-> straight_at vs i.
Proof. apply keepb_straight. Qed.

Lemma construction_selects vs : Forall pgeo vs ->
  exists p idx, make_polygon vs = Ok p /\
    StronglySorted lt idx /\
    (forall i, In i idx <-> (i < length vs)%nat /\ ~ straight_at vs i) /\
    (verts p = map (vat vs) idx \/ verts p = rev (map (vat vs) idx)).
Proof.
  intros F. exists (mkP (normalize_orientation (cyc vs))), (filter (keep_at vs) (seq 0 (length vs))).
  split; [apply make_polygon_pure, F|]. split; [|split].
  - generalize 0%nat. induction (length vs) as [|n IH]; intros s; [constructor|]. simpl.
    assert (G : Forall (lt s) (filter (keep_at vs) (seq (S s) n))).
    { apply Forall_forall. intros x X. apply filter_In in X. destruct X as [X _]. apply in_seq in X. lia. }
    destruct (keep_at vs s); [constructor; auto|apply IH].
  - intros i. rewrite filter_In, in_seq, <- keep_at_straight. destruct (keep_at vs i); intuition (try lia; try congruence).
  - cbn [verts]. rewrite <- cyc_index. apply normalize_cases.
Qed.

Lemma filter_le {A} (f : A -> bool) l : (length (filter f l) <= length l)%nat.
Proof. induction l as [|x l IH]; simpl; [lia|]. destruct (f x); simpl; lia. Qed.

Lemma construction_no_straight vs p : Forall pgeo vs -> no_repeats vs -> make_polygon vs = Ok p ->
  (forall i, (i < length (verts p))%nat -> ~ straight_at (verts p) i) /\
  (vs <> [] -> (2 <= length (verts p))%nat) /\
  Z.abs (ring_area (verts p)) = Z.abs (ring_area vs).
Proof.
  intros F N E. rewrite make_polygon_pure in E by exact F. inversion E; subst p. cbn [verts].
  destruct (cyc_facts vs (no_repeats_ring vs N)) as (Y & A & L2).
  set (r := normalize_orientation (cyc vs)).
  assert (YR : cyc r = r /\ length r = length (cyc vs) /\ Z.abs (ring_area r) = Z.abs (ring_area (cyc vs))).
  { unfold r. destruct (normalize_cases (cyc vs)) as [->| ->]; [auto|].
    rewrite cyc_rev, Y, rev_length, ring_area_rev. repeat split. lia. }
  destruct YR as (YR & YL & YA). split; [|split].
  - intros i Hi. rewrite <- keep_at_straight. rewrite cyc_index in YR.
    assert (K : length (filter (keep_at r) (seq 0 (length r))) = length r) by (rewrite <- YR at 3; rewrite map_length; reflexivity).
    assert (G : forall l, length (filter (keep_at r) l) = length l -> forall x, In x l -> keep_at r x = true).
    { induction l as [|y l IH]; [intros _ x []|]. simpl. pose proof (filter_le (keep_at r) l) as LE.
      destruct (keep_at r y) eqn:KY; simpl; [|lia]. intros EL x [<-|X]; [exact KY|]. apply IH; [lia|exact X]. }
    rewrite (G (seq 0 (length r))); [discriminate|rewrite seq_length; exact K|apply in_seq; lia].
  - intros NE. rewrite YL. apply L2, NE.
  - rewrite YA, A. reflexivity.
Qed.

(** ** Translates *)
Lemma keepb_shift d p c n : keepb (shift d p) (shift d c) (shift d n) = keepb p c n.
Proof.
  assert (E : forall a b, vsub (shift d a) (shift d b) = vsub a b) by (intros; unfold vsub, shift; cbn [lon lat]; f_equal; lia).
  unfold keepb. rewrite !E. reflexivity.
Qed.
Lemma flt_shift d l : forall p, flt (shift d p) (map (shift d) l) = map (shift d) (flt p l).
Proof.
  induction l as [|c l IH]; intros p; [reflexivity|]. destruct l as [|n l]; [reflexivity|].
  change (map (shift d) (c :: n :: l)) with (shift d c :: shift d n :: map (shift d) l).
  rewrite !flt_cons, keepb_shift. specialize (IH c). cbn [map] in IH. rewrite IH.
  destruct (keepb p c n); reflexivity.
Qed.
Lemma last_map {A B} (f : A -> B) l d : last (map f l) (f d) = f (last l d).
Proof. induction l as [|x l IH]; [reflexivity|]. destruct l; [reflexivity|exact IH]. Qed.
Lemma cyc_shift d vs : cyc (map (shift d) vs) = map (shift d) (cyc vs).
Proof.
  destruct vs as [|h t]; [reflexivity|]. unfold cyc. cbn [map].
  change (shift d h :: map (shift d) t) with (map (shift d) (h :: t)). rewrite last_map.
  change [shift d h] with (map (shift d) [h]). rewrite <- map_app. apply flt_shift.
Qed.
Lemma path_area_shift d l : path_area (map (shift d) l) = path_area l +
  match l with [] => 0 | a :: _ => lon d * (lat (last l a) - lat a) - lat d * (lon (last l a) - lon a) end.
Proof.
  induction l as [|a l IH]; [reflexivity|]. destruct l as [|b l]; [simpl; lia|].
  change (path_area (map (shift d) (a :: b :: l))) with
    ((lon (shift d a) * lat (shift d b) - lat (shift d a) * lon (shift d b)) + path_area (map (shift d) (b :: l))).
  rewrite IH. change (path_area (a :: b :: l)) with ((lon a * lat b - lat a * lon b) + path_area (b :: l)).
  change (last (a :: b :: l) a) with (last (b :: l) a). rewrite (last_default (b :: l) a b) by congruence.
  unfold shift. cbn [lon lat]. lia.
Qed.
Lemma ring_area_shift d vs : ring_area (map (shift d) vs) = ring_area vs.
Proof.
  destruct vs as [|h t]; [reflexivity|].
  change (ring_area (map (shift d) (h :: t))) with (path_area (map (shift d) (h :: t) ++ map (shift d) [h])).
  rewrite <- map_app, path_area_shift. cbn [app]. 
  change (h :: t ++ [h]) with ((h :: t) ++ [h]). rewrite last_app_cons. cbn [last].
  change (ring_area (h :: t)) with (path_area ((h :: t) ++ [h])). lia.
Qed.
Lemma clear_area_shift d vs : clear_area vs -> clear_area (map (shift d) vs).
Proof.
  intros (N & W & H & (E1 & E2) & C). split; [rewrite map_length; exact N|]. exists W, H.
  rewrite map_length, ring_area_shift. split; [|exact C]. split; [exact E1|].
  intros a b Ha Hb. apply in_map_iff in Ha. apply in_map_iff in Hb. destruct Ha as (a' & <- & Ha), Hb as (b' & <- & Hb).
  specialize (E2 a' b' Ha Hb). unfold shift. cbn [lon lat]. lia.
Qed.

Definition east : coord := mkC 360000001 0.
Definition west : coord := mkC (-360000001) 0.

Lemma mapM_map_ok {A B} (f : A -> res B) (g : A -> B) l :
  (forall x, In x l -> f x = Ok (g x)) -> mapM f l = Ok (map g l).
Proof.
  induction l as [|x l IH]; intros H; [reflexivity|]. simpl. rewrite H by (left; reflexivity). simpl.
  rewrite IH by (intros; apply H; right; assumption). reflexivity.
Qed.

Lemma periodic_polygon_ok p : Forall ngeo (verts p) -> cyc (verts p) = verts p -> (3 <= length (verts p))%nat ->
  clear_area (verts p) -> 0 < ring_area (verts p) ->
  periodic_polygon p = Ok [p; mkP (map (shift east) (verts p)); mkP (map (shift west) (verts p))].
Proof.
  intros F Y L C A. unfold periodic_polygon.
  rewrite (mapM_map_ok periodic_coordinates (fun c => [c; shift east c; shift west c])).
  2:{ intros x X. rewrite Forall_forall in F. destruct (F x X). rewrite periodic_coordinates_ok by lia.
      unfold shift, east, west. cbn [lon lat]. rewrite !Z.add_0_r. destruct x; reflexivity. }
  unfold bind at 1. 
  assert (S1 : forall d, (d = mkC 0 0 \/ d = east \/ d = west) -> make_polygon (map (shift d) (verts p)) = Ok (mkP (map (shift d) (verts p)))).
  { intros d D. apply fixed_clear.
    - apply Forall_forall. intros x X. apply in_map_iff in X. destruct X as (c & <- & X). rewrite Forall_forall in F.
      destruct (F c X). unfold pgeo, shift. cbn [lon lat]. destruct D as [->|[->| ->]]; unfold east, west; cbn [lon lat]; lia.
    - rewrite cyc_shift, Y. reflexivity.
    - rewrite map_length. exact L.
    - apply clear_area_shift, C.
    - rewrite ring_area_shift. exact A. }
  assert (S0 : map (shift (mkC 0 0)) (verts p) = verts p).
  { transitivity (map (fun c => c) (verts p)); [|apply map_id]. apply map_ext. intros [x y]. unfold shift. cbn [lon lat]. f_equal; lia. }
  assert (M0 : make_polygon (verts p) = Ok p) by (rewrite <- S0 at 1; rewrite S1 by auto; rewrite S0; destruct p; reflexivity).
  cbn [seq mapM]. rewrite !map_map. cbn [nth].
  rewrite map_id, M0. unfold bind. 
  change (map (fun x => shift east x) (verts p)) with (map (shift east) (verts p)).
  change (map (fun x => shift west x) (verts p)) with (map (shift west) (verts p)).
  rewrite !S1 by auto. reflexivity.
Qed.

(** the three copies of every polygon *)
Definition translates (p : polygon) : list polygon :=
  [p; mkP (map (shift east) (verts p)); mkP (map (shift west) (verts p))].

Definition clear_polygon (p : polygon) : Prop :=
  exists vs, Forall ngeo vs /\ no_repeats vs /\ clear_area vs /\ make_polygon vs = Ok p.

Lemma ngeo_pgeo c : ngeo c -> pgeo c. Proof. unfold ngeo, pgeo. lia. Qed.

Lemma clear_polygon_facts p : clear_polygon p ->
  Forall ngeo (verts p) /\ cyc (verts p) = verts p /\ (3 <= length (verts p))%nat /\ clear_area (verts p) /\ 0 < ring_area (verts p).
Proof.
  intros (vs & F & N & C & E). assert (FP : Forall pgeo vs) by (eapply Forall_impl; [|exact F]; apply ngeo_pgeo).
  rewrite make_polygon_clear in E by assumption. inversion E; subst p. cbn [verts].
  destruct (built_ring vs FP N C) as (_ & A). split; [|exact A].
  assert (G : Forall ngeo (cyc vs)) by (rewrite Forall_forall in *; intros x X; apply F, cyc_incl, X).
  unfold ccw. destruct (0 <? ring_area (cyc vs)); [exact G|apply Forall_rev, G].
Qed.

Lemma periodic_polygons_ok ps : Forall clear_polygon ps ->
  make_polygons_periodic ps = Ok (concat (map translates ps)).
Proof.
  intros F. unfold make_polygons_periodic.
  rewrite (mapM_map_ok periodic_polygon translates); [reflexivity|].
  intros p P. rewrite Forall_forall in F. destruct (clear_polygon_facts p (F p P)) as (A & B & C & D & E).
  apply periodic_polygon_ok; assumption.
Qed.

Lemma translate_home p q k : Forall ngeo (verts p) -> In q (translates p) -> (k < length (verts p))%nat ->
  length (verts q) = length (verts p) /\ normalize_coord (vat (verts q) k) = Ok (vat (verts p) k).
Proof.
  intros F Q K. assert (G : ngeo (vat (verts p) k)) by (rewrite Forall_forall in F; apply F, nth_In, K).
  assert (N : forall d, (d = east \/ d = west) -> vat (map (shift d) (verts p)) k = shift d (vat (verts p) k)).
  { intros d _. unfold vat. rewrite nth_indep with (d' := shift d (mkC 0 0)) by (rewrite map_length; exact K). apply map_nth. }
  destruct G as [G _]. set (c := vat (verts p) k) in *.
  destruct Q as [<-|[<-|[<-|[]]]]; cbn [verts].
  - split; [reflexivity|]. fold c. pose proof (normalize_shift c 0 ltac:(lia) ltac:(auto)) as E.
    rewrite Z.add_0_r in E. destruct c; exact E.
  - rewrite map_length. split; [reflexivity|]. rewrite N by auto. fold c. unfold shift, east. cbn [lon lat]. rewrite Z.add_0_r.
    apply normalize_shift; [lia|auto].
  - rewrite map_length. split; [reflexivity|]. rewrite N by auto. fold c. unfold shift, west. cbn [lon lat]. rewrite Z.add_0_r.
    apply normalize_shift; [lia|auto].
Qed.

Lemma periodic_polygons_full ps : Forall clear_polygon ps ->
  make_polygons_periodic ps = Ok (concat (map translates ps)) /\
  (forall p q k, In p ps -> In q (translates p) -> (k < length (verts p))%nat ->
     length (verts q) = length (verts p) /\ normalize_coord (vat (verts q) k) = Ok (vat (verts p) k)).
Proof.
  intros F. split; [apply periodic_polygons_ok, F|]. intros p q k P. apply translate_home.
  rewrite Forall_forall in F. apply clear_polygon_facts, F, P.
Qed.

(** construction with any order and bracketing of the winding sum *)
Definition built_in_some_order (vs : list coord) (p : polygon) : Prop :=
  exists r w, remove_collinear_vertices vs = Ok r /\ sums_to (terms r) w /\ p = mkP (normalize_with w r).

Lemma any_order_clear vs p : Forall pgeo vs -> no_repeats vs -> clear_area vs ->
  built_in_some_order vs p -> make_polygon vs = Ok p.
Proof.
  intros F N C (r & w & E & S & ->). rewrite remove_collinear_ok in E by exact F. inversion E; subst r.
  destruct (clear_cyc vs N C) as (C1 & _ & L).
  rewrite make_polygon_clear by assumption.
  rewrite (normalize_clear _ w (cyc_pgeo vs F) L C1 S). reflexivity.
Qed.
Lemma model_order vs p : Forall pgeo vs -> make_polygon vs = Ok p -> built_in_some_order vs p.
Proof.
  intros F E. rewrite make_polygon_pure in E by exact F. inversion E. 
  exists (cyc vs), (winding_sum (cyc vs)). split; [apply remove_collinear_ok, F|]. split; [apply winding_sum_sums|reflexivity].
Qed.

Lemma clear_ccw vs : Forall pgeo vs -> no_repeats vs -> clear_area vs ->
  (exists p, make_polygon vs = Ok p) /\
  forall p, built_in_some_order vs p ->
    0 < ring_area (verts p) /\ ring_area (verts p) = Z.abs (ring_area vs).
Proof.
  intros F N C. split; [exists (mkP (ccw (cyc vs))); apply make_polygon_clear; assumption|].
  intros p B. apply any_order_clear in B; try assumption. rewrite make_polygon_clear in B by assumption.
  inversion B; subst p. cbn [verts]. destruct (built_ring vs F N C) as (_ & _ & _ & _ & P). split; [exact P|].
  rewrite ccw_area. f_equal. apply clear_cyc; assumption.
Qed.
