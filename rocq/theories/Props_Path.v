(** C49-C58: paths.  Beside each theorem an example meets its hypotheses. *)
From Coq Require Import ZArith Reals Bool List Lia Lra Psatz Permutation.
From Flocq Require Import Core.
From Flocq Require Import BinarySingleNaN.
From Verif Require Import Base F64 Coordinate Segment Polygon SpecGeom SpecGraph F64Facts CoordinateFacts SegmentFacts Periodicity PeriodicityFacts
  Graph GraphFacts GraphMore Overlay OverlayFacts Visgraph Sweep SweepFacts SweepMaps SweepGen SweepCases
  ShortestPath DistFacts SearchFacts SearchSpec SearchGraph SearchQuery PathFacts PathMore.
Import ListNotations.
Local Open Scope R_scope.

(** ** A map for the examples: two ways from [S0] to [T0], one a little longer *)
Definition S0 : coord := mkC 0 0.
Definition T0 : coord := mkC 180000000 0.
Definition P0 : coord := mkC 90000000 1.
Definition Q0 : coord := mkC 90000000 0.
Definition island (a : coord) (up : Z) : polygon := mkP [a; mkC (lon a - 1000000) (up * 5000000); mkC (lon a - 2000000) (up * 5000000)].
Definition map0 : list polygon := [island S0 1; island T0 1; island P0 1; island Q0 (-1)].
Definition ways0 : list gop := [GAdd S0 P0 false; GAdd P0 T0 false; GAdd S0 Q0 false; GAdd Q0 T0 false].
Definition g0 : graph := match grun (make_graph map0) ways0 with Ok g => g | _ => make_graph [] end.
Definition sea : index := mkI (fun _ => false) (fun _ => Ok (mkS S0 P0)) (fun _ => [mkS P0 Q0]) (fun _ c => S0).
(** the first of the best, and the last *)
Fixpoint first_best (w : f64) (l : list helem) : nat :=
  match l with
  | [] => 0
  | x :: l' => match l' with [] => 0 | _ => let j := first_best w l' in if fltb (priority w (nth j l' x)) (priority w x) then S j else 0 end
  end%nat.
Fixpoint last_best (w : f64) (l : list helem) : nat :=
  match l with
  | [] => 0
  | x :: l' => match l' with [] => 0 | _ => let j := last_best w l' in if fleb (priority w (nth j l' x)) (priority w x) then S j else 0 end
  end%nat.
Definition no_rows (c : coord) (l : list (coord * ninfo)) := l.
Definition en0 (pick : f64 -> list helem -> nat) (w : f64) : env := mkEnv sea (fun _ => Ok []) no_rows (fun _ => pick w).
Definition f_max : f64 := @B754_finite 53 1024 false 9007199254740991 971 eq_refl.

Lemma first_best_cons w x y l : first_best w (x :: y :: l) =
  if fltb (priority w (nth (first_best w (y :: l)) (y :: l) x)) (priority w x) then S (first_best w (y :: l)) else O.
Proof. reflexivity. Qed.
Lemma first_best_lt w l : (0 < length l -> first_best w l < length l)%nat.
Proof.
  induction l as [|x l IH]; intros L; [cbn in L; lia|]. destruct l as [|y l]; [cbn; lia|]. rewrite first_best_cons.
  destruct (fltb _ _); cbn [length] in *; [|lia]. specialize (IH ltac:(lia)). lia.
Qed.
Lemma last_best_cons w x y l : last_best w (x :: y :: l) =
  if fleb (priority w (nth (last_best w (y :: l)) (y :: l) x)) (priority w x) then S (last_best w (y :: l)) else O.
Proof. reflexivity. Qed.
Lemma last_best_lt w l : (0 < length l -> last_best w l < length l)%nat.
Proof.
  induction l as [|x l IH]; intros L; [cbn in L; lia|]. destruct l as [|y l]; [cbn; lia|]. rewrite last_best_cons.
  destruct (fleb _ _); cbn [length] in *; [|lia]. specialize (IH ltac:(lia)). lia.
Qed.
Lemma best_minimal w (best : list helem -> nat) :
  (forall l, (0 < length l -> best l < length l)%nat) ->
  (forall x y l, exists b : bool, best (x :: y :: l) = (if b then S (best (y :: l)) else O) /\
     (is_finite (priority w x) = true -> is_finite (priority w (nth (best (y :: l)) (y :: l) x)) = true ->
      if b then V (priority w (nth (best (y :: l)) (y :: l) x)) <= V (priority w x) else V (priority w x) <= V (priority w (nth (best (y :: l)) (y :: l) x)))) ->
  minimal w (fun _ => best).
Proof.
  intros Lt St k heap x0 I0 F. assert (L : (best heap < length heap)%nat) by (apply Lt; destruct heap; [destruct I0|cbn; lia]).
  rewrite Nat.mod_small by exact L.
  assert (K : forall y, In y heap -> V (priority w (nth (best heap) heap x0)) <= V (priority w y)).
  { clear I0. revert F L. induction heap as [|x heap IH]; intros F L y Iy; [destruct Iy|]. destruct heap as [|z heap].
    - destruct Iy as [<-|[]]. replace (best [x]) with O by (cbn [length] in L; lia). cbn [nth]. apply Rle_refl.
    - destruct (St x z heap) as (b & E & H).
      assert (L' : (best (z :: heap) < length (z :: heap))%nat) by (apply Lt; cbn; lia).
      assert (Fx : is_finite (priority w x) = true) by (apply F; left; reflexivity).
      assert (F' : forall y, In y (z :: heap) -> is_finite (priority w y) = true) by (intros q Iq; apply F; right; exact Iq).
      assert (N : nth (best (z :: heap)) (z :: heap) x0 = nth (best (z :: heap)) (z :: heap) x) by (apply nth_indep; exact L').
      specialize (IH F' L'). rewrite N in IH. specialize (H Fx (F' _ (nth_In _ _ L'))).
      rewrite E in *. destruct b; [change (nth (S (best (z :: heap))) (x :: z :: heap) x0) with (nth (best (z :: heap)) (z :: heap) x0); rewrite N|change (nth 0 (x :: z :: heap) x0) with x].
      + destruct Iy as [<-|Iy]; [exact H|apply IH; exact Iy].
      + destruct Iy as [<-|Iy]; [apply Rle_refl|]. eapply Rle_trans; [exact H|apply IH; exact Iy]. }
  intros y Iy. assert (In (nth (best heap) heap x0) heap) by (apply nth_In; exact L).
  destruct (fltb (priority w y) (priority w (nth (best heap) heap x0))) eqn:B; [|reflexivity].
  apply fltb_iff in B; [|apply F; assumption..]. specialize (K y Iy). lra.
Qed.
Lemma first_best_minimal w : minimal w (fun _ => first_best w).
Proof.
  apply best_minimal; [apply first_best_lt|]. intros x y l. rewrite first_best_cons. eexists. split; [reflexivity|]. intros Fx Fy.
  destruct (fltb (priority w (nth (first_best w (y :: l)) (y :: l) x)) (priority w x)) eqn:B.
  - apply fltb_iff in B; [lra|assumption..].
  - apply Rnot_lt_le. intros C. apply (proj2 (fltb_iff _ _ Fy Fx)) in C. congruence.
Qed.
Lemma last_best_minimal w : minimal w (fun _ => last_best w).
Proof.
  apply best_minimal; [apply last_best_lt|]. intros x y l. rewrite last_best_cons. eexists. split; [reflexivity|]. intros Fx Fy.
  destruct (fleb (priority w (nth (last_best w (y :: l)) (y :: l) x)) (priority w x)) eqn:B.
  - apply fleb_iff in B; [lra|assumption..].
  - apply Rlt_le, Rnot_le_lt. intros C. apply (proj2 (fleb_iff _ _ Fy Fx)) in C. congruence.
Qed.

Lemma g0_built : built g0.
Proof. exists map0, ways0. split; [repeat constructor|vm_compute; reflexivity]. Qed.
Lemma g0_ngeo c : In c (get_vertices g0) -> ngeo c.
Proof. intros H. vm_compute in H. repeat (destruct H as [<-|H]; [split; vm_compute; congruence|]). destruct H. Qed.
Lemma sea_in_range : index_in_range sea.
Proof. intros c _ L. discriminate L. Qed.
Lemma en0_fit pick w : fit_for_queries (en0 pick w) g0.
Proof.
  split; [exact g0_built|]. split; [exact g0_ngeo|]. split; [intros v l; reflexivity|]. split; [|exact sea_in_range].
  intros c _. exists []. split; [reflexivity|intros p []].
Qed.
Lemma ends_in_the_map : in_the_map S0 /\ in_the_map T0.
Proof. repeat split; vm_compute; congruence. Qed.
Definition lc0 : correction := mkLC S0 T0 None None.
Lemma lc0_correction pick w : correction_of (en0 pick w) S0 T0 lc0.
Proof. exists S0, T0. repeat split; try (vm_compute; reflexivity); left; repeat split. Qed.
Lemma lc0_searched pick w : searched (en0 pick w) lc0.
Proof. apply searched_other; intros H. discriminate H. Qed.
Lemma lc0_swapped pick w : correction_of (en0 pick w) T0 S0 (swap lc0).
Proof. exact (swap_correction (en0 pick w) (en0 pick w) _ _ _ eq_refl (lc0_correction pick w)). Qed.
Lemma first_path : shortest_path 10 (en0 first_best f_1) g0 S0 T0 f_max true = Some (Ok [S0; P0; T0]).
Proof. vm_compute. reflexivity. Qed.
Lemma last_path : shortest_path 10 (en0 last_best f_1) g0 T0 S0 f_max true = Some (Ok [T0; Q0; S0]).
Proof. vm_compute. reflexivity. Qed.
Definition roads0 := road g0 (fun _ => Ok []) lc0.
Lemma roads0_edge u v : answer g0 u v = Some false -> roads0 u v false.
Proof. intros H. left. exact H. Qed.
Lemma long_way : journey roads0 S0 [P0; T0] T0 (edge_length false S0 P0 + (edge_length false P0 T0 + 0)).
Proof. repeat (constructor; [apply roads0_edge; vm_compute; reflexivity|]). constructor. Qed.
Lemma short_way : journey roads0 S0 [Q0; T0] T0 (edge_length false S0 Q0 + (edge_length false Q0 T0 + 0)).
Proof. repeat (constructor; [apply roads0_edge; vm_compute; reflexivity|]). constructor. Qed.
Lemma short_way_back : journey roads0 T0 [Q0; S0] S0 (edge_length false T0 Q0 + (edge_length false Q0 S0 + 0)).
Proof. repeat (constructor; [apply roads0_edge; vm_compute; reflexivity|]). constructor. Qed.
Lemma lengths0 : edge_length false S0 Q0 = 90000000 /\ edge_length false Q0 T0 = 90000000 /\ 90000000 < edge_length false S0 P0 /\ 90000000 < edge_length false P0 T0.
Proof.
  unfold edge_length, apart, S0, T0, P0, Q0, Rsqr. cbn [lon lat].
  assert (A : forall x y, x = y * y -> 0 <= y -> sqrt x = y) by (intros x y -> H; apply sqrt_square; exact H).
  assert (B : forall x y, y * y < x -> 0 <= y -> y < sqrt x) by (intros x y L H; rewrite <- (sqrt_square y) by exact H; apply sqrt_lt_1; nra).
  split; [apply A; lra|]. split; [apply A; lra|]. split; apply B; lra.
Qed.
Lemma all_within0 s l : ngeo s -> Forall ngeo l -> Forall (within s f_max) l.
Proof.
  intros Gs F. apply Forall_forall. intros v Iv. rewrite Forall_forall in F. specialize (F v Iv). destruct (heuristic_ok s v Gs F) as (h & E & M).
  exists h. split; [exact E|]. apply (unlimited_finite f_max) with (a := s) (b := v); [reflexivity| |assumption..].
  change (V f_max) with (IZR 9007199254740991 * bpow radix2 971). apply Rle_trans with (IZR 9007199254740991 * 1); [lra|].
  apply Rmult_le_compat_l; [lra|]. change 1 with (bpow radix2 0). apply bpow_le. lia.
Qed.

(** C49.  Every graph built by its operations, every query on the globe, every weighting, tie-break
    and iteration order, whatever the sweep and the index answer (within the globe). *)
Theorem C49_paths_are_real : forall en g source destination radius flag, fit_for_queries en g -> in_the_map source -> in_the_map destination ->
  forall fuel path, shortest_path fuel en g source destination radius flag = Some (Ok path) ->
  exists lc, correction_of en source destination lc /\
    ((~ searched en lc /\ path = [lc_source lc; lc_dest lc]) \/
     (searched en lc /\ exists l r, path = lc_source lc :: l /\ NoDup path /\
        journey (road g (en_vis en) lc) (lc_source lc) l (lc_dest lc) r)).
Proof. exact query_path. Qed.
Print Assumptions C49_paths_are_real.
Example C49_ex : fit_for_queries (en0 first_best f_1) g0 /\ in_the_map S0 /\ in_the_map T0 /\
  shortest_path 10 (en0 first_best f_1) g0 S0 T0 f_max true = Some (Ok [S0; P0; T0]) /\
  journey (road g0 (en_vis (en0 first_best f_1)) lc0) S0 [P0; T0] T0 (edge_length false S0 P0 + (edge_length false P0 T0 + 0)).
Proof. split; [apply en0_fit|]. split; [apply ends_in_the_map|]. split; [apply ends_in_the_map|]. split; [exact first_path|exact long_way]. Qed.
(** the sweep of the program is fit for every map on the globe *)
Theorem C49_sweep_fits : forall atan2 ords g, built g -> (forall c, In c (get_vertices g) -> ngeo c) -> (forall c, library_orders (ords c)) ->
  sweep_answers (endpoint_vis atan2 ords g).
Proof. exact endpoint_vis_answers. Qed.
Print Assumptions C49_sweep_fits.
Example C49_sweep_ex : built g0 /\ (forall c, In c (get_vertices g0) -> ngeo c).
Proof. split; [exact g0_built|exact g0_ngeo]. Qed.

(** C50.  Missing: exactness.  The lengths are sums of rounded square roots, so the returned path
    can be longer than another by the rounding (the refutation below); here the rounding is
    accounted for in full, and for paths of up to a million points it is below one part in two
    billion.  Finite weightings up to 2^900. *)
Theorem C50_shortest_partial : forall en g source destination radius flag, fit_for_queries en g -> in_the_map source -> in_the_map destination ->
  forall fuel path lc w, shortest_path fuel en g source destination radius flag = Some (Ok path) ->
  correction_of en source destination lc -> searched en lc -> minimal w (en_pick en) -> is_finite w = true -> Rabs (V w) <= bpow radix2 900 ->
  exists l r, path = lc_source lc :: l /\ journey (road g (en_vis en) lc) (lc_source lc) l (lc_dest lc) r /\
    forall l' r', journey (road g (en_vis en) lc) (lc_source lc) l' (lc_dest lc) r' -> Forall (within (lc_source lc) radius) l' ->
      r * ((1 - u5) * (1 - uu) ^ length l) <= Rmax 1 (V w) * r' * ((1 + u5) * (1 + uu) ^ (length l' + 2)).
Proof. exact query_optimal. Qed.
Print Assumptions C50_shortest_partial.
Theorem C50_million_points_partial : forall en g source destination radius flag, fit_for_queries en g -> in_the_map source -> in_the_map destination ->
  forall fuel path lc w, shortest_path fuel en g source destination radius flag = Some (Ok path) -> (Z.of_nat (length path) <= 1000000)%Z ->
  correction_of en source destination lc -> searched en lc -> minimal w (en_pick en) -> is_finite w = true -> Rabs (V w) <= bpow radix2 900 ->
  exists l r, path = lc_source lc :: l /\ journey (road g (en_vis en) lc) (lc_source lc) l (lc_dest lc) r /\
    forall l' r', journey (road g (en_vis en) lc) (lc_source lc) l' (lc_dest lc) r' -> Forall (within (lc_source lc) radius) l' ->
      (Z.of_nat (length l') <= 1000000)%Z -> r <= Rmax 1 (V w) * r' * (1 + / 2000000000).
Proof.
  intros en g s d radius flag Fit Ms Md fuel path lc w E Len Co Se Mn Fw Bw.
  destruct (query_optimal en g s d radius flag Fit Ms Md fuel path lc w E Co Se Mn Fw Bw) as (l & r & -> & J & O).
  exists l, r. split; [reflexivity|]. split; [exact J|]. intros l' r' J' W' Len'. cbn [length] in Len.
  apply (rounding_factor r (Rmax 1 (V w)) r' (length l) (length l')); [eapply journey_pos; exact J|apply Rmax_l|eapply journey_pos; exact J'|lia|lia|].
  apply O; assumption.
Qed.
Print Assumptions C50_million_points_partial.
Example C50_ex : minimal f_1 (en_pick (en0 first_best f_1)) /\ correction_of (en0 first_best f_1) S0 T0 lc0 /\ searched (en0 first_best f_1) lc0 /\
  is_finite f_1 = true /\ Rabs (V f_1) <= bpow radix2 900 /\
  journey roads0 S0 [Q0; T0] T0 (edge_length false S0 Q0 + (edge_length false Q0 T0 + 0)) /\ Forall (within S0 f_max) [Q0; T0].
Proof.
  split; [apply first_best_minimal|]. split; [apply lc0_correction|]. split; [apply lc0_searched|]. split; [reflexivity|]. split.
  { rewrite (proj1 V_f1), Rabs_R1. change 1 with (bpow radix2 0). apply bpow_le. lia. }
  split; [exact short_way|]. apply all_within0; repeat constructor; vm_compute; congruence.
Qed.
(** false of the code: both ways add up to the same double, and the longer one is returned *)
Theorem C50_shortest_refuted : ~ (forall en g source destination radius flag, fit_for_queries en g -> in_the_map source -> in_the_map destination ->
  forall fuel lc l r w, shortest_path fuel en g source destination radius flag = Some (Ok (lc_source lc :: l)) ->
  correction_of en source destination lc -> searched en lc -> minimal w (en_pick en) -> is_finite w = true -> V w = 1 ->
  journey (road g (en_vis en) lc) (lc_source lc) l (lc_dest lc) r ->
  forall l' r', journey (road g (en_vis en) lc) (lc_source lc) l' (lc_dest lc) r' -> Forall (within (lc_source lc) radius) l' -> r <= r').
Proof.
  intros H. destruct ends_in_the_map as [Ms Md].
  pose proof (H (en0 first_best f_1) g0 S0 T0 f_max true (en0_fit _ _) Ms Md 10%nat lc0 [P0; T0] _ f_1 first_path (lc0_correction _ _) (lc0_searched _ _)
    (first_best_minimal f_1) eq_refl (proj1 V_f1) long_way [Q0; T0] _ short_way) as L.
  assert (W : Forall (within (lc_source lc0) f_max) [Q0; T0]) by (apply all_within0; repeat constructor; vm_compute; congruence).
  specialize (L W). destruct lengths0 as (A & B & C & D). lra.
Qed.
Print Assumptions C50_shortest_refuted.

(** C51.  If the endpoints are acceptable (at sea or correction on) and something is in the way,
    the query ends with a path or with NoPath; with NoPath only if no path through vertices
    within the radius exists, with a path only if one does. *)
Theorem C51_failure_means_unreachable : forall en g source destination radius flag, fit_for_queries en g -> in_the_map source -> in_the_map destination ->
  forall fuel lc r, shortest_path fuel en g source destination radius flag = Some r -> correction_of en source destination lc -> searched en lc ->
  flag = true \/ (exists ns nd, normalize_coord source = Ok ns /\ normalize_coord destination = Ok nd /\
                   ix_contains (en_index en) ns = false /\ ix_contains (en_index en) nd = false) ->
  (exists path, r = Ok path) \/
  (r = Throw NoPath /\ ~ exists l d, journey (road g (en_vis en) lc) (lc_source lc) l (lc_dest lc) d /\ Forall (within (lc_source lc) radius) l).
Proof. exact query_failure. Qed.
Print Assumptions C51_failure_means_unreachable.
Theorem C51_success_means_reachable : forall en g source destination radius flag, fit_for_queries en g -> in_the_map source -> in_the_map destination ->
  forall fuel lc path, shortest_path fuel en g source destination radius flag = Some (Ok path) -> correction_of en source destination lc -> searched en lc ->
  exists l r, path = lc_source lc :: l /\ journey (road g (en_vis en) lc) (lc_source lc) l (lc_dest lc) r /\ Forall (within (lc_source lc) radius) l.
Proof. exact query_success. Qed.
Print Assumptions C51_success_means_reachable.
(** with a radius of one degree nothing is found *)
Example C51_ex : shortest_path 10 (en0 first_best f_1) g0 S0 T0 f_1 false = Some (Throw NoPath) /\
  ix_contains (en_index (en0 first_best f_1)) S0 = false /\ ix_contains (en_index (en0 first_best f_1)) T0 = false /\
  shortest_path 10 (en0 first_best f_1) g0 S0 T0 f_max true = Some (Ok [S0; P0; T0]).
Proof. repeat split; vm_compute; reflexivity. Qed.

(** C52.  For any picks at all, and for any radius and weighting (NaN included). *)
Theorem C52_terminates : forall en g source destination radius flag, fit_for_queries en g -> in_the_map source -> in_the_map destination ->
  exists n, forall fuel, (n <= fuel)%nat -> shortest_path fuel en g source destination radius flag <> None /\
    forall u, shortest_path fuel en g source destination radius flag <> Some (UB u).
Proof. exact query_terminates. Qed.
Print Assumptions C52_terminates.
(** it may need several iterations *)
Example C52_ex : fit_for_queries (en0 first_best f_1) g0 /\ in_the_map S0 /\ in_the_map T0 /\
  shortest_path 3 (en0 first_best f_1) g0 S0 T0 f_max true = None /\ shortest_path 4 (en0 first_best f_1) g0 S0 T0 f_max true = Some (Ok [S0; P0; T0]).
Proof. split; [apply en0_fit|]. split; [apply ends_in_the_map|]. split; [apply ends_in_the_map|]. split; vm_compute; reflexivity. Qed.

(** C53.  Missing: the direct two-point path, which is returned whatever the radius. *)
Theorem C53_radius_partial : forall en g source destination radius flag, fit_for_queries en g -> in_the_map source -> in_the_map destination ->
  forall fuel path lc, shortest_path fuel en g source destination radius flag = Some (Ok path) -> correction_of en source destination lc -> searched en lc ->
  is_finite radius = true ->
  forall v, In v path -> v = lc_source lc \/ (ngeo v /\ micro * cylinder (lc_source lc) v * (1 - u5) <= V radius).
Proof. exact query_radius. Qed.
Print Assumptions C53_radius_partial.
Example C53_ex : is_finite f_max = true /\ searched (en0 first_best f_1) lc0 /\ In T0 [S0; P0; T0] /\ T0 <> S0.
Proof. split; [reflexivity|]. split; [apply lc0_searched|]. split; [right; right; left; reflexivity|discriminate]. Qed.
Definition open_sea : index := mkI (fun _ => false) (fun _ => Ok (mkS S0 P0)) (fun _ => []) (fun _ c => S0).
Theorem C53_radius_refuted : ~ (forall en g source destination radius flag, fit_for_queries en g -> in_the_map source -> in_the_map destination ->
  forall fuel path lc, shortest_path fuel en g source destination radius flag = Some (Ok path) -> correction_of en source destination lc ->
  is_finite radius = true -> forall v, In v path -> v = lc_source lc \/ (ngeo v /\ micro * cylinder (lc_source lc) v * (1 - u5) <= V radius)).
Proof.
  intros H. destruct ends_in_the_map as [Ms Md].
  set (en := mkEnv open_sea (fun _ => Ok []) no_rows (fun _ => first_best f_1)).
  assert (Fit : fit_for_queries en g0).
  { destruct (en0_fit first_best f_1) as (A & B & C & D & E). split; [exact A|]. split; [exact B|]. split; [exact C|]. split; [exact D|]. exact E. }
  assert (Co : correction_of en S0 T0 lc0) by (exists S0, T0; repeat split; try (vm_compute; reflexivity); left; repeat split).
  destruct (H en g0 S0 T0 f_1 true Fit Ms Md 1%nat [S0; T0] lc0 ltac:(vm_compute; reflexivity) Co eq_refl T0 (or_intror (or_introl eq_refl))) as [X|[_ X]]; [discriminate X|].
  rewrite (proj1 V_f1) in X. pose proof micro_bounds as M. rewrite u5_val in X.
  assert (C : 90000000 <= cylinder (lc_source lc0) T0).
  { unfold cylinder, edge_length, apart, lc0, lc_source, turned, S0, T0, Rsqr. cbn [lon lat].
    assert (K : forall x y, y * y <= x -> 0 <= y -> y <= sqrt x) by (intros x y L P; rewrite <- (sqrt_square y) by exact P; apply sqrt_le_1_alt; exact L).
    repeat apply Rmin_glb; apply K; try lra; apply Rle_trans with ((0 - 180000000) * (0 - 180000000)); cbn; lra. }
  nra.
Qed.
Print Assumptions C53_radius_refuted.

(** C54.  Every schedule of the parallel loop, every list of pairs. *)
Theorem C54_batch_is_aligned : forall fuel ens g pairs radius flag schedule rs,
  Permutation schedule (seq 0 (length pairs)) -> shortest_paths fuel ens g pairs radius flag schedule = Some (Ok rs) ->
  length rs = length pairs /\
  forall i a b, nth_error pairs i = Some (a, b) -> exists r, nth_error rs i = Some r /\ tells (shortest_path fuel (ens i) g a b radius flag) r.
Proof. exact batch_results. Qed.
Print Assumptions C54_batch_is_aligned.
Theorem C54_batch_total : forall ens g pairs radius flag, (forall i, (i < length pairs)%nat -> fit_for_queries (ens i) g) ->
  (forall a b, In (a, b) pairs -> in_the_map a /\ in_the_map b) ->
  exists n, forall fuel schedule, (n <= fuel)%nat -> Permutation schedule (seq 0 (length pairs)) ->
    exists rs, shortest_paths fuel ens g pairs radius flag schedule = Some (Ok rs).
Proof. exact batch_total. Qed.
Print Assumptions C54_batch_total.
(** the second query fails, the others are not affected *)
Example C54_ex : Permutation [1; 2; 0]%nat (seq 0 3) /\
  shortest_paths 10 (fun _ => en0 first_best f_1) g0 [(S0, T0); (S0, mkC 1 1); (T0, S0)] f_max true [1; 2; 0]%nat =
  Some (Ok [mkBR (Some [S0; P0; T0]) None; mkBR None (Some NoPath); mkBR (Some [T0; P0; S0]) None]).
Proof.
  split; [|vm_compute; reflexivity]. cbn [seq]. apply Permutation_sym.
  apply (perm_trans (l' := [1; 0; 2]%nat)); [apply perm_swap|apply perm_skip, perm_swap].
Qed.

(** C55.  Every answer of the index about land, every flag. *)
Theorem C55_land : forall en g source destination radius flag, fit_for_queries en g -> in_the_map source -> in_the_map destination ->
  exists ns nd, normalize_coord source = Ok ns /\ normalize_coord destination = Ok nd /\
  (flag = false -> ix_contains (en_index en) ns || ix_contains (en_index en) nd = true ->
     forall fuel, shortest_path fuel en g source destination radius flag = Some (Throw OnLand)) /\
  (flag = true \/ (ix_contains (en_index en) ns = false /\ ix_contains (en_index en) nd = false) ->
     exists s' d' es ed, moved (en_index en) ns s' es /\ moved (en_index en) nd d' ed /\
       handle_land_collisions (en_index en) ns nd flag = Ok (mkLC s' d' es ed) /\
       forall fuel, shortest_path fuel en g source destination radius flag <> Some (Throw OnLand) /\
         forall path, shortest_path fuel en g source destination radius flag = Some (Ok path) -> hd_error path = Some s' /\ last path s' = d').
Proof. exact query_land. Qed.
Print Assumptions C55_land.
(** both endpoints on land, the first moved to (1, 1), the second to (2, 2) *)
Definition land : index := mkI (fun _ => true) (fun c => Ok (mkS c (mkC 5 5))) (fun _ => []) (fun s _ => if coord_eqb (e1 s) S0 then mkC 1 1 else mkC 2 2).
Example C55_ex : shortest_path 1 (mkEnv land (fun _ => Ok []) no_rows (fun _ => first_best f_1)) g0 S0 T0 f_max true = Some (Ok [mkC 1 1; mkC 2 2]) /\
  shortest_path 1 (mkEnv land (fun _ => Ok []) no_rows (fun _ => first_best f_1)) g0 S0 T0 f_max false = Some (Throw OnLand).
Proof. split; vm_compute; reflexivity. Qed.

(** C56.  Symmetric, positive, zero only between equal points and never more than an edge, all
    exactly; the triangle inequality up to the rounding of the square roots.  Missing: the exact
    triangle inequality, which is false. *)
Theorem C56_metric_partial : forall a b, ngeo a -> ngeo b -> exists d, heuristic_distance a b = Ok d /\ is_finite d = true /\ 0 <= V d /\
  (V d = 0 <-> a = b) /\ (forall f e, distance_measurement a b f = Ok e -> V d <= V e) /\
  (forall d', heuristic_distance b a = Ok d' -> V d' = V d).
Proof. exact heuristic_metric. Qed.
Print Assumptions C56_metric_partial.
Theorem C56_triangle_partial : forall a b c x y z, ngeo a -> ngeo b -> ngeo c ->
  heuristic_distance a b = Ok x -> heuristic_distance b c = Ok y -> heuristic_distance a c = Ok z ->
  V z * (1 - u5) <= (V x + V y) * (1 + u5).
Proof. exact heuristic_triangle. Qed.
Print Assumptions C56_triangle_partial.
Example C56_ex : ngeo (mkC 179999999 0) /\ ngeo (mkC (-179999999) 1) /\ cylinder (mkC 179999999 0) (mkC (-179999999) 1) < 4.
Proof.
  split; [split; vm_compute; congruence|]. split; [split; vm_compute; congruence|].
  eapply Rle_lt_trans; [apply (cylinder_le _ _ (-1)); split; vm_compute; congruence|]. unfold apart, turned, Rsqr. cbn [lon lat].
  rewrite <- (sqrt_square 4) by lra. apply sqrt_lt_1; cbn; lra.
Qed.
Theorem C56_triangle_refuted : ~ (forall a b c x y z, ngeo a -> ngeo b -> ngeo c ->
  heuristic_distance a b = Ok x -> heuristic_distance b c = Ok y -> heuristic_distance a c = Ok z -> V z <= V x + V y).
Proof. exact triangle_fails. Qed.
Print Assumptions C56_triangle_refuted.

(** C57.  Missing: exactness, for the same reason as in C50.  The two searches may use different
    tie-breaks and iteration orders. *)
Theorem C57_symmetric_partial : forall en en' g source destination radius flag, fit_for_queries en g -> fit_for_queries en' g ->
  in_the_map source -> in_the_map destination -> en_index en = en_index en' -> en_vis en = en_vis en' -> crosses_either_way (en_index en) ->
  forall fuel fuel' path path' w, unlimited radius -> minimal w (en_pick en) -> minimal w (en_pick en') -> is_finite w = true -> Rabs (V w) <= bpow radix2 900 ->
  shortest_path fuel en g source destination radius flag = Some (Ok path) ->
  shortest_path fuel' en' g destination source radius flag = Some (Ok path') ->
  exists lc, correction_of en source destination lc /\
    ((~ searched en lc /\ path' = rev path) \/
     exists l r l' r', path = lc_source lc :: l /\ journey (road g (en_vis en) lc) (lc_source lc) l (lc_dest lc) r /\
       path' = lc_dest lc :: l' /\ journey (road g (en_vis en) lc) (lc_dest lc) l' (lc_source lc) r' /\
       r * ((1 - u5) * (1 - uu) ^ length l) <= Rmax 1 (V w) * r' * ((1 + u5) * (1 + uu) ^ (length l' + 2)) /\
       r' * ((1 - u5) * (1 - uu) ^ length l') <= Rmax 1 (V w) * r * ((1 + u5) * (1 + uu) ^ (length l + 2))).
Proof. exact swap_path. Qed.
Print Assumptions C57_symmetric_partial.
(** whether there is a path does not depend on the direction *)
Theorem C57_failure_symmetric : forall en en' g source destination radius flag, fit_for_queries en g -> fit_for_queries en' g ->
  in_the_map source -> in_the_map destination -> en_index en = en_index en' -> en_vis en = en_vis en' -> crosses_either_way (en_index en) ->
  forall fuel fuel' e r', unlimited radius -> shortest_path fuel en g source destination radius flag = Some (Throw e) ->
  shortest_path fuel' en' g destination source radius flag = Some r' -> r' = Throw e.
Proof. exact swap_failure. Qed.
Print Assumptions C57_failure_symmetric.
Example C57_ex : fit_for_queries (en0 first_best f_1) g0 /\ fit_for_queries (en0 last_best f_1) g0 /\
  crosses_either_way (en_index (en0 first_best f_1)) /\ unlimited f_max /\ unlimited (B754_infinity false) /\
  minimal f_1 (en_pick (en0 first_best f_1)) /\ minimal f_1 (en_pick (en0 last_best f_1)) /\
  shortest_path 10 (en0 first_best f_1) g0 S0 T0 f_max true = Some (Ok [S0; P0; T0]) /\
  shortest_path 10 (en0 last_best f_1) g0 T0 S0 f_max true = Some (Ok [T0; Q0; S0]) /\
  shortest_path 10 (en0 first_best f_1) g0 S0 (mkC 1 1) f_max true = Some (Throw NoPath) /\
  shortest_path 10 (en0 last_best f_1) g0 (mkC 1 1) S0 f_max true = Some (Throw NoPath).
Proof.
  split; [apply en0_fit|]. split; [apply en0_fit|]. split; [intros s d x H; exact H|]. split.
  { apply unlimited_finite; [reflexivity|]. change (V f_max) with (IZR 9007199254740991 * bpow radix2 971).
    apply Rle_trans with (IZR 9007199254740991 * 1); [lra|]. apply Rmult_le_compat_l; [lra|]. change 1 with (bpow radix2 0). apply bpow_le. lia. }
  split; [exact unlimited_infinity|]. split; [apply first_best_minimal|]. split; [apply last_best_minimal|].
  split; [exact first_path|]. split; [exact last_path|]. split; vm_compute; reflexivity.
Qed.
Theorem C57_symmetric_refuted : ~ (forall en en' g source destination radius flag, fit_for_queries en g -> fit_for_queries en' g ->
  in_the_map source -> in_the_map destination -> en_index en = en_index en' -> en_vis en = en_vis en' -> crosses_either_way (en_index en) ->
  forall fuel fuel' lc l l' r r' w, unlimited radius -> minimal w (en_pick en) -> minimal w (en_pick en') -> is_finite w = true -> V w = 1 ->
  correction_of en source destination lc ->
  shortest_path fuel en g source destination radius flag = Some (Ok (lc_source lc :: l)) ->
  shortest_path fuel' en' g destination source radius flag = Some (Ok (lc_dest lc :: l')) ->
  journey (road g (en_vis en) lc) (lc_source lc) l (lc_dest lc) r -> journey (road g (en_vis en) lc) (lc_dest lc) l' (lc_source lc) r' -> r = r').
Proof.
  intros H. destruct ends_in_the_map as [Ms Md]. destruct C57_ex as (F & F' & Cr & Un & _ & M & M' & E & E' & _).
  pose proof (H (en0 first_best f_1) (en0 last_best f_1) g0 S0 T0 f_max true F F' Ms Md eq_refl eq_refl Cr 10%nat 10%nat lc0 [P0; T0] [Q0; S0] _ _ f_1
    Un M M' eq_refl (proj1 V_f1) (lc0_correction _ _) E E' long_way short_way_back) as X.
  destruct lengths0 as (A & B & C & D). rewrite (edge_length_sym false T0 Q0), B, (edge_length_sym false Q0 S0), A in X. lra.
Qed.
Print Assumptions C57_symmetric_refuted.

(** C58.  Missing: vertices seen across the meridian.  In the graph a query searches each endpoint
    that is new is joined to every map vertex, and straight, unless the vertex lies behind the
    shore the endpoint was moved to or a polygon edge meets the straight line.  It is never
    joined to anything across the meridian. *)
Theorem C58_endpoint_sees_partial : forall atan2 ords rows g lc e shore v, built g -> (forall c, In c (get_vertices g) -> ngeo c) ->
  (forall c, library_orders (ords c)) -> row_orders rows -> ngeo (lc_source lc) -> ngeo (lc_dest lc) ->
  (forall seg, lc_source_edge lc = Some seg -> pgeo_seg seg) -> (forall seg, lc_dest_edge lc = Some seg -> pgeo_seg seg) ->
  query_end lc e shore -> has_vertex g e = false -> In v (get_vertices g) ->
  exists sg, create_modified_graph (endpoint_vis atan2 ords g) rows g lc = Ok sg /\
    (forall w, ~ (joined sg e w /\ sg_crossing sg e w = Ok true)) /\
    ((exists ns, sg_neighbors sg e = Ok ns /\ In v ns /\ sg_crossing sg e v = Ok false) \/
     (exists s, shore = Some s /\ orientation_of_point_to_segment s v = Ok COUNTER_CLOCKWISE) \/
     (exists s, polygon_edge (get_polygons g) s /\ ~ touches s e /\ meets_before s e v)).
Proof. exact end_joined. Qed.
Print Assumptions C58_endpoint_sees_partial.
Definition west_island : polygon := mkP [mkC (-179900000) 0; mkC (-179000000) 1000000; mkC (-179000000) (-1000000)].
Definition g1 : graph := make_graph [west_island].
Definition lc1 : correction := mkLC (mkC 179900000 0) S0 None None.
Lemma g1_built : built g1.
Proof. exists [west_island], []. split; [constructor|reflexivity]. Qed.
Lemma g1_ngeo c : In c (get_vertices g1) -> ngeo c.
Proof. intros H. vm_compute in H. repeat (destruct H as [<-|H]; [split; vm_compute; congruence|]). destruct H. Qed.
Example C58_ex : built g1 /\ (forall c, In c (get_vertices g1) -> ngeo c) /\ library_orders plain_orders /\ row_orders (fun _ l => l) /\
  ngeo (lc_source lc1) /\ ngeo (lc_dest lc1) /\ query_end lc1 (lc_source lc1) None /\ query_end lc1 (lc_dest lc1) None /\
  has_vertex g1 (lc_source lc1) = false /\ has_vertex g1 (lc_dest lc1) = false /\ In (mkC (-179900000) 0) (get_vertices g1).
Proof.
  split; [exact g1_built|]. split; [exact g1_ngeo|]. split; [exact plain_orders_ok|]. split; [intros v l; apply Permutation_refl|].
  split; [split; vm_compute; congruence|]. split; [split; vm_compute; congruence|]. split; [left; auto|]. split; [right; auto|].
  split; [reflexivity|]. split; [reflexivity|]. vm_compute. auto.
Qed.
Definition shifted (k : Z) (e : segment) : segment := mkS (turned k (e1 e)) (turned k (e2 e)).
Theorem C58_endpoint_sees_refuted : ~ (forall atan2 ords rows g lc v sg, built g -> (forall c, In c (get_vertices g) -> ngeo c) -> (forall c, library_orders (ords c)) ->
  row_orders rows -> ngeo (lc_source lc) -> ngeo (lc_dest lc) -> lc_source_edge lc = None -> lc_dest_edge lc = None ->
  has_vertex g (lc_source lc) = false -> In v (get_vertices g) ->
  (forall k e, polygon_edge (get_polygons g) e -> ~ meets_before (shifted k e) (lc_source lc) (turned 1 v)) ->
  create_modified_graph (endpoint_vis atan2 ords g) rows g lc = Ok sg -> joined sg (lc_source lc) v /\ sg_crossing sg (lc_source lc) v = Ok true).
Proof.
  intros H. destruct C58_ex as (B & Gv & Lo & Rw & Gs & Gd & Qs & _ & N & _ & I).
  destruct (C58_endpoint_sees_partial (fun _ _ => f_0) (fun _ => plain_orders) (fun _ l => l) g1 lc1 (lc_source lc1) None (mkC (-179900000) 0) B Gv (fun _ => Lo) Rw Gs Gd) as (sg & C & A & _);
    [intros ? X; discriminate X|intros ? X; discriminate X|exact Qs|exact N|exact I|].
  apply (A (mkC (-179900000) 0)). refine (H (fun _ _ => f_0) (fun _ => plain_orders) (fun _ l => l) g1 lc1 (mkC (-179900000) 0) sg B Gv (fun _ => Lo) Rw Gs Gd eq_refl eq_refl N I _ C).
  intros k e (P & i & [<-|[]] & Li & ->) (q & t & u & Q & T & U & Ex & _). clear - Li Q T U Ex.
  cbn [lc1 lc_source turned shifted e1 e2 lon lat] in Ex.
  assert (W : forall n, (n < 3)%nat -> (-179900000 <= lon (vat (verts west_island) n) <= -179000000)%Z).
  { intros n Ln. destruct n as [|[|[|n]]]; [vm_compute; split; congruence..|lia]. }
  assert (X : (-179900000 <= lon (vat (verts west_island) i) <= -179000000)%Z) by (apply W; exact Li).
  assert (Y : (-179900000 <= lon (ring_next (verts west_island) i) <= -179000000)%Z) by (unfold ring_next; apply W, Nat.mod_upper_bound; vm_compute; congruence).
  revert X Y Ex. generalize (lon (vat (verts west_island) i)) (lon (ring_next (verts west_island) i)). clear - Q T U. intros x y X Y E.
  assert (E' : ((q - t) * x + t * y + q * (k * 360000001) = q * 179900000 + u * 200001)%Z) by lia.
  assert (A : (q * -179900000 <= (q - t) * x + t * y <= q * -179000000)%Z) by nia.
  destruct (Z_le_gt_dec k 0) as [K|K].
  - assert (q * (k * 360000001) <= 0)%Z by nia. nia.
  - assert (q * 360000001 <= q * (k * 360000001))%Z by nia. nia.
Qed.
Print Assumptions C58_endpoint_sees_refuted.
