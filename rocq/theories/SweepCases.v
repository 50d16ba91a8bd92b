(** Maps on which the sweep goes wrong, and what holds of every reported vertex. *)
From Coq Require Import ZArith Reals Bool List Lia Permutation.
From Verif Require Import Base F64 Coordinate Segment Polyline Polygon Periodicity Graph Visgraph SpecGeom SpecGraph F64Facts
  CoordinateFacts SegmentFacts PeriodicityFacts PolylineFacts GraphFacts GraphMore VisgraphFacts Sweep SweepFacts SweepMaps SweepGen
  AngleFacts AngleSort SweepHalf SweepForced.
Import ListNotations.
Local Open Scope Z_scope.

(** ** Reported vertices pass the corner test *)
Lemma sweep_corner m init o half : forall vs oe r, sweep m init o half vs oe = Ok r ->
  exists seen, subseq seen vs /\ ~ In o seen /\ Forall2 reports_as seen r /\
    forall ss, vm_find m o = Some ss -> forall v, In v seen -> exists b, barrier ss = Ok b /\ point_visible b v = Ok true.
Proof.
  induction vs as [|v vs IH]; intros oe r E.
  { inversion E; subst. exists []. split; [constructor|]. split; [intros []|]. split; [constructor|intros ? ? ? []]. }
  cbn [sweep] in E. destruct (coord_eqb o v) eqn:C.
  { destruct (IH oe r E) as (seen & S & N & F). exists seen. split; [apply subseq_drop, S|]. auto. }
  destruct (past_half half init o v) as [st| |]; cbn [bind] in E; try discriminate E.
  destruct st; [inversion E; subst; exists []; split; [apply subseq_empty|split; [intros []|split; [constructor|intros ? ? ? []]]]|].
  destruct (vm_at m v); cbn [bind] in *; try discriminate E.
  destruct (orientation_segments _ _ CLOCKWISE); cbn [bind] in *; try discriminate E.
  destruct (orientation_segments _ _ COUNTER_CLOCKWISE); cbn [bind] in *; try discriminate E. cbv zeta in *.
  destruct (is_vertex_visible _ _ _ _) as [b| |] eqn:Vis; cbn [bind] in *; try discriminate E.
  destruct (if b then normalize_coord v else Ok v) as [n| |] eqn:En; cbn [bind] in *; try discriminate E.
  destruct (add_segments _ _ _ _) as [oe2| |]; cbn [bind] in *; try discriminate E.
  destruct (sweep m init o half vs oe2) as [rest| |] eqn:Es; cbn [bind] in E; try discriminate E.
  destruct (IH oe2 rest Es) as (seen & S & N & F & P). destruct b; inversion E; subst.
  - exists (v :: seen). split; [apply subseq_take, S|]. split.
    + intros [X|X]; [subst v; rewrite coord_eqb_refl in C; discriminate C|contradiction].
    + split; [constructor; [split; [exact En|reflexivity]|exact F]|].
      intros ss Fd w [<-|W]; [|apply (P ss Fd w W)].
      unfold is_vertex_visible in Vis. destruct (coord_eqb v o); [discriminate Vis|]. rewrite Fd in Vis.
      destruct (barrier ss) as [q| |]; cbn [bind] in Vis; try discriminate Vis. exists q. split; [reflexivity|].
      destruct (point_visible q v) as [[|]| |]; cbn [bind negb] in Vis; try discriminate Vis. reflexivity.
  - exists seen. split; [apply subseq_drop, S|]. auto.
Qed.

Theorem reported_corner atan2 ord ps o half : library_orders ord -> pgeo o -> (forall c, In c (polygon_vertices ps) -> pgeo c) ->
  In o (polygon_vertices ps) ->
  exists res seen p n, get_visible_vertices atan2 ord (vistree_of_polygons ps) o half = Ok res /\ Forall2 reports_as seen res /\
    NoDup seen /\ corner_of ps p o n /\
    forall v, In v seen -> In v (polygon_vertices ps) /\ v <> o /\ point_visible (mkPL p o n) v = Ok true /\
      (clear_corner p o n -> ~ into_solid p o n v /\
         forall w, w = p \/ w = n -> ~ past 1000002001 1000000000 o w v).
Proof.
  intros L O G Io. destruct (get_visible_ok atan2 ord ps o half L O G) as (res & _ & R & Nd & Iv & _).
  destruct (incident_map_good ps) as [[Nk H] Kv].
  destruct (vm_find (incident_map ps) o) as [ss|] eqn:Fd; [|exfalso; apply (find_keys (incident_map ps) o); [apply Kv, Io|exact Fd]].
  destruct (H _ _ Fd) as (p & n & C & Ess). pose proof R as R0. revert R0.
  unfold get_visible_vertices, visible_from, vistree_of_polygons. cbn [vt_map vt_segments].
  destruct (incident_map ps) as [|kv m'] eqn:Em; [discriminate Fd|]. rewrite <- Em in *. clear Em kv m'.
  rewrite sort_total; [|exact O|intros v V; apply G, Kv; apply (Permutation_in _ (proj1 L _)) in V; exact V].
  cbn [bind]. fold (visit_order atan2 ord ps o). destruct (init_ok o O) as [-> Ii]. cbn [bind].
  destruct (initial_edges _ _) as [oe| |]; cbn [bind]; try discriminate. intros E.
  destruct (sweep_corner _ _ _ _ _ _ _ E) as (seen & S & No & F & P).
  exists res, seen, p, n. split; [exact E|]. split; [exact F|].
  assert (Sub : forall v, In v seen -> In v (visit_order atan2 ord ps o)).
  { clear - S. induction S; intros y Y; [destruct Y|destruct Y; [left|right]; auto|right; auto]. }
  split; [clear - S Nd; induction S as [|x l l' S IH|x l l' S IH]; [constructor| |]|].
  { inversion Nd; subst. constructor; [|auto]. intros X. apply H1. clear - S X. induction S; [destruct X|destruct X; [left|right]; auto|right; auto]. }
  { inversion Nd; auto. }
  split; [exact C|]. intros v V. pose proof (proj1 (Iv v) (Sub v V)) as Iv'. split; [exact Iv'|].
  assert (Nv : v <> o) by (intros ->; contradiction). split; [exact Nv|].
  destruct (P ss Fd v V) as (b & B & Pv). subst ss. cbn [barrier barrier_from app e1 e2] in B. inversion B; subst b. clear B.
  assert (Pv' : point_visible (mkPL p o n) v = Ok true) by exact Pv. split; [exact Pv'|]. intros Cc.
  assert (Gp : pgeo p /\ pgeo n).
  { destruct C as (Q & i & Q1 & Q2 & -> & _ & ->).
    assert (K : forall j, (j < length (verts Q))%nat -> pgeo (vat (verts Q) j)).
    { intros j J. apply G, in_polygon_vertices. exists Q. split; [exact Q1|]. apply nth_In, J. }
    split; [unfold ring_prev|unfold ring_next]; apply K; apply Nat.mod_upper_bound; lia. }
  destruct (point_visible_ok p o n v (proj1 Gp) O (proj2 Gp) (G v Iv') Cc Nv) as (b & Eb & K1 & K2 & K3).
  rewrite Pv' in Eb. inversion Eb; subst b. split; [intros X; specialize (K1 X); discriminate K1|].
  intros w W X. destruct (K3 w W (proj1 X)) as [_ K4]. specialize (K4 X). discriminate K4.
Qed.

(** ** A vertex behind two edges *)
Definition hiding_map : list polygon :=
  [mkP [mkC 6000000 1000000; mkC 5000000 6000000; mkC 1000000 100000];
   mkP [mkC 1300000 1300000; mkC 1000000 1400000; mkC 1200000 1000000];
   mkP [mkC 2000000 2100000; mkC 2100000 2200000; mkC 2000000 2300000]].
Definition hidden_vertex : coord := mkC 2000000 2100000.
Definition hiding_edge : segment := mkS (mkC 1000000 1400000) (mkC 1200000 1000000).

(** [e] crosses the line from [o] to [v] in a point inside both *)
Definition crosses_inside (e : segment) (o v : coord) : Prop :=
  exists q t u, 0 < q /\ 0 < t < q /\ 0 < u < q /\
    (q - t) * lon (e1 e) + t * lon (e2 e) = (q - u) * lon o + u * lon v /\
    (q - t) * lat (e1 e) + t * lat (e2 e) = (q - u) * lat o + u * lat v.

Definition order_around (ps : list polygon) (o : coord) : list coord :=
  let ks := map fst (incident_map ps) in
  filter (coord_eqb o) ks ++ isort (before_z o) (filter (fun c => negb (coord_eqb o c)) ks).

Lemma hiding_reported atan2 ord : accurate_atan2 atan2 -> library_orders ord ->
  exists res, get_visible_vertices atan2 ord (vistree_of_polygons hiding_map) (mkC 0 0) false = Ok res /\
    In (mkV hidden_vertex false) res.
Proof.
  intros T L. rewrite (forced hiding_map (mkC 0 0) (order_around hiding_map (mkC 0 0)) false atan2 ord); [|vm_compute; reflexivity|vm_compute; congruence|exact T|exact L].
  eexists. split; [vm_compute; reflexivity|]. vm_compute. tauto.
Qed.
Lemma hiding_crosses : polygon_edge hiding_map hiding_edge /\ crosses_inside hiding_edge (mkC 0 0) hidden_vertex.
Proof.
  split.
  - exists (mkP [mkC 1300000 1300000; mkC 1000000 1400000; mkC 1200000 1000000]), 1%nat. split; [right; left; reflexivity|]. split; [cbn; lia|reflexivity].
  - exists 61, 35, 34. unfold hiding_edge, hidden_vertex. cbn [e1 e2 lon lat]. lia.
Qed.

(** ** The observer's own copies *)
Definition lone_triangle : list polygon := [mkP [mkC 0 0; mkC 2000000 0; mkC 1000000 1000000]].
Definition copies_of (ps : list polygon) : list polygon := match make_polygons_periodic ps with Ok l => l | _ => [] end.
Lemma sees_itself atan2 ord : accurate_atan2 atan2 -> library_orders ord ->
  vis_periodic atan2 ord lone_triangle (mkC 1000000 1000000) = Ok [mkV (mkC 1000000 1000000) true; mkV (mkC 1000000 1000000) true].
Proof.
  intros T L. unfold vis_periodic. replace (make_polygons_periodic lone_triangle) with (Ok (copies_of lone_triangle)) by (vm_compute; reflexivity).
  cbn [bind]. rewrite (forced (copies_of lone_triangle) (mkC 1000000 1000000) (order_around (copies_of lone_triangle) (mkC 1000000 1000000)) true atan2 ord);
    [vm_compute; reflexivity|vm_compute; reflexivity|vm_compute; congruence|exact T|exact L].
Qed.

(** ** A polygon across the meridian *)
Definition meridian_triangle : list polygon := [mkP [mkC 179000000 0; mkC 181000000 100000; mkC 180000000 1000000]].
Lemma meridian_sees atan2 ord : accurate_atan2 atan2 -> library_orders ord ->
  vis_periodic atan2 ord meridian_triangle (mkC 179000000 0) =
  Ok [mkV (mkC 179000000 0) true; mkV (mkC 180000000 1000000) true; mkV (mkC (-179000001) 100000) true; mkV (mkC 180000000 1000000) false;
      mkV (mkC 180000000 1000000) true; mkV (mkC (-179000001) 100000) false; mkV (mkC 179000000 0) true].
Proof.
  intros T L. unfold vis_periodic. replace (make_polygons_periodic meridian_triangle) with (Ok (copies_of meridian_triangle)) by (vm_compute; reflexivity).
  cbn [bind]. rewrite (forced (copies_of meridian_triangle) (mkC 179000000 0) (order_around (copies_of meridian_triangle) (mkC 179000000 0)) true atan2 ord);
    [vm_compute; reflexivity|vm_compute; reflexivity|vm_compute; congruence|exact T|exact L].
Qed.
Lemma meridian_throws atan2 ords : accurate_atan2 atan2 -> (forall v, library_orders (ords v)) ->
  generate (fun v => vis_periodic atan2 (ords v) meridian_triangle v) meridian_triangle = UB EscapesParallel.
Proof.
  intros T L. unfold generate. replace (polygon_vertices meridian_triangle) with [mkC 179000000 0; mkC 181000000 100000; mkC 180000000 1000000] by reflexivity.
  cbn [foldM]. unfold connect_vertex at 1. rewrite (meridian_sees atan2 _ T (L (mkC 179000000 0))). vm_compute. reflexivity.
Qed.

(** ** When generation succeeds *)
Section Success.
Variables (ps : list polygon) (vis : vis_oracle).
Let good (g : graph) : Prop := exists F h, repr ps F g /\ rep_hist ps h F.
Lemma add_good g a b f g' : good g -> add_edge g a b f = Ok g' -> In a (polygon_vertices ps) -> good g' /\ In b (polygon_vertices ps).
Proof.
  intros (F & h & R & H) E A. destruct (gstep_spec ps F g h (GAdd a b f) R H) as (F' & g1 & C & R' & H' & _).
  unfold gstep_catch in C. cbn [gstep] in C. rewrite E in C. inversion C; subst g1. split; [exists F', (GAdd a b f :: h); auto|].
  destruct (coord_dec a b) as [<-|N]; [exact A|]. destruct (in_dec coord_dec b (polygon_vertices ps)) as [B|B]; [exact B|exfalso].
  unfold add_edge in E. rewrite (add_directed_throw ps F g a b f R N (or_intror (idx_none ps b B))) in E. discriminate E.
Qed.
Lemma connect_good v : In v (polygon_vertices ps) -> forall xs g g', good g ->
  foldM (fun g x => add_edge g v (v_coord x) (v_across x)) xs g = Ok g' ->
  good g' /\ forall x, In x xs -> In (v_coord x) (polygon_vertices ps).
Proof.
  intros V. induction xs as [|x xs IH]; intros g g' G E; [inversion E; subst; split; [exact G|intros ? []]|].
  cbn [foldM] in E. destruct (add_edge g v (v_coord x) (v_across x)) as [g1| |] eqn:E1; cbn [bind] in E; try discriminate E.
  destruct (add_good _ _ _ _ _ G E1 V) as [G1 X]. destruct (IH g1 g' G1 E) as [G' H]. split; [exact G'|]. intros y [<-|Y]; auto.
Qed.
Lemma generate_reports g : generate vis ps = Ok g -> reports ps vis.
Proof.
  unfold generate, reports.
  assert (K : forall L g0 g', (forall v, In v L -> In v (polygon_vertices ps)) -> good g0 -> foldM (connect_vertex vis) L g0 = Ok g' ->
    forall v, In v L -> exists xs, vis v = Ok xs /\ forall x, In x xs -> In (v_coord x) (polygon_vertices ps)).
  { induction L as [|w L IH]; intros g0 g' I G E v V; [destruct V|]. cbn [foldM] in E. unfold connect_vertex at 1 in E.
    destruct (vis w) as [xs| |] eqn:Ew; cbn [bind] in E; try discriminate E.
    destruct (foldM _ xs g0) as [g1| |] eqn:E1; cbn [bind] in E; try discriminate E.
    destruct (connect_good w (I w (or_introl eq_refl)) _ _ _ G E1) as [G1 X].
    destruct V as [<-|V]; [exists xs; auto|]. exact (IH g1 g' (fun u U => I u (or_intror U)) G1 E v V). }
  intros E. destruct (foldM _ _ (make_graph ps)) as [g0| |] eqn:E0; try discriminate E. exact (K _ _ _ (fun v V => V) (ex_intro _ _ (ex_intro _ [] (conj (repr_make ps) (rep_hist_nil ps)))) E0).
Qed.
End Success.

Lemma loop_down_range n : forall x y, loop_down n x = Some (Ok y) -> y <= MAX_LONGITUDE.
Proof.
  induction n as [|m IH]; intros x y E; [discriminate E|]. cbn [loop_down] in E.
  destruct (Z.ltb_spec MAX_LONGITUDE x) as [H|H]; [|inversion E; subst; exact H].
  destruct (i32 (x - LONGITUDE_PERIOD)) as [z| |]; [exact (IH z y E)|discriminate E..].
Qed.
Lemma i32_value z x : i32 z = Ok x -> x = z.
Proof. unfold i32. destruct (in_i32 z); intros E; [inversion E; reflexivity|discriminate E]. Qed.
Lemma loop_up_range n : forall x y, x <= MAX_LONGITUDE -> loop_up n x = Some (Ok y) -> MIN_LONGITUDE <= y <= MAX_LONGITUDE.
Proof.
  induction n as [|m IH]; intros x y B E; [discriminate E|]. cbn [loop_up] in E.
  destruct (Z.ltb_spec x MIN_LONGITUDE) as [H|H]; [|inversion E; subst; split; assumption].
  destruct (i32 (x + LONGITUDE_PERIOD)) as [z| |] eqn:Ei; [|discriminate E..]. apply i32_value in Ei.
  apply (IH z y); [|exact E]. subst z. clear - H. unfold MIN_LONGITUDE, MAX_LONGITUDE, LONGITUDE_PERIOD in *. lia.
Qed.
Lemma normalize_range c r : normalize_coord c = Ok r -> -180000000 <= lon r <= 180000000.
Proof.
  unfold normalize_coord.
  destruct (loop_down periodicity_fuel (lon c)) as [[x| |]|] eqn:E1; [|intros E; discriminate E..]. apply loop_down_range in E1.
  destruct (loop_up periodicity_fuel x) as [[y| |]|] eqn:E2; [|intros E; discriminate E..].
  pose proof (loop_up_range _ _ _ E1 E2) as K. intros E. inversion E; subst. exact K.
Qed.

Lemma vis_in_range atan2 ord ps v xs : vis_periodic atan2 ord ps v = Ok xs ->
  forall x, In x xs -> -180000000 <= lon (v_coord x) <= 180000000.
Proof.
  unfold vis_periodic. destruct (make_polygons_periodic ps) as [pps| |]; cbn [bind]; try discriminate.
  unfold get_visible_vertices, visible_from. destruct (vt_map _) as [|kv m']; [intros E; inversion E; intros ? []|].
  destruct (sort_ccw _ _ _ _) as [vs| |]; cbn [bind]; try discriminate.
  destruct (get_tangent_vector _) as [init| |]; cbn [bind]; try discriminate.
  destruct (initial_edges _ _) as [oe| |]; cbn [bind]; try discriminate. intros E x X.
  destruct (sweep_reports _ _ _ _ _ _ _ E) as (seen & _ & _ & F). destruct (Forall2_in_r _ _ _ _ F X) as (c & _ & N & _).
  exact (normalize_range c _ N).
Qed.

Theorem beyond_never_joined atan2 ords ps g a b :
  generate (fun v => vis_periodic atan2 (ords v) ps v) ps = Ok g -> has_edge g a b = Ok true ->
  -180000000 <= lon a <= 180000000 \/ -180000000 <= lon b <= 180000000.
Proof.
  intros E H. pose proof (generate_reports _ _ _ E) as R.
  destruct (generate_ok ps _ R) as (g' & E' & Gr). rewrite E in E'. inversion E'; subst g'.
  destruct (grun_queries ps _ g Gr a b) as (Q1 & Q2 & Q3).
  destruct (coord_dec a b) as [D|N]; [destruct (Q3 D); congruence|].
  destruct (in_dec coord_dec a (polygon_vertices ps)) as [A|A]; [|destruct (Q2 N (or_introl A)); congruence].
  destruct (in_dec coord_dec b (polygon_vertices ps)) as [B|B]; [|destruct (Q2 N (or_intror B)); congruence].
  destruct (generate_edges ps _ g a b R E A B N) as [G _]. apply G in H. destruct H as (f & [H|H]); destruct H as (xs & x & Ev & X & <- & _).
  - right. exact (vis_in_range _ _ _ _ _ Ev x X).
  - left. exact (vis_in_range _ _ _ _ _ Ev x X).
Qed.

(** ** What a hidden corner means *)
Lemma hidden_geometric p o n v : pgeo p -> pgeo o -> pgeo n -> pgeo v -> v <> o -> clear_corner p o n ->
  point_visible (mkPL p o n) v = Ok false ->
  into_solid p o n v \/ exists w, (w = p \/ w = n) /\ past 1000001999 1000000000 o w v.
Proof.
  intros Gp Go Gn Gv N C E. destruct (point_visible_ok p o n v Gp Go Gn Gv C N) as (b & Eb & _ & K2 & K3).
  rewrite E in Eb. inversion Eb; subst b.
  assert (Dr : forall w, on_ray o w v \/ ~ on_ray o w v).
  { intros w. unfold on_ray. destruct (Z.eq_dec (turn o w v) 0), (Z_lt_dec 0 (inner o w v)); tauto. }
  assert (Dp : forall w, past 1000001999 1000000000 o w v \/ ~ past 1000001999 1000000000 o w v).
  { intros w. unfold past. destruct (Dr w), (Z_lt_dec (1000001999 * inner o w w) (1000000000 * inner o w v)); tauto. }
  assert (Ds : into_solid p o n v \/ ~ into_solid p o n v).
  { unfold into_solid. destruct (Z_lt_dec 0 (turn p o n)), (Z_lt_dec (turn p o n) 0), (Z_lt_dec 0 (turn p o v)), (Z_lt_dec 0 (turn o n v)); tauto. }
  destruct Ds as [S|S]; [left; exact S|right].
  assert (Case : forall w, w = p \/ w = n -> on_ray o w v -> past 1000001999 1000000000 o w v).
  { intros w W R. destruct (Dp w) as [X|X]; [exact X|]. destruct (K3 w W R) as [Y _]. specialize (Y X). discriminate Y. }
  destruct (Dr p) as [R|R]; [exists p; auto|]. destruct (Dr n) as [R'|R']; [exists n; auto|].
  specialize (K2 (conj S (conj R R'))). discriminate K2.
Qed.

(** ** Every pair of vertices is examined from one of its two ends *)
Lemma half_pairs atan2 ord ps : accurate_atan2 atan2 -> library_orders ord ->
  (forall c, In c (polygon_vertices ps) -> ngeo c) ->
  (forall o, In o (polygon_vertices ps) -> swo_on (less_b atan2 o) (polygon_vertices ps)) ->
  forall a b, In a (polygon_vertices ps) -> In b (polygon_vertices ps) -> a <> b ->
  exists o v res, (o = a /\ v = b \/ o = b /\ v = a) /\
    get_visible_vertices atan2 ord (vistree_of_polygons ps) o true = Ok res /\
    ((exists x, In x res /\ reports_as v x) \/ blocked_vertex ps o v).
Proof.
  intros T L G W. assert (P : forall c, In c (polygon_vertices ps) -> pgeo c) by (intros c C; destruct (G c C); split; lia).
  assert (K : forall o v, In o (polygon_vertices ps) -> In v (polygon_vertices ps) -> v <> o -> lat o <= lat v ->
    exists res, get_visible_vertices atan2 ord (vistree_of_polygons ps) o true = Ok res /\
    ((exists x, In x res /\ reports_as v x) \/ blocked_vertex ps o v)).
  { intros o v O V N H. assert (Lo : lon o < 540000001) by (destruct (G o O); lia).
    destruct (half_exact atan2 ord ps o T L (P o O) Lo P (W o O)) as (res & seen & r2 & seen2 & R & _ & F & _ & _ & _ & _ & S).
    exists res. split; [exact R|]. destruct (S v V N H) as [X|X]; [left|right; exact X].
    clear - F X. induction F as [|s x ss xs A F IH]; [destruct X|]. destruct X as [<-|X]; [exists x; split; [left; reflexivity|exact A]|].
    destruct (IH X) as (x' & I & A'). exists x'. split; [right; exact I|exact A']. }
  intros a b A B N. destruct (Z.le_ge_cases (lat a) (lat b)) as [H|H].
  - destruct (K a b A B (fun E => N (eq_sym E)) H) as (res & R). exists a, b, res. tauto.
  - destruct (K b a B A N H) as (res & R). exists b, a, res. tauto.
Qed.

Lemma Forall2_in_right A B (R : A -> B -> Prop) l m y : Forall2 R l m -> In y m -> exists x, In x l /\ R x y.
Proof.
  induction 1 as [|a b l' m' Q F IH]; intros I; [destruct I|]. destruct I as [<-|I]; [exists a; split; [left; reflexivity|exact Q]|].
  destruct (IH I) as (x & X & Y). exists x. split; [right; exact X|exact Y].
Qed.
Lemma subseq_in {A} {l m : list A} : subseq l m -> forall x, In x l -> In x m.
Proof. induction 1; intros y Y; [destruct Y|destruct Y; [left|right]; auto|right; auto]. Qed.
Lemma subseq_nodup {A} {l m : list A} : subseq l m -> NoDup m -> NoDup l.
Proof.
  induction 1 as [|x l m S IH|x l m S IH]; intros N; [constructor| |]; inversion N; subst; [|auto].
  constructor; [|auto]. intros X. exact (H1 (subseq_in S x X)).
Qed.
Lemma sweep_well_formed atan2 ord ps o half :
  library_orders ord -> pgeo o -> (forall c, In c (polygon_vertices ps) -> pgeo c) ->
  exists res seen, get_visible_vertices atan2 ord (vistree_of_polygons ps) o half = Ok res /\
    Forall2 reports_as seen res /\ NoDup seen /\ (polygon_vertices ps = [] -> res = []) /\
    (forall v, In v seen -> In v (polygon_vertices ps) /\ v <> o) /\
    (forall x, In x res -> -180000000 <= lon (v_coord x) <= 180000000).
Proof.
  intros L O G. destruct (get_visible_ok atan2 ord ps o half L O G) as (res & seen & R & N & I & S & No & F & _).
  assert (Pre : exists rest, visit_order atan2 ord ps o = scanned (init_vec o) o half (visit_order atan2 ord ps o) ++ rest).
  { destruct half; [apply scanned_app|exists []; rewrite scanned_full, app_nil_r; reflexivity]. }
  destruct Pre as [rest Pre].
  exists res, seen. split; [exact R|]. split; [exact F|]. split.
  { rewrite Pre in N. apply nodup_left in N. exact (subseq_nodup S N). }
  assert (In' : forall v, In v seen -> In v (polygon_vertices ps)).
  { intros v V. apply I. rewrite Pre. apply in_or_app. left. exact (subseq_in S v V). }
  split; [|split].
  - intros E. destruct F as [|s x ss xs]; [reflexivity|exfalso]. specialize (In' s (or_introl eq_refl)). rewrite E in In'. destruct In'.
  - intros v V. split; [exact (In' v V)|]. intros ->. exact (No V).
  - intros x X. destruct (Forall2_in_right _ _ _ _ _ _ F X) as (c & _ & Nc & _). exact (normalize_range c _ Nc).
Qed.
