(** Lines through open water, on any map: none is missing from the graph, and no route of them is shorter than the path. *)
From Coq Require Import ZArith Reals Bool List Lia Lra Psatz Permutation.
From Flocq Require Import Core BinarySingleNaN.
From Verif Require Import Base F64 Coordinate Segment Polyline Polygon Periodicity PeriodicityFacts Graph Visgraph VisgraphFacts SpecGeom SpecGraph F64Facts CoordinateFacts SegmentFacts PolylineFacts
  PolygonMore GraphFacts GraphMore Sweep SweepFacts SweepMaps SweepGen SweepCases AngleFacts AngleSort SweepOrder SweepGeo SweepSound SweepExact SweepGraph SweepHalf SweepHalfGraph SweepLayers SweepWorld
  Overlay ShortestPath DistFacts SearchFacts SearchSpec SearchGraph SearchQuery PathFacts PathMore FreePaths.
Import ListNotations.
Local Open Scope Z_scope.

(** ** Vocabulary *)
(** the segment from [a] to [b] meets edges of the polygons [ps] at most in an end it shares with the
    edge, unless it is the edge; and at a corner it does not lead into the land *)
Definition open_here (ps : list polygon) (a b : coord) : Prop :=
  (forall e q t u, polygon_edge ps e -> 0 < q -> 0 <= t <= q -> 0 <= u <= q ->
     (q - t) * lon (e1 e) + t * lon (e2 e) = (q - u) * lon a + u * lon b ->
     (q - t) * lat (e1 e) + t * lat (e2 e) = (q - u) * lat a + u * lat b ->
     (u = 0 /\ touches e a) \/ (u = q /\ touches e b) \/ (touches e a /\ touches e b)) /\
  (forall p n, corner_of ps p a n -> ~ into_solid p a n b) /\
  (forall p n, corner_of ps p b n -> ~ into_solid p b n a).
(** the same on the cylinder *)
Definition open_line (ps : list polygon) (a b : coord) : Prop := forall j, open_here ps (wrap j a) (wrap j b).
(** generated from [ps]; polygons of any shape, anywhere, which may touch or overlap *)
Definition mapped (atan2 : Z -> Z -> f64) (ords : coord -> orders) (ps : list polygon) (g : graph) : Prop :=
  accurate_atan2 atan2 /\ (forall v, library_orders (ords v)) /\ Forall clear_polygon ps /\
  (forall p o n, corner_of ps p o n -> clear_corner p o n) /\
  (forall o, In o (polygon_vertices ps) -> swo_on (less_b atan2 o) (polygon_vertices (map_copies ps))) /\
  generate (fun v => vis_periodic atan2 (ords v) ps v) ps = Ok g.
(** [g] is a graph over the polygons [ps], in any order and number, which misses no line through open water *)
Definition complete (ps : list polygon) (g : graph) : Prop :=
  Forall clear_polygon ps /\ built g /\ (forall P, In P (get_polygons g) <-> In P ps) /\
  forall a b k, In a (polygon_vertices ps) -> In b (polygon_vertices ps) -> a <> b -> -1 <= k <= 1 -> open_line ps a (wrap k b) ->
    exists f, answer g a b = Some f /\ (k = 0 -> f = false).

(** ** Symmetry *)
Lemma open_here_flip ps a b : open_here ps a b -> open_here ps b a.
Proof.
  intros (H1 & H2 & H3). split; [|split; assumption]. intros e q t u E Q T U X Y.
  destruct (H1 e q t (q - u) E Q T) as [(A & B)|[(A & B)|(A & B)]]; [lia| lia| lia| | | ].
  - right. left. split; [lia|exact B].
  - left. split; [lia|exact B].
  - right. right. auto.
Qed.
Lemma open_flip ps a b : open_line ps a b -> open_line ps b a.
Proof. intros H j. apply open_here_flip, H. Qed.
Lemma open_shift ps k a b : open_line ps a b -> open_line ps (wrap k a) (wrap k b).
Proof. intros H j. rewrite !wrap_wrap. apply H. Qed.
Lemma open_sym ps a b k : open_line ps a (wrap k b) -> open_line ps b (wrap (- k) a).
Proof. intros H. apply open_flip, (open_shift ps (- k)) in H. rewrite wrap_wrap, Z.add_opp_diag_l, wrap_0 in H. exact H. Qed.

(** ** What is open is not blocked *)
Lemma ring_prev_wrap k l i : (i < length l)%nat -> ring_prev (map (wrap k) l) i = wrap k (ring_prev l i).
Proof. intros I. unfold ring_prev. rewrite map_length. apply vat_wrap, Nat.mod_upper_bound. lia. Qed.
Lemma ring_next_wrap k l i : (i < length l)%nat -> ring_next (map (wrap k) l) i = wrap k (ring_next l i).
Proof. intros I. unfold ring_next. rewrite map_length. apply vat_wrap, Nat.mod_upper_bound. lia. Qed.
Lemma copy_edge ps e : polygon_edge (map_copies ps) e -> exists j e', polygon_edge ps e' /\ e = mkS (wrap j (e1 e')) (wrap j (e2 e')).
Proof.
  intros (Q & i & HQ & I & ->). apply copies_in in HQ. destruct HQ as (P & j & HP & _ & ->). unfold wrap_polygon in *. cbn [verts] in *. rewrite map_length in I.
  exists j, (mkS (vat (verts P) i) (ring_next (verts P) i)). split; [exists P, i; auto|]. cbn [e1 e2]. rewrite vat_wrap, ring_next_wrap by exact I. reflexivity.
Qed.
Lemma copy_corner ps p o n : corner_of (map_copies ps) p o n -> exists j p' o' n', corner_of ps p' o' n' /\ p = wrap j p' /\ o = wrap j o' /\ n = wrap j n'.
Proof.
  intros (Q & i & HQ & I & -> & -> & ->). apply copies_in in HQ. destruct HQ as (P & j & HP & _ & ->). unfold wrap_polygon in *. cbn [verts] in *. rewrite map_length in I.
  exists j, (ring_prev (verts P) i), (vat (verts P) i), (ring_next (verts P) i). split; [exists P, i; auto|]. rewrite vat_wrap, ring_next_wrap, ring_prev_wrap by exact I. auto.
Qed.
Lemma wrap_back j c d : wrap j c = d -> c = wrap (- j) d.
Proof. intros <-. rewrite wrap_wrap, Z.add_opp_diag_l, wrap_0. reflexivity. Qed.
Lemma turn_wrap j a b c : turn (wrap j a) (wrap j b) (wrap j c) = turn a b c.
Proof. unfold turn, wrap. cbn [lon lat]. ring. Qed.

Lemma corner_edges ps p o n : corner_of ps p o n -> polygon_edge ps (mkS p o) /\ polygon_edge ps (mkS o n).
Proof.
  intros (P & i & HP & I & -> & -> & ->). split; [|exists P, i; auto].
  exists P, ((i + length (verts P) - 1) mod length (verts P))%nat. split; [exact HP|]. split; [apply Nat.mod_upper_bound; lia|].
  unfold ring_prev, ring_next. f_equal. destruct i as [|i].
  - cbn [Nat.add]. rewrite (Nat.mod_small (length (verts P) - 1)) by lia. replace (length (verts P) - 1 + 1)%nat with (length (verts P)) by lia. rewrite Nat.mod_same by lia. reflexivity.
  - replace (S i + length (verts P) - 1)%nat with (i + 1 * length (verts P))%nat by lia. rewrite Nat.mod_add by lia. rewrite (Nat.mod_small i) by lia.
    replace (i + 1)%nat with (S i) by lia. rewrite Nat.mod_small by exact I. reflexivity.
Qed.
(** a neighbour in the way is where its edge meets the line *)
Lemma open_not_past ps a b p n w : open_here ps a b -> corner_of ps p a n -> w = p \/ w = n -> ~ past 1000001999 1000000000 a w b.
Proof.
  intros (H & _) C W ([T I] & L). destruct (corner_edges ps p a n C) as [E1 E2].
  assert (Lw : 0 <= inner a w w) by (unfold inner; pose proof (Z.square_nonneg (lon w - lon a)); pose proof (Z.square_nonneg (lat w - lat a)); lia). assert (Lt : inner a w w < inner a w b) by lia.
  assert (Nb : w <> b) by (intros ->; lia).
  assert (X : lon a * (inner a w b - inner a w w) + lon b * inner a w w = lon w * inner a w b /\ lat a * (inner a w b - inner a w w) + lat b * inner a w w = lat w * inner a w b).
  { assert (X1 : (lat w - lat a) * turn a w b = 0) by (rewrite T; ring). assert (X2 : (lon w - lon a) * turn a w b = 0) by (rewrite T; ring).
    unfold turn in X1, X2. unfold inner. clear - X1 X2. split; lia. }
  assert (Na : a <> b). { intros ->. unfold inner in I. replace (lon b - lon b) with 0 in I by lia. replace (lat b - lat b) with 0 in I by lia. lia. }
  assert (K : 0 < inner a w w).
  { assert (Z : inner a w w = 0 \/ 0 < inner a w w) by lia. destruct Z as [Z|Z]; [|exact Z]. exfalso. rewrite Z in X. assert (Y : lon w = lon a /\ lat w = lat a) by (clear - X I; split; nia).
    destruct Y as [Y1 Y2]. unfold inner in I. rewrite Y1, Y2, !Z.sub_diag in I. lia. }
  destruct W as [-> | ->].
  - destruct (H (mkS p a) (inner a p b) 0 (inner a p p) E1) as [(Z & _)|[(Z & _)|(_ & Z)]]; cbn [e1 e2]; try lia. destruct Z as [Z|Z]; cbn [e1 e2] in Z; congruence.
  - destruct (H (mkS a n) (inner a n b) (inner a n b) (inner a n n) E2) as [(Z & _)|[(Z & _)|(_ & Z)]]; cbn [e1 e2]; try lia. destruct Z as [Z|Z]; cbn [e1 e2] in Z; congruence.
Qed.
Lemma corner_pgeo ps p o n : (forall c, In c (polygon_vertices ps) -> pgeo c) -> corner_of ps p o n -> pgeo p /\ pgeo o /\ pgeo n.
Proof.
  intros G (P & i & HP & I & -> & -> & ->). unfold ring_prev, ring_next, vat. repeat split; apply G, in_polygon_vertices; exists P; (split; [exact HP|]); apply nth_In; try exact I; apply Nat.mod_upper_bound; lia.
Qed.
Lemma open_not_blocked ps a v : (forall c, In c (polygon_vertices (map_copies ps)) -> pgeo c) -> (forall p o n, corner_of ps p o n -> clear_corner p o n) ->
  pgeo a -> pgeo v -> v <> a -> open_line ps a v -> ~ blocked_vertex (map_copies ps) a v.
Proof.
  intros G Cc Ga Gv N O [(p & n & C & E)|(e & Pe & Nt & (q & t & u & Q & T & U & X & Y))].
  - destruct (corner_pgeo _ _ _ _ G C) as (Gp & _ & Gn).
    destruct (copy_corner _ _ _ _ C) as (j & p' & o' & n' & C' & -> & -> & ->).
    specialize (O (- j)). rewrite wrap_wrap, Z.add_opp_diag_l, wrap_0 in O.
    assert (Cl : clear_corner (wrap j p') (wrap j o') (wrap j n')).
    { specialize (Cc _ _ _ C'). unfold clear_corner in *. rewrite turn_wrap. unfold wrap. cbn [lon lat].
      replace (lon o' + j * 360000001 - (lon p' + j * 360000001)) with (lon o' - lon p') by ring. replace (lon n' + j * 360000001 - (lon o' + j * 360000001)) with (lon n' - lon o') by ring. exact Cc. }
    assert (Ev : v = wrap j (wrap (- j) v)) by (rewrite wrap_wrap, Z.add_opp_diag_r, wrap_0; reflexivity).
    destruct (hidden_geometric _ _ _ _ Gp Ga Gn Gv N Cl E) as [S|(w & W & Pa)].
    + apply (proj1 (proj2 O) p' n' C'). rewrite Ev in S. unfold into_solid in *. rewrite !turn_wrap in S. exact S.
    + assert (W' : exists w', w = wrap j w' /\ (w' = p' \/ w' = n')) by (destruct W as [-> | ->]; eauto). destruct W' as (w' & -> & W').
      apply (open_not_past ps o' (wrap (- j) v) p' n' w' O C' W'). rewrite Ev in Pa. unfold past, on_ray, inner in *. rewrite turn_wrap in Pa.
      set (v' := wrap (- j) v) in *. unfold wrap in Pa. cbn [lon lat] in Pa.
      replace (lon w' + j * 360000001 - (lon o' + j * 360000001)) with (lon w' - lon o') in Pa by ring. replace (lon v' + j * 360000001 - (lon o' + j * 360000001)) with (lon v' - lon o') in Pa by ring. exact Pa.
  - destruct (copy_edge _ _ Pe) as (j & e' & Pe' & ->). cbn [e1 e2] in *. destruct (O (- j)) as (H & _).
    destruct (H e' q t u Pe' Q T) as [(_ & Z)|[(Z & _)|(Z & _)]]; try lia; try (unfold wrap in *; cbn [lon lat] in *; lia);
      apply Nt; unfold touches in *; cbn [e1 e2]; destruct Z as [Z|Z]; rewrite Z, wrap_wrap, Z.add_opp_diag_r, wrap_0; auto.
Qed.

(** ** The generated graph *)
Theorem mapped_complete atan2 ords ps g : mapped atan2 ords ps g -> complete ps g.
Proof.
  intros (T & L & F & Cc & W & E). pose proof (fun c => clear_ngeo ps c F) as Ng. pose proof (periodic_reports atan2 ords ps L Ng) as R.
  destruct (generate_ok ps _ R) as (g' & E' & G). rewrite E in E'. inversion E'; subst g'. clear E'.
  assert (B : built g). { exists ps. eexists. split; [|exact G]. eapply Forall_impl; [|apply calls_adds]. intros []; cbn; tauto. }
  split; [exact F|]. split; [exact B|]. split; [rewrite (built_polys _ _ _ G); tauto|].
  assert (Gp : forall c, In c (polygon_vertices (map_copies ps)) -> pgeo c).
  { intros c C. apply copies_vertices in C. destruct C as (v & k & V & K & ->). apply (copy_facts v _ (Ng v V) (copy_of_wrap v k K)). }
  destruct (half_graph atan2 ords ps T L F W) as (g' & E' & H). rewrite E in E'. inversion E'; subst g'. clear E'.
  assert (K : forall a b k, In a (polygon_vertices ps) -> In b (polygon_vertices ps) -> a <> b -> lat a <= lat b -> -1 <= k <= 1 -> open_line ps a (wrap k b) ->
    exists f, answer g a b = Some f /\ (k = 0 -> f = false)).
  { intros a b k A B' D La Hk O. destruct (H a b k A B' D La Hk) as [(H1 & H2)|Bl].
    - unfold answer. rewrite H1. destruct (grun_queries ps _ g G a b) as (Q1 & _). destruct (Q1 D A B') as [_ Q2].
      match type of Q2 with _ = Ok ?c => exists c; set (f := c) in * end. rewrite Q2. split; [reflexivity|]. intros K0. destruct f; [exfalso; apply (H2 K0 Q2)|reflexivity].
    - exfalso. revert Bl. apply open_not_blocked; auto.
      + apply ngeo_pgeo, Ng, A.
      + apply Gp, copies_vertices. eauto.
      + intros X. rewrite <- (wrap_0 a) in X. destruct (wrap_home _ _ _ _ (Ng b B') (Ng a A) X). congruence. }
  intros a b k A B' D Hk O. destruct (Z_le_dec (lat a) (lat b)) as [La|La]; [apply (K a b k); assumption|].
  destruct (K b a (- k)) as (f & An & Hf); auto; try lia; [apply open_sym, O|]. exists f. split; [rewrite (answer_sym g a b B); exact An|intros ->; apply Hf; reflexivity].
Qed.

(** ** Routes *)
Section Complete.
Variables (atan2 : Z -> Z -> f64) (ords' : coord -> orders) (ps : list polygon) (g : graph).
Hypotheses (Co : complete ps g) (L' : forall v, library_orders (ords' v)).
Notation vis := (endpoint_vis atan2 ords' g).
Lemma co_ngeo c : In c (polygon_vertices ps) -> ngeo c.
Proof. destruct Co as (F & _). apply clear_ngeo, F. Qed.
Lemma co_vertices c : In c (polygon_vertices (get_polygons g)) <-> In c (polygon_vertices ps).
Proof. destruct Co as (_ & _ & P & _). rewrite !in_polygon_vertices. split; intros (Q & HQ & I); exists Q; (split; [apply P, HQ|exact I]). Qed.
Lemma co_has_vertex c : has_vertex g c = true <-> In c (polygon_vertices ps).
Proof.
  rewrite <- co_vertices. destruct Co as (_ & (qs & h & _ & G) & _). rewrite (built_has_vertex _ _ _ _ G). rewrite (built_polys _ _ _ G). tauto.
Qed.
(** an endpoint off the map sees every vertex in open water *)
Lemma sees_open c v : ngeo c -> ~ In c (polygon_vertices ps) -> In v (polygon_vertices ps) -> open_line ps c v -> sees vis None c v.
Proof.
  intros Gc Nc Hv O. destruct Co as (F & Bg & Pg & _). pose proof co_vertices as Iv.
  destruct (get_visible_ok atan2 (ords' c) (get_polygons g) c false (L' c) (ngeo_pgeo c Gc)) as (res & seen & R & _ & Ik & _ & _ & Fr & H).
  { intros w W. apply ngeo_pgeo, co_ngeo, Iv, W. }
  rewrite scanned_full in H. assert (Nv : v <> c) by (intros ->; contradiction).
  destruct (H v) as [Is|Bl]; [apply Ik, Iv, Hv|exact Nv| |exfalso].
  - destruct (Forall2_at _ _ _ _ Fr Is) as (p & Hp & Np & _).
    destruct (copy_facts v _ (co_ngeo v Hv) (copy_of_wrap v 0 ltac:(lia))) as (_ & X & _). rewrite wrap_0 in X. rewrite X in Np. inversion Np as [Y].
    exists res, p. split; [exact R|]. split; [exact Hp|]. split; [auto|]. split; [congruence|]. intros shore Z. discriminate Z.
  - assert (Ip : forall P, In P (get_polygons g) -> In P ps) by (intros P; apply Pg).
    destruct Bl as [(p & n & (P & i & HP & I & _ & X & _) & _)|(e & (P & i & HP & I & ->) & Nt & (q & t & u & Q & T & U & X & Y))].
    + apply Nc. rewrite X. apply in_polygon_vertices. exists P. split; [apply Ip, HP|apply nth_In, I].
    + destruct (O 0) as (H' & _). rewrite !wrap_0 in H'. destruct (H' (mkS (vat (verts P) i) (ring_next (verts P) i)) q t u) as [(_ & Z)|[(Z & _)|(Z & _)]]; auto; try lia. exists P, i. auto.
Qed.

Variables (s d : coord).
Hypotheses (Gs : ngeo s) (Gd : ngeo d).
Notation lc := (mkLC s d None None).
(** a route through open water; each line starts or ends in a vertex of the map, or both; a line
    around the world joins two vertices, and counts as the longer of the two ways between them *)
Inductive open_route : coord -> list coord -> coord -> R -> Prop :=
| open_end u : open_route u [] u 0%R
| open_straight u v l t r : open_line ps u v -> u <> v ->
    In u (polygon_vertices ps) \/ u = s \/ u = d -> In v (polygon_vertices ps) \/ v = s \/ v = d -> In u (polygon_vertices ps) \/ In v (polygon_vertices ps) ->
    open_route v l t r -> open_route u (v :: l) t (apart u v + r)%R
| open_around u v k l t r : k = 1 \/ k = -1 -> open_line ps u (wrap k v) -> u <> v ->
    In u (polygon_vertices ps) -> In v (polygon_vertices ps) ->
    open_route v l t r -> open_route u (v :: l) t (Rmax (apart u v) (apart u (wrap k v)) + r)%R.
Lemma open_journey u l t r : open_route u l t r -> exists r', journey (road g vis lc) u l t r' /\ (r' <= r)%R.
Proof.
  assert (V : forall c, has_vertex g c = false <-> ~ In c (polygon_vertices ps)) by (intros c; rewrite <- co_has_vertex; destruct (has_vertex g c); split; congruence).
  assert (EE : forall c w, ~ In c (polygon_vertices ps) -> c = s \/ c = d -> In w (polygon_vertices ps) -> open_line ps c w -> endpoint_edge g vis lc c w).
  { intros c w Nc [-> | ->] W O; (split; [apply V, Nc|]); cbn [lc_source lc_dest lc_source_edge lc_dest_edge]; [left|right]; (split; [reflexivity|]); apply sees_open; assumption. }
  induction 1 as [u|u v l t r H D Su Sv J Ro (r' & J' & Le)|u v k l t r K H D U V' Ro (r' & J' & Le)].
  - exists 0%R. split; [constructor|lra].
  - exists (edge_length false u v + r')%R. split; [|unfold edge_length; lra]. constructor; [|exact J'].
    destruct (in_dec coord_dec u (polygon_vertices ps)) as [Iu|Iu]; destruct (in_dec coord_dec v (polygon_vertices ps)) as [Iv|Iv]; [| | |tauto].
    + destruct Co as (_ & _ & _ & C). destruct (C u v 0 Iu Iv D ltac:(lia)) as (f & An & F); [rewrite wrap_0; exact H|]. rewrite (F eq_refl) in An. left. exact An.
    + right. split; [reflexivity|]. right. apply EE; [exact Iv|tauto|exact Iu|apply open_flip, H].
    + right. split; [reflexivity|]. left. apply EE; [exact Iu|tauto|exact Iv|exact H].
  - destruct Co as (_ & _ & _ & C). destruct (C u v k U V' D ltac:(lia) H) as (f & An & _).
    exists (edge_length f u v + r')%R. split; [constructor; [left; exact An|exact J']|]. destruct f.
    + pose proof (around_length u v k K). pose proof (Rmax_r (apart u v) (apart u (wrap k v))). lra.
    + unfold edge_length. pose proof (Rmax_l (apart u v) (apart u (wrap k v))). lra.
Qed.
End Complete.

(** ** Queries *)
(** the sweep of the program, and the rows of the graph in some order; both endpoints at sea, anywhere *)
Definition sea_query (atan2 : Z -> Z -> f64) (ords' : coord -> orders) (g : graph) (en : env) (source destination ns nd : coord) : Prop :=
  (forall v, library_orders (ords' v)) /\ en_vis en = endpoint_vis atan2 ords' g /\ row_orders (en_rows en) /\ index_in_range (en_index en) /\
  in_the_map source /\ in_the_map destination /\ normalize_coord source = Ok ns /\ normalize_coord destination = Ok nd /\ ngeo ns /\ ngeo nd /\
  ix_contains (en_index en) ns = false /\ ix_contains (en_index en) nd = false /\ ix_crossing (en_index en) (mkS ns nd) <> [].

Section Query.
Variables (atan2 : Z -> Z -> f64) (ords' : coord -> orders) (ps : list polygon) (g : graph) (en : env) (source destination ns nd : coord).
Hypotheses (Co : complete ps g) (Sq : sea_query atan2 ords' g en source destination ns nd).
Lemma sea_fit : fit_for_queries en g.
Proof.
  destruct Sq as (L & Ev & Rw & Ix & _). assert (B : built g) by apply Co.
  assert (G : forall c, In c (get_vertices g) -> ngeo c).
  { intros c C. apply (co_ngeo _ _ Co), (co_vertices _ _ Co). destruct B as (qs & h & _ & G). rewrite (built_vertices _ _ _ G) in C. rewrite (built_polys _ _ _ G). exact C. }
  split; [exact B|]. split; [exact G|]. split; [exact Rw|]. split; [|exact Ix]. rewrite Ev. apply endpoint_vis_answers; assumption.
Qed.
Lemma sea_correction : correction_of en source destination (mkLC ns nd None None).
Proof. destruct Sq as (_ & _ & _ & _ & _ & _ & Es & Ed & _ & _ & Ls & Ld & _). exists ns, nd. split; [exact Es|]. split; [exact Ed|]. split; left; auto. Qed.
Lemma sea_searched : searched en (mkLC ns nd None None).
Proof.
  destruct Sq as (_ & _ & _ & _ & _ & _ & _ & _ & _ & _ & _ & _ & Nx). destruct (ix_crossing (en_index en) (mkS ns nd)) as [|x l] eqn:X; [congruence|]. apply searched_iff. exists x. cbn [lc_source lc_dest lc_source_edge lc_dest_edge]. rewrite X.
  split; [left; reflexivity|]. intros shore [Y|Y]; discriminate Y.
Qed.
Theorem no_shorter_open radius flag fuel path w :
  shortest_path fuel en g source destination radius flag = Some (Ok path) -> Z.of_nat (length path) <= 1000000 ->
  minimal w (en_pick en) -> is_finite w = true -> (Rabs (V w) <= bpow radix2 900)%R ->
  exists l r, path = ns :: l /\ journey (road g (en_vis en) (mkLC ns nd None None)) ns l nd r /\
    forall l' r', open_route ps ns nd ns l' nd r' -> Forall (within ns radius) l' -> Z.of_nat (length l') <= 1000000 ->
      (r <= Rmax 1 (V w) * r' * (1 + / 2000000000))%R.
Proof.
  intros E Len Mn Fw Bw. pose proof sea_fit as Fit. pose proof Sq as (L & Ev & _ & _ & Ms & Md & _ & _ & Gs & Gd & _).
  destruct (query_optimal en g source destination radius flag Fit Ms Md fuel path _ w E sea_correction sea_searched Mn Fw Bw) as (l & r & -> & J & O).
  cbn [lc_source lc_dest] in J, O. exists l, r. split; [reflexivity|]. split; [exact J|]. intros l' r' Ro Wi Len'.
  destruct (open_journey atan2 ords' ps g Co L ns nd Gs Gd _ _ _ _ Ro) as (r2 & J2 & Le). rewrite <- Ev in J2.
  cbn [length] in Len.
  assert (K : (r <= Rmax 1 (V w) * r2 * (1 + / 2000000000))%R).
  { apply (rounding_factor r (Rmax 1 (V w)) r2 (length l) (length l')); [eapply journey_pos; exact J|apply Rmax_l|eapply journey_pos; exact J2|lia|lia|]. apply O; assumption. }
  eapply Rle_trans; [exact K|]. apply Rmult_le_compat_r; [lra|]. apply Rmult_le_compat_l; [|exact Le]. apply Rle_trans with 1%R; [lra|apply Rmax_l].
Qed.
Theorem no_open_route radius flag fuel : shortest_path fuel en g source destination radius flag = Some (Throw NoPath) ->
  ~ exists l r, open_route ps ns nd ns l nd r /\ Forall (within ns radius) l.
Proof.
  intros E (l & r & Ro & Wi). pose proof sea_fit as Fit. pose proof Sq as (L & Ev & _ & _ & Ms & Md & Es & Ed & Gs & Gd & Ls & Ld & _).
  destruct (query_failure en g source destination radius flag Fit Ms Md fuel (mkLC ns nd None None) _ E sea_correction sea_searched) as [(path & X)|(_ & X)]; [|discriminate X|].
  - right. exists ns, nd. auto.
  - apply X. destruct (open_journey atan2 ords' ps g Co L ns nd Gs Gd _ _ _ _ Ro) as (r2 & J2 & _). rewrite <- Ev in J2. exists l, r2. auto.
Qed.
(** an open route within the radius is enough for a path *)
Theorem open_route_found radius flag : (exists l r, open_route ps ns nd ns l nd r /\ Forall (within ns radius) l) ->
  exists n, forall fuel, (n <= fuel)%nat -> exists path, shortest_path fuel en g source destination radius flag = Some (Ok path).
Proof.
  intros Ro. pose proof sea_fit as Fit. pose proof Sq as (_ & _ & _ & _ & Ms & Md & Es & Ed & _ & _ & Ls & Ld & _).
  destruct (query_terminates en g source destination radius flag Fit Ms Md) as (n & T). exists n. intros fuel Fu. destruct (T fuel Fu) as [T1 _].
  destruct (shortest_path fuel en g source destination radius flag) as [r|] eqn:Q; [|congruence].
  destruct (query_failure en g source destination radius flag Fit Ms Md fuel (mkLC ns nd None None) r Q sea_correction sea_searched) as [(path & ->)|(-> & _)].
  - right. exists ns, nd. auto.
  - exists path. reflexivity.
  - exfalso. exact (no_open_route radius flag fuel Q Ro).
Qed.
End Query.

(** any graph over these polygons which answers like a complete one *)
Lemma complete_like ps g g' : complete ps g -> built g' -> (forall P, In P (get_polygons g') <-> In P ps) -> (forall a b, answer g' a b = answer g a b) -> complete ps g'.
Proof. intros (F & _ & _ & H) B P An. split; [exact F|]. split; [exact B|]. split; [exact P|]. intros a b k. rewrite An. apply H. Qed.

(** ** Deciding it *)
Lemma open_direct ps a b : (forall c, In c (polygon_vertices ps) -> ngeo c) -> ngeo a -> ngeo b -> open_here ps a b -> open_line ps a b.
Proof.
  intros G [A _] [B _] O j. destruct (Z.eq_dec j 0) as [->|J]; [rewrite !wrap_0; exact O|].
  assert (Mix : forall x y q t, 0 <= t <= q -> - 180000000 <= x <= 180000000 -> - 180000000 <= y <= 180000000 -> - 180000000 * q <= (q - t) * x + t * y <= 180000000 * q).
  { clear. intros x y q t T X Y. assert (A1 : (q - t) * - 180000000 <= (q - t) * x) by (apply Z.mul_le_mono_nonneg_l; lia). assert (A2 : (q - t) * x <= (q - t) * 180000000) by (apply Z.mul_le_mono_nonneg_l; lia).
    assert (A3 : t * - 180000000 <= t * y) by (apply Z.mul_le_mono_nonneg_l; lia). assert (A4 : t * y <= t * 180000000) by (apply Z.mul_le_mono_nonneg_l; lia). lia. }
  assert (Ge : forall e, polygon_edge ps e -> ngeo (e1 e) /\ ngeo (e2 e)).
  { intros e (P & i & HP & I & ->). cbn [e1 e2]. unfold ring_next, vat. split; apply G, in_polygon_vertices; exists P; (split; [exact HP|]); apply nth_In; [exact I|apply Nat.mod_upper_bound; lia]. }
  assert (Gc : forall p o n, corner_of ps p o n -> ngeo o).
  { intros p o n (P & i & HP & I & _ & -> & _). unfold vat. apply G, in_polygon_vertices. exists P. split; [exact HP|apply nth_In, I]. }
  split; [|split; intros p n C; destruct (Gc _ _ _ C) as [X _]; unfold wrap in X; cbn [lon] in X; exfalso; clear - X A B J; lia].
  intros e q t u E Q T U X Y. exfalso. destruct (Ge e E) as [[E1 _] [E2 _]]. unfold wrap in X. cbn [lon] in X.
  assert (L1 : - 180000000 * q <= (q - t) * lon (e1 e) + t * lon (e2 e) <= 180000000 * q) by (apply Mix; lia).
  assert (L2 : - 180000000 * q <= (q - u) * lon a + u * lon b <= 180000000 * q) by (apply Mix; lia).
  assert (L3 : (q - t) * lon (e1 e) + t * lon (e2 e) = (q - u) * lon a + u * lon b + j * 360000001 * q) by lia. clear - L1 L2 L3 Q J.
  assert (K : j <= -1 \/ 1 <= j) by lia. destruct K; nia.
Qed.
Definition clear_of_b (e : segment) (a b : coord) : bool :=
  (0 <? turn (e1 e) (e2 e) a * turn (e1 e) (e2 e) b) || (0 <? turn a b (e1 e) * turn a b (e2 e)) ||
  ((coord_eqb (e1 e) a || coord_eqb (e2 e) a) && (coord_eqb (e1 e) b || coord_eqb (e2 e) b)) ||
  ((coord_eqb (e1 e) a || coord_eqb (e1 e) b) && negb (turn a b (e2 e) =? 0)) ||
  ((coord_eqb (e2 e) a || coord_eqb (e2 e) b) && negb (turn a b (e1 e) =? 0)).
Definition into_solid_b (v1 v2 v3 p : coord) : bool :=
  ((0 <? turn v1 v2 v3) && (0 <? turn v1 v2 p) && (0 <? turn v2 v3 p)) || ((turn v1 v2 v3 <? 0) && ((0 <? turn v1 v2 p) || (0 <? turn v2 v3 p))).
Definition corner_clear_b (P : polygon) (a b : coord) : bool :=
  forallb (fun i => negb (coord_eqb (vat (verts P) i) a) || negb (into_solid_b (ring_prev (verts P) i) a (ring_next (verts P) i) b)) (seq 0 (length (verts P))).
Definition open_b (ps : list polygon) (a b : coord) : bool :=
  forallb (fun P => forallb (fun e => clear_of_b e a b) (edges_list P) && corner_clear_b P a b && corner_clear_b P b a) ps.
Lemma corner_clear_b_ok P ps a b p n : forallb (fun P => corner_clear_b P a b) ps = true -> In P ps -> corner_of [P] p a n -> ~ into_solid p a n b.
Proof.
  rewrite forallb_forall. intros H HP (Q & i & [<-|[]] & I & -> & -> & ->) S. specialize (H P HP). unfold corner_clear_b in H. rewrite forallb_forall in H.
  assert (Hi : In i (seq 0 (length (verts P)))) by (apply in_seq; lia). specialize (H i Hi). rewrite coord_eqb_refl in H. cbn [negb orb] in H. apply negb_true_iff in H.
  unfold into_solid_b in H. apply orb_false_iff in H. rewrite !andb_false_iff, orb_false_iff, !Z.ltb_ge in H. unfold into_solid in S. lia.
Qed.
Lemma open_b_ok ps a b : open_b ps a b = true -> open_here ps a b.
Proof.
  unfold open_b. rewrite forallb_forall. intros H.
  assert (C : forall a b, (forall P, In P ps -> corner_clear_b P a b = true) -> forall p n, corner_of ps p a n -> ~ into_solid p a n b).
  { intros a0 b0 H0 p n (P & i & HP & X). apply (corner_clear_b_ok P [P]); [cbn [forallb]; rewrite (H0 P HP); reflexivity|left; reflexivity|exists P, i; split; [left; reflexivity|exact X]]. }
  split; [|split; apply C; intros P HP; specialize (H P HP); rewrite !andb_true_iff in H; tauto].
  intros e q t u (P & i & HP & I & Ee) Q T U X Y. specialize (H P HP). rewrite !andb_true_iff, forallb_forall in H. destruct H as [[H _] _].
  specialize (H e (proj1 (edges_list_ok _ _) (ex_intro _ i (conj I Ee)))). clear Ee I HP P i C.
  assert (T1 : (q - t) * turn a b (e1 e) + t * turn a b (e2 e) = 0).
  { unfold turn. replace ((q - t) * ((lon b - lon a) * (lat (e1 e) - lat a) - (lat b - lat a) * (lon (e1 e) - lon a)) + t * ((lon b - lon a) * (lat (e2 e) - lat a) - (lat b - lat a) * (lon (e2 e) - lon a)))
      with ((lon b - lon a) * (((q - t) * lat (e1 e) + t * lat (e2 e)) - q * lat a) - (lat b - lat a) * (((q - t) * lon (e1 e) + t * lon (e2 e)) - q * lon a)) by ring. rewrite X, Y. ring. }
  assert (T2 : (q - u) * turn (e1 e) (e2 e) a + u * turn (e1 e) (e2 e) b = 0).
  { unfold turn. replace ((q - u) * ((lon (e2 e) - lon (e1 e)) * (lat a - lat (e1 e)) - (lat (e2 e) - lat (e1 e)) * (lon a - lon (e1 e))) + u * ((lon (e2 e) - lon (e1 e)) * (lat b - lat (e1 e)) - (lat (e2 e) - lat (e1 e)) * (lon b - lon (e1 e))))
      with ((lon (e2 e) - lon (e1 e)) * (((q - u) * lat a + u * lat b) - q * lat (e1 e)) - (lat (e2 e) - lat (e1 e)) * (((q - u) * lon a + u * lon b) - q * lon (e1 e))) by ring. rewrite <- X, <- Y. ring. }
  assert (Same : forall x y m n, 0 <= m -> 0 <= n -> 0 < m + n -> 0 < x * y -> m * x + n * y <> 0).
  { clear. intros x y m n M N S P. apply Z.lt_0_mul in P. assert (K : 0 < m \/ 0 < n) by lia.
    destruct P as [[A B]|[A B]]; destruct K as [K|K]; [assert (0 < m * x) by (apply Z.mul_pos_pos; assumption); assert (0 <= n * y) by (apply Z.mul_nonneg_nonneg; lia)|assert (0 <= m * x) by (apply Z.mul_nonneg_nonneg; lia); assert (0 < n * y) by (apply Z.mul_pos_pos; assumption)|
      assert (m * x < 0) by (apply Z.mul_pos_neg; assumption); assert (n * y <= 0) by (apply Z.mul_nonneg_nonpos; lia)|assert (m * x <= 0) by (apply Z.mul_nonneg_nonpos; lia); assert (n * y < 0) by (apply Z.mul_pos_neg; assumption)]; lia. }
  assert (End : forall z, a <> b -> z = a \/ z = b -> q * lon z = (q - u) * lon a + u * lon b -> q * lat z = (q - u) * lat a + u * lat b -> (u = 0 /\ z = a) \/ (u = q /\ z = b)).
  { clear - Q U. intros z N [-> | ->] Lo La; [left|right]; (split; [|reflexivity]); assert (K : lon a <> lon b \/ lat a <> lat b) by (destruct (Z.eq_dec (lon a) (lon b)), (Z.eq_dec (lat a) (lat b)); try lia; exfalso; apply N, coord_ext; assumption); destruct K; nia. }
  assert (Nab : forall c, turn a b c <> 0 -> a <> b) by (intros c N ->; apply N; unfold turn; ring).
  unfold clear_of_b in H. rewrite !orb_true_iff, !andb_true_iff, !orb_true_iff, !negb_true_iff, !Z.ltb_lt, !coord_eqb_spec, !Z.eqb_neq in H.
  destruct H as [[[[H|H]|H]|[H N]]|[H N]].
  - exfalso. apply (Same _ _ (q - u) u) in H; [contradiction|lia|lia|lia].
  - exfalso. apply (Same _ _ (q - t) t) in H; [contradiction|lia|lia|lia].
  - right. right. exact H.
  - assert (Et : t = 0). { assert (Z : turn a b (e1 e) = 0) by (destruct H as [-> | ->]; unfold turn; ring). rewrite Z in T1. nia. } subst t.
    destruct (End (e1 e) (Nab _ N) H ltac:(lia) ltac:(lia)) as [[-> E]|[-> E]]; [left|right; left]; (split; [reflexivity|left; exact E]).
  - assert (Et : t = q). { assert (Z : turn a b (e2 e) = 0) by (destruct H as [-> | ->]; unfold turn; ring). rewrite Z in T1. nia. } subst t.
    destruct (End (e2 e) (Nab _ N) H ltac:(lia) ltac:(lia)) as [[-> E]|[-> E]]; [left|right; left]; (split; [reflexivity|right; exact E]).
Qed.
