(** Lines that make no landfall, on maps of any shape: every edge of the graph and every leg of a path is one. *)
From Coq Require Import ZArith Reals Bool List Lia Lra Psatz Permutation.
From Flocq Require Import Core BinarySingleNaN.
From Verif Require Import Base F64 Coordinate Segment Polyline Polygon Periodicity PeriodicityFacts Graph Visgraph VisgraphFacts SpecGeom SpecGraph F64Facts CoordinateFacts SegmentFacts PolylineFacts
  PolygonMore GraphFacts GraphMore Sweep SweepFacts SweepMaps SweepGen SweepCases AngleFacts AngleSort SweepOpen SweepOrder SweepGeo SweepSound SweepExact SweepGraph SweepHalf SweepHalfGraph SweepLayers SweepFronts
  Overlay ShortestPath DistFacts SearchFacts SearchSpec SearchGraph SearchQuery PathFacts PathMore FreePaths OpenWater.
Import ListNotations.
Local Open Scope Z_scope.

(** ** Vocabulary *)
(** [w] lies strictly between [a] and [b] on their line *)
Definition strictly_between (a b w : coord) : Prop :=
  exists q u, 0 < u < q /\ q * lon w = (q - u) * lon a + u * lon b /\ q * lat w = (q - u) * lat a + u * lat b.
(** the segment from [a] to [b] crosses no edge from its right to its left, passes no corner on the
    way, and at a corner in [a] does not lead into the land: on a map whose rings run
    counter-clockwise it never enters land *)
Definition sea_here (ps : list polygon) (a b : coord) : Prop :=
  (forall s, polygon_edge ps s -> ~ enters a b s) /\
  (forall w, In w (polygon_vertices ps) -> ~ strictly_between a b w) /\
  (forall p n, corner_of ps p a n -> ~ into_solid p a n b).
(** the same on the cylinder *)
Definition sea_line (ps : list polygon) (a b : coord) : Prop := forall j, sea_here ps (wrap j a) (wrap j b).
(** from one end or the other *)
Definition sea_way (ps : list polygon) (a b : coord) : Prop := sea_line ps a b \/ sea_line ps b a.
(** the line from [o] to [v] crosses [e] from its right to its left, on the way and away from the ends of [e] *)
Definition crosses_in (o v : coord) (e : segment) : Prop :=
  turn o (e1 e) (e2 e) < 0 /\
  exists q t u, 0 < t < q /\ 0 < u < q /\
    (q - t) * lon (e1 e) + t * lon (e2 e) = (q - u) * lon o + u * lon v /\
    (q - t) * lat (e1 e) + t * lat (e2 e) = (q - u) * lat o + u * lat v.
(** the line from [o] to [v] leads into land: across an edge, from the corner in [o], or from a corner on the way *)
Definition behind_land (o v : coord) (qs : list polygon) : Prop :=
  (exists e, polygon_edge qs e /\ crosses_in o v e) \/
  (exists p n, corner_of qs p o n /\ into_solid p o n v) \/
  (exists p w n, corner_of qs p w n /\ strictly_between o v w /\ into_solid p w n v /\ 0 < turn p w v).
(** of the vertices in one direction from [o], all but the nearest are behind land *)
Definition shaded (o : coord) (qs : list polygon) : Prop :=
  forall v w, In v (polygon_vertices qs) -> In w (polygon_vertices qs) -> v <> o -> strictly_between o v w -> behind_land o v qs.
(** what the sweep from [o] over polygons [qs] of any shape needs *)
Definition ordered_view (half : bool) (o : coord) (qs : list polygon) : Prop :=
  all_separated o (polygon_vertices qs) /\ off_edges o qs /\ roomy qs /\ shaded o qs /\ in_order half o qs /\
  (forall p n, corner_of qs p o n -> clear_corner p o n).
(** generated from [ps], all of whose vertices have an ordered view of the map and its copies *)
Definition surveyed (atan2 : Z -> Z -> f64) (ords : coord -> orders) (ps : list polygon) (g : graph) : Prop :=
  accurate_atan2 atan2 /\ (forall v, library_orders (ords v)) /\ Forall clear_polygon ps /\ NoDup (polygon_vertices ps) /\
  (forall o, In o (polygon_vertices ps) -> ordered_view true o (map_copies ps)) /\
  generate (fun v => vis_periodic atan2 (ords v) ps v) ps = Ok g.
(** [g] is a graph over the polygons [ps], in some order, none of whose edges enters land *)
Definition sounded (atan2 : Z -> Z -> f64) (ps : list polygon) (g : graph) : Prop :=
  accurate_atan2 atan2 /\ Forall clear_polygon ps /\ NoDup (polygon_vertices ps) /\ built g /\ Permutation (get_polygons g) ps /\
  forall a b f, answer g a b = Some f ->
    In a (polygon_vertices ps) /\ In b (polygon_vertices ps) /\ a <> b /\ exists k, -1 <= k <= 1 /\ f = negb (k =? 0) /\ sea_way ps a (wrap k b).
(** a vertex of the map, or a point with an ordered view of it *)
Definition sounded_point (ps : list polygon) (c : coord) : Prop :=
  ngeo c /\ (In c (polygon_vertices ps) \/ ordered_view false c ps).
(** the straight line between consecutive points makes no landfall, or the edge is marked as crossing
    the meridian and the line around the world makes none *)
Definition sea_legs (g : graph) (ps : list polygon) (path : list coord) : Prop :=
  forall i u v, nth_error path i = Some u -> nth_error path (S i) = Some v ->
    sea_way ps u v \/ (is_edge_meridian_crossing g u v = Ok true /\ exists k, (k = 1 \/ k = -1) /\ sea_way ps u (wrap k v)).

(** ** Relations *)
Lemma crosses_enters o v e : crosses_in o v e -> enters o v e.
Proof. intros (T & q & t & u & Ht & Hu & X & Y). split; [exact T|]. exists q, t, u. repeat split; try assumption; lia. Qed.
Lemma sea_way_sym ps a b : sea_way ps a b <-> sea_way ps b a.
Proof. unfold sea_way. tauto. Qed.
Lemma sea_shift ps k a b : sea_line ps a b -> sea_line ps (wrap k a) (wrap k b).
Proof. intros H j. rewrite !wrap_wrap. apply H. Qed.
Lemma sea_way_turn ps a b k : sea_way ps a (wrap k b) -> sea_way ps b (wrap (- k) a).
Proof.
  intros [H|H]; apply (sea_shift ps (- k)) in H; rewrite wrap_wrap, Z.add_opp_diag_l, wrap_0 in H; [right|left]; exact H.
Qed.
Lemma strictly_ray a b w : a <> b -> strictly_between a b w -> w <> a /\ w <> b /\ on_ray a w b.
Proof.
  intros N (q & u & U & X & Y). unfold on_ray, turn, inner.
  assert (X' : q * (lon w - lon a) = u * (lon b - lon a)) by lia. assert (Y' : q * (lat w - lat a) = u * (lat b - lat a)) by lia.
  set (x := lon b - lon a) in *. set (y := lat b - lat a) in *. set (x' := lon w - lon a) in *. set (y' := lat w - lat a) in *.
  assert (P : 0 < x * x + y * y).
  { assert (x <> 0 \/ y <> 0). { destruct (Z.eq_dec x 0) as [E|E]; [right|left; exact E]. intros E'. apply N, coord_ext; lia. }
    pose proof (Z.square_nonneg x). pose proof (Z.square_nonneg y). destruct H as [H|H]; [assert (0 < x * x) by (clear - H; nia)|assert (0 < y * y) by (clear - H; nia)]; lia. }
  assert (Z0 : forall z, q * z = 0 -> z = 0) by (intros z Z; apply Z.mul_eq_0 in Z; lia).
  split; [|split; [|split]].
  - intros ->. subst x' y'. rewrite !Z.sub_diag, !Z.mul_0_r in *. assert (x = 0) by (symmetry in X'; apply Z.mul_eq_0 in X'; lia). assert (y = 0) by (symmetry in Y'; apply Z.mul_eq_0 in Y'; lia).
    rewrite H, H0 in P. lia.
  - intros ->. fold x in X'. fold y in Y'. assert ((q - u) * x = 0) by (subst x' y' x y; lia). assert ((q - u) * y = 0) by (subst x' y' x y; lia).
    apply Z.mul_eq_0 in H, H0. assert (x = 0) by lia. assert (y = 0) by lia. rewrite H1, H2 in P. lia.
  - apply Z0. replace (q * _) with ((q * x') * y - (q * y') * x) by (subst x y x' y'; ring). rewrite X', Y'. ring.
  - assert (K : q * (x' * x + y' * y) = u * (x * x + y * y)) by (replace (q * _) with ((q * x') * x + (q * y') * y) by ring; rewrite X', Y'; ring).
    assert (0 < u * (x * x + y * y)) by (apply Z.mul_pos_pos; lia). rewrite <- K in H. clear - H U. nia.
Qed.
(** what is open is such a line *)
Lemma open_sea_here ps a b : a <> b -> (forall P, In P ps -> (3 <= length (verts P))%nat) -> NoDup (polygon_vertices ps) -> open_here ps a b -> sea_here ps a b.
Proof.
  intros N Le Nd (H1 & H2 & H3). split; [|split; [|exact H2]].
  - intros s S (Tn & q & t & u & Q & T & U & X & Y). destruct (H1 s q t u S) as [(_ & Z)|[(Z & _)|(Z & _)]]; auto; try lia;
      destruct Z as [Z|Z]; rewrite Z in Tn; unfold turn in Tn; lia.
  - intros w W Sb. destruct (strictly_ray a b w N Sb) as (Na & Nb & _). destruct Sb as (q & u & U & X & Y).
    apply in_polygon_vertices in W. destruct W as (P & HP & W). destruct (corner_at P w (nodup_parts ps P Nd HP) (Le P HP) W) as (p & n & K).
    assert (Es : polygon_edge ps (mkS w n)) by (apply (edge_poly ps P _ HP), (c_out _ _ _ _ K)).
    assert (Ep : polygon_edge ps (mkS p w)) by (apply (edge_poly ps P _ HP), (c_in _ _ _ _ K)).
    destruct (H1 (mkS w n) q 0 u Es) as [(Z & _)|[(Z & _)|([Z|Z] & [Z'|Z'])]]; cbn [e1 e2] in *; try lia; try congruence.
Qed.

(** ** Convex polygons *)
(** where a line enters a convex polygon *)
Lemma entry P o v : convex 1 P -> NoDup (verts P) -> ~ in_interior P 1 (lon o) (lat o) -> through_interior o v P ->
  exists s q t u, edge_of P s /\ left_of s o <= 0 /\ (left_of s o = 0 -> u = 0) /\ 0 < q /\ 0 <= t <= q /\ 0 <= u < q /\
    (q - t) * lon (e1 s) + t * lon (e2 s) = (q - u) * lon o + u * lon v /\ (q - t) * lat (e1 s) + t * lat (e2 s) = (q - u) * lat o + u * lat v.
Proof.
  intros C N Ni (q & u & U & H). rewrite interior_left in H. pose proof C as (_ & L & Cs).
  assert (Ex : exists s, In s (edges_list P) /\ left_of s o <= 0).
  { assert (D : (exists s, In s (edges_list P) /\ left_of s o <= 0) \/ forall s, In s (edges_list P) -> 0 < left_of s o).
    { induction (edges_list P) as [|t l IH]; [right; intros t []|]. destruct (Z.le_gt_cases (left_of t o) 0) as [X|X]; [left; exists t; split; [left; reflexivity|exact X]|].
      destruct IH as [(x & X1 & X2)|IH]; [left; exists x; split; [right; exact X1|exact X2]|right; intros x [<-|X1]; auto]. }
    destruct D as [D|D]; [exact D|]. exfalso. apply Ni. intros s S. apply edges_list_ok in S. specialize (D s S). unfold left_of, turn in D. lia. }
  assert (Gr : forall s, In s (edges_list P) -> left_of s o <= 0 -> left_of s o < left_of s v).
  { intros s S F. apply edges_list_ok in S. specialize (H s S). nia. }
  destruct (latest (edges_list P) (fun s => left_of s o) (fun s => left_of s v) Ex Gr) as (s & S & Fs & M). cbv beta in M.
  pose proof (Gr s S Fs) as Gs. set (a := - left_of s o) in *. set (b := left_of s v - left_of s o) in *.
  assert (A0 : 0 <= a) by (subst a; lia). assert (B0 : 0 < b) by (subst b; lia).
  assert (Es : edge_of P s) by (apply edges_list_ok, S).
  assert (Au : a * q < u * b) by (specialize (H s Es); subst a b; nia).
  assert (Ab : a < b) by nia.
  assert (All : forall t, edge_of P t -> 0 <= (b - a) * left_of t o + a * left_of t v).
  { intros t T. specialize (H t T). destruct (Z.le_gt_cases (left_of t o) 0) as [X|X].
    - pose proof (M t (proj1 (edges_list_ok P t) T) X) as Mt. lia.
    - set (x := left_of t o) in *. set (y := left_of t v) in *. clearbody x y. clear - H X Au A0 B0 Ab U. assert (0 <= u * ((b - a) * x + a * y)); [|nia].
      assert (a * ((q - u) * x + u * y) >= 0) by nia. assert (x * (u * b - a * q) > 0) by nia. nia. }
  assert (Ze : (b - a) * left_of s o + a * left_of s v = 0) by (subst a b; ring).
  destruct (edge_verts P s Es) as [I1 I2].
  destruct (corner_at P (e1 s) N L I1) as (p & n1 & K1). destruct (corner_at P (e2 s) N L I2) as (p2 & n & K2).
  assert (Sn : s = mkS (e1 s) n1).
  { destruct (c_only _ _ _ _ K1 s Es (or_introl eq_refl)) as [X|X]; [|exact X]. exfalso. pose proof (f_equal e2 X) as Y. cbn [e2] in Y.
    apply (edge_ends P s N ltac:(lia) Es). congruence. }
  assert (Sp : s = mkS p2 (e2 s)).
  { destruct (c_only _ _ _ _ K2 s Es (or_intror eq_refl)) as [X|X]; [exact X|]. exfalso. pose proof (f_equal e1 X) as Y. cbn [e1] in Y.
    apply (edge_ends P s N ltac:(lia) Es). congruence. }
  assert (En1 : n1 = e2 s) by (rewrite Sn; reflexivity). assert (Ep2 : p2 = e1 s) by (rewrite Sp; reflexivity). subst n1 p2. clear Sn Sp.
  pose proof (c_in _ _ _ _ K1) as Ep. pose proof (c_out _ _ _ _ K2) as Eo.
  destruct (edge_verts P _ Ep) as [Ip _]. destruct (edge_verts P _ Eo) as [_ In_]. cbn [e1 e2] in Ip, In_.
  set (D := turn p (e1 s) (e2 s)). assert (D0 : 0 < D).
  { destruct (corner_left 1 P p (e1 s) (e2 s) (e2 s) C K1 I2) as (_ & _ & X & _); [intros X; apply (c_vn _ _ _ _ K1); auto|].
    specialize (X (fun E => c_pn _ _ _ _ K1 (eq_sym E))). subst D. lia. }
  set (F := turn (e2 s) n (e1 s)). assert (F0 : 0 < F).
  { destruct (corner_left 1 P (e1 s) (e2 s) n (e1 s) C K2 I1) as (_ & _ & _ & X); [intros X; apply (c_vn _ _ _ _ K1); auto|].
    specialize (X (c_pn _ _ _ _ K2)). subst F. lia. }
  pose proof (All _ Ep) as Hp. pose proof (All _ Eo) as Hn. unfold left_of in Hp, Hn. cbn [e1 e2] in Hp, Hn.
  set (t := (b - a) * turn p (e1 s) o + a * turn p (e1 s) v) in *.
  assert (X1 : (b * D - t) * lon (e1 s) + t * lon (e2 s) = (b * D - a * D) * lon o + (a * D) * lon v).
  { assert (Q : D * ((b - a) * (lon o - lon (e1 s)) + a * (lon v - lon (e1 s))) - t * (lon (e2 s) - lon (e1 s)) = - (lon (e1 s) - lon p) * ((b - a) * left_of s o + a * left_of s v)) by (subst t D; unfold left_of, turn; ring).
    rewrite Ze in Q. lia. }
  assert (X2 : (b * D - t) * lat (e1 s) + t * lat (e2 s) = (b * D - a * D) * lat o + (a * D) * lat v).
  { assert (Q : D * ((b - a) * (lat o - lat (e1 s)) + a * (lat v - lat (e1 s))) - t * (lat (e2 s) - lat (e1 s)) = - (lat (e1 s) - lat p) * ((b - a) * left_of s o + a * left_of s v)) by (subst t D; unfold left_of, turn; ring).
    rewrite Ze in Q. lia. }
  set (w := (b - a) * turn (e2 s) n o + a * turn (e2 s) n v) in *.
  assert (X3 : D * w = (b * D - t) * F).
  { assert (Q : D * w = (lon n - lon (e2 s)) * ((b * D - a * D) * lat o + (a * D) * lat v - b * D * lat (e2 s)) - (lat n - lat (e2 s)) * ((b * D - a * D) * lon o + (a * D) * lon v - b * D * lon (e2 s))) by (subst w; unfold turn; ring).
    rewrite <- X1, <- X2 in Q. rewrite Q. subst F. unfold turn. ring. }
  assert (T1 : t <= b * D) by (clear - X3 Hn D0 F0; nia).
  exists s, (b * D), t, (a * D). split; [exact Es|]. split; [exact Fs|]. split; [intros Z; subst a; rewrite Z; reflexivity|]. split; [nia|]. split; [lia|]. split; [nia|]. split; assumption.
Qed.
(** over convex polygons, a line that makes no landfall misses their interior *)
Theorem sea_free ps o v : (forall P, In P ps -> convex 1 P) -> NoDup (polygon_vertices ps) -> off_edges o ps -> (forall P, In P ps -> ~ in_interior P 1 (lon o) (lat o)) ->
  sea_here ps o v -> forall P, In P ps -> ~ through_interior o v P.
Proof.
  intros C Nd Off Ni (H1 & H2 & H3) P HP Th. pose proof (nodup_parts ps P Nd HP) as N. pose proof (C P HP) as (_ & Le & _).
  destruct (in_dec coord_dec o (verts P)) as [Io|Io].
  - destruct (corner_at P o N Le Io) as (p & n & K). destruct Th as (q & u & U & H). rewrite interior_left in H.
    pose proof (H _ (c_in _ _ _ _ K)) as A. pose proof (H _ (c_out _ _ _ _ K)) as B. unfold left_of in A, B. cbn [e1 e2] in A, B.
    assert (Z1 : turn p o o = 0) by (unfold turn; ring). assert (Z2 : turn o n o = 0) by (unfold turn; ring). rewrite Z1 in A. rewrite Z2 in B.
    pose proof (corner_corner_of ps P p o n Nd HP K) as Hc.
    apply (H3 p n Hc). left.
    destruct (corner_left 1 P p o n n (C P HP) K) as (_ & _ & X & _); [apply (edge_verts P _ (c_out _ _ _ _ K))|intros X; apply (c_vn _ _ _ _ K); auto|].
    specialize (X (fun E => c_pn _ _ _ _ K (eq_sym E))). split; [lia|]. split; clear - A B U; nia.
  - destruct (entry P o v (C P HP) N (Ni P HP) Th) as (s & q & t & u & Es & Fs & F0 & Q & T & U & X & Y).
    pose proof (edge_poly ps P s HP Es) as Ps. destruct (edge_verts P s Es) as [I1 I2].
    assert (Nt : ~ touches s o) by (intros [Z|Z]; apply Io; rewrite <- Z; assumption).
    assert (U0 : u <> 0).
    { intros ->. apply Nt, (Off s Ps). rewrite Z.sub_0_r, !Z.mul_0_l, !Z.add_0_r in X, Y. exists q, t. repeat split; try assumption; lia. }
    assert (Tn : turn o (e1 s) (e2 s) < 0).
    { assert (E : turn o (e1 s) (e2 s) = left_of s o) by (unfold left_of, turn; ring). rewrite E. destruct (Z.eq_dec (left_of s o) 0) as [Z|Z]; [exfalso; apply U0, F0, Z|lia]. }
    destruct (Z.eq_dec t 0) as [->|T0].
    + apply (H2 (e1 s)); [apply in_polygon_vertices; eauto|]. exists q, u. split; [lia|]. split; lia.
    + apply (H1 s Ps). split; [exact Tn|]. exists q, t, u. repeat split; try assumption; lia.
Qed.

(** ** Copies *)
Lemma edge_copy ps e j : polygon_edge ps e -> -1 <= j <= 1 -> polygon_edge (map_copies ps) (mkS (wrap j (e1 e)) (wrap j (e2 e))).
Proof.
  intros (P & i & HP & I & ->) J. exists (wrap_polygon j P), i. split; [apply copies_in; eauto|]. unfold wrap_polygon. cbn [verts e1 e2]. rewrite map_length. split; [exact I|].
  rewrite vat_wrap, ring_next_wrap by exact I. reflexivity.
Qed.
Lemma edge_copies ps e : polygon_edge (map_copies ps) e -> exists s j, polygon_edge ps s /\ -1 <= j <= 1 /\ e = mkS (wrap j (e1 s)) (wrap j (e2 s)).
Proof.
  intros (Q & i & HQ & I & ->). apply copies_in in HQ. destruct HQ as (P & j & HP & J & ->). unfold wrap_polygon in *. cbn [verts] in *. rewrite map_length in I.
  exists (mkS (vat (verts P) i) (ring_next (verts P) i)), j. split; [exists P, i; auto|]. split; [exact J|]. cbn [e1 e2]. rewrite vat_wrap, ring_next_wrap by exact I. reflexivity.
Qed.
Lemma corner_copy ps p o n : corner_of ps p o n -> corner_of (map_copies ps) p o n.
Proof.
  intros (P & i & HP & H). exists P, i. split; [|exact H]. apply copies_in. exists P, 0. rewrite wrap_polygon_0. repeat split; try lia. exact HP.
Qed.
Lemma edge_ngeo ps e : (forall c, In c (polygon_vertices ps) -> ngeo c) -> polygon_edge ps e -> ngeo (e1 e) /\ ngeo (e2 e).
Proof.
  intros G (P & i & HP & I & ->). cbn [e1 e2]. unfold ring_next, vat. split; apply G, in_polygon_vertices; exists P; (split; [exact HP|]); apply nth_In; [exact I|apply Nat.mod_upper_bound; lia].
Qed.
Lemma enters_back j a b s : enters (wrap j a) (wrap j b) s -> enters a b (mkS (wrap (- j) (e1 s)) (wrap (- j) (e2 s))).
Proof.
  intros (Tn & q & t & u & Q & T & U & X & Y). split.
  - cbn [e1 e2]. replace a with (wrap (- j) (wrap j a)) by (rewrite wrap_wrap, Z.add_opp_diag_l; apply wrap_0). rewrite turn_wrap. exact Tn.
  - exists q, t, u. cbn [e1 e2]. unfold wrap in *. cbn [lon lat] in *. repeat split; try lia.
Qed.
(** a point of one segment which is a point of another *)
Lemma mix_le q t x y m : 0 <= t <= q -> x <= m -> y <= m -> (q - t) * x + t * y <= q * m.
Proof. intros T X Y. assert ((q - t) * x <= (q - t) * m) by (apply Z.mul_le_mono_nonneg_l; lia). assert (t * y <= t * m) by (apply Z.mul_le_mono_nonneg_l; lia). lia. Qed.
Lemma mix_ge q t x y m : 0 <= t <= q -> m <= x -> m <= y -> q * m <= (q - t) * x + t * y.
Proof. intros T X Y. assert ((q - t) * m <= (q - t) * x) by (apply Z.mul_le_mono_nonneg_l; lia). assert (t * m <= t * y) by (apply Z.mul_le_mono_nonneg_l; lia). lia. Qed.
Lemma far_mix q t u x y a b j k : 0 < q -> 0 <= t <= q -> 0 <= u <= q -> -180000000 <= x <= 180000000 -> -180000000 <= y <= 180000000 ->
  -180000000 <= a <= 180000000 -> -180000000 <= b <= 180000000 -> -1 <= k <= 1 -> j < -1 \/ 1 < j \/ k = 0 /\ j <> 0 ->
  (q - t) * x + t * y = (q - u) * (a + j * 360000001) + u * (b + k * 360000001 + j * 360000001) -> False.
Proof.
  intros Q T U X Y A B K J E.
  pose proof (mix_le q t x y 180000000 T ltac:(lia) ltac:(lia)). pose proof (mix_ge q t x y (-180000000) T ltac:(lia) ltac:(lia)).
  assert (C : j < 0 /\ (k = 0 \/ j <= -2) \/ 0 < j /\ (k = 0 \/ 2 <= j)) by lia. destruct C as [C|C].
  - pose proof (mix_le q u (a + j * 360000001) (b + k * 360000001 + j * 360000001) (-180000001) U ltac:(lia) ltac:(lia)). lia.
  - pose proof (mix_ge q u (a + j * 360000001) (b + k * 360000001 + j * 360000001) 180000001 U ltac:(lia) ltac:(lia)). lia.
Qed.
(** ** One observer *)
(** what the sweep found of [v], as seen from [o] *)
Definition found (qs : list polygon) (o v : coord) : Prop :=
  (forall s, polygon_edge qs s -> ~ enters o v s) /\ (forall p n, corner_of qs p o n -> point_visible (mkPL p o n) v = Ok true).
Lemma corner_enters qs o v p w n : corner_of qs p w n -> strictly_between o v w -> 0 < turn p w v -> polygon_edge qs (mkS p w) /\ enters o v (mkS p w).
Proof.
  intros (P & i & HP & I & -> & -> & _) (q & u & U & X & Y) T. destruct (ring_prev_edge (verts P) i I) as (j & J & A & B). split; [exists P, j; rewrite A, B; auto|].
  set (p := ring_prev (verts P) i) in *. set (w := vat (verts P) i) in *. split; cbn [e1 e2].
  - assert (K : (q - u) * turn o p w = - (u * turn p w v)).
    { transitivity ((lon w - lon p) * ((q - u) * lat o + u * lat v) - (lat w - lat p) * ((q - u) * lon o + u * lon v) - q * ((lon w - lon p) * lat p - (lat w - lat p) * lon p) - u * turn p w v); [unfold turn; ring|].
      rewrite <- X, <- Y. unfold turn. ring. }
    clear - K U T. nia.
  - exists q, q, u. repeat split; try lia.
Qed.
Lemma distinct_shaded o qs : distinct_directions o qs -> shaded o qs.
Proof.
  intros Dd v w V W N Sb. exfalso. destruct (strictly_ray o v w (fun E => N (eq_sym E)) Sb) as (Na & Nb & R). revert R. apply Dd; assumption.
Qed.
Lemma found_here half qs o v : (forall c, In c (polygon_vertices qs) -> pgeo c) -> pgeo o -> pgeo v -> v <> o -> In v (polygon_vertices qs) -> ordered_view half o qs -> found qs o v -> sea_here qs o v.
Proof.
  intros G Go Gv N V (_ & _ & _ & Dd & _ & Cc) (H1 & H2).
  assert (Ou : forall p n, corner_of qs p o n -> ~ into_solid p o n v).
  { intros p n C Is. destruct (corner_pgeo _ _ _ _ G C) as (Gp & _ & Gn). destruct (point_visible_ok p o n v Gp Go Gn Gv (Cc p n C) N) as (b & E & K & _).
    rewrite (H2 p n C) in E. specialize (K Is). congruence. }
  split; [exact H1|]. split.
  - intros w W Sb. destruct (Dd v w V W N Sb) as [(e & Pe & C)|[(p & n & C & Is)|(p & c & n & C & B & _ & T)]].
    + exact (H1 e Pe (crosses_enters o v e C)).
    + exact (Ou p n C Is).
    + destruct (corner_enters qs o v p c n C B T) as [Pe En]. exact (H1 _ Pe En).
  - exact Ou.
Qed.
(** over the map and its copies *)
Lemma found_line ps a b k : (forall c, In c (polygon_vertices ps) -> ngeo c) -> In a (polygon_vertices ps) -> In b (polygon_vertices ps) -> a <> b -> -1 <= k <= 1 ->
  ordered_view true a (map_copies ps) -> found (map_copies ps) a (wrap k b) -> sea_line ps a (wrap k b).
Proof.
  intros Ng A B D K Ov Fo.
  assert (Gp : forall c, In c (polygon_vertices (map_copies ps)) -> pgeo c).
  { intros c C. apply copies_vertices in C. destruct C as (v & i & V & I & ->). apply (copy_facts v _ (Ng v V) (copy_of_wrap v i I)). }
  assert (Nb : wrap k b <> a) by (intros E; rewrite <- (wrap_0 a) in E; destruct (wrap_home _ _ _ _ (Ng b B) (Ng a A) E); congruence).
  assert (Vb : In (wrap k b) (polygon_vertices (map_copies ps))) by (apply copies_vertices; eauto).
  destruct (found_here true (map_copies ps) a (wrap k b) Gp (ngeo_pgeo a (Ng a A)) (Gp _ Vb) Nb Vb Ov Fo) as (H1 & H2 & H3).
  destruct (Ng a A) as [La _]. destruct (Ng b B) as [Lb _].
  intros j. assert (J : -1 <= - j <= 1 \/ (j < -1 \/ 1 < j)) by lia. split; [|split].
  - intros s S En. destruct J as [J|J].
    + apply enters_back in En. revert En. apply H1, edge_copy; assumption.
    + destruct En as (_ & q & t & u & Q & T & U & X & _). destruct (edge_ngeo ps s Ng S) as [[L1 _] [L2 _]].
      apply (far_mix q t u (lon (e1 s)) (lon (e2 s)) (lon a) (lon b) j k); try assumption; try lia; exact X.
  - intros w W (q & u & U & X & Y). destruct J as [J|J].
    + apply (H2 (wrap (- j) w)); [apply copies_vertices; exists w, (- j); auto|]. exists q, u. unfold wrap in *. cbn [lon lat] in *. repeat split; lia.
    + destruct (Ng w W) as [L1 _]. apply (far_mix q 0 u (lon w) (lon w) (lon a) (lon b) j k); try assumption; try lia. unfold wrap in X. cbn [lon] in X. lia.
  - intros p n C Is. assert (J0 : j = 0).
    { assert (V : In (wrap j a) (polygon_vertices ps)) by (destruct C as (P & i & HP & I & _ & -> & _); apply in_polygon_vertices; exists P; split; [exact HP|apply nth_In, I]).
      pose proof (Ng _ V) as G'. assert (E : wrap 0 (wrap j a) = wrap j a) by apply wrap_0. destruct (wrap_home _ _ _ _ G' (Ng a A) E). congruence. }
    subst j. rewrite !wrap_0 in *. apply (H3 p n); [apply corner_copy, C|exact Is].
Qed.
(** over the map alone, from a point in its range *)
Lemma found_direct ps a b : (forall c, In c (polygon_vertices ps) -> ngeo c) -> ngeo a -> In b (polygon_vertices ps) -> a <> b ->
  ordered_view false a ps -> found ps a b -> sea_line ps a b.
Proof.
  intros Ng Ga B D Ov Fo. assert (Gp : forall c, In c (polygon_vertices ps) -> pgeo c) by (intros c C; apply ngeo_pgeo, Ng, C).
  destruct (found_here false ps a b Gp (ngeo_pgeo a Ga) (Gp b B) (fun E => D (eq_sym E)) B Ov Fo) as (H1 & H2 & H3).
  destruct Ga as [La Ga']. destruct (Ng b B) as [Lb _].
  intros j. destruct (Z.eq_dec j 0) as [->|J]; [rewrite !wrap_0; split; [exact H1|split; [exact H2|exact H3]]|]. split; [|split].
  - intros s S (_ & q & t & u & Q & T & U & X & _). destruct (edge_ngeo ps s Ng S) as [[L1 _] [L2 _]]. unfold wrap in X. cbn [lon] in X.
    apply (far_mix q t u (lon (e1 s)) (lon (e2 s)) (lon a) (lon b) j 0); try assumption; try lia.
  - intros w W (q & u & U & X & _). destruct (Ng w W) as [L1 _]. unfold wrap in X. cbn [lon] in X.
    apply (far_mix q 0 u (lon w) (lon w) (lon a) (lon b) j 0); try assumption; lia.
  - intros p n C. exfalso.
    assert (V : In (wrap j a) (polygon_vertices ps)) by (destruct C as (P & i & HP & I & _ & -> & _); apply in_polygon_vertices; exists P; split; [exact HP|apply nth_In, I]).
    pose proof (Ng _ V) as G'. assert (E : wrap 0 (wrap j a) = wrap j a) by apply wrap_0. destruct (wrap_home _ _ _ _ G' (conj La Ga') E). congruence.
Qed.
Lemma reported_sea atan2 ord ps a b f : accurate_atan2 atan2 -> library_orders ord -> Forall clear_polygon ps -> NoDup (polygon_vertices ps) ->
  ordered_view true a (map_copies ps) -> In a (polygon_vertices ps) -> In b (polygon_vertices ps) -> a <> b ->
  (exists xs x, vis_periodic atan2 ord ps a = Ok xs /\ In x xs /\ v_coord x = b /\ v_across x = f) ->
  lat a <= lat b /\ exists k, -1 <= k <= 1 /\ f = negb (k =? 0) /\ sea_line ps a (wrap k b).
Proof.
  intros T L F N Ov A B D (xs & x & E & X & Xb & Xf). pose proof Ov as (S1 & S2 & S3 & S4 & S5 & S6). pose proof (fun c => clear_ngeo ps c F) as Gv.
  assert (Gp : forall c, In c (polygon_vertices (map_copies ps)) -> pgeo c).
  { intros c C. apply copies_vertices in C. destruct C as (v & k & V & K & ->). apply (copy_facts v _ (Gv v V) (copy_of_wrap v k K)). }
  assert (Ga := Gv a A). assert (Gb := Gv b B).
  destruct (sweep_fronts atan2 ord (map_copies ps) a true T L (ngeo_pgeo a Ga)) as (res & seen & R & Fr & Ex & _); try assumption; [destruct Ga; lia|apply copies_nodup; assumption| |].
  { intros Q HQ. apply copies_in in HQ. destruct HQ as (P & j & HP & _ & ->). rewrite Forall_forall in F. destruct (clear_polygon_facts P (F P HP)) as (_ & _ & Le & _).
    unfold wrap_polygon. cbn [verts]. rewrite map_length. exact Le. }
  assert (V : vis_periodic atan2 ord ps a = Ok res).
  { unfold vis_periodic. rewrite (periodic_polygons_ok ps F). cbn [bind]. rewrite copies_translates. exact R. }
  rewrite V in E. inversion E; subst xs. destruct (Forall2_in_r _ _ _ _ Fr X) as (c & Ic & Nc & Ac).
  apply Ex in Ic. destruct Ic as (Ic & _ & Lc & H1 & H2). apply copies_vertices in Ic. destruct Ic as (v & k & Vv & K & ->).
  destruct (copy_facts v _ (Gv v Vv) (copy_of_wrap v k K)) as (_ & Nv & _). rewrite Nv in Nc. assert (v = b) by congruence. subst v.
  split; [apply (Lc eq_refl)|]. exists k. split; [exact K|]. split; [rewrite <- (copy_meridian b k Gb); congruence|]. apply found_line; try assumption. split; assumption.
Qed.

(** ** The graph *)
Theorem surveyed_sounded atan2 ords ps g : surveyed atan2 ords ps g -> sounded atan2 ps g.
Proof.
  intros (T & L & F & N & C & E). pose proof (fun c => clear_ngeo ps c F) as Ng. pose proof (periodic_reports atan2 ords ps L Ng) as R.
  destruct (generate_ok ps _ R) as (g' & E' & G). rewrite E in E'. inversion E'; subst g'. clear E'.
  split; [exact T|]. split; [exact F|]. split; [exact N|].
  split. { exists ps. eexists. split; [|exact G]. eapply Forall_impl; [|apply calls_adds]. intros []; cbn; tauto. }
  split; [rewrite (built_polys _ _ _ G); reflexivity|]. intros a b f An.
  destruct (generation_total atan2 ords ps L Ng) as (g' & E' & _ & Q & _). rewrite E in E'. inversion E'; subst g'. clear E'.
  unfold answer in An. destruct (has_edge g a b) as [[|]| |] eqn:He; try discriminate. destruct (Q a b He) as (A & B & D).
  split; [exact A|]. split; [exact B|]. split; [exact D|].
  destruct (is_edge_meridian_crossing g a b) as [c| |] eqn:Cr; try discriminate. inversion An; subst c. clear An.
  set (vis := fun v => vis_periodic atan2 (ords v) ps v) in *. destruct (generate_edges ps vis g a b R E A B D) as [H1 H2].
  assert (Rep : forall f, reported vis a b f \/ reported vis b a f -> exists k, -1 <= k <= 1 /\ f = negb (k =? 0) /\ sea_way ps a (wrap k b)).
  { intros h [H|H].
    - destruct (reported_sea atan2 (ords a) ps a b h) as (_ & k & K & Eh & S); auto. exists k. split; [exact K|]. split; [exact Eh|left; exact S].
    - destruct (reported_sea atan2 (ords b) ps b a h) as (_ & k & K & Eh & S); auto. exists (- k). split; [lia|]. split; [rewrite Eh; lia|].
      rewrite <- (Z.opp_involutive k) in S. assert (W : sea_way ps b (wrap (- - k) a)) by (left; exact S). apply sea_way_turn in W. rewrite Z.opp_involutive in W. exact W. }
  destruct f.
  - destruct (proj1 H1 He) as (h & H). rewrite (proj2 (proj1 H2 Cr) h H) in H. apply Rep, H.
  - apply Rep. destruct (reported_dec ps vis a b false R A) as [X|X]; [left; exact X|].
    destruct (reported_dec ps vis b a false R B) as [Y|Y]; [right; exact Y|]. exfalso.
    assert (Z : is_edge_meridian_crossing g a b = Ok true); [|congruence]. apply H2. split; [exact He|]. intros h [Hf|Hf]; destruct h; try reflexivity; contradiction.
Qed.
(** such a map misses no line through open water either *)
Theorem surveyed_mapped atan2 ords ps g : surveyed atan2 ords ps g -> mapped atan2 ords ps g.
Proof.
  intros (T & L & F & N & C & E). pose proof (fun c => clear_ngeo ps c F) as Ng. split; [exact T|]. split; [exact L|]. split; [exact F|]. split; [|split; [|exact E]].
  - intros p o n K. assert (O : In o (polygon_vertices ps)) by (destruct K as (P & i & HP & I & _ & -> & _); apply in_polygon_vertices; exists P; split; [exact HP|apply nth_In, I]).
    apply (C o O), corner_copy, K.
  - assert (W : forall c, pgeo c -> wide c) by (intros c [A B]; split; lia). intros o O. apply swo_separated; [exact T|apply W, ngeo_pgeo, Ng, O| |apply (C o O)].
    intros c I. apply copies_vertices in I. destruct I as (v & k & V & K & ->). apply W, (copy_facts v _ (Ng v V) (copy_of_wrap v k K)).
Qed.
Lemma sounded_like atan2 ps g g' : sounded atan2 ps g -> built g' -> Permutation (get_polygons g') ps -> (forall a b, answer g' a b = answer g a b) -> sounded atan2 ps g'.
Proof. intros (T & F & N & B & P & H) B' P' An. repeat (split; [assumption|]). intros a b f. rewrite An. apply H. Qed.
Lemma ordered_perm half o ps qs : Permutation ps qs -> ordered_view half o ps -> ordered_view half o qs.
Proof.
  intros P (S1 & S2 & S3 & S4 & S5 & S6). pose proof (Permutation_sym P) as P'. pose proof (vertices_perm _ _ P') as Pv.
  assert (Ed : forall s, polygon_edge qs s -> polygon_edge ps s) by (intros s (Q & i & HQ & H); exists Q, i; split; [eapply Permutation_in; eassumption|exact H]).
  assert (Ed' : forall s, polygon_edge ps s -> polygon_edge qs s) by (intros s (Q & i & HQ & H); exists Q, i; split; [eapply Permutation_in; eassumption|exact H]).
  assert (Iv : forall c, In c (polygon_vertices qs) -> In c (polygon_vertices ps)) by (intros c; apply Permutation_in, Pv).
  split; [intros a b A B; apply S1; auto|]. split; [intros s S; apply S2; auto|].
  split; [intros c e q t I E; apply S3; auto|]. split.
  { assert (Co : forall p c n, corner_of ps p c n -> corner_of qs p c n) by (intros p c n (Q & i & HQ & H); exists Q, i; split; [eapply Permutation_in; eassumption|exact H]).
    intros v w V W Nv Sb. destruct (S4 v w (Iv v V) (Iv w W) Nv Sb) as [(e & Ee & Ce)|[(p & n & C & Is)|(p & c & n & C & H)]];
      [left; exists e; auto|right; left; exists p, n; auto|right; right; exists p, c, n; auto]. }
  split; [|intros p n (Q & i & HQ & H); apply S6; exists Q, i; split; [eapply Permutation_in; eassumption|exact H]].
  destruct S5 as (O1 & O2 & O3). split; [|split].
  - intros v r V Nv Up Er En. destruct (O1 v r (Iv v V) Nv Up (Ed r Er) En) as (s & Es & Ens & H). exists s. split; [apply Ed', Es|]. split; [exact Ens|].
    intros t d d' Et. apply H, Ed, Et.
  - intros v t d V Nv Et. apply (O2 v t d (Iv v V) Nv (Ed t Et)).
  - intros s t k l Es Et. apply (O3 s t k l (Ed s Es) (Ed t Et)).
Qed.

(** ** Paths *)
Section Sounded.
Variables (atan2 : Z -> Z -> f64) (ords' : coord -> orders) (ps : list polygon) (g : graph).
Hypotheses (So : sounded atan2 ps g) (L' : forall v, library_orders (ords' v)).
Notation vis := (endpoint_vis atan2 ords' g).
Lemma so_ngeo c : In c (polygon_vertices ps) -> ngeo c.
Proof. destruct So as (_ & F & _). apply clear_ngeo, F. Qed.
Lemma so_vertices : Permutation (get_vertices g) (polygon_vertices ps).
Proof.
  destruct So as (_ & _ & _ & (qs & h & _ & G) & P & _). rewrite (built_vertices _ _ _ G). apply vertices_perm. rewrite (built_polys _ _ _ G) in P. exact P.
Qed.
Lemma so_has_vertex c : has_vertex g c = true <-> In c (polygon_vertices ps).
Proof.
  pose proof so_vertices as Pv. destruct So as (_ & _ & _ & (qs & h & _ & G) & _). rewrite (built_has_vertex _ _ _ _ G).
  rewrite (built_vertices _ _ _ G) in Pv. split; apply Permutation_in; [exact Pv|symmetry; exact Pv].
Qed.
(** an endpoint off the map sees only what no land hides *)
Lemma sees_sea c v : ngeo c -> ordered_view false c ps -> ~ In c (polygon_vertices ps) -> sees vis None c v -> In v (polygon_vertices ps) /\ sea_line ps c v.
Proof.
  intros Gc Cv Nc (points & p & Ep & Hp & Vp & _). destruct So as (T & F & N & _ & Pg & _). pose proof (vertices_perm _ _ Pg) as Pv.
  assert (Iv : forall c, In c (polygon_vertices (get_polygons g)) <-> In c (polygon_vertices ps)) by (intros w; split; apply Permutation_in; [exact Pv|symmetry; exact Pv]).
  pose proof (ordered_perm false c ps (get_polygons g) (Permutation_sym Pg) Cv) as (S1 & S2 & S3 & S4 & S5 & S6).
  destruct (sweep_fronts atan2 (ords' c) (get_polygons g) c false T (L' c) (ngeo_pgeo c Gc)) as (res & seen & R & Fr & Ex & _); try assumption;
    [destruct Gc; lia|intros v' V; apply ngeo_pgeo, so_ngeo, Iv, V|eapply Permutation_NoDup; [apply Permutation_sym, Pv|exact N]| |].
  { intros P HP. rewrite Forall_forall in F. apply (clear_polygon_facts P), F, (Permutation_in P Pg HP). }
  unfold endpoint_vis in Ep. rewrite R in Ep. inversion Ep; subst points. destruct (Forall2_in_r _ _ _ _ Fr Hp) as (w & Iw & Nw & _).
  apply Ex in Iw. destruct Iw as (Iw & Nwc & _ & H1 & H2). apply Iv in Iw.
  destruct (copy_facts w _ (so_ngeo w Iw) (copy_of_wrap w 0 ltac:(lia))) as (_ & X & _). rewrite wrap_0 in X. rewrite X in Nw. inversion Nw as [Y]. rewrite <- Vp, <- Y.
  split; [exact Iw|]. apply found_direct; try assumption; [exact so_ngeo|congruence|]. split.
  - intros s (Q & i & HQ & H). apply H1. exists Q, i. split; [apply (Permutation_in Q (Permutation_sym Pg) HQ)|exact H].
  - intros p' n (Q & i & HQ & H). apply H2. exists Q, i. split; [apply (Permutation_in Q (Permutation_sym Pg) HQ)|exact H].
Qed.

Variables (s d : coord).
Hypotheses (Cs : sounded_point ps s) (Cd : sounded_point ps d).
Notation lc := (mkLC s d None None).
Lemma road_sea u v f : road g vis lc u v f ->
  (exists k, -1 <= k <= 1 /\ f = negb (k =? 0) /\ sea_way ps u (wrap k v)) /\ (f = true -> is_edge_meridian_crossing g u v = Ok true).
Proof.
  assert (EE : forall c v, endpoint_edge g vis lc c v -> sea_line ps c v).
  { intros c w (Nc & H). cbn [lc_source lc_dest lc_source_edge lc_dest_edge] in H.
    assert (V : ~ In c (polygon_vertices ps)) by (rewrite <- so_has_vertex; congruence).
    assert (K : forall c, sounded_point ps c -> ~ In c (polygon_vertices ps) -> sees vis None c w -> sea_line ps c w).
    { intros c0 [G [X|X]] Nc0; [contradiction|]. intros Se. apply sees_sea; assumption. }
    destruct H as [[-> H]|[-> H]]; apply K; assumption. }
  intros [H|(-> & H)].
  - split; [apply So, H|]. intros ->. unfold answer in H. destruct (has_edge g u v) as [[|]| |]; try discriminate H. destruct (is_edge_meridian_crossing g u v); try discriminate H. congruence.
  - split; [|discriminate]. exists 0. rewrite wrap_0. split; [lia|]. split; [reflexivity|]. destruct H as [H|H]; [left|right]; apply EE, H.
Qed.
Lemma journey_sea u l t r : journey (road g vis lc) u l t r -> sea_legs g ps (u :: l).
Proof.
  intros J. induction J as [u|u v f l t r R J IH]; intros i a b A B.
  - destruct i; [discriminate B|destruct i; discriminate B].
  - destruct i as [|i]; [|exact (IH i a b A B)]. cbn in A, B. inversion A; subst a. inversion B; subst b. destruct (road_sea _ _ _ R) as [(k & K & Ef & S) Cr].
    destruct (Z.eq_dec k 0) as [->|Nk]; [left; rewrite wrap_0 in S; exact S|right]. split; [apply Cr; rewrite Ef; lia|]. exists k. split; [lia|exact S].
Qed.
End Sounded.

(** ** Queries *)
(** the sweep of the program, and the rows of the graph in some order; both endpoints at sea *)
Definition sounded_query (atan2 : Z -> Z -> f64) (ords' : coord -> orders) (ps : list polygon) (g : graph) (en : env) (source destination ns nd : coord) : Prop :=
  (forall v, library_orders (ords' v)) /\ en_vis en = endpoint_vis atan2 ords' g /\ row_orders (en_rows en) /\ index_in_range (en_index en) /\
  in_the_map source /\ in_the_map destination /\ normalize_coord source = Ok ns /\ normalize_coord destination = Ok nd /\
  ix_contains (en_index en) ns = false /\ ix_contains (en_index en) nd = false /\ sounded_point ps ns /\ sounded_point ps nd.
Theorem paths_at_sea atan2 ords' ps g en source destination ns nd radius flag fuel path :
  sounded atan2 ps g -> sounded_query atan2 ords' ps g en source destination ns nd ->
  (ix_crossing (en_index en) (mkS ns nd) = [] -> sea_way ps ns nd) ->
  shortest_path fuel en g source destination radius flag = Some (Ok path) ->
  (exists l, path = ns :: l) /\ (exists l, path = l ++ [nd]) /\ sea_legs g ps path.
Proof.
  intros So (L & Ev & Rw & Ix & Ms & Md & Es & Ed & Ls & Ld & Ps & Pd) Ho E.
  assert (Fit : fit_for_queries en g).
  { pose proof (so_vertices _ _ _ So) as Pv. assert (B : built g) by apply So.
    assert (G : forall c, In c (get_vertices g) -> ngeo c) by (intros c C; apply (so_ngeo _ _ _ So); eapply Permutation_in; [exact Pv|exact C]).
    split; [exact B|]. split; [exact G|]. split; [exact Rw|]. split; [|exact Ix]. rewrite Ev. apply endpoint_vis_answers; assumption. }
  destruct (query_path en g source destination radius flag Fit Ms Md fuel path E) as (lc & Co & H).
  assert (El : lc = mkLC ns nd None None).
  { destruct Co as (ns' & nd' & E1 & E2 & M1 & M2). rewrite Es in E1. inversion E1; subst ns'. rewrite Ed in E2. inversion E2; subst nd'.
    destruct M1 as [(_ & A & B)|(X & _)]; [|congruence]. destruct M2 as [(_ & C & D)|(X & _)]; [|congruence]. destruct lc as [a b c e]. cbn [lc_source lc_dest lc_source_edge lc_dest_edge] in *. congruence. }
  subst lc. cbn [lc_source lc_dest] in H.
  destruct H as [(Ns & ->)|(Se & l & r & -> & _ & J)].
  - split; [eauto|]. split; [exists [ns]; reflexivity|]. intros i a b A B. destruct i as [|[|i]]; [|discriminate B|destruct i; discriminate B]. cbn in A, B. inversion A; subst a. inversion B; subst b.
    left. apply Ho. destruct (ix_crossing (en_index en) (mkS ns nd)) as [|x l] eqn:X; [reflexivity|exfalso]. apply Ns. apply searched_iff.
    exists x. cbn [lc_source lc_dest lc_source_edge lc_dest_edge]. rewrite X. split; [left; reflexivity|]. intros shore [Y|Y]; discriminate Y.
  - split; [eauto|]. split.
    + clear - J. induction J as [u|u v f l t r _ _ (l' & IH)]; [exists []; reflexivity|]. exists (u :: l'). cbn [app]. rewrite IH. reflexivity.
    + rewrite Ev in J. eapply (journey_sea atan2 ords' ps g So L ns nd Ps Pd), J.
Qed.
