(** On maps drawn with simple rings, of any shape, the graph is the visibility graph of the map, and a path is
    the shortest of all routes through open water.  No code is modelled here. *)
From Coq Require Import ZArith Reals Bool List Lia Lra Psatz Permutation.
From Flocq Require Import Core BinarySingleNaN.
From Verif Require Import Jordan.
From Verif Require Import Base F64 Coordinate Segment Polyline Polygon Periodicity PeriodicityFacts Graph Visgraph VisgraphFacts SpecGeom SpecGraph F64Facts CoordinateFacts SegmentFacts PolylineFacts
  PolygonMore GraphFacts GraphMore Sweep SweepFacts SweepMaps SweepGen SweepCases AngleFacts AngleSort SweepOpen SweepOrder SweepGeo SweepSound SweepExact SweepGraph SweepHalf SweepHalfGraph SweepLayers SweepFronts
  Overlay ShortestPath DistFacts SearchFacts SearchSpec SearchGraph SearchQuery PathFacts PathMore FreePaths OpenWater SeaLines Coasts.
Import ListNotations.
Local Open Scope Z_scope.

(** ** Vocabulary *)
(** simple rings, counter-clockwise, no vertex inside another ring, also around the world *)
Definition drawn (ps : list polygon) : Prop :=
  sketched (map_copies ps) /\ forall o, In o (polygon_vertices ps) -> off_land o (map_copies ps).
(** the straight line between two vertices is open, or only a line around the world is *)
Definition linked_by (ps : list polygon) (a b : coord) (f : bool) : Prop :=
  if f then ~ open_line ps a b /\ exists k, (k = 1 \/ k = -1) /\ open_line ps a (wrap k b) else open_line ps a b.
(** [g] is the visibility graph of the polygons [ps] *)
Definition true_graph (ps : list polygon) (g : graph) : Prop :=
  Forall clear_polygon ps /\ NoDup (polygon_vertices ps) /\ built g /\ Permutation (get_polygons g) ps /\
  forall a b f, answer g a b = Some f <-> In a (polygon_vertices ps) /\ In b (polygon_vertices ps) /\ a <> b /\ linked_by ps a b f.
(** a vertex of the map, or a point at sea with an ordered view of it *)
Definition at_sea (ps : list polygon) (c : coord) : Prop :=
  ngeo c /\ (In c (polygon_vertices ps) \/ ordered_view false c ps /\ off_land c ps).

(** every point strictly between the ends lies on a shore, or the shore does not wind around it *)
Definition wet (qs : list polygon) (a b : coord) : Prop :=
  forall P r, In P qs -> (0 < r < 1)%R -> (exists e, edge_of P e /\ struck a b e r) \/ winding (length (verts P)) (ring P) (mix (rp a) (rp b) r) = 0.

(** ** From the map and its copies to the cylinder *)
Lemma sea_copies ps a b : sea_line ps a b -> sea_here (map_copies ps) a b.
Proof.
  intros H. split; [|split].
  - intros s S En. destruct (copy_edge ps s S) as (j & e & E & ->). destruct (H (- j)) as (H1 & _). apply (H1 e E).
    assert (En' : enters (wrap (- - j) (wrap (- j) a)) (wrap (- - j) (wrap (- j) b)) (mkS (wrap j (e1 e)) (wrap j (e2 e)))) by (rewrite !wrap_wrap, !Z.opp_involutive, Z.add_opp_diag_r, !wrap_0; exact En).
    apply enters_back in En'. cbn [e1 e2] in En'. rewrite !wrap_wrap, Z.opp_involutive, Z.add_opp_diag_l, !wrap_0 in En'. destruct e; exact En'.
  - intros w W (q & u & U & X & Y). apply copies_vertices in W. destruct W as (v & j & V & J & ->). destruct (H (- j)) as (_ & H2 & _). apply (H2 v V).
    exists q, u. unfold wrap in *. cbn [lon lat] in *. split; [exact U|]. split; lia.
  - intros p n C Is. destruct (copy_corner ps p a n C) as (j & p' & o' & n' & C' & -> & Ea & ->). destruct (H (- j)) as (_ & _ & H3).
    assert (Eo : o' = wrap (- j) a) by (apply wrap_back; auto). rewrite <- Eo in H3. apply (H3 p' n' C').
    rewrite Ea in Is. unfold into_solid in *. replace b with (wrap j (wrap (- j) b)) in Is by (rewrite wrap_wrap, Z.add_opp_diag_r; apply wrap_0). rewrite !turn_wrap in Is. exact Is.
Qed.
Lemma corner_copies ps p o n k : -1 <= k <= 1 -> corner_of ps p o n -> corner_of (map_copies ps) (wrap k p) (wrap k o) (wrap k n).
Proof.
  intros K (P & i & HP & I & -> & -> & ->). exists (wrap_polygon k P), i. split; [apply copies_in; eauto|]. unfold wrap_polygon. cbn [verts]. rewrite map_length.
  split; [exact I|]. rewrite vat_wrap, ring_prev_wrap, ring_next_wrap by exact I. auto.
Qed.
Lemma open_copies ps a b k : (forall c, In c (polygon_vertices ps) -> ngeo c) -> In a (polygon_vertices ps) -> In b (polygon_vertices ps) -> -1 <= k <= 1 ->
  open_here (map_copies ps) a (wrap k b) -> open_line ps a (wrap k b).
Proof.
  intros Ng A B K (H1 & H2 & H3) j. pose proof (Ng a A) as Ga. pose proof (Ng b B) as Gb.
  assert (Home : forall c i, In c (polygon_vertices ps) -> In (wrap i c) (polygon_vertices ps) -> i = 0).
  { intros c i C V. assert (E : wrap 0 (wrap i c) = wrap i c) by apply wrap_0. destruct (wrap_home _ _ _ _ (Ng _ V) (Ng c C) E). congruence. }
  assert (Vc : forall p o n, corner_of ps p o n -> In o (polygon_vertices ps)) by (intros p o n (P & i & HP & I & _ & -> & _); apply in_polygon_vertices; exists P; split; [exact HP|apply nth_In, I]).
  split; [|split].
  - intros e q t u E Q T U X Y. assert (J : -1 <= - j <= 1 \/ (j < -1 \/ 1 < j)) by lia. destruct J as [J|J].
    + destruct (H1 _ q t u (edge_copy ps e (- j) E J) Q T U) as [(Z & W)|[(Z & W)|(W & W')]].
      * cbn [e1 e2]. unfold wrap in *. cbn [lon lat] in *. lia.
      * cbn [e1 e2]. unfold wrap in *. cbn [lon lat] in *. lia.
      * left. split; [exact Z|]. unfold touches in *. cbn [e1 e2] in W. destruct W as [W|W]; apply wrap_back in W; rewrite Z.opp_involutive in W; auto.
      * right. left. split; [exact Z|]. unfold touches in *. cbn [e1 e2] in W. destruct W as [W|W]; apply wrap_back in W; rewrite Z.opp_involutive in W; auto.
      * right. right. unfold touches in *. cbn [e1 e2] in W, W'. split; [clear W'|clear W; rename W' into W]; destruct W as [W|W]; apply wrap_back in W; rewrite Z.opp_involutive in W; auto.
    + exfalso. destruct (edge_ngeo ps e Ng E) as [[L1 _] [L2 _]]. destruct Ga as [La _]. destruct Gb as [Lb _].
      apply (far_mix q t u (lon (e1 e)) (lon (e2 e)) (lon a) (lon b) j k); try assumption; try lia; exact X.
  - intros p n C Is. pose proof (Home a j A (Vc _ _ _ C)) as Z. rewrite Z, !wrap_0 in *. apply (H2 p n); [apply corner_copy, C|exact Is].
  - intros p n C Is. rewrite wrap_wrap in C, Is. pose proof (Home b (j + k) B (Vc _ _ _ C)) as Z. rewrite Z, wrap_0 in *.
    pose proof (corner_copies ps p b n k K C) as C'. apply (H3 _ _ C'). unfold into_solid in *. replace a with (wrap k (wrap j a)) by (rewrite wrap_wrap; replace (k + j) with 0 by lia; apply wrap_0).
    rewrite !turn_wrap. exact Is.
Qed.
Lemma sketched_base ps : sketched (map_copies ps) -> sketched ps.
Proof.
  intros [S L]. assert (Ip : forall P, In P ps -> In P (map_copies ps)) by (intros P HP; apply copies_in; exists P, 0; rewrite wrap_polygon_0; repeat split; try lia; exact HP).
  assert (Ie : forall e, polygon_edge ps e -> polygon_edge (map_copies ps) e) by (intros e (P & i & HP & H); exists P, i; split; [apply Ip, HP|exact H]).
  split; [intros e f s t E F; apply S; auto|intros P HP; apply L, Ip, HP].
Qed.

(** ** Two vertices *)
Section Drawn.
Variable ps : list polygon.
Hypotheses (Ng : forall c, In c (polygon_vertices ps) -> ngeo c) (N : NoDup (polygon_vertices ps)) (Dr : drawn ps).
Lemma drawn_open a b k : In a (polygon_vertices ps) -> In b (polygon_vertices ps) -> a <> b -> -1 <= k <= 1 -> ordered_view true a (map_copies ps) ->
  sea_line ps a (wrap k b) -> open_line ps a (wrap k b).
Proof.
  intros A B D K (_ & S2 & _ & S4 & _ & S6) H. apply open_copies; try assumption. apply sea_open; try assumption.
  - apply copies_nodup; assumption.
  - apply Dr.
  - apply Dr, A.
  - intros p n C. apply (S6 p n C).
  - apply copies_vertices. eauto.
  - intros E. rewrite <- (wrap_0 a) in E. destruct (wrap_home _ _ _ _ (Ng a A) (Ng b B) E). contradiction.
  - apply sea_copies, H.
Qed.
Lemma drawn_way a b k : In a (polygon_vertices ps) -> In b (polygon_vertices ps) -> a <> b -> -1 <= k <= 1 -> ordered_view true a (map_copies ps) -> ordered_view true b (map_copies ps) ->
  sea_way ps a (wrap k b) -> open_line ps a (wrap k b).
Proof.
  intros A B D K Oa Ob [H|H]; [apply drawn_open; assumption|]. apply (sea_shift ps (- k)) in H. rewrite wrap_wrap, Z.add_opp_diag_l, wrap_0 in H.
  apply drawn_open in H; auto; [|lia]. apply open_sym in H. rewrite Z.opp_involutive in H. exact H.
Qed.
(** a point at sea and a vertex *)
Lemma drawn_direct c v : ngeo c -> ordered_view false c ps -> off_land c ps -> In v (polygon_vertices ps) -> c <> v -> sea_line ps c v -> open_line ps c v.
Proof.
  intros Gc (_ & S2 & _ & S4 & _ & S6) Ol V D H. apply open_direct; [exact Ng|exact Gc|apply Ng, V|]. pose proof (H 0) as H0. rewrite !wrap_0 in H0.
  apply sea_open; try assumption; [apply sketched_base, Dr|]. intros p n C. apply (S6 p n C).
Qed.
(** every point of an open line lies on a shore or at sea *)
Lemma drawn_sea a b : a <> b -> (forall P, In P ps -> (3 <= length (verts P))%nat) -> (forall j, wrap j a <> wrap j b) -> open_line ps a b -> sea_line ps a b.
Proof. intros D Le Dj H j. apply open_sea_here; auto. Qed.
Lemma drawn_three P : In P ps -> (3 <= length (verts P))%nat.
Proof. intros HP. destruct (sketched_base ps (proj1 Dr)) as [_ S]. apply S, HP. Qed.
Lemma wraps_apart a b : a <> b -> forall j, wrap j a <> wrap j b.
Proof. intros D j E. apply D. apply (f_equal (wrap (- j))) in E. rewrite !wrap_wrap, Z.add_opp_diag_l, !wrap_0 in E. exact E. Qed.
Lemma drawn_wet a b k : In a (polygon_vertices ps) -> In b (polygon_vertices ps) -> a <> b -> -1 <= k <= 1 -> ordered_view true a (map_copies ps) ->
  open_line ps a (wrap k b) -> wet (map_copies ps) a (wrap k b).
Proof.
  intros A B D K (_ & S2 & _ & S4 & _ & S6) H. assert (D' : a <> wrap k b) by (intros E; rewrite <- (wrap_0 a) in E; destruct (wrap_home _ _ _ _ (Ng a A) (Ng b B) E); contradiction).
  intros P r. apply sea_wet; try assumption.
  - apply copies_nodup; assumption.
  - apply Dr.
  - apply Dr, A.
  - intros p n C. apply (S6 p n C).
  - apply copies_vertices. eauto.
  - apply sea_copies. apply drawn_sea; [exact D'|exact drawn_three|apply wraps_apart, D'|exact H].
Qed.
Lemma direct_wet c v : ngeo c -> ordered_view false c ps -> off_land c ps -> In v (polygon_vertices ps) -> c <> v -> open_line ps c v -> wet ps c v.
Proof.
  intros Gc (_ & S2 & _ & S4 & _ & S6) Ol V D H P r. apply sea_wet; try assumption; [apply sketched_base, Dr|intros p n C; apply (S6 p n C)|].
  pose proof (drawn_sea c v D drawn_three (wraps_apart c v D) H 0) as S. rewrite !wrap_0 in S. exact S.
Qed.
End Drawn.

(** ** The graph *)
Theorem surveyed_true atan2 ords ps g : surveyed atan2 ords ps g -> drawn ps -> true_graph ps g.
Proof.
  intros Su Dr. pose proof (surveyed_sounded _ _ _ _ Su) as (T & F & N & Bg & Pg & So). pose proof (mapped_complete _ _ _ _ (surveyed_mapped _ _ _ _ Su)) as (_ & _ & _ & Co).
  pose proof (fun c => clear_ngeo ps c F) as Ng. assert (Ov : forall o, In o (polygon_vertices ps) -> ordered_view true o (map_copies ps)) by apply Su.
  repeat (split; [assumption|]).
  assert (Fw : forall a b f, answer g a b = Some f -> In a (polygon_vertices ps) /\ In b (polygon_vertices ps) /\ a <> b /\ linked_by ps a b f).
  { intros a b f An. destruct (So a b f An) as (A & B & D & k & K & Ef & W). split; [exact A|]. split; [exact B|]. split; [exact D|].
    apply drawn_way in W; auto. unfold linked_by. destruct f.
    - assert (Nk : k <> 0) by (intros ->; discriminate Ef). split; [|exists k; split; [lia|exact W]]. intros O. rewrite <- (wrap_0 b) in O. destruct (Co a b 0 A B D ltac:(lia) O) as (f & An' & Z). rewrite (Z eq_refl) in An'. congruence.
    - assert (Ek : k = 0) by (destruct (Z.eqb_spec k 0); [assumption|discriminate Ef]). subst k. rewrite wrap_0 in W. exact W. }
  intros a b f. split; [apply Fw|]. intros (A & B & D & H). unfold linked_by in H. destruct f.
  - destruct H as (No & k & K & O). destruct (Co a b k A B D ltac:(lia) O) as (f & An & _). destruct f; [exact An|]. exfalso. apply No. apply (Fw a b false An).
  - rewrite <- (wrap_0 b) in H. destruct (Co a b 0 A B D ltac:(lia) H) as (f & An & Z). rewrite (Z eq_refl) in An. exact An.
Qed.
Lemma true_like ps g g' : true_graph ps g -> built g' -> Permutation (get_polygons g') ps -> (forall a b, answer g' a b = answer g a b) -> true_graph ps g'.
Proof. intros (F & N & B & P & H) B' P' An. repeat (split; [assumption|]). intros a b f. rewrite An. apply H. Qed.
Lemma true_complete ps g : true_graph ps g -> complete ps g.
Proof.
  intros (F & N & B & P & H). split; [exact F|]. split; [exact B|]. split; [intros Q; split; apply Permutation_in; [exact P|symmetry; exact P]|].
  intros a b k A Bv D K O. destruct (Coq.Logic.Classical_Prop.classic (open_line ps a b)) as [O'|O'].
  - exists false. split; [apply H; auto|reflexivity].
  - exists true. assert (Nk : k <> 0) by (intros ->; rewrite wrap_0 in O; contradiction). split; [|contradiction]. apply H. split; [exact A|]. split; [exact Bv|]. split; [exact D|]. split; [exact O'|]. exists k. split; [lia|exact O].
Qed.
(** the answers depend on the map alone *)
Lemma linked_perm ps ps' : Permutation ps ps' -> forall a b, open_line ps a b -> open_line ps' a b.
Proof.
  intros P a b H j. destruct (H j) as (H1 & H2 & H3). pose proof (Permutation_sym P) as P'.
  assert (Ie : forall e, polygon_edge ps' e -> polygon_edge ps e) by (intros e (Q & i & HQ & X); exists Q, i; split; [eapply Permutation_in; eassumption|exact X]).
  assert (Ic : forall p o n, corner_of ps' p o n -> corner_of ps p o n) by (intros p o n (Q & i & HQ & X); exists Q, i; split; [eapply Permutation_in; eassumption|exact X]).
  split; [intros e q t u E; apply H1; auto|]. split; intros p n C; [apply H2|apply H3]; auto.
Qed.
Theorem true_determined ps ps' g g' : true_graph ps g -> true_graph ps' g' -> Permutation ps ps' -> forall a b, answer g a b = answer g' a b.
Proof.
  intros (_ & _ & _ & _ & H) (_ & _ & _ & _ & H') P a b. pose proof (vertices_perm _ _ P) as Pv.
  assert (X : forall f, answer g a b = Some f <-> answer g' a b = Some f).
  { intros f. rewrite H, H'. pose proof (linked_perm _ _ P) as L1. pose proof (linked_perm _ _ (Permutation_sym P)) as L2.
    assert (Iv : forall c, In c (polygon_vertices ps) <-> In c (polygon_vertices ps')) by (intros c; split; apply Permutation_in; [exact Pv|symmetry; exact Pv]).
    rewrite !Iv. unfold linked_by. destruct f; [|specialize (L1 a b); specialize (L2 a b); tauto].
    split; intros (A & B & D & No & k & K & O); (split; [exact A|split; [exact B|split; [exact D|split; [auto|exists k; auto]]]]). }
  destruct (answer g a b) as [f|] eqn:E; [symmetry; apply X; reflexivity|]. destruct (answer g' a b) as [f|] eqn:E'; [|reflexivity]. apply X. reflexivity.
Qed.

(** ** Paths *)
Section True.
Variables (atan2 : Z -> Z -> f64) (ords' : coord -> orders) (ps : list polygon) (g : graph).
Hypotheses (T : accurate_atan2 atan2) (Tg : true_graph ps g) (Dr : drawn ps) (L' : forall v, library_orders (ords' v)).
Notation vis := (endpoint_vis atan2 ords' g).
Lemma tr_ngeo c : In c (polygon_vertices ps) -> ngeo c.
Proof. destruct Tg as (F & _). apply clear_ngeo, F. Qed.
Lemma tr_sounded : sounded atan2 ps g.
Proof.
  pose proof Tg as (F & N & B & P & H). split; [exact T|]. repeat (split; [assumption|]). intros a b f An. apply H in An. destruct An as (A & Bv & D & Lk). split; [exact A|]. split; [exact Bv|]. split; [exact D|].
  assert (Os : forall k, -1 <= k <= 1 -> open_line ps a (wrap k b) -> sea_way ps a (wrap k b)).
  { intros k K O. left. intros j. apply open_sea_here; [| |exact N|apply O].
    - intros E. rewrite wrap_wrap in E. destruct (wrap_home _ _ _ _ (tr_ngeo a A) (tr_ngeo b Bv) E). contradiction.
    - intros Q HQ. rewrite Forall_forall in F. apply (clear_polygon_facts Q), F, HQ. }
  destruct f; cbn [linked_by] in Lk.
  - destruct Lk as (_ & k & K & O). exists k. split; [lia|]. split; [destruct K as [-> | ->]; reflexivity|]. apply Os; [lia|exact O].
  - exists 0. split; [lia|]. split; [reflexivity|]. apply Os; [lia|]. rewrite wrap_0. exact Lk.
Qed.
(** what an endpoint at sea sees *)
Theorem sees_exactly c v : ngeo c -> ordered_view false c ps -> off_land c ps -> ~ In c (polygon_vertices ps) ->
  (sees vis None c v <-> In v (polygon_vertices ps) /\ open_line ps c v).
Proof.
  intros Gc Ov Ol Nc. split.
  - intros Se. destruct (sees_sea atan2 ords' ps g tr_sounded L' c v Gc Ov Nc Se) as [V S]. split; [exact V|]. apply drawn_direct; try assumption; [exact tr_ngeo|apply Tg|intros ->; contradiction].
  - intros [V O]. apply (sees_open atan2 ords' ps g (true_complete ps g Tg) L' c v); assumption.
Qed.

Variables (s d : coord).
Hypotheses (Cs : at_sea ps s) (Cd : at_sea ps d).
Notation lc := (mkLC s d None None).
(** a route through open water over the vertices of the map, between [s] and [d]; where two vertices are joined only by
    lines around the world, the leg counts as the shorter way around *)
Inductive sailed : coord -> list coord -> coord -> R -> Prop :=
| sailed_end u : sailed u [] u 0%R
| sailed_straight u v l t r : open_line ps u v -> u <> v ->
    In u (polygon_vertices ps) \/ u = s \/ u = d -> In v (polygon_vertices ps) \/ v = s \/ v = d -> In u (polygon_vertices ps) \/ In v (polygon_vertices ps) ->
    sailed v l t r -> sailed u (v :: l) t (apart u v + r)%R
| sailed_around u v k l t r : k = 1 \/ k = -1 -> open_line ps u (wrap k v) -> ~ open_line ps u v -> u <> v ->
    In u (polygon_vertices ps) -> In v (polygon_vertices ps) ->
    sailed v l t r -> sailed u (v :: l) t (Rmin (apart u (wrap 1 v)) (apart u (wrap (-1) v)) + r)%R.
Lemma around_exact u v : edge_length true u v = Rmin (apart u (wrap 1 v)) (apart u (wrap (-1) v)).
Proof.
  assert (A : forall k, apart u (wrap k v) = apart (turned (- k) u) v).
  { intros k. unfold apart, wrap, turned. cbn [lon lat]. f_equal. f_equal. f_equal. rewrite !plus_IZR, !mult_IZR, opp_IZR. ring. }
  rewrite !A. unfold edge_length. apply Rmin_comm.
Qed.
Lemma endpoint_exact c v : endpoint_edge g vis lc c v <-> ~ In c (polygon_vertices ps) /\ (c = s \/ c = d) /\ In v (polygon_vertices ps) /\ open_line ps c v.
Proof.
  assert (V : has_vertex g c = false <-> ~ In c (polygon_vertices ps)) by (rewrite <- (co_has_vertex ps g (true_complete ps g Tg)); destruct (has_vertex g c); split; congruence).
  assert (Se : forall c, at_sea ps c -> ~ In c (polygon_vertices ps) -> (sees vis None c v <-> In v (polygon_vertices ps) /\ open_line ps c v)).
  { intros x [Gx [X|[X1 X2]]] Nx; [contradiction|]. apply sees_exactly; assumption. }
  unfold endpoint_edge. cbn [lc_source lc_dest lc_source_edge lc_dest_edge]. rewrite V. split.
  - intros (Nc & [[-> H]|[-> H]]); (split; [exact Nc|]); (split; [auto|]); apply Se in H; assumption.
  - intros (Nc & [-> | ->] & H); (split; [exact Nc|]); [left|right]; (split; [reflexivity|]); apply Se; assumption.
Qed.
Theorem journey_exact u l t r : journey (road g vis lc) u l t r <-> sailed u l t r.
Proof.
  pose proof Tg as (_ & _ & _ & _ & H). split.
  - intros J. induction J as [u|u v f l t r R J IH]; [constructor|]. destruct R as [An|[-> [En|En]]].
    + apply H in An. destruct An as (A & B & D & Lk). destruct f; cbn [linked_by] in Lk.
      * destruct Lk as (No & k & K & O). rewrite around_exact. apply (sailed_around u v k); assumption.
      * apply sailed_straight; auto.
    + apply endpoint_exact in En. destruct En as (Nu & U & Hv & O). apply sailed_straight; auto. intros ->. contradiction.
    + apply endpoint_exact in En. destruct En as (Nv & Vv & Hu & O). apply sailed_straight; auto; [apply open_flip, O|intros ->; contradiction].
  - intros S. induction S as [u|u v l t r O D Su Sv J S IH|u v k l t r K O No D A B S IH]; [constructor| |].
    + change (apart u v) with (edge_length false u v). constructor; [|exact IH].
      destruct (in_dec coord_dec u (polygon_vertices ps)) as [Iu|Iu]; destruct (in_dec coord_dec v (polygon_vertices ps)) as [Iv|Iv]; [| | |tauto].
      * left. apply H. cbn [linked_by]. auto.
      * right. split; [reflexivity|]. right. apply endpoint_exact. split; [exact Iv|]. split; [tauto|]. split; [exact Iu|apply open_flip, O].
      * right. split; [reflexivity|]. left. apply endpoint_exact. split; [exact Iu|]. split; [tauto|]. split; [exact Iv|exact O].
    + rewrite <- around_exact. constructor; [|exact IH]. left. apply H. split; [exact A|]. split; [exact B|]. split; [exact D|]. cbn [linked_by]. split; [exact No|]. exists k. auto.
Qed.
End True.
