(** Ways over the water and the search: on a map drawn with simple rings a path is as short as any
    way at all that stays off the land.  No code is modelled here. *)
From Coq Require Import ZArith Reals Bool List Lia Lra Psatz Permutation Classical_Prop String.
From Flocq Require Import Core BinarySingleNaN.
From Verif Require Import Jordan.
From Verif Require Import PyLayer PyFacts Base F64 Coordinate Segment Polygon PolygonMore Polyline PolylineFacts Periodicity Graph GraphFacts GraphMore Visgraph VisgraphFacts SpecGeom SpecGraph F64Facts CoordinateFacts Serializer SerializerMore
  Sweep SweepFacts SweepMaps SweepGen SweepOrder AngleFacts AngleSort SweepGeo SweepSound SweepExact SweepGraph SweepLayers SweepFronts
  ShortestPath DistFacts SearchFacts SearchSpec SearchGraph SearchQuery PathFacts PathMore FreePaths OpenWater SeaLines Coasts CoastExact CoastCheck CoastRun Pipeline PipelineFacts PipelineFree PipelineOpen PipelineSea Ways.
Import ListNotations.
Local Open Scope Z_scope.

(** ** Vocabulary *)
(** every vertex has an ordered view of the map and its copies *)
Definition viewed (ps : list polygon) : Prop := forall o, In o (polygon_vertices ps) -> ordered_view true o (map_copies ps).
(** if neither end is a vertex, the straight line between them goes over land *)
Definition not_direct (ps : list polygon) (s d : coord) : Prop := In s (polygon_vertices ps) \/ In d (polygon_vertices ps) \/ ~ sails ps (rp s) (rp d).
(** a way from [s] to [d] with bends at the points [l], all of it at most [rho] from [s] *)
Definition a_way (ps : list polygon) (rho : R) (s d : coord) (l : list pt) : Prop :=
  course ps (rp s) (l ++ [rp d]) /\ forall p, In p (l ++ [rp d]) -> (far (rp s) p <= rho)%R.
(** a search which goes as far as [rho] *)
Definition reaches (radius : f64) (rho : R) : Prop :=
  radius = B754_infinity false \/ is_finite radius = true /\ (micro * rho * (1 + u5) <= V radius)%R.

Lemma far_apart a b : far (rp a) (rp b) = apart a b. Proof. reflexivity. Qed.

Section Plane.
Variable ps : list polygon.
Hypotheses (Ng : forall c, In c (polygon_vertices ps) -> ngeo c) (Nd : NoDup (polygon_vertices ps)) (Dr : drawn ps) (Vw : viewed ps).
Lemma sk : sketched ps. Proof. apply sketched_base, Dr. Qed.
(** what the line from [o] needs *)
Definition fine (o : coord) : Prop := ngeo o /\ off_land o ps /\ off_edges o ps /\ shaded o ps /\ forall p n, corner_of ps p o n -> turn p o n <> 0.
Lemma poly_copy P : In P ps -> In (wrap_polygon 0 P) (map_copies ps) /\ verts (wrap_polygon 0 P) = verts P.
Proof.
  intros HP. split; [apply copies_in; exists P, 0; split; [exact HP|split; [lia|reflexivity]]|]. unfold wrap_polygon. cbn [verts]. rewrite <- (map_id (verts P)) at 2. apply map_ext. intros c. apply wrap_0.
Qed.
Lemma base_copy P : In P ps -> In P (map_copies ps).
Proof. intros HP. destruct (poly_copy P HP) as [I E]. replace P with (wrap_polygon 0 P); [exact I|]. destruct (wrap_polygon 0 P) as [l], P as [l']. cbn [verts] in E. congruence. Qed.
Lemma base_edge e : polygon_edge ps e -> polygon_edge (map_copies ps) e.
Proof. intros (P & i & HP & I). exists P, i. split; [apply base_copy, HP|exact I]. Qed.
Lemma base_vertex c : In c (polygon_vertices ps) -> In c (polygon_vertices (map_copies ps)).
Proof. intros C. apply in_polygon_vertices in C. destruct C as (P & HP & C). apply in_polygon_vertices. exists P. split; [apply base_copy, HP|exact C]. Qed.
Lemma base_corner p o n : corner_of ps p o n -> corner_of (map_copies ps) p o n.
Proof. intros (P & i & HP & I). exists P, i. split; [apply base_copy, HP|exact I]. Qed.
Lemma corner_in p c n : corner_of ps p c n -> In c (polygon_vertices ps).
Proof. intros (P & i & HP & I & _ & -> & _). apply in_polygon_vertices. exists P. split; [exact HP|apply nth_In, I]. Qed.
Lemma vertex_fine o : In o (polygon_vertices ps) -> fine o.
Proof.
  intros V. destruct (Vw o V) as (_ & S2 & _ & S4 & _ & S6). split; [apply Ng, V|]. split; [|split; [|split]].
  - intros P HP. apply (proj2 Dr o V). apply base_copy, HP.
  - intros s E. apply S2, base_edge, E.
  - intros v w Hv Hw N Sb. destruct (Ng o V) as [Lo _]. destruct (Ng v Hv) as [Lv _].
    destruct (S4 v w (base_vertex v Hv) (base_vertex w Hw) N Sb) as [(e & Ee & Ce)|[(p & n & C & Is)|(p & c & n & C & B & Is & T)]].
    + left. exists e. split; [|exact Ce]. apply edge_copies in Ee. destruct Ee as (s & j & Es & J & ->). destruct (Z.eq_dec j 0) as [->|Nj]; [rewrite !wrap_0; destruct s; exact Es|exfalso].
      destruct Ce as (_ & q & t & u & Ht & Hu & X & _). cbn [e1 e2] in X. destruct (edge_ngeo ps s Ng Es) as [[L1 _] [L2 _]].
      unfold wrap in X. cbn [lon] in X. apply (SeaLines.far_mix q t u (lon (e1 s)) (lon (e2 s)) (lon o) (lon v) (- j) 0); try assumption; try lia.
    + right; left. apply copy_corner in C. destruct C as (j & p' & o' & n' & C & -> & E & ->). pose proof (corner_in _ _ _ C) as Vo. rewrite <- (wrap_0 o) in E.
      destruct (wrap_home _ _ _ _ (Ng o V) (Ng o' Vo) E) as [<- <-]. rewrite !wrap_0 in *. eauto.
    + right; right. apply copy_corner in C. destruct C as (j & p' & c' & n' & C & -> & -> & ->). pose proof (corner_in _ _ _ C) as Vo.
      destruct (Z.eq_dec j 0) as [->|Nj]; [rewrite !wrap_0 in *; exists p', c', n'; auto|exfalso].
      destruct B as (q & u & U & X & _). destruct (Ng c' Vo) as [L1 _]. unfold wrap in X. cbn [lon] in X.
      apply (SeaLines.far_mix q 0 u (lon c') (lon c') (lon o) (lon v) (- j) 0); try assumption; try lia.
  - intros p n C. apply (S6 p n), base_corner, C.
Qed.
Lemma sea_fine c : at_sea ps c -> fine c.
Proof.
  intros (G & [V|((_ & S2 & _ & S4 & _ & S6) & Ol)]); [apply vertex_fine, V|]. split; [exact G|]. split; [exact Ol|]. split; [exact S2|]. split; [exact S4|]. intros p n C. apply (S6 p n C).
Qed.
(** a line off the land makes no landfall *)
Lemma sails_sea o v : fine o -> In v (polygon_vertices ps) -> o <> v -> sails ps (rp o) (rp v) -> sea_here ps o v.
Proof.
  intros (G & Ol & Oe & Sd & Cc) V N S.
  assert (Ou : forall p n, corner_of ps p o n -> ~ into_solid p o n v).
  { intros p n (P & j & HP & J & -> & Eo & ->) Is. rewrite Eo in Is, S. exact (ashore_corner ps Nd sk P j v HP J Is S). }
  assert (Cr : forall e, polygon_edge ps e -> ~ crosses_in o v e).
  { intros e E (T & q & t & u & Ht & Hu & Ex & Ey). destruct (poly_edge ps e E) as (P & HP & Ee). set (a := e1 e) in *. set (b := e2 e) in *.
    assert (Q' : (0 < IZR q)%R) by (apply (IZR_lt 0); lia). set (s := (IZR t / IZR q)%R). set (r := (IZR u / IZR q)%R).
    assert (Sq : (s * IZR q = IZR t)%R) by (unfold s; field; lra). assert (Rq : (r * IZR q = IZR u)%R) by (unfold r; field; lra).
    assert (Hs : (0 < s < 1)%R) by (destruct Ht as [T1 T2]; apply IZR_lt in T1; apply IZR_lt in T2; split; apply (Rmult_lt_reg_r (IZR q)); lra).
    assert (Hr : (0 < r < 1)%R) by (destruct Hu as [T1 T2]; apply IZR_lt in T1; apply IZR_lt in T2; split; apply (Rmult_lt_reg_r (IZR q)); lra).
    assert (M : mix (rp a) (rp b) s = mix (rp o) (rp v) r).
    { apply (f_equal IZR) in Ex, Ey. rewrite !plus_IZR, !mult_IZR, !minus_IZR in Ex, Ey. apply pt_eq; unfold mix, rp; cbn [X Y]; apply (Rmult_eq_reg_r (IZR q)); try lra.
      - transitivity ((IZR q - s * IZR q) * IZR (lon a) + s * IZR q * IZR (lon b))%R; [ring|]. rewrite Sq, Ex, <- Rq. ring.
      - transitivity ((IZR q - s * IZR q) * IZR (lat a) + s * IZR q * IZR (lat b))%R; [ring|]. rewrite Sq, Ey, <- Rq. ring. }
    set (D := minus (rp b) (rp a)). assert (Go : cross D (minus (rp o) (mix (rp o) (rp v) r)) = IZR (turn o a b)).
    { rewrite <- M. rewrite <- cross_turn. unfold D, cross, minus, mix, rp. cbn [X Y]. ring. }
    assert (Gv : ((1 - r) * cross D (minus (rp o) (mix (rp o) (rp v) r)) + r * cross D (minus (rp v) (mix (rp o) (rp v) r)) = 0)%R) by (unfold cross, minus, mix; cbn [X Y]; ring).
    apply (IZR_lt _ 0) in T. rewrite <- Go in T. set (go := cross D (minus (rp o) (mix (rp o) (rp v) r))) in *. set (gv := cross D (minus (rp v) (mix (rp o) (rp v) r))) in *.
    assert (Pv : (0 < gv)%R) by (clear - Gv T Hr; clearbody go gv; nra).
    apply (ashore ps Nd sk P e s (mix (rp o) (rp v) r) (rp v) HP Ee ltac:(lra) (eq_sym M) Pv).
    pose proof (sails_part ps (rp o) (rp v) r 1 ltac:(lra) ltac:(lra) S) as K. rewrite mix_1 in K. exact K. }
  assert (Btw : forall w, In w (polygon_vertices ps) -> ~ strictly_between o v w).
  { intros w W B. destruct (Sd v w V W (not_eq_sym N) B) as [(e & Ee & Ce)|[(p & n & C & Is)|(p & c & n & C & Bc & Is & _)]]; [exact (Cr e Ee Ce)|exact (Ou p n C Is)|].
    destruct C as (P & j & HP & J & -> & -> & ->). apply (ashore_corner ps Nd sk P j v HP J Is). set (c := vat (verts P) j) in *. destruct Bc as (q & u & U & Ex & Ey).
    assert (Q' : (0 < IZR q)%R) by (apply (IZR_lt 0); lia). set (r := (IZR u / IZR q)%R). assert (Rq : (r * IZR q = IZR u)%R) by (unfold r; field; lra).
    assert (Hr : (0 < r < 1)%R) by (destruct U as [T1 T2]; apply IZR_lt in T1; apply IZR_lt in T2; split; apply (Rmult_lt_reg_r (IZR q)); lra).
    assert (M : rp c = mix (rp o) (rp v) r).
    { apply (f_equal IZR) in Ex, Ey. rewrite !plus_IZR, !mult_IZR, !minus_IZR in Ex, Ey. apply pt_eq; unfold mix, rp; cbn [X Y]; apply (Rmult_eq_reg_l (IZR q)); try lra; [rewrite Ex|rewrite Ey]; rewrite <- Rq; ring. }
    rewrite M. pose proof (sails_part ps (rp o) (rp v) r 1 ltac:(lra) ltac:(lra) S) as K. rewrite mix_1 in K. exact K. }
  split; [|split; [exact Btw|]].
  - intros e E (T & q & t & u & Q & Ht & Hu & Ex & Ey).
    assert (K : u * turn o v (e1 e) = t * - turn o (e1 e) (e2 e)).
    { replace (u * turn o v (e1 e)) with ((u * (lon v - lon o)) * (lat (e1 e) - lat o) - (u * (lat v - lat o)) * (lon (e1 e) - lon o)) by (unfold turn; ring).
      replace (u * (lon v - lon o)) with ((q - t) * (lon (e1 e) - lon o) + t * (lon (e2 e) - lon o)) by lia.
      replace (u * (lat v - lat o)) with ((q - t) * (lat (e1 e) - lat o) + t * (lat (e2 e) - lat o)) by lia. unfold turn. ring. }
    assert (U0 : 0 < u) by (clear - K T Ht Hu; destruct (Z.eq_dec u 0) as [->|]; [exfalso; rewrite Z.mul_0_l in K; nia|lia]).
    destruct (Z.eq_dec t q) as [->|Nt].
    + destruct (poly_edge ps e E) as (P & HP & Ee). destruct (edge_verts P e Ee) as [_ I2]. apply (Btw (e2 e)); [apply in_polygon_vertices; eauto|]. exists q, u. split; [lia|]. lia.
    + apply (Cr e E). split; [exact T|]. exists q, t, u. repeat split; try assumption; lia.
  - exact Ou.
Qed.
Lemma sails_open o v : fine o -> In v (polygon_vertices ps) -> o <> v -> sails ps (rp o) (rp v) -> open_line ps o v.
Proof.
  intros F V N S. pose proof (sails_sea o v F V N S) as Sh. destruct F as (G & Ol & Oe & Dd & Cc). apply open_direct; [exact Ng|exact G|apply Ng, V|].
  apply sea_open; try assumption. exact sk.
Qed.
(** and an open line is off the land *)
Lemma afloat_at c : off_land c ps -> afloat ps (rp c).
Proof.
  intros Ol P HP. pose proof (sa_three ps sk P HP) as N3. destruct (Ol P HP) as [I|W].
  - left. destruct (In_nth _ _ (mkC 0 0) I) as (i & Li & E). exists (edge P i), 0%R. split; [apply edge_is, N3|]. split; [lra|]. rewrite mix_0. unfold edge. cbn [e1]. rewrite Nat.mod_small by exact Li. f_equal.
    unfold vat. rewrite <- E. apply nth_indep, Li.
  - right. rewrite r_winding by exact N3. exact W.
Qed.
Lemma open_sails o v : fine o -> In v (polygon_vertices ps) -> o <> v -> open_line ps o v -> sails ps (rp o) (rp v).
Proof.
  intros F V N O r R. pose proof (vertex_fine v V) as Fv. destruct (Req_dec r 0) as [->|R0]; [rewrite mix_0; apply afloat_at, F|]. destruct (Req_dec r 1) as [->|R1]; [rewrite mix_1; apply afloat_at, Fv|].
  destruct F as (G & Ol & Oe & Dd & Cc). intros P HP. pose proof (drawn_sea ps Nd o v N (fun P HP => sa_three ps sk P HP) (wraps_apart o v N) O 0) as Sh. rewrite !wrap_0 in Sh.
  destruct (sea_wet ps o v Nd sk Ol Oe Cc V N Sh P r HP ltac:(lra)) as [(e & E & s & S & M)|W]; [left; exists e, s; auto|right; exact W].
Qed.

(** *** From a way to a route *)
Variables s d : coord.
Hypotheses (Hs : at_sea ps s) (Hd : at_sea ps d) (Bl : not_direct ps s d).
Lemma sailed_pos u l t r : sailed ps s d u l t r -> (0 <= r)%R.
Proof.
  induction 1 as [u|u v l t r O Ne A B C H IH|u v k l t r K O No Ne A B H IH]; [lra|pose proof (apart_pos u v); lra|].
  assert (0 <= Rmin (apart u (wrap 1 v)) (apart u (wrap (-1) v)))%R by (apply Rmin_glb; apply apart_pos). lra.
Qed.
Lemma way_legs : forall ws u, u = s \/ In u (polygon_vertices ps) -> (forall w, In w ws -> In w (polygon_vertices ps)) -> course ps (rp u) (map rp ws ++ [rp d]) ->
  exists l r, sailed ps s d u l d r /\ (r <= run (rp u) (map rp ws ++ [rp d]))%R /\ incl l (ws ++ [d]).
Proof.
  induction ws as [|w ws IH]; intros u U W Co; cbn [map app course run] in *.
  - destruct Co as [S _]. rewrite far_apart. destruct (coord_dec u d) as [->|Nu].
    { exists [], 0%R. split; [constructor|]. split; [pose proof (apart_pos d d); lra|]. intros x []. }
    exists [d], (apart u d + 0)%R. split; [|split; [lra|apply incl_refl]]. apply sailed_straight; [|exact Nu|destruct U; auto|auto| |constructor].
    + destruct (in_dec coord_dec u (polygon_vertices ps)) as [Iu|Iu].
      * apply open_flip. apply sails_open; [apply sea_fine, Hd|exact Iu|auto|apply sails_flip, S].
      * destruct U as [->|U]; [|contradiction]. destruct Bl as [B|[B|B]]; [contradiction| |contradiction]. apply sails_open; [apply sea_fine, Hs|exact B|exact Nu|exact S].
    + destruct U as [->|U]; [|left; exact U]. destruct Bl as [B|[B|B]]; [left; exact B|right; exact B|contradiction].
  - destruct Co as [S Co]. destruct (IH w (or_intror (W w (or_introl eq_refl))) (fun x I => W x (or_intror I)) Co) as (l & r & Sa & Le & In'). pose proof (W w (or_introl eq_refl)) as Vw'.
    rewrite far_apart. destruct (coord_dec u w) as [->|Nu].
    + exists l, r. split; [exact Sa|]. split; [pose proof (apart_pos w w); lra|]. intros x I. right. apply In', I.
    + exists (w :: l), (apart u w + r)%R. split; [|split; [lra|]].
      * apply sailed_straight; [|exact Nu|destruct U; auto|auto|auto|exact Sa]. apply sails_open; [destruct U as [->|U]; [apply sea_fine, Hs|apply vertex_fine, U]|exact Vw'|exact Nu|exact S].
      * intros x [<-|I]; [left; reflexivity|right; apply In', I].
Qed.
(** without loops *)
Lemma rejoin u : forall l v t r, sailed ps s d v l t r -> In u (v :: l) -> exists l1 l2 r2, v :: l = l1 ++ u :: l2 /\ sailed ps s d u l2 t r2 /\ (r2 <= r)%R.
Proof.
  induction l as [|w l IH]; intros v t r Sa I.
  - destruct I as [<-|[]]. exists [], [], r. split; [reflexivity|]. split; [exact Sa|lra].
  - destruct I as [<-|I]; [exists [], (w :: l), r; split; [reflexivity|]; split; [exact Sa|lra]|].
    assert (Go : exists r', sailed ps s d w l t r' /\ (r' <= r)%R).
    { inversion Sa; subst; [eexists; split; [eassumption|]; pose proof (apart_pos v w); lra|]. eexists. split; [eassumption|].
      assert (0 <= Rmin (apart v (wrap 1 w)) (apart v (wrap (-1) w)))%R by (apply Rmin_glb; apply apart_pos). lra. }
    destruct Go as (r' & Sa' & L). destruct (IH w t r' Sa' I) as (l1 & l2 & r2 & E & S2 & L2). exists (v :: l1), l2, r2. rewrite E. split; [reflexivity|]. split; [exact S2|lra].
Qed.
Lemma no_loops u l t r : sailed ps s d u l t r -> exists l' r', sailed ps s d u l' t r' /\ (r' <= r)%R /\ incl l' l /\ NoDup (u :: l').
Proof.
  assert (Step : forall u v l r r' k, (0 <= k)%R -> (forall l r', sailed ps s d v l t r' -> sailed ps s d u (v :: l) t (k + r')%R) -> u <> v ->
    sailed ps s d v l t r' -> (r' <= r)%R -> NoDup (v :: l) -> exists l' r'', sailed ps s d u l' t r'' /\ (r'' <= k + r)%R /\ incl l' (v :: l) /\ NoDup (u :: l')).
  { clear. intros u v l r r' k K Go N Sa Le Du. destruct (in_dec coord_dec u (v :: l)) as [I|I].
    - destruct (rejoin u l v t r' Sa I) as (l1 & l2 & r2 & E & S2 & L2). exists l2, r2. split; [exact S2|]. split; [lra|]. split.
      + intros x Ix. rewrite E. apply in_or_app. right. right. exact Ix.
      + rewrite E in Du. clear - Du. induction l1 as [|y l1 IH]; [exact Du|]. apply IH. inversion Du; assumption.
    - exists (v :: l), (k + r')%R. split; [apply Go, Sa|]. split; [lra|]. split; [apply incl_refl|]. constructor; assumption. }
  induction 1 as [u|u v l t r O Ne A B C H IH|u v k l t r K O No Ne A B H IH].
  - exists [], 0%R. split; [constructor|]. split; [lra|]. split; [apply incl_refl|]. repeat constructor. intros [].
  - destruct (IH Step) as (l' & r' & Sa & Le & In' & Du). destruct (Step u v l' r r' (apart u v) (apart_pos u v)) as (l2 & r2 & S2 & L2 & I2 & D2); try assumption.
    { intros l0 r0 S0. apply sailed_straight; assumption. }
    exists l2, r2. split; [exact S2|]. split; [exact L2|]. split; [|exact D2]. intros x I. destruct (I2 x I) as [<-|Ix]; [left; reflexivity|right; apply In', Ix].
  - destruct (IH Step) as (l' & r' & Sa & Le & In' & Du). destruct (Step u v l' r r' (Rmin (apart u (wrap 1 v)) (apart u (wrap (-1) v)))) as (l2 & r2 & S2 & L2 & I2 & D2); try assumption.
    { apply Rmin_glb; apply apart_pos. }
    { intros l0 r0 S0. apply (sailed_around ps s d u v k); assumption. }
    exists l2, r2. split; [exact S2|]. split; [exact L2|]. split; [|exact D2]. intros x I. destruct (I2 x I) as [<-|Ix]; [left; reflexivity|right; apply In', Ix].
Qed.
Lemma disc_convex rho c p q h : (far c p <= rho)%R -> (far c q <= rho)%R -> (0 <= h <= 1)%R -> (far c (mix p q h) <= rho)%R.
Proof.
  intros P Q H. destruct (Req_dec h 0) as [->|H0]; [rewrite mix_0; exact P|].
  (* along c to mix p q h: c + (1-h)(p-c) + h(q-c) *)
  set (p' := mix c p (1 - h)). assert (E : mix p q h = P2 (X p' + h * (X q - X c)) (Y p' + h * (Y q - Y c))) by (unfold p'; apply pt_eq; unfold mix; cbn [X Y]; ring).
  pose proof (far_triangle c p' (mix p q h)) as T.
  assert (K : forall k x y, (0 <= k)%R -> sqrt (Rsqr (k * x) + Rsqr (k * y)) = (k * sqrt (Rsqr x + Rsqr y))%R).
  { intros k x y Hk. replace (Rsqr (k * x) + Rsqr (k * y))%R with (Rsqr k * (Rsqr x + Rsqr y))%R by (unfold Rsqr; ring).
    rewrite sqrt_mult, sqrt_Rsqr; [reflexivity|exact Hk|apply Rle_0_sqr|]. pose proof (Rle_0_sqr x). pose proof (Rle_0_sqr y). lra. }
  assert (A : far c p' = ((1 - h) * far c p)%R) by (unfold p', far, mix; cbn [X Y]; rewrite <- K by lra; f_equal; f_equal; f_equal; ring).
  assert (B : far p' (mix p q h) = (h * far c q)%R) by (rewrite E; unfold far; cbn [X Y]; rewrite <- K by lra; f_equal; f_equal; f_equal; ring).
  rewrite A, B in T. assert ((1 - h) * far c p <= (1 - h) * rho)%R by (apply Rmult_le_compat_l; lra). assert (h * far c q <= h * rho)%R by (apply Rmult_le_compat_l; lra). lra.
Qed.
Theorem way_sailed rho l : a_way ps rho s d l ->
  exists l' r', sailed ps s d s l' d r' /\ (r' <= run (rp s) (l ++ [rp d]))%R /\ NoDup (s :: l') /\ forall v, In v l' -> (In v (polygon_vertices ps) \/ v = d) /\ (apart s v <= rho)%R.
Proof.
  intros (Co & Wi). set (D := fun p => (far (rp s) p <= rho)%R).
  assert (Dd : D (rp d)) by (apply Wi, in_or_app; right; left; reflexivity). assert (Ds : D (rp s)) by (unfold D in *; rewrite far_same; pose proof (far_pos (rp s) (rp d)); lra).
  destruct (smoothed ps Nd sk D (fun p q h => disc_convex rho (rp s) p q h) l (rp s) (rp d) Co Ds Dd (fun p I => Wi p (in_or_app _ _ _ (or_introl I)))) as (ws & Hw & Cw & Rw).
  destruct (way_legs ws s (or_introl eq_refl) (fun w I => proj1 (Hw w I)) Cw) as (l1 & r1 & S1 & L1 & I1). destruct (no_loops _ _ _ _ S1) as (l2 & r2 & S2 & L2 & I2 & D2).
  exists l2, r2. split; [exact S2|]. split; [lra|]. split; [exact D2|]. intros v I. apply I2, I1, in_app_or in I. destruct I as [I|[<-|[]]].
  - destruct (Hw v I) as [V Dv]. split; [left; exact V|]. rewrite <- far_apart. exact Dv.
  - split; [right; reflexivity|]. rewrite <- far_apart. exact Dd.
Qed.
End Plane.

(** ** Queries *)
Lemma reaches_within radius rho s v : reaches radius rho -> ngeo s -> ngeo v -> (apart s v <= rho)%R -> within s radius v.
Proof.
  intros Re Gs Gv A. destruct (heuristic_ok s v Gs Gv) as (h & E & M). exists h. split; [exact E|]. destruct Re as [->|(Fr & Br)].
  - destruct h as [b|b| |b m e H]; try reflexivity; destruct b; reflexivity.
  - destruct (fltb radius h) eqn:L; [|reflexivity]. exfalso. pose proof M as (Fh & _). apply (fltb_iff radius h Fr Fh) in L. destruct (measures_bounds _ _ M) as [_ B].
    assert (C : (cylinder s v <= apart s v)%R) by (unfold cylinder, edge_length; apply Rmin_l).
    assert (U : (0 < u5)%R) by (rewrite u5_val; lra). pose proof micro_pos as Mp.
    assert (micro * cylinder s v * (1 + u5) <= micro * rho * (1 + u5))%R by (apply Rmult_le_compat_r; [lra|]; apply Rmult_le_compat_l; lra). lra.
Qed.
Section Query.
Variables (atan2 : Z -> Z -> f64) (ords' : coord -> orders) (ps : list polygon) (g : graph) (en : env) (source destination ns nd : coord).
Hypotheses (T : accurate_atan2 atan2) (Tg : true_graph ps g) (Dr : drawn ps) (Vw : viewed ps) (Cq : coast_query atan2 ords' ps g en source destination ns nd).
Hypotheses (Bl : not_direct ps ns nd).
Notation lc := (mkLC ns nd None None).
Lemma wq_ngeo c : In c (polygon_vertices ps) -> ngeo c. Proof. apply clear_ngeo, Tg. Qed.
Lemma way_route radius rho l : reaches radius rho -> a_way ps rho ns nd l ->
  exists l' r', sailed ps ns nd ns l' nd r' /\ (r' <= run (rp ns) (l ++ [rp nd]))%R /\ Forall (within ns radius) l' /\ (List.length (ns :: l') <= List.length (polygon_vertices ps) + 2)%nat.
Proof.
  intros Re Wa. pose proof Cq as (_ & Cs & Cd). destruct (way_sailed ps wq_ngeo (proj1 (proj2 Tg)) Dr Vw ns nd Cs Cd Bl rho l Wa) as (l' & r' & Sa & Le & Du & All).
  exists l', r'. split; [exact Sa|]. split; [exact Le|]. split.
  - apply Forall_forall. intros v I. destruct (All v I) as [V A]. apply (reaches_within radius rho); [exact Re|apply Cs| |exact A]. destruct V as [V| ->]; [apply wq_ngeo, V|apply Cd].
  - replace (List.length (polygon_vertices ps) + 2)%nat with (List.length (ns :: nd :: polygon_vertices ps)) by (cbn [List.length]; lia). apply NoDup_incl_length; [exact Du|].
    intros v [<-|I]; [left; reflexivity|]. destruct (All v I) as [[V| ->] _]; cbn [In]; auto.
Qed.
Lemma sailed_members u l t r : sailed ps ns nd u l t r -> forall v, In v l -> In v (polygon_vertices ps) \/ v = ns \/ v = nd.
Proof. induction 1 as [u|u v l t r O Ne A B C H IH|u v k l t r K O No Ne A B H IH]; intros x I; [destruct I|destruct I as [<-|I]; auto|destruct I as [<-|I]; auto]. Qed.
Lemma path_size radius flag fuel path : shortest_path fuel en g source destination radius flag = Some (Ok path) -> (List.length path <= List.length (polygon_vertices ps) + 2)%nat.
Proof.
  intros E. pose proof Cq as (Sq & _). pose proof (true_complete ps g Tg) as Co. pose proof (sea_fit _ _ _ _ _ _ _ _ _ Co Sq) as Fit. pose proof Sq as (_ & _ & _ & _ & Ms & Md & _).
  destruct (query_path en g source destination radius flag Fit Ms Md fuel path E) as (lc & Cor & [(Ns & _)|(_ & l & r & Ep & Du & J)]).
  - exfalso. apply Ns. rewrite (correction_unique _ _ _ _ _ Cor (sea_correction _ _ _ _ _ _ _ _ Sq)). exact (sea_searched _ _ _ _ _ _ _ _ Sq).
  - rewrite (correction_unique _ _ _ _ _ Cor (sea_correction _ _ _ _ _ _ _ _ Sq)) in Ep, J. cbn [lc_source lc_dest] in Ep, J. pose proof (proj1 (cq_journey atan2 ords' ps g en source destination ns nd T Tg Dr Cq _ _ _ _) J) as Sa.
    replace (List.length (polygon_vertices ps) + 2)%nat with (List.length (ns :: nd :: polygon_vertices ps)) by (cbn [List.length]; lia). apply NoDup_incl_length; [exact Du|]. rewrite Ep.
    intros v [<-|I]; [left; reflexivity|]. destruct (sailed_members _ _ _ _ Sa v I) as [V|[ -> | -> ]]; cbn [In]; auto.
Qed.
(** the path is as short as any way *)
Theorem best_way radius rho flag fuel path w : reaches radius rho -> Z.of_nat (List.length (polygon_vertices ps)) <= 999998 ->
  shortest_path fuel en g source destination radius flag = Some (Ok path) -> minimal w (en_pick en) -> is_finite w = true -> (Rabs (V w) <= bpow radix2 900)%R ->
  exists l r, path = ns :: l /\ sailed ps ns nd ns l nd r /\
    forall l', a_way ps rho ns nd l' -> (r <= Rmax 1 (V w) * run (rp ns) (l' ++ [rp nd]) * (1 + / 2000000000))%R.
Proof.
  intros Re Sz E Mn Fw Bw. pose proof (path_size radius flag fuel path E) as Sp.
  destruct (best_route atan2 ords' ps g en source destination ns nd T Tg Dr Cq radius flag fuel path w E ltac:(lia) Mn Fw Bw) as (l & r & Ep & Sa & O). exists l, r. split; [exact Ep|]. split; [exact Sa|].
  intros l' Wa. destruct (way_route radius rho l' Re Wa) as (l1 & r1 & S1 & L1 & W1 & N1). cbn [List.length] in N1. pose proof (O l1 r1 S1 W1 ltac:(lia)) as K.
  eapply Rle_trans; [exact K|]. apply Rmult_le_compat_r; [lra|]. apply Rmult_le_compat_l; [pose proof (Rmax_l 1 (V w)); lra|exact L1].
Qed.
(** no path, no way *)
Theorem no_way radius rho flag fuel : reaches radius rho -> shortest_path fuel en g source destination radius flag = Some (Throw NoPath) -> ~ exists l, a_way ps rho ns nd l.
Proof.
  intros Re E (l & Wa). destruct (way_route radius rho l Re Wa) as (l1 & r1 & S1 & L1 & W1 & _). apply (no_route atan2 ords' ps g en source destination ns nd T Tg Dr Cq radius flag fuel E). exists l1, r1. auto.
Qed.
(** if there is a way a path is found *)
Theorem way_found radius rho flag : reaches radius rho -> (exists l, a_way ps rho ns nd l) -> exists n, forall fuel, (n <= fuel)%nat -> exists path, shortest_path fuel en g source destination radius flag = Some (Ok path).
Proof.
  intros Re (l & Wa). destruct (route_found atan2 ords' ps g en source destination ns nd T Tg Dr Cq radius flag) as (n & H). exists n. intros fuel Le. apply (proj1 (H fuel Le)).
  destruct (way_route radius rho l Re Wa) as (l1 & r1 & S1 & L1 & W1 & _). exists l1, r1. auto.
Qed.
(** every leg which is not around the world is itself off the land *)
Theorem leg_way u v l t r : sailed ps ns nd u (v :: l) t r -> open_line ps u v -> sails ps (rp u) (rp v).
Proof.
  intros Sa O. pose proof Cq as (_ & Cs & Cd). pose proof (proj1 (proj2 Tg)) as Nd.
  assert (K : u <> v /\ (In u (polygon_vertices ps) \/ u = ns \/ u = nd) /\ (In v (polygon_vertices ps) \/ v = ns \/ v = nd) /\ (In u (polygon_vertices ps) \/ In v (polygon_vertices ps))) by (inversion Sa; subst; auto).
  destruct K as (N & Mu & Mv & Ma). assert (F : forall c, In c (polygon_vertices ps) \/ c = ns \/ c = nd -> fine ps c).
  { intros c [C|[ -> | -> ]]; [apply vertex_fine; auto; exact wq_ngeo|apply sea_fine; auto; exact wq_ngeo|apply sea_fine; auto; exact wq_ngeo]. }
  destruct (in_dec coord_dec v (polygon_vertices ps)) as [Iv|Iv].
  - apply open_sails; auto; exact wq_ngeo.
  - destruct Ma as [Iu|Iv']; [|contradiction]. apply sails_flip. apply open_sails; auto; [exact wq_ngeo|apply open_flip, O].
Qed.
(** a route none of whose legs leads around the world is a way *)
Theorem route_way l t r : sailed ps ns nd ns l t r -> (forall u v l1 l2, ns :: l = l1 ++ u :: v :: l2 -> open_line ps u v) -> course ps (rp ns) (map rp l) /\ r = run (rp ns) (map rp l).
Proof.
  assert (G : forall l u t r, sailed ps ns nd u l t r -> (forall a b l1 l2, u :: l = l1 ++ a :: b :: l2 -> open_line ps a b) -> course ps (rp u) (map rp l) /\ r = run (rp u) (map rp l)).
  { clear l t r. induction l as [|v l IH]; intros u t r Sa All; [inversion Sa; subst; split; reflexivity|]. pose proof (All u v [] l eq_refl) as O. pose proof (leg_way u v l t r Sa O) as Sl.
    inversion Sa as [|u' v' l' t' r' O' Ne A B C H|]; subst; [|contradiction].
    destruct (IH v t r' H) as [Co Ru]; [intros a b l1 l2 E; apply (All a b (u :: l1) l2); rewrite E; reflexivity|]. cbn [map course run]. rewrite far_apart. split; [auto|]. f_equal. exact Ru. }
  intros Sa All. exact (G l ns t r Sa All).
Qed.
End Query.

(** ** From the shape file *)
(** the path bends at vertices only and is as short as any way; or there is none, and there is no way *)
Definition way_answer (ps : list polygon) (en : env) (ns nd : coord) (radius : f64) (rho : R) (r : option (res (list pcoord))) : Prop :=
  (exists l t, r = Some (Ok (convert (ns :: l))) /\ sailed ps ns nd ns l nd t /\
     forall w, minimal w (en_pick en) -> is_finite w = true -> (Rabs (V w) <= bpow radix2 900)%R ->
       forall l', a_way ps rho ns nd l' -> (t <= Rmax 1 (V w) * run (rp ns) (l' ++ [rp nd]) * (1 + / 2000000000))%R) \/
  (r = Some (Throw NoPath) /\ ~ exists l, a_way ps rho ns nd l).
Lemma way_answers atan2 ords' ps g en c1 c2 source destination ns nd radius rho flag :
  accurate_atan2 atan2 -> true_graph ps g -> drawn ps -> viewed ps -> coast_query atan2 ords' ps g en source destination ns nd -> not_direct ps ns nd -> reaches radius rho ->
  Z.of_nat (List.length (polygon_vertices ps)) <= 999998 -> vis_coord c1 = Ok source -> vis_coord c2 = Ok destination ->
  exists n, forall fuel, (n <= fuel)%nat -> way_answer ps en ns nd radius rho (interpolate fuel en g c1 c2 radius flag).
Proof.
  intros T Tg Dr Vw Cq Bl Re Sz E1 E2. pose proof Cq as (Sq & _). pose proof (true_complete ps g Tg) as Co. pose proof (sea_fit _ _ _ _ _ _ _ _ _ Co Sq) as Fit. pose proof Sq as (_ & _ & _ & _ & Ms & Md & Es & Ed & _ & _ & Ls & Ld & _).
  destruct (query_terminates en g source destination radius flag Fit Ms Md) as (n & Te). exists n. intros fuel Lf. destruct (Te fuel Lf) as [T1 _].
  unfold interpolate. rewrite E1, E2. destruct (shortest_path fuel en g source destination radius flag) as [r|] eqn:Q; [|congruence].
  destruct (query_failure en g source destination radius flag Fit Ms Md fuel _ r Q (sea_correction _ _ _ _ _ _ _ _ Sq) (sea_searched _ _ _ _ _ _ _ _ Sq)) as [(path & ->)|(-> & _)].
  - right. exists ns, nd. auto.
  - left. destruct (path_sailed atan2 ords' ps g en source destination ns nd T Tg Dr Cq radius flag fuel path Q) as (l & t & -> & A & B).
    exists l, t. split; [reflexivity|]. split; [exact A|]. intros w Mn Fw Bw l' Wa.
    destruct (best_way atan2 ords' ps g en source destination ns nd T Tg Dr Vw Cq Bl radius rho flag fuel _ w Re Sz Q Mn Fw Bw) as (l0 & t0 & X & A' & O). injection X as <-.
    replace t with t0 by exact (sailed_length _ _ _ _ _ _ _ _ A' A). exact (O l' Wa).
  - right. split; [reflexivity|]. exact (no_way atan2 ords' ps g en source destination ns nd T Tg Dr Vw Cq Bl radius rho flag fuel Re Q).
Qed.
Definition answers_ways (atan2 : Z -> Z -> f64) (ps : list polygon) (limit : Z) (folder : path) (s : fs) : Prop :=
  exists g, load_graph_from_file limit (default_graph_path folder) s = Ok g /\
  forall ords en c1 c2 source destination ns nd radius rho flag,
    vis_coord c1 = Ok source -> vis_coord c2 = Ok destination -> coast_query atan2 ords ps g (en g) source destination ns nd -> not_direct ps ns nd -> reaches radius rho ->
    exists n, forall fuel, (n <= fuel)%nat -> way_answer ps (en g) ns nd radius rho (interpolate_cmd limit folder en fuel c1 c2 radius flag s).
Lemma ways_folder atan2 shapes ps limit folder s : accurate_atan2 atan2 -> drawn_shapes shapes ps limit -> Z.of_nat (List.length (polygon_vertices ps)) <= 999998 ->
  answers_best atan2 ps limit folder s -> answers_ways atan2 ps limit folder s.
Proof.
  intros T ((_ & _ & _ & _ & _ & Vw & _) & Dr) Sz (g & E & Tg & _). exists g. split; [exact E|]. intros ords en c1 c2 source destination ns nd radius rho flag E1 E2 Qu Bl Re.
  destruct (way_answers atan2 ords ps g (en g) c1 c2 source destination ns nd radius rho flag T Tg Dr Vw Qu Bl Re Sz E1 E2) as (n & H). exists n. intros fuel L. unfold interpolate_cmd. rewrite E. apply H, L.
Qed.

(** ** Deciding *)
Definition sails_b (ps : list polygon) (a b : coord) : bool :=
  forallb (fun P => forallb (fun e => aside_b e (mkS a b) || aside_b (mkS a b) e) (edges_list P) && (wind P a =? 0)) ps.
Lemma sails_b_ok ps a b : sketched ps -> sails_b ps a b = true -> sails ps (rp a) (rp b).
Proof.
  intros Sk H r R P HP. unfold sails_b in H. rewrite forallb_forall in H. specialize (H P HP). rewrite andb_true_iff, forallb_forall, Z.eqb_eq in H. destruct H as [H W]. right.
  pose proof (proj1 (proj2 Sk P HP)) as N3. rewrite <- (r_winding P N3) in W. rewrite <- W. symmetry. apply moving; [apply (r_per P N3 0)|].
  apply r_misses; [exact N3|]. intros e E (x & t & Hx & Ht & M). specialize (H e (proj1 (edges_list_ok P e) E)). rewrite orb_true_iff in H.
  assert (Me : meet (rp a) (rp b) (rp (e1 e)) (rp (e2 e))).
  { exists (x * r)%R, t. split; [nra|]. split; [exact Ht|]. rewrite <- M. apply pt_eq; unfold mix; cbn [X Y]; ring. }
  destruct H as [H|H]; [exact (aside_b_ok _ _ H Me)|exact (aside_b_ok _ _ H (meet_swap _ _ _ _ Me))].
Qed.
Definition inland_b (P : polygon) (c : coord) : bool := forallb (fun e => negb (turn (e1 e) (e2 e) c =? 0)) (edges_list P) && negb (wind P c =? 0).
Lemma inland_b_ok ps P c : sketched ps -> In P ps -> inland_b P c = true -> ~ afloat ps (rp c).
Proof.
  intros Sk HP H A. unfold inland_b in H. rewrite andb_true_iff, forallb_forall, negb_true_iff, Z.eqb_neq in H. destruct H as [H W]. pose proof (proj1 (proj2 Sk P HP)) as N3.
  destruct (A P HP) as [(e & s & E & S & M)|Z]; [|rewrite (r_winding P N3) in Z; contradiction].
  specialize (H e (proj1 (edges_list_ok P e) E)). rewrite negb_true_iff, Z.eqb_neq in H. apply H. apply eq_IZR. rewrite <- cross_turn, <- M. unfold cross, minus, mix. cbn [X Y]. ring.
Qed.
Lemma far_bound a b n : 0 <= n -> (lon a - lon b) * (lon a - lon b) + (lat a - lat b) * (lat a - lat b) <= n * n -> (far (rp a) (rp b) <= IZR n)%R.
Proof.
  intros N H. rewrite far_apart. unfold apart. rewrite <- (sqrt_Rsqr (IZR n)) by (apply (IZR_le 0), N). apply sqrt_le_1_alt. unfold Rsqr. rewrite <- !minus_IZR, <- !mult_IZR, <- plus_IZR. apply IZR_le, H.
Qed.
