(** Ways over the water from endpoints which were moved to a shore: the path is longer than any of them by at most
    twice the distance from the endpoint to the shore.  No code is modelled here. *)
From Coq Require Import ZArith Reals Bool List Lia Lra Psatz Permutation String.
From Flocq Require Import Core BinarySingleNaN.
From Verif Require Import Jordan.
From Verif Require Import PyLayer PyFacts Base F64 Coordinate Segment Polygon PolygonMore Periodicity PeriodicityFacts SegmentFacts Serializer SerializerMore Graph GraphFacts GraphMore Visgraph VisgraphFacts SpecGeom SpecGraph F64Facts CoordinateFacts
  Sweep SweepFacts SweepMaps SweepGen SweepOrder AngleFacts AngleSort SweepGeo SweepSound SweepExact SweepGraph SweepLayers SweepFronts
  ShortestPath DistFacts SearchFacts SearchSpec SearchGraph SearchQuery PathFacts PathMore FreePaths OpenWater SeaLines Coasts CoastExact CoastCheck CoastRun Pipeline PipelineFacts PipelineFree PipelineOpen PipelineSea Ways WayRun.
Import ListNotations.
Local Open Scope Z_scope.

(** ** Vocabulary *)
(** [c] lies on the sea side of the edge to which it was moved, if it was, and a straight line of length [delta] over
    the water leads from it to the edge *)
Definition beside (ps : list polygon) (c : coord) (edge : option segment) (delta : R) : Prop :=
  (0 <= delta)%R /\ forall e, edge = Some e -> polygon_edge ps e /\ turn (e1 e) (e2 e) c <= 0 /\
    exists h, (0 <= h <= 1)%R /\ sails ps (rp c) (mix (rp (e1 e)) (rp (e2 e)) h) /\ (far (rp c) (mix (rp (e1 e)) (rp (e2 e)) h) <= delta)%R.
(** a query with the land correction, which searches between points at sea *)
Definition shore_query (atan2 : Z -> Z -> f64) (ords' : coord -> orders) (ps : list polygon) (g : graph) (en : env) (source destination : coord) (lc : correction) : Prop :=
  (forall v, library_orders (ords' v)) /\ en_vis en = endpoint_vis atan2 ords' g /\ row_orders (en_rows en) /\ index_in_range (en_index en) /\
  in_the_map source /\ in_the_map destination /\ correction_of en source destination lc /\ searched en lc /\ at_sea ps (lc_source lc) /\ at_sea ps (lc_dest lc).

(** ** Courses *)
Lemma course_app ps : forall l a z l', course ps a (l ++ z :: l') <-> course ps a (l ++ [z]) /\ course ps z l'.
Proof. induction l as [|b l IH]; intros a z l'; cbn [app course]; [tauto|]. rewrite IH. tauto. Qed.
Lemma run_app : forall l a z l', run a (l ++ z :: l') = (run a (l ++ [z]) + run z l')%R.
Proof. induction l as [|b l IH]; intros a z l'; cbn [app run]; [ring|]. rewrite IH. ring. Qed.
Lemma course_rev ps : forall l a z, course ps a (l ++ [z]) -> course ps z (rev l ++ [a]) /\ run z (rev l ++ [a]) = run a (l ++ [z]).
Proof.
  induction l as [|b l IH]; intros a z H; cbn [app course run rev] in *.
  - destruct H as [S _]. split; [split; [apply sails_flip, S|exact I]|]. rewrite far_flip. reflexivity.
  - destruct H as [S H]. destruct (IH b z H) as [C R]. rewrite <- app_assoc. cbn [app]. split.
    + apply course_app. split; [exact C|]. cbn [course]. split; [apply sails_flip, S|exact I].
    + rewrite run_app, R. cbn [run]. rewrite (far_flip b a). ring.
Qed.

Section Shore.
Variable ps : list polygon.
Hypotheses (Nd : NoDup (polygon_vertices ps)) (Sk : sketched ps).
Variable D : pt -> Prop.
Hypothesis Cv : forall p q s, D p -> D q -> (0 <= s <= 1)%R -> D (mix p q s).
(** on the sea side of the edge, or on its line *)
Definition seaward (e : segment) (z : pt) : Prop := (cross (minus (rp (e2 e)) (rp (e1 e))) (minus z (rp (e1 e))) <= 0)%R.
Lemma seaward_turn e c : seaward e (rp c) <-> turn (e1 e) (e2 e) c <= 0.
Proof. unfold seaward. rewrite cross_turn. split; [apply le_IZR|apply IZR_le]. Qed.
Lemma seaward_on e h : seaward e (mix (rp (e1 e)) (rp (e2 e)) h).
Proof. unfold seaward, cross, minus, mix. cbn [X Y]. lra. Qed.
Lemma seaward_mix e p q h : seaward e p -> seaward e q -> (0 <= h <= 1)%R -> seaward e (mix p q h).
Proof.
  unfold seaward. intros P Q H. set (d := minus (rp (e2 e)) (rp (e1 e))) in *. set (o := rp (e1 e)) in *.
  replace (cross d (minus (mix p q h) o)) with ((1 - h) * cross d (minus p o) + h * cross d (minus q o))%R by (unfold cross, minus, mix; cbn [X Y]; ring). nra.
Qed.
Definition hd_pt (l : list coord) (z : pt) : pt := match l with [] => z | w :: _ => rp w end.
(** a way from beside an edge can be changed to start on the sea side of it, if one goes to the edge and back *)
Lemma put_out s e h l z : polygon_edge ps e -> seaward e (rp s) -> (0 <= h <= 1)%R -> let p := mix (rp (e1 e)) (rp (e2 e)) h in sails ps (rp s) p ->
  course ps (rp s) (l ++ [z]) -> D (rp s) -> D p -> D z -> (forall q, In q l -> D q) ->
  exists ws, (forall w, In w ws -> In w (polygon_vertices ps) /\ D (rp w)) /\ course ps (rp s) (map rp ws ++ [z]) /\
    (run (rp s) (map rp ws ++ [z]) <= run (rp s) (l ++ [z]) + 2 * far (rp s) p)%R /\ seaward e (hd_pt ws z).
Proof.
  intros He Hs Hh p Sp Co Ds Dp Dz Dl. destruct (poly_edge ps e He) as (P & HP & Ee).
  assert (Co' : course ps p ((rp s :: l) ++ [z])) by (cbn [app course]; split; [apply sails_flip, Sp|exact Co]).
  destruct (smoothed ps Nd Sk D Cv (rp s :: l) p z Co' Dp Dz) as (w1 & V1 & C1 & R1); [intros q [<-|I]; auto|]. cbn [app run] in R1. rewrite (far_flip p) in R1.
  assert (Edge : forall c, c = e1 e \/ c = e2 e -> p = rp c -> exists ws, (forall w, In w ws -> In w (polygon_vertices ps) /\ D (rp w)) /\ course ps (rp s) (map rp ws ++ [z]) /\
    (run (rp s) (map rp ws ++ [z]) <= run (rp s) (l ++ [z]) + 2 * far (rp s) p)%R /\ seaward e (hd_pt ws z)).
  { intros c Hc E. exists (c :: w1). split; [|split; [|split]].
    - intros w [<-|I]; [|apply V1, I]. split; [|rewrite <- E; exact Dp]. destruct (edge_verts P e Ee) as [I1 I2]. apply in_polygon_vertices. destruct Hc as [ -> | -> ]; eauto.
    - cbn [map app course]. rewrite <- E. split; assumption.
    - cbn [map app run]. rewrite <- E. lra.
    - cbn [hd_pt]. rewrite <- E. apply seaward_on. }
  destruct (Req_dec h 0) as [H0|H0]; [apply (Edge (e1 e)); [auto|unfold p; rewrite H0; apply mix_0]|]. destruct (Req_dec h 1) as [H1|H1]; [apply (Edge (e2 e)); [auto|unfold p; rewrite H1; apply mix_1]|]. clear Edge.
  (* the first bend after the edge is on the sea side *)
  assert (Out : forall t, sails ps p t -> seaward e t).
  { intros t St. unfold seaward. destruct (Rle_or_lt (cross (minus (rp (e2 e)) (rp (e1 e))) (minus t (rp (e1 e)))) 0) as [K|K]; [exact K|exfalso].
    apply (ashore ps Nd Sk P e h p t HP Ee ltac:(lra) eq_refl); [|exact St].
    replace (cross (minus (rp (e2 e)) (rp (e1 e))) (minus t p)) with (cross (minus (rp (e2 e)) (rp (e1 e))) (minus t (rp (e1 e)))) by (unfold p, cross, minus, mix; cbn [X Y]; ring). exact K. }
  assert (Go : forall t, D t -> sails ps p t -> exists w2, (forall w, In w w2 -> In w (polygon_vertices ps) /\ D (rp w)) /\ course ps (rp s) (map rp w2 ++ [t]) /\
    (run (rp s) (map rp w2 ++ [t]) <= far (rp s) p + far p t)%R /\ seaward e (hd_pt w2 t)).
  { intros t Dt St. destruct (smoothed ps Nd Sk (fun q => D q /\ seaward e q)) with (l := [p]) (a := rp s) (z := t) as (w2 & V2 & C2 & R2).
    - intros q r k [A B] [A' B'] K. split; [apply Cv; assumption|apply seaward_mix; assumption].
    - cbn [app course]. auto.
    - auto.
    - split; [exact Dt|apply Out, St].
    - intros q [<-|[]]. split; [exact Dp|apply seaward_on].
    - exists w2. split; [intros w I; split; apply V2, I|]. split; [exact C2|]. split; [cbn [app run] in R2; lra|]. destruct w2 as [|w w2]; cbn [hd_pt]; [apply Out, St|apply (V2 w); left; reflexivity]. }
  destruct w1 as [|w w1]; cbn [map app course run] in C1, R1.
  - destruct C1 as [St _]. destruct (Go z Dz St) as (w2 & V2 & C2 & R2 & H2). exists w2. repeat (split; [assumption|]). split; [lra|exact H2].
  - destruct C1 as [St C1]. destruct (V1 w (or_introl eq_refl)) as [Vw Dw]. destruct (Go (rp w) Dw St) as (w2 & V2 & C2 & R2 & H2). exists (w2 ++ w :: w1). split; [|split; [|split]].
    + intros x I. apply in_app_or in I. destruct I as [I|I]; [apply V2, I|apply V1, I].
    + rewrite map_app, <- app_assoc. cbn [map app]. apply course_app. split; assumption.
    + rewrite map_app, <- app_assoc. cbn [map app]. rewrite run_app. lra.
    + destruct w2 as [|y w2]; exact H2.
Qed.
End Shore.

(** ** Between two endpoints *)
Definition lawful (edge : option segment) (v : coord) : Prop := forall e, edge = Some e -> turn (e1 e) (e2 e) v <= 0.
Lemma hd_rp ws d : hd_pt ws (rp d) = rp (hd d ws). Proof. destruct ws; reflexivity. Qed.
Lemma journey_rejoin roads u : forall l v t r, journey roads v l t r -> In u (v :: l) -> exists l1 l2 r2, v :: l = l1 ++ u :: l2 /\ journey roads u l2 t r2 /\ (r2 <= r)%R.
Proof.
  induction l as [|w l IH]; intros v t r J I.
  - destruct I as [<-|[]]. exists [], [], r. split; [reflexivity|]. split; [exact J|lra].
  - destruct I as [<-|I]; [exists [], (w :: l), r; split; [reflexivity|]; split; [exact J|lra]|].
    inversion J as [|u' v' f l' t' r' R J']; subst. destruct (IH w t r' J' I) as (l1 & l2 & r2 & E & J2 & L2). exists (v :: l1), l2, r2. rewrite E. split; [reflexivity|]. split; [exact J2|].
    pose proof (edge_length_pos f v w). lra.
Qed.
Lemma journey_loops roads u l t r : journey roads u l t r -> exists l' r', journey roads u l' t r' /\ (r' <= r)%R /\ incl l' l /\ NoDup (u :: l').
Proof.
  induction 1 as [u|u v f l t r R J IH].
  - exists [], 0%R. split; [constructor|]. split; [lra|]. split; [apply incl_refl|]. repeat constructor. intros [].
  - destruct IH as (l' & r' & J' & Le & In' & Du). pose proof (edge_length_pos f u v) as Ep. destruct (in_dec coord_dec u (v :: l')) as [I|I].
    + destruct (journey_rejoin roads u l' v t r' J' I) as (l1 & l2 & r2 & E & J2 & L2). exists l2, r2. split; [exact J2|]. split; [lra|]. split.
      * intros x Ix. assert (K : In x (v :: l')) by (rewrite E; apply in_or_app; right; right; exact Ix). destruct K as [<-|K]; [left; reflexivity|right; apply In', K].
      * rewrite E in Du. clear - Du. induction l1 as [|y l1 IH]; [exact Du|]. apply IH. inversion Du; assumption.
    + exists (v :: l'), (edge_length f u v + r')%R. split; [constructor; assumption|]. split; [lra|]. split; [|constructor; assumption]. intros x [<-|K]; [left; reflexivity|right; apply In', K].
Qed.

Section Ends.
Variable ps : list polygon.
Hypotheses (Ng : forall c, In c (polygon_vertices ps) -> ngeo c) (Nd : NoDup (polygon_vertices ps)) (Dr : drawn ps) (Vw : viewed ps).
Notation V := (polygon_vertices ps).
Lemma lw_sk : sketched ps. Proof. apply sketched_base, Dr. Qed.
Lemma start_ok (D : pt -> Prop) s edge delta l z : (forall p q h, D p -> D q -> (0 <= h <= 1)%R -> D (mix p q h)) -> beside ps s edge delta -> (forall p, (far (rp s) p <= delta)%R -> D p) ->
  course ps (rp s) (l ++ [z]) -> D z -> (forall q, In q l -> D q) ->
  exists ws, (forall w, In w ws -> In w V /\ D (rp w)) /\ course ps (rp s) (map rp ws ++ [z]) /\
    (run (rp s) (map rp ws ++ [z]) <= run (rp s) (l ++ [z]) + 2 * delta)%R /\ forall e, edge = Some e -> seaward e (hd_pt ws z).
Proof.
  intros Cv (D0 & Be) Dd Co Dz Dl. assert (Ds : D (rp s)) by (apply Dd; rewrite far_same; exact D0). destruct edge as [e|].
  - destruct (Be e eq_refl) as (Pe & Tu & h & H & Sa & Fa). destruct (put_out ps Nd lw_sk D Cv s e h l z Pe (proj2 (seaward_turn e s) Tu) H Sa Co Ds (Dd _ Fa) Dz Dl) as (ws & A & B & R & C).
    exists ws. split; [exact A|]. split; [exact B|]. split; [lra|]. intros e' E. injection E as <-. exact C.
  - destruct (smoothed ps Nd lw_sk D Cv l (rp s) z Co Ds Dz Dl) as (ws & A & B & R). exists ws. split; [exact A|]. split; [exact B|]. split; [lra|]. intros e' E. discriminate E.
Qed.
Variables (s d : coord) (es ed : option segment) (ds dd : R).
Hypotheses (Hs : at_sea ps s) (Hd : at_sea ps d) (Bs : beside ps s es ds) (Bd : beside ps d ed dd) (Bl : not_direct ps s d).
Lemma ends rho l : a_way ps rho s d l ->
  exists ws, (forall w, In w ws -> In w V /\ (apart s w <= rho + ds + dd)%R) /\ course ps (rp s) (map rp ws ++ [rp d]) /\
    (run (rp s) (map rp ws ++ [rp d]) <= run (rp s) (l ++ [rp d]) + 2 * ds + 2 * dd)%R /\ (In s V \/ lawful es (hd d ws)) /\ (In d V \/ lawful ed (hd s (rev ws))).
Proof.
  intros (Co & Wi). set (D := fun p => (far (rp s) p <= rho + ds + dd)%R). pose proof (proj1 Bs) as P1. pose proof (proj1 Bd) as P2.
  assert (Cv : forall p q h, D p -> D q -> (0 <= h <= 1)%R -> D (mix p q h)) by (intros p q h; apply disc_convex).
  assert (Fd : (far (rp s) (rp d) <= rho)%R) by (apply Wi, in_or_app; right; left; reflexivity). pose proof (far_pos (rp s) (rp d)) as F0.
  assert (Dl : forall q, In q l -> D q) by (intros q I; unfold D; pose proof (Wi q (in_or_app _ _ _ (or_introl I))); lra).
  assert (Ds : forall p, (far (rp s) p <= ds)%R -> D p) by (intros p H; unfold D; lra).
  assert (De : forall p, (far (rp d) p <= dd)%R -> D p) by (intros p H; unfold D; pose proof (far_triangle (rp s) (rp d) p); lra).
  assert (D1 : D (rp s)) by (apply Ds; rewrite far_same; exact P1). assert (D2 : D (rp d)) by (apply De; rewrite far_same; exact P2).
  assert (Vd : forall ws, (forall w, In w ws -> In w V /\ D (rp w)) -> forall w, In w ws -> In w V /\ (apart s w <= rho + ds + dd)%R) by (intros ws H w I; rewrite <- far_apart; apply H, I).
  destruct (in_dec coord_dec s V) as [Is|Is].
  - destruct (course_rev ps l _ _ Co) as [Cr Rr].
    destruct (start_ok D d ed dd (rev l) (rp s) Cv Bd De Cr D1 ltac:(intros q I; apply Dl, in_rev, I)) as (ws & A & B & R & C). destruct (course_rev ps _ _ _ B) as [B' R']. rewrite <- map_rev in B', R'.
    exists (rev ws). split; [apply Vd; intros w I; apply A, in_rev, I|]. split; [exact B'|]. split; [lra|]. split; [left; exact Is|]. right. rewrite rev_involutive. intros e E. specialize (C e E). rewrite hd_rp in C. apply seaward_turn, C.
  - destruct (start_ok D s es ds l (rp d) Cv Bs Ds Co D2 Dl) as (ws & A & B & R & C).
    destruct (in_dec coord_dec d V) as [Id|Id].
    + exists ws. split; [apply Vd, A|]. split; [exact B|]. split; [lra|]. split; [|left; exact Id]. right. intros e E. specialize (C e E). rewrite hd_rp in C. apply seaward_turn, C.
    + destruct ws as [|w ws]; [destruct B as [B _]; destruct Bl as [X|[X|X]]; contradiction|]. cbn [map app course run hd_pt] in B, R, C. destruct B as [Sw B]. destruct (course_rev ps _ _ _ B) as [Cr Rr].
      destruct (start_ok D d ed dd (rev (map rp ws)) (rp w) Cv Bd De Cr (proj2 (A w (or_introl eq_refl)))) as (w2 & A2 & B2 & R2 & C2).
      { intros q I. apply in_rev in I. apply in_map_iff in I. destruct I as (x & <- & I). apply A. right. exact I. }
      destruct (course_rev ps _ _ _ B2) as [B' R']. rewrite <- map_rev in B', R'. exists (w :: rev w2). split; [|split; [|split; [|split]]].
      * apply Vd. intros x [<-|I]; [apply A; left; reflexivity|apply A2, in_rev, I].
      * cbn [map app course]. auto.
      * cbn [map app run]. lra.
      * right. intros e E. apply seaward_turn, (C e E).
      * right. intros e E. specialize (C2 e E). rewrite hd_rp in C2. apply seaward_turn. cbn [rev]. rewrite rev_involutive. destruct w2; exact C2.
Qed.

(** *** Along the edges of the search graph *)
Variables (atan2 : Z -> Z -> f64) (ords' : coord -> orders) (g : graph).
Hypotheses (T : accurate_atan2 atan2) (Tg : true_graph ps g) (L' : forall v, library_orders (ords' v)).
Notation vis := (endpoint_vis atan2 ords' g).
Notation lc := (mkLC s d es ed).
Lemma road_inner u v : In u V -> In v V -> u <> v -> sails ps (rp u) (rp v) -> road g vis lc u v false.
Proof.
  intros U W N S. left. destruct Tg as (_ & _ & _ & _ & H). apply H. split; [exact U|]. split; [exact W|]. split; [exact N|]. cbn [linked_by]. apply sails_open; auto. apply vertex_fine; assumption.
Qed.
Lemma no_vertex c : ~ In c V -> has_vertex g c = false.
Proof. rewrite <- (co_has_vertex ps g (true_complete ps g Tg)). destruct (has_vertex g c); congruence. Qed.
Lemma sees_lawful edge delta c v : at_sea ps c -> ~ In c V -> beside ps c edge delta -> In v V -> lawful edge v -> sails ps (rp c) (rp v) -> sees vis edge c v.
Proof.
  intros Hc Nc (_ & Be) Iv La Sa. assert (Nv : c <> v) by (intros ->; contradiction). pose proof (sails_open ps Ng Nd Dr c v (sea_fine ps Ng Dr Vw c Hc) Iv Nv Sa) as O.
  destruct Hc as (Gc & [X|[Ov Ol]]); [contradiction|].
  destruct (proj2 (sees_exactly atan2 ords' ps g T Tg Dr L' c v Gc Ov Ol Nc) (conj Iv O)) as (pts & p & E & I & Ev & Ne & _). exists pts, p. repeat (split; [assumption|]).
  intros e Ee. destruct (Be e Ee) as (Pe & _). destruct (poly_edge ps e Pe) as (P & HP & Ep). destruct (edge_verts P e Ep) as [I1 I2].
  assert (G1 : ngeo (e1 e)) by (apply Ng, in_polygon_vertices; eauto). assert (G2 : ngeo (e2 e)) by (apply Ng, in_polygon_vertices; eauto). pose proof (Ng v Iv) as Gv.
  rewrite orientation_pt_ok; [|unfold pgeo_seg, pgeo, ngeo in *; lia..]. eexists. split; [reflexivity|]. specialize (La e Ee). destruct (turn (e1 e) (e2 e) v); [discriminate|lia|discriminate].
Qed.
Lemma road_out v : ~ In s V -> In v V -> lawful es v -> sails ps (rp s) (rp v) -> road g vis lc s v false.
Proof.
  intros N I La S. right. split; [reflexivity|]. left. split; [apply no_vertex, N|]. left. split; [reflexivity|]. eapply sees_lawful; eassumption.
Qed.
Lemma road_in v : ~ In d V -> In v V -> lawful ed v -> sails ps (rp v) (rp d) -> road g vis lc v d false.
Proof.
  intros N I La S. right. split; [reflexivity|]. right. split; [apply no_vertex, N|]. right. split; [reflexivity|]. cbn [lc_dest lc_dest_edge]. eapply sees_lawful; try eassumption. apply sails_flip, S.
Qed.
Lemma inner_legs : forall ws u, In u V -> (forall w, In w ws -> In w V) -> course ps (rp u) (map rp ws ++ [rp d]) -> In d V \/ lawful ed (hd u (rev ws)) ->
  exists l r, journey (road g vis lc) u l d r /\ (r <= run (rp u) (map rp ws ++ [rp d]))%R /\ incl l (ws ++ [d]).
Proof.
  induction ws as [|w ws IH]; intros u U W Co Le; cbn [map app course run] in *.
  - destruct Co as [S _]. rewrite far_apart. destruct (coord_dec u d) as [->|Nu].
    { exists [], 0%R. split; [constructor|]. split; [pose proof (apart_pos d d); lra|]. intros x []. }
    exists [d], (edge_length false u d + 0)%R. split; [|split; [cbn [edge_length]; lra|apply incl_refl]]. constructor; [|constructor]. destruct (in_dec coord_dec d V) as [Id|Id]; [apply road_inner; assumption|].
    apply road_in; [exact Id|exact U| |exact S]. destruct Le as [X|X]; [contradiction|exact X].
  - destruct Co as [S Co]. pose proof (W w (or_introl eq_refl)) as Iw. destruct (IH w Iw (fun x I => W x (or_intror I)) Co) as (l & r & J & Lr & In').
    { destruct Le as [X|X]; [left; exact X|right]. cbn [rev] in X. destruct (rev ws); exact X. }
    rewrite far_apart. destruct (coord_dec u w) as [->|Nu].
    + exists l, r. split; [exact J|]. split; [pose proof (apart_pos w w); lra|]. intros x I. right. apply In', I.
    + exists (w :: l), (edge_length false u w + r)%R. split; [constructor; [apply road_inner; assumption|exact J]|]. split; [cbn [edge_length]; lra|]. intros x [<-|I]; [left; reflexivity|right; apply In', I].
Qed.
Theorem way_journey rho l : a_way ps rho s d l ->
  exists l' r', journey (road g vis lc) s l' d r' /\ (r' <= run (rp s) (l ++ [rp d]) + 2 * ds + 2 * dd)%R /\ NoDup (s :: l') /\
    forall v, In v l' -> (In v V \/ v = d) /\ (apart s v <= rho + ds + dd)%R.
Proof.
  intros Wa. destruct (ends rho l Wa) as (ws & Hw & Co & Ru & L1 & L2).
  assert (Go : exists l r, journey (road g vis lc) s l d r /\ (r <= run (rp s) (map rp ws ++ [rp d]))%R /\ incl l (ws ++ [d])).
  { destruct (in_dec coord_dec s V) as [Is|Is]; [apply inner_legs; auto; intros w I; apply Hw, I|]. destruct L1 as [L1|L1]; [contradiction|].
    destruct ws as [|w ws]; cbn [map app course run hd] in *.
    - destruct Co as [S _]. assert (Id : In d V) by (destruct Bl as [X|[X|X]]; [contradiction|exact X|contradiction]).
      exists [d], (edge_length false s d + 0)%R. split; [constructor; [apply road_out; assumption|constructor]|]. split; [rewrite far_apart; cbn [edge_length]; lra|apply incl_refl].
    - destruct Co as [S Co]. pose proof (proj1 (Hw w (or_introl eq_refl))) as Iw. destruct (inner_legs ws w Iw (fun x I => proj1 (Hw x (or_intror I))) Co) as (l1 & r1 & J & Lr & In').
      { destruct L2 as [X|X]; [left; exact X|right]. cbn [rev] in X. destruct (rev ws); exact X. }
      exists (w :: l1), (edge_length false s w + r1)%R. split; [constructor; [apply road_out; assumption|exact J]|]. split; [rewrite far_apart; cbn [edge_length]; lra|].
      intros x [<-|I]; [left; reflexivity|right; apply In', I]. }
  destruct Go as (l1 & r1 & J1 & R1 & I1). destruct (journey_loops _ _ _ _ _ J1) as (l2 & r2 & J2 & R2 & I2 & D2). exists l2, r2. split; [exact J2|]. split; [lra|]. split; [exact D2|].
  intros v I. apply I2, I1, in_app_or in I. destruct I as [I|[<-|[]]]; [split; [left|]; apply Hw, I|]. split; [right; reflexivity|].
  destruct Wa as [_ Wi]. assert (K : (far (rp s) (rp d) <= rho)%R) by (apply Wi, in_or_app; right; left; reflexivity). rewrite far_apart in K. pose proof (proj1 Bs). pose proof (proj1 Bd). lra.
Qed.
(** every leg of the search is open *)
Theorem journey_open u l t r : journey (road g vis lc) u l t r -> sailed ps s d u l t r.
Proof.
  intros J. apply (journey_exact atan2 ords' ps g T Tg Dr L' s d Hs Hd). revert J. apply journey_ext. intros a b f [A|(F & K)]; [left; exact A|right]. split; [exact F|].
  assert (Se : forall c edge v, sees vis edge c v -> sees vis None c v) by (intros c edge v (pts & p & E & I & Ev & Ne & _); exists pts, p; repeat (split; [assumption|]); intros e X; discriminate X).
  assert (Es : forall c v, endpoint_edge g vis lc c v -> endpoint_edge g vis (mkLC s d None None) c v) by (intros c v (N & [[E X]|[E X]]); (split; [exact N|]); [left|right]; (split; [exact E|]); apply (Se _ _ _ X)).
  destruct K as [K|K]; [left|right]; apply Es, K.
Qed.
(** the first leg does not lead back over the line of the edge *)
Lemma first_leg l r : journey (road g vis lc) s l d r -> ~ In s V -> s <> d ->
  exists w l' r', l = w :: l' /\ In w V /\ lawful es w /\ (r = apart s w + r')%R /\ sailed ps s d w l' d r'.
Proof.
  clear Bl. intros J Ns Nd'. pose proof (journey_open _ _ _ _ J) as Sa. inversion J as [|u v f l' t r' R J']; subst; [contradiction|]. exists v, l', r'.
  assert (Iv : In v V) by (inversion Sa; subst; tauto). pose proof (journey_open _ _ _ _ J') as Sa'.
  assert (K : f = false /\ lawful es v).
  { destruct R as [An|(-> & [(_ & [[_ S]|[E _]])|(Nv & _)])].
    - destruct Tg as (_ & _ & _ & _ & H). apply H in An. destruct An as (A & _). contradiction.
    - split; [reflexivity|]. cbn [lc_source lc_source_edge] in S. intros e Ee. pose proof Bs as (_ & Be). destruct (Be e Ee) as (Pe & _). destruct (poly_edge ps e Pe) as (P & HP & Ep). destruct (edge_verts P e Ep) as [I1 I2].
      assert (G1 : ngeo (e1 e)) by (apply Ng, in_polygon_vertices; eauto). assert (G2 : ngeo (e2 e)) by (apply Ng, in_polygon_vertices; eauto). pose proof (Ng v Iv) as Gv.
      destruct S as (pts & p & _ & _ & _ & _ & O). destruct (O e Ee) as (o & Eo & No). rewrite orientation_pt_ok in Eo; [|unfold pgeo_seg, pgeo, ngeo in *; lia..]. injection Eo as <-.
      destruct (Z_le_gt_dec (turn (e1 e) (e2 e) v) 0) as [L|L]; [exact L|]. elim No. destruct (turn (e1 e) (e2 e) v); try lia. reflexivity.
    - cbn [lc_dest] in E. contradiction.
    - exfalso. pose proof (proj2 (co_has_vertex ps g (true_complete ps g Tg) v) Iv). congruence. }
  destruct K as [-> La]. auto 6.
Qed.
Lemma sailed_far u l t r : sailed ps s d u l t r -> ngeo u -> (cylinder u t <= r)%R /\ ngeo t.
Proof.
  assert (G : forall c, In c V \/ c = s \/ c = d -> ngeo c) by (intros c [C|[ -> | -> ]]; [apply Ng, C|apply Hs|apply Hd]).
  induction 1 as [u|u v l t r O Ne A B C H IH|u v k l t r K O No Ne A B H IH]; intros Gu.
  - split; [|exact Gu]. pose proof (proj2 (cylinder_zero u u Gu Gu) eq_refl). lra.
  - pose proof (G v B) as Gv. destruct (IH Gv) as [L Gt]. split; [|exact Gt]. pose proof (cylinder_triangle u v t Gu Gv Gt). pose proof (cylinder_edge false u v) as E. cbn [edge_length] in E. lra.
  - pose proof (Ng v B) as Gv. destruct (IH Gv) as [L Gt]. split; [|exact Gt]. pose proof (cylinder_triangle u v t Gu Gv Gt). pose proof (cylinder_edge true u v) as E. rewrite around_exact in E. lra.
Qed.
End Ends.

(** ** Queries *)
Section Query.
Variables (atan2 : Z -> Z -> f64) (ords' : coord -> orders) (ps : list polygon) (g : graph) (en : env) (source destination : coord) (lc : correction) (ds dd : R).
Hypotheses (T : accurate_atan2 atan2) (Tg : true_graph ps g) (Dr : drawn ps) (Vw : viewed ps) (Sq : shore_query atan2 ords' ps g en source destination lc).
Hypotheses (Bs : beside ps (lc_source lc) (lc_source_edge lc) ds) (Bd : beside ps (lc_dest lc) (lc_dest_edge lc) dd) (Bl : not_direct ps (lc_source lc) (lc_dest lc)).
Notation s := (lc_source lc).
Notation d := (lc_dest lc).
Lemma lq_ngeo c : In c (polygon_vertices ps) -> ngeo c. Proof. apply clear_ngeo, Tg. Qed.
Lemma lq_fit : fit_for_queries en g.
Proof.
  destruct Sq as (L & Ev & Rw & Ix & _). pose proof (true_complete ps g Tg) as Co. assert (B : built g) by apply Co.
  assert (G : forall c, In c (get_vertices g) -> ngeo c).
  { intros c C. apply (co_ngeo _ _ Co), (co_vertices _ _ Co). destruct B as (qs & h & _ & G). rewrite (built_vertices _ _ _ G) in C. rewrite (built_polys _ _ _ G). exact C. }
  split; [exact B|]. split; [exact G|]. split; [exact Rw|]. split; [|exact Ix]. rewrite Ev. apply endpoint_vis_answers; assumption.
Qed.
Lemma lq_way radius rho l : reaches radius (rho + ds + dd) -> a_way ps rho s d l ->
  exists l' r', journey (road g (en_vis en) lc) s l' d r' /\ (r' <= run (rp s) (l ++ [rp d]) + 2 * ds + 2 * dd)%R /\ Forall (within s radius) l' /\ (List.length (s :: l') <= List.length (polygon_vertices ps) + 2)%nat.
Proof.
  intros Re Wa. pose proof Sq as (L & Ev & _ & _ & _ & _ & _ & _ & Cs & Cd).
  destruct (way_journey ps lq_ngeo (proj1 (proj2 Tg)) Dr Vw s d (lc_source_edge lc) (lc_dest_edge lc) ds dd Cs Cd Bs Bd Bl atan2 ords' g T Tg L rho l Wa) as (l' & r' & J & Le & Du & All).
  exists l', r'. split; [rewrite Ev; destruct lc; exact J|]. split; [exact Le|]. split.
  - apply Forall_forall. intros v I. destruct (All v I) as [M A]. apply (reaches_within radius (rho + ds + dd)); [exact Re|apply Cs| |exact A]. destruct M as [M| ->]; [apply lq_ngeo, M|apply Cd].
  - replace (List.length (polygon_vertices ps) + 2)%nat with (List.length (s :: d :: polygon_vertices ps)) by (cbn [List.length]; lia). apply NoDup_incl_length; [exact Du|].
    intros v [<-|I]; [left; reflexivity|]. destruct (All v I) as [[M| ->] _]; cbn [In]; auto.
Qed.
Lemma lq_open u l t r : journey (road g (en_vis en) lc) u l t r -> sailed ps s d u l t r.
Proof.
  clear Bs Bd Bl. pose proof Sq as (L & Ev & _ & _ & _ & _ & _ & _ & Cs & Cd). rewrite Ev. intros J. apply (journey_open ps Dr s d (lc_source_edge lc) (lc_dest_edge lc) Cs Cd atan2 ords' g T Tg L). destruct lc; exact J.
Qed.
Lemma lq_size radius flag fuel path : shortest_path fuel en g source destination radius flag = Some (Ok path) -> (List.length path <= List.length (polygon_vertices ps) + 2)%nat.
Proof.
  intros E. pose proof Sq as (_ & _ & _ & _ & Ms & Md & Cor & Se & _).
  destruct (query_path en g source destination radius flag lq_fit Ms Md fuel path E) as (lc' & Cor' & [(Ns & _)|(_ & l & r & Ep & Du & J)]); rewrite (correction_unique _ _ _ _ _ Cor' Cor) in *; [contradiction|].
  apply lq_open in J. replace (List.length (polygon_vertices ps) + 2)%nat with (List.length (s :: d :: polygon_vertices ps)) by (cbn [List.length]; lia). apply NoDup_incl_length; [exact Du|]. rewrite Ep.
  intros v [<-|I]; [left; reflexivity|]. destruct (sailed_members ps s d _ _ _ _ J v I) as [M|[ -> | -> ]]; cbn [In]; auto.
Qed.
(** the path is as short as any way, but for going to the shore and back at either end *)
Theorem shore_best radius rho flag fuel path w : reaches radius (rho + ds + dd) -> Z.of_nat (List.length (polygon_vertices ps)) <= 999998 ->
  shortest_path fuel en g source destination radius flag = Some (Ok path) -> minimal w (en_pick en) -> is_finite w = true -> (Rabs (V w) <= bpow radix2 900)%R ->
  exists l r, path = s :: l /\ sailed ps s d s l d r /\
    forall l', a_way ps rho s d l' -> (r <= Rmax 1 (V w) * (run (rp s) (l' ++ [rp d]) + 2 * ds + 2 * dd) * (1 + / 2000000000))%R.
Proof.
  intros Re Sz E Mn Fw Bw. pose proof (lq_size radius flag fuel path E) as Sp. pose proof Sq as (_ & _ & _ & _ & Ms & Md & Cor & Se & _).
  destruct (query_optimal en g source destination radius flag lq_fit Ms Md fuel path _ w E Cor Se Mn Fw Bw) as (l & r & -> & J & O). exists l, r. split; [reflexivity|]. split; [apply lq_open, J|].
  intros l' Wa. destruct (lq_way radius rho l' Re Wa) as (l1 & r1 & J1 & L1 & W1 & N1). cbn [List.length] in N1, Sp.
  assert (K : (r <= Rmax 1 (V w) * r1 * (1 + / 2000000000))%R).
  { apply (rounding_factor r (Rmax 1 (V w)) r1 (List.length l) (List.length l1)); [eapply journey_pos; exact J|apply Rmax_l|eapply journey_pos; exact J1|lia|lia|]. apply O; assumption. }
  eapply Rle_trans; [exact K|]. apply Rmult_le_compat_r; [lra|]. apply Rmult_le_compat_l; [pose proof (Rmax_l 1 (V w)); lra|exact L1].
Qed.
(** with the land correction a path is found if there is a way, and if none is found there is no way *)
Theorem shore_found radius rho : reaches radius (rho + ds + dd) ->
  ((exists l, a_way ps rho s d l) -> exists n, forall fuel, (n <= fuel)%nat -> exists path, shortest_path fuel en g source destination radius true = Some (Ok path)) /\
  (forall fuel, shortest_path fuel en g source destination radius true = Some (Throw NoPath) -> ~ exists l, a_way ps rho s d l).
Proof.
  intros Re. pose proof Sq as (_ & _ & _ & _ & Ms & Md & Cor & Se & _).
  assert (No : forall fuel r, shortest_path fuel en g source destination radius true = Some r -> (exists l, a_way ps rho s d l) -> exists path, r = Ok path).
  { intros fuel r E (l & Wa). destruct (query_failure en g source destination radius true lq_fit Ms Md fuel lc r E Cor Se (or_introl eq_refl)) as [X|(_ & X)]; [exact X|exfalso].
    destruct (lq_way radius rho l Re Wa) as (l1 & r1 & J1 & L1 & W1 & _). apply X. exists l1, r1. auto. }
  split.
  - intros Wa. destruct (query_terminates en g source destination radius true lq_fit Ms Md) as (n & Te). exists n. intros fuel Lf. destruct (Te fuel Lf) as [T1 _].
    destruct (shortest_path fuel en g source destination radius true) as [r|] eqn:Q; [|congruence]. destruct (No fuel r Q Wa) as (path & ->). exists path. reflexivity.
  - intros fuel E Wa. destruct (No fuel _ E Wa) as (path & X). discriminate X.
Qed.
End Query.

(** ** From the shape file *)
(** the path is as short as any way, but for going to the shore and back at either end; or there is none, and there is no way *)
Definition shore_answer (ps : list polygon) (en : env) (lc : correction) (ds dd rho : R) (r : option (res (list pcoord))) : Prop :=
  (exists l t, r = Some (Ok (convert (lc_source lc :: l))) /\ sailed ps (lc_source lc) (lc_dest lc) (lc_source lc) l (lc_dest lc) t /\
     forall w, minimal w (en_pick en) -> is_finite w = true -> (Rabs (V w) <= bpow radix2 900)%R ->
       forall l', a_way ps rho (lc_source lc) (lc_dest lc) l' -> (t <= Rmax 1 (V w) * (run (rp (lc_source lc)) (l' ++ [rp (lc_dest lc)]) + 2 * ds + 2 * dd) * (1 + / 2000000000))%R) \/
  (r = Some (Throw NoPath) /\ ~ exists l, a_way ps rho (lc_source lc) (lc_dest lc) l).
Lemma shore_answers atan2 ords' ps g en c1 c2 source destination lc ds dd radius rho :
  accurate_atan2 atan2 -> true_graph ps g -> drawn ps -> viewed ps -> shore_query atan2 ords' ps g en source destination lc ->
  beside ps (lc_source lc) (lc_source_edge lc) ds -> beside ps (lc_dest lc) (lc_dest_edge lc) dd -> not_direct ps (lc_source lc) (lc_dest lc) -> reaches radius (rho + ds + dd) ->
  Z.of_nat (List.length (polygon_vertices ps)) <= 999998 -> vis_coord c1 = Ok source -> vis_coord c2 = Ok destination ->
  exists n, forall fuel, (n <= fuel)%nat -> shore_answer ps en lc ds dd rho (interpolate fuel en g c1 c2 radius true).
Proof.
  intros T Tg Dr Vw Sq Bs Bd Bl Re Sz E1 E2. pose proof Sq as (_ & _ & _ & _ & Ms & Md & Cor & Se & _).
  pose proof (lq_fit atan2 ords' ps g en source destination lc Tg Sq) as Fit.
  destruct (query_terminates en g source destination radius true Fit Ms Md) as (n & Te). exists n. intros fuel Lf. destruct (Te fuel Lf) as [T1 _].
  unfold interpolate. rewrite E1, E2. destruct (shortest_path fuel en g source destination radius true) as [r|] eqn:Q; [|congruence].
  destruct (query_failure en g source destination radius true Fit Ms Md fuel lc r Q Cor Se (or_introl eq_refl)) as [(path & ->)|(-> & _)].
  - left. destruct (query_success en g source destination radius true Fit Ms Md fuel lc path Q Cor Se) as (l & t & -> & J & _).
    pose proof (lq_open atan2 ords' ps g en source destination lc T Tg Dr Sq _ _ _ _ J) as A.
    exists l, t. split; [reflexivity|]. split; [exact A|]. intros w Mn Fw Bw l' Wa.
    destruct (shore_best atan2 ords' ps g en source destination lc ds dd T Tg Dr Vw Sq Bs Bd Bl radius rho true fuel _ w Re Sz Q Mn Fw Bw) as (l0 & t0 & X & A' & O). injection X as <-.
    replace t with t0 by exact (sailed_length _ _ _ _ _ _ _ _ A' A). exact (O l' Wa).
  - right. split; [reflexivity|]. exact (proj2 (shore_found atan2 ords' ps g en source destination lc ds dd T Tg Dr Vw Sq Bs Bd Bl radius rho Re) fuel Q).
Qed.
Definition answers_shores (atan2 : Z -> Z -> f64) (ps : list polygon) (limit : Z) (folder : path) (s : fs) : Prop :=
  exists g, load_graph_from_file limit (default_graph_path folder) s = Ok g /\
  forall ords en c1 c2 source destination lc ds dd radius rho,
    vis_coord c1 = Ok source -> vis_coord c2 = Ok destination -> shore_query atan2 ords ps g (en g) source destination lc ->
    beside ps (lc_source lc) (lc_source_edge lc) ds -> beside ps (lc_dest lc) (lc_dest_edge lc) dd -> not_direct ps (lc_source lc) (lc_dest lc) -> reaches radius (rho + ds + dd) ->
    exists n, forall fuel, (n <= fuel)%nat -> shore_answer ps (en g) lc ds dd rho (interpolate_cmd limit folder en fuel c1 c2 radius true s).
Lemma shores_folder atan2 shapes ps limit folder s : accurate_atan2 atan2 -> drawn_shapes shapes ps limit -> Z.of_nat (List.length (polygon_vertices ps)) <= 999998 ->
  answers_best atan2 ps limit folder s -> answers_shores atan2 ps limit folder s.
Proof.
  intros T ((_ & _ & _ & _ & _ & Vw & _) & Dr) Sz (g & E & Tg & _). exists g. split; [exact E|]. intros ords en c1 c2 source destination lc ds dd radius rho E1 E2 Qu Bs Bd Bl Re.
  destruct (shore_answers atan2 ords ps g (en g) c1 c2 source destination lc ds dd radius rho T Tg Dr Vw Qu Bs Bd Bl Re Sz E1 E2) as (n & H). exists n. intros fuel L. unfold interpolate_cmd. rewrite E. apply H, L.
Qed.
