(** The graph a query searches: the map graph plus the edges to the query's endpoints. *)
From Coq Require Import ZArith Bool List Lia Permutation.
From Verif Require Import Base F64 Coordinate Segment Polygon SpecGeom SpecGraph Graph GraphFacts GraphMore Overlay OverlayFacts Visgraph
  SegmentFacts Periodicity PeriodicityFacts Sweep SweepFacts SweepMaps SweepCases ShortestPath SearchFacts.
Import ListNotations.

(** ** What the search graph should be *)
(** [c] sees [v], and [v] is not behind the shore [edge] on which [c] lies *)
Definition sees (vis : vis_oracle) (edge : option segment) (c v : coord) : Prop :=
  exists points p, vis c = Ok points /\ In p points /\ v_coord p = v /\ v <> c /\
    forall shore, edge = Some shore -> exists o, orientation_of_point_to_segment shore v = Ok o /\ o <> COUNTER_CLOCKWISE.
(** [c] is an endpoint of the query that is not on the map, and it sees [v] *)
Definition endpoint_edge (g : graph) (vis : vis_oracle) (lc : correction) (c v : coord) : Prop :=
  has_vertex g c = false /\
  ((c = lc_source lc /\ sees vis (lc_source_edge lc) c v) \/ (c = lc_dest lc /\ sees vis (lc_dest_edge lc) c v)).
(** an edge from [u] to [v], which crosses the meridian or not *)
Definition road (g : graph) (vis : vis_oracle) (lc : correction) (u v : coord) (crossing : bool) : Prop :=
  answer g u v = Some crossing \/
  (crossing = false /\ (endpoint_edge g vis lc u v \/ endpoint_edge g vis lc v u)).

Definition row_orders (rows : coord -> list (coord * ninfo) -> list (coord * ninfo)) : Prop :=
  forall v l, Permutation (rows v l) l.

(** ** The map graph alone *)
Lemma base_joined g u v f : built g -> (joined (sg_of_graph g) u v /\ sg_crossing (sg_of_graph g) u v = Ok f <-> answer g u v = Some f).
Proof.
  intros B. split.
  - intros [(ns & E & I) C]. cbn [sg_of_graph sg_neighbors sg_crossing] in *.
    assert (Iu : In u (get_vertices g)).
    { destruct B as (ps & h & _ & G). rewrite (built_vertices _ _ _ G). destruct (in_dec coord_dec u (polygon_vertices ps)) as [K|K]; [exact K|].
      rewrite (proj2 (grun_neighbors ps h g u G) K) in E. discriminate E. }
    destruct (built_neighbors g u B Iu) as (l & E' & _ & H). rewrite E in E'. inversion E'; subst l.
    pose proof (proj1 (H v) I) as An. rewrite (built_crossing g u v B An) in C. inversion C; subst f. unfold flag_of. destruct (answer g u v); congruence.
  - intros A. destruct (answer_some_in g u v f B A) as (_ & Iu & _). destruct (built_neighbors g u B Iu) as (l & E & _ & H). split.
    + exists l. split; [exact E|]. apply H. congruence.
    + cbn [sg_of_graph sg_crossing]. rewrite (built_crossing g u v B) by congruence. unfold flag_of. rewrite A. reflexivity.
Qed.
Lemma base_usable g : built g -> (forall c, In c (get_vertices g) -> ngeo c) -> usable (sg_of_graph g) (get_vertices g).
Proof.
  intros B G u Iu. split; [auto|]. destruct (built_neighbors g u B Iu) as (l & E & _ & H). exists l. split; [exact E|].
  intros v Iv. apply H in Iv. destruct (answer g u v) as [f|] eqn:A; [|congruence]. split; [apply (answer_some_in g u v f B A)|].
  exists f. apply base_joined; assumption.
Qed.

(** ** The overlay *)
Section Over.
Variables (g : graph) (ps : list polygon) (hb : list gop).
Hypotheses (Un : Forall undirected hb) (G : grun (make_graph ps) hb = Ok g).

(** exactly the pairs in [L] were added *)
Definition holds (m : mgraph) (L : coord -> coord -> Prop) : Prop :=
  (exists h, m = mrun (make_mgraph g) h) /\ m_base m = g /\
  forall a b, (L a b /\ m_entry m a b = Some (mkN false true)) \/ (~ L a b /\ m_entry m a b = None).

Lemma mrun_snoc m h o : mrun m (h ++ [o]) = fst (mstep (mrun m h) o).
Proof. unfold mrun. rewrite fold_left_app. reflexivity. Qed.

Lemma holds_vertex m L c : holds m L -> holds (fst (m_add_vertex m c)) L.
Proof.
  intros ((h & Eh) & B & H). split; [|split].
  - exists (h ++ [MVertex c]). rewrite mrun_snoc, <- Eh. reflexivity.
  - unfold m_add_vertex. cbn [fst]. destruct (m_has_vertex m c); [exact B|cbn [m_base]; exact B].
  - intros a b. replace (m_entry (fst (m_add_vertex m c)) a b) with (m_entry m a b); [apply H|].
    unfold m_add_vertex, m_has_vertex. cbn [fst]. destruct (has_vertex (m_base m) c); [reflexivity|cbn [orb]].
    unfold m_entry. destruct (assoc c (m_nb m)) as [r|] eqn:Ec; [reflexivity|]. cbn [m_nb]. rewrite assoc_put.
    destruct (coord_eqb c a) eqn:C; [|reflexivity]. apply coord_eqb_spec in C. subst a. rewrite Ec. reflexivity.
Qed.

Lemma add_directed_pairs m L a b f m' : m_base m = g ->
  (forall x y, (L x y /\ m_entry m x y = Some (mkN false true)) \/ (~ L x y /\ m_entry m x y = None)) ->
  ~ In a (polygon_vertices ps) \/ ~ In b (polygon_vertices ps) -> m_add_directed_edge m a b f = (m', Ok tt) ->
  m_base m' = g /\
  forall x y, ((L x y \/ (a <> b /\ x = a /\ y = b)) /\ m_entry m' x y = Some (mkN false true)) \/
              (~ (L x y \/ (a <> b /\ x = a /\ y = b)) /\ m_entry m' x y = None).
Proof.
  intros B H N. unfold m_add_directed_edge. destruct (coord_eqb a b) eqn:Eab.
  { apply coord_eqb_spec in Eab. intros E. inversion E; subst m'. split; [exact B|]. intros x y.
    destruct (H x y) as [[K1 K2]|[K1 K2]]; [left|right]; (split; [|exact K2]); [left; exact K1|]. intros [K|(K & _)]; [auto|congruence]. }
  apply coord_eqb_neq in Eab.
  assert (Fin : forall i, i = mkN false true -> let m2 := m_set (m_touch m a) a b i in m_base m2 = g /\
    forall x y, ((L x y \/ (a <> b /\ x = a /\ y = b)) /\ m_entry m2 x y = Some (mkN false true)) \/
                (~ (L x y \/ (a <> b /\ x = a /\ y = b)) /\ m_entry m2 x y = None)).
  { intros i ->. cbv zeta. split; [cbn [m_set m_base]; rewrite base_touch; exact B|]. intros x y. rewrite entry_set, entry_touch.
    destruct (same x y a b) eqn:S; [apply same_spec in S; destruct S; subst; left; auto|].
    assert (Ns : ~ (x = a /\ y = b)) by (intros K; apply same_spec in K; congruence).
    destruct (H x y) as [[K1 K2]|[K1 K2]]; [left; auto|]. right. split; [|exact K2]. tauto. }
  rewrite entry_touch. destruct (H a b) as [[_ ->]|[_ ->]].
  - cbn [n_cross]. rewrite andb_false_r. intros E. inversion E; subst m'. apply Fin. reflexivity.
  - destruct f.
    + rewrite base_touch, B. destruct (grun_queries ps hb g G a b) as (_ & Q & _). destruct (Q Eab N) as [-> _]. cbn [bind].
      intros E. discriminate E.
    + intros E. inversion E; subst m'. apply Fin. reflexivity.
Qed.

Lemma holds_edge m L a b f m' : holds m L -> ~ In a (polygon_vertices ps) -> m_add_edge m a b f = (m', Ok tt) ->
  holds m' (fun x y => L x y \/ (a <> b /\ ((x = a /\ y = b) \/ (x = b /\ y = a)))).
Proof.
  intros ((h & Eh) & B & H) N E. pose proof E as E0. unfold m_add_edge, mthen in E.
  destruct (m_add_directed_edge m a b f) as [m1 r] eqn:E1. cbn [fst snd] in E.
  assert (r = Ok tt) as -> by (destruct r as [[]| |]; [reflexivity|inversion E..]).
  destruct (add_directed_pairs m L a b f m1 B H (or_introl N) E1) as [B1 H1].
  destruct (add_directed_pairs m1 _ b a f m' B1 H1 (or_intror N) E) as [B2 H2].
  split; [|split; [exact B2|]].
  - exists (h ++ [MEdge (GAdd a b f)]). rewrite mrun_snoc, <- Eh. cbn [mstep]. rewrite E0. reflexivity.
  - intros x y. destruct (H2 x y) as [[K1 K2]|[K1 K2]]; [left|right]; (split; [|exact K2]).
    { destruct K1 as [[K1|K1]|(K0 & K1)]; [left; exact K1|right; tauto|right; split; [congruence|right; exact K1]]. }
    intros K. apply K1.
    destruct K as [K|(Nab & [K|K])]; [auto|auto|right; split; [congruence|exact K]].
Qed.

Variable vis : vis_oracle.
(** the shore test of [connect_endpoint] *)
Definition kept (edge : option segment) (v : coord) : Prop :=
  forall shore, edge = Some shore -> exists o, orientation_of_point_to_segment shore v = Ok o /\ o <> COUNTER_CLOCKWISE.

Lemma connect_holds edge c p m L m' : holds m L -> ~ In c (polygon_vertices ps) -> connect_endpoint edge c m p = Ok m' ->
  (kept edge (v_coord p) /\ holds m' (fun x y => L x y \/ (c <> v_coord p /\ ((x = c /\ y = v_coord p) \/ (x = v_coord p /\ y = c))))) \/
  (~ kept edge (v_coord p) /\ m' = m).
Proof.
  intros H N E. unfold connect_endpoint in E.
  assert (K : exists b : bool, match edge with None => Ok true | Some sh => o <- orientation_of_point_to_segment sh (v_coord p) ;; Ok (negb (orientation_eqb o COUNTER_CLOCKWISE)) end = Ok b /\
     (b = true -> kept edge (v_coord p)) /\ (b = false -> ~ kept edge (v_coord p))).
  { destruct edge as [sh|].
    - destruct (orientation_of_point_to_segment sh (v_coord p)) as [o|e|u] eqn:Eo; cbn [bind] in *; [|discriminate E..].
      eexists. split; [reflexivity|]. split.
      + intros Hb shore Es. inversion Es; subst shore. exists o. split; [exact Eo|]. intros ->. discriminate Hb.
      + intros Hb K. destruct (K sh eq_refl) as (o' & Eo' & No). rewrite Eo in Eo'. inversion Eo'; subst o'. destruct o; try discriminate Hb. congruence.
    - exists true. split; [reflexivity|]. split; [intros _ shore Es; discriminate Es|intros Hb; discriminate Hb]. }
  destruct K as (b & Eb & Kt & Kf). rewrite Eb in E. cbn [bind] in E. destruct b.
  - left. split; [auto|]. destruct (m_add_edge m c (v_coord p) (v_across p)) as [m1 [[]|e|u]] eqn:Ea; [|discriminate E..]. inversion E; subst m1.
    exact (holds_edge m L c (v_coord p) _ m' H N Ea).
  - right. split; [auto|]. inversion E. reflexivity.
Qed.

Lemma holds_ext m L L' : (forall x y, L x y <-> L' x y) -> holds m L -> holds m L'.
Proof.
  intros X (A & B & H). split; [exact A|]. split; [exact B|]. intros x y.
  destruct (H x y) as [[K1 K2]|[K1 K2]]; [left|right]; (split; [|exact K2]); [apply X; exact K1|]. intros K. apply K1, X, K.
Qed.

Lemma points_holds edge c points : forall m L m', holds m L -> ~ In c (polygon_vertices ps) ->
  foldM (connect_endpoint edge c) points m = Ok m' ->
  holds m' (fun x y => L x y \/ exists p, In p points /\ kept edge (v_coord p) /\ c <> v_coord p /\
                                 ((x = c /\ y = v_coord p) \/ (x = v_coord p /\ y = c))).
Proof.
  induction points as [|p points IH]; intros m L m' H N E; cbn [foldM] in E.
  - inversion E; subst m'. revert H. apply holds_ext. intros x y. split; [auto|]. intros [K|(p & [] & _)]. exact K.
  - destruct (connect_endpoint edge c m p) as [m1| |] eqn:E1; cbn [bind] in E; [|discriminate E..].
    destruct (connect_holds edge c p m L m1 H N E1) as [[Kp H1]|[Kp ->]].
    + generalize (IH m1 _ m' H1 N E). apply holds_ext. intros x y. split.
      * intros [[K|K]|(q & Iq & K)]; [left; exact K|right; exists p; split; [left; reflexivity|tauto]|right; exists q; split; [right; exact Iq|exact K]].
      * intros [K|(q & [<-|Iq] & K)]; [left; left; exact K|left; right; tauto|right; exists q; auto].
    + generalize (IH m _ m' H N E). apply holds_ext. intros x y. split.
      * intros [K|(q & Iq & K)]; [left; exact K|right; exists q; split; [right; exact Iq|exact K]].
      * intros [K|(q & [<-|Iq] & K)]; [left; exact K|tauto|right; exists q; auto].
Qed.

Lemma endpoint_holds c edge m L m' : holds m L -> add_endpoint vis g m (c, edge) = Ok m' ->
  holds m' (fun x y => L x y \/ (has_vertex g c = false /\
                                 ((x = c /\ sees vis edge c y) \/ (y = c /\ sees vis edge c x)))).
Proof.
  intros H. unfold add_endpoint. cbn [fst snd]. destruct (has_vertex g c) eqn:Hc.
  { intros E. inversion E; subst m'. revert H. apply holds_ext. intros x y. split; [auto|]. intros [K|[K _]]; [exact K|discriminate K]. }
  assert (Nc : ~ In c (polygon_vertices ps)) by (intros K; apply (hv ps hb g G) in K; congruence).
  destruct (vis c) as [points| |] eqn:Ev; cbn [bind]; [|intros E; discriminate E..]. intros E.
  generalize (points_holds edge c points _ L m' (holds_vertex m L c H) Nc E). apply holds_ext. intros x y. split.
  - intros [K|(p & Ip & Kp & Np & [[-> ->]|[-> ->]])]; [left; exact K|right; split; [reflexivity|left]|right; split; [reflexivity|right]];
      (split; [reflexivity|]); exists points, p; (split; [exact Ev|]); (split; [exact Ip|]); (split; [reflexivity|]); (split; [congruence|exact Kp]).
  - intros [K|[_ [[-> K]|[-> K]]]]; [left; exact K|right|right]; destruct K as (points' & p & Ev' & Ip & Ep & Np & Kp);
      rewrite Ev in Ev'; inversion Ev'; subst points'; subst; exists p; (split; [exact Ip|]); (split; [exact Kp|]); (split; [congruence|tauto]).
Qed.

Variables (rows : coord -> list (coord * ninfo) -> list (coord * ninfo)) (lc : correction).
Hypothesis Rw : row_orders rows.

Lemma overlay_joined m L u v f : holds m L -> (forall a b, L a b -> ~ In a (polygon_vertices ps) \/ ~ In b (polygon_vertices ps)) ->
  (joined (sg_of_overlay rows m) u v /\ sg_crossing (sg_of_overlay rows m) u v = Ok f <-> answer g u v = Some f \/ (f = false /\ L u v)).
Proof.
  intros ((h & Eh) & B & H) Out. assert (Bg : built g) by (exists ps, hb; auto).
  destruct (overlay_neighbors ps hb g h u (rows u (match assoc u (m_nb m) with Some row => row | None => [] end)) Un G) as (l & El & Hl & _).
  { rewrite <- Eh. intros row Er. rewrite Er. apply Rw. }
  rewrite <- Eh in El, Hl.
  assert (J : joined (sg_of_overlay rows m) u v <-> m_has_edge m u v = Ok true).
  { unfold joined. cbn [sg_of_overlay sg_neighbors]. rewrite El. split; [intros (ns & En & I); inversion En; subst ns; apply Hl, I|]. intros K. exists l. split; [reflexivity|apply Hl, K]. }
  rewrite J. cbn [sg_of_overlay sg_crossing]. unfold m_has_edge, m_is_edge_meridian_crossing. rewrite B.
  destruct (H u v) as [[K ->]|[K ->]]; cbn [n_present n_cross].
  - assert (A : answer g u v = None) by (apply (answer_unknown ps hb g u v G), Out, K). rewrite A. split.
    + intros [_ C]. inversion C. auto.
    + intros [C|[-> _]]; [discriminate C|auto].
  - unfold answer. split.
    + intros [-> ->]. auto.
    + intros [A|[_ C]]; [|contradiction]. destruct (has_edge g u v) as [[|]|e|e]; try discriminate A.
      destruct (is_edge_meridian_crossing g u v); try discriminate A. inversion A; subst. auto.
Qed.
Lemma overlay_lists m L u : holds m L -> exists ns, sg_neighbors (sg_of_overlay rows m) u = Ok ns /\
  forall v, In v ns -> exists f, sg_crossing (sg_of_overlay rows m) u v = Ok f.
Proof.
  intros ((h & Eh) & B & H). 
  destruct (overlay_neighbors ps hb g h u (rows u (match assoc u (m_nb m) with Some row => row | None => [] end)) Un G) as (l & El & Hl & _).
  { rewrite <- Eh. intros row Er. rewrite Er. apply Rw. }
  rewrite <- Eh in El, Hl. exists l. split; [exact El|]. intros v I. apply Hl in I.
  cbn [sg_of_overlay sg_crossing]. unfold m_has_edge, m_is_edge_meridian_crossing in *. rewrite B in *.
  destruct (m_entry m u v) as [i|]; [exists (n_cross i); reflexivity|].
  assert (Bg : built g) by (exists ps, hb; auto). destruct (coord_dec u v) as [->|N].
  - destruct (grun_queries ps hb g G v v) as (_ & _ & Q). destruct (Q eq_refl) as [_ ->]. eauto.
  - destruct (grun_queries ps hb g G u v) as (Q1 & Q2 & _).
    destruct (in_dec coord_dec u (polygon_vertices ps)) as [Ku|Ku], (in_dec coord_dec v (polygon_vertices ps)) as [Kv|Kv];
      [destruct (Q1 N Ku Kv) as [_ ->]; eauto|..]; (rewrite (proj1 (Q2 N ltac:(tauto))) in I; discriminate I).
Qed.

Definition query_vertices : list coord :=
  polygon_vertices ps ++ [lc_source lc; lc_dest lc] ++
  flat_map (fun c => match vis c with Ok points => map v_coord points | _ => [] end) [lc_source lc; lc_dest lc].

Lemma start_holds : holds (make_mgraph g) (fun _ _ => False).
Proof. split; [exists []; reflexivity|]. split; [reflexivity|]. intros a b. right. auto. Qed.

Lemma sees_seen edge c v : sees vis edge c v -> In v (match vis c with Ok points => map v_coord points | _ => [] end).
Proof. intros (points & p & -> & I & <- & _). apply in_map. exact I. Qed.

Lemma created_overlay sg : (forall c, In c query_vertices -> ngeo c) ->
  (m <- foldM (add_endpoint vis g) [(lc_source lc, lc_source_edge lc); (lc_dest lc, lc_dest_edge lc)] (make_mgraph g) ;;
   Ok (sg_of_overlay rows m)) = Ok sg ->
  exists dom, usable sg dom /\ In (lc_source lc) dom /\
  forall u v f, joined sg u v /\ sg_crossing sg u v = Ok f <-> road g vis lc u v f.
Proof.
  intros Ge. assert (Bg : built g) by (exists ps, hb; auto).
  cbn [foldM]. destruct (add_endpoint vis g (make_mgraph g) _) as [m1| |] eqn:E1; cbn [bind]; [|intros E; discriminate E..].
  destruct (add_endpoint vis g m1 _) as [m2| |] eqn:E2; cbn [bind]; [|intros E; discriminate E..]. intros E. inversion E; subst sg. clear E.
  apply (endpoint_holds _ _ _ _ _ start_holds) in E1. apply (endpoint_holds _ _ _ _ _ E1) in E2. clear E1.
  match type of E2 with holds _ ?L => set (L0 := L) in * end.
  assert (Road : forall u v, L0 u v <-> endpoint_edge g vis lc u v \/ endpoint_edge g vis lc v u) by (intros u v; unfold L0, endpoint_edge; split; [intros [[[]|(A & [[-> B]|[-> B]])]|(A & [[-> B]|[-> B]])]; tauto|intros [(A & [[-> B]|[-> B]])|(A & [[-> B]|[-> B]])]; tauto]).
  assert (Out : forall a b, L0 a b -> ~ In a (polygon_vertices ps) \/ ~ In b (polygon_vertices ps)).
  { intros a b K. apply Road in K. destruct K as [[K _]|[K _]]; [left|right]; intros I; apply (hv ps hb g G) in I; congruence. }
  exists query_vertices. split; [|split].
  + intros u Iu. split; [auto|]. destruct (overlay_lists m2 L0 u E2) as (ns & En & Hn). exists ns. split; [exact En|]. intros v Iv.
    destruct (Hn v Iv) as (f & Ef). split; [|exists f; exact Ef].
    destruct (proj1 (overlay_joined m2 L0 u v f E2 Out) (conj (ex_intro _ ns (conj En Iv)) Ef)) as [A|[_ K]].
    * destruct (answer_some_in g u v f Bg A) as (_ & _ & Iv'). rewrite (built_vertices _ _ _ G) in Iv'. apply in_or_app. left. exact Iv'.
    * apply Road in K. unfold query_vertices. apply in_or_app. right. destruct K as [(_ & [[-> K]|[-> K]])|(_ & [[-> K]|[-> K]])].
      -- apply in_or_app. right. cbn [flat_map]. apply in_or_app. left. exact (sees_seen _ _ _ K).
      -- apply in_or_app. right. cbn [flat_map]. apply in_or_app. right. apply in_or_app. left. exact (sees_seen _ _ _ K).
      -- apply in_or_app. left. left. reflexivity.
      -- apply in_or_app. left. right. left. reflexivity.
  + unfold query_vertices. apply in_or_app. right. left. reflexivity.
  + intros u v f. rewrite (overlay_joined m2 L0 u v f E2 Out). unfold road. rewrite Road. reflexivity.
Qed.

Lemma created_graph sg : (forall c, In c query_vertices -> ngeo c) -> create_modified_graph vis rows g lc = Ok sg ->
  exists dom, usable sg dom /\ In (lc_source lc) dom /\
  forall u v f, joined sg u v /\ sg_crossing sg u v = Ok f <-> road g vis lc u v f.
Proof.
  intros Ge. unfold create_modified_graph. assert (Bg : built g) by (exists ps, hb; auto).
  destruct (has_vertex g (lc_source lc)) eqn:Hs; [destruct (has_vertex g (lc_dest lc)) eqn:Hd|]; cbn [andb].
  - intros E. inversion E; subst sg. exists (get_vertices g). rewrite (built_vertices _ _ _ G) in *. split; [|split].
    + rewrite <- (built_vertices _ _ _ G). apply base_usable; [exact Bg|]. intros c I. rewrite (built_vertices _ _ _ G) in I. apply Ge, in_or_app. left. exact I.
    + apply (hv ps hb g G). exact Hs.
    + intros u v f. rewrite (base_joined g u v f Bg). split; [intros A; left; exact A|].
      intros [A|(_ & [(K & [[-> _]|[-> _]])|(K & [[-> _]|[-> _]])])]; [exact A|congruence..].
  - apply created_overlay. exact Ge.
  - apply created_overlay. exact Ge.
Qed.
End Over.
