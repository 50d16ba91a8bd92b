(** Generation with the modelled sweep, open edges as a map, half scans. *)
From Coq Require Import ZArith Reals Bool List Lia Permutation Sorted.
From Verif Require Import Base F64 Coordinate Segment Polyline Polygon Periodicity Graph Visgraph SpecGeom SpecGraph F64Facts
  CoordinateFacts SegmentFacts PeriodicityFacts PolygonFacts PolygonMore PolylineFacts GraphFacts GraphMore VisgraphFacts Sweep SweepFacts SweepMaps.
Import ListNotations.
Local Open Scope Z_scope.

(** ** Copies *)
Definition copy_of (v c : coord) : Prop :=
  exists d, (d = 0 \/ d = 360000001 \/ d = -360000001) /\ c = mkC (lon v + d) (lat v).

Lemma copy_facts v c : ngeo v -> copy_of v c -> pgeo c /\ normalize_coord c = Ok v /\ lat c = lat v.
Proof.
  intros [V1 V2] (d & D & ->). split; [split; cbn [lon lat]; lia|]. split; [|reflexivity].
  apply normalize_shift; [lia|exact D].
Qed.

Lemma mapM_in {A B} (f : A -> res B) l r y : mapM f l = Ok r -> In y r -> exists x, In x l /\ f x = Ok y.
Proof.
  revert r. induction l as [|x l IH]; intros r E I; cbn [mapM] in E.
  - inversion E; subst. destruct I.
  - destruct (f x) as [b| |] eqn:F; cbn [bind] in E; try discriminate E.
    destruct (mapM f l) as [bs| |]; cbn [bind] in E; try discriminate E. inversion E; subst.
    destruct I as [->|I]; [exists x; split; [left; reflexivity|exact F]|].
    destruct (IH bs eq_refl I) as (x' & X & Fx). exists x'. split; [right; exact X|exact Fx].
Qed.

Lemma made_incl vs p : Forall pgeo vs -> make_polygon vs = Ok p -> incl (verts p) vs.
Proof.
  intros F E. rewrite make_polygon_pure in E by exact F. inversion E; subst. cbn [verts].
  destruct (normalize_cases (cyc vs)) as [-> | ->]; [apply cyc_incl|]. intros x X. apply in_rev in X. apply cyc_incl, X.
Qed.

Lemma periodic_vertices ps : (forall c, In c (polygon_vertices ps) -> ngeo c) ->
  exists pps, make_polygons_periodic ps = Ok pps /\
    forall c, In c (polygon_vertices pps) -> exists v, In v (polygon_vertices ps) /\ copy_of v c.
Proof.
  intros G. unfold make_polygons_periodic.
  assert (One : forall p, In p ps -> exists qs, periodic_polygon p = Ok qs /\
    forall q c, In q qs -> In c (verts q) -> exists v, In v (polygon_vertices ps) /\ copy_of v c).
  { intros p P. assert (Gp : forall c, In c (verts p) -> ngeo c) by (intros c C; apply G, in_polygon_vertices; eauto).
    unfold periodic_polygon.
    rewrite (mapM_map_ok periodic_coordinates (fun c => [c; mkC (lon c + 360000001) (lat c); mkC (lon c - 360000001) (lat c)])).
    2:{ intros x X. apply periodic_coordinates_ok. destruct (Gp x X). lia. }
    cbn [bind]. set (copies := fun c => [c; mkC (lon c + 360000001) (lat c); mkC (lon c - 360000001) (lat c)]).
    set (row := fun i => map (fun l => nth i l origin) (map copies (verts p))).
    assert (Rw : forall i, In i (seq 0 3) -> forall c, In c (row i) -> exists v, In v (verts p) /\ copy_of v c).
    { intros i I c C. unfold row in C. rewrite map_map in C. apply in_map_iff in C. destruct C as (v & <- & V). exists v. split; [exact V|].
      cbn [seq In] in I. destruct I as [<-|[<-|[<-|[]]]]; unfold copies; cbn [nth].
      - exists 0. split; [auto|]. destruct v as [x y]. cbn [lon lat]. f_equal; lia.
      - exists 360000001. auto.
      - exists (-360000001). auto. }
    assert (Rg : forall i, In i (seq 0 3) -> Forall pgeo (row i)).
    { intros i I. apply Forall_forall. intros c C. destruct (Rw i I c C) as (v & V & K). apply (copy_facts v c (Gp v V) K). }
    destruct (mapM_total (fun i => make_polygon (row i)) (seq 0 3)) as (qs & Q).
    { intros i I. rewrite make_polygon_pure by (apply Rg, I). eauto. }
    exists qs. split; [exact Q|]. intros q c Hq C. destruct (mapM_in _ _ _ _ Q Hq) as (i & I & M).
    apply (made_incl _ _ (Rg i I) M) in C. destruct (Rw i I c C) as (v & V & K). exists v. split; [|exact K].
    apply in_polygon_vertices. eauto. }
  destruct (mapM_total periodic_polygon ps) as (r & R); [intros p P; destruct (One p P) as (qs & Q & _); eauto|].
  rewrite R. cbn [bind]. exists (concat r). split; [reflexivity|]. intros c C. apply in_polygon_vertices in C.
  destruct C as (q & Hq & C). apply in_concat in Hq. destruct Hq as (qs & Hqs & Hq).
  destruct (mapM_in _ _ _ _ R Hqs) as (p & P & Ep). destruct (One p P) as (qs' & Q & H). rewrite Ep in Q. inversion Q; subst qs'.
  eapply H; eassumption.
Qed.

(** what generation sees from a vertex: copies of polygon vertices, normalised *)
Lemma periodic_sees atan2 ord ps o : library_orders ord -> (forall c, In c (polygon_vertices ps) -> ngeo c) -> pgeo o ->
  exists xs, vis_periodic atan2 ord ps o = Ok xs /\
    forall x, In x xs -> In (v_coord x) (polygon_vertices ps) /\
      exists c, copy_of (v_coord x) c /\ c <> o /\ v_across x = over_meridian c.
Proof.
  intros L G O. destruct (periodic_vertices ps G) as (pps & E & C). unfold vis_periodic. rewrite E. cbn [bind].
  assert (Gp : forall c, In c (polygon_vertices pps) -> pgeo c).
  { intros c I. destruct (C c I) as (v & V & K). apply (copy_facts v c (G v V) K). }
  destruct (get_visible_ok atan2 ord pps o true L O Gp) as (res & seen & R & _ & Iv & S & No & F & _).
  exists res. split; [exact R|]. intros x X. destruct (Forall2_in_r _ _ _ _ F X) as (c & Ic & Nc & Ac).
  assert (Iv' : In c (polygon_vertices pps)).
  { apply Iv. clear - S Ic. revert Ic. generalize dependent (visit_order atan2 ord pps o). intros l S Ic.
    assert (In c (scanned (init_vec o) o true l)).
    { clear - S Ic. induction S; [destruct Ic| |]; [destruct Ic; [left|right]; auto|right; auto]. }
    clear - H. induction l as [|y l IH]; [destruct H|]. cbn [scanned] in H. destruct (ahead _ _ _ y); [|destruct H].
    destruct H; [left|right]; auto. }
  destruct (C c Iv') as (v & V & K). destruct (copy_facts v c (G v V) K) as (_ & N & _). rewrite N in Nc. inversion Nc as [Ev].
  rewrite <- Ev. split; [exact V|]. exists c. split; [exact K|]. split; [|exact Ac]. intros ->. contradiction.
Qed.

Lemma periodic_reports atan2 ords ps : (forall v, library_orders (ords v)) -> (forall c, In c (polygon_vertices ps) -> ngeo c) ->
  reports ps (fun v => vis_periodic atan2 (ords v) ps v).
Proof.
  intros L G v V. destruct (periodic_sees atan2 (ords v) ps v (L v) G (ngeo_pgeo v (G v V))) as (xs & E & H).
  exists xs. split; [exact E|]. intros x X. apply (H x X).
Qed.

Theorem generation_total atan2 ords ps : (forall v, library_orders (ords v)) -> (forall c, In c (polygon_vertices ps) -> ngeo c) ->
  let vis := fun v => vis_periodic atan2 (ords v) ps v in
  exists g, generate vis ps = Ok g /\
    (forall calls, Permutation calls (flat_map (vertex_calls vis) (polygon_vertices ps)) -> parallel_generate ps calls = Ok g) /\
    (forall a b, has_edge g a b = Ok true -> In a (polygon_vertices ps) /\ In b (polygon_vertices ps) /\ a <> b) /\
    (forall a b u, has_edge g a b <> UB u).
Proof.
  intros L G vis. pose proof (periodic_reports atan2 ords ps L G) as R. fold vis in R.
  destruct (schedule_total ps vis R) as (g & E & S & _). exists g. split; [exact E|]. split; [exact S|].
  destruct (generate_ok ps vis R) as (g' & E' & Gr). rewrite E in E'. inversion E'; subst g'.
  assert (Q := grun_queries ps _ g Gr).
  split.
  - intros a b H. destruct (Q a b) as (Q1 & Q2 & Q3). destruct (coord_dec a b) as [->|N]; [destruct (Q3 eq_refl); congruence|].
    destruct (in_dec coord_dec a (polygon_vertices ps)) as [A|A]; [|destruct (Q2 N (or_introl A)); congruence].
    destruct (in_dec coord_dec b (polygon_vertices ps)) as [B|B]; [auto|destruct (Q2 N (or_intror B)); congruence].
  - intros a b u H. destruct (Q a b) as (Q1 & Q2 & Q3). destruct (coord_dec a b) as [->|N]; [destruct (Q3 eq_refl); congruence|].
    destruct (in_dec coord_dec a (polygon_vertices ps)) as [A|A]; [|destruct (Q2 N (or_introl A)); congruence].
    destruct (in_dec coord_dec b (polygon_vertices ps)) as [B|B]; [destruct (Q1 N A B); congruence|destruct (Q2 N (or_intror B)); congruence].
Qed.

(** ** Insertion sort is a sort *)
Fixpoint insert_by (less : coord -> coord -> bool) (x : coord) (l : list coord) : list coord :=
  match l with [] => [x] | y :: l' => if less x y then x :: l else y :: insert_by less x l' end.
Definition isort (less : coord -> coord -> bool) (l : list coord) : list coord := fold_right (insert_by less) [] l.
Definition plain_orders : orders := mkO (fun l => l) (fun l => l) isort.

Lemma insert_perm less x l : Permutation (insert_by less x l) (x :: l).
Proof.
  induction l as [|y l IH]; cbn [insert_by]; [reflexivity|]. destruct (less x y); [reflexivity|].
  rewrite IH. apply perm_swap.
Qed.
Lemma isort_perm less l : Permutation (isort less l) l.
Proof. induction l as [|x l IH]; [reflexivity|]. cbn [isort fold_right]. fold (isort less l). rewrite insert_perm. constructor. exact IH. Qed.

Definition later_not (less : coord -> coord -> bool) (a : coord) (b : coord) : Prop := less b a = false.
Lemma sorted_strong less l : sorted_by less l <-> StronglySorted (later_not less) l.
Proof.
  split.
  - induction l as [|a l IH]; intros H; [constructor|]. constructor.
    + apply IH. intros l1 x l2 y l3 E. apply (H (a :: l1) x l2 y l3). rewrite E. reflexivity.
    + apply Forall_forall. intros b B. apply in_split in B. destruct B as (l2 & l3 & ->). exact (H [] a l2 b l3 eq_refl).
  - intros S l1. revert l S. induction l1 as [|c l1 IH]; intros l S a l2 b l3 E; subst l; cbn [app] in S; inversion S; subst.
    + rewrite Forall_forall in H2. apply H2. apply in_or_app. right. left. reflexivity.
    + eapply IH; [eassumption|reflexivity].
Qed.

Lemma insert_sorted less x l : NoDup (x :: l) -> swo_on less (x :: l) -> StronglySorted (later_not less) l ->
  StronglySorted (later_not less) (insert_by less x l).
Proof.
  induction l as [|y l IH]; intros N (As & Tr & Ic) S; cbn [insert_by]; [repeat constructor|].
  inversion S as [|? ? Sl Fy]; subst. inversion N as [|? ? Nx Nl]; subst.
  destruct (less x y) eqn:E.
  - constructor; [exact S|]. constructor.
    + apply As; auto; [left; reflexivity|right; left; reflexivity|]. intros ->. apply Nx. left. reflexivity.
    + rewrite Forall_forall in *. intros z Z. unfold later_not. destruct (less z x) eqn:F; [|reflexivity].
      assert (less z y = true) by (apply (Tr z x y); auto; [right; right; exact Z|left; reflexivity|right; left; reflexivity]).
      rewrite (Fy z Z) in H. discriminate H.
  - constructor.
    + apply IH; [|split; [|split]|exact Sl].
      * inversion Nl; subst. constructor; [intros X; apply Nx; right; exact X|assumption].
      * intros a b A B. apply As; cbn [In] in *; tauto.
      * intros a b c A B C. apply Tr; cbn [In] in *; tauto.
      * intros a b c A B C. apply Ic; cbn [In] in *; tauto.
    + apply Forall_forall. intros z Z. apply (Permutation_in _ (insert_perm less x l)) in Z. destruct Z as [<-|Z]; [exact E|].
      rewrite Forall_forall in Fy. apply Fy, Z.
Qed.
Lemma isort_sorted less l : NoDup l -> swo_on less l -> sorted_by less (isort less l).
Proof.
  intros N S. apply sorted_strong. induction l as [|x l IH]; [constructor|]. cbn [isort fold_right]. fold (isort less l).
  inversion N; subst. assert (S' : swo_on less l).
  { destruct S as (As & Tr & Ic). split; [|split].
    - intros a b A B. apply As; right; assumption.
    - intros a b c A B C. apply Tr; right; assumption.
    - intros a b c A B C. apply Ic; right; assumption. }
  pose proof (isort_perm less l) as P.
  apply insert_sorted; [|destruct S as (As & Tr & Ic); split; [|split]|apply IH; assumption].
  - constructor; [intros X; apply (Permutation_in _ P) in X; contradiction|eapply Permutation_NoDup; [apply Permutation_sym, P|assumption]].
  - assert (K : forall a, In a (x :: isort less l) -> In a (x :: l)) by (intros a [A|A]; [left; exact A|right; apply (Permutation_in _ P), A]). auto.
  - assert (K : forall a, In a (x :: isort less l) -> In a (x :: l)) by (intros a [A|A]; [left; exact A|right; apply (Permutation_in _ P), A]).
    intros a b c A B C. apply Tr; auto.
  - assert (K : forall a, In a (x :: isort less l) -> In a (x :: l)) by (intros a [A|A]; [left; exact A|right; apply (Permutation_in _ P), A]).
    intros a b c A B C. apply Ic; auto.
Qed.
Lemma plain_orders_ok : library_orders plain_orders.
Proof. split; [reflexivity|]. split; [reflexivity|]. split; [apply isort_perm|apply isort_sorted]. Qed.

(** ** Half scans *)
Lemma half_prefix m init o : forall vs oe r, sweep m init o true vs oe = Ok r ->
  (forall v, In v vs -> pgeo v) -> pgeo o -> coord_i32 init ->
  sweep m init o false (scanned init o true vs) oe = Ok r.
Proof.
  induction vs as [|v vs IH]; intros oe r E V O I; [exact E|]. cbn [sweep scanned] in *.
  specialize (fun oe r E => IH oe r E (fun x X => V x (or_intror X)) O I).
  destruct (coord_eqb o v) eqn:C.
  - unfold ahead. rewrite C. cbn [orb sweep]. rewrite C. auto.
  - assert (N : v <> o) by (intros ->; rewrite coord_eqb_refl in C; discriminate C).
    rewrite past_half_ok in E by (try assumption; apply V; left; reflexivity). cbn [bind] in E.
    destruct (ahead init o true v); cbn [negb] in E; [|exact E]. cbn [sweep]. rewrite C. cbn [past_half bind].
    destruct (vm_at m v); cbn [bind] in *; try discriminate E.
    destruct (orientation_segments _ _ CLOCKWISE); cbn [bind] in *; try discriminate E.
    destruct (orientation_segments _ _ COUNTER_CLOCKWISE); cbn [bind] in *; try discriminate E. cbv zeta in *.
    destruct (is_vertex_visible _ _ _ _) as [b| |]; cbn [bind] in *; try discriminate E.
    destruct (if b then normalize_coord v else Ok v); cbn [bind] in *; try discriminate E.
    destruct (add_segments _ _ _ _) as [oe2| |]; cbn [bind] in *; try discriminate E.
    destruct (sweep m init o true vs oe2) as [rest| |] eqn:Es; cbn [bind] in E; try discriminate E.
    rewrite (IH oe2 rest Es). cbn [bind]. exact E.
Qed.

Lemma full_app m init o : forall l1 l2 oe r, sweep m init o false (l1 ++ l2) oe = Ok r ->
  exists r1 r2 oe2, sweep m init o false l1 oe = Ok r1 /\ sweep m init o false l2 oe2 = Ok r2 /\ r = r1 ++ r2.
Proof.
  induction l1 as [|v l1 IH]; intros l2 oe r E; [exists [], r, oe; split; [reflexivity|split; [exact E|reflexivity]]|]. cbn [app sweep] in *.
  destruct (coord_eqb o v); [apply (IH l2 oe r E)|]. cbn [past_half bind] in *.
  destruct (vm_at m v); cbn [bind] in *; try discriminate E.
  destruct (orientation_segments _ _ CLOCKWISE); cbn [bind] in *; try discriminate E.
  destruct (orientation_segments _ _ COUNTER_CLOCKWISE); cbn [bind] in *; try discriminate E. cbv zeta in *.
  destruct (is_vertex_visible _ _ _ _) as [b| |]; cbn [bind] in *; try discriminate E.
  destruct (if b then normalize_coord v else Ok v); cbn [bind] in *; try discriminate E.
  destruct (add_segments _ _ _ _) as [oe2| |]; cbn [bind] in *; try discriminate E.
  destruct (sweep m init o false (l1 ++ l2) oe2) as [rest| |] eqn:Es; cbn [bind] in E; try discriminate E.
  destruct (IH l2 oe2 rest Es) as (r1 & r2 & oe3 & -> & E2 & ->). cbn [bind]. destruct b; inversion E; subst.
  - eexists; exists r2, oe3; split; [reflexivity|]. split; [exact E2|reflexivity].
  - exists r1, r2, oe3. auto.
Qed.

Lemma scanned_app init o vs : exists rest, vs = scanned init o true vs ++ rest.
Proof.
  induction vs as [|v vs (rest & IH)]; [exists []; reflexivity|]. cbn [scanned]. destruct (ahead init o true v); [|exists (v :: vs); reflexivity].
  exists rest. cbn [app]. f_equal. exact IH.
Qed.
Lemma scanned_full init o vs : scanned init o false vs = vs.
Proof. induction vs as [|v vs IH]; [reflexivity|]. cbn [scanned]. unfold ahead. cbn [negb]. rewrite orb_true_r. cbn [orb]. f_equal. exact IH. Qed.

(** for observers west of the sweep's end the half scan looks at the latitude *)
Lemma ahead_lat o v : lon o < 540000001 -> ahead (init_vec o) o true v = true <-> lat o <= lat v.
Proof.
  intros L. unfold ahead, init_vec, det. cbn [lon lat negb orb]. destruct (coord_eqb o v) eqn:E; cbn [orb].
  - apply coord_eqb_spec in E. subst. split; [lia|reflexivity].
  - rewrite orb_false_r || idtac. rewrite Z.leb_le. split; nia.
Qed.

Lemma subseq_empty {A} (l : list A) : subseq [] l.
Proof. induction l; [constructor|apply subseq_drop; assumption]. Qed.
(** whatever a sweep returns, it reports a subsequence of the vertices it was given *)
Lemma sweep_reports m init o half : forall vs oe r, sweep m init o half vs oe = Ok r ->
  exists seen, subseq seen vs /\ ~ In o seen /\ Forall2 reports_as seen r.
Proof.
  induction vs as [|v vs IH]; intros oe r E.
  { inversion E; subst. exists []. split; [constructor|]. split; [intros []|constructor]. }
  cbn [sweep] in E. destruct (coord_eqb o v) eqn:C.
  { destruct (IH oe r E) as (seen & S & N & F). exists seen. split; [apply subseq_drop, S|]. auto. }
  destruct (past_half half init o v) as [st| |]; cbn [bind] in E; try discriminate E.
  destruct st; [inversion E; subst; exists []; split; [apply subseq_empty|split; [intros []|constructor]]|].
  destruct (vm_at m v); cbn [bind] in *; try discriminate E.
  destruct (orientation_segments _ _ CLOCKWISE); cbn [bind] in *; try discriminate E.
  destruct (orientation_segments _ _ COUNTER_CLOCKWISE); cbn [bind] in *; try discriminate E. cbv zeta in *.
  destruct (is_vertex_visible _ _ _ _) as [b| |]; cbn [bind] in *; try discriminate E.
  destruct (if b then normalize_coord v else Ok v) as [n| |] eqn:En; cbn [bind] in *; try discriminate E.
  destruct (add_segments _ _ _ _) as [oe2| |]; cbn [bind] in *; try discriminate E.
  destruct (sweep m init o half vs oe2) as [rest| |] eqn:Es; cbn [bind] in E; try discriminate E.
  destruct (IH oe2 rest Es) as (seen & S & N & F). destruct b; inversion E; subst.
  - exists (v :: seen). split; [apply subseq_take, S|]. split.
    + intros [X|X]; [subst v; rewrite coord_eqb_refl in C; discriminate C|contradiction].
    + constructor; [split; [exact En|reflexivity]|exact F].
  - exists seen. split; [apply subseq_drop, S|]. auto.
Qed.

(** the half scan's result is the full scan's result up to there *)
Theorem half_is_prefix atan2 ord ps o r : library_orders ord -> pgeo o -> (forall c, In c (polygon_vertices ps) -> pgeo c) ->
  get_visible_vertices atan2 ord (vistree_of_polygons ps) o true = Ok r ->
  exists r2 rest seen2, get_visible_vertices atan2 ord (vistree_of_polygons ps) o false = Ok (r ++ r2) /\
    visit_order atan2 ord ps o = scanned (init_vec o) o true (visit_order atan2 ord ps o) ++ rest /\
    subseq seen2 rest /\ ~ In o seen2 /\ Forall2 reports_as seen2 r2.
Proof.
  intros L O G E. destruct (get_visible_ok atan2 ord ps o false L O G) as (rf & seen & Ef & _ & Iv & _).
  rewrite Ef. clear seen. revert E Ef.
  unfold get_visible_vertices, visible_from, vistree_of_polygons. cbn [vt_map vt_segments].
  destruct (incident_map ps) as [|kv m'] eqn:Em; [|].
  { intros E Ef; inversion E; inversion Ef. exists [], [], []. rewrite app_nil_r. split; [reflexivity|].
    assert (V0 : visit_order atan2 ord ps o = []).
    { pose proof (visit_perm atan2 ord ps o L) as P. rewrite Em in P. apply Permutation_nil, Permutation_sym, P. }
    rewrite V0. split; [reflexivity|]. split; [constructor|]. split; [intros []|constructor]. }
  rewrite <- Em in *. clear Em kv m'. destruct (incident_map_good ps) as [_ Kv].
  rewrite sort_total; [|exact O|intros v V; apply G, Kv; apply (Permutation_in _ (proj1 L _)) in V; exact V].
  cbn [bind]. fold (visit_order atan2 ord ps o). destruct (init_ok o O) as [-> Ii]. cbn [bind].
  destruct (initial_edges _ _) as [oe| |]; cbn [bind]; try discriminate. intros E Ef.
  apply half_prefix in E; [|intros v V; apply G, Iv, V|exact O|exact Ii].
  destruct (scanned_app (init_vec o) o (visit_order atan2 ord ps o)) as (rest & Er). rewrite Er in Ef.
  destruct (full_app _ _ _ _ _ _ _ Ef) as (r1 & r2 & oe2 & E1 & E2 & ->). rewrite E in E1. inversion E1; subst.
  destruct (sweep_reports _ _ _ _ _ _ _ E2) as (seen2 & S2 & N2 & F2). exists r2, rest, seen2. auto.
Qed.
