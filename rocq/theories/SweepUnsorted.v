(** A map on which the comparison of the angular sort is no strict weak order around one vertex, for
    every accurate atan2, and what a standard library may make of it: the half scan from that vertex
    ends at once, and generation never considers its pairs with the vertices above. *)
From Coq Require Import ZArith Reals Bool List Lia Permutation.
From Verif Require Import Base F64 Coordinate Segment Polyline Polygon Periodicity PeriodicityFacts Graph Visgraph VisgraphFacts SpecGeom SpecGraph CoordinateFacts PolylineFacts
  PolygonMore GraphFacts GraphMore Sweep SweepFacts SweepMaps SweepGen AngleFacts AngleSort SweepHalf SweepGeo SweepGraph SweepLayers SweepWorld BlockedLegs.
Import ListNotations.
Local Open Scope Z_scope.

(** ** A sort that gives up on what is no strict weak order *)
Definition swo_b (less : coord -> coord -> bool) (l : list coord) : bool :=
  forallb (fun a => forallb (fun b => (coord_eqb a b || negb (less a b) || negb (less b a)) &&
    forallb (fun c => (negb (less a b) || negb (less b c) || less a c) &&
      (coord_eqb a b || coord_eqb b c || coord_eqb a c || less a b || less b a || less b c || less c b || negb (less a c))) l) l) l.
Lemma swo_b_ok less l : swo_on less l -> swo_b less l = true.
Proof.
  intros (H1 & H2 & H3). unfold swo_b. apply forallb_forall. intros a A. apply forallb_forall. intros b B. apply andb_true_iff. split.
  - destruct (coord_eqb a b) eqn:E; [reflexivity|]. destruct (less a b) eqn:L; [|reflexivity]. rewrite (H1 a b A B); [reflexivity| |exact L]. intros ->. rewrite coord_eqb_refl in E. discriminate E.
  - apply forallb_forall. intros c C. apply andb_true_iff. split.
    + destruct (less a b) eqn:L1; [|reflexivity]. destruct (less b c) eqn:L2; [|reflexivity]. rewrite (H2 a b c A B C L1 L2). reflexivity.
    + destruct (coord_eqb a b) eqn:E1; [reflexivity|]. destruct (coord_eqb b c) eqn:E2; [reflexivity|]. destruct (coord_eqb a c) eqn:E3; [reflexivity|].
      destruct (less a b) eqn:L1; [reflexivity|]. destruct (less b a) eqn:L2; [reflexivity|]. destruct (less b c) eqn:L3; [reflexivity|]. destruct (less c b) eqn:L4; [reflexivity|].
      rewrite (H3 a b c A B C); try assumption; [reflexivity|..]; intros ->; rewrite coord_eqb_refl in *; discriminate.
Qed.
Lemma swo_b_on less l : swo_b less l = true -> swo_on less l.
Proof.
  unfold swo_b. rewrite forallb_forall. intros H.
  assert (K : forall a b, In a l -> In b l -> (coord_eqb a b || negb (less a b) || negb (less b a)) = true /\
    forall c, In c l -> (negb (less a b) || negb (less b c) || less a c) = true /\
      (coord_eqb a b || coord_eqb b c || coord_eqb a c || less a b || less b a || less b c || less c b || negb (less a c)) = true).
  { intros a b A B. specialize (H a A). rewrite forallb_forall in H. specialize (H b B). apply andb_true_iff in H. destruct H as [H1 H2]. split; [exact H1|].
    intros c C. rewrite forallb_forall in H2. apply andb_true_iff, H2, C. }
  clear H. split; [|split].
  - intros a b A B N L. destruct (K a b A B) as [X _]. rewrite (proj2 (coord_eqb_neq _ _) N), L in X. cbn in X. destruct (less b a); [discriminate X|reflexivity].
  - intros a b c A B C L1 L2. destruct (K a b A B) as [_ X]. destruct (X c C) as [Y _]. rewrite L1, L2 in Y. exact Y.
  - intros a b c A B C N1 N2 N3 L1 L2 L3 L4. destruct (K a b A B) as [_ X]. destruct (X c C) as [_ Y].
    rewrite (proj2 (coord_eqb_neq _ _) N1), (proj2 (coord_eqb_neq _ _) N2), (proj2 (coord_eqb_neq _ _) N3), L1, L2, L3, L4 in Y. cbn in Y. destruct (less a c); [discriminate Y|reflexivity].
Qed.

Definition low (c : coord) : bool := lat c <? -80000000.
Definition loose_sort (less : coord -> coord -> bool) (l : list coord) : list coord :=
  if swo_b less l then isort less l else filter low l ++ filter (fun c => negb (low c)) l.
Definition loose_orders : orders := mkO (fun l => l) (fun l => l) loose_sort.
Lemma split_perm {A} (f : A -> bool) l : Permutation (filter f l ++ filter (fun c => negb (f c)) l) l.
Proof.
  induction l as [|x l IH]; [reflexivity|]. cbn [filter]. destruct (f x); cbn [negb app]; [constructor; exact IH|].
  eapply perm_trans; [apply Permutation_sym, Permutation_middle|]. constructor. exact IH.
Qed.
Lemma loose_orders_ok : library_orders loose_orders.
Proof.
  split; [reflexivity|]. split; [reflexivity|]. cbn [loose_orders o_sort]. split.
  - intros less l. unfold loose_sort. destruct (swo_b less l); [apply isort_perm|apply split_perm].
  - intros less l N W. unfold loose_sort. rewrite (swo_b_ok _ _ W). apply isort_sorted; assumption.
Qed.

(** ** The map: slivers which end in the near points, and a triangle with the observer *)
Definition home (c : coord) : coord := if lon c <? -180000000 then mkC (lon c + 360000001) (lat c) else c.
Definition sliver_at (i k : nat) : polygon :=
  let a := home (near_point i k) in let b := home (near_point (S i) k) in mkP [a; mkC (lon a) (lat a + 1000000); b].
Definition upper_end : coord := mkC 170000000 (-70000000).
Definition lower_end : coord := mkC 170000000 (-85000000).
Definition tie_map : list polygon :=
  mkP [near_observer; upper_end; lower_end] :: flat_map (fun k => map (fun i => sliver_at (2 * i) k) (seq 0 4)) (seq 0 7).

Definition separate_b (P Q : polygon) : bool :=
  existsb (disjoint_b P Q) (flat_map (fun v => [(1, 0, - lon v); (-1, 0, lon v)]) (verts P)).
Lemma separate_b_ok P Q : separate_b P Q = true -> disjoint P Q.
Proof. unfold separate_b. rewrite existsb_exists. intros (l & _ & H). exact (disjoint_b_ok P Q l H). Qed.
Fixpoint apart_b (ps : list polygon) : bool := match ps with [] => true | P :: ps' => forallb (separate_b P) ps' && apart_b ps' end.
Lemma apart_b_ok ps : apart_b ps = true -> ForallOrdPairs disjoint ps.
Proof.
  induction ps as [|P ps IH]; [constructor|]. cbn [apart_b]. rewrite andb_true_iff, forallb_forall. intros [H1 H2]. constructor; [|apply IH, H2].
  apply Forall_forall. intros Q HQ. apply separate_b_ok, H1, HQ.
Qed.
Lemma coords_eqb_ok l l' : (length l =? length l')%nat = true -> forallb (fun p => coord_eqb (fst p) (snd p)) (combine l l') = true -> l = l'.
Proof.
  revert l'. induction l as [|x l IH]; intros [|y l']; cbn; try discriminate; [reflexivity|]. intros H. rewrite andb_true_iff, coord_eqb_spec. intros [-> E]. f_equal. apply IH; assumption.
Qed.
Definition kept_b (P : polygon) : bool :=
  match make_polygon (verts P) with Ok Q => (length (verts Q) =? length (verts P))%nat && forallb (fun p => coord_eqb (fst p) (snd p)) (combine (verts Q) (verts P)) | _ => false end.
Lemma kept_b_ok P : kept_b P = true -> make_polygon (verts P) = Ok P.
Proof.
  unfold kept_b. destruct (make_polygon (verts P)) as [Q| |]; try discriminate. rewrite andb_true_iff. intros [H1 H2].
  pose proof (coords_eqb_ok _ _ H1 H2) as E. destruct P as [p], Q as [q]. cbn [verts] in E. subst. reflexivity.
Qed.

Lemma tie_map_facts : Forall clear_polygon tie_map /\ Forall (convex 1) tie_map /\ NoDup (polygon_vertices tie_map) /\ ForallOrdPairs disjoint tie_map.
Proof.
  assert (C1 : forallb fair_b tie_map = true) by (vm_compute; reflexivity).
  assert (C2 : forallb kept_b tie_map = true) by (vm_compute; reflexivity).
  assert (C3 : forallb (convex_b 1) tie_map = true) by (vm_compute; reflexivity).
  assert (C4 : nodup_b (polygon_vertices tie_map) = true) by (vm_compute; reflexivity).
  assert (C5 : apart_b tie_map = true) by (vm_compute; reflexivity).
  rewrite forallb_forall in C1, C2, C3.
  split; [apply Forall_forall; intros P HP; apply fair_b_ok; [apply C1, HP|apply kept_b_ok, C2, HP]|].
  split; [apply Forall_forall; intros P HP; apply convex_b_ok, C3, HP|]. split; [apply nodup_b_ok, C4|apply apart_b_ok, C5].
Qed.
Lemma tie_map_ngeo c : In c (polygon_vertices tie_map) -> ngeo c.
Proof.
  intros I. apply in_polygon_vertices in I. destruct I as (P & HP & I). destruct tie_map_facts as (F & _). rewrite Forall_forall in F.
  destruct (clear_polygon_facts P (F P HP)) as (X & _). rewrite Forall_forall in X. apply X, I.
Qed.
Lemma tie_copies_pgeo c : In c (polygon_vertices (map_copies tie_map)) -> pgeo c.
Proof.
  intros C. apply copies_vertices in C. destruct C as (v & k & V & K & ->). apply (copy_facts v _ (tie_map_ngeo v V) (copy_of_wrap v k K)).
Qed.
Lemma near_in_map c : In c near_points -> In c (polygon_vertices (map_copies tie_map)).
Proof.
  assert (C : forallb (fun c => existsb (coord_eqb c) (polygon_vertices (map_copies tie_map))) near_points = true) by (vm_compute; reflexivity).
  rewrite forallb_forall in C. intros I. specialize (C c I). apply existsb_exists in C. destruct C as (d & D & E). apply coord_eqb_spec in E. subst d. exact D.
Qed.

(** ** No strict weak order *)
Lemma tie_not_weak atan2 l : accurate_atan2 atan2 -> (forall c, In c (polygon_vertices (map_copies tie_map)) -> In c l) -> swo_b (less_b atan2 near_observer) l = false.
Proof.
  intros T I. destruct (swo_b _ l) eqn:E; [exfalso|reflexivity]. apply swo_b_on in E. destruct E as (_ & _ & H).
  destruct (near_ties atan2 T) as (a & a' & b & A & A' & B & _ & _ & _ & _ & _ & _ & _ & N1 & N2 & N3 & _ & _ & E1 & E2 & E3 & E4 & E5).
  assert (X : less_b atan2 near_observer a a' = false).
  { apply (H a b a'); try (apply I, near_in_map; assumption); try congruence; unfold less_b; first [rewrite E1|rewrite E2|rewrite E3|rewrite E4]; reflexivity. }
  unfold less_b in X. rewrite E5 in X. discriminate X.
Qed.

(** ** What the scans report *)
Lemma low_first atan2 o : swo_b (less_b atan2 o) (map fst (incident_map (map_copies tie_map))) = false ->
  exists v rest, visit_order atan2 loose_orders (map_copies tie_map) o = v :: rest /\ lat v < -80000000.
Proof.
  intros E. unfold visit_order. cbn [loose_orders o_sort o_vertices]. unfold loose_sort. rewrite E.
  destruct (filter low (map fst (incident_map (map_copies tie_map)))) as [|v rest] eqn:F; [exfalso|].
  - assert (X : In lower_end (filter low (map fst (incident_map (map_copies tie_map))))); [|rewrite F in X; destruct X].
    apply filter_In. split; [|reflexivity]. apply (incident_map_good (map_copies tie_map)). apply copies_vertices. exists lower_end, 0.
    split; [right; right; left; reflexivity|]. split; [lia|]. symmetry. apply wrap_0.
  - exists v, (rest ++ filter (fun c => negb (low c)) (map fst (incident_map (map_copies tie_map)))). split; [reflexivity|].
    assert (X : In v (filter low (map fst (incident_map (map_copies tie_map))))) by (rewrite F; left; reflexivity).
    apply filter_In in X. destruct X as [_ X]. apply Z.ltb_lt, X.
Qed.
Lemma low_stops atan2 o : swo_b (less_b atan2 o) (map fst (incident_map (map_copies tie_map))) = false -> pgeo o -> lon o < 540000001 -> -80000000 <= lat o ->
  get_visible_vertices atan2 loose_orders (vistree_of_polygons (map_copies tie_map)) o true = Ok [].
Proof.
  intros E O Lo La. destruct (low_first atan2 o E) as (v & rest & V & Lv).
  destruct (get_visible_ok atan2 loose_orders (map_copies tie_map) o true loose_orders_ok O tie_copies_pgeo) as (res & seen & R & _ & _ & S & _ & F & _).
  rewrite V in S. cbn [scanned] in S. destruct (ahead (init_vec o) o true v) eqn:A; [apply (ahead_lat o v Lo) in A; lia|].
  inversion S; subst. inversion F; subst. exact R.
Qed.
Lemma tie_vis atan2 o : vis_periodic atan2 loose_orders tie_map o = get_visible_vertices atan2 loose_orders (vistree_of_polygons (map_copies tie_map)) o true.
Proof. unfold vis_periodic. rewrite (periodic_polygons_ok tie_map (proj1 tie_map_facts)). cbn [bind]. rewrite copies_translates. reflexivity. Qed.
Lemma observer_sees_none atan2 : accurate_atan2 atan2 -> vis_periodic atan2 loose_orders tie_map near_observer = Ok [].
Proof.
  intros T. rewrite tie_vis. apply low_stops; [|unfold pgeo, near_observer; cbn [lon lat]; lia|unfold near_observer; cbn [lon]; lia|unfold near_observer; cbn [lat]; lia].
  apply tie_not_weak; [exact T|]. intros c C. apply (incident_map_good (map_copies tie_map)), C.
Qed.
(** no vertex above the observer reports it *)
Lemma unseen_from_above atan2 v f : accurate_atan2 atan2 -> In v (polygon_vertices tie_map) -> -80000000 < lat v ->
  ~ reported (fun u => vis_periodic atan2 loose_orders tie_map u) v near_observer f.
Proof.
  intros T I Lv (xs & x & E & X & Xc & _). rewrite tie_vis in E. pose proof (tie_map_ngeo v I) as G. assert (Lo : lon v < 540000001) by (destruct G; lia).
  destruct (swo_b (less_b atan2 v) (map fst (incident_map (map_copies tie_map)))) eqn:W.
  - assert (W' : swo_on (less_b atan2 v) (polygon_vertices (map_copies tie_map))).
    { apply swo_b_on in W. destruct (incident_map_good (map_copies tie_map)) as [_ K]. destruct W as (W1 & W2 & W3).
      split; [|split].
      - intros a b A B. apply W1; apply K; assumption.
      - intros a b c A B C. apply W2; apply K; assumption.
      - intros a b c A B C. apply W3; apply K; assumption. }
    destruct (half_exact atan2 loose_orders (map_copies tie_map) v T loose_orders_ok (ngeo_pgeo v G) Lo tie_copies_pgeo W') as (res & seen & _ & _ & R & _ & F & _ & _ & H & _ & _).
    rewrite R in E. inversion E; subst xs. destruct (Forall2_in_r _ _ _ _ F X) as (c & Ic & Nc & _). destruct (H c Ic) as (Ic' & _ & Lc).
    apply copies_vertices in Ic'. destruct Ic' as (u & k & U & K & ->). destruct (copy_facts u _ (tie_map_ngeo u U) (copy_of_wrap u k K)) as (_ & Nv & _).
    rewrite Nv in Nc. inversion Nc as [Eu]. rewrite Xc in Eu. subst u. cbn [wrap lat near_observer] in Lc. lia.
  - rewrite (low_stops atan2 v W (ngeo_pgeo v G) Lo) in E by lia. inversion E; subst. destruct X.
Qed.

(** ** The pair that is never considered is not blocked *)
Definition short_of (e : segment) (o v : coord) (l : Z * Z * Z) : bool :=
  let '(a, b, c) := l in let f p := a * lon p + b * lat p + c in (0 <? f o) && (0 <=? f v) && (f (e1 e) <=? 0) && (f (e2 e) <=? 0).
Lemma short_of_ok e o v l : short_of e o v l = true -> ~ meets_before e o v.
Proof.
  destruct l as [[a b] c]. unfold short_of. rewrite !andb_true_iff, Z.ltb_lt, !Z.leb_le. intros [[[H1 H2] H3] H4] (q & t & u & Q & T & U & X & Y).
  assert (E : (q - t) * (a * lon (e1 e) + b * lat (e1 e) + c) + t * (a * lon (e2 e) + b * lat (e2 e) + c) = (q - u) * (a * lon o + b * lat o + c) + u * (a * lon v + b * lat v + c)).
  { transitivity (a * ((q - t) * lon (e1 e) + t * lon (e2 e)) + b * ((q - t) * lat (e1 e) + t * lat (e2 e)) + q * c); [ring|]. rewrite X, Y. ring. }
  assert ((q - t) * (a * lon (e1 e) + b * lat (e1 e) + c) <= 0) by (apply Z.mul_nonneg_nonpos; lia).
  assert (t * (a * lon (e2 e) + b * lat (e2 e) + c) <= 0) by (apply Z.mul_nonneg_nonpos; lia).
  assert (0 < (q - u) * (a * lon o + b * lat o + c)) by (apply Z.mul_pos_pos; lia).
  assert (0 <= u * (a * lon v + b * lat v + c)) by (apply Z.mul_nonneg_nonneg; lia). lia.
Qed.
Lemma upper_unblocked : ~ blocked_vertex (map_copies tie_map) near_observer upper_end.
Proof.
  assert (C1 : forallb (fun P => forallb (fun i => negb (coord_eqb (vat (verts P) i) near_observer) ||
     match point_visible (mkPL (ring_prev (verts P) i) near_observer (ring_next (verts P) i)) upper_end with Ok b => b | _ => false end) (seq 0 (length (verts P)))) (map_copies tie_map) = true) by (vm_compute; reflexivity).
  assert (C2 : forallb (fun P => forallb (fun i => let e := mkS (vat (verts P) i) (ring_next (verts P) i) in
     coord_eqb (e1 e) near_observer || coord_eqb (e2 e) near_observer || existsb (short_of e near_observer upper_end) [(1, 0, -170000000); (-1, 0, 180000001)]) (seq 0 (length (verts P)))) (map_copies tie_map) = true) by (vm_compute; reflexivity).
  rewrite forallb_forall in C1, C2. intros [(p & n & (P & i & HP & Hi & -> & E & ->) & V)|(e & (P & i & HP & Hi & ->) & Nt & M)].
  - specialize (C1 P HP). cbv beta in C1. rewrite forallb_forall in C1. specialize (C1 i). rewrite in_seq in C1. specialize (C1 ltac:(lia)). cbv beta in C1. rewrite <- E, coord_eqb_refl in C1. cbn [negb orb] in C1.
    rewrite V in C1. discriminate C1.
  - specialize (C2 P HP). cbv beta in C2. rewrite forallb_forall in C2. specialize (C2 i). rewrite in_seq in C2. specialize (C2 ltac:(lia)). cbv beta zeta in C2. rewrite !orb_true_iff, !coord_eqb_spec in C2.
    destruct C2 as [[C2|C2]|C2]; [apply Nt; left; exact C2|apply Nt; right; exact C2|]. apply existsb_exists in C2. destruct C2 as (l & _ & C2). exact (short_of_ok _ _ _ _ C2 M).
Qed.

(** the observer is joined to no vertex above it, not even to its neighbour on the polygon *)
Theorem ties_lose_edges atan2 : accurate_atan2 atan2 ->
  exists g, generate (fun v => vis_periodic atan2 loose_orders tie_map v) tie_map = Ok g /\
    forall v, In v (polygon_vertices tie_map) -> lat near_observer < lat v -> has_edge g near_observer v = Ok false.
Proof.
  intros T. pose proof (periodic_reports atan2 (fun _ => loose_orders) tie_map (fun _ => loose_orders_ok) tie_map_ngeo) as R. cbv beta in R.
  destruct (generate_ok tie_map _ R) as (g & E & Gr). exists g. split; [exact E|]. intros v V Lv.
  assert (O : In near_observer (polygon_vertices tie_map)) by (left; reflexivity). assert (N : near_observer <> v) by (intros <-; lia).
  destruct (generate_edges tie_map _ g near_observer v R E O V N) as [H _].
  destruct (grun_queries tie_map _ g Gr near_observer v) as (Q & _). destruct (Q N O V) as [Q1 _]. destruct (spec_connected near_observer v _); [exfalso|exact Q1].
  apply H in Q1. destruct Q1 as (f & [(xs & x & Ex & X & _)|Q1]).
  - rewrite (observer_sees_none atan2 T) in Ex. inversion Ex; subst. destruct X.
  - exact (unseen_from_above atan2 v f T V Lv Q1).
Qed.
