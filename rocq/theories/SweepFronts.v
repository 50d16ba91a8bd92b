(** Soundness of the sweep over polygons of any shape whose edges open in the order in which
    they stand in front of each other. *)
From Coq Require Import ZArith Reals Bool List Lia Lra Psatz Sorted Permutation.
From Verif Require Import Base F64 Coordinate Segment Polyline Polygon Periodicity Graph Visgraph SpecGeom CoordinateFacts SegmentFacts PolylineFacts GraphFacts Sweep SweepFacts SweepMaps SweepGen SweepHalf AngleFacts AngleSort SweepOpen SweepOrder SweepGeo SweepSound.
Import ListNotations.
Local Open Scope Z_scope.

(** ** Vocabulary *)
(** [s] meets the half line from [o] through [v] at [u]/[q] of the way to [v] *)
Definition at_ray (o v : coord) (s : segment) (q u : Z) : Prop :=
  exists t, 0 < q /\ 0 <= t <= q /\ 0 < u /\ px o s q t = u * (lon v - lon o) /\ py o s q t = u * (lat v - lat o).
(** between [o] and [v], and beyond [v] *)
Definition in_front (o v : coord) (s : segment) : Prop := exists q u, at_ray o v s q u /\ u < q.
Definition behind (o v : coord) (s : segment) : Prop := exists q u, at_ray o v s q u /\ q <= u.
(** the line from [o] to [v] crosses [s] from its right to its left before it gets to [v]: on a
    map whose rings run counter-clockwise it enters land there.  An edge owns its second end. *)
Definition enters (o v : coord) (s : segment) : Prop :=
  turn o (e1 s) (e2 s) < 0 /\
  exists q t u, 0 < q /\ 0 < t <= q /\ 0 <= u < q /\
    (q - t) * lon (e1 s) + t * lon (e2 s) = (q - u) * lon o + u * lon v /\
    (q - t) * lat (e1 s) + t * lat (e2 s) = (q - u) * lat o + u * lat v.
(** every corner is at least one microdegree away from every edge that does not end there *)
Definition roomy (ps : list polygon) : Prop :=
  forall c e q t, In c (polygon_vertices ps) -> polygon_edge ps e -> ~ touches e c -> 0 < q -> 0 <= t <= q ->
    q * q <= px c e q t * px c e q t + py c e q t * py c e q t.
(** the squared distance by which an edge that meets the half line to [v] is ranked when the
    sweep gets there: that of the end it met first, or, if that end comes later, and the edge was
    open from the start, that of the point where it crosses the eastward half line *)
Definition ranked (o v : coord) (d : Z) (s : segment) : Prop :=
  (before o (first o s) v /\ d = dist2 o (first o s)) \/
  (before o v (first o s) /\ initially o s /\ exists k, d = k * k /\ crossing_key o s k).
(** if the line from [o] to a corner enters land, then it does so across some edge that ranks before
    every edge that passes behind the corner; and no two edges which are open together have one rank.
    A half sweep only looks at the corners that are not south of [o]. *)
Definition in_order (half : bool) (o : coord) (ps : list polygon) : Prop :=
  (forall v r, In v (polygon_vertices ps) -> v <> o -> (half = true -> lat o <= lat v) -> polygon_edge ps r -> enters o v r ->
     exists s, polygon_edge ps s /\ enters o v s /\
       forall t d d', polygon_edge ps t -> swept o t -> ~ touches t v -> behind o v t -> ranked o v d s -> ranked o v d' t -> d <= d') /\
  (forall v t d, In v (polygon_vertices ps) -> v <> o -> polygon_edge ps t -> swept o t -> ~ touches t v -> meets_ray o v t -> ranked o v d t -> d <> dist2 o v) /\
  (forall s t k l, polygon_edge ps s -> polygon_edge ps t -> s <> t -> initially o s -> initially o t -> crossing_key o s k -> crossing_key o t l -> k * k <> l * l).

Lemma tidy_key ok oe d s t : tidy ok oe -> In (d, s) (oe_sorted oe) -> In (d, t) (oe_sorted oe) -> s = t.
Proof.
  intros [S _ _ _] A B. induction S as [|x l S IH F]; [destruct A|]. rewrite Forall_forall in F. destruct A as [A|A], B as [B|B]; [congruence| | |auto].
  - subst x. specialize (F _ B). unfold key_lt in F. cbn [fst] in F. lia.
  - subst x. specialize (F _ A). unfold key_lt in F. cbn [fst] in F. lia.
Qed.

Section Fronts.
Variables (ps : list polygon) (o : coord).
Hypothesis O : pgeo o.
Hypothesis G : forall c, In c (polygon_vertices ps) -> pgeo c.
Hypothesis Nd : NoDup (polygon_vertices ps).
Hypothesis Len : forall P, In P ps -> (3 <= length (verts P))%nat.
Hypothesis Off : off_edges o ps.
Hypothesis Room : roomy ps.
Variable half : bool.
Hypothesis Ord : in_order half o ps.

Notation first := (first o).
Notation final := (final o).
Notation swept := (swept o).
Notation near := (near o).
Notation m := (incident_map ps).
Notation all := (all ps).
Notation opening := (opening o).
Notation closing := (closing o).

(** the key under which an edge was added *)
Definition key_after (rp : list coord) (d : Z) (s : segment) : Prop :=
  (In (first s) rp /\ d = dist2 o (first s)) \/ (~ In (first s) rp /\ initially o s /\ exists k, d = k * k /\ crossing_key o s k).
Record held (rp : list coord) (oe : open_edges) : Prop := mkHeld {
  h_tidy : tidy (polygon_edge ps) oe;
  h_open : forall d s, In (d, s) (oe_sorted oe) -> swept s /\ open_after o rp s /\ key_after rp d s;
  h_near : forall s, polygon_edge ps s -> near s -> open_after o rp s -> exists d, In (d, s) (oe_sorted oe)
}.

Lemma edge_all s : polygon_edge ps s -> all (first s) /\ all (final s).
Proof. intros E. destruct (poly_edge ps s E) as (P & HP & Es). destruct (ends_in o P s Es) as [A B]. split; apply (all_in ps P); assumption. Qed.
Lemma near_swept s : near s -> swept s. Proof. unfold SweepSound.near, SweepOrder.swept. lia. Qed.

Section Step.
Variables (rp : list coord) (oe : open_edges) (v p n : coord) (P : polygon).
Hypothesis Mo : moment o all rp v.
Hypothesis I : held rp oe.
Hypothesis HP : In P ps.
Hypothesis K : corner P p v n.
Notation oe1 := (oe1 o oe v p n).
Notation oe2 := (oe2 o oe v p n).

Lemma av : all v. Proof. apply (all_in ps P); [exact HP|apply (corner_facts P p v n K)]. Qed.
Lemma erased : tidy (polygon_edge ps) oe1 /\ forall d s, In (d, s) (oe_sorted oe1) <-> In (d, s) (oe_sorted oe) /\ final s <> v.
Proof.
  destruct (tidy_erase (polygon_edge ps) (same ps Nd Len) (closing v p n) oe (h_tidy _ _ I)) as [T E].
  { apply Forall_forall. intros s S. apply (closing_in o v p n P K) in S. apply (edge_poly ps P); tauto. }
  split; [exact T|]. intros d s. rewrite (E (d, s)). cbn [snd]. rewrite (closing_in o v p n P K). split; intros [A B]; (split; [exact A|]).
  - intros F. apply B. destruct (h_open _ _ I d s A) as (W & _). split; [|auto].
    pose proof (t_ok _ _ (h_tidy _ _ I) d s A) as Es. destruct (poly_edge ps s Es) as (Q & HQ & Eq).
    replace P with Q; [exact Eq|]. apply (owner ps Nd Q P v); try assumption; [rewrite <- F; apply (ends_in o), Eq|apply (corner_facts P p v n K)].
  - tauto.
Qed.
Lemma across d s : In (d, s) (oe_sorted oe1) -> polygon_edge ps s /\ swept s /\ key_after rp d s /\ ~ touches s v /\ first s <> v /\ final s <> v /\ open_after o rp s /\
  0 <= turn o (first s) v /\ 0 <= turn o v (final s).
Proof.
  intros H. destruct erased as [T E]. pose proof (t_ok _ _ T d s H) as Es. apply E in H. destruct H as [H F].
  destruct (h_open _ _ I d s H) as (W & Op & Ky). destruct (edge_all s Es) as [A1 A2].
  destruct (open_cone o all rp v s Mo W A1 A2 Op F) as (H1 & H2 & H3).
  assert (Nt : ~ touches s v) by (intros [X|X]; destruct (ends_of o s) as [(A & B & _)|(A & B & _)]; congruence). tauto.
Qed.
Lemma across_ranked d s : In (d, s) (oe_sorted oe1) -> ranked o v d s.
Proof.
  intros H. destruct (across d s H) as (Es & W & Ky & Nt & Fs & _). pose proof Mo as [_ _ _ Past Next]. destruct (swept_ends o s W) as (N1 & _).
  destruct Ky as [[I1 ->]|(I1 & Ky)]; [left; split; [apply Past, I1|reflexivity]|right; split; [|exact Ky]]. apply Next; try assumption. apply (edge_all s Es).
Qed.
Lemma across_ray d s : In (d, s) (oe_sorted oe1) -> at_ray o v s (ray_q o v s) (ray_u o s).
Proof.
  intros H. destruct (across d s H) as (_ & W & _ & _ & _ & _ & _ & T1 & T2).
  destruct (cone_point o v s W (m_v _ _ _ _ Mo) T1 T2) as (Q & U & t & T & X & Y). exists t. auto.
Qed.
Lemma no_clash y : In y (oe_sorted oe1) -> fst y <> dist2 o v.
Proof.
  destruct y as [d s]. cbn [fst]. intros H. destruct (across d s H) as (E & W & _ & Nt & _ & _ & _ & T1 & T2).
  apply (proj1 (proj2 Ord) v s d); try assumption; [apply av|apply (m_v _ _ _ _ Mo)|apply cone_ray; [exact W|apply (m_v _ _ _ _ Mo)|exact T1|exact T2]|apply across_ranked, H].
Qed.
Lemma step_held : held (v :: rp) oe2.
Proof.
  destruct erased as [T1 E1].
  destruct (added_step ps o Nd Len v p n P HP K (opening v p n) oe1) as (T & Bk & Hit & Hd & Keep); [auto|exact T1| |].
  { intros d s H Hs. exfalso. apply (opening_in o v p n P K) in Hs. destruct (across d s H) as (_ & _ & _ & _ & Ns & _). tauto. }
  split.
  - exact T.
  - intros d s H. apply Bk in H. destruct H as [H|[-> H]].
    + destruct (across d s H) as (Eq & W & Ky & _ & Fs & F & Op & _). split; [exact W|]. split; [right; split; assumption|].
      destruct Ky as [[I1 ->]|(I1 & Ky)]; [left; split; [right; exact I1|reflexivity]|right; split; [intros [X|X]; [congruence|contradiction]|exact Ky]].
    + apply (opening_in o v p n P K) in H. destruct H as (E & W & F). split; [exact W|]. split; [left; exact F|left; rewrite F; split; [left; reflexivity|reflexivity]].
  - intros s Es Ns Op. cbn [open_after] in Op. destruct (coord_dec (first s) v) as [F|F].
    + destruct (poly_edge ps s Es) as (Q & HQ & Eq).
      assert (Q = P) by (apply (owner ps Nd Q P v HQ HP); [rewrite <- F; apply (ends_in o), Eq|apply (corner_facts P p v n K)]). subst Q.
      assert (Hs : In s (opening v p n)) by (apply (opening_in o v p n P K); auto using near_swept).
      destruct (opening_near ps o Nd v p n P HP K s Hs Ns) as (l & El).
      exists (dist2 o v). apply (Hd s l El). exact no_clash.
    + destruct Op as [Op|[Op Fv]]; [congruence|]. destruct (h_near _ _ I s Es Ns Op) as (d & H). exists d. apply Keep, E1. auto.
Qed.

(** a front that is entered before [v] is open when [v] is visited *)
Lemma entered_open s : polygon_edge ps s -> enters o v s -> open_after o rp s /\ final s <> v /\ in_front o v s.
Proof.
  intros Es [Ns (q & t & u & Q & Ht & Hu & X & Y)]. pose proof (near_swept s Ns) as W. pose proof Mo as [S Nv No Past Next].
  destruct (edge_all s Es) as [A1 A2]. destruct (swept_ends o s W) as (N1 & N2 & N3). pose proof (swept_turn o s W) as T.
  assert (F : first s = e2 s /\ final s = e1 s) by (unfold SweepOrder.first, SweepOrder.final, SweepSound.near in *; destruct (Z.ltb_spec 0 (turn o (e1 s) (e2 s))); [lia|auto]).
  destruct F as [F1 F2].
  assert (X' : px o s q t = u * (lon v - lon o)) by (unfold px; nia). assert (Y' : py o s q t = u * (lat v - lat o)) by (unfold py; nia).
  assert (U : 0 < u).
  { destruct (Z.eq_dec u 0) as [->|]; [|lia]. exfalso. clear - X' Y' Ns Q Ht. unfold px, py, SweepSound.near, turn in *.
    set (a := lon (e1 s) - lon o) in *. set (b := lat (e1 s) - lat o) in *. set (c := lon (e2 s) - lon o) in *. set (d := lat (e2 s) - lat o) in *. clearbody a b c d.
    assert (E1 : t * (a * d - b * c) = a * (t * d) - b * (t * c)) by ring. assert (t * d = - ((q - t) * b)) by lia. assert (t * c = - ((q - t) * a)) by lia.
    rewrite H, H0 in E1. replace (a * - ((q - t) * b) - b * - ((q - t) * a)) with 0 in E1 by ring. nia. }
  assert (T2 : u * turn o v (e1 s) = t * turn o (e2 s) (e1 s)).
  { unfold turn. replace (u * ((lon v - lon o) * (lat (e1 s) - lat o) - (lat v - lat o) * (lon (e1 s) - lon o))) with
      ((u * (lon v - lon o)) * (lat (e1 s) - lat o) - (u * (lat v - lat o)) * (lon (e1 s) - lon o)) by ring. rewrite <- X', <- Y'. unfold px, py. ring. }
  assert (T1 : u * turn o (e2 s) v = (q - t) * turn o (e2 s) (e1 s)).
  { unfold turn. replace (u * ((lon (e2 s) - lon o) * (lat v - lat o) - (lat (e2 s) - lat o) * (lon v - lon o))) with
      ((lon (e2 s) - lon o) * (u * (lat v - lat o)) - (lat (e2 s) - lat o) * (u * (lon v - lon o))) by ring. rewrite <- X', <- Y'. unfold px, py. ring. }
  rewrite F1, F2 in T.
  assert (P2 : 0 < turn o v (final s)) by (rewrite F2; clear - T2 T U Ht; nia).
  assert (P1 : 0 <= turn o (first s) v) by (rewrite F1; clear - T1 T U Ht; nia).
  assert (Ray : in_front o v s) by (exists q, u; split; [exists t; repeat split; try assumption; lia|lia]).
  assert (Nf : final s <> v) by (intros E; rewrite E, turn_self in P2; lia).
  destruct (Z.eq_dec (turn o (first s) v) 0) as [Z0|Z0].
  - split; [|auto]. assert (Tq : t = q) by (rewrite F1 in Z0; rewrite Z0 in T1; clear - T1 T Ht; nia). subst t.
    destruct (between_before o (e2 s) v q u ltac:(lia) Nv) as (_ & B1 & B2 & B3).
    { rewrite <- X'. unfold px. ring. } { rewrite <- Y'. unfold py. ring. }
    rewrite <- F1 in B1, B2, B3. apply open_char; [exact S|exact W|]. left. split.
    + destruct (in_dec coord_dec (first s) rp) as [H|H]; [exact H|]. exfalso. exact (before_asym o _ _ B2 (Next _ A1 N1 B1 H)).
    + intros H. pose proof (Past _ H) as B4. rewrite <- F1, <- F2 in T. pose proof (turn_pos o _ _ N1 N2 T) as Tp. pose proof (turn_pos o _ _ Nv N2 P2) as Tv.
      left. rewrite B3 in *. destruct B4 as [B4|[B4 _]]; [exact B4|]. exfalso. pose proof PI_RGT_0. destruct Tv; lra.
  - destruct (cone_open o all rp v s Mo W A1 A2 ltac:(lia) P2) as [H1 H2]. auto.
Qed.
Lemma ray_unique s q u q' u' : swept s -> at_ray o v s q u -> at_ray o v s q' u' -> u * q' = u' * q.
Proof.
  intros W (t & Q & Ht & U & X & Y) (t' & Q' & Ht' & U' & X' & Y').
  set (T := turn o (e1 s) (e2 s)). assert (T0 : T <> 0) by exact W.
  set (D := turn o v (e2 s) - turn o v (e1 s)).
  assert (E : forall q u t, px o s q t = u * (lon v - lon o) -> py o s q t = u * (lat v - lat o) -> u * D = q * T).
  { intros a b c Ex Ey. unfold D. replace (b * (turn o v (e2 s) - turn o v (e1 s))) with
      ((b * (lon v - lon o)) * (lat (e2 s) - lat (e1 s)) - (b * (lat v - lat o)) * (lon (e2 s) - lon (e1 s))) by (unfold turn; ring).
    rewrite <- Ex, <- Ey. unfold T, px, py, turn. ring. }
  pose proof (E _ _ _ X Y) as E1. pose proof (E _ _ _ X' Y') as E2.
  assert (D0 : D <> 0) by (clear - E1 T0 Q; nia).
  apply (Z.mul_cancel_r _ _ D D0). replace (u * q' * D) with (q' * (u * D)) by ring. replace (u' * q * D) with (q * (u' * D)) by ring. rewrite E1, E2. ring.
Qed.
(** an edge that the line meets before [v] is seen to be in the way *)
Lemma front_blocks s q u : polygon_edge ps s -> swept s -> ~ touches s v -> at_ray o v s q u -> u < q ->
  exists x, intersection_with_segment s (mkS o v) = Ok (Some x) /\ x <> v.
Proof.
  intros Es W Nt (t & Q & Ht & U & X & Y) L.
  assert (NP : nonparallel s (mkS o v)).
  { unfold nonparallel, seg_det. cbn [e1 e2]. intros E. apply W.
    assert (Z0 : q * turn o (e1 s) (e2 s) = u * ((lon v - lon o) * (lat (e2 s) - lat (e1 s)) - (lat v - lat o) * (lon (e2 s) - lon (e1 s)))).
    { replace (u * ((lon v - lon o) * (lat (e2 s) - lat (e1 s)) - (lat v - lat o) * (lon (e2 s) - lon (e1 s)))) with
        ((u * (lon v - lon o)) * (lat (e2 s) - lat (e1 s)) - (u * (lat v - lat o)) * (lon (e2 s) - lon (e1 s))) by ring. rewrite <- X, <- Y. unfold px, py, turn. ring. }
    clear - Z0 E Q. replace ((lon v - lon o) * (lat (e2 s) - lat (e1 s)) - (lat v - lat o) * (lon (e2 s) - lon (e1 s))) with 0 in Z0 by lia. rewrite Z.mul_0_r in Z0.
    apply Z.mul_eq_0 in Z0. lia. }
  apply (blocks o v s q t u); try assumption; [apply (edge_geo ps G), Es|apply G, av|lia|].
  pose proof (Room v s q t av Es Nt Q Ht) as B.
  assert (Bx : px v s q t = (u - q) * (lon v - lon o)) by (replace (px v s q t) with (px o s q t - q * (lon v - lon o)) by (unfold px; ring); rewrite X; ring).
  assert (By : py v s q t = (u - q) * (lat v - lat o)) by (replace (py v s q t) with (py o s q t - q * (lat v - lat o)) by (unfold py; ring); rewrite Y; ring).
  rewrite Bx, By in B. eapply Z.le_trans; [exact B|]. unfold dist2. apply Z.eq_le_incl. ring.
Qed.
Lemma visible_enters_none : (half = true -> lat o <= lat v) -> is_vertex_visible m oe1 o v = Ok true -> forall s, polygon_edge ps s -> ~ enters o v s.
Proof.
  intros Up Vis r Er Enr. destruct (proj1 Ord v r av (m_v _ _ _ _ Mo) Up Er Enr) as (s & Es & En & First). clear r Er Enr.
  destruct (entered_open s Es En) as (Op & Nf & Fr). destruct En as [Ns _].
  destruct (h_near _ _ I s Es Ns Op) as (d & Hd). destruct erased as [Td Er].
  assert (Hs : In (d, s) (oe_sorted oe1)) by (apply Er; auto).
  assert (Front : exists e, closest_edge oe1 = Ok e /\ forall x, intersection_with_segment e (mkS o v) = Ok (Some x) -> x = v).
  { unfold is_vertex_visible in Vis. destruct (coord_eqb v o); [discriminate Vis|].
    destruct (match vm_find m o with None => Ok true | Some ss => b <- barrier ss ;; point_visible b v end) as [b| |]; cbn [bind] in Vis; try discriminate Vis.
    destruct b; cbn [negb] in Vis; [|discriminate Vis].
    destruct (oe_empty oe1) eqn:Em; [unfold oe_empty in Em; destruct (oe_sorted oe1); [destruct Hs|discriminate Em]|].
    destruct (closest_edge oe1) as [e| |]; cbn [bind] in Vis; try discriminate Vis. exists e. split; [reflexivity|]. intros x Ex. rewrite Ex in Vis. cbn [bind] in Vis.
    injection Vis as Vis. apply coord_eqb_spec in Vis. exact Vis. }
  destruct Front as (e & Ce & Fe). destruct (tidy_head (polygon_edge ps) oe1 e Td Ce) as (d0 & H0 & Least).
  specialize (Least d s Hs).
  destruct (across d s Hs) as (_ & Ws & _ & Ts & _). destruct (across d0 e H0) as (Ee & We & _ & Te & _).
  pose proof (across_ray d0 e H0) as Re.
  assert (Stop : ~ exists x, intersection_with_segment e (mkS o v) = Ok (Some x) /\ x <> v) by (intros (x & X1 & X2); apply X2, Fe, X1).
  destruct (Z.lt_ge_cases (ray_u o e) (ray_q o v e)) as [C|C].
  - apply Stop, (front_blocks e (ray_q o v e) (ray_u o e)); assumption.
  - assert (Bh : behind o v e) by (exists (ray_q o v e), (ray_u o e); auto).
    pose proof (First e d d0 Ee We Te Bh (across_ranked d s Hs) (across_ranked d0 e H0)) as Le.
    assert (Ed : d0 = d) by lia. subst d0. assert (E : e = s) by (apply (tidy_key (polygon_edge ps) oe1 d); assumption). subst e.
    destruct Fr as (q & u & R & L). pose proof (ray_unique s _ _ _ _ Ws R Re) as X. destruct R as (t & Q & _). destruct Re as (t' & Q' & _).
    set (a := ray_q o v s) in *. set (b := ray_u o s) in *. clearbody a b. clear - C L Q Q' X. assert (u * a < q * a) by (apply Z.mul_lt_mono_pos_r; assumption).
    assert (a * q <= b * q) by (apply Z.mul_le_mono_nonneg_r; lia). lia.
Qed.
End Step.

Hypothesis East : lon o < 540000001.
Lemma initial_held segs oe : Permutation segs (flat_map snd m) -> initial_edges o segs = Ok oe -> held [] oe.
Proof.
  intros Pm E. assert (F : Forall (polygon_edge ps) segs) by (apply (Permutation_Forall (Permutation_sym Pm)), segments_edges).
  destruct (initial_fold ps o O G Nd Len Off East segs F no_edges (tidy_none _)) as (oe' & R & T & H & _ & Al); [intros d s []|].
  assert (Eo : oe' = oe) by (unfold initial_edges in E; change (foldM (body o) segs no_edges = Ok oe) in E; congruence). subst oe'.
  split.
  - exact T.
  - intros d s Hs. destruct (H d s Hs) as [Is ->]. split; [apply Is|]. split; [exact Is|]. right. split; [intros []|]. split; [exact Is|]. exists (kz o s). split; [reflexivity|].
    apply (initial_in ps o O G East no_edges s (t_ok _ _ T _ _ Hs) Is).
  - intros s Es Ns Is. cbn [open_after] in Is.
    destruct (Al s (Permutation_in _ (Permutation_sym Pm) (every_edge ps Nd Len s Es)) Is) as (t & Ht).
    exists (kz o s * kz o s). destruct (H _ _ Ht) as [It Kt]. pose proof (t_ok _ _ T _ _ Ht) as Et.
    assert (Dec : {s = t} + {s <> t}) by (decide equality; apply coord_dec). destruct Dec as [->|N]; [exact Ht|exfalso].
    apply (proj2 (proj2 Ord) s t (kz o s) (kz o t) Es Et N Is It); [apply (initial_in ps o O G East no_edges s Es Is)|apply (initial_in ps o O G East no_edges t Et It)|exact Kt].
Qed.
Lemma held_fit rp oe v p n P : moment o all rp v -> held rp oe -> In P ps -> corner P p v n -> entries (fit (polygon_edge ps) o) (oe1 o oe v p n).
Proof.
  intros Mo I HP K. apply Forall_forall. intros [d s] Hs. destruct (across rp oe v p n P Mo I HP K d s Hs) as (Es & Sw & _).
  split; [exact Es|]. cbn [snd]. intros T. apply Sw. destruct T as [<-|<-]; unfold turn; ring.
Qed.
Lemma sweep_held init : coord_i32 init -> (forall v, half = true -> ahead init o half v = true -> lat o <= lat v) -> forall vs rp oe res, StronglySorted (before o) vs -> StronglySorted (later o) rp ->
  (forall c, In c vs -> all c /\ c <> o) -> (forall c, In c rp -> c <> o) -> (forall c d, In c rp -> In d vs -> before o c d) ->
  (forall c, all c -> c <> o -> In c rp \/ In c vs) -> held rp oe ->
  sweep m init o half vs oe = Ok res -> exists seen, Forall2 reports_as seen res /\
    (forall v, In v seen -> In v (scanned init o half vs) /\ (forall s, polygon_edge ps s -> ~ enters o v s) /\ corner_open ps o v) /\
    (forall v, In v (scanned init o half vs) -> In v seen \/ hidden (polygon_edge ps) m o v).
Proof.
  intros Ii Up. induction vs as [|v vs IH]; intros rp oe res Sv Sr Av Ar Bf Cov I E.
  { cbn [sweep] in E. injection E as <-. exists []. split; [constructor|split; intros v []]. }
  inversion Sv as [|? ? Sv' Fv]; subst. rewrite Forall_forall in Fv. destruct (Av v (or_introl eq_refl)) as [Avv Nvo]. cbn [sweep] in E.
  rewrite (proj2 (coord_eqb_neq o v)) in E by congruence.
  rewrite (past_half_ok init o O Ii half v (G v Avv) Nvo) in E. cbn [bind] in E. cbn [scanned].
  destruct (ahead init o half v) eqn:Ah; cbn [negb] in E; [|injection E as <-; exists []; split; [constructor|split; intros x []]].
  destruct (vm_at m v) as [inc| |] eqn:Va; cbn [bind] in E; try discriminate E.
  unfold vm_at in Va. destruct (vm_find m v) as [inc'|] eqn:Vf; [|discriminate Va]. injection Va as ->.
  destruct (at_vertex ps Nd Len v inc Vf) as (P & p & n & HP & Iv & K & ->). destruct (corner_facts P p v n K) as (Ip & _ & In_).
  pose proof (all_in ps P p HP Ip) as Ap. pose proof (all_in ps P n HP In_) as An.
  rewrite (orient ps o O G v p n CLOCKWISE (fun z => z <? 0) Avv Ap An (c_pv _ _ _ _ K) cw_want) in E. cbn [bind] in E.
  rewrite (orient ps o O G v p n COUNTER_CLOCKWISE (fun z => 0 <? z) Avv Ap An (c_pv _ _ _ _ K) ccw_want) in E. cbn [bind] in E.
  fold (SweepSound.closing o v p n) in E. fold (SweepSound.opening o v p n) in E. fold (oe1 o oe v p n) in E. cbv zeta in E.
  assert (Mo : moment o all rp v).
  { split; [exact Sr|exact Nvo|exact Ar|intros c C; apply Bf; [exact C|left; reflexivity]|].
    intros c Ac Nc Ncv Nr. destruct (Cov c Ac Nc) as [H|[H|H]]; [contradiction|congruence|apply Fv, H]. }
  assert (Hid : is_vertex_visible m (oe1 o oe v p n) o v = Ok false -> hidden (polygon_edge ps) m o v).
  { intros Vis. destruct (visible_total (polygon_edge ps) m o (edge_geo ps G) (map_ok_polygons ps o G) O (oe1 o oe v p n) v (G v Avv) Nvo (held_fit rp oe v p n P Mo I HP K)) as (b & Vb & Hb).
    apply Hb. congruence. }
  destruct (is_vertex_visible m (oe1 o oe v p n) o v) as [b| |] eqn:Vis; cbn [bind] in E; try discriminate E.
  destruct (if b then normalize_coord v else Ok v) as [nv| |] eqn:Nm; cbn [bind] in E; try discriminate E.
  rewrite (added ps o O G Nd Len oe v p n P HP K) in E. cbn [bind] in E.
  destruct (sweep m init o half vs (oe2 o oe v p n)) as [rest| |] eqn:Es; cbn [bind] in E; try discriminate E.
  destruct (IH (v :: rp) (oe2 o oe v p n) rest) as (seen & F & C & D).
  - exact Sv'.
  - constructor; [exact Sr|]. apply Forall_forall. intros c Hc. apply Bf; [exact Hc|left; reflexivity].
  - intros c Hc. apply Av. right. exact Hc.
  - intros c [<-|Hc]; [exact Nvo|apply Ar, Hc].
  - intros c d [<-|Hc] Hd; [apply Fv, Hd|apply Bf; [exact Hc|right; exact Hd]].
  - intros c Ac Nc. destruct (Cov c Ac Nc) as [H|[H|H]]; [left; right; exact H|left; left; exact H|right; exact H].
  - exact (step_held rp oe v p n P Mo I HP K).
  - exact Es.
  - destruct b; injection E as <-.
    + exists (v :: seen). split; [constructor; [|exact F]|split].
      * split; [exact Nm|reflexivity].
      * intros x [<-|X]; [split; [left; reflexivity|]|destruct (C x X); split; [right; assumption|assumption]].
        split; [exact (visible_enters_none rp oe v p n P Mo I HP K (fun H => Up v H Ah) Vis)|exact (visible_corner ps o _ v Nvo Vis)].
      * intros x [<-|X]; [left; left; reflexivity|]. destruct (D x X); [left; right; assumption|right; assumption].
    + exists seen. split; [exact F|]. split; [intros x X; destruct (C x X); split; [right; assumption|assumption]|].
      intros x [<-|X]; [right; apply Hid; reflexivity|apply D, X].
Qed.
End Fronts.

Theorem sweep_fronts atan2 ord ps o half : accurate_atan2 atan2 -> library_orders ord -> pgeo o -> lon o < 540000001 ->
  (forall c, In c (polygon_vertices ps) -> pgeo c) -> NoDup (polygon_vertices ps) -> all_separated o (polygon_vertices ps) ->
  (forall P, In P ps -> (3 <= length (verts P))%nat) -> off_edges o ps -> roomy ps -> in_order half o ps ->
  exists res seen, get_visible_vertices atan2 ord (vistree_of_polygons ps) o half = Ok res /\ Forall2 reports_as seen res /\
    (forall v, In v seen -> In v (polygon_vertices ps) /\ v <> o /\ (half = true -> lat o <= lat v) /\
      (forall s, polygon_edge ps s -> ~ enters o v s) /\
      (forall p n, corner_of ps p o n -> point_visible (mkPL p o n) v = Ok true)) /\
    (forall v, In v (polygon_vertices ps) -> v <> o -> (half = true -> lat o <= lat v) -> In v seen \/ blocked_vertex ps o v).
Proof.
  intros At L O East G Nd Sep Len Off Room Ord.
  destruct (get_visible_ok atan2 ord ps o half L O G) as (res & _ & R & Nv & Iv & _). exists res.
  destruct (incident_map_good ps) as [[Nk _] Kv].
  assert (W : forall c, pgeo c -> wide c) by (intros c [A B]; split; lia).
  set (l := o_vertices ord (map fst (incident_map ps))).
  assert (Pl : Permutation l (map fst (incident_map ps))) by apply L.
  assert (Il : forall c, In c l <-> In c (polygon_vertices ps)).
  { intros c. rewrite <- Kv. split; apply Permutation_in; [exact Pl|apply Permutation_sym, Pl]. }
  destruct (sort_separated atan2 o l At (W o O)) with (ord := ord) as (out & So & Po & Or).
  { intros v V. apply W, G, Il, V. } { intros a b A B. apply Sep; apply Il; assumption. } { exact L. } { eapply Permutation_NoDup; [apply Permutation_sym, Pl|exact Nk]. }
  assert (Io : forall c, In c out <-> In c (polygon_vertices ps)).
  { intros c. rewrite <- Il. split; apply Permutation_in; [exact Po|apply Permutation_sym, Po]. }
  enough (En : exists seen, Forall2 reports_as seen res /\
    (forall v, In v seen -> In v (polygon_vertices ps) /\ v <> o /\ (half = true -> lat o <= lat v) /\
      (forall s, polygon_edge ps s -> ~ enters o v s) /\
      (forall p n, corner_of ps p o n -> point_visible (mkPL p o n) v = Ok true)) /\
    (forall v, In v (polygon_vertices ps) -> v <> o -> (half = true -> lat o <= lat v) -> In v seen \/ blocked_vertex ps o v))
    by (destruct En as (seen & En); exists seen; split; [exact R|exact En]).
  revert R. unfold get_visible_vertices, visible_from, vistree_of_polygons. cbn [vt_map vt_segments].
  assert (Me : forall (x y : Base.res (list visible)), (incident_map ps = [] /\ match incident_map ps with [] => x | _ :: _ => y end = x) \/ match incident_map ps with [] => x | _ :: _ => y end = y)
    by (intros x y; destruct (incident_map ps); auto).
  match goal with |- match _ with [] => ?x | _ :: _ => ?y end = _ -> _ => destruct (Me x y) as [[Em ->] | ->] end; clear Me.
  { intros E. injection E as <-. exists []. split; [constructor|]. split; [intros v []|intros v V]. exfalso. apply Kv in V. rewrite Em in V. destruct V. }
  fold l. rewrite So. cbn [bind]. destruct (init_ok o O) as [-> _]. cbn [bind].
  destruct (initial_edges o (o_segments ord (flat_map snd (incident_map ps)))) as [oe| |] eqn:Ie; cbn [bind]; try discriminate. intros E.
  assert (J : held ps o [] oe) by (apply (initial_held ps o O G Nd Len Off half Ord East _ oe (proj1 (proj2 L) _) Ie)).
  assert (Tl : exists tl, sweep (incident_map ps) (init_vec o) o half tl oe = Ok res /\ StronglySorted (before o) tl /\
     (forall c, In c tl -> In c out /\ c <> o) /\ (forall c, In c out -> c <> o -> In c tl)).
  { assert (St : forall t, (exists h, out = h :: t) -> StronglySorted (before o) t /\ forall c, In c t -> c <> o).
    { intros t (h & ->). assert (A : forall c, In c t -> c <> o).
      { intros c C. apply in_split in C. destruct C as (l1 & l2 & ->). apply (Or [] h l1 c l2 eq_refl). }
      split; [|exact A]. assert (B : forall l1 a l2 b l3, t = l1 ++ a :: l2 ++ b :: l3 -> before o a b).
      { intros l1 a l2 b l3 ->. destruct (Or (h :: l1) a l2 b l3 eq_refl) as [_ [->|X]]; [|exact X]. exfalso. apply (A o); [apply in_or_app; right; left; reflexivity|reflexivity]. }
      clear - B. induction t as [|a t IH]; constructor.
      - apply IH. intros l1 x l2 y l3 ->. apply (B (a :: l1) x l2 y l3). reflexivity.
      - apply Forall_forall. intros c C. apply in_split in C. destruct C as (l1 & l2 & ->). apply (B [] a l1 c l2). reflexivity. }
    destruct out as [|h t]; [exists []; split; [exact E|]; split; [constructor|]; split; [intros c []|intros c []]|].
    destruct (St t (ex_intro _ h eq_refl)) as [S1 S2].
    destruct (coord_eq_dec h o) as [->|Nh].
    - exists t. cbn [sweep] in E. rewrite coord_eqb_refl in E. split; [exact E|]. split; [exact S1|]. split; [intros c C; split; [right; exact C|apply S2, C]|].
      intros c [<-|C] N; [congruence|exact C].
    - exists (h :: t). split; [exact E|]. split; [|split; [|auto]].
      + constructor; [exact S1|]. apply Forall_forall. intros c C. apply in_split in C. destruct C as (l1 & l2 & ->).
        destruct (Or [] h l1 c l2 eq_refl) as [_ [X|X]]; [congruence|exact X].
      + intros c [<-|C]; [split; [left; reflexivity|exact Nh]|split; [right; exact C|apply S2, C]]. }
  destruct Tl as (tl & Et & St & T1 & T2). destruct (init_ok o O) as [_ Ii].
  assert (Up : forall v, half = true -> ahead (init_vec o) o half v = true -> lat o <= lat v) by (intros v -> H; apply (ahead_lat o v East), H).
  destruct (sweep_held ps o O G Nd Len Off Room half Ord East (init_vec o) Ii Up tl [] oe res St (SSorted_nil _)) as (seen & F & C & D).
  { intros c Hc. destruct (T1 c Hc) as [A B]. split; [apply Io, A|exact B]. } { intros c []. } { intros c d []. }
  { intros c A B. right. apply T2; [apply Io, A|exact B]. } { exact J. } { exact Et. }
  assert (Gd : forall v ss, vm_find (incident_map ps) v = Some ss -> exists p n, corner_of ps p v n /\ ss = [mkS p v; mkS v n]) by exact (proj2 (proj1 (incident_map_good ps))).
  exists seen. split; [exact F|]. split.
  - intros v V. destruct (C v V) as (C1 & C2 & C3). destruct (T1 v (scanned_in _ _ _ _ _ C1)) as [T3 T4].
    split; [apply Io, T3|]. split; [exact T4|]. split; [intros ->; apply (ahead_lat o v East), (scanned_ahead _ _ _ _ C1)|]. split; [exact C2|].
    intros p n K. apply (C3 [mkS p o; mkS o n]); [|reflexivity]. destruct (vm_find (incident_map ps) o) as [ss|] eqn:Fd.
    + destruct (Gd o ss Fd) as (p' & n' & K' & ->). destruct (corner_unique ps p o n p' n' Nd K K') as [-> ->]. reflexivity.
    + exfalso. apply (find_keys (incident_map ps) o); [|exact Fd]. apply Kv. destruct K as (P & i & HP & Hi & _ & -> & _). apply (all_in ps P _ HP). apply nth_In, Hi.
  - intros v V Nvo H. assert (Hv : In v tl) by (apply T2; [apply Io, V|exact Nvo]).
    assert (Sc : In v (scanned (init_vec o) o half tl)).
    { destruct half; [|rewrite scanned_full; exact Hv]. apply scanned_upper; [exact East|exact St|exact Hv|auto|intros c Hc; apply T1, Hc]. }
    destruct (D v Sc) as [X|[X|X]]; [left; exact X|right; left|right; right].
    + destruct X as (ss & b & Fd & B & Pv). destruct (Gd _ _ Fd) as (p & n & K & ->). exists p, n. split; [exact K|].
      cbn [barrier barrier_from app e1 e2] in B. inversion B; subst b. exact Pv.
    + destruct X as (e & [E' T] & M). exists e. auto.
Qed.

