(** Soundness of the sweep over convex polygons in layers. *)
From Coq Require Import ZArith Reals Bool List Lia Lra Psatz Sorted Permutation.
From Verif Require Import Base F64 Coordinate Segment Polyline Polygon Periodicity Graph Visgraph SpecGeom CoordinateFacts SegmentFacts PolylineFacts GraphFacts Sweep SweepFacts SweepMaps SweepGen SweepHalf AngleFacts AngleSort SweepOpen SweepOrder SweepGeo.
Import ListNotations.
Local Open Scope Z_scope.

Lemma nodup_l {A} (l l' : list A) : NoDup (l ++ l') -> NoDup l.
Proof. induction l as [|x l IH]; intros H; [constructor|]. inversion H; subst. constructor; [intros X; apply H2, in_or_app; auto|auto]. Qed.
Lemma nodup_r {A} (l l' : list A) : NoDup (l ++ l') -> NoDup l'.
Proof. induction l as [|x l IH]; intros H; [exact H|]. inversion H; subst. auto. Qed.

Section Sound.
Variables (ps : list polygon) (o : coord).
Hypothesis O : pgeo o.
Hypothesis G : forall c, In c (polygon_vertices ps) -> pgeo c.
Hypothesis Nd : NoDup (polygon_vertices ps).
Hypothesis Len : forall P, In P ps -> (3 <= length (verts P))%nat.
Hypothesis Cx : forall P, In P ps -> exists sg, convex sg P.
Hypothesis Off : off_edges o ps.
Hypothesis Lay : layered o ps.

Notation first := (first o).
Notation final := (final o).
Notation swept := (swept o).
Notation m := (incident_map ps).
Definition all (c : coord) : Prop := In c (polygon_vertices ps).
Definition near (s : segment) : Prop := turn o (e1 s) (e2 s) < 0.

Lemma all_in P c : In P ps -> In c (verts P) -> all c.
Proof. intros H I. unfold all, polygon_vertices. apply in_concat. exists (verts P). split; [apply in_map, H|exact I]. Qed.
Lemma nodup_parts (l : list polygon) P : NoDup (concat (map verts l)) -> In P l -> NoDup (verts P).
Proof.
  induction l as [|Q l IH]; intros N I; [destruct I|]. cbn [map concat] in N. destruct I as [<-|I]; [exact (nodup_l _ _ N)|].
  apply IH; [exact (nodup_r _ _ N)|exact I].
Qed.
Lemma nodup_owner (l : list polygon) P Q c : NoDup (concat (map verts l)) -> In P l -> In Q l -> In c (verts P) -> In c (verts Q) -> P = Q.
Proof.
  induction l as [|R l IH]; intros N I J A B; [destruct I|]. cbn [map concat] in N.
  assert (K : forall S, In S l -> In c (verts S) -> In c (verts R) -> False).
  { intros S HS C D. apply in_split in D. destruct D as (x & y & E). rewrite E in N. rewrite <- app_assoc in N. cbn [app] in N. apply NoDup_remove_2 in N. apply N.
    rewrite !in_app_iff. right. right. apply in_concat. exists (verts S). split; [apply in_map, HS|exact C]. }
  destruct I as [<-|I], J as [<-|J]; [reflexivity|exfalso; eauto|exfalso; eauto|]. apply IH; try assumption. exact (nodup_r _ _ N).
Qed.
Lemma ring_nd P : In P ps -> NoDup (verts P). Proof. apply nodup_parts, Nd. Qed.
Lemma owner P Q c : In P ps -> In Q ps -> In c (verts P) -> In c (verts Q) -> P = Q. Proof. apply nodup_owner, Nd. Qed.
Lemma ring_len P : In P ps -> (3 <= length (verts P))%nat. Proof. apply Len. Qed.
Lemma edge_poly P s : In P ps -> edge_of P s -> polygon_edge ps s.
Proof. intros H (i & I & E). exists P, i. auto. Qed.
Lemma poly_edge s : polygon_edge ps s -> exists P, In P ps /\ edge_of P s.
Proof. intros (P & i & H & I & E). exists P. split; [exact H|exists i; auto]. Qed.
Lemma edge_geo s : polygon_edge ps s -> pgeo_seg s. Proof. apply edge_pgeo, G. Qed.
Lemma ends_in P s : edge_of P s -> In (first s) (verts P) /\ In (final s) (verts P).
Proof. intros E. destruct (edge_verts P s E). destruct (ends_of o s) as [(-> & -> & _)|(-> & -> & _)]; auto. Qed.
Lemma same s t : polygon_edge ps s -> polygon_edge ps t -> segment_eqb s t = true -> s = t.
Proof.
  intros S T E. apply segment_eqb_iff in E. destruct E as [E|E]; [auto|]. exfalso.
  apply poly_edge in S. destruct S as (P & HP & S). apply poly_edge in T. destruct T as (Q & HQ & T).
  assert (P = Q). { apply (owner P Q (e1 s)); try assumption; [apply edge_verts, S|]. destruct (edge_verts Q t T) as [_ H]. rewrite E in H. exact H. }
  subst Q. apply (edge_no_back P s t (ring_nd P HP) (ring_len P HP) S T); rewrite E; reflexivity.
Qed.
Lemma at_vertex v inc : vm_find m v = Some inc -> exists P p n, In P ps /\ In v (verts P) /\ corner P p v n /\ inc = [mkS p v; mkS v n].
Proof.
  intros F. destruct (incident_map_good ps) as [[_ H] _]. destruct (H v inc F) as (p & n & (P & i & HP & I & -> & -> & ->) & ->).
  exists P, (ring_prev (verts P) i), (ring_next (verts P) i). split; [exact HP|]. split; [apply nth_In, I|]. split; [|reflexivity].
  apply corner_ring; [apply ring_nd, HP|apply ring_len, HP|exact I].
Qed.
Lemma corner_facts P p v n : corner P p v n -> In p (verts P) /\ In v (verts P) /\ In n (verts P).
Proof. intros K. destruct (edge_verts P _ (c_in _ _ _ _ K)), (edge_verts P _ (c_out _ _ _ _ K)). auto. Qed.

(** ** Keys of different polygons in one direction *)
Lemma keys_apart P Q d s d' : In P ps -> In Q ps -> P <> Q -> edge_of P s -> keyed o d s ->
  (exists t, edge_of Q t /\ keyed o d' t) -> share_direction o P Q -> d <> d'.
Proof.
  intros HP HQ N E K (t & T & K') Sh ->. destruct (Lay P Q HP HQ N Sh) as (r & R & [[A B]|[A B]]).
  - pose proof (key_inside o r P d' s R A E K). pose proof (key_outside o r Q d' t R B (ring_nd Q HQ) (ring_len Q HQ) T K'). nia.
  - pose proof (key_inside o r Q d' t R A T K'). pose proof (key_outside o r P d' s R B (ring_nd P HP) (ring_len P HP) E K). nia.
Qed.
Lemma dist_key_edge P v d : In P ps -> In v (verts P) -> v <> o -> d = dist2 o v -> forall r, 0 <= r ->
  (inside o r P -> d <= r * r) /\ (outside o (r + 1) P -> (r + 1) * (r + 1) <= d).
Proof.
  intros HP I N -> r R. split; [intros H; apply H, I|]. intros H. apply (outside_vertex o _ P _ H (ring_nd P HP) (ring_len P HP) I).
Qed.
Lemma vertex_key_apart P Q d s v : In P ps -> In Q ps -> P <> Q -> edge_of P s -> keyed o d s -> In v (verts Q) -> v <> o ->
  share_direction o P Q -> d <> dist2 o v.
Proof.
  intros HP HQ N E K I Nv Sh Ed. destruct (Lay P Q HP HQ N Sh) as (r & R & H). destruct (dist_key_edge Q v d HQ I Nv Ed r R) as [H1 H2].
  destruct H as [[A B]|[A B]].
  - pose proof (key_inside o r P d s R A E K). specialize (H2 B). nia.
  - pose proof (key_outside o r P d s R B (ring_nd P HP) (ring_len P HP) E K). specialize (H1 A). nia.
Qed.

(** ** The invariant *)
Definition starts (P : polygon) (w : coord) : Prop := exists s, edge_of P s /\ swept s /\ first s = w.
Fixpoint fed (rp : list coord) (P : polygon) : Prop :=
  match rp with
  | [] => exists s, edge_of P s /\ initially o s
  | w :: rp' => (In w (verts P) /\ starts P w) \/ (~ In w (verts P) /\ fed rp' P)
  end.
Record inv (rp : list coord) (oe : open_edges) : Prop := mkInv {
  i_tidy : tidy (polygon_edge ps) oe;
  i_open : forall d s, In (d, s) (oe_sorted oe) -> swept s /\ open_after o rp s /\ keyed o d s;
  i_fed : forall P, In P ps -> fed rp P -> exists d s, In (d, s) (oe_sorted oe) /\ edge_of P s;
  i_near : forall P, In P ps -> convex 1 P -> distinct_keys o P -> forall s, edge_of P s -> near s -> open_after o rp s -> exists d, In (d, s) (oe_sorted oe)
}.

(** *** One more vertex *)
Lemma intersect_at s v : polygon_edge ps s -> all v -> touches s v -> (forall a, a = e1 s \/ a = e2 s -> a <> v -> turn o v a <> 0) -> e1 s <> e2 s ->
  intersection_with_segment s (mkS o v) = Ok (Some v).
Proof.
  intros E A T N D. pose proof (edge_geo s E) as Gs. assert (Gv : pgeo_seg (mkS o v)) by (split; [exact O|apply G, A]).
  assert (NP : nonparallel s (mkS o v)).
  { unfold nonparallel, seg_det. cbn [e1 e2]. destruct T as [T|T].
    - specialize (N (e2 s) (or_intror eq_refl)). rewrite T in *. specialize (N (fun X => D (eq_sym X))). unfold turn in N. nia.
    - specialize (N (e1 s) (or_introl eq_refl)). rewrite T in *. specialize (N D). unfold turn in N. nia. }
  destruct (intersection_detection s (mkS o v) Gs Gv NP) as (r & R & M).
  assert (Mt : segments_meet s (mkS o v)) by (destruct T as [T|T]; [exists 1, 0, 1|exists 1, 1, 1]; cbn [e1 e2]; rewrite T; lia).
  apply M in Mt. destruct r as [r|]; [|congruence].
  destruct (intersection_accuracy s (mkS o v) r Gs Gv NP R) as (x & y & _ & _ & Un & _ & _ & Jx & Jy & _).
  destruct (Un (IZR (lon v)) (IZR (lat v))) as [Ex Ey].
  { destruct T as [T|T]; [exists 0%R|exists 1%R]; rewrite T; (split; [lra|split; ring]). }
  { exists 1%R. cbn [e1 e2]. split; [lra|split; ring]. }
  rewrite R. do 2 f_equal. apply coord_ext; [apply Jx; auto|apply Jy; auto].
Qed.

Definition pick (want : Z -> bool) (v : coord) (a : coord) (s : segment) : list segment := if want (turn o v a) then [s] else [].
Lemma pick_in want v a s x : In x (pick want v a s) <-> x = s /\ want (turn o v a) = true.
Proof. unfold pick. destruct (want (turn o v a)); cbn [In]; intuition congruence. Qed.
Lemma adj_in p v : get_adjacent_to (mkS p v) v = Ok p \/ p = v.
Proof.
  destruct (coord_dec p v) as [E|E]; [auto|left]. apply (get_adjacent_spec (mkS p v) v). reflexivity.
Qed.
Lemma orient v p n want wb : all v -> all p -> all n -> p <> v ->
  (forall z, orientation_eqb (orientation_of_sign z) want = wb z) ->
  orientation_segments [mkS p v; mkS v n] (mkS o v) want = Ok (pick wb v p (mkS p v) ++ pick wb v n (mkS v n)).
Proof.
  intros V A B N W. assert (Gv : pgeo_seg (mkS o v)) by (split; [exact O|apply G, V]). cbn [orientation_segments e2].
  assert (E1 : get_adjacent_to (mkS p v) v = Ok p) by (destruct (adj_in p v); [assumption|contradiction]).
  assert (E2 : get_adjacent_to (mkS v n) v = Ok n) by (apply (get_adjacent_spec (mkS v n) v); reflexivity).
  rewrite E1, E2. cbn [bind]. rewrite (orientation_pt_ok (mkS o v) p Gv (G p A)), (orientation_pt_ok (mkS o v) n Gv (G n B)). cbn [bind e1 e2].
  unfold pick. rewrite !W. destruct (wb (turn o v p)), (wb (turn o v n)); reflexivity.
Qed.
Lemma cw_want z : orientation_eqb (orientation_of_sign z) CLOCKWISE = (z <? 0).
Proof. unfold orientation_of_sign. destruct (Z.ltb_spec z 0); [reflexivity|]. destruct (0 <? z); reflexivity. Qed.
Lemma ccw_want z : orientation_eqb (orientation_of_sign z) COUNTER_CLOCKWISE = (0 <? z).
Proof. unfold orientation_of_sign. destruct (Z.ltb_spec z 0); [destruct (Z.ltb_spec 0 z); [lia|reflexivity]|]. destruct (0 <? z); reflexivity. Qed.

Section Step.
Variables (rp : list coord) (oe : open_edges) (v p n : coord) (P : polygon).
Hypothesis Mo : moment o all rp v.
Hypothesis I : inv rp oe.
Hypothesis HP : In P ps.
Hypothesis K : corner P p v n.

Definition closing : list segment := pick (fun z => z <? 0) v p (mkS p v) ++ pick (fun z => z <? 0) v n (mkS v n).
Definition opening : list segment := pick (fun z => 0 <? z) v p (mkS p v) ++ pick (fun z => 0 <? z) v n (mkS v n).
Lemma Iv : In v (verts P). Proof. apply (corner_facts P p v n K). Qed.
Lemma Nv : v <> o. Proof. apply (m_v _ _ _ _ Mo). Qed.

Lemma closing_in s : In s closing <-> edge_of P s /\ swept s /\ final s = v.
Proof.
  unfold closing. rewrite in_app_iff, !pick_in, !Z.ltb_lt. split.
  - intros [[-> H]|[-> H]].
    + split; [apply (c_in _ _ _ _ K)|]. unfold SweepOrder.swept, SweepOrder.final. cbn [e1 e2]. rewrite (turn_swap o v p). split; [lia|].
      destruct (Z.ltb_spec 0 (- turn o v p)); [reflexivity|lia].
    + split; [apply (c_out _ _ _ _ K)|]. unfold SweepOrder.swept, SweepOrder.final. cbn [e1 e2]. split; [lia|].
      destruct (Z.ltb_spec 0 (turn o v n)); [lia|reflexivity].
  - intros (E & W & F). pose proof (swept_turn o s W) as T. rewrite F in T.
    assert (Ts : touches s v) by (destruct (ends_of o s) as [(_ & H & _)|(_ & H & _)]; rewrite H in F; [right|left]; exact F).
    destruct (c_only _ _ _ _ K s E Ts) as [->| ->]; [left|right]; (split; [reflexivity|]).
    + destruct (ends_of o (mkS p v)) as [(H1 & H2 & _)|(H1 & H2 & _)]; cbn [e1 e2] in *; [rewrite H1 in T; rewrite turn_swap; lia|].
      exfalso. rewrite F in H2. apply (c_pv _ _ _ _ K). congruence.
    + destruct (ends_of o (mkS v n)) as [(H1 & H2 & _)|(H1 & H2 & _)]; cbn [e1 e2] in *; [|rewrite H1 in T; rewrite turn_swap; lia].
      exfalso. rewrite F in H2. apply (c_vn _ _ _ _ K). congruence.
Qed.
Lemma opening_in s : In s opening <-> edge_of P s /\ swept s /\ first s = v.
Proof.
  unfold opening. rewrite in_app_iff, !pick_in, !Z.ltb_lt. split.
  - intros [[-> H]|[-> H]].
    + split; [apply (c_in _ _ _ _ K)|]. unfold SweepOrder.swept, SweepOrder.first. cbn [e1 e2]. rewrite (turn_swap o v p). split; [lia|].
      destruct (Z.ltb_spec 0 (- turn o v p)); [lia|reflexivity].
    + split; [apply (c_out _ _ _ _ K)|]. unfold SweepOrder.swept, SweepOrder.first. cbn [e1 e2]. split; [lia|].
      destruct (Z.ltb_spec 0 (turn o v n)); [reflexivity|lia].
  - intros (E & W & F). pose proof (swept_turn o s W) as T. rewrite F in T.
    assert (Ts : touches s v) by (destruct (ends_of o s) as [(H & _)|(H & _)]; rewrite H in F; [left|right]; exact F).
    destruct (c_only _ _ _ _ K s E Ts) as [->| ->]; [left|right]; (split; [reflexivity|]).
    + destruct (ends_of o (mkS p v)) as [(H1 & H2 & _)|(H1 & H2 & _)]; cbn [e1 e2] in *; [|rewrite H2 in T; lia].
      exfalso. rewrite F in H1. apply (c_pv _ _ _ _ K). congruence.
    + destruct (ends_of o (mkS v n)) as [(H1 & H2 & _)|(H1 & H2 & _)]; cbn [e1 e2] in *; [rewrite H2 in T; lia|].
      exfalso. rewrite F in H1. apply (c_vn _ _ _ _ K). congruence.
Qed.
Lemma opening_near s : In s opening -> near s -> exists l, opening = s :: l.
Proof.
  intros H N. apply opening_in in H. destruct H as (E & W & F).
  assert (H2 : e2 s = v).
  { destruct (ends_of o s) as [(_ & _ & H)|(H & _)]; [unfold near in N; lia|congruence]. }
  assert (s = mkS p v).
  { apply (edge_second P); [apply ring_nd, HP|exact E|apply (c_in _ _ _ _ K)|exact H2]. }
  subst s. unfold near in N. cbn [e1 e2] in N. unfold opening, pick. rewrite (turn_swap o p v).
  destruct (Z.ltb_spec 0 (- turn o p v)); [|lia]. cbn [app]. eexists. reflexivity.
Qed.

Definition oe1 : open_edges := erase_segments closing oe.
Lemma erased : tidy (polygon_edge ps) oe1 /\ forall d s, In (d, s) (oe_sorted oe1) <-> In (d, s) (oe_sorted oe) /\ final s <> v.
Proof.
  destruct (tidy_erase (polygon_edge ps) same closing oe (i_tidy _ _ I)) as [T E].
  { apply Forall_forall. intros s S. apply closing_in in S. apply (edge_poly P); tauto. }
  split; [exact T|]. intros d s. rewrite (E (d, s)). cbn [snd]. rewrite closing_in. split; intros [A B]; (split; [exact A|]).
  - intros F. apply B. destruct (i_open _ _ I d s A) as (W & _). split; [|auto].
    pose proof (t_ok _ _ (i_tidy _ _ I) d s A) as Es. destruct (poly_edge s Es) as (Q & HQ & Eq).
    replace P with Q; [exact Eq|]. apply (owner Q P v); try assumption; [rewrite <- F; apply ends_in, Eq|apply Iv].
  - tauto.
Qed.
(** an edge that is open across [v] *)
Lemma across d s : In (d, s) (oe_sorted oe1) -> exists Q, In Q ps /\ edge_of Q s /\ swept s /\ keyed o d s /\ final s <> v /\ first s <> v /\ open_after o rp s /\
  0 <= turn o (first s) v /\ 0 <= turn o v (final s).
Proof.
  intros H. destruct erased as [T E]. pose proof (t_ok _ _ T d s H) as Es. apply E in H. destruct H as [H F].
  destruct (i_open _ _ I d s H) as (W & Op & Ky). destruct (poly_edge s Es) as (Q & HQ & Eq). exists Q.
  destruct (ends_in Q s Eq) as [I1 I2].
  destruct (open_cone o all rp v s Mo W (all_in Q _ HQ I1) (all_in Q _ HQ I2) Op F) as (H1 & H2 & H3). tauto.
Qed.
Lemma across_shares d s Q : In (d, s) (oe_sorted oe1) -> edge_of Q s -> share_direction o Q P.
Proof.
  intros H E. destruct (across d s H) as (_ & _ & _ & W & _ & _ & _ & _ & T1 & T2).
  exists v, s, (mkS v n). split; [apply Nv|]. split; [exact E|]. split; [apply (c_out _ _ _ _ K)|].
  split; [apply cone_ray; [exact W|apply Nv|exact T1|exact T2]|apply (vertex_ray o P p v n K)].
Qed.
Lemma clash y : In y (oe_sorted oe1) -> fst y = dist2 o v -> edge_of P (snd y) /\ keyed o (fst y) (snd y) /\ first (snd y) <> v.
Proof.
  destruct y as [d s]. cbn [fst snd]. intros H E. destruct (across d s H) as (Q & HQ & Eq & W & Ky & F & Fs & Op & T1 & T2).
  destruct (in_dec coord_dec v (verts Q)) as [Vq|Vq].
  - rewrite (owner P Q v HP HQ Iv Vq). auto.
  - exfalso. assert (N : Q <> P) by (intros ->; apply Vq, Iv).
    exact (vertex_key_apart Q P d s v HQ HP N Eq Ky Iv Nv (across_shares d s Q H Eq) E).
Qed.

Definition oe2 : open_edges := fold_left (fun oe s => oe_add oe (dist2 o v) s) opening oe1.
Lemma added : add_segments opening oe1 o v = Ok oe2.
Proof.
  unfold oe2. assert (A : forall l, (forall s, In s l -> In s opening) -> forall e, add_segments l e o v = Ok (fold_left (fun oe s => oe_add oe (dist2 o v) s) l e)).
  { induction l as [|s l IH]; intros H e; [reflexivity|]. unfold add_segments in *. cbn [foldM fold_left].
    pose proof (H s (or_introl eq_refl)) as Hs. apply opening_in in Hs. destruct Hs as (E & W & F).
    assert (Ts : touches s v) by (destruct (ends_of o s) as [(X & _)|(X & _)]; rewrite X in F; [left|right]; exact F).
    rewrite (intersect_at s v).
    - cbn [bind opt_value]. destruct (msq_pgeo v o (G v (all_in P v HP Iv)) O) as (d & D & ->).
      destruct (coord_sub v o) as [w| |]; cbn [bind] in *; try discriminate D. rewrite D. cbn [bind]. apply IH. intros x X. apply H. right. exact X.
    - apply (edge_poly P); assumption.
    - apply (all_in P); [exact HP|apply Iv].
    - exact Ts.
    - intros a A Na. unfold SweepOrder.swept in W. destruct Ts as [Ts|Ts]; destruct A as [A|A]; try congruence. rewrite turn_swap, <- Ts, A. lia.
    - apply (edge_ends P); [apply ring_nd, HP|pose proof (ring_len P HP); lia|exact E]. }
  apply A. auto.
Qed.
Lemma added_step : forall l e, (forall s, In s l -> In s opening) -> tidy (polygon_edge ps) e ->
  (forall d s, In (d, s) (oe_sorted e) -> In s opening -> d = dist2 o v) ->
  let e' := fold_left (fun oe s => oe_add oe (dist2 o v) s) l e in
  tidy (polygon_edge ps) e' /\
  (forall d s, In (d, s) (oe_sorted e') -> In (d, s) (oe_sorted e) \/ (d = dist2 o v /\ In s l)) /\
  (forall s, In s l -> exists t, In (dist2 o v, t) (oe_sorted e')) /\
  (forall s l', l = s :: l' -> (forall y, In y (oe_sorted e) -> fst y <> dist2 o v) -> In (dist2 o v, s) (oe_sorted e')) /\
  (forall x, In x (oe_sorted e) -> In x (oe_sorted e')).
Proof.
  induction l as [|s l IH]; intros e Sub T U; cbn [fold_left]; cbv zeta.
  { split; [exact T|]. split; [auto|]. split; [intros s []|]. split; [discriminate|auto]. }
  pose proof (Sub s (or_introl eq_refl)) as Hs. pose proof (proj1 (opening_in s) Hs) as (Es & _).
  destruct (tidy_add (polygon_edge ps) same e (dist2 o v) s T (edge_poly P s HP Es)) as [T1 E1]; [intros d H; exact (U d s H Hs)|].
  destruct (IH (oe_add e (dist2 o v) s)) as (A & B & C & D & F); [intros x X; apply Sub; right; exact X|exact T1| |].
  { intros d t H Ht. apply E1 in H. destruct H as [H|[H _]]; [exact (U d t H Ht)|]. injection H. auto. }
  cbv zeta in A, B, C, D, F. split; [exact A|]. split; [|split; [|split]].
  - intros d t H. apply B in H. destruct H as [H|[H1 H2]]; [|right; split; [exact H1|right; exact H2]]. apply E1 in H.
    destruct H as [H|[H _]]; [left; exact H|]. injection H as -> ->. right. split; [reflexivity|left; reflexivity].
  - intros t [<-|Ht]; [|apply (C t Ht)].
    assert (Dec : (exists y, In y (oe_sorted e) /\ fst y = dist2 o v) \/ (forall y, In y (oe_sorted e) -> fst y <> dist2 o v)).
    { clear. induction (oe_sorted e) as [|y l IH]; [right; intros y []|]. destruct (Z.eq_dec (fst y) (dist2 o v)) as [E|E]; [left; exists y; split; [left; reflexivity|exact E]|].
      destruct IH as [(z & Z1 & Z2)|IH]; [left; exists z; split; [right; exact Z1|exact Z2]|right]. intros z [<-|Hz]; auto. }
    destruct Dec as [([d t] & Y1 & Y2)|Dec].
    + cbn [fst] in Y2. subst d. exists t. apply F, E1. left. exact Y1.
    + exists s. apply F, E1. right. auto.
  - intros t l' H Cl. injection H as <- <-. apply F, E1. right. auto.
  - intros x H. apply F, E1. left. exact H.
Qed.
Lemma step_inv : inv (v :: rp) oe2.
Proof.
  destruct erased as [T1 E1].
  destruct (added_step opening oe1) as (T & Bk & Hit & Hd & Keep); [auto|exact T1| |].
  { intros d s H Hs. exfalso. apply opening_in in Hs. destruct (across d s H) as (Q & _ & _ & _ & _ & _ & Ns & _). tauto. }
  fold oe2 in T, Bk, Hit, Hd, Keep. split.
  - exact T.
  - intros d s H. apply Bk in H. destruct H as [H|[-> H]].
    + destruct (across d s H) as (Q & HQ & Eq & W & Ky & F & Fs & Op & _). split; [exact W|]. split; [right; split; assumption|exact Ky].
    + apply opening_in in H. destruct H as (E & W & F). split; [exact W|]. split; [left; exact F|left; rewrite F; reflexivity].
  - intros Q HQ [[Vq (s & Es & W & F)]|[Vq Fd]].
    + assert (Q = P) by (apply (owner Q P v HQ HP Vq Iv)). subst Q.
      destruct (Hit s) as (t & Ht); [apply opening_in; auto|]. exists (dist2 o v), t. split; [exact Ht|].
      apply Bk in Ht. destruct Ht as [Ht|[_ Ht]]; [apply (clash _ Ht eq_refl)|apply opening_in in Ht; tauto].
    + destruct (i_fed _ _ I Q HQ Fd) as (d & s & H & Es). exists d, s. split; [|exact Es]. apply Keep, E1. split; [exact H|].
      intros F. apply Vq. rewrite <- F. apply ends_in, Es.
  - intros Q HQ Cv Dk s Es Ns Op. cbn [open_after] in Op.
    destruct (coord_dec (first s) v) as [F|F].
    + assert (Q = P) by (apply (owner Q P v HQ HP); [rewrite <- F; apply ends_in, Es|apply Iv]). subst Q.
      assert (W : swept s) by (unfold near in Ns; unfold SweepOrder.swept; lia).
      assert (Hs : In s opening) by (apply opening_in; auto). destruct (opening_near s Hs Ns) as (l & El).
      exists (dist2 o v). apply (Hd s l El). intros y Hy Ey. destruct (clash y Hy Ey) as (Ey' & Ky & Fy).
      destruct Dk as (D1 & D2 & _). destruct Ky as [Ky|(Iy & k & Ek & Ck)].
      * apply (D1 (first (snd y)) v); [apply ends_in, Ey'|apply Iv|exact Fy|congruence].
      * apply (D2 (snd y) k v Ey' Iy Ck Iv). congruence.
    + destruct Op as [Op|[Op Fv]]; [congruence|]. destruct (i_near _ _ I Q HQ Cv Dk s Es Ns Op) as (d & H). exists d. apply Keep, E1. auto.
Qed.
End Step.

(** ** A polygon that is cut has an entry *)
Lemma turn_pos_of a b : a <> o -> b <> o ->
  (angle (from o a) < angle (from o b) < angle (from o a) + PI \/ angle (from o b) < angle (from o a) - PI)%R -> 0 < turn o a b.
Proof.
  intros A B H. destruct (turn_sin o a b A B) as (k & K & E). apply lt_IZR. rewrite E.
  pose proof (angle_range _ (from_nonzero o a A)). pose proof (angle_range _ (from_nonzero o b B)).
  enough (0 < sin (angle (from o b) - angle (from o a)))%R by nra. destruct H as [H|H]; [apply sin_gt_0; lra|].
  set (t := (angle (from o b) - angle (from o a))%R) in *.
  replace (sin t) with (sin (t + 2 * PI)) by (rewrite (sin_plus t), sin_2PI, cos_2PI; ring). apply sin_gt_0; unfold t; lra.
Qed.
Lemma fed_last rp P : StronglySorted (later o) rp ->
  ((forall c, In c rp -> ~ In c (verts P)) /\ (fed rp P <-> fed [] P)) \/
  (exists w, In w rp /\ In w (verts P) /\ (forall c, In c rp -> In c (verts P) -> c = w \/ before o c w) /\ (fed rp P <-> starts P w)).
Proof.
  induction 1 as [|w rp S IH F]; [left; split; [intros c []|tauto]|]. rewrite Forall_forall in F. unfold later in F.
  destruct (in_dec coord_dec w (verts P)) as [Iw|Iw].
  - right. exists w. split; [left; reflexivity|]. split; [exact Iw|]. split; [intros c [<-|C] _; [left; reflexivity|right; apply F, C]|].
    cbn [fed]. tauto.
  - destruct IH as [[A B]|(u & U1 & U2 & U3 & U4)].
    + left. split; [intros c [<-|C]; [exact Iw|apply A, C]|]. cbn [fed] in *. tauto.
    + right. exists u. split; [right; exact U1|]. split; [exact U2|]. split; [intros c [<-|C] Ic; [contradiction|apply U3; assumption]|]. cbn [fed]. tauto.
Qed.
Lemma no_start P w c : In P ps -> In w (verts P) -> ~ starts P w -> In c (verts P) -> turn o w c <= 0.
Proof.
  intros HP Iw N Ic. destruct (Cx P HP) as (sg & C). destruct (corner_at P w (ring_nd P HP) (ring_len P HP) Iw) as (p & n & K).
  apply (convex_last sg P p w n o c C K Ic).
  - destruct (Z.le_gt_cases (turn o w p) 0) as [H|H]; [exact H|exfalso]. apply N. exists (mkS p w). split; [apply (c_in _ _ _ _ K)|].
    unfold SweepOrder.swept, SweepOrder.first. cbn [e1 e2]. rewrite (turn_swap o w p). split; [lia|]. destruct (Z.ltb_spec 0 (- turn o w p)); [lia|reflexivity].
  - destruct (Z.le_gt_cases (turn o w n) 0) as [H|H]; [exact H|exfalso]. apply N. exists (mkS w n). split; [apply (c_out _ _ _ _ K)|].
    unfold SweepOrder.swept, SweepOrder.first. cbn [e1 e2]. split; [lia|]. destruct (Z.ltb_spec 0 (turn o w n)); [reflexivity|lia].
Qed.
Lemma starts_dec P w : In P ps -> In w (verts P) -> starts P w \/ (forall c, In c (verts P) -> turn o w c <= 0).
Proof.
  intros HP Iw. destruct (Exists_dec (fun c => 0 < turn o w c) (verts P) (fun c => Z_lt_dec 0 (turn o w c))) as [E|E].
  - left. apply Exists_exists in E. destruct E as (c & Ic & T).
    destruct (corner_at P w (ring_nd P HP) (ring_len P HP) Iw) as (p & n & K).
    destruct (Z_lt_dec 0 (turn o w p)) as [H|H]; [|destruct (Z_lt_dec 0 (turn o w n)) as [H'|H']].
    + exists (mkS p w). split; [apply (c_in _ _ _ _ K)|]. unfold SweepOrder.swept, SweepOrder.first. cbn [e1 e2]. rewrite (turn_swap o w p). split; [lia|].
      destruct (Z.ltb_spec 0 (- turn o w p)); [lia|reflexivity].
    + exists (mkS w n). split; [apply (c_out _ _ _ _ K)|]. unfold SweepOrder.swept, SweepOrder.first. cbn [e1 e2]. split; [lia|].
      destruct (Z.ltb_spec 0 (turn o w n)); [reflexivity|lia].
    + exfalso. destruct (Cx P HP) as (sg & C). pose proof (convex_last sg P p w n o c C K Ic ltac:(lia) ltac:(lia)). lia.
  - right. intros c Ic. destruct (Z.le_gt_cases (turn o w c) 0) as [H|H]; [exact H|exfalso]. apply E, Exists_exists. exists c. auto.
Qed.
Lemma before_asym a b : before o a b -> before o b a -> False.
Proof. intros A B. exact (before_irrefl o a (before_trans o _ _ _ A B)). Qed.

Lemma fed_of_open rp v P s : moment o all rp v -> In P ps -> edge_of P s -> swept s -> open_after o rp s -> 0 < turn o v (final s) -> fed rp P.
Proof.
  intros Mo HP Es W Op Tv. pose proof Mo as [S Nv No Past Next]. destruct (ends_in P s Es) as [I1 I2].
  destruct (swept_ends o s W) as (N1 & N2 & N3).
  assert (Fv : final s <> v) by (intros E; rewrite E, turn_self in Tv; lia).
  destruct (fed_last rp P S) as [[A B]|(w & W1 & W2 & W3 & W4)].
  { apply B. apply (open_char o rp s S W) in Op. destruct Op as [[H _]|(_ & _ & H)]; [exfalso; exact (A _ H I1)|]. exists s. auto. }
  apply W4. destruct (starts_dec P w HP W2) as [H|H]; [exact H|exfalso]. specialize (H _ I2). pose proof (No w W1) as Nw.
  assert (Hp : ~ 0 < turn o w (final s)) by lia. apply Hp, turn_pos_of; [exact Nw|exact N2|]. clear Hp H.
  pose proof (turn_pos o _ _ N1 N2 (swept_turn o s W)) as T. apply turn_pos in Tv; [|assumption..].
  pose proof (angle_range _ (from_nonzero o _ N1)) as R1. pose proof (angle_range _ (from_nonzero o _ N2)) as R2. pose proof (angle_range _ (from_nonzero o _ Nv)) as R3. pose proof (angle_range _ (from_nonzero o _ Nw)) as R4.
  pose proof PI_RGT_0 as Pi. pose proof (Past w W1) as Bw. unfold before in Bw.
  apply (open_char o rp s S W) in Op. destruct Op as [[H1 H2]|(H1 & H2 & H3)].
  - assert (A1 : (angle (from o (first s)) <= angle (from o w))%R) by (destruct (W3 _ H1 I1) as [->|B]; [lra|unfold before in B; lra]).
    destruct T as [T|T]; [left|right; lra].
    assert (Hn : ~ In (final s) rp) by (intros X; specialize (H2 X); unfold before in H2; lra).
    pose proof (Next _ (all_in P _ HP I2) N2 Fv Hn) as B. unfold before in B. lra.
  - pose proof (initial_wrap o s H3) as Wr. pose proof (Next _ (all_in P _ HP I2) N2 Fv H2) as B. unfold before in B. left. lra.
Qed.

(** a point between [o] and [v] *)
Lemma between_before u v q k : 0 < k < q -> v <> o -> q * (lon u - lon o) = k * (lon v - lon o) -> q * (lat u - lat o) = k * (lat v - lat o) ->
  u <> o /\ u <> v /\ before o u v /\ angle (from o u) = angle (from o v).
Proof.
  intros Q N X Y.
  assert (D : 0 < dist2 o v).
  { unfold dist2. destruct (Z.eq_dec (lon v) (lon o)), (Z.eq_dec (lat v) (lat o)); try nia. exfalso. apply N, coord_ext; assumption. }
  assert (Nu : u <> o). { intros ->. apply N, coord_ext; clear - X Y Q; nia. }
  assert (Nuv : u <> v). { intros ->. apply N, coord_ext; clear - X Y Q; nia. }
  assert (E : angle (from o u) = angle (from o v)).
  { apply same_direction; [apply from_nonzero, Nu|apply from_nonzero, N| |].
    - unfold det, from. cbn [lon lat]. set (a := lon u - lon o) in *. set (b := lat u - lat o) in *. set (c := lon v - lon o) in *. set (d := lat v - lat o) in *.
      assert (q * (a * d - c * b) = 0) by (replace (q * (a * d - c * b)) with ((q * a) * d - c * (q * b)) by ring; rewrite X, Y; ring). nia.
    - unfold dot, from. cbn [lon lat]. unfold dist2 in D. set (a := lon u - lon o) in *. set (b := lat u - lat o) in *. set (c := lon v - lon o) in *. set (d := lat v - lat o) in *.
      assert (q * (a * c + b * d) = k * (c * c + d * d)) by (replace (q * (a * c + b * d)) with ((q * a) * c + (q * b) * d) by ring; rewrite X, Y; ring). clearbody a b c d. clear - H D Q. nia. }
  split; [exact Nu|]. split; [exact Nuv|]. split; [right|exact E]. split; [exact E|].
  unfold len. apply sqrt_lt_1_alt. unfold dot, from. cbn [lon lat]. unfold dist2 in D.
  set (a := lon u - lon o) in *. set (b := lat u - lat o) in *. set (c := lon v - lon o) in *. set (d := lat v - lat o) in *. clearbody a b c d.
  assert (L : q * q * (a * a + b * b) = k * k * (c * c + d * d)) by (clear - X Y; replace (q * q * (a * a + b * b)) with ((q * a) * (q * a) + (q * b) * (q * b)) by ring; rewrite X, Y; ring).
  assert (k * k < q * q) by (clear - Q; nia). assert (a * a + b * b < c * c + d * d) by (clear - L H D Q; nia).
  split; [apply IZR_le; nia|apply IZR_lt; assumption].
Qed.

(** where [cuts] happens: through an edge or at a vertex *)
Lemma cuts_cases sg v P : convex sg P -> v <> o -> off_edges o ps -> In P ps -> cuts o v P ->
  (exists e q t u, edge_of P e /\ 0 < q /\ 0 < t < q /\ 0 < u < q /\ px o e q t = u * (lon v - lon o) /\ py o e q t = u * (lat v - lat o) /\
     ((turn o v (e1 e) < 0 < turn o v (e2 e)) \/ (turn o v (e2 e) < 0 < turn o v (e1 e)))) \/
  (exists w q u, In w (verts P) /\ 0 < u < q /\ q * (lon w - lon o) = u * (lon v - lon o) /\ q * (lat w - lat o) = u * (lat v - lat o)).
Proof.
  intros C Nv Of HP [(e & E & T & (q & t & u & Q & Ht & Hu & X & Y)) (a & b & Ia & Ib & Hab)].
  assert (X' : px o e q t = u * (lon v - lon o)) by (unfold px; nia). assert (Y' : py o e q t = u * (lat v - lat o)) by (unfold py; nia).
  assert (U : 0 < u).
  { destruct (Z.eq_dec u 0) as [->|]; [|lia]. exfalso. apply T, Of; [apply (edge_poly P); assumption|]. exists q, t. split; [exact Q|]. split; [exact Ht|]. split; lia. }
  destruct (edge_verts P e E) as [I1 I2].
  destruct (Z.eq_dec t 0) as [->|T0].
  { right. exists (e1 e), q, u. unfold px in X'. unfold py in Y'. split; [exact I1|]. split; [lia|]. split; nia. }
  destruct (Z.eq_dec t q) as [->|T1].
  { right. exists (e2 e), q, u. unfold px in X'. unfold py in Y'. split; [exact I2|]. split; [lia|]. split; nia. }
  left. exists e, q, t, u. split; [exact E|]. split; [exact Q|]. split; [lia|]. split; [lia|]. split; [exact X'|]. split; [exact Y'|].
  assert (L : (q - t) * turn o v (e1 e) + t * turn o v (e2 e) = 0).
  { replace ((q - t) * turn o v (e1 e) + t * turn o v (e2 e)) with ((lon v - lon o) * py o e q t - (lat v - lat o) * px o e q t) by (unfold turn, px, py; ring).
    rewrite X', Y'. ring. }
  destruct (Z.lt_trichotomy (turn o v (e1 e)) 0) as [H|[H|H]].
  - left. nia.
  - exfalso. assert (turn o v (e2 e) = 0) by nia. exact (edge_on_line sg P o v e a b C E Nv H H0 Ia Ib Hab).
  - right. nia.
Qed.

(** the other polygon *)
Lemma cut_fed rp v P : moment o all rp v -> In P ps -> cuts o v P -> fed rp P.
Proof.
  intros Mo HP Cu. destruct (Cx P HP) as (sg & C). pose proof Mo as [S Nv No Past Next].
  destruct (cuts_cases sg v P C Nv Off HP Cu) as [(e & q & t & u & E & Q & T & U & X & Y & Sd)|(w & q & u & Iw & U & X & Y)].
  - (* through an edge *)
    assert (Tr : u * turn o v (e2 e) = (q - t) * turn o (e1 e) (e2 e)).
    { replace (u * turn o v (e2 e)) with (u * (lon v - lon o) * (lat (e2 e) - lat o) - u * (lat v - lat o) * (lon (e2 e) - lon o)) by (unfold turn; ring).
      rewrite <- X, <- Y. unfold px, py, turn. ring. }
    assert (W : swept e) by (unfold SweepOrder.swept; intros Z0; rewrite Z0 in Tr; nia).
    assert (Cone : 0 < turn o (first e) v /\ 0 < turn o v (final e)).
    { destruct (ends_of o e) as [(-> & -> & H)|(-> & -> & H)]; [assert (0 < turn o v (e2 e)) by nia|assert (turn o v (e2 e) < 0) by (unfold SweepOrder.swept in W; nia)];
        rewrite (turn_swap o v); (split; [|]); lia. }
    destruct (ends_in P e E) as [I1 I2].
    destruct (cone_open o all rp v e Mo W (all_in P _ HP I1) (all_in P _ HP I2) (proj1 Cone) (proj2 Cone)) as [Op _].
    exact (fed_of_open rp v P e Mo HP E W Op (proj2 Cone)).
  - (* at a vertex *)
    destruct (between_before w v q u U Nv X Y) as (Nw & Nwv & Bw & Aw).
    assert (Iw' : In w rp).
    { destruct (in_dec coord_dec w rp) as [H|H]; [exact H|exfalso]. exact (before_asym _ _ Bw (Next w (all_in P w HP Iw) Nw Nwv H)). }
    destruct (fed_last rp P S) as [[A _]|(z & Z1 & Z2 & Z3 & Z4)]; [exfalso; exact (A w Iw' Iw)|]. apply Z4.
    destruct (starts_dec P z HP Z2) as [H|H]; [exact H|exfalso].
    destruct Cu as [_ (a & b & _ & Ib & _ & Hb)]. specialize (H b Ib). pose proof (No z Z1) as Nz.
    assert (Nb : b <> o) by (intros ->; rewrite turn_o_r in Hb; lia).
    assert (Az : angle (from o z) = angle (from o v)).
    { pose proof (Past z Z1) as Bz. destruct (Z3 w Iw' Iw) as [<-|B]; [exact Aw|]. unfold before in B, Bz. lra. }
    apply turn_pos in Hb; [|assumption..]. assert (0 < turn o z b) by (apply turn_pos_of; [exact Nz|exact Nb|rewrite Az; exact Hb]). lia.
Qed.

(** the polygon of [v] itself *)
Lemma own_near rp v P : moment o all rp v -> In P ps -> convex 1 P -> In v (verts P) -> cuts o v P ->
  exists s, edge_of P s /\ near s /\ open_after o rp s /\ final s <> v.
Proof.
  intros Mo HP C Iv Cu. pose proof Mo as [S Nv No Past Next].
  destruct (cuts_cases 1 v P C Nv Off HP Cu) as [(e & q & t & u & E & Q & T & U & X & Y & Sd)|(w & q & u & Iw & U & X & Y)].
  - assert (Tr : u * turn o v (e2 e) = (q - t) * turn o (e1 e) (e2 e)).
    { replace (u * turn o v (e2 e)) with (u * (lon v - lon o) * (lat (e2 e) - lat o) - u * (lat v - lat o) * (lon (e2 e) - lon o)) by (unfold turn; ring).
      rewrite <- X, <- Y. unfold px, py, turn. ring. }
    assert (W : swept e) by (unfold SweepOrder.swept; intros Z0; rewrite Z0 in Tr; nia).
    assert (Cone : 0 < turn o (first e) v /\ 0 < turn o v (final e)).
    { destruct (ends_of o e) as [(-> & -> & H)|(-> & -> & H)]; [assert (0 < turn o v (e2 e)) by nia|assert (turn o v (e2 e) < 0) by (unfold SweepOrder.swept in W; nia)];
        rewrite (turn_swap o v); (split; [|]); lia. }
    destruct (ends_in P e E) as [I1 I2].
    destruct (cone_open o all rp v e Mo W (all_in P _ HP I1) (all_in P _ HP I2) (proj1 Cone) (proj2 Cone)) as [Op Fv].
    exists e. split; [exact E|]. split; [|split; assumption].
    assert (Tv : ~ touches e v).
    { intros [H|H]; rewrite H in Sd; rewrite turn_self in Sd; lia. }
    destruct C as (_ & _ & C). specialize (C e v E Iv Tv).
    assert (L : (q - u) * turn (e1 e) (e2 e) o + u * turn (e1 e) (e2 e) v = 0).
    { replace ((q - u) * turn (e1 e) (e2 e) o + u * turn (e1 e) (e2 e) v)
        with ((lon (e2 e) - lon (e1 e)) * (q * (lat o - lat (e1 e)) + u * (lat v - lat o)) - (lat (e2 e) - lat (e1 e)) * (q * (lon o - lon (e1 e)) + u * (lon v - lon o))) by (unfold turn; ring).
      rewrite <- X, <- Y. unfold px, py. ring. }
    rewrite turn_cycle in L. unfold near. nia.
  - destruct (between_before w v q u U Nv X Y) as (Nw & Nwv & Bw & Aw).
    destruct (corner_at P w (ring_nd P HP) (ring_len P HP) Iw) as (p & n & K).
    destruct (corner_facts P p w n K) as (Ip & _ & _).
    assert (Tw : forall c, q * turn o w c = u * turn o v c).
    { intros c. replace (q * turn o w c) with (q * (lon w - lon o) * (lat c - lat o) - q * (lat w - lat o) * (lon c - lon o)) by (unfold turn; ring). rewrite X, Y. unfold turn. ring. }
    assert (L : (q - u) * turn p w o + u * turn p w v = 0).
    { replace ((q - u) * turn p w o + u * turn p w v) with ((lon w - lon p) * (q * (lat o - lat p) + u * (lat v - lat o)) - (lat w - lat p) * (q * (lon o - lon p) + u * (lon v - lon o))) by (unfold turn; ring).
      rewrite <- X, <- Y. ring. }
    destruct (corner_left 1 P p w n v C K Iv (fun H => Nwv (eq_sym H))) as (Gv & _ & Gs & _).
    assert (Np : 0 < turn o w p).
    { destruct (Z.le_gt_cases (turn o w p) 0) as [H|H]; [exfalso|exact H].
      assert (turn o w p = - turn p w o) by (unfold turn; ring).
      assert (turn p w v = 0) by nia. destruct (coord_dec v p) as [Ev|Ev]; [|specialize (Gs Ev); lia].
      destruct Cu as [_ (a & b & Ia & Ib & Hab)].
      apply (edge_on_line 1 P o v (mkS p w) a b C (c_in _ _ _ _ K) Nv); try assumption; cbn [e1 e2]; [rewrite <- Ev; apply turn_self|].
      pose proof (Tw w) as Tw'. rewrite turn_self in Tw'. nia. }
    exists (mkS p w).
    assert (En : first (mkS p w) = w /\ final (mkS p w) = p /\ near (mkS p w) /\ swept (mkS p w)).
    { unfold near, SweepOrder.swept, SweepOrder.first, SweepOrder.final. cbn [e1 e2]. rewrite (turn_swap o w p). destruct (Z.ltb_spec 0 (- turn o w p)); [lia|]. repeat split; lia. }
    destruct En as (F1 & F2 & Ne & W). split; [apply (c_in _ _ _ _ K)|]. split; [exact Ne|].
    assert (Npv : p <> v). { intros ->. pose proof (Tw v) as H. rewrite turn_self in H. nia. }
    split; [|rewrite F2; exact Npv].
    assert (Iw' : In w rp).
    { destruct (in_dec coord_dec w rp) as [H|H]; [exact H|exfalso]. exact (before_asym _ _ Bw (Next w (all_in P w HP Iw) Nw Nwv H)). }
    apply (open_char o rp _ S W). left. rewrite F1, F2. split; [exact Iw'|]. intros Hp.
    assert (Nop : p <> o) by (intros ->; rewrite turn_o_r in Np; lia).
    destruct (before_total o p w Nop Nw (c_pv _ _ _ _ K)) as [H|H]; [exact H|exfalso].
    pose proof (Past p Hp) as Bp. apply turn_pos in Np; [|assumption..]. unfold before in H, Bp.
    pose proof (angle_range _ (from_nonzero o _ Nop)). pose proof (angle_range _ (from_nonzero o _ Nw)). lra.
Qed.

(** ** What the visibility test lets through *)
(** no vertex of [P] within a microdegree of an edge of [P] that does not end there *)
Definition thick (P : polygon) : Prop := forall c e q t, In c (verts P) -> edge_of P e -> ~ touches e c -> 0 < q -> 0 <= t <= q ->
  q * q <= (px c e q t) * (px c e q t) + (py c e q t) * (py c e q t).
Definition own_ok (P : polygon) : Prop := convex 1 P /\ thick P /\ distinct_keys o P.
(** nothing is cut on the way to [v] *)
Definition clear (v : coord) : Prop := forall P, In P ps -> (In v (verts P) -> own_ok P) -> ~ cuts o v P.

Lemma nonparallel_cone v s : swept s -> v <> o -> 0 <= turn o (first s) v -> 0 <= turn o v (final s) -> nonparallel s (mkS o v).
Proof.
  intros W N A B. destruct (cone_point o v s W N A B) as (Q & _). unfold nonparallel, seg_det, ray_q in *. cbn [e1 e2].
  destruct (ends_of o s) as [(E1 & E2 & _)|(E1 & E2 & _)]; rewrite E1, E2 in Q; unfold turn in Q; nia.
Qed.

Section Visible.
Variables (rp : list coord) (oe : open_edges) (v p n : coord) (Q : polygon).
Hypothesis Mo : moment o all rp v.
Hypothesis I : inv rp oe.
Hypothesis HQ : In Q ps.
Hypothesis K : corner Q p v n.
Notation oe1 := (oe1 oe v p n).

Lemma cut_entry P : In P ps -> (In v (verts P) -> own_ok P) -> cuts o v P -> exists d s, In (d, s) (oe_sorted oe1) /\ edge_of P s.
Proof.
  intros HP Ow Cu. destruct (erased rp oe v p n Q I HQ K) as [_ E]. destruct (in_dec coord_dec v (verts P)) as [Iv|Iv].
  - destruct (Ow Iv) as (C & _ & D). destruct (own_near rp v P Mo HP C Iv Cu) as (s & Es & Ne & Op & F).
    destruct (i_near _ _ I P HP C D s Es Ne Op) as (d & H). exists d, s. split; [apply E; auto|exact Es].
  - destruct (i_fed _ _ I P HP (cut_fed rp v P Mo HP Cu)) as (d & s & H & Es). exists d, s. split; [|exact Es]. apply E. split; [exact H|].
    intros F. apply Iv. rewrite <- F. apply ends_in, Es.
Qed.

Lemma front_inside R r d s : In (d, s) (oe_sorted oe1) -> edge_of R s -> 0 <= r -> inside o r R -> outside o (r + 1) Q ->
  exists x, intersection_with_segment s (mkS o v) = Ok (Some x) /\ x <> v.
Proof.
  intros H Es Hr In_ Out. destruct (across rp oe v p n Q Mo I HQ K d s H) as (R' & HR & _ & W & _ & _ & _ & _ & T1 & T2).
  pose proof (m_v _ _ _ _ Mo) as Nv. destruct (cone_point o v s W Nv T1 T2) as (Hq & Hu & t & Ht & X & Y).
  destruct (corner_facts Q p v n K) as (_ & Iv & _).
  pose proof (outside_vertex o (r + 1) Q v Out (ring_nd Q HQ) (ring_len Q HQ) Iv) as Dv.
  pose proof (inside_point o r R s (ray_q o v s) t In_ Es Hq Ht) as Ip. rewrite X, Y in Ip.
  destruct (gap_block (ray_q o v s) (ray_u o s) (dist2 o v) r Hq ltac:(lia) Hr) as [Lt Gp]; [|exact Dv|].
  { eapply Z.le_trans; [|exact Ip]. unfold dist2. apply Z.eq_le_incl. ring. }
  assert (Ge : polygon_edge ps s) by (apply (t_ok _ _ (proj1 (erased rp oe v p n Q I HQ K)) d s H)).
  apply (blocks o v s (ray_q o v s) t (ray_u o s)); try assumption; [apply edge_geo, Ge|apply G, (all_in Q v HQ Iv)|apply nonparallel_cone; assumption|lia].
Qed.
Lemma front_own d s : convex 1 Q -> thick Q -> cuts o v Q -> In (d, s) (oe_sorted oe1) -> edge_of Q s ->
  exists x, intersection_with_segment s (mkS o v) = Ok (Some x) /\ x <> v.
Proof.
  intros C Th Cu H Es. destruct (across rp oe v p n Q Mo I HQ K d s H) as (R' & HR & _ & W & _ & Fv & Fs & _ & T1 & T2).
  pose proof (m_v _ _ _ _ Mo) as Nv. destruct (cone_point o v s W Nv T1 T2) as (Hq & Hu & t & Ht & X & Y).
  destruct (corner_facts Q p v n K) as (_ & Iv & _).
  assert (Nt : e1 s <> v /\ e2 s <> v) by (destruct (ends_of o s) as [(A & B & _)|(A & B & _)]; rewrite A in Fs; rewrite B in Fv; auto).
  set (f := fun c => turn p v c + turn v n c).
  assert (Pos : forall c, In c (verts Q) -> c <> v -> 0 < f c) by (intros c Ic Nc; pose proof (convex_unique 1 Q p v n c C K Ic Nc); unfold f; lia).
  assert (Aff : forall e q t' u, px o e q t' = u * (lon v - lon o) -> py o e q t' = u * (lat v - lat o) -> (q - t') * f (e1 e) + t' * f (e2 e) = (q - u) * f o).
  { intros e q t' u X' Y'. unfold f.
    replace ((q - t') * (turn p v (e1 e) + turn v n (e1 e)) + t' * (turn p v (e2 e) + turn v n (e2 e))) with
      (((lon v - lon p) + (lon n - lon v)) * (py o e q t') - ((lat v - lat p) + (lat n - lat v)) * (px o e q t') + q * (turn p v o + turn v n o)) by (unfold turn, px, py; ring).
    rewrite X', Y'. unfold turn. ring. }
  assert (Fo : 0 < f o).
  { destruct Cu as [(e & E & _ & (q & t' & u & Q0 & Ht' & Hu' & X' & Y')) _].
    assert (A : (q - t') * f (e1 e) + t' * f (e2 e) = (q - u) * f o) by (apply Aff; unfold px, py; nia).
    destruct (edge_verts Q e E) as [I1 I2].
    assert (Fv0 : f v = 0) by (unfold f, turn; ring).
    assert (B1 : 0 <= f (e1 e)) by (destruct (coord_dec (e1 e) v) as [->|N1]; [lia|specialize (Pos _ I1 N1); lia]).
    assert (B2 : 0 <= f (e2 e)) by (destruct (coord_dec (e2 e) v) as [->|N2]; [lia|specialize (Pos _ I2 N2); lia]).
    destruct (Z.lt_trichotomy (f o) 0) as [L|[L|L]]; [nia| |exact L]. exfalso. rewrite L, Z.mul_0_r in A.
    assert (Z1 : t' = q \/ e1 e = v). { destruct (coord_dec (e1 e) v) as [E1|N1]; [auto|left]. specialize (Pos _ I1 N1). nia. }
    assert (Z2 : t' = 0 \/ e2 e = v). { destruct (coord_dec (e2 e) v) as [E2|N2]; [auto|left]. specialize (Pos _ I2 N2). nia. }
    assert (Xv : (q - t') * lon (e1 e) + t' * lon (e2 e) = q * lon v /\ (q - t') * lat (e1 e) + t' * lat (e2 e) = q * lat v).
    { destruct Z1 as [->|Z1], Z2 as [Z2|Z2]; try lia; try (rewrite Z2; split; ring); try (rewrite Z1, Z2; split; ring); subst t'; rewrite ?Z1; split; ring. }
    apply Nv, coord_ext; nia. }
  pose proof (Aff s _ _ _ X Y) as A. destruct (edge_verts Q s Es) as [I1 I2].
  pose proof (Pos _ I1 (proj1 Nt)) as P1. pose proof (Pos _ I2 (proj2 Nt)) as P2. 
  assert (Lt : ray_u o s < ray_q o v s) by (clear - A Fo P1 P2 Ht Hq; set (q := ray_q o v s) in *; nia).
  assert (Ge : polygon_edge ps s) by (apply (edge_poly Q); assumption).
  apply (blocks o v s (ray_q o v s) t (ray_u o s)); try assumption; [apply edge_geo, Ge|apply G, (all_in Q v HQ Iv)|apply nonparallel_cone; assumption|lia|].
  assert (Tt : ~ touches s v) by (intros [H1|H1]; [apply (proj1 Nt)|apply (proj2 Nt)]; exact H1).
  pose proof (Th v s (ray_q o v s) t Iv Es Tt Hq Ht) as B.
  assert (Bx : px v s (ray_q o v s) t = (ray_u o s - ray_q o v s) * (lon v - lon o)).
  { replace (px v s (ray_q o v s) t) with (px o s (ray_q o v s) t - ray_q o v s * (lon v - lon o)) by (unfold px; ring). rewrite X. ring. }
  assert (By : py v s (ray_q o v s) t = (ray_u o s - ray_q o v s) * (lat v - lat o)).
  { replace (py v s (ray_q o v s) t) with (py o s (ray_q o v s) t - ray_q o v s * (lat v - lat o)) by (unfold py; ring). rewrite Y. ring. }
  rewrite Bx, By in B. eapply Z.le_trans; [exact B|]. unfold dist2. apply Z.eq_le_incl. ring.
Qed.

Lemma cut_shares P : cuts o v P -> In P ps -> share_direction o P Q.
Proof.
  intros [(e & E & T & (q & t & u & Hq & Ht & Hu & X & Y)) _] HP. pose proof (m_v _ _ _ _ Mo) as Nv.
  exists v, e, (mkS v n). split; [exact Nv|]. split; [exact E|]. split; [apply (c_out _ _ _ _ K)|]. split; [|apply (vertex_ray o Q p v n K)].
  exists q, t, u. split; [exact Hq|]. split; [exact Ht|]. split; [|split; nia].
  destruct (Z.eq_dec u 0) as [->|]; [|lia]. exfalso. apply T, Off; [apply (edge_poly P); assumption|]. exists q, t. split; [exact Hq|]. split; [exact Ht|]. split; lia.
Qed.
(** the cut polygon is the nearer one *)
Lemma cut_inner P : cuts o v P -> In P ps -> P <> Q -> exists r, 0 <= r /\ inside o r P /\ outside o (r + 1) Q.
Proof.
  intros Cu HP N. destruct (Lay P Q HP HQ N (cut_shares P Cu HP)) as (r & R & [H|[A B]]); [exists r; tauto|exfalso].
  destruct Cu as [(e & E & T & (q & t & u & Hq & Ht & Hu & X & Y)) _]. destruct (corner_facts Q p v n K) as (_ & Iv & _).
  specialize (A v Iv). specialize (B e q t E Hq Ht).
  replace ((q - t) * (lon (e1 e) - lon o) + t * (lon (e2 e) - lon o)) with (u * (lon v - lon o)) in B by nia.
  replace ((q - t) * (lat (e1 e) - lat o) + t * (lat (e2 e) - lat o)) with (u * (lat v - lat o)) in B by nia.
  assert (u * u * dist2 o v <= q * q * (r * r)) by (unfold dist2 in *; apply Z.mul_le_mono_nonneg; nia).
  unfold dist2 in *. nia.
Qed.

Lemma visible_clear : is_vertex_visible m oe1 o v = Ok true -> clear v.
Proof.
  intros Vis P HP Ow Cu. destruct (cut_entry P HP Ow Cu) as (d & s & Hs & Es).
  destruct (corner_facts Q p v n K) as (_ & Iv & _).
  destruct (erased rp oe v p n Q I HQ K) as [Td Er].
  assert (Front : exists e, closest_edge oe1 = Ok e /\ forall x, intersection_with_segment e (mkS o v) = Ok (Some x) -> x = v).
  { unfold is_vertex_visible in Vis. destruct (coord_eqb v o); [discriminate Vis|].
    destruct (match vm_find m o with None => Ok true | Some ss => b <- barrier ss ;; point_visible b v end) as [b| |]; cbn [bind] in Vis; try discriminate Vis.
    destruct b; cbn [negb] in Vis; [|discriminate Vis].
    destruct (oe_empty oe1) eqn:Em; [unfold oe_empty in Em; destruct (oe_sorted oe1); [destruct Hs|discriminate Em]|].
    destruct (closest_edge oe1) as [e| |]; cbn [bind] in Vis; try discriminate Vis. exists e. split; [reflexivity|]. intros x Ex. rewrite Ex in Vis. cbn [bind] in Vis.
    injection Vis as Vis. apply coord_eqb_spec in Vis. exact Vis. }
  destruct Front as (e & Ce & Fe). destruct (tidy_head (polygon_edge ps) oe1 e Td Ce) as (d0 & H0 & Least).
  specialize (Least d s Hs).
  destruct (across rp oe v p n Q Mo I HQ K d s Hs) as (P' & HP' & Es' & Ws & Ks & _ & _ & _ & _ & _).
  destruct (across rp oe v p n Q Mo I HQ K d0 e H0) as (R & HR & Ee & We & Ke & _ & _ & _ & T1 & T2).
  assert (P' = P) by (apply (owner P' P (e1 s)); try assumption; [apply edge_verts, Es'|apply edge_verts, Es]). subst P'.
  assert (Stop : ~ exists x, intersection_with_segment e (mkS o v) = Ok (Some x) /\ x <> v) by (intros (x & X1 & X2); apply X2, Fe, X1).
  destruct (in_dec coord_dec v (verts R)) as [Vr|Vr]; [assert (R = Q) by (apply (owner R Q v); assumption); subst R|].
  - destruct (in_dec coord_dec v (verts P)) as [Vp|Vp].
    + assert (P = Q) by (apply (owner P Q v); assumption). subst P. destruct (Ow Vp) as (C & Th & _). apply Stop, (front_own d0 e); assumption.
    + assert (N : P <> Q) by (intros ->; contradiction). destruct (cut_inner P Cu HP N) as (r & Hr & A & B).
      pose proof (key_inside o r P d s Hr A Es Ks). pose proof (key_outside o r Q d0 e Hr B (ring_nd Q HQ) (ring_len Q HQ) Ee Ke). nia.
  - assert (NR : R <> Q) by (intros ->; contradiction).
    destruct (Lay R Q HR HQ NR (across_shares rp oe v p n Q Mo I HQ K d0 e R H0 Ee)) as (r & Hr & [[A B]|[A B]]); [apply Stop, (front_inside R r d0 e); assumption|].
    pose proof (key_outside o r R d0 e Hr B (ring_nd R HR) (ring_len R HR) Ee Ke) as K0.
    destruct (in_dec coord_dec v (verts P)) as [Vp|Vp].
    + assert (P = Q) by (apply (owner P Q v); assumption). subst P. pose proof (key_inside o r Q d s Hr A Es Ks). nia.
    + assert (N : P <> Q) by (intros ->; contradiction). destruct (cut_inner P Cu HP N) as (r2 & Hr2 & A2 & B2).
      pose proof (key_inside o r2 P d s Hr2 A2 Es Ks) as Kd. pose proof (outside_vertex o (r2 + 1) Q v B2 (ring_nd Q HQ) (ring_len Q HQ) Iv) as D2. specialize (A v Iv). nia.
Qed.
End Visible.

(** ** The edges open at the start *)
Hypothesis East : lon o < 540000001.
Notation scan := (initial_scanline o).
Definition body (oe : open_edges) (s : segment) : res open_edges :=
    if coord_eqb o (e1 s) || coord_eqb o (e2 s) then Ok oe
    else
      x <- intersection_with_segment s scan ;;
      match x with
      | None => Ok oe
      | Some r =>
          on1 <- on_segment scan (e1 s) ;;
          if on1 then Ok oe
          else
            on2 <- on_segment scan (e2 s) ;;
            if on2 then Ok oe
            else
              w <- coord_sub r o ;;
              d <- magnitude_squared_md w ;;
              Ok (oe_add oe d s)
      end.
Definition kz (s : segment) : Z := match intersection_with_segment s scan with Ok (Some r) => lon r - lon o | _ => 0 end.

Lemma scan_eq : scan = mkS o (mkC 540000001 (lat o)). Proof. reflexivity. Qed.
Lemma scan_geo : pgeo_seg scan.
Proof. rewrite scan_eq. split; [exact O|]. destruct O. split; cbn [e2 lon lat]; [lia|assumption]. Qed.
Lemma on_scan c : on_closed_segment scan c -> lat c = lat o.
Proof. rewrite scan_eq. intros (q & t & Q & _ & _ & Y). cbn [e1 e2 lat] in Y. nia. Qed.
Lemma initially_dec s : initially o s \/ ~ initially o s.
Proof.
  unfold initially. destruct (Z.eq_dec (turn o (e1 s) (e2 s)) 0) as [E|E]; [right; intros [W _]; exact (W E)|].
  destruct (Z_lt_dec (lat (first s)) (lat o)); [|right; lia]. destruct (Z_lt_dec (lat o) (lat (final s))); [left|right; lia]. split; [exact E|lia].
Qed.
Lemma on_scan_false c : all c \/ pgeo c -> lat c <> lat o -> on_segment scan c = Ok false.
Proof.
  intros A N. assert (Gc : pgeo c) by (destruct A as [A|A]; [apply G, A|exact A]).
  destruct (on_segment_membership scan c scan_geo Gc) as (b & -> & B). destruct b; [|reflexivity]. exfalso. apply N, on_scan. apply B. reflexivity.
Qed.

Lemma initial_in oe s : polygon_edge ps s -> initially o s -> body oe s = Ok (oe_add oe (kz s * kz s) s) /\ crossing_key o s (kz s).
Proof.
  intros E In. pose proof In as [W [A B]]. pose proof (edge_geo s E) as Gs. pose proof (swept_turn o s W) as T.
  destruct (initial_east o s In) as [_ (t & Ht & X & Y)]. set (h := lat (final s) - lat (first s)) in *. assert (Hh : 0 < h) by (subst h; lia).
  set (w := turn o (first s) (final s)) in *.
  assert (L : lat (e2 s) - lat (e1 s) = h \/ lat (e2 s) - lat (e1 s) = - h) by (subst h; destruct (ends_of o s) as [(-> & -> & _)|(-> & -> & _)]; lia).
  assert (L1 : lat (e1 s) <> lat o /\ lat (e2 s) <> lat o) by (destruct (ends_of o s) as [(E1 & E2 & _)|(E1 & E2 & _)]; rewrite E1, E2 in *; lia).
  assert (NP : nonparallel s scan) by (rewrite scan_eq; unfold nonparallel, seg_det; cbn [e1 e2 lon lat]; rewrite Z.sub_diag, Z.mul_0_r; clear - L Hh East; nia).
  assert (Bound : w <= h * (540000001 - lon o)).
  { rewrite <- X. unfold px. destruct Gs as [[G1 _] [G2 _]]. clear - G1 G2 Ht. nia. }
  destruct (intersection_detection s scan Gs scan_geo NP) as (r & R & M).
  assert (Mt : segments_meet s scan).
  { rewrite scan_eq. exists (h * (540000001 - lon o)), (t * (540000001 - lon o)), w. cbn [e1 e2 lon lat]. unfold px in X. unfold py in Y.
    split; [nia|]. split; [nia|]. split; [lia|]. split; [|nia].
    replace ((h * (540000001 - lon o) - t * (540000001 - lon o)) * lon (e1 s) + t * (540000001 - lon o) * lon (e2 s))
      with ((540000001 - lon o) * ((h - t) * (lon (e1 s) - lon o) + t * (lon (e2 s) - lon o)) + (540000001 - lon o) * h * lon o) by ring. rewrite X. ring. }
  apply M in Mt. destruct r as [r|]; [|congruence].
  destruct (intersection_accuracy s scan r Gs scan_geo NP R) as (x & y & _ & _ & Un & Dx & _ & _ & Jy & _).
  assert (H' : (0 < IZR h)%R) by (apply IZR_lt; exact Hh).
  destruct (Un (IZR (lon o) + IZR w / IZR h)%R (IZR (lat o))) as [Ex Ey].
  { exists (IZR t / IZR h)%R. split.
    - destruct Ht as [T1 T2]. apply IZR_le in T1. apply IZR_le in T2. split; [apply Rmult_le_pos; [exact T1|left; apply Rinv_0_lt_compat, H']|].
      apply Rmult_le_reg_r with (IZR h); [exact H'|]. unfold Rdiv. rewrite Rmult_assoc, Rinv_l by lra. lra.
    - apply (f_equal IZR) in X. apply (f_equal IZR) in Y. unfold px in X. unfold py in Y. rewrite plus_IZR, !mult_IZR, !minus_IZR in X. rewrite plus_IZR, !mult_IZR, !minus_IZR in Y.
      split; apply Rmult_eq_reg_r with (IZR h); try lra.
      + replace ((IZR (lon o) + IZR w / IZR h) * IZR h)%R with (IZR (lon o) * IZR h + IZR w)%R by (field; lra). rewrite <- X. field. lra.
      + field_simplify; [|lra]. lra. }
  { rewrite scan_eq. exists (IZR w / (IZR h * (540000001 - IZR (lon o))))%R. cbn [e1 e2 lon lat].
    assert (Mo : (0 < 540000001 - IZR (lon o))%R) by (apply IZR_lt in East; lra).
    apply IZR_le in Bound. rewrite mult_IZR, minus_IZR in Bound. pose proof (IZR_lt _ _ T) as Tw.
    assert (P0 : (0 < IZR h * (540000001 - IZR (lon o)))%R) by (apply Rmult_lt_0_compat; assumption).
    split; [|split; [field; lra|ring]]. split; [apply Rmult_le_pos; [lra|left; apply Rinv_0_lt_compat, P0]|].
    apply Rmult_le_reg_r with (IZR h * (540000001 - IZR (lon o)))%R; [exact P0|]. unfold Rdiv. rewrite Rmult_assoc, Rinv_l by lra. lra. }
  assert (Ly : lat r = lat o) by (apply Jy; auto). rewrite <- Ex in Dx.
  assert (Kr : kz s = lon r - lon o) by (unfold kz; rewrite R; reflexivity).
  split.
  - unfold body. destruct (swept_ends o s W) as (N1 & N2 & _).
    assert (No1 : o <> e1 s /\ o <> e2 s) by (destruct (ends_of o s) as [(E1 & E2 & _)|(E1 & E2 & _)]; rewrite E1 in N1; rewrite E2 in N2; split; congruence).
    rewrite (proj2 (coord_eqb_neq _ _) (proj1 No1)), (proj2 (coord_eqb_neq _ _) (proj2 No1)). cbn [orb]. rewrite R. cbn [bind].
    destruct Gs as [G1 G2]. rewrite (on_scan_false (e1 s) (or_intror G1) (proj1 L1)), (on_scan_false (e2 s) (or_intror G2) (proj2 L1)). cbn [bind].
    destruct (intersection_total s scan (conj G1 G2) scan_geo) as (r' & R' & Pr). rewrite R in R'. injection R' as <-.
    destruct (msq_pgeo r o (Pr r eq_refl) O) as (d & D & ->). destruct (coord_sub r o) as [z| |]; cbn [bind] in *; try discriminate D. rewrite D. cbn [bind].
    do 2 f_equal. rewrite Kr, Ly. ring.
  - assert (C : 100 * Z.abs (kz s * h - w) <= 51 * h).
    { apply le_IZR. rewrite !mult_IZR, abs_IZR, minus_IZR, mult_IZR, Kr, minus_IZR.
      replace (IZR (lon r) - (IZR (lon o) + IZR w / IZR h))%R with (((IZR (lon r) - IZR (lon o)) * IZR h - IZR w) * / IZR h)%R in Dx by (field; lra).
      rewrite Rabs_mult, (Rabs_pos_eq (/ IZR h)) in Dx by (left; apply Rinv_0_lt_compat, H').
      apply (Rmult_le_compat_r (IZR h)) in Dx; [|lra]. rewrite Rmult_assoc, Rinv_l, Rmult_1_r in Dx by lra. nra. }
    unfold crossing_key. unfold w, h in *. destruct (ends_of o s) as [(E1 & E2 & _)|(E1 & E2 & _)]; rewrite E1, E2 in *.
    + rewrite (Z.abs_eq (lat (e2 s) - lat (e1 s))) by lia. exact C.
    + rewrite (turn_swap o (e1 s) (e2 s)) in C. rewrite (Z.abs_neq (lat (e2 s) - lat (e1 s))) by lia.
      replace (kz s * (lat (e1 s) - lat (e2 s)) - - turn o (e1 s) (e2 s)) with (- (kz s * (lat (e2 s) - lat (e1 s)) - turn o (e1 s) (e2 s))) in C by ring.
      rewrite Z.abs_opp in C. lia.
Qed.
Lemma initial_out oe s : polygon_edge ps s -> ~ initially o s -> body oe s = Ok oe.
Proof.
  intros E N. pose proof (edge_geo s E) as Gs. unfold body.
  destruct (coord_eqb o (e1 s)) eqn:C1; cbn [orb]; [reflexivity|]. destruct (coord_eqb o (e2 s)) eqn:C2; [reflexivity|].
  apply coord_eqb_neq in C1. apply coord_eqb_neq in C2.
  destruct (intersection_total s scan Gs scan_geo) as (r & R & Pr). rewrite R. cbn [bind]. destruct r as [r|]; [|reflexivity].
  pose proof Gs as [G1 G2]. destruct (on_segment_membership scan (e1 s) scan_geo G1) as (b1 & -> & B1). destruct (on_segment_membership scan (e2 s) scan_geo G2) as (b2 & -> & B2). cbn [bind].
  destruct b1; [reflexivity|]. destruct b2; [reflexivity|]. exfalso.
  assert (N1 : ~ on_closed_segment scan (e1 s)) by (intros X; apply B1 in X; discriminate X).
  assert (N2 : ~ on_closed_segment scan (e2 s)) by (intros X; apply B2 in X; discriminate X). clear B1 B2.
  destruct (Z.eq_dec (lat (e1 s)) (lat (e2 s))) as [Eq|Ne].
  - destruct (intersection_parallel_full s scan Gs scan_geo) as (r' & R' & H & _).
    { rewrite scan_eq. unfold nonparallel, seg_det. cbn [e1 e2 lon lat]. nia. }
    rewrite R in R'. injection R' as <-. destruct (H r eq_refl) as (_ & Os & [[->| ->] _]); contradiction.
  - assert (NP : nonparallel s scan) by (rewrite scan_eq; unfold nonparallel, seg_det; cbn [e1 e2 lon lat]; rewrite Z.sub_diag, Z.mul_0_r; nia).
    destruct (intersection_detection s scan Gs scan_geo NP) as (r' & R' & M). rewrite R in R'. injection R' as <-.
    assert (Mt : segments_meet s scan) by (apply M; discriminate). rewrite scan_eq in Mt. destruct Mt as (q & t & u & Q & Ht & Hu & X & Y). cbn [e1 e2 lon lat] in X, Y.
    assert (L1 : lat (e1 s) <> lat o).
    { intros L. assert (t = 0) by nia. subst t. apply N1. rewrite scan_eq. exists q, u. cbn [e1 e2 lon lat]. split; [exact Q|]. split; [exact Hu|]. split; nia. }
    assert (L2 : lat (e2 s) <> lat o).
    { intros L. assert (t = q) by nia. subst t. apply N2. rewrite scan_eq. exists q, u. cbn [e1 e2 lon lat]. split; [exact Q|]. split; [exact Hu|]. split; nia. }
    assert (U : 0 < u).
    { destruct (Z.eq_dec u 0) as [->|]; [|lia]. exfalso. destruct (Off s E) as [T|T]; [exists q, t; split; [exact Q|]; split; [exact Ht|]; split; lia|congruence|congruence]. }
    set (a := lon (e1 s) - lon o) in *. set (b := lon (e2 s) - lon o) in *. set (c := lat (e1 s) - lat o) in *. set (d := lat (e2 s) - lat o) in *.
    assert (Px : (q - t) * a + t * b = u * (540000001 - lon o)) by (subst a b; nia).
    assert (Py : (q - t) * c + t * d = 0) by (subst c d; nia).
    assert (Tn : turn o (e1 s) (e2 s) = a * d - c * b) by (unfold turn; subst a b c d; ring).
    assert (Nc : c <> 0 /\ d <> 0) by (subst c d; lia).
    assert (Pp : 0 < (q - t) * a + t * b) by (rewrite Px; nia).
    assert (Sg : ((q - t) * a + t * b) * d = (q - t) * (a * d - c * b)).
    { replace (((q - t) * a + t * b) * d) with ((q - t) * (a * d) + b * (t * d)) by ring. replace (t * d) with (- ((q - t) * c)) by lia. ring. }
    assert (Tq : 0 < t < q) by (clear - Py Nc Ht Q; nia).
    apply N. unfold initially, SweepOrder.swept, SweepOrder.first, SweepOrder.final. rewrite Tn.
    assert (Cd : (c < 0 < d) \/ (d < 0 < c)) by (clear - Py Nc Tq; nia).
    set (k := (q - t) * a + t * b) in *. clearbody k. set (z := a * d - c * b) in *.
    destruct Cd as [Cd|Cd].
    + assert (0 < z) by (clear - Sg Cd Pp Tq; nia). destruct (Z.ltb_spec 0 z); [|lia]. split; [lia|]. subst c d. lia.
    + assert (z < 0) by (clear - Sg Cd Pp Tq; nia). destruct (Z.ltb_spec 0 z); [lia|]. split; [lia|]. subst c d. lia.
Qed.

Lemma initial_fold segs : Forall (polygon_edge ps) segs -> forall oe, tidy (polygon_edge ps) oe ->
  (forall d s, In (d, s) (oe_sorted oe) -> initially o s /\ d = kz s * kz s) ->
  exists oe', foldM body segs oe = Ok oe' /\ tidy (polygon_edge ps) oe' /\
    (forall d s, In (d, s) (oe_sorted oe') -> initially o s /\ d = kz s * kz s) /\
    (forall x, In x (oe_sorted oe) -> In x (oe_sorted oe')) /\
    (forall s, In s segs -> initially o s -> exists t, In (kz s * kz s, t) (oe_sorted oe')).
Proof.
  induction 1 as [|s segs E F IH]; intros oe T H.
  { exists oe. split; [reflexivity|]. split; [exact T|]. split; [exact H|]. split; [auto|intros s []]. }
  cbn [foldM]. destruct (initially_dec s) as [In_|In_].
  - destruct (initial_in oe s E In_) as [-> _]. cbn [bind].
    destruct (tidy_add (polygon_edge ps) same oe (kz s * kz s) s T E) as [T1 E1]; [intros e He; exact (proj2 (H e s He))|].
    destruct (IH (oe_add oe (kz s * kz s) s) T1) as (oe' & R & T' & H' & Kp & Al).
    { intros d t Hd. apply E1 in Hd. destruct Hd as [Hd|[Hd _]]; [apply H, Hd|]. injection Hd as -> ->. auto. }
    exists oe'. split; [exact R|]. split; [exact T'|]. split; [exact H'|]. split; [intros x X; apply Kp, E1; left; exact X|].
    intros t [<-|Ht] It; [|apply Al; assumption].
    assert (Dec : (exists y, In y (oe_sorted oe) /\ fst y = kz s * kz s) \/ (forall y, In y (oe_sorted oe) -> fst y <> kz s * kz s)).
    { clear. induction (oe_sorted oe) as [|y l IH]; [right; intros y []|]. destruct (Z.eq_dec (fst y) (kz s * kz s)) as [E|E]; [left; exists y; split; [left; reflexivity|exact E]|].
      destruct IH as [(z & Z1 & Z2)|IH]; [left; exists z; split; [right; exact Z1|exact Z2]|right]. intros z [<-|Hz]; auto. }
    destruct Dec as [([d t] & Y1 & Y2)|Dec]; [cbn [fst] in Y2; subst d; exists t; apply Kp, E1; left; exact Y1|exists s; apply Kp, E1; right; auto].
  - rewrite (initial_out oe s E In_). cbn [bind]. destruct (IH oe T H) as (oe' & R & T' & H' & Kp & Al).
    exists oe'. split; [exact R|]. split; [exact T'|]. split; [exact H'|]. split; [exact Kp|]. intros t [<-|Ht] It; [contradiction|apply Al; assumption].
Qed.
Lemma every_edge s : polygon_edge ps s -> In s (flat_map snd m).
Proof.
  intros E. destruct (poly_edge s E) as (P & HP & Es). destruct (edge_verts P s Es) as [I1 _].
  destruct (incident_map_good ps) as [[N H] Kv]. destruct (vm_find m (e1 s)) as [inc|] eqn:F.
  - destruct (at_vertex _ _ F) as (Q & p & n & HQ & Iq & K & ->). apply find_in in F. apply in_flat_map. exists (e1 s, [mkS p (e1 s); mkS (e1 s) n]). split; [exact F|].
    assert (P = Q) by (apply (owner P Q (e1 s)); assumption). subst Q. cbn [snd In].
    destruct (c_only _ _ _ _ K s Es (or_introl eq_refl)) as [X|X]; rewrite X at 2; rewrite X in *; auto.
  - exfalso. apply (find_keys m (e1 s)); [apply Kv, (all_in P _ HP I1)|exact F].
Qed.
Lemma initial_inv segs oe : Permutation segs (flat_map snd m) -> initial_edges o segs = Ok oe -> inv [] oe.
Proof.
  intros Pm E. assert (F : Forall (polygon_edge ps) segs) by (apply (Permutation_Forall (Permutation_sym Pm)), segments_edges).
  destruct (initial_fold segs F no_edges (tidy_none _)) as (oe' & R & T & H & _ & Al); [intros d s []|].
  assert (Eo : oe' = oe) by (unfold initial_edges in E; change (foldM body segs no_edges = Ok oe) in E; congruence). subst oe'.
  assert (Full : forall P s, In P ps -> edge_of P s -> initially o s -> exists t, In (kz s * kz s, t) (oe_sorted oe) /\ edge_of P t).
  { intros P s HP Es It. pose proof (edge_poly P s HP Es) as Ep.
    destruct (Al s (Permutation_in _ (Permutation_sym Pm) (every_edge s Ep)) It) as (t & Ht). exists t. split; [exact Ht|].
    pose proof (t_ok _ _ T _ _ Ht) as Et. destruct (poly_edge t Et) as (Q & HQ & Eq). destruct (H _ _ Ht) as [Iq Kq].
    destruct (in_dec coord_dec (e1 t) (verts P)) as [In_|Nin].
    - rewrite (owner P Q (e1 t) HP HQ In_ (proj1 (edge_verts Q t Eq))). exact Eq.
    - exfalso. assert (N : Q <> P) by (intros ->; apply Nin, edge_verts, Eq).
      apply (keys_apart Q P (kz t * kz t) t (kz s * kz s) HQ HP N Eq); [right; split; [exact Iq|exists (kz t); split; [reflexivity|apply (initial_in no_edges t Et Iq)]]| | |congruence].
      + exists s. split; [exact Es|right; split; [exact It|exists (kz s); split; [reflexivity|apply (initial_in no_edges s Ep It)]]].
      + exists (east o), t, s. split; [apply east_ne|]. split; [exact Eq|]. split; [exact Es|]. split; apply initial_east; assumption. }
  split.
  - exact T.
  - intros d s Hs. destruct (H d s Hs) as [Is ->]. split; [apply Is|]. split; [exact Is|]. right. split; [exact Is|]. exists (kz s). split; [reflexivity|].
    apply (initial_in no_edges s (t_ok _ _ T _ _ Hs) Is).
  - intros P HP (s & Es & Is). destruct (Full P s HP Es Is) as (t & Ht & Et). exists (kz s * kz s), t. auto.
  - intros P HP _ (_ & _ & D) s Es Ns Is. cbn [open_after] in Is. destruct (Full P s HP Es Is) as (t & Ht & Et).
    exists (kz s * kz s). destruct (H _ _ Ht) as [It Kt].
    assert (Dec : {s = t} + {s <> t}) by (decide equality; apply coord_dec). destruct Dec as [->|N]; [exact Ht|exfalso].
    apply (D s t (kz s) (kz t) Es Et N Is It); [apply (initial_in no_edges s (edge_poly P s HP Es) Is)|apply (initial_in no_edges t (edge_poly P t HP Et) It)|exact Kt].
Qed.

(** ** The sweep *)
Definition corner_open (v : coord) : Prop := forall ss b, vm_find m o = Some ss -> barrier ss = Ok b -> point_visible b v = Ok true.
Lemma visible_corner oe v : v <> o -> is_vertex_visible m oe o v = Ok true -> corner_open v.
Proof.
  intros N E ss b F B. unfold is_vertex_visible in E. rewrite (proj2 (coord_eqb_neq _ _) N) in E. rewrite F, B in E. cbn [bind] in E.
  destruct (point_visible b v) as [[|]| |]; cbn [bind negb] in E; congruence.
Qed.
Lemma fit_entries rp oe v p n P : moment o all rp v -> inv rp oe -> In P ps -> corner P p v n -> entries (fit (polygon_edge ps) o) (oe1 oe v p n).
Proof.
  intros Mo I HP K. apply Forall_forall. intros [d s] Hs. destruct (across rp oe v p n P Mo I HP K d s Hs) as (Q & HQ & Es & Sw & _).
  split; [exact (edge_poly Q s HQ Es)|]. cbn [snd]. intros T. apply Sw. destruct T as [<-|<-]; unfold turn; ring.
Qed.
Lemma sweep_clear init half : coord_i32 init -> forall vs rp oe res, StronglySorted (before o) vs -> StronglySorted (later o) rp ->
  (forall c, In c vs -> all c /\ c <> o) -> (forall c, In c rp -> c <> o) -> (forall c d, In c rp -> In d vs -> before o c d) ->
  (forall c, all c -> c <> o -> In c rp \/ In c vs) -> inv rp oe ->
  sweep m init o half vs oe = Ok res -> exists seen, Forall2 reports_as seen res /\
    (forall v, In v seen -> In v (scanned init o half vs) /\ clear v /\ corner_open v) /\
    (forall v, In v (scanned init o half vs) -> In v seen \/ hidden (polygon_edge ps) m o v).
Proof.
  intros Ii. induction vs as [|v vs IH]; intros rp oe res Sv Sr Av Ar Bf Cov I E.
  { cbn [sweep] in E. injection E as <-. exists []. split; [constructor|split; intros v []]. }
  inversion Sv as [|? ? Sv' Fv]; subst. rewrite Forall_forall in Fv. destruct (Av v (or_introl eq_refl)) as [Avv Nvo]. cbn [sweep] in E.
  rewrite (proj2 (coord_eqb_neq o v)) in E by congruence.
  rewrite (past_half_ok init o O Ii half v (G v Avv) Nvo) in E. cbn [bind] in E. cbn [scanned].
  destruct (ahead init o half v); cbn [negb] in E; [|injection E as <-; exists []; split; [constructor|split; intros x []]].
  destruct (vm_at m v) as [inc| |] eqn:Va; cbn [bind] in E; try discriminate E.
  unfold vm_at in Va. destruct (vm_find m v) as [inc'|] eqn:Vf; [|discriminate Va]. injection Va as ->.
  destruct (at_vertex v inc Vf) as (P & p & n & HP & Iv & K & ->). destruct (corner_facts P p v n K) as (Ip & _ & In_).
  pose proof (all_in P p HP Ip) as Ap. pose proof (all_in P n HP In_) as An.
  rewrite (orient v p n CLOCKWISE (fun z => z <? 0) Avv Ap An (c_pv _ _ _ _ K) cw_want) in E. cbn [bind] in E.
  rewrite (orient v p n COUNTER_CLOCKWISE (fun z => 0 <? z) Avv Ap An (c_pv _ _ _ _ K) ccw_want) in E. cbn [bind] in E.
  fold (closing v p n) in E. fold (opening v p n) in E. fold (oe1 oe v p n) in E. cbv zeta in E.
  assert (Mo : moment o all rp v).
  { split; [exact Sr|exact Nvo|exact Ar|intros c C; apply Bf; [exact C|left; reflexivity]|].
    intros c Ac Nc Ncv Nr. destruct (Cov c Ac Nc) as [H|[H|H]]; [contradiction|congruence|apply Fv, H]. }
  assert (Hid : is_vertex_visible m (oe1 oe v p n) o v = Ok false -> hidden (polygon_edge ps) m o v).
  { intros Vis. destruct (visible_total (polygon_edge ps) m o edge_geo (map_ok_polygons ps o G) O (oe1 oe v p n) v (G v Avv) Nvo (fit_entries rp oe v p n P Mo I HP K)) as (b & Vb & Hb).
    apply Hb. congruence. }
  destruct (is_vertex_visible m (oe1 oe v p n) o v) as [b| |] eqn:Vis; cbn [bind] in E; try discriminate E.
  destruct (if b then normalize_coord v else Ok v) as [nv| |] eqn:Nm; cbn [bind] in E; try discriminate E.
  rewrite (added oe v p n P HP K) in E. cbn [bind] in E.
  destruct (sweep m init o half vs (oe2 oe v p n)) as [rest| |] eqn:Es; cbn [bind] in E; try discriminate E.
  destruct (IH (v :: rp) (oe2 oe v p n) rest) as (seen & F & C & D).
  - exact Sv'.
  - constructor; [exact Sr|]. apply Forall_forall. intros c Hc. apply Bf; [exact Hc|left; reflexivity].
  - intros c Hc. apply Av. right. exact Hc.
  - intros c [<-|Hc]; [exact Nvo|apply Ar, Hc].
  - intros c d [<-|Hc] Hd; [apply Fv, Hd|apply Bf; [exact Hc|right; exact Hd]].
  - intros c Ac Nc. destruct (Cov c Ac Nc) as [H|[H|H]]; [left; right; exact H|left; left; exact H|right; exact H].
  - exact (step_inv rp oe v p n P Mo I HP K).
  - exact Es.
  - destruct b; injection E as <-.
    + exists (v :: seen). split; [constructor; [|exact F]|split].
      * split; [exact Nm|reflexivity].
      * intros x [<-|X]; [split; [left; reflexivity|]|destruct (C x X); split; [right; assumption|assumption]].
        split; [exact (visible_clear rp oe v p n P Mo I HP K Vis)|exact (visible_corner _ v Nvo Vis)].
      * intros x [<-|X]; [left; left; reflexivity|]. destruct (D x X); [left; right; assumption|right; assumption].
    + exists seen. split; [exact F|]. split; [intros x X; destruct (C x X); split; [right; assumption|assumption]|].
      intros x [<-|X]; [right; apply Hid; reflexivity|apply D, X].
Qed.
End Sound.

(** ** The part of the circle that is scanned *)
Lemma scanned_in init o half vs v : In v (scanned init o half vs) -> In v vs.
Proof. induction vs as [|w vs IH]; intros H; [exact H|]. cbn [scanned] in H. destruct (ahead init o half w); [|destruct H]. destruct H as [<-|H]; [left; reflexivity|right; auto]. Qed.
Lemma before_upper o a b : b <> o -> before o a b -> lat o <= lat b -> lat o <= lat a.
Proof.
  intros N B H. destruct (Z.le_gt_cases (lat o) (lat a)) as [X|X]; [exact X|exfalso].
  assert (Na : a <> o) by (intros ->; lia). pose proof (from_nonzero o a Na) as Za.
  assert (U := angle_upper (from o b) ltac:(unfold from; cbn [lat]; lia)). assert (W := angle_lower (from o a) Za ltac:(unfold from; cbn [lat]; lia)).
  destruct B as [B|[B _]]; lra.
Qed.
Lemma scanned_upper o vs v : lon o < 540000001 -> StronglySorted (before o) vs -> In v vs -> lat o <= lat v -> (forall c, In c vs -> c <> o) ->
  In v (scanned (init_vec o) o true vs).
Proof.
  intros East. induction vs as [|w vs IH]; intros S V H N; [destruct V|]. inversion S as [|? ? S' F]; subst. rewrite Forall_forall in F. cbn [scanned].
  assert (A : ahead (init_vec o) o true w = true).
  { apply (ahead_lat o w East). destruct V as [<-|V]; [exact H|]. apply (before_upper o w v); [apply N; right; exact V|apply F, V|exact H]. }
  rewrite A. destruct V as [<-|V]; [left; reflexivity|right]. apply IH; try assumption. intros c C. apply N. right. exact C.
Qed.
Lemma corner_unique ps p o n p' n' : NoDup (polygon_vertices ps) -> corner_of ps p o n -> corner_of ps p' o n' -> p = p' /\ n = n'.
Proof.
  intros Nd (P & i & HP & Hi & -> & Ei & ->) (Q & j & HQ & Hj & -> & Ej & ->).
  assert (P = Q) by (apply (nodup_owner ps P Q o Nd HP HQ); [rewrite Ei|rewrite Ej]; apply nth_In; assumption). subst Q.
  assert (i = j) by (apply (ring_edge_inj P i j Hi Hj (nodup_parts ps P Nd HP)); congruence). subst j. auto.
Qed.

Theorem sweep_trace atan2 ord ps o half : accurate_atan2 atan2 -> library_orders ord -> pgeo o -> lon o < 540000001 ->
  (forall c, In c (polygon_vertices ps) -> pgeo c) -> NoDup (polygon_vertices ps) -> all_separated o (polygon_vertices ps) ->
  (forall P, In P ps -> exists sg, convex sg P) -> off_edges o ps -> layered o ps ->
  exists res seen, get_visible_vertices atan2 ord (vistree_of_polygons ps) o half = Ok res /\ Forall2 reports_as seen res /\
    (forall v, In v seen -> In v (polygon_vertices ps) /\ v <> o /\ (half = true -> lat o <= lat v) /\
      (forall P, In P ps -> (In v (verts P) -> own_ok o P) -> ~ cuts o v P) /\
      (forall p n, corner_of ps p o n -> point_visible (mkPL p o n) v = Ok true)) /\
    (forall v, In v (polygon_vertices ps) -> v <> o -> (half = true -> lat o <= lat v) -> In v seen \/ blocked_vertex ps o v).
Proof.
  intros At L O East G Nd Sep Cx Off Lay.
  assert (Len : forall P, In P ps -> (3 <= length (verts P))%nat) by (intros P H; destruct (Cx P H) as (sg & _ & Le & _); exact Le).
  destruct (get_visible_ok atan2 ord ps o half L O G) as (res & _ & R & Nv & Iv & _). exists res.
  destruct (incident_map_good ps) as [[Nk _] Kv].
  assert (W : forall c, pgeo c -> wide c) by (intros c [A B]; split; lia).
  set (l := o_vertices ord (map fst (incident_map ps))).
  assert (Pl : Permutation l (map fst (incident_map ps))) by apply L.
  assert (Il : forall c, In c l <-> In c (polygon_vertices ps)).
  { intros c. rewrite <- Kv. split; apply Permutation_in; [exact Pl|apply Permutation_sym, Pl]. }
  destruct (sort_separated atan2 o l At (W o O)) with (ord := ord) as (out & So & Po & Or).
  { intros v V. apply W, G, Il, V. } { intros a b A B. apply Sep; apply Il; assumption. } { exact L. } { eapply Permutation_NoDup; [apply Permutation_sym, Pl|exact Nk]. }
  assert (Io : forall c, In c out <-> In c (polygon_vertices ps)).
  { intros c. rewrite <- Il. split; apply Permutation_in; [exact Po|apply Permutation_sym, Po]. }
  enough (En : exists seen, Forall2 reports_as seen res /\
    (forall v, In v seen -> In v (polygon_vertices ps) /\ v <> o /\ (half = true -> lat o <= lat v) /\
      (forall P, In P ps -> (In v (verts P) -> own_ok o P) -> ~ cuts o v P) /\
      (forall p n, corner_of ps p o n -> point_visible (mkPL p o n) v = Ok true)) /\
    (forall v, In v (polygon_vertices ps) -> v <> o -> (half = true -> lat o <= lat v) -> In v seen \/ blocked_vertex ps o v))
    by (destruct En as (seen & En); exists seen; split; [exact R|exact En]).
  revert R. unfold get_visible_vertices, visible_from, vistree_of_polygons. cbn [vt_map vt_segments].
  assert (Me : forall (x y : Base.res (list visible)), (incident_map ps = [] /\ match incident_map ps with [] => x | _ :: _ => y end = x) \/ match incident_map ps with [] => x | _ :: _ => y end = y)
    by (intros x y; destruct (incident_map ps); auto).
  match goal with |- match _ with [] => ?x | _ :: _ => ?y end = _ -> _ => destruct (Me x y) as [[Em ->] | ->] end; clear Me.
  { intros E. injection E as <-. exists []. split; [constructor|]. split; [intros v []|intros v V]. exfalso. apply Kv in V. rewrite Em in V. destruct V. }
  fold l. rewrite So. cbn [bind]. destruct (init_ok o O) as [-> _]. cbn [bind].
  destruct (initial_edges o (o_segments ord (flat_map snd (incident_map ps)))) as [oe| |] eqn:Ie; cbn [bind]; try discriminate. intros E.
  assert (J : inv ps o [] oe) by (apply (initial_inv ps o O G Nd Len Off Lay East _ oe (proj1 (proj2 L) _) Ie)).
  assert (Tl : exists tl, sweep (incident_map ps) (init_vec o) o half tl oe = Ok res /\ StronglySorted (before o) tl /\
     (forall c, In c tl -> In c out /\ c <> o) /\ (forall c, In c out -> c <> o -> In c tl)).
  { assert (St : forall t, (exists h, out = h :: t) -> StronglySorted (before o) t /\ forall c, In c t -> c <> o).
    { intros t (h & ->). assert (A : forall c, In c t -> c <> o).
      { intros c C. apply in_split in C. destruct C as (l1 & l2 & ->). apply (Or [] h l1 c l2 eq_refl). }
      split; [|exact A]. assert (B : forall l1 a l2 b l3, t = l1 ++ a :: l2 ++ b :: l3 -> before o a b).
      { intros l1 a l2 b l3 ->. destruct (Or (h :: l1) a l2 b l3 eq_refl) as [_ [->|X]]; [|exact X]. exfalso. apply (A o); [apply in_or_app; right; left; reflexivity|reflexivity]. }
      clear - B. induction t as [|a t IH]; constructor.
      - apply IH. intros l1 x l2 y l3 ->. apply (B (a :: l1) x l2 y l3). reflexivity.
      - apply Forall_forall. intros c C. apply in_split in C. destruct C as (l1 & l2 & ->). apply (B [] a l1 c l2). reflexivity. }
    destruct out as [|h t]; [exists []; split; [exact E|]; split; [constructor|]; split; [intros c []|intros c []]|].
    destruct (St t (ex_intro _ h eq_refl)) as [S1 S2].
    destruct (coord_eq_dec h o) as [->|Nh].
    - exists t. cbn [sweep] in E. rewrite coord_eqb_refl in E. split; [exact E|]. split; [exact S1|]. split; [intros c C; split; [right; exact C|apply S2, C]|].
      intros c [<-|C] N; [congruence|exact C].
    - exists (h :: t). split; [exact E|]. split; [|split; [|auto]].
      + constructor; [exact S1|]. apply Forall_forall. intros c C. apply in_split in C. destruct C as (l1 & l2 & ->).
        destruct (Or [] h l1 c l2 eq_refl) as [_ [X|X]]; [congruence|exact X].
      + intros c [<-|C]; [split; [left; reflexivity|exact Nh]|split; [right; exact C|apply S2, C]]. }
  destruct Tl as (tl & Et & St & T1 & T2). destruct (init_ok o O) as [_ Ii].
  destruct (sweep_clear ps o O G Nd Len Cx Off Lay East (init_vec o) half Ii tl [] oe res St (SSorted_nil _)) as (seen & F & C & D).
  { intros c Hc. destruct (T1 c Hc) as [A B]. split; [apply Io, A|exact B]. } { intros c []. } { intros c d []. }
  { intros c A B. right. apply T2; [apply Io, A|exact B]. } { exact J. } { exact Et. }
  assert (Gd : forall v ss, vm_find (incident_map ps) v = Some ss -> exists p n, corner_of ps p v n /\ ss = [mkS p v; mkS v n]) by exact (proj2 (proj1 (incident_map_good ps))).
  exists seen. split; [exact F|]. split.
  - intros v V. destruct (C v V) as (C1 & C2 & C3). destruct (T1 v (scanned_in _ _ _ _ _ C1)) as [T3 T4].
    split; [apply Io, T3|]. split; [exact T4|]. split; [intros ->; apply (ahead_lat o v East), (scanned_ahead _ _ _ _ C1)|]. split; [exact C2|].
    intros p n K. apply (C3 [mkS p o; mkS o n]); [|reflexivity]. destruct (vm_find (incident_map ps) o) as [ss|] eqn:Fd.
    + destruct (Gd o ss Fd) as (p' & n' & K' & ->). destruct (corner_unique ps p o n p' n' Nd K K') as [-> ->]. reflexivity.
    + exfalso. apply (find_keys (incident_map ps) o); [|exact Fd]. apply Kv. destruct K as (P & i & HP & Hi & _ & -> & _). apply (all_in ps P _ HP). apply nth_In, Hi.
  - intros v V Nvo H. assert (Hv : In v tl) by (apply T2; [apply Io, V|exact Nvo]).
    assert (Sc : In v (scanned (init_vec o) o half tl)).
    { destruct half; [|rewrite scanned_full; exact Hv]. apply scanned_upper; [exact East|exact St|exact Hv|auto|intros c Hc; apply T1, Hc]. }
    destruct (D v Sc) as [X|[X|X]]; [left; exact X|right; left|right; right].
    + destruct X as (ss & b & Fd & B & Pv). destruct (Gd _ _ Fd) as (p & n & K & ->). exists p, n. split; [exact K|].
      cbn [barrier barrier_from app e1 e2] in B. inversion B; subst b. exact Pv.
    + destruct X as (e & [E' T] & M). exists e. auto.
Qed.

Theorem sweep_sound atan2 ord ps o half : accurate_atan2 atan2 -> library_orders ord -> pgeo o -> lon o < 540000001 ->
  (forall c, In c (polygon_vertices ps) -> pgeo c) -> NoDup (polygon_vertices ps) -> all_separated o (polygon_vertices ps) ->
  (forall P, In P ps -> exists sg, convex sg P) -> off_edges o ps -> layered o ps ->
  exists res seen, get_visible_vertices atan2 ord (vistree_of_polygons ps) o half = Ok res /\ Forall2 reports_as seen res /\
    forall v, In v seen -> In v (polygon_vertices ps) /\ v <> o /\
      forall P, In P ps -> (In v (verts P) -> own_ok o P) -> ~ cuts o v P.
Proof.
  intros At L O East G Nd Sep Cx Off Lay. destruct (sweep_trace atan2 ord ps o half At L O East G Nd Sep Cx Off Lay) as (res & seen & R & F & H & _).
  exists res, seen. split; [exact R|]. split; [exact F|]. intros v V. destruct (H v V) as (H1 & H2 & _ & H3 & _). auto.
Qed.
