(** Facts about the sweep. *)
From Coq Require Import ZArith Reals Bool List Lia Lra Permutation Sorted.
From Verif Require Import Base F64 Coordinate Segment Polyline Polygon Periodicity Visgraph SpecGeom F64Facts
  CoordinateFacts SegmentFacts PeriodicityFacts PolygonFacts PolygonMore PolylineFacts GraphFacts Sweep.
Import ListNotations.
Local Open Scope Z_scope.

(** ** Vocabulary *)

(** [s] is a directed edge of one of the polygons, the one that starts at vertex [i] *)
Definition polygon_edge (ps : list polygon) (s : segment) : Prop :=
  exists p i, In p ps /\ (i < length (verts p))%nat /\ s = mkS (vat (verts p) i) (ring_next (verts p) i).
(** [e] meets the segment from [o] to [v] in a point other than [v] *)
Definition meets_before (e : segment) (o v : coord) : Prop :=
  exists q t u, 0 < q /\ 0 <= t <= q /\ 0 <= u < q /\
    (q - t) * lon (e1 e) + t * lon (e2 e) = (q - u) * lon o + u * lon v /\
    (q - t) * lat (e1 e) + t * lat (e2 e) = (q - u) * lat o + u * lat v.
Definition touches (e : segment) (o : coord) : Prop := e1 e = o \/ e2 e = o.
(** [o] is a polygon vertex with neighbours [p] and [n] *)
Definition corner_of (ps : list polygon) (p o n : coord) : Prop :=
  exists P i, In P ps /\ (i < length (verts P))%nat /\
    p = ring_prev (verts P) i /\ o = vat (verts P) i /\ n = ring_next (verts P) i.

(** ** Open edges: every entry was put there *)
Section Entries.
Variable ok : segment -> Prop.
Definition entries (o : open_edges) : Prop := Forall (fun x => ok (snd x)) (oe_sorted o).

Lemma entries_none : entries no_edges. Proof. constructor. Qed.
Lemma emplace_in d s l x : In x (emplace d s l) -> x = (d, s) \/ In x l.
Proof.
  induction l as [|[d' s'] l IH]; cbn [emplace]; [intros [<-|[]]; auto|].
  destruct (d <? d'); [intros [<-|H]; auto|]. destruct (d =? d'); [auto|].
  intros [<-|H]; [right; left; reflexivity|]. destruct (IH H); auto. right; right; assumption.
Qed.
Lemma entries_add o d s : entries o -> ok s -> entries (oe_add o d s).
Proof.
  unfold entries. rewrite !Forall_forall. intros H S x X. cbn [oe_add oe_sorted] in X.
  apply emplace_in in X. destruct X as [->|X]; auto.
Qed.
Lemma erase_in d s l x : In x (erase_sorted d s l) -> In x l.
Proof.
  induction l as [|[d' s'] l IH]; cbn [erase_sorted]; [auto|].
  destruct ((d' =? d) && segment_eqb s' s); [right; assumption|]. intros [<-|H]; [left; reflexivity|right; auto].
Qed.
Lemma entries_remove o s : entries o -> entries (oe_remove o s).
Proof.
  unfold entries, oe_remove. rewrite !Forall_forall. intros H. destruct (get_distance s (oe_dist o)); [|exact H].
  cbn [oe_sorted]. intros x X. apply H. eapply erase_in; eassumption.
Qed.
Lemma entries_erase ss : forall o, entries o -> entries (erase_segments ss o).
Proof. induction ss as [|s ss IH]; intros o H; [exact H|]. apply IH, entries_remove, H. Qed.
Lemma entries_closest o : entries o -> oe_empty o = false -> exists s, closest_edge o = Ok s /\ ok s.
Proof.
  unfold entries, oe_empty, closest_edge. destruct (oe_sorted o) as [|[d s] l]; [discriminate|]. intros F _.
  inversion F; subst. exists s. auto.
Qed.
End Entries.

(** ** Single calls on in-range input *)
Lemma intersection_total s o : pgeo_seg s -> pgeo_seg o ->
  exists r, intersection_with_segment s o = Ok r /\ (forall x, r = Some x -> pgeo x).
Proof.
  intros S O. destruct (Z.eq_dec (seg_det s o) 0) as [P|N].
  - destruct (intersection_parallel_full s o S O) as (r & E & H & _); [intros X; apply X, P|].
    exists r. split; [exact E|]. intros x ->. destruct (H x eq_refl) as (_ & _ & [C _]).
    destruct S as [S1 S2]. destruct C as [C|C]; rewrite C; assumption.
  - destruct (intersection_detection s o S O N) as (r & E & _). exists r. split; [exact E|]. intros x ->.
    destruct (intersection_accuracy s o x S O N E) as (_ & _ & _ & _ & _ & _ & _ & _ & _ & B).
    exact (in_box_pgeo s x S B).
Qed.

Lemma meet_on_real s o q t u : 0 < q -> 0 <= t <= q -> 0 <= u <= q ->
  (q - t) * lon (e1 s) + t * lon (e2 s) = (q - u) * lon (e1 o) + u * lon (e2 o) ->
  (q - t) * lat (e1 s) + t * lat (e2 s) = (q - u) * lat (e1 o) + u * lat (e2 o) ->
  exists x y, on_real s x y /\ on_real o x y /\ (u = q -> x = IZR (lon (e2 o)) /\ y = IZR (lat (e2 o))).
Proof.
  intros Q T U X Y.
  assert (Qp : (0 < IZR q)%R) by (apply IZR_lt; lia).
  assert (B : forall k, 0 <= k <= q -> (0 <= IZR k / IZR q <= 1)%R).
  { intros k K. split; [apply Rmult_le_pos; [apply IZR_le; lia|left; apply Rinv_0_lt_compat, Qp]|].
    apply Rmult_le_reg_r with (IZR q); [exact Qp|]. unfold Rdiv. rewrite Rmult_assoc, Rinv_l by lra.
    rewrite Rmult_1_r, Rmult_1_l. apply IZR_le. lia. }
  assert (L : forall k a b, ((1 - IZR k / IZR q) * IZR a + IZR k / IZR q * IZR b = IZR ((q - k) * a + k * b) / IZR q)%R).
  { intros k a b. rewrite plus_IZR, !mult_IZR, minus_IZR. field. lra. }
  exists (IZR ((q - t) * lon (e1 s) + t * lon (e2 s)) / IZR q)%R, (IZR ((q - t) * lat (e1 s) + t * lat (e2 s)) / IZR q)%R.
  split; [|split].
  - exists (IZR t / IZR q)%R. rewrite !L. auto.
  - exists (IZR u / IZR q)%R. rewrite !L, X, Y. auto.
  - intros ->. rewrite X, Y. replace (q - q) with 0 by lia. rewrite !Z.mul_0_l, !Z.add_0_l, !mult_IZR. split; field; lra.
Qed.

(** what a found crossing other than [v] means *)
Lemma blocked e o v r : pgeo_seg e -> pgeo o -> pgeo v -> ~ touches e o ->
  intersection_with_segment e (mkS o v) = Ok (Some r) -> r <> v -> meets_before e o v.
Proof.
  intros E O V T I N. assert (S : pgeo_seg (mkS o v)) by (split; assumption).
  destruct (Z.eq_dec (seg_det e (mkS o v)) 0) as [P|NP].
  - exfalso. destruct (intersection_parallel_full e (mkS o v) E S) as (r' & E' & H & _); [intros X; apply X, P|].
    rewrite I in E'. inversion E'; subst r'. destruct (H r eq_refl) as (_ & _ & [C D]). cbn [e1 e2] in D.
    destruct D as [-> | ->]; [|congruence]. apply T. unfold touches. destruct C; auto.
  - destruct (intersection_detection e (mkS o v) E S NP) as (r' & E' & M). rewrite I in E'. inversion E'; subst r'.
    destruct (proj1 M ltac:(discriminate)) as (q & t & u & Q & Tt & U & X & Y). cbn [e1 e2] in X, Y.
    exists q, t, u. repeat (split; [lia|]). split; [|split; assumption].
    destruct (Z.eq_dec u q) as [Eu|]; [|lia]. exfalso. apply N.
    destruct (meet_on_real e (mkS o v) q t u Q Tt U X Y) as (x & y & A & B & W). cbn [e2] in W. destruct (W Eu) as [Wx Wy].
    destruct (intersection_accuracy e (mkS o v) r E S NP I) as (x' & y' & _ & _ & Un & _ & _ & Jx & Jy & _).
    destruct (Un x y A B) as [<- <-]. specialize (Jx _ Wx). specialize (Jy _ Wy).
    destruct r as [rx ry], v as [vx vy]; cbn [lon lat] in *; congruence.
Qed.

Lemma point_visible_total b p : pgeo (pv1 b) -> pgeo (pv2 b) -> pgeo (pv3 b) -> pgeo p -> exists x, point_visible b p = Ok x.
Proof.
  intros G1 G2 G3 G4. unfold point_visible. rewrite !sub_pgeo by assumption. cbn [bind].
  set (A := mkC (lon (pv1 b) - lon (pv2 b)) (lat (pv1 b) - lat (pv2 b))).
  set (B := mkC (lon (pv3 b) - lon (pv2 b)) (lat (pv3 b) - lat (pv2 b))).
  set (P := mkC (lon p - lon (pv2 b)) (lat p - lat (pv2 b))).
  assert (IA : coord_i32 A) by (apply diff_i32; assumption).
  assert (IB : coord_i32 B) by (apply diff_i32; assumption).
  assert (IP : coord_i32 P) by (apply diff_i32; assumption).
  rewrite !vector_orientation_ok by assumption. cbn [bind].
  unfold is_reflex. rewrite !sub_pgeo by assumption. cbn [bind].
  assert (F : forall X, coord_i32 X -> orientation_of_sign (det X P) = COLLINEAR ->
     exists f, (f0 <- scalar_multiple_factor X P;; opt_value f0) = Ok f).
  { intros X IX D. destruct (scalar_multiple_factor_spec X P IX IP) as (f & E & M & _). rewrite E. cbn [bind].
    assert (Z0 : det X P = 0). { unfold orientation_of_sign in D. destruct (Z.ltb_spec (det X P) 0); [discriminate|]. destruct (Z.ltb_spec 0 (det X P)); [discriminate|]. lia. }
    apply M in Z0. destruct f as [f|]; [|congruence]. exists f. reflexivity. }
  match goal with |- context [fltb ?x ?y] => destruct (fltb x y) end; cbn [negb];
  destruct (orientation_of_sign (det A P)) eqn:E1; destruct (orientation_of_sign (det B P)) eqn:E2; eauto.
  all: match goal with |- context [scalar_multiple_factor ?X ?Y] =>
         assert (HX : exists f, (f0 <- scalar_multiple_factor X Y;; opt_value f0) = Ok f) by (apply F; assumption);
         destruct HX as (f & Ef); rewrite Ef; cbn [bind]; eauto end.
Qed.

Lemma square_bound x k : Z.abs x <= k -> 0 <= x * x <= k * k.
Proof. intros H. rewrite <- (Z.abs_square x). pose proof (Z.abs_nonneg x). nia. Qed.
Lemma msq_pgeo a b : pgeo a -> pgeo b -> exists d, (w <- coord_sub a b ;; magnitude_squared_md w) = Ok d /\
  d = (lon a - lon b) * (lon a - lon b) + (lat a - lat b) * (lat a - lat b).
Proof.
  intros A B. rewrite sub_pgeo by assumption. cbn [bind]. unfold magnitude_squared_md. cbn [lon lat].
  destruct A as [A1 A2], B as [B1 B2].
  assert (P1 : 0 <= (lon a - lon b) * (lon a - lon b) <= 1080000002 * 1080000002) by (apply square_bound; lia).
  assert (P2 : 0 <= (lat a - lat b) * (lat a - lat b) <= 180000000 * 180000000) by (apply square_bound; lia).
  rewrite !i64_ok by (unfold INT64_MIN, INT64_MAX; lia). cbn [bind]. rewrite i64_ok by (unfold INT64_MIN, INT64_MAX; lia).
  eexists. split; reflexivity.
Qed.

(** ** Maps *)
Definition map_ok (edge : segment -> Prop) (o : coord) (m : vmap) : Prop :=
  forall c ss, vm_find m c = Some ss -> pgeo c /\ (c = o -> 2 <= length ss)%nat /\ Forall (fun s => edge s /\ touches s c) ss.

Definition corner_hides (m : vmap) (o v : coord) : Prop :=
  exists ss b, vm_find m o = Some ss /\ barrier ss = Ok b /\ point_visible b v = Ok false.

Section Sweep.
Variables (edge : segment -> Prop) (m : vmap) (init o : coord).
Hypothesis Edge : forall s, edge s -> pgeo_seg s.
Hypothesis Map : map_ok edge o m.
Hypothesis Obs : pgeo o.
Hypothesis Init : coord_i32 init.

Definition fit (s : segment) : Prop := edge s /\ ~ touches s o.
Definition hidden (v : coord) : Prop := corner_hides m o v \/ exists e, fit e /\ meets_before e o v.

Lemma barrier_ok ss : (2 <= length ss)%nat -> Forall (fun s => edge s) ss ->
  exists b, barrier ss = Ok b /\ pgeo (pv1 b) /\ pgeo (pv2 b) /\ pgeo (pv3 b).
Proof.
  intros L F. destruct ss as [|s1 [|s2 ss]]; [cbn [length] in L; lia..|].
  inversion F; subst. inversion H2; subst. apply Edge in H1. apply Edge in H3.
  exists (mkPL (e1 s1) (e1 s2) (e2 s2)). destruct H1, H3. split; [reflexivity|auto].
Qed.

Lemma visible_total oe v : pgeo v -> v <> o -> entries fit oe ->
  exists b, is_vertex_visible m oe o v = Ok b /\ (b = false -> hidden v).
Proof.
  intros V N En. unfold is_vertex_visible. rewrite (proj2 (coord_eqb_neq _ _) N).
  assert (C : exists b, match vm_find m o with None => Ok true | Some ss => b <- barrier ss ;; point_visible b v end = Ok b
      /\ (b = false -> corner_hides m o v)).
  { destruct (vm_find m o) as [ss|] eqn:E; [|exists true; split; [reflexivity|discriminate]].
    destruct (Map _ _ E) as (_ & L & F).
    destruct (barrier_ok ss (L eq_refl)) as (b & B & P1 & P2 & P3); [eapply Forall_impl; [|exact F]; cbv beta; tauto|].
    rewrite B. cbn [bind]. destruct (point_visible_total b v P1 P2 P3 V) as (x & X). exists x. split; [exact X|].
    intros ->. exists ss, b. auto. }
  destruct C as (b & -> & H). cbn [bind]. destruct b; cbn [negb]; [|exists false; split; [reflexivity|intros _; left; auto]].
  destruct (oe_empty oe) eqn:Em; [exists true; split; [reflexivity|discriminate]|].
  destruct (entries_closest fit oe En Em) as (e & -> & [F T]). cbn [bind].
  destruct (intersection_total e (mkS o v)) as (r & R & _); [apply Edge, F|split; assumption|].
  rewrite R. cbn [bind]. destruct r as [r|]; [|exists true; split; [reflexivity|discriminate]].
  destruct (coord_eqb r v) eqn:Er; [exists true; split; [reflexivity|discriminate]|].
  exists false. split; [reflexivity|]. intros _. right. exists e. split; [split; assumption|].
  eapply blocked; try eassumption; [apply Edge, F|]. intros ->. rewrite coord_eqb_refl in Er. discriminate Er.
Qed.

Lemma orientation_segments_ok v want ss : pgeo v -> Forall (fun s => edge s /\ touches s v) ss ->
  exists r, orientation_segments ss (mkS o v) want = Ok r /\
    Forall (fun s => edge s /\ touches s v /\ exists a, get_adjacent_to s v = Ok a /\ orientation_of_sign (turn o v a) = want) r.
Proof.
  intros V. induction ss as [|s ss IH]; intros F; [exists []; split; [reflexivity|constructor]|].
  inversion F; subst. destruct H1 as [E T]. destruct (IH H2) as (r & R & W). cbn [orientation_segments e2].
  pose proof (Edge _ E) as [G1 G2].
  assert (A : exists a, get_adjacent_to s v = Ok a /\ pgeo a).
  { destruct (get_adjacent_spec s v) as (A & B & _). destruct T as [T|T]; [exists (e2 s)|exists (e1 s)]; auto. }
  destruct A as (a & A & Ga). rewrite A. cbn [bind]. rewrite (orientation_pt_ok (mkS o v) a (conj Obs V) Ga).
  cbn [bind e1 e2]. rewrite R. cbn [bind]. eexists. split; [reflexivity|].
  destruct (orientation_eqb (orientation_of_sign (turn o v a)) want) eqn:Q; [|exact W].
  constructor; [|exact W]. split; [exact E|]. split; [exact T|]. exists a. split; [exact A|].
  destruct (orientation_of_sign (turn o v a)), want; try discriminate Q; reflexivity.
Qed.

Lemma orientation_ccw z : orientation_of_sign z = COUNTER_CLOCKWISE <-> 0 < z.
Proof. unfold orientation_of_sign. destruct (Z.ltb_spec z 0); [split; [discriminate|lia]|]. destruct (Z.ltb_spec 0 z); split; try discriminate; try lia; reflexivity. Qed.
Lemma orientation_cw z : orientation_of_sign z = CLOCKWISE <-> z < 0.
Proof. unfold orientation_of_sign. destruct (Z.ltb_spec z 0); [split; [lia|reflexivity]|]. destruct (Z.ltb_spec 0 z); split; try discriminate; lia. Qed.

Lemma add_segments_ok v ss : pgeo v -> v <> o ->
  Forall (fun s => edge s /\ touches s v /\ exists a, get_adjacent_to s v = Ok a /\ orientation_of_sign (turn o v a) = COUNTER_CLOCKWISE) ss ->
  forall oe, entries fit oe -> exists oe', add_segments ss oe o v = Ok oe' /\ entries fit oe'.
Proof.
  intros V N. induction ss as [|s ss IH]; intros F oe En; [exists oe; split; [reflexivity|exact En]|].
  inversion F; subst. destruct H1 as (E & T & a & A & Or). apply orientation_ccw in Or.
  pose proof (Edge _ E) as Gs. assert (S : pgeo_seg (mkS o v)) by (split; assumption).
  assert (Ta : (e1 s = v /\ e2 s = a) \/ (e2 s = v /\ e1 s = a)).
  { destruct (proj1 (proj1 (adjacent_involution s v) a A)) as [[? ?]|[? ?]]; [left|right]; auto. }
  assert (NP : nonparallel s (mkS o v)).
  { unfold nonparallel, seg_det. cbn [e1 e2]. unfold turn in Or.
    destruct Ta as [[-> ->]|[-> ->]]; nia. }
  assert (M : segments_meet s (mkS o v)).
  { destruct Ta as [[H _]|[H _]]; [exists 1, 0, 1|exists 1, 1, 1]; cbn [e1 e2]; rewrite H; lia. }
  destruct (intersection_detection s (mkS o v) Gs S NP) as (r & R & Rm). apply Rm in M. destruct r as [r|]; [|congruence].
  destruct (intersection_total s (mkS o v) Gs S) as (r' & R' & P'). rewrite R in R'. inversion R'; subst r'. specialize (P' r eq_refl).
  unfold add_segments. cbn [foldM]. rewrite R. cbn [bind opt_value].
  destruct (msq_pgeo r o P' Obs) as (d & D & _). destruct (coord_sub r o) as [w| |]; cbn [bind] in *; try discriminate D.
  rewrite D. cbn [bind]. apply IH; [assumption|]. apply entries_add; [exact En|]. split; [exact E|].
  intros [To|To]; destruct Ta as [[H H']|[H H']]; try congruence;
    (assert (Ao : a = o) by congruence; rewrite Ao in Or; clear - Or; unfold turn in Or; rewrite !Z.sub_diag, !Z.mul_0_r in Or; lia).
Qed.

Lemma initial_ok segs : Forall edge segs -> exists oe, initial_edges o segs = Ok oe /\ entries fit oe.
Proof.
  intros F. unfold initial_edges. cbv zeta.
  assert (S : pgeo_seg (initial_scanline o)).
  { split; [exact Obs|]. unfold initial_scanline, pgeo, MAX_PERIODIC_LONGITUDE, MAX_LONGITUDE, LONGITUDE_PERIOD. cbn [e2 lon lat]. destruct Obs. split; lia. }
  set (body := fun oe s => _). assert (K : forall oe, entries fit oe -> exists oe', foldM body segs oe = Ok oe' /\ entries fit oe').
  { induction F as [|s segs E F IH]; intros oe En; [exists oe; auto|]. cbn [foldM].
    assert (B : exists oe1, body oe s = Ok oe1 /\ entries fit oe1).
    { unfold body. destruct (coord_eqb o (e1 s)) eqn:C1; cbn [orb]; [eauto|]. destruct (coord_eqb o (e2 s)) eqn:C2; [eauto|].
      pose proof (Edge _ E) as Gs. destruct (intersection_total s (initial_scanline o) Gs S) as (r & -> & Pr). cbn [bind].
      destruct r as [r|]; [|eauto]. specialize (Pr r eq_refl). destruct Gs as [G1 G2].
      destruct (on_segment_membership (initial_scanline o) (e1 s) S G1) as (b1 & -> & _). cbn [bind]. destruct b1; [eauto|].
      destruct (on_segment_membership (initial_scanline o) (e2 s) S G2) as (b2 & -> & _). cbn [bind]. destruct b2; [eauto|].
      destruct (msq_pgeo r o Pr Obs) as (d & D & _). destruct (coord_sub r o) as [w| |]; cbn [bind] in *; try discriminate D.
      rewrite D. cbn [bind]. eexists. split; [reflexivity|]. apply entries_add; [exact En|]. split; [exact E|].
      apply coord_eqb_neq in C1. apply coord_eqb_neq in C2. intros [T|T]; congruence. }
    destruct B as (oe1 & -> & En1). cbn [bind]. apply IH, En1. }
  apply K, entries_none.
Qed.

(** does the scan pass this vertex? *)
Definition ahead (half : bool) (v : coord) : bool :=
  coord_eqb o v || negb half || (0 <=? det init (mkC (lon v - lon o) (lat v - lat o))).
Fixpoint scanned (half : bool) (vs : list coord) : list coord :=
  match vs with [] => [] | v :: vs' => if ahead half v then v :: scanned half vs' else [] end.

Lemma past_half_ok half v : pgeo v -> v <> o -> past_half half init o v = Ok (negb (ahead half v)).
Proof.
  intros V N. unfold past_half, ahead. rewrite (proj2 (coord_eqb_neq o v)) by congruence. cbn [orb].
  destruct half; cbn [negb orb]; [|reflexivity]. unfold get_tangent_vector. cbn [e1 e2]. rewrite sub_pgeo by assumption. cbn [bind].
  rewrite cross_ok by (try assumption; apply diff_i32; assumption). cbn [bind]. f_equal. rewrite Z.leb_antisym, negb_involutive. reflexivity.
Qed.

Definition reports_as (v : coord) (x : visible) : Prop :=
  normalize_coord v = Ok (v_coord x) /\ v_across x = over_meridian v.

Theorem sweep_ok half vs : (forall v, In v vs -> vm_find m v <> None) -> forall oe, entries fit oe ->
  exists res seen, sweep m init o half vs oe = Ok res /\ subseq seen (scanned half vs) /\ ~ In o seen /\
    Forall2 reports_as seen res /\
    (forall v, In v (scanned half vs) -> v <> o -> In v seen \/ hidden v).
Proof.
  induction vs as [|v vs IH]; intros K oe En.
  { exists [], []. cbn [sweep scanned]. split; [reflexivity|]. split; [constructor|]. split; [intros []|]. split; [constructor|intros ? []]. }
  cbn [sweep scanned]. specialize (IH (fun x X => K x (or_intror X))).
  destruct (coord_eqb o v) eqn:Eo.
  - apply coord_eqb_spec in Eo. rewrite <- Eo in *. destruct (IH oe En) as (res & seen & R & S & No & F & H).
    exists res, seen. split; [exact R|].
    unfold ahead. rewrite coord_eqb_refl. cbn [orb]. split; [apply subseq_drop, S|]. split; [exact No|]. split; [exact F|].
    intros x [<-|X] Nx; [congruence|auto].
  - assert (N : v <> o) by (intros ->; rewrite coord_eqb_refl in Eo; discriminate Eo).
    destruct (vm_find m v) as [inc|] eqn:Fd; [|exfalso; apply (K v (or_introl eq_refl) Fd)].
    destruct (Map _ _ Fd) as (V & _ & Fi).
    rewrite past_half_ok by assumption. cbn [bind].
    destruct (ahead half v); cbn [negb].
    2:{ exists [], []. split; [reflexivity|]. split; [constructor|]. split; [intros []|]. split; [constructor|intros ? []]. }
    unfold vm_at. rewrite Fd. cbn [bind].
    destruct (orientation_segments_ok v CLOCKWISE inc V Fi) as (cw & -> & _). cbn [bind].
    destruct (orientation_segments_ok v COUNTER_CLOCKWISE inc V Fi) as (ccw & -> & Fc). cbn [bind]. cbv zeta.
    pose proof (entries_erase fit cw oe En) as En1.
    destruct (visible_total (erase_segments cw oe) v V N En1) as (b & -> & Hb). cbn [bind].
    assert (Nm : exists n, (if b then normalize_coord v else Ok v) = Ok n /\ (b = true -> normalize_coord v = Ok n)).
    { destruct b; [|exists v; split; [reflexivity|discriminate]].
      destruct (normalize_coord_ok v) as (x & X & _); [destruct V; unfold INT32_MIN, INT32_MAX; lia|].
      exists (mkC x (lat v)). auto. }
    destruct Nm as (n & -> & Nm). cbn [bind].
    destruct (add_segments_ok v ccw V N Fc _ En1) as (oe2 & -> & En2). cbn [bind].
    destruct (IH oe2 En2) as (res & seen & -> & S & No & F & H). cbn [bind].
    destruct b.
    + exists (mkV n (over_meridian v) :: res), (v :: seen). split; [reflexivity|].
      split; [apply subseq_take, S|]. split; [intros [<-|X]; auto|]. split; [constructor; [split; [apply Nm; reflexivity|reflexivity]|exact F]|].
      intros x [<-|X] Nx; [left; left; reflexivity|]. destruct (H x X Nx); [left; right; assumption|auto].
    + exists res, seen. split; [reflexivity|]. split; [apply subseq_drop, S|]. split; [exact No|]. split; [exact F|].
      intros x [<-|X] Nx; [right; apply Hb; reflexivity|auto].
Qed.
End Sweep.
