(** Rings, layers and keys: the plane geometry behind the soundness of the sweep. *)
From Coq Require Import ZArith Reals Bool List Lia Lra Psatz Sorted.
From Verif Require Import Base F64 Coordinate Segment Polygon Graph SpecGeom CoordinateFacts SegmentFacts PolylineFacts GraphFacts Sweep SweepFacts SweepMaps AngleFacts SweepOrder.
Import ListNotations.
Local Open Scope Z_scope.

(** ** Vocabulary *)
Definition edge_of (P : polygon) (s : segment) : Prop :=
  exists i, (i < length (verts P))%nat /\ s = mkS (vat (verts P) i) (ring_next (verts P) i).
Definition dist2 (o c : coord) : Z := (lon c - lon o) * (lon c - lon o) + (lat c - lat o) * (lat c - lat o).
(** strictly convex: every other vertex lies strictly left ([sg] = 1) or right ([sg] = -1) of every edge *)
Definition convex (sg : Z) (P : polygon) : Prop :=
  (sg = 1 \/ sg = -1) /\ (3 <= length (verts P))%nat /\
  forall s c, edge_of P s -> In c (verts P) -> ~ touches s c -> 0 < sg * turn (e1 s) (e2 s) c.
(** within the circle of radius [r] about [o], and on or outside it *)
Definition inside (o : coord) (r : Z) (P : polygon) : Prop := forall c, In c (verts P) -> dist2 o c <= r * r.
Definition outside (o : coord) (r : Z) (P : polygon) : Prop :=
  forall e q t, edge_of P e -> 0 < q -> 0 <= t <= q ->
    (q * r) * (q * r) <= ((q - t) * (lon (e1 e) - lon o) + t * (lon (e2 e) - lon o)) * ((q - t) * (lon (e1 e) - lon o) + t * (lon (e2 e) - lon o))
      + ((q - t) * (lat (e1 e) - lat o) + t * (lat (e2 e) - lat o)) * ((q - t) * (lat (e1 e) - lat o) + t * (lat (e2 e) - lat o)).
(** the half line from [o] through [d] meets [e] *)
Definition meets_ray (o d : coord) (e : segment) : Prop :=
  exists q t u, 0 < q /\ 0 <= t <= q /\ 0 < u /\
    (q - t) * (lon (e1 e) - lon o) + t * (lon (e2 e) - lon o) = u * (lon d - lon o) /\
    (q - t) * (lat (e1 e) - lat o) + t * (lat (e2 e) - lat o) = u * (lat d - lat o).
Definition share_direction (o : coord) (P Q : polygon) : Prop :=
  exists d e f, d <> o /\ edge_of P e /\ edge_of Q f /\ meets_ray o d e /\ meets_ray o d f.
(** polygons seen in one direction are separated by a circle about [o], with a gap of one microdegree *)
Definition layered (o : coord) (ps : list polygon) : Prop :=
  forall P Q, In P ps -> In Q ps -> P <> Q -> share_direction o P Q ->
    exists r, 0 <= r /\ (inside o r P /\ outside o (r + 1) Q \/ inside o r Q /\ outside o (r + 1) P).
(** no edge passes through [o] without ending there *)
Definition off_edges (o : coord) (ps : list polygon) : Prop :=
  forall s, polygon_edge ps s -> on_closed_segment s o -> touches s o.
(** the segment from [o] to [v] meets the boundary of [P] before [v], on an edge that does not
    end at [o], and [P] has vertices strictly on both sides of its line: it cuts through [P] *)
Definition cuts (o v : coord) (P : polygon) : Prop :=
  (exists e, edge_of P e /\ ~ touches e o /\ meets_before e o v) /\
  (exists a b, In a (verts P) /\ In b (verts P) /\ turn o v a < 0 < turn o v b).

(** ** Rings *)
Lemma coord_ext a b : lon a = lon b -> lat a = lat b -> a = b.
Proof. destruct a, b. cbn. congruence. Qed.
Lemma edge_verts P s : edge_of P s -> In (e1 s) (verts P) /\ In (e2 s) (verts P).
Proof.
  intros (i & I & ->). cbn [e1 e2]. split; apply nth_In; [exact I|apply Nat.mod_upper_bound; lia].
Qed.
Lemma ring_edge_inj (P : polygon) i j : (i < length (verts P))%nat -> (j < length (verts P))%nat -> NoDup (verts P) -> vat (verts P) i = vat (verts P) j -> i = j.
Proof. intros I J N E. exact (proj1 (NoDup_nth (verts P) (mkC 0 0)) N i j I J E). Qed.
Lemma next_cases n i : (i < n)%nat -> ((i + 1) mod n = if (i + 1 =? n) then 0 else i + 1)%nat.
Proof.
  intros I. destruct (Nat.eqb_spec (i + 1) n) as [->|N]; [apply Nat.mod_same; lia|apply Nat.mod_small; lia].
Qed.
Lemma edge_first P s t : NoDup (verts P) -> edge_of P s -> edge_of P t -> e1 s = e1 t -> s = t.
Proof.
  intros N (i & I & ->) (j & J & ->) E. cbn [e1] in E. apply ring_edge_inj in E; [|assumption..]. subst j. reflexivity.
Qed.
Lemma edge_second P s t : NoDup (verts P) -> edge_of P s -> edge_of P t -> e2 s = e2 t -> s = t.
Proof.
  intros N (i & I & ->) (j & J & ->) E. cbn [e2] in E. unfold ring_next in E.
  apply ring_edge_inj in E; [|apply Nat.mod_upper_bound; lia..|exact N]. rewrite !next_cases in E by assumption.
  destruct (Nat.eqb_spec (i + 1) (length (verts P))), (Nat.eqb_spec (j + 1) (length (verts P))); assert (i = j) by lia; subst j; reflexivity.
Qed.
Lemma edge_ends P s : NoDup (verts P) -> (2 <= length (verts P))%nat -> edge_of P s -> e1 s <> e2 s.
Proof.
  intros N L (i & I & ->) E. cbn [e1 e2] in E. unfold ring_next in E. apply ring_edge_inj in E; [|try apply Nat.mod_upper_bound; lia..|exact N].
  rewrite next_cases in E by assumption. destruct (Nat.eqb_spec (i + 1) (length (verts P))); lia.
Qed.
Lemma edge_no_back P s t : NoDup (verts P) -> (3 <= length (verts P))%nat -> edge_of P s -> edge_of P t -> e1 s = e2 t -> e2 s <> e1 t.
Proof.
  intros N L (i & I & ->) (j & J & ->) E1 E2. cbn [e1 e2] in E1, E2. unfold ring_next in *.
  apply ring_edge_inj in E1; [|try apply Nat.mod_upper_bound; lia..|exact N]. apply ring_edge_inj in E2; [|try apply Nat.mod_upper_bound; lia..|exact N].
  rewrite next_cases in * by assumption.
  destruct (Nat.eqb_spec (i + 1) (length (verts P))), (Nat.eqb_spec (j + 1) (length (verts P))); lia.
Qed.
(** the two edges at a vertex *)
Record corner (P : polygon) (p v n : coord) : Prop := mkCorner {
  c_in : edge_of P (mkS p v);
  c_out : edge_of P (mkS v n);
  c_only : forall s, edge_of P s -> touches s v -> s = mkS p v \/ s = mkS v n;
  c_pv : p <> v;
  c_vn : v <> n;
  c_pn : p <> n
}.
Lemma corner_ring P i : NoDup (verts P) -> (3 <= length (verts P))%nat -> (i < length (verts P))%nat ->
  corner P (ring_prev (verts P) i) (vat (verts P) i) (ring_next (verts P) i).
Proof.
  intros N L I. destruct (ring_prev_edge (verts P) i I) as (j & J & A & B).
  assert (E1 : edge_of P (mkS (ring_prev (verts P) i) (vat (verts P) i))) by (exists j; rewrite A, B; auto).
  assert (E2 : edge_of P (mkS (vat (verts P) i) (ring_next (verts P) i))) by (exists i; auto).
  split; [exact E1|exact E2| | | |].
  - intros s S [T|T]; [right; apply (edge_first P)|left; apply (edge_second P)]; assumption.
  - apply (edge_ends P _ N ltac:(lia) E1).
  - apply (edge_ends P _ N ltac:(lia) E2).
  - intros E. apply (edge_no_back P _ _ N L E1 E2); cbn [e1 e2]; [exact E|reflexivity].
Qed.
Lemma corner_at P v : NoDup (verts P) -> (3 <= length (verts P))%nat -> In v (verts P) -> exists p n, corner P p v n.
Proof.
  intros N L I. destruct (In_nth _ _ (mkC 0 0) I) as (i & Hi & E).
  exists (ring_prev (verts P) i), (ring_next (verts P) i). rewrite <- E. apply corner_ring; assumption.
Qed.

(** ** Convex rings *)
Lemma corner_left sg P p v n c : convex sg P -> corner P p v n -> In c (verts P) -> c <> v ->
  0 <= sg * turn p v c /\ 0 <= sg * turn v n c /\ (c <> p -> 0 < sg * turn p v c) /\ (c <> n -> 0 < sg * turn v n c).
Proof.
  intros (Sg & L & C) [Ei Eo U N1 N2 N3] I Nc.
  assert (A : c <> p -> 0 < sg * turn p v c) by (intros H; apply (C (mkS p v) c Ei I); intros [X|X]; cbn [e1 e2] in X; congruence).
  assert (B : c <> n -> 0 < sg * turn v n c) by (intros H; apply (C (mkS v n) c Eo I); intros [X|X]; cbn [e1 e2] in X; congruence).
  split; [|split; [|split; assumption]].
  - destruct (coord_dec c p) as [->|H]; [unfold turn; nia|specialize (A H); lia].
  - destruct (coord_dec c n) as [->|H]; [unfold turn; nia|specialize (B H); lia].
Qed.
Lemma fan p w n o c : turn p w n * turn o w c = turn p w c * turn o w n + turn w n c * turn o w p.
Proof. unfold turn. ring. Qed.
Lemma convex_last sg P p w n o c : convex sg P -> corner P p w n -> In c (verts P) ->
  turn o w p <= 0 -> turn o w n <= 0 -> turn o w c <= 0.
Proof.
  intros C K I A B. destruct (coord_dec c w) as [->|Nc]; [unfold turn; nia|].
  destruct (corner_left sg P p w n c C K I Nc) as (H1 & H2 & _).
  assert (In n (verts P)) as In_n by (apply (edge_verts P (mkS w n)), (c_out _ _ _ _ K)).
  destruct (corner_left sg P p w n n C K In_n) as (_ & _ & H3 & _); [intros E; apply (c_vn _ _ _ _ K); auto|].
  specialize (H3 (fun E => c_pn _ _ _ _ K (eq_sym E))).
  pose proof (fan p w n o c) as F. apply (f_equal (Z.mul sg)) in F.
  assert (sg * turn p w n * turn o w c <= 0) by (clear - F H1 H2 A B; nia). clear - H H3. nia.
Qed.
Lemma convex_unique sg P p v n c : convex sg P -> corner P p v n -> In c (verts P) -> c <> v -> 0 < sg * (turn p v c + turn v n c).
Proof.
  intros C K I Nc. destruct (corner_left sg P p v n c C K I Nc) as (H1 & H2 & H3 & H4).
  destruct (coord_dec c p) as [E|E]; [|specialize (H3 E); lia]. destruct (coord_dec c n) as [E'|E']; [|specialize (H4 E'); lia].
  exfalso. apply (c_pn _ _ _ _ K). congruence.
Qed.
(** an edge on a line has the whole ring on one side *)
Lemma line_turn o v a b c : turn o v a = 0 -> turn o v b = 0 ->
  turn a b c * dist2 o v = ((lon b - lon a) * (lon v - lon o) + (lat b - lat a) * (lat v - lat o)) * turn o v c.
Proof.
  intros A B. assert (E : turn a b c * dist2 o v - ((lon b - lon a) * (lon v - lon o) + (lat b - lat a) * (lat v - lat o)) * turn o v c =
    turn o v b * ((lon v - lon o) * (lon a - lon c) + (lat v - lat o) * (lat a - lat c)) -
    turn o v a * ((lon v - lon o) * (lon b - lon c) + (lat v - lat o) * (lat b - lat c))) by (unfold turn, dist2; ring).
  rewrite A, B in E. lia.
Qed.
Lemma edge_on_line sg P o v s a b : convex sg P -> edge_of P s -> v <> o -> turn o v (e1 s) = 0 -> turn o v (e2 s) = 0 ->
  In a (verts P) -> In b (verts P) -> turn o v a < 0 < turn o v b -> False.
Proof.
  intros (Sg & L & C) E N A B Ia Ib [T1 T2].
  assert (D : 0 < dist2 o v).
  { unfold dist2. destruct (Z.eq_dec (lon v) (lon o)), (Z.eq_dec (lat v) (lat o)); try nia. exfalso. apply N, coord_ext; assumption. }
  assert (K : forall c, In c (verts P) -> turn o v c <> 0 -> 0 < sg * turn (e1 s) (e2 s) c).
  { intros c I T. apply C; [exact E|exact I|]. intros [X|X]; rewrite <- X in T; contradiction. }
  pose proof (K a Ia ltac:(lia)) as Ka. pose proof (K b Ib ltac:(lia)) as Kb.
  pose proof (line_turn o v _ _ a A B) as La. pose proof (line_turn o v _ _ b A B) as Lb.
  set (g := (lon (e2 s) - lon (e1 s)) * (lon v - lon o) + (lat (e2 s) - lat (e1 s)) * (lat v - lat o)) in *. clearbody g.
  set (ta := turn (e1 s) (e2 s) a) in *. set (tb := turn (e1 s) (e2 s) b) in *. clearbody ta tb. clear - Sg D T1 T2 Ka Kb La Lb.
  destruct Sg as [->| ->]; destruct (Z.lt_trichotomy g 0) as [G|[G|G]]; nia.
Qed.

(** ** Points of the plane in integers *)
Definition px (o : coord) (e : segment) (q t : Z) : Z := (q - t) * (lon (e1 e) - lon o) + t * (lon (e2 e) - lon o).
Definition py (o : coord) (e : segment) (q t : Z) : Z := (q - t) * (lat (e1 e) - lat o) + t * (lat (e2 e) - lat o).

Lemma inside_point o r P e q t : inside o r P -> edge_of P e -> 0 < q -> 0 <= t <= q ->
  px o e q t * px o e q t + py o e q t * py o e q t <= (q * r) * (q * r).
Proof.
  intros I E Q T. destruct (edge_verts P e E) as [A B]. apply I in A. apply I in B. unfold dist2 in A, B. unfold px, py.
  set (ax := lon (e1 e) - lon o) in *. set (ay := lat (e1 e) - lat o) in *. set (bx := lon (e2 e) - lon o) in *. set (by' := lat (e2 e) - lat o) in *.
  clearbody ax ay bx by'. clear I E.
  assert (M : 2 * (ax * bx + ay * by') <= 2 * (r * r)) by (pose proof (Z.square_nonneg (ax - bx)); pose proof (Z.square_nonneg (ay - by')); nia).
  replace (((q - t) * ax + t * bx) * ((q - t) * ax + t * bx) + ((q - t) * ay + t * by') * ((q - t) * ay + t * by'))
    with ((q - t) * (q - t) * (ax * ax + ay * ay) + (t * (q - t)) * (2 * (ax * bx + ay * by')) + t * t * (bx * bx + by' * by')) by ring.
  replace ((q * r) * (q * r)) with ((q - t) * (q - t) * (r * r) + (t * (q - t)) * (2 * (r * r)) + t * t * (r * r)) by ring.
  assert (0 <= (q - t) * (q - t)) by nia. assert (0 <= t * (q - t)) by nia. assert (0 <= t * t) by nia.
  apply Z.add_le_mono; [apply Z.add_le_mono|]; apply Z.mul_le_mono_nonneg_l; assumption.
Qed.
Lemma outside_vertex o r P c : outside o r P -> NoDup (verts P) -> (3 <= length (verts P))%nat -> In c (verts P) -> r * r <= dist2 o c.
Proof.
  intros H N L I. destruct (corner_at P c N L I) as (p & n & K). specialize (H _ 1 0 (c_out _ _ _ _ K) ltac:(lia) ltac:(lia)).
  cbn [e1 e2] in H. unfold dist2. lia.
Qed.

(** ** Rays *)
Section Rays.
Variable o : coord.
Lemma swept_flip_param s (q t : Z) : exists t', (0 <= t <= q -> 0 <= t' <= q) /\
  (q - t) * (lon (first o s) - lon o) + t * (lon (final o s) - lon o) = px o s q t' /\
  (q - t) * (lat (first o s) - lat o) + t * (lat (final o s) - lat o) = py o s q t'.
Proof.
  unfold px, py. destruct (ends_of o s) as [(A & B & _)|(A & B & _)]; rewrite A, B; [exists t|exists (q - t)]; (split; [lia|split; ring]).
Qed.
(** where the ray through [v] meets an edge whose closed cone holds [v] *)
Definition ray_q (v : coord) (s : segment) : Z := turn o v (final o s) + turn o (first o s) v.
Definition ray_u (s : segment) : Z := turn o (first o s) (final o s).
Lemma cone_point v s : swept o s -> v <> o -> 0 <= turn o (first o s) v -> 0 <= turn o v (final o s) ->
  0 < ray_q v s /\ 0 < ray_u s /\ exists t, 0 <= t <= ray_q v s /\
    px o s (ray_q v s) t = ray_u s * (lon v - lon o) /\ py o s (ray_q v s) t = ray_u s * (lat v - lat o).
Proof.
  intros W N A B. pose proof (swept_turn o s W) as U. unfold ray_q, ray_u.
  assert (Ix : (turn o v (final o s) + turn o (first o s) v - turn o (first o s) v) * (lon (first o s) - lon o) + turn o (first o s) v * (lon (final o s) - lon o)
    = turn o (first o s) (final o s) * (lon v - lon o)) by (unfold turn; ring).
  assert (Iy : (turn o v (final o s) + turn o (first o s) v - turn o (first o s) v) * (lat (first o s) - lat o) + turn o (first o s) v * (lat (final o s) - lat o)
    = turn o (first o s) (final o s) * (lat v - lat o)) by (unfold turn; ring).
  assert (Q : 0 < turn o v (final o s) + turn o (first o s) v).
  { destruct (Z.eq_dec (turn o v (final o s) + turn o (first o s) v) 0) as [E|E]; [exfalso|lia].
    assert (turn o v (final o s) = 0) by lia. assert (turn o (first o s) v = 0) by lia. rewrite H, H0 in Ix, Iy.
    apply N, coord_ext; nia. }
  split; [exact Q|]. split; [exact U|].
  destruct (swept_flip_param s (turn o v (final o s) + turn o (first o s) v) (turn o (first o s) v)) as (t & T & X & Y).
  exists t. split; [apply T; lia|]. rewrite <- X, <- Y. split; assumption.
Qed.
Lemma cone_ray v s : swept o s -> v <> o -> 0 <= turn o (first o s) v -> 0 <= turn o v (final o s) -> meets_ray o v s.
Proof.
  intros W N A B. destruct (cone_point v s W N A B) as (Q & U & t & T & X & Y). exists (ray_q v s), t, (ray_u s). auto.
Qed.
Lemma vertex_ray P p v n : corner P p v n -> meets_ray o v (mkS v n).
Proof. intros _. exists 1, 0, 1. cbn [e1 e2]. lia. Qed.
Definition east : coord := mkC (lon o + 1) (lat o).
Lemma initial_turn s : initially o s ->
  turn o (first o s) (final o s) = (lat o - lat (first o s)) * (lon (final o s) - lon o) + (lat (final o s) - lat o) * (lon (first o s) - lon o).
Proof. intros _. unfold turn. ring. Qed.
Lemma initial_east s : initially o s -> meets_ray o east s /\ exists t, 0 <= t <= lat (final o s) - lat (first o s) /\
  px o s (lat (final o s) - lat (first o s)) t = turn o (first o s) (final o s) /\ py o s (lat (final o s) - lat (first o s)) t = 0.
Proof.
  intros In. pose proof In as [W [A B]]. pose proof (swept_turn o s W) as T.
  destruct (swept_flip_param s (lat (final o s) - lat (first o s)) (lat o - lat (first o s))) as (t & Ht & X & Y).
  assert (X' : px o s (lat (final o s) - lat (first o s)) t = turn o (first o s) (final o s)) by (rewrite <- X; unfold turn; ring).
  assert (Y' : py o s (lat (final o s) - lat (first o s)) t = 0) by (rewrite <- Y; ring).
  specialize (Ht ltac:(lia)). split; [|exists t; auto].
  exists (lat (final o s) - lat (first o s)), t, (turn o (first o s) (final o s)).
  split; [lia|]. split; [exact Ht|]. split; [exact T|]. unfold px in X'. unfold py in Y'. rewrite X', Y'. unfold east. cbn [lon lat]. lia.
Qed.
Lemma east_ne : east <> o. Proof. unfold east. destruct o as [x y]. cbn [lon lat]. intros E. injection E. lia. Qed.
End Rays.

(** ** Keys *)
(** [k] is within 0.51 of the distance at which [s] crosses the eastward half line *)
Definition crossing_key (o : coord) (s : segment) (k : Z) : Prop :=
  100 * Z.abs (k * (lat (e2 s) - lat (e1 s)) - turn o (e1 s) (e2 s)) <= 51 * Z.abs (lat (e2 s) - lat (e1 s)).
Definition keyed (o : coord) (d : Z) (s : segment) : Prop :=
  d = dist2 o (first o s) \/ (initially o s /\ exists k, d = k * k /\ crossing_key o s k).
(** the keys of [P]'s edges: all different *)
Definition distinct_keys (o : coord) (P : polygon) : Prop :=
  (forall a b, In a (verts P) -> In b (verts P) -> a <> b -> dist2 o a <> dist2 o b) /\
  (forall s k c, edge_of P s -> initially o s -> crossing_key o s k -> In c (verts P) -> k * k <> dist2 o c) /\
  (forall s t k l, edge_of P s -> edge_of P t -> s <> t -> initially o s -> initially o t -> crossing_key o s k -> crossing_key o t l -> k * k <> l * l).

Lemma crossing_first o s k : initially o s -> crossing_key o s k ->
  100 * Z.abs (k * (lat (final o s) - lat (first o s)) - turn o (first o s) (final o s)) <= 51 * (lat (final o s) - lat (first o s)).
Proof.
  intros [W [A B]] K. unfold crossing_key in K. destruct (ends_of o s) as [(E1 & E2 & _)|(E1 & E2 & _)]; rewrite E1, E2 in *.
  - rewrite (Z.abs_eq (lat (e2 s) - lat (e1 s))) in K by lia. lia.
  - rewrite (turn_swap o (e1 s) (e2 s)). replace (k * (lat (e1 s) - lat (e2 s)) - - turn o (e1 s) (e2 s)) with (- (k * (lat (e2 s) - lat (e1 s)) - turn o (e1 s) (e2 s))) by ring.
    rewrite Z.abs_opp. rewrite (Z.abs_neq (lat (e2 s) - lat (e1 s))) in K by lia. lia.
Qed.
Lemma key_inside o r P d s : 0 <= r -> inside o r P -> edge_of P s -> keyed o d s -> d <= r * r.
Proof.
  intros R I E [->|(In & k & -> & K)].
  - apply I. destruct (edge_verts P s E), (ends_of o s) as [(-> & _)|(-> & _)]; assumption.
  - pose proof (crossing_first o s k In K) as C. pose proof In as [W [A B]]. pose proof (swept_turn o s W) as T.
    destruct (initial_east o s In) as [_ (t & Ht & X & Y)]. set (h := lat (final o s) - lat (first o s)) in *.
    assert (Hh : 0 < h) by (subst h; lia). pose proof (inside_point o r P s h t I E Hh Ht) as Q. rewrite X, Y in Q. set (w := turn o (first o s) (final o s)) in *. clearbody h w.
    assert (w <= h * r) by (clear - Q T R Hh; assert (0 <= h * r) by nia; nia).
    assert (k <= r) by (clear - C H Hh; nia). assert (0 <= k) by (clear - C T Hh; nia). nia.
Qed.
Lemma key_outside o r P d s : 0 <= r -> outside o (r + 1) P -> NoDup (verts P) -> (3 <= length (verts P))%nat -> edge_of P s -> keyed o d s -> (r + 1) * (r + 1) <= d.
Proof.
  intros R I N L E [->|(In & k & -> & K)].
  - apply (outside_vertex o _ P _ I N L). destruct (edge_verts P s E), (ends_of o s) as [(-> & _)|(-> & _)]; assumption.
  - pose proof (crossing_first o s k In K) as C. pose proof In as [W [A B]]. pose proof (swept_turn o s W) as T.
    destruct (initial_east o s In) as [_ (t & Ht & X & Y)]. set (h := lat (final o s) - lat (first o s)) in *.
    assert (Hh : 0 < h) by (subst h; lia). pose proof (I s h t E Hh Ht) as Q. fold (px o s h t) in Q. fold (py o s h t) in Q. rewrite X, Y in Q.
    set (w := turn o (first o s) (final o s)) in *. clearbody h w.
    assert (h * (r + 1) <= w) by (clear - Q T R Hh; assert (0 <= h * (r + 1)) by nia; nia).
    assert (r + 1 <= k) by (clear - C H Hh; nia). nia.
Qed.

(** ** What an edge in front of [v] does to the visibility test *)
Lemma gap_block (q u D r : Z) : 0 < q -> 0 <= u -> 0 <= r -> u * u * D <= (q * r) * (q * r) -> (r + 1) * (r + 1) <= D -> u < q /\ q * q <= (q - u) * (q - u) * D.
Proof.
  intros Q U R A B. assert (HL : exists L, (0 <= L /\ L * L = IZR D)%R).
  { exists (sqrt (IZR D)). split; [apply sqrt_pos|]. apply sqrt_sqrt. apply IZR_le. nia. }
  destruct HL as (L & L0 & L2).
  apply IZR_le in A. apply IZR_le in B. rewrite !mult_IZR in A. rewrite !mult_IZR in B. rewrite plus_IZR in B. rewrite <- L2 in A, B.
  assert (Q' : (0 < IZR q)%R) by (apply IZR_lt; exact Q). assert (U' : (0 <= IZR u)%R) by (apply IZR_le; exact U). assert (R' : (0 <= IZR r)%R) by (apply IZR_le; exact R).
  assert (L1 : (IZR r + 1 <= L)%R) by (clear - B L0 R'; nra).
  assert (M : (IZR u * L <= IZR q * IZR r)%R). { clear - A L0 Q' U' R'. apply Rsqr_incr_0_var; [unfold Rsqr; replace (IZR u * L * (IZR u * L))%R with (IZR u * IZR u * (L * L))%R by ring; exact A|apply Rmult_le_pos; lra]. }
  assert (G : (IZR q <= (IZR q - IZR u) * L)%R) by (clear - M L1 Q'; nra).
  assert (Hlt : (IZR u < IZR q)%R) by (clear - G Q' L0; nra). split; [apply lt_IZR, Hlt|].
  apply le_IZR. rewrite !mult_IZR, minus_IZR, <- L2. clear - G Q'. assert (0 <= IZR q)%R by lra. nra.
Qed.
Lemma blocks o v e q t u : pgeo_seg e -> pgeo o -> pgeo v -> nonparallel e (mkS o v) -> 0 < q -> 0 <= t <= q -> 0 <= u < q ->
  px o e q t = u * (lon v - lon o) -> py o e q t = u * (lat v - lat o) -> q * q <= (q - u) * (q - u) * dist2 o v ->
  exists r, intersection_with_segment e (mkS o v) = Ok (Some r) /\ r <> v.
Proof.
  intros E O V NP Q T U X Y G. assert (S : pgeo_seg (mkS o v)) by (split; assumption).
  destruct (intersection_detection e (mkS o v) E S NP) as (r & R & M).
  assert (Mt : segments_meet e (mkS o v)).
  { exists q, t, u. cbn [e1 e2]. unfold px in X. unfold py in Y. split; [exact Q|]. split; [exact T|]. split; [lia|]. split; nia. }
  apply M in Mt. destruct r as [r|]; [|congruence]. exists r. split; [exact R|]. intros ->.
  destruct (intersection_accuracy e (mkS o v) v E S NP R) as (x & y & Ex & Ox & Un & Dx & Dy & _).
  assert (Q' : (0 < IZR q)%R) by (apply IZR_lt; exact Q).
  assert (P1 : on_real e (IZR (lon o) + IZR u / IZR q * (IZR (lon v) - IZR (lon o))) (IZR (lat o) + IZR u / IZR q * (IZR (lat v) - IZR (lat o)))).
  { exists (IZR t / IZR q)%R. split.
    - destruct T as [T1 T2]. apply IZR_le in T1. apply IZR_le in T2. split; [apply Rmult_le_pos; [exact T1|left; apply Rinv_0_lt_compat, Q']|].
      apply Rmult_le_reg_r with (IZR q); [exact Q'|]. unfold Rdiv. rewrite Rmult_assoc, Rinv_l by lra. lra.
    - apply (f_equal IZR) in X. apply (f_equal IZR) in Y. unfold px in X. unfold py in Y. rewrite plus_IZR, !mult_IZR, !minus_IZR in X. rewrite plus_IZR, !mult_IZR, !minus_IZR in Y.
      split; apply Rmult_eq_reg_r with (IZR q); try lra.
      + replace ((IZR (lon o) + IZR u / IZR q * (IZR (lon v) - IZR (lon o))) * IZR q)%R with (IZR (lon o) * IZR q + IZR u * (IZR (lon v) - IZR (lon o)))%R by (field; lra).
        rewrite <- X. field. lra.
      + replace ((IZR (lat o) + IZR u / IZR q * (IZR (lat v) - IZR (lat o))) * IZR q)%R with (IZR (lat o) * IZR q + IZR u * (IZR (lat v) - IZR (lat o)))%R by (field; lra).
        rewrite <- Y. field. lra. }
  assert (P2 : on_real (mkS o v) (IZR (lon o) + IZR u / IZR q * (IZR (lon v) - IZR (lon o))) (IZR (lat o) + IZR u / IZR q * (IZR (lat v) - IZR (lat o)))).
  { exists (IZR u / IZR q)%R. cbn [e1 e2]. split; [|split; ring]. destruct U as [U1 U2]. apply IZR_le in U1. apply IZR_lt in U2.
    split; [apply Rmult_le_pos; [exact U1|left; apply Rinv_0_lt_compat, Q']|]. apply Rmult_le_reg_r with (IZR q); [exact Q'|].
    unfold Rdiv. rewrite Rmult_assoc, Rinv_l by lra. lra. }
  destruct (Un _ _ P1 P2) as [Ux Uy]. rewrite <- Ux in Dx. rewrite <- Uy in Dy.
  apply IZR_le in G. unfold dist2 in G. rewrite !mult_IZR, plus_IZR, !mult_IZR, !minus_IZR in G.
  set (a := (IZR (lon v) - IZR (lon o))%R) in *. set (b := (IZR (lat v) - IZR (lat o))%R) in *.
  set (g := (1 - IZR u / IZR q)%R). assert (Eq : (IZR q - IZR u = g * IZR q)%R) by (unfold g; field; lra). rewrite Eq in G.
  replace (IZR (lon v) - (IZR (lon o) + IZR u / IZR q * a))%R with (g * a)%R in Dx by (unfold g, a; ring).
  replace (IZR (lat v) - (IZR (lat o) + IZR u / IZR q * b))%R with (g * b)%R in Dy by (unfold g, b; ring).
  assert (G1 : (1 <= (g * a) * (g * a) + (g * b) * (g * b))%R).
  { apply Rmult_le_reg_r with (IZR q * IZR q)%R; [nra|]. clear - G. nra. }
  clear - G1 Dx Dy. set (k := (g * a)%R) in *. set (l := (g * b)%R) in *. clearbody k l.
  assert (Bk : (k * k <= 0.27)%R) by (unfold Rabs in Dx; destruct (Rcase_abs k); nra). assert (Bl : (l * l <= 0.27)%R) by (unfold Rabs in Dy; destruct (Rcase_abs l); nra). lra.
Qed.
