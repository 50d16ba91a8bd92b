(** Exactness of the sweep over convex polygons in layers: a vertex is reported if and only if
    the line to it misses the interior of every polygon. *)
From Coq Require Import ZArith Reals Bool List Lia Lra Psatz Sorted Permutation.
From Verif Require Import Base F64 Coordinate Segment Polyline Polygon Periodicity Graph Visgraph SpecGeom CoordinateFacts SegmentFacts PolylineFacts GraphFacts Sweep SweepFacts SweepMaps SweepGen SweepCases AngleFacts AngleSort SweepOrder SweepGeo SweepSound SweepLayers.
Import ListNotations.
Local Open Scope Z_scope.

(** ** Vocabulary *)
(** the rational point (x/q, y/q) lies strictly to the left of every edge *)
Definition in_interior (P : polygon) (q x y : Z) : Prop :=
  forall s, edge_of P s -> 0 < (lon (e2 s) - lon (e1 s)) * (y - q * lat (e1 s)) - (lat (e2 s) - lat (e1 s)) * (x - q * lon (e1 s)).
(** a point strictly between [o] and [v] lies inside [P] *)
Definition through_interior (o v : coord) (P : polygon) : Prop :=
  exists q u, 0 < u < q /\ in_interior P q ((q - u) * lon o + u * lon v) ((q - u) * lat o + u * lat v).
(** no two vertices are seen in one direction *)
Definition distinct_directions (o : coord) (ps : list polygon) : Prop :=
  forall a b, In a (polygon_vertices ps) -> In b (polygon_vertices ps) -> a <> o -> b <> o -> a <> b -> ~ on_ray o a b.

(** ** Along the line *)
Definition left_of (s : segment) (c : coord) : Z := turn (e1 s) (e2 s) c.
Lemma interior_left P o v q u : in_interior P q ((q - u) * lon o + u * lon v) ((q - u) * lat o + u * lat v) <->
  forall s, edge_of P s -> 0 < (q - u) * left_of s o + u * left_of s v.
Proof.
  assert (E : forall s, (lon (e2 s) - lon (e1 s)) * ((q - u) * lat o + u * lat v - q * lat (e1 s)) - (lat (e2 s) - lat (e1 s)) * ((q - u) * lon o + u * lon v - q * lon (e1 s))
     = (q - u) * left_of s o + u * left_of s v) by (intros s; unfold left_of, turn; ring).
  split; intros H s S; specialize (H s S); rewrite E in *; exact H.
Qed.
Lemma turn_left o v s : turn o v (e1 s) - turn o v (e2 s) = left_of s v - left_of s o.
Proof. unfold left_of, turn. ring. Qed.
Lemma bounded (f : segment -> Z) (l : list segment) : exists K, 0 < K /\ forall s, In s l -> Z.abs (f s) < K.
Proof.
  induction l as [|s l (K & K0 & H)]; [exists 1; split; [lia|intros s []]|]. exists (K + Z.abs (f s) + 1). split; [lia|].
  intros t [<-|T]; [lia|specialize (H t T); lia].
Qed.
Lemma latest (l : list segment) (f g : segment -> Z) : (exists s, In s l /\ f s <= 0) -> (forall s, In s l -> f s <= 0 -> f s < g s) ->
  exists s, In s l /\ f s <= 0 /\ forall t, In t l -> f t <= 0 -> - f t * (g s - f s) <= - f s * (g t - f t).
Proof.
  induction l as [|s l IH]; intros (s0 & I0 & F0) G; [destruct I0|].
  assert (G' : forall s, In s l -> f s <= 0 -> f s < g s) by (intros t T; apply G; right; exact T).
  assert (D : (exists t, In t l /\ f t <= 0) \/ (forall t, In t l -> 0 < f t)).
  { clear. induction l as [|t l IH]; [right; intros t []|]. destruct (Z.le_gt_cases (f t) 0) as [H|H]; [left; exists t; split; [left; reflexivity|exact H]|].
    destruct IH as [(x & X & Y)|IH]; [left; exists x; split; [right; exact X|exact Y]|right; intros x [<-|X]; auto]. }
  destruct D as [D|D].
  - destruct (IH D G') as (t & T & Ft & Mt). destruct (Z.le_gt_cases (f s) 0) as [H|H].
    + pose proof (G s (or_introl eq_refl) H) as Gs. pose proof (G t (or_intror T) Ft) as Gt.
      destruct (Z.le_gt_cases (- f s * (g t - f t)) (- f t * (g s - f s))) as [C|C].
      * exists t. split; [right; exact T|]. split; [exact Ft|]. intros x [<-|X] Fx; [exact C|apply Mt; assumption].
      * exists s. split; [left; reflexivity|]. split; [exact H|]. intros x [<-|X] Fx; [lia|]. specialize (Mt x X Fx). pose proof (G x (or_intror X) Fx) as Gx.
        set (a := - f x) in *. set (b := g x - f x) in *. set (c := - f t) in *. set (d := g t - f t) in *. set (e := - f s) in *. set (h := g s - f s) in *.
        assert (0 <= a /\ 0 < b /\ 0 <= c /\ 0 < d /\ 0 <= e /\ 0 < h) by (subst a b c d e h; lia). clearbody a b c d e h. clear - Mt C H0.
        assert (a * d * h <= c * b * h) by nia. assert (c * h * b <= e * d * b) by nia. assert (d * (a * h) <= d * (e * b)) by nia. nia.
    + exists t. split; [right; exact T|]. split; [exact Ft|]. intros x [<-|X] Fx; [lia|apply Mt; assumption].
  - destruct I0 as [->|I0]; [|specialize (D s0 I0); lia]. exists s0. split; [left; reflexivity|]. split; [exact F0|].
    intros x [<-|X] Fx; [lia|specialize (D x X); lia].
Qed.

(** ** Entering a polygon from outside *)
Lemma entering P o v : convex 1 P -> NoDup (verts P) -> ~ In o (verts P) -> ~ in_interior P 1 (lon o) (lat o) ->
  through_interior o v P -> cuts o v P.
Proof.
  intros C N No Ni (q & u & U & H). rewrite interior_left in H. pose proof C as (_ & L & Cs).
  assert (Ex : exists s, In s (edges_list P) /\ left_of s o <= 0).
  { assert (D : (exists s, In s (edges_list P) /\ left_of s o <= 0) \/ forall s, In s (edges_list P) -> 0 < left_of s o).
    { induction (edges_list P) as [|t l IH]; [right; intros t []|]. destruct (Z.le_gt_cases (left_of t o) 0) as [X|X]; [left; exists t; split; [left; reflexivity|exact X]|].
      destruct IH as [(x & X1 & X2)|IH]; [left; exists x; split; [right; exact X1|exact X2]|right; intros x [<-|X1]; auto]. }
    destruct D as [D|D]; [exact D|]. exfalso. apply Ni. intros s S. apply edges_list_ok in S. specialize (D s S). unfold left_of, turn in D. lia. }
  assert (Gr : forall s, In s (edges_list P) -> left_of s o <= 0 -> left_of s o < left_of s v).
  { intros s S F. apply edges_list_ok in S. specialize (H s S). nia. }
  destruct (latest (edges_list P) (fun s => left_of s o) (fun s => left_of s v) Ex Gr) as (s & S & Fs & M). cbv beta in M.
  pose proof (Gr s S Fs) as Gs. set (a := - left_of s o) in *. set (b := left_of s v - left_of s o) in *.
  assert (A0 : 0 <= a) by (subst a; lia). assert (B0 : 0 < b) by (subst b; lia).
  assert (Es : edge_of P s) by (apply edges_list_ok, S).
  assert (Au : a * q < u * b) by (specialize (H s Es); subst a b; nia).
  assert (Ab : a < b) by nia.
  assert (All : forall t, edge_of P t -> 0 <= (b - a) * left_of t o + a * left_of t v).
  { intros t T. specialize (H t T). destruct (Z.le_gt_cases (left_of t o) 0) as [X|X].
    - pose proof (M t (proj1 (edges_list_ok P t) T) X) as Mt. lia.
    - set (x := left_of t o) in *. set (y := left_of t v) in *. clearbody x y. clear - H X Au A0 B0 Ab U. assert (0 <= u * ((b - a) * x + a * y)); [|nia].
      assert (a * ((q - u) * x + u * y) >= 0) by nia. assert (x * (u * b - a * q) > 0) by nia. nia. }
  assert (Ze : (b - a) * left_of s o + a * left_of s v = 0) by (subst a b; ring).
  destruct (edge_verts P s Es) as [I1 I2].
  destruct (corner_at P (e1 s) N L I1) as (p & n1 & K1). destruct (corner_at P (e2 s) N L I2) as (p2 & n & K2).
  assert (Sn : s = mkS (e1 s) n1).
  { destruct (c_only _ _ _ _ K1 s Es (or_introl eq_refl)) as [X|X]; [|exact X]. exfalso. pose proof (f_equal e2 X) as Y. cbn [e2] in Y.
    apply (edge_ends P s N ltac:(lia) Es). congruence. }
  assert (Sp : s = mkS p2 (e2 s)).
  { destruct (c_only _ _ _ _ K2 s Es (or_intror eq_refl)) as [X|X]; [exact X|]. exfalso. pose proof (f_equal e1 X) as Y. cbn [e1] in Y.
    apply (edge_ends P s N ltac:(lia) Es). congruence. }
  assert (En1 : n1 = e2 s) by (rewrite Sn; reflexivity). assert (Ep2 : p2 = e1 s) by (rewrite Sp; reflexivity). subst n1 p2. clear Sn Sp.
  pose proof (c_in _ _ _ _ K1) as Ep. pose proof (c_out _ _ _ _ K2) as Eo.
  destruct (edge_verts P _ Ep) as [Ip _]. destruct (edge_verts P _ Eo) as [_ In_]. cbn [e1 e2] in Ip, In_.
  set (D := turn p (e1 s) (e2 s)). assert (D0 : 0 < D).
  { destruct (corner_left 1 P p (e1 s) (e2 s) (e2 s) C K1 I2) as (_ & _ & X & _); [intros X; apply (c_vn _ _ _ _ K1); auto|].
    specialize (X (fun E => c_pn _ _ _ _ K1 (eq_sym E))). subst D. lia. }
  set (F := turn (e2 s) n (e1 s)). assert (F0 : 0 < F).
  { destruct (corner_left 1 P (e1 s) (e2 s) n (e1 s) C K2 I1) as (_ & _ & _ & X); [intros X; apply (c_vn _ _ _ _ K1); auto|].
    specialize (X (c_pn _ _ _ _ K2)). subst F. lia. }
  pose proof (All _ Ep) as Hp. pose proof (All _ Eo) as Hn. unfold left_of in Hp, Hn. cbn [e1 e2] in Hp, Hn.
  set (t := (b - a) * turn p (e1 s) o + a * turn p (e1 s) v) in *.
  assert (X1 : (b * D - t) * lon (e1 s) + t * lon (e2 s) = (b * D - a * D) * lon o + (a * D) * lon v).
  { assert (Q : D * ((b - a) * (lon o - lon (e1 s)) + a * (lon v - lon (e1 s))) - t * (lon (e2 s) - lon (e1 s)) = - (lon (e1 s) - lon p) * ((b - a) * left_of s o + a * left_of s v)) by (subst t D; unfold left_of, turn; ring).
    rewrite Ze in Q. lia. }
  assert (X2 : (b * D - t) * lat (e1 s) + t * lat (e2 s) = (b * D - a * D) * lat o + (a * D) * lat v).
  { assert (Q : D * ((b - a) * (lat o - lat (e1 s)) + a * (lat v - lat (e1 s))) - t * (lat (e2 s) - lat (e1 s)) = - (lat (e1 s) - lat p) * ((b - a) * left_of s o + a * left_of s v)) by (subst t D; unfold left_of, turn; ring).
    rewrite Ze in Q. lia. }
  set (w := (b - a) * turn (e2 s) n o + a * turn (e2 s) n v) in *.
  assert (X3 : D * w = (b * D - t) * F).
  { assert (Q : D * w = (lon n - lon (e2 s)) * ((b * D - a * D) * lat o + (a * D) * lat v - b * D * lat (e2 s)) - (lat n - lat (e2 s)) * ((b * D - a * D) * lon o + (a * D) * lon v - b * D * lon (e2 s))) by (subst w; unfold turn; ring).
    rewrite <- X1, <- X2 in Q. rewrite Q. subst F. unfold turn. ring. }
  assert (T1 : t <= b * D) by (clear - X3 Hn D0 F0; nia).
  split.
  - exists s. split; [exact Es|]. split; [intros [X|X]; apply No; rewrite <- X; assumption|].
    exists (b * D), t, (a * D). split; [nia|]. split; [lia|]. split; [nia|]. split; assumption.
  - assert (Fl : (b * D - t) * turn o v (e1 s) + t * turn o v (e2 s) = 0).
    { assert (Q : (b * D - t) * turn o v (e1 s) + t * turn o v (e2 s) = (lon v - lon o) * ((b * D - t) * lat (e1 s) + t * lat (e2 s) - b * D * lat o) - (lat v - lat o) * ((b * D - t) * lon (e1 s) + t * lon (e2 s) - b * D * lon o)) by (unfold turn; ring).
      rewrite X1, X2 in Q. rewrite Q. ring. }
    pose proof (turn_left o v s) as Ts. fold b in Ts.
    assert (Bd : 0 < b * D) by nia.
    destruct (Z.eq_dec t 0) as [T0|T0]; [|destruct (Z.eq_dec t (b * D)) as [Tq|Tq]].
    + assert (Z1 : turn o v (e1 s) = 0) by (rewrite T0 in Fl; clear - Fl Bd; nia).
      exists (e2 s), p. split; [exact I2|]. split; [exact Ip|]. split; [lia|].
      pose proof (turn_left o v (mkS p (e1 s))) as Tp. cbn [e1 e2] in Tp. unfold left_of in Tp. cbn [e1 e2] in Tp.
      pose proof (H _ Ep) as Hq. unfold left_of in Hq. cbn [e1 e2] in Hq.
      set (x := turn p (e1 s) o) in *. set (y := turn p (e1 s) v) in *.
      assert (x < y); [|lia]. clearbody x y. subst t. clear - T0 Hq Au A0 Ab U. assert (b * x = a * (x - y)) by lia. assert (q * x > u * (x - y)) by lia.
      destruct (Z.lt_ge_cases x y); [assumption|exfalso]. assert (0 <= x - y) by lia. assert (0 <= (u * b - a * q) * (x - y)) by nia. nia.
    + assert (Z2 : turn o v (e2 s) = 0) by (rewrite Tq in Fl; clear - Fl Bd; nia).
      exists n, (e1 s). split; [exact In_|]. split; [exact I1|]. split; [|lia].
      pose proof (turn_left o v (mkS (e2 s) n)) as Tn. cbn [e1 e2] in Tn. unfold left_of in Tn. cbn [e1 e2] in Tn.
      pose proof (H _ Eo) as Hq. unfold left_of in Hq. cbn [e1 e2] in Hq. assert (W0 : w = 0) by (rewrite Tq in X3; clear - X3 D0; nia).
      set (x := turn (e2 s) n o) in *. set (y := turn (e2 s) n v) in *.
      assert (x < y); [|lia]. clearbody x y. subst w. clear - W0 Hq Au A0 Ab U. assert (b * x = a * (x - y)) by lia. assert (q * x > u * (x - y)) by lia.
      destruct (Z.lt_ge_cases x y); [assumption|exfalso]. assert (0 <= x - y) by lia. assert (0 <= (u * b - a * q) * (x - y)) by nia. nia.
    + exists (e2 s), (e1 s). split; [exact I2|]. split; [exact I1|]. set (x := turn o v (e1 s)) in *. set (y := turn o v (e2 s)) in *. clearbody x y.
      assert (0 < t < b * D) by lia. clear - Fl Ts H0 B0. nia.
Qed.

(** ** Setting out into the observer's own polygon *)
Lemma setting_out P p o n v : convex 1 P -> NoDup (verts P) -> corner P p o n -> 0 < turn p o v -> 0 < turn o n v -> through_interior o v P.
Proof.
  intros C N K H1 H2. destruct (bounded (fun s => left_of s v) (edges_list P)) as (M & M0 & Bd).
  exists (M + 1), 1. split; [lia|]. apply interior_left. intros s S. specialize (Bd s (proj1 (edges_list_ok P s) S)). cbv beta in Bd.
  assert (T : touches s o \/ ~ touches s o) by (unfold touches; destruct (coord_dec (e1 s) o), (coord_dec (e2 s) o); tauto).
  destruct T as [T|T].
  - destruct (c_only _ _ _ _ K s S T) as [-> | ->]; unfold left_of in *; cbn [e1 e2] in *.
    + replace (turn p o o) with 0 by (unfold turn; ring). lia.
    + replace (turn o n o) with 0 by (unfold turn; ring). lia.
  - destruct C as (_ & _ & C). specialize (C s o S). assert (Io : In o (verts P)) by (apply (edge_verts P _ (c_in _ _ _ _ K))).
    specialize (C Io T). fold (left_of s o) in C. nia.
Qed.
Lemma set_out P p o n v : corner P p o n -> through_interior o v P -> 0 < turn p o v /\ 0 < turn o n v.
Proof.
  intros K (q & u & U & H). rewrite interior_left in H. pose proof (H _ (c_in _ _ _ _ K)) as A. pose proof (H _ (c_out _ _ _ _ K)) as B.
  unfold left_of in A, B. cbn [e1 e2] in A, B. replace (turn p o o) with 0 in A by (unfold turn; ring). replace (turn o n o) with 0 in B by (unfold turn; ring).
  split; nia.
Qed.

(** ** Crossing an edge between its ends *)
Lemma crossing P e o v q t u : convex 1 P -> NoDup (verts P) -> edge_of P e -> 0 < t < q -> 0 < u < q -> left_of e v <> left_of e o ->
  (q - t) * lon (e1 e) + t * lon (e2 e) = (q - u) * lon o + u * lon v ->
  (q - t) * lat (e1 e) + t * lat (e2 e) = (q - u) * lat o + u * lat v -> through_interior o v P.
Proof.
  intros C N E T U D X Y. pose proof C as (_ & L & Cs).
  assert (At : forall s, (q - u) * left_of s o + u * left_of s v = (q - t) * left_of s (e1 e) + t * left_of s (e2 e)).
  { intros s. assert (Q : (q - u) * left_of s o + u * left_of s v = (lon (e2 s) - lon (e1 s)) * ((q - u) * lat o + u * lat v - q * lat (e1 s)) - (lat (e2 s) - lat (e1 s)) * ((q - u) * lon o + u * lon v - q * lon (e1 s))) by (unfold left_of, turn; ring).
    rewrite <- X, <- Y in Q. rewrite Q. unfold left_of, turn. ring. }
  assert (Ze : (q - u) * left_of e o + u * left_of e v = 0) by (rewrite At; unfold left_of, turn; ring).
  destruct (edge_verts P e E) as [I1 I2].
  assert (Pos : forall s, edge_of P s -> s <> e -> 0 < (q - u) * left_of s o + u * left_of s v).
  { intros s S Ns. rewrite At.
    assert (Nn : forall c, In c (verts P) -> 0 <= left_of s c /\ (~ touches s c -> 0 < left_of s c)).
    { intros c Ic. assert (W : touches s c \/ ~ touches s c) by (unfold touches; destruct (coord_dec (e1 s) c), (coord_dec (e2 s) c); tauto).
      destruct W as [W|W]; [|specialize (Cs s c S Ic W); unfold left_of; split; [lia|intros _; lia]].
      split; [|contradiction]. destruct W as [<- | <-]; unfold left_of, turn; lia. }
    destruct (Nn _ I1) as [A1 B1]. destruct (Nn _ I2) as [A2 B2].
    assert (W : ~ touches s (e1 e) \/ ~ touches s (e2 e)).
    { unfold touches. destruct (coord_dec (e1 s) (e1 e)) as [Q|Q]; [exfalso; apply Ns; apply (edge_first P); assumption|].
      destruct (coord_dec (e2 s) (e1 e)) as [Q2|Q2]; [|left; tauto]. right. intros [Z|Z]; [|apply Ns; apply (edge_second P); assumption].
      apply (edge_no_back P s e N L S E); assumption. }
    destruct W as [W|W]; [specialize (B1 W)|specialize (B2 W)]; nia. }
  destruct (bounded (fun s => left_of s v - left_of s o) (edges_list P)) as (M & M0 & Bd).
  set (g := if Z.ltb (left_of e o) (left_of e v) then 1 else -1).
  assert (Hg : (g = 1 \/ g = -1) /\ 0 < g * (left_of e v - left_of e o)) by (subst g; destruct (Z.ltb_spec (left_of e o) (left_of e v)); lia).
  destruct Hg as [Hg Pg]. clearbody g.
  exists (q * (M + 1)), (u * (M + 1) + g). split; [nia|]. apply interior_left. intros s S. specialize (Bd s (proj1 (edges_list_ok P s) S)). cbv beta in Bd.
  assert (Q : (q * (M + 1) - (u * (M + 1) + g)) * left_of s o + (u * (M + 1) + g) * left_of s v = (M + 1) * ((q - u) * left_of s o + u * left_of s v) + g * (left_of s v - left_of s o)) by ring.
  rewrite Q. clear Q. assert (Dec : s = e \/ s <> e) by (destruct s as [a b], e as [c d]; destruct (coord_dec a c) as [->|]; [destruct (coord_dec b d) as [->|]; [auto|]|]; right; congruence).
  destruct Dec as [->|Ns]; [rewrite Ze; lia|]. specialize (Pos s S Ns). set (w := (q - u) * left_of s o + u * left_of s v) in *. set (z := left_of s v - left_of s o) in *.
  clear - Pos Bd Hg M0. destruct Hg as [-> | ->]; nia.
Qed.

Lemma corner_of_corner ps p o n : NoDup (polygon_vertices ps) -> (forall P, In P ps -> exists sg, convex sg P) -> corner_of ps p o n ->
  exists P, In P ps /\ In o (verts P) /\ corner P p o n.
Proof.
  intros N C (P & i & HP & I & -> & -> & ->). exists P. split; [exact HP|]. split; [apply nth_In, I|].
  apply corner_ring; [apply (nodup_parts ps P N HP)|destruct (C P HP) as (sg & _ & L & _); exact L|exact I].
Qed.
Lemma corner_corner_of ps P p o n : NoDup (polygon_vertices ps) -> In P ps -> corner P p o n -> corner_of ps p o n.
Proof.
  intros N HP K. pose proof (nodup_parts ps P N HP) as Np. destruct (c_out _ _ _ _ K) as (i & I & E). injection E as E1 E2.
  exists P, i. split; [exact HP|]. split; [exact I|]. split; [|split; assumption].
  destruct (ring_prev_edge (verts P) i I) as (j & J & A & B).
  assert (S : mkS p o = mkS (ring_prev (verts P) i) (vat (verts P) i)).
  { apply (edge_second P _ _ Np (c_in _ _ _ _ K)); [exists j; rewrite A, B; auto|cbn [e2]; exact E1]. }
  injection S. auto.
Qed.

Theorem sweep_exact atan2 ord ps o half : accurate_atan2 atan2 -> library_orders ord -> pgeo o -> lon o < 540000001 ->
  (forall c, In c (polygon_vertices ps) -> pgeo c) -> NoDup (polygon_vertices ps) -> all_separated o (polygon_vertices ps) ->
  (forall P, In P ps -> own_ok o P) -> off_edges o ps -> layered o ps -> distinct_directions o ps ->
  (forall P, In P ps -> ~ in_interior P 1 (lon o) (lat o)) -> (forall p n, corner_of ps p o n -> clear_corner p o n) ->
  exists res seen, get_visible_vertices atan2 ord (vistree_of_polygons ps) o half = Ok res /\ Forall2 reports_as seen res /\
    forall v, In v seen <-> In v (polygon_vertices ps) /\ v <> o /\ (half = true -> lat o <= lat v) /\ forall P, In P ps -> ~ through_interior o v P.
Proof.
  intros At L O East G Nd Sep Own Off Lay Dd Ni Cc.
  assert (Cx : forall P, In P ps -> exists sg, convex sg P) by (intros P HP; exists 1; apply Own, HP).
  destruct (sweep_trace atan2 ord ps o half At L O East G Nd Sep Cx Off Lay) as (res & seen & R & F & H1 & H2).
  exists res, seen. split; [exact R|]. split; [exact F|]. intros v. split.
  - intros V. destruct (H1 v V) as (A1 & A2 & A3 & A4 & A5). split; [exact A1|]. split; [exact A2|]. split; [exact A3|].
    intros P HP Th. pose proof (nodup_parts ps P Nd HP) as Np. destruct (Own P HP) as (Cp & Tk & Dk). pose proof Cp as (_ & Lp & _).
    destruct (in_dec coord_dec o (verts P)) as [Io|Io].
    + destruct (corner_at P o Np Lp Io) as (p & n & K). destruct (set_out P p o n v K Th) as [T1 T2].
      pose proof (corner_corner_of ps P p o n Nd HP K) as Ko. pose proof (A5 p n Ko) as Pv.
      destruct (corner_facts P p o n K) as (Ip & _ & In_).
      destruct (point_visible_ok p o n v (G p (all_in ps P p HP Ip)) O (G n (all_in ps P n HP In_)) (G v A1) (Cc p n Ko) A2) as (b & Eb & K1 & _).
      rewrite Pv in Eb. injection Eb as <-. assert (X : into_solid p o n v).
      { left. split; [|split; assumption]. destruct (corner_left 1 P p o n n Cp K In_) as (_ & _ & X & _); [intros X; apply (c_vn _ _ _ _ K); auto|].
        specialize (X (fun E => c_pn _ _ _ _ K (eq_sym E))). lia. }
      specialize (K1 X). discriminate K1.
    + apply (A4 P HP); [intros _; apply Own, HP|]. apply entering; try assumption. apply Ni, HP.
  - intros (V & Nv & Hv & Fr). destruct (H2 v V Nv Hv) as [X|[(p & n & K & Pv)|(e & E & T & M)]]; [exact X|exfalso|exfalso].
    + destruct (corner_of_corner ps p o n Nd Cx K) as (P & HP & Io & Kc). destruct (corner_facts P p o n Kc) as (Ip & _ & In_).
      pose proof (nodup_parts ps P Nd HP) as Np. destruct (Own P HP) as (Cp & _).
      destruct (hidden_geometric p o n v (G p (all_in ps P p HP Ip)) O (G n (all_in ps P n HP In_)) (G v V) Nv (Cc p n K) Pv) as [X|(w & W & Ry & Pa)].
      * assert (Tn : 0 < turn p o n).
        { destruct (corner_left 1 P p o n n Cp Kc In_) as (_ & _ & X' & _); [intros X'; apply (c_vn _ _ _ _ Kc); auto|].
          specialize (X' (fun E => c_pn _ _ _ _ Kc (eq_sym E))). lia. }
        destruct X as [(_ & T1 & T2)|(X & _)]; [|lia]. exact (Fr P HP (setting_out P p o n v Cp Np Kc T1 T2)).
      * assert (Iw : In w (verts P)) by (destruct W as [->| ->]; assumption).
        assert (Nw : w <> o) by (destruct W as [->| ->]; [apply (c_pv _ _ _ _ Kc)|intros Z; apply (c_vn _ _ _ _ Kc); auto]).
        destruct (coord_dec w v) as [->|Wv]; [|exact (Dd w v (all_in ps P w HP Iw) V Nw Nv Wv Ry)].
        pose proof (proj2 Ry) as I0. lia.
    + destruct (poly_edge ps e E) as (P & HP & Ep). destruct (edge_verts P e Ep) as [I1 I2].
      destruct (Own P HP) as (Cp & _). pose proof (nodup_parts ps P Nd HP) as Np.
      destruct M as (q & t & u & Q & Tt & U & X & Y).
      assert (U0 : 0 < u).
      { destruct (Z.eq_dec u 0) as [->|]; [exfalso|lia]. apply T, (Off e E). exists q, t. split; [exact Q|]. split; [exact Tt|]. split; lia. }
      assert (Nw : forall w, In w (verts P) -> w <> o -> (q * lon w = (q - u) * lon o + u * lon v /\ q * lat w = (q - u) * lat o + u * lat v) -> False).
      { intros w Iw Wo [Wx Wy]. assert (Ex : q * (lon w - lon o) = u * (lon v - lon o)) by lia. assert (Ey : q * (lat w - lat o) = u * (lat v - lat o)) by lia.
        assert (Wv : w <> v).
        { intros ->. apply Nv. apply coord_ext; nia. }
        apply (Dd w v (all_in ps P w HP Iw) V Wo Nv Wv). split.
        - assert (q * turn o w v = 0); [|nia]. unfold turn. replace (q * _) with (q * (lon w - lon o) * (lat v - lat o) - q * (lat w - lat o) * (lon v - lon o)) by ring. rewrite Ex, Ey. ring.
        - assert (0 < q * inner o w v); [|nia]. unfold inner. replace (q * _) with (q * (lon w - lon o) * (lon v - lon o) + q * (lat w - lat o) * (lat v - lat o)) by ring. rewrite Ex, Ey.
          assert (lon v - lon o <> 0 \/ lat v - lat o <> 0) by (destruct (Z.eq_dec (lon v) (lon o)); [destruct (Z.eq_dec (lat v) (lat o)); [exfalso; apply Nv, coord_ext; assumption|lia]|lia]).
          set (x := lon v - lon o) in *. set (y := lat v - lat o) in *. replace (u * x * x + u * y * y) with (u * (x * x + y * y)) by ring.
          clear - H U0. apply Z.mul_pos_pos; [exact U0|]. pose proof (Z.square_nonneg x). pose proof (Z.square_nonneg y). destruct H; nia. }
      assert (No1 : e1 e <> o) by (intros Z; apply T; left; exact Z). assert (No2 : e2 e <> o) by (intros Z; apply T; right; exact Z).
      assert (T0 : 0 < t) by (destruct (Z.eq_dec t 0) as [->|]; [exfalso; apply (Nw _ I1 No1); split; lia|lia]).
      assert (Tq : t < q) by (destruct (Z.eq_dec t q) as [->|]; [exfalso; apply (Nw _ I2 No2); split; lia|lia]).
      destruct (Z.eq_dec (left_of e v) (left_of e o)) as [Eq|Ne]; [|exact (Fr P HP (crossing P e o v q t u Cp Np Ep ltac:(lia) ltac:(lia) Ne X Y))].
      (* the edge lies along the line *)
      assert (Zl : left_of e o = 0).
      { assert (Z : (q - u) * left_of e o + u * left_of e v = 0).
        { assert (Q' : (q - u) * left_of e o + u * left_of e v = (lon (e2 e) - lon (e1 e)) * ((q - u) * lat o + u * lat v - q * lat (e1 e)) - (lat (e2 e) - lat (e1 e)) * ((q - u) * lon o + u * lon v - q * lon (e1 e))) by (unfold left_of, turn; ring).
          rewrite <- X, <- Y in Q'. rewrite Q'. unfold left_of, turn. ring. }
        rewrite Eq in Z. clear - Z Q. nia. }
      assert (Tn : turn o (e1 e) (e2 e) = 0) by (unfold left_of in Zl; clear - Zl; unfold turn in *; lia).
      pose proof (edge_ends P e Np ltac:(destruct Cp as (_ & Z & _); lia) Ep) as Ne12.
      destruct (Z.le_gt_cases (inner o (e1 e) (e2 e)) 0) as [In0|In0].
      * apply T, (Off e E). set (a := lon (e1 e) - lon o). set (b := lat (e1 e) - lat o). set (c := lon (e2 e) - lon o). set (d := lat (e2 e) - lat o).
        assert (Hab : a <> 0 \/ b <> 0) by (destruct (Z.eq_dec a 0); [destruct (Z.eq_dec b 0); [exfalso; apply No1, coord_ext; subst a b; lia|lia]|lia]).
        exists (a * a + b * b - (a * c + b * d)), (a * a + b * b). assert (Ip : a * c + b * d <= 0) by exact In0. assert (Tp : a * d - b * c = 0) by exact Tn.
        split; [clear - Ip Hab; pose proof (Z.square_nonneg a); pose proof (Z.square_nonneg b); destruct Hab; nia|]. split; [clear - Ip; pose proof (Z.square_nonneg a); pose proof (Z.square_nonneg b); lia|]. assert (L1 : lon (e1 e) = lon o + a) by (subst a; ring). assert (L2 : lat (e1 e) = lat o + b) by (subst b; ring). assert (L3 : lon (e2 e) = lon o + c) by (subst c; ring). assert (L4 : lat (e2 e) = lat o + d) by (subst d; ring).
        rewrite L1, L2, L3, L4. clearbody a b c d. clear - Tp. set (x := lon o). set (y := lat o).
        split; [transitivity ((a * a + b * b - (a * c + b * d)) * x - b * (a * d - b * c))|transitivity ((a * a + b * b - (a * c + b * d)) * y + a * (a * d - b * c))]; try ring; rewrite Tp; ring.
      * exact (Dd (e1 e) (e2 e) (all_in ps P _ HP I1) (all_in ps P _ HP I2) No1 No2 Ne12 (conj Tn In0)).
Qed.
