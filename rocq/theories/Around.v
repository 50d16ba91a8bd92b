(** Legs around the world: which of the two lines is open, and which of them is measured.  No code is modelled here. *)
From Coq Require Import ZArith Reals Bool List Lia Lra Psatz Permutation.
From Flocq Require Import Core BinarySingleNaN.
From Verif Require Import Jordan.
From Verif Require Import Base F64 Coordinate Segment Polygon PolygonMore Periodicity Graph GraphFacts GraphMore Visgraph VisgraphFacts SpecGeom SpecGraph F64Facts CoordinateFacts
  Sweep SweepFacts SweepMaps SweepGen SweepOrder AngleFacts AngleSort SweepGeo SweepSound SweepExact SweepGraph SweepLayers SweepFronts
  ShortestPath DistFacts SearchFacts SearchSpec SearchGraph SearchQuery PathFacts PathMore FreePaths OpenWater SeaLines Coasts CoastExact.
Import ListNotations.
Local Open Scope Z_scope.

(** the world is this wide *)
Definition girth : Z := 360000001.
(** [P] reaches as far north and as far south as [a] and [b] *)
Definition spans (P : polygon) (a b : coord) : Prop :=
  (exists c, In c (verts P) /\ lat a <= lat c /\ lat b <= lat c) /\ (exists c, In c (verts P) /\ lat c <= lat a /\ lat c <= lat b).
(** all of [P] lies between two meridians which are less than [width] apart *)
Definition narrower (P : polygon) (width : Z) : Prop := forall c c', In c (verts P) -> In c' (verts P) -> lon c' - lon c < width.

Lemma apart_lon a b : apart a b = sqrt (IZR ((lon a - lon b) * (lon a - lon b) + (lat a - lat b) * (lat a - lat b))).
Proof. unfold apart, Rsqr. rewrite plus_IZR, !mult_IZR, !minus_IZR. reflexivity. Qed.
(** the length which is given is that of the line around the world which does not go around more than once *)
Lemma around_measured u v k : k = 1 \/ k = -1 ->
  (edge_length true u v <= apart u (wrap k v))%R /\ (edge_length true u v = apart u (wrap k v) \/ girth < Z.abs (lon u - lon (wrap k v))).
Proof.
  intros K. rewrite around_exact. set (m := Rmin (apart u (wrap 1 v)) (apart u (wrap (-1) v))). split; [unfold m; destruct K as [ -> | -> ]; [apply Rmin_l|apply Rmin_r]|].
  destruct (Z_lt_le_dec girth (Z.abs (lon u - lon (wrap k v)))) as [L|L]; [right; exact L|left].
  assert (Le : (apart u (wrap k v) <= apart u (wrap (- k) v))%R).
  { rewrite !apart_lon. apply sqrt_le_1_alt, IZR_le. unfold wrap, girth in *. cbn [lon lat] in *. destruct K as [ -> | -> ]; nia. }
  unfold m. destruct K as [ -> | -> ]; [apply Rmin_left|apply Rmin_right]; exact Le.
Qed.

(** ** A land that no line around the world can pass *)
Lemma change f : forall n i, f i <= 0 -> 0 <= f (i + n)%nat -> (1 <= n)%nat -> exists m, (i <= m < i + n)%nat /\ (f m <= 0 <= f (S m)).
Proof.
  induction n as [|n IH]; intros i A B N; [lia|]. destruct (Z_le_gt_dec 0 (f (S i))) as [L|L]; [exists i; split; [lia|split; assumption]|].
  destruct n as [|n]; [replace (i + 1)%nat with (S i) in B by lia; lia|]. destruct (IH (S i)) as (m & M & F); [lia|replace (S i + S n)%nat with (i + S (S n))%nat by lia; exact B|lia|]. exists m. split; [lia|exact F].
Qed.
Section Barrier.
Variables (ps : list polygon) (P : polygon).
Hypotheses (HP : In P ps) (N3 : (3 <= length (verts P))%nat).
(** from [a] eastward to [b], past all of [P] *)
Lemma not_past a b : (forall c, In c (verts P) -> lon a < lon c < lon b) -> spans P a b -> ~ open_here ps a b.
Proof.
  intros In' ((hi & Ih & H1 & H2) & (lo & Il & L1 & L2)) (O & _). set (n := length (verts P)) in *.
  set (f := fun c => turn a b c).
  assert (D : forall c, In c (verts P) -> 0 < lon c - lon a /\ lon c - lon a < lon b - lon a) by (intros c I; specialize (In' c I); lia).
  assert (Fh : 0 <= f hi). { destruct (D hi Ih) as [A B]. unfold f, turn. set (x := lon hi - lon a) in *. set (d := lon b - lon a) in *. clearbody x d. clear - A B H1 H2. nia. }
  assert (Fl : f lo <= 0). { destruct (D lo Il) as [A B]. unfold f, turn. set (x := lon lo - lon a) in *. set (d := lon b - lon a) in *. clearbody x d. clear - A B L1 L2. nia. }
  (* an edge of P crosses the line *)
  assert (X : exists i c c', (i < n)%nat /\ mkS (vat (verts P) i) (ring_next (verts P) i) = mkS c c' /\ In c (verts P) /\ In c' (verts P) /\ exists t q, 0 <= t <= q /\ 0 < q /\ (q - t) * f c + t * f c' = 0).
  { destruct (In_nth _ _ (mkC 0 0) Ih) as (ih & Bh & Eh). destruct (In_nth _ _ (mkC 0 0) Il) as (il & Bl & El). fold n in Bh, Bl.
    assert (Nx : forall i, (i < n)%nat -> In (vat (verts P) i) (verts P) /\ In (ring_next (verts P) i) (verts P)).
    { intros i Hi. split; [apply nth_In, Hi|]. unfold ring_next, vat. apply nth_In. fold n. apply Nat.mod_upper_bound. lia. }
    assert (Mod : forall i, In (nth (i mod n) (verts P) (mkC 0 0)) (verts P)) by (intros i; apply nth_In; fold n; apply Nat.mod_upper_bound; lia).
    set (g := fun i => f (nth (i mod n) (verts P) (mkC 0 0))).
    assert (S1 : exists m, g m <= 0 <= g (S m)).
    { destruct (Nat.lt_ge_cases il ih) as [Lt|Ge].
      - destruct (change g (ih - il) il) as (m & _ & F); [unfold g; rewrite Nat.mod_small, El by lia; exact Fl|unfold g; rewrite Nat.mod_small by lia; replace (il + (ih - il))%nat with ih by lia; rewrite Eh; exact Fh|lia|]. exists m. exact F.
      - destruct (change g (ih + n - il) il) as (m & _ & F); [unfold g; rewrite Nat.mod_small, El by lia; exact Fl|unfold g; replace (il + (ih + n - il))%nat with (ih + 1 * n)%nat by lia; rewrite Nat.mod_add, Nat.mod_small, Eh by lia; exact Fh|lia|]. exists m. exact F. }
    destruct S1 as (m & M1 & M2). unfold g in M1, M2. set (i := (m mod n)%nat). assert (Hi : (i < n)%nat) by (apply Nat.mod_upper_bound; lia).
    assert (E2 : nth (S m mod n) (verts P) (mkC 0 0) = ring_next (verts P) i).
    { unfold ring_next, vat. fold n. replace ((i + 1) mod n)%nat with (S m mod n)%nat; [apply nth_indep; fold n; apply Nat.mod_upper_bound; lia|]. unfold i. rewrite Nat.add_mod_idemp_l by lia. f_equal. lia. }
    assert (E1 : nth i (verts P) (mkC 0 0) = vat (verts P) i) by (unfold vat; apply nth_indep; exact Hi).
    fold i in M1. rewrite E1 in M1. rewrite E2 in M2. destruct (Nx i Hi) as [I1 I2]. exists i, (vat (verts P) i), (ring_next (verts P) i). split; [exact Hi|]. split; [reflexivity|]. split; [exact I1|]. split; [exact I2|].
    destruct (Z.eq_dec (f (ring_next (verts P) i)) (f (vat (verts P) i))) as [Q|Q]; [exists 0, 1; lia|]. exists (- f (vat (verts P) i)), (f (ring_next (verts P) i) - f (vat (verts P) i)). split; [lia|]. split; [lia|]. ring. }
  destruct X as (i & c & c' & Hi & Ee & I1 & I2 & t & q & T & Q & Z0). destruct (D c I1) as [A1 B1]. destruct (D c' I2) as [A2 B2].
  set (d := lon b - lon a) in *. set (U := (q - t) * (lon c - lon a) + t * (lon c' - lon a)).
  assert (HU : 0 < U < q * d) by (unfold U; clearbody d; clear - A1 B1 A2 B2 T Q; nia).
  destruct (O (mkS c c') (q * d) (t * d) U) as [[K _]|[[K _]|[[K|K] _]]]; cbn [e1 e2] in *.
  - exists P, i. split; [exact HP|]. split; [exact Hi|symmetry; exact Ee].
  - clear - Q A1 B1. nia.
  - clear - T Q A1 B1. nia.
  - lia.
  - unfold U. replace (lon b) with (lon a + d) by (unfold d; ring). ring.
  - unfold f, turn in Z0. fold d in Z0. transitivity (d * ((q - t) * (lat c - lat a) + t * (lat c' - lat a)) + q * d * lat a); [ring|].
    replace (d * ((q - t) * (lat c - lat a) + t * (lat c' - lat a))) with (U * (lat b - lat a)); [ring|]. unfold U. clearbody d. clear - Z0.
    set (x := lon c - lon a) in *. set (x' := lon c' - lon a) in *. set (y := lat c - lat a) in *. set (y' := lat c' - lat a) in *. set (h := lat b - lat a) in *. clearbody x x' y y' h. lia.
  - lia.
  - lia.
  - rewrite <- K in A1. lia.
  - rewrite <- K in A2. lia.
Qed.
Hypothesis Gp : forall c, In c (verts P) -> ngeo c.
Lemma not_around u v : ngeo u -> ngeo v -> spans P u v -> narrower P (lon v - lon u) -> ~ open_line ps u (wrap 1 v).
Proof.
  intros Gu Gv Sp Na O. assert (Sw : forall j j', spans P (wrap j u) (wrap j' v)) by (intros j j'; exact Sp).
  destruct (Exists_dec (fun c => lon c <= lon u) (verts P)) as [E|E]; [intros c; apply Z_le_dec| |].
  - apply Exists_exists in E. destruct E as (c0 & I0 & L0). pose proof (O (-1)) as O1. rewrite wrap_wrap in O1. replace (-1 + 1) with 0 in O1 by lia. rewrite wrap_0 in O1. revert O1. apply not_past; [|exact (Sw (-1) 0)].
    intros c I. specialize (Na c0 c I0 I). pose proof (Gp c I) as G. destruct Gu, Gv, G. unfold wrap. cbn [lon]. lia.
  - pose proof (O 0) as O1. rewrite !wrap_0 in O1. revert O1. apply not_past; [|exact (Sw 0 1)]. intros c I. assert (~ lon c <= lon u) by (intros X; apply E, Exists_exists; eauto). pose proof (Gp c I) as G. destruct Gu, Gv, G. unfold wrap. cbn [lon]. lia.
Qed.
End Barrier.

(** ** Checking a line around the world *)
Lemma open_around ps a b : (forall c, In c (polygon_vertices ps) -> ngeo c) -> Z.abs (lon a) <= 540000001 -> Z.abs (lon b) <= 540000001 ->
  forallb (fun j => open_b ps (wrap j a) (wrap j b)) [-1; 0; 1] = true -> open_line ps a b.
Proof.
  intros G A B O j. destruct (in_dec Z.eq_dec j [-1; 0; 1]) as [J|J]; [rewrite forallb_forall in O; apply open_b_ok, O, J|]. assert (K : j <= -2 \/ 2 <= j) by (cbn [In] in J; lia). clear O J.
  assert (Mix : forall x y q t m, 0 <= t <= q -> - m <= x <= m -> - m <= y <= m -> - m * q <= (q - t) * x + t * y <= m * q) by (clear; intros; nia).
  assert (Ge : forall e, polygon_edge ps e -> ngeo (e1 e) /\ ngeo (e2 e)).
  { intros e (P & i & HP & I & ->). cbn [e1 e2]. unfold ring_next, vat. split; apply G, in_polygon_vertices; exists P; (split; [exact HP|]); apply nth_In; [exact I|apply Nat.mod_upper_bound; lia]. }
  assert (Gc : forall p o n, corner_of ps p o n -> ngeo o).
  { intros p o n (P & i & HP & I & _ & -> & _). unfold vat. apply G, in_polygon_vertices. exists P. split; [exact HP|apply nth_In, I]. }
  split; [|split; intros p n C; destruct (Gc _ _ _ C) as [X _]; unfold wrap in X; cbn [lon] in X; exfalso; clear - X A B K; lia].
  intros e q t u E Q T U X Y. exfalso. destruct (Ge e E) as [[E1 _] [E2 _]]. unfold wrap in X. cbn [lon] in X.
  assert (L1 : - 180000000 * q <= (q - t) * lon (e1 e) + t * lon (e2 e) <= 180000000 * q) by (apply (Mix _ _ _ _ 180000000); lia).
  assert (L2 : - 540000001 * q <= (q - u) * lon a + u * lon b <= 540000001 * q) by (apply (Mix _ _ _ _ 540000001); lia).
  assert (L3 : (q - t) * lon (e1 e) + t * lon (e2 e) = (q - u) * lon a + u * lon b + j * 360000001 * q) by lia. clear - L1 L2 L3 Q K.
  destruct K; nia.
Qed.
(** a lower bound on distances over the cylinder *)
Definition reach (a b : coord) : Z :=
  Z.sqrt (let f k := (lon a - lon b + k * 360000001) * (lon a - lon b + k * 360000001) + (lat a - lat b) * (lat a - lat b) in Z.min (f 0) (Z.min (f 1) (f (-1)))).
Lemma reach_ok a b : (IZR (reach a b) <= cylinder a b)%R.
Proof.
  assert (S1 : forall m n, 0 <= m <= n -> (IZR (Z.sqrt m) <= sqrt (IZR n))%R).
  { intros m n H. destruct (Z.sqrt_spec m) as [L _]; [lia|]. pose proof (Z.sqrt_nonneg m) as Sn. rewrite <- (sqrt_square (IZR (Z.sqrt m))) by (apply IZR_le, Sn). rewrite <- mult_IZR. apply sqrt_le_1_alt, IZR_le. lia. }
  assert (Sq : forall x y, 0 <= x * x + y * y) by (clear; intros; nia).
  set (f := fun k => (lon a - lon b + k * 360000001) * (lon a - lon b + k * 360000001) + (lat a - lat b) * (lat a - lat b)). change (reach a b) with (Z.sqrt (Z.min (f 0) (Z.min (f 1) (f (-1))))).
  assert (P : forall k, 0 <= f k) by (intros k; apply Sq).
  assert (A : forall k, apart a (wrap k b) = sqrt (IZR (f (- k)))) by (intros k; rewrite apart_lon; unfold f, wrap; cbn [lon lat]; f_equal; f_equal; ring).
  unfold cylinder. rewrite around_exact. change (edge_length false a b) with (apart a b). rewrite <- (wrap_0 b) at 1. rewrite !A. pose proof (P 0). pose proof (P 1). pose proof (P (-1)).
  repeat apply Rmin_glb; apply S1; change (- 0) with 0; change (- -1) with 1; change (- (1)) with (-1); lia.
Qed.
Lemma sailed_last ps s d u l t r : sailed ps s d u l t r -> l <> [] -> In t l.
Proof.
  intros J. induction J as [u|u v l t r _ _ _ _ _ J IH|u v k l t r _ _ _ _ _ _ J IH]; intros N; [congruence| |]; (destruct l as [|x l]; [inversion J; subst; left; reflexivity|right; apply IH; discriminate]).
Qed.
Lemma sailed_reach ps s d u l t r : (forall c, In c (polygon_vertices ps) \/ c = s \/ c = d -> ngeo c) -> sailed ps s d u l t r -> ngeo u -> (cylinder u t <= r)%R /\ ngeo t.
Proof.
  intros G. induction 1 as [u|u v l t r O Ne A B C H IH|u v k l t r K O No Ne A B H IH]; intros Gu.
  - split; [|exact Gu]. pose proof (proj2 (cylinder_zero u u Gu Gu) eq_refl). lra.
  - pose proof (G v B) as Gv. destruct (IH Gv) as [L Gt]. split; [|exact Gt]. pose proof (cylinder_triangle u v t Gu Gv Gt). pose proof (cylinder_edge false u v) as E. cbn [edge_length] in E. lra.
  - pose proof (G v (or_introl B)) as Gv. destruct (IH Gv) as [L Gt]. split; [|exact Gt]. pose proof (cylinder_triangle u v t Gu Gv Gt). pose proof (cylinder_edge true u v) as E. rewrite around_exact in E. lra.
Qed.
(** the places of a way over the water *)
Lemma sailed_places ps s d u l t r : sailed ps s d u l t r -> forall x, In x l -> In x (polygon_vertices ps) \/ x = s \/ x = d.
Proof. induction 1 as [u|u v l t r O Ne A B C H IH|u v k l t r K O No Ne A B H IH]; intros x Hx; [destruct Hx| |]; (destruct Hx as [<-|Hx]; [tauto|apply IH, Hx]). Qed.
