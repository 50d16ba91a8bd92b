(** Where no line makes landfall every line is open: on a map of simple rings which run
    counter-clockwise, of which none lies in another.  No code is modelled here. *)
From Coq Require Import ZArith Reals Bool List Lia Lra Psatz Classical_Prop.
From Verif Require Import Jordan.
From Verif Require Import Base Coordinate Segment Polygon SpecGeom PolylineFacts GraphMore Graph Visgraph SweepFacts SweepGeo SweepSound SweepExact SweepGraph SweepLayers SweepFronts OpenWater SeaLines.
Import ListNotations.
Local Open Scope Z_scope.

(** ** Vocabulary *)
Definition rp (c : coord) : pt := P2 (IZR (lon c)) (IZR (lat c)).
(** two edges have no point in common but a common end *)
Definition simple_map (ps : list polygon) : Prop :=
  forall e f s t, polygon_edge ps e -> polygon_edge ps f -> e <> f -> (0 <= s <= 1)%R -> (0 <= t <= 1)%R ->
    mix (rp (e1 e)) (rp (e2 e)) s = mix (rp (e1 f)) (rp (e2 f)) t -> (s = 0 \/ s = 1)%R /\ (t = 0 \/ t = 1)%R.
(** the ring turns left at a westernmost corner *)
Definition leftward (P : polygon) : Prop :=
  exists i, (i < length (verts P))%nat /\ (forall c, In c (verts P) -> lon (vat (verts P) i) <= lon c) /\
    0 < turn (ring_prev (verts P) i) (vat (verts P) i) (ring_next (verts P) i).
(** how often the ring winds around [c]: the edges above [c], westward ones less eastward ones *)
Definition rounds (a b c : coord) : Z :=
  if lon c <? lon a then if lon c <? lon b then 0 else if 0 <? turn a b c then 1 else 0
  else if lon c <? lon b then if turn a b c <? 0 then -1 else 0 else 0.
Definition wind (P : polygon) (c : coord) : Z :=
  total (length (verts P)) (fun i => rounds (vat (verts P) i) (ring_next (verts P) i) c).
(** simple rings, which run counter-clockwise *)
Definition sketched (ps : list polygon) : Prop := simple_map ps /\ forall P, In P ps -> (3 <= length (verts P))%nat /\ leftward P.
(** in no polygon of the map, except as one of its corners *)
Definition off_land (o : coord) (ps : list polygon) : Prop := forall P, In P ps -> In o (verts P) \/ wind P o = 0.

(** ** Points *)
Lemma rp_inj a b : rp a = rp b -> a = b.
Proof. unfold rp. intros E. injection E as A B. apply eq_IZR in A, B. apply coord_ext; assumption. Qed.
Lemma cross_turn a b c : cross (minus (rp b) (rp a)) (minus (rp c) (rp a)) = IZR (turn a b c).
Proof. unfold cross, minus, rp, turn. cbn [X Y]. rewrite minus_IZR, !mult_IZR, !minus_IZR. ring. Qed.
Lemma cross_turn_on a b c : cross (minus (rp b) (rp a)) (minus (rp c) (rp b)) = IZR (turn a b c).
Proof. rewrite <- cross_turn. unfold cross, minus. cbn [X Y]. ring. Qed.
Lemma rounds_turns a b c : turns (rp a) (rp b) (rp c) = rounds a b c.
Proof.
  unfold turns, rounds. rewrite cross_turn. cbn [rp X].
  assert (L : forall x y, (if Rlt_dec (IZR x) (IZR y) then true else false) = (x <? y)).
  { intros x y. destruct (Rlt_dec (IZR x) (IZR y)) as [H|H]; symmetry; [apply Z.ltb_lt, lt_IZR, H|apply Z.ltb_ge]. destruct (Z.le_gt_cases y x) as [K|K]; [exact K|]. exfalso. apply H, IZR_lt, K. }
  rewrite <- !L. change 0%R with (IZR 0). destruct (Rlt_dec (IZR (lon c)) (IZR (lon a))), (Rlt_dec (IZR (lon c)) (IZR (lon b))); try reflexivity;
    [destruct (Rlt_dec (IZR 0) (IZR (turn a b c)))|destruct (Rlt_dec (IZR (turn a b c)) (IZR 0))]; reflexivity.
Qed.

(** ** The ring of a polygon *)
Definition ring (P : polygon) (i : nat) : pt := rp (vat (verts P) (i mod length (verts P))).
Section Ring.
Variables (ps : list polygon) (P : polygon).
Hypothesis HP : In P ps.
Hypothesis Nd : NoDup (verts P).
Hypothesis N3 : (3 <= length (verts P))%nat.
Hypothesis Si : simple_map ps.
Notation n := (length (verts P)).
Notation V := (ring P).

Lemma mod_lt i : (i mod n < n)%nat. Proof. apply Nat.mod_upper_bound. lia. Qed.
Lemma r_eq i j : V i = V j -> (i mod n = j mod n)%nat.
Proof. intros E. apply rp_inj in E. apply (ring_edge_inj P); auto using mod_lt. Qed.
Lemma r_per i : V (i + n)%nat = V i.
Proof. unfold ring. replace (i + n)%nat with (i + 1 * n)%nat by lia. rewrite Nat.mod_add by lia. reflexivity. Qed.
Lemma mod_step i k : (0 < k < n)%nat -> (i mod n <> (i + k) mod n)%nat.
Proof.
  intros K E. pose proof (Nat.div_mod i n ltac:(lia)) as A. pose proof (Nat.div_mod (i + k) n ltac:(lia)) as B. rewrite <- E in B.
  assert (C : (n * ((i + k) / n) = n * (i / n) + k)%nat) by lia. assert ((i + k) / n <> i / n)%nat by (intros Z; rewrite Z in C; lia).
  assert (i / n < (i + k) / n)%nat by nia. nia.
Qed.
Lemma r_far i k : (0 < k < n)%nat -> V i <> V (i + k)%nat.
Proof. intros K E. apply r_eq in E. exact (mod_step i k K E). Qed.
Lemma r_dist i : V i <> V (S i). Proof. replace (S i) with (i + 1)%nat by lia. apply r_far. lia. Qed.
(** the edges, in integers and in reals *)
Definition edge (i : nat) : segment := mkS (vat (verts P) (i mod n)) (ring_next (verts P) (i mod n)).
Lemma edge_is i : edge_of P (edge i). Proof. exists (i mod n)%nat. split; [apply mod_lt|reflexivity]. Qed.
Lemma edge_map i : polygon_edge ps (edge i). Proof. exists P, (i mod n)%nat. split; [exact HP|]. split; [apply mod_lt|reflexivity]. Qed.
Lemma edge_1 i : rp (e1 (edge i)) = V i. Proof. reflexivity. Qed.
Lemma edge_2 i : rp (e2 (edge i)) = V (S i).
Proof.
  unfold edge, ring, ring_next. cbn [e2]. f_equal. f_equal. replace (S i) with (i + 1)%nat by lia. rewrite (Nat.add_mod i 1 n), (Nat.add_mod (i mod n) 1 n), Nat.mod_mod by lia. reflexivity.
Qed.
Lemma edge_all s : edge_of P s -> exists i, (i < n)%nat /\ s = edge i.
Proof. intros (i & I & ->). exists i. split; [exact I|]. unfold edge. rewrite Nat.mod_small by exact I. reflexivity. Qed.
Lemma edge_ne i j : (i mod n <> j mod n)%nat -> edge i <> edge j.
Proof. intros N E. apply N. apply r_eq. unfold ring. f_equal. exact (f_equal e1 E). Qed.
Lemma r_next i s t : (0 <= s <= 1)%R -> (0 <= t <= 1)%R -> mix (V i) (V (S i)) s = mix (V (S i)) (V (S (S i))) t -> s = 1%R /\ t = 0%R.
Proof.
  intros Hs Ht E. rewrite <- edge_1, <- (edge_1 (S i)), <- !edge_2 in E. rewrite edge_1 in E at 1. rewrite <- (edge_1 i) in E.
  destruct (Si _ _ s t (edge_map i) (edge_map (S i)) (edge_ne i (S i) ltac:(replace (S i) with (i + 1)%nat by lia; apply mod_step; lia)) Hs Ht) as [[-> | ->] [-> | ->]].
  { rewrite <- E. rewrite !edge_1, !edge_2. reflexivity. }
  all: rewrite ?edge_1, ?edge_2, ?mix_0, ?mix_1 in E; auto; exfalso.
  - exact (r_dist i E).
  - apply (r_far i 2); [lia|]. replace (i + 2)%nat with (S (S i)) by lia. exact E.
  - exact (r_dist (S i) E).
Qed.
Lemma r_apart i j : (i < n)%nat -> (j < n)%nat -> i <> j -> i <> (S j mod n)%nat -> j <> (S i mod n)%nat -> ~ meet (V i) (V (S i)) (V j) (V (S j)).
Proof.
  intros I J D A B (s & t & Hs & Ht & E). rewrite <- edge_1, <- (edge_1 j), <- !edge_2 in E.
  destruct (Si _ _ s t (edge_map i) (edge_map j) (edge_ne i j ltac:(rewrite !Nat.mod_small by assumption; exact D)) Hs Ht E) as [[-> | ->] [-> | ->]];
    rewrite ?edge_1, ?edge_2, ?mix_0, ?mix_1 in E; apply r_eq in E.
  - rewrite !Nat.mod_small in E by assumption. auto.
  - rewrite (Nat.mod_small i) in E by assumption. auto.
  - rewrite (Nat.mod_small j) in E by assumption. auto.
  - apply D. destruct (Nat.lt_trichotomy i j) as [L|[L|L]]; [exfalso|exact L|exfalso].
    + apply (mod_step (S i) (j - i)); [lia|]. replace (S i + (j - i))%nat with (S j) by lia. exact E.
    + apply (mod_step (S j) (i - j)); [lia|]. replace (S j + (i - j))%nat with (S i) by lia. auto.
Qed.
Lemma r_winding c : winding n V (rp c) = wind P c.
Proof.
  unfold winding, wind. apply total_ext. intros i I. rewrite <- rounds_turns. rewrite <- edge_1, <- edge_2. unfold edge. cbn [e1 e2]. rewrite Nat.mod_small by exact I. reflexivity.
Qed.
Lemma r_misses a b : misses n V a b <-> forall s, edge_of P s -> ~ meet a b (rp (e1 s)) (rp (e2 s)).
Proof.
  split.
  - intros H s S. destruct (edge_all s S) as (i & I & ->). rewrite edge_1, edge_2. apply H, I.
  - intros H i I. rewrite <- edge_1, <- edge_2. apply H, edge_is.
Qed.
(** a corner *)
Lemma r_corner j : (j < n)%nat -> let i := (j + n - 1)%nat in
  V i = rp (ring_prev (verts P) j) /\ V (S i) = rp (vat (verts P) j) /\ V (S (S i)) = rp (ring_next (verts P) j).
Proof.
  intros J i. split; [reflexivity|]. unfold ring, ring_next, i. replace (S (j + n - 1)) with (j + n)%nat by lia. replace (S (j + n)) with (j + 1 + n)%nat by lia.
  replace (j + n)%nat with (j + 1 * n)%nat by lia. replace (j + 1 + n)%nat with (j + 1 + 1 * n)%nat by lia. rewrite !Nat.mod_add by lia. rewrite (Nat.mod_small j) by exact J. auto.
Qed.
Lemma r_sides x : leftward P -> (sees n V 1 x -> winding n V x = 1) /\ (sees n V (-1) x -> winding n V x = 0).
Proof.
  intros (j & J & W & T). destruct (r_corner j J) as (A & B & C). apply (two_sides n V N3 r_per r_dist r_next r_apart x (j + n - 1)). split.
  - intros i. rewrite B. cbn [ring rp X]. apply IZR_le, W, nth_In, mod_lt.
  - rewrite A, B, C, cross_turn_on. apply (IZR_lt 0), T.
Qed.
(** seen from a point over the corner [j], towards [w] *)
Lemma r_sees (k : R) j w r : (j < n)%nat -> (0 < r)%R ->
  let p := ring_prev (verts P) j in let c := vat (verts P) j in let q := ring_next (verts P) j in
  (0 < k * IZR (turn c q w) /\ (0 < k * IZR (turn p c q) -> 0 < k * IZR (turn p c w)) \/ k * IZR (turn p c q) < 0 /\ 0 < k * IZR (turn p c w))%R ->
  (forall s, edge_of P s -> forall e, (0 < e <= r)%R -> ~ meet (mix (rp c) (rp w) e) (mix (rp c) (rp w) r) (rp (e1 s)) (rp (e2 s))) ->
  sees n V k (mix (rp c) (rp w) r).
Proof.
  intros J R0 p c q H M. destruct (r_corner j J) as (A & B & C). set (i := (j + n - 1)%nat) in *. set (x := mix (rp c) (rp w) r).
  assert (Is : in_sight n V x (V (S i))).
  { intros e E. apply r_misses. intros s Hs. rewrite B. fold c. replace (Jordan.shift (rp c) e (minus x (rp c))) with (mix (rp c) (rp w) (e * r)).
    - apply M; [exact Hs|]. nra.
    - apply pt_eq; unfold x, mix, Jordan.shift, minus; cbn [X Y]; ring. }
  assert (Ka : forall d, cross d (minus x (rp c)) = (r * cross d (minus (rp w) (rp c)))%R) by (intros d; unfold x, cross, minus, mix; cbn [X Y]; ring).
  assert (Kb : cross (minus (V (S i)) (V i)) (minus x (V (S i))) = (r * IZR (turn p c w))%R) by (rewrite A, B; fold p c; rewrite Ka, cross_turn_on; reflexivity).
  assert (Kc : cross (minus (V (S (S i))) (V (S i))) (minus x (V (S i))) = (r * IZR (turn c q w))%R) by (rewrite B, C; fold c q; rewrite Ka, cross_turn; reflexivity).
  assert (Kd : cross (minus (V (S i)) (V i)) (minus (V (S (S i))) (V (S i))) = IZR (turn p c q)) by (rewrite A, B, C; apply cross_turn_on).
  assert (Up : forall z, (0 < k * z)%R -> (0 < k * (r * z))%R) by (intros z Z; replace (k * (r * z))%R with (r * (k * z))%R by ring; apply Rmult_lt_0_compat; assumption).
  destruct H as [[H1 H2]|[H1 H2]].
  - left. exists i, 0%R. split; [lra|]. cbv zeta. rewrite mix_0. split; [exact Is|]. rewrite Kc. split; [auto|]. intros _. split; [rewrite Kc; auto|]. rewrite Kb, Kd. auto.
  - right. exists i. split; [exact Is|]. rewrite Kd, Kb. split; [exact H1|auto].
Qed.
End Ring.

(** [c] on the line of [a] and [b], at [inner a b c] over [dist2 a b] *)
Lemma foot a b c : turn a b c = 0 -> dist2 a b * (lon c - lon a) = inner a b c * (lon b - lon a) /\ dist2 a b * (lat c - lat a) = inner a b c * (lat b - lat a).
Proof.
  intros T. unfold turn in T. unfold dist2, inner. set (x := lon b - lon a) in *. set (y := lat b - lat a) in *. set (u := lon c - lon a) in *. set (w := lat c - lat a) in *.
  clearbody x y u w. split.
  - enough ((x * x + y * y) * u - (x * u + y * w) * x = - y * (x * w - y * u)) by (rewrite T in H; lia). ring.
  - enough ((x * x + y * y) * w - (x * u + y * w) * y = x * (x * w - y * u)) by (rewrite T in H; lia). ring.
Qed.
Lemma dist2_pos a b : a <> b -> 0 < dist2 a b.
Proof.
  intros N. unfold dist2. assert (lon b - lon a <> 0 \/ lat b - lat a <> 0). { destruct (Z.eq_dec (lon b) (lon a)); [destruct (Z.eq_dec (lat b) (lat a))|]; try lia. exfalso. apply N, coord_ext; lia. }
  pose proof (Z.square_nonneg (lon b - lon a)). pose proof (Z.square_nonneg (lat b - lat a)). destruct H as [H|H]; [assert (0 < (lon b - lon a) * (lon b - lon a)) by nia|assert (0 < (lat b - lat a) * (lat b - lat a)) by nia]; lia.
Qed.
(** a point with integer coordinates on a segment over the reals *)
Lemma on_segment e c s : e1 e <> e2 e -> (0 <= s <= 1)%R -> mix (rp (e1 e)) (rp (e2 e)) s = rp c -> on_closed_segment e c.
Proof.
  intros N Hs E. set (a := e1 e) in *. set (b := e2 e) in *. assert (T : turn a b c = 0).
  { apply eq_IZR. rewrite <- cross_turn, <- E. unfold cross, minus, mix. cbn [X Y]. ring. }
  pose proof (dist2_pos a b N) as D. destruct (foot a b c T) as [Fx Fy].
  assert (A : IZR (inner a b c) = (s * IZR (dist2 a b))%R).
  { unfold inner, dist2. rewrite !plus_IZR, !mult_IZR, !minus_IZR. unfold mix, rp in E. cbn [X Y] in E. injection E as Ex Ey. rewrite <- Ex, <- Ey. ring. }
  assert (D' : (0 < IZR (dist2 a b))%R) by (apply (IZR_lt 0), D). exists (dist2 a b), (inner a b c). split; [exact D|].
  split; [split; apply le_IZR; rewrite A; nra|]. fold a b. lia.
Qed.

(** of two points in one direction, one is nearer *)
Lemma ray_order o p v : p <> o -> o <> v -> v <> p -> on_ray o p v -> strictly_between o v p \/ strictly_between o p v.
Proof.
  intros Np Nv D [T I]. unfold turn in T. unfold inner in I. unfold strictly_between.
  set (a := lon p - lon o) in *. set (b := lat p - lat o) in *. set (c := lon v - lon o) in *. set (d := lat v - lat o) in *.
  assert (T' : a * d = b * c) by (subst a b c d; lia). set (i := a * c + b * d) in *.
  assert (V0 : 0 < c * c + d * d).
  { pose proof (Z.square_nonneg c). pose proof (Z.square_nonneg d). destruct (Z.eq_dec c 0) as [Zc|]; [|nia]. destruct (Z.eq_dec d 0) as [Zd|]; [|nia]. exfalso. apply Nv, coord_ext; subst c d; lia. }
  assert (P0 : 0 < a * a + b * b).
  { pose proof (Z.square_nonneg a). pose proof (Z.square_nonneg b). destruct (Z.eq_dec a 0) as [Za|]; [|nia]. destruct (Z.eq_dec b 0) as [Zb|]; [|nia]. exfalso. apply Np, coord_ext; subst a b; lia. }
  assert (Ia : i * c = a * (c * c + d * d)) by (subst i; transitivity (a * (c * c) + (b * c) * d); [ring|rewrite <- T'; ring]).
  assert (Ib : i * d = b * (c * c + d * d)) by (subst i; transitivity ((a * d) * c + b * (d * d)); [ring|rewrite T'; ring]).
  assert (Ic : i * a = c * (a * a + b * b)) by (subst i; transitivity (c * (a * a) + b * (a * d)); [ring|rewrite T'; ring]).
  assert (Id : i * b = d * (a * a + b * b)) by (subst i; transitivity (a * (b * c) + d * (b * b)); [ring|rewrite <- T'; ring]).
  assert (Ii : i * i = (a * a + b * b) * (c * c + d * d)) by (transitivity (a * (i * c) + b * (i * d)); [subst i; ring|rewrite Ia, Ib; ring]).
  set (V := c * c + d * d) in *. set (P := a * a + b * b) in *.
  destruct (Z.lt_trichotomy i V) as [L|[E|L]].
  - left. exists V, i. split; [lia|]. subst a b c d. split; lia.
  - exfalso. apply D. rewrite E in Ia, Ib. apply coord_ext; subst a b c d; clear - Ia Ib V0; nia.
  - right. exists P, i. split; [split; [lia|clear - L Ii V0 I; nia]|]. subst a b c d. split; lia.
Qed.

(** ** The line from [o] to [v] *)
Section Line.
Variables (qs : list polygon) (o v : coord).
Hypothesis Nd : NoDup (polygon_vertices qs).
Hypothesis Sk : sketched qs.
Hypothesis Ol : off_land o qs.
Hypothesis Oe : off_edges o qs.
Hypothesis Cc : forall p n, corner_of qs p o n -> turn p o n <> 0.
Hypothesis Vv : In v (polygon_vertices qs).
Hypothesis Nov : o <> v.
Hypothesis Sea : sea_here qs o v.
Notation L r := (mix (rp o) (rp v) r).

Lemma simple_qs : simple_map qs. Proof. apply Sk. Qed.
Lemma parts P : In P qs -> NoDup (verts P). Proof. apply nodup_parts, Nd. Qed.
Lemma sides P : In P qs -> (3 <= length (verts P))%nat. Proof. intros H. apply (proj2 Sk P H). Qed.
Lemma left P : In P qs -> leftward P. Proof. intros H. apply (proj2 Sk P H). Qed.

(** a corner on an edge is one of its ends *)
Lemma corner_on c e s : In c (polygon_vertices qs) -> polygon_edge qs e -> (0 <= s <= 1)%R -> mix (rp (e1 e)) (rp (e2 e)) s = rp c -> touches e c.
Proof.
  intros C E Hs Q. apply in_polygon_vertices in C. destruct C as (P & HP & C). destruct (corner_at P c (parts P HP) (sides P HP) C) as (p & n & K).
  pose proof (edge_poly qs P _ HP (c_out _ _ _ _ K)) as F. destruct (classic (e = mkS c n)) as [->|N]; [left; reflexivity|].
  destruct (simple_qs e (mkS c n) s 0%R E F N Hs ltac:(lra)) as [[-> | ->] _]; [cbn [e1 e2]; rewrite Q, mix_0; reflexivity| |].
  - rewrite mix_0 in Q. left. apply rp_inj, Q.
  - rewrite mix_1 in Q. right. apply rp_inj, Q.
Qed.
Lemma ov_pos : 0 < dist2 o v. Proof. apply dist2_pos, Nov. Qed.
Notation along := (inner o v).
(** [c] on the line of [o] and [v], at [along c] over [dist2 o v] *)
Lemma along_at c : turn o v c = 0 -> dist2 o v * (lon c - lon o) = along c * (lon v - lon o) /\ dist2 o v * (lat c - lat o) = along c * (lat v - lat o).
Proof. apply foot. Qed.
Lemma not_between c : In c (polygon_vertices qs) -> turn o v c = 0 -> 0 < along c < dist2 o v -> False.
Proof.
  intros C T A. apply (proj1 (proj2 Sea) c C). destruct (along_at c T) as [X Y]. exists (dist2 o v), (along c). split; [exact A|]. lia.
Qed.
Lemma along_real c : turn o v c = 0 -> rp c = L (IZR (along c) / IZR (dist2 o v)).
Proof.
  intros T. pose proof ov_pos as D. assert (D' : (0 < IZR (dist2 o v))%R) by (apply (IZR_lt 0), D). destruct (along_at c T) as [A B].
  apply (f_equal IZR) in A, B. rewrite !mult_IZR, !minus_IZR in A, B. apply pt_eq; unfold rp, mix; cbn [X Y]; apply (Rmult_eq_reg_l (IZR (dist2 o v))); try lra; field_simplify; try lra.
Qed.
Lemma real_between c r : In c (polygon_vertices qs) -> rp c = L r -> (0 < r < 1)%R -> False.
Proof.
  intros C E R. assert (T : turn o v c = 0).
  { apply eq_IZR. rewrite <- cross_turn, E. unfold cross, minus, mix. cbn [X Y]. ring. }
  assert (A : IZR (along c) = (r * IZR (dist2 o v))%R).
  { unfold inner, dist2. rewrite !plus_IZR, !mult_IZR, !minus_IZR. injection E as Ex Ey. rewrite Ex, Ey. ring. }
  assert (D' : (0 < IZR (dist2 o v))%R) by (apply (IZR_lt 0), ov_pos). apply (not_between c C T). split; apply lt_IZR; rewrite A; nra.
Qed.
Lemma on_line a b s r : turn o v a = 0 -> turn o v b = 0 -> mix (rp a) (rp b) s = L r -> ((1 - s) * IZR (along a) + s * IZR (along b) = r * IZR (dist2 o v))%R.
Proof.
  intros _ _ E. unfold inner, dist2. rewrite !plus_IZR, !mult_IZR, !minus_IZR. unfold mix, rp in E. cbn [X Y] in E. injection E as Ex Ey.
  assert (Ex' : ((1 - s) * (IZR (lon a) - IZR (lon o)) + s * (IZR (lon b) - IZR (lon o)) = r * (IZR (lon v) - IZR (lon o)))%R) by lra.
  assert (Ey' : ((1 - s) * (IZR (lat a) - IZR (lat o)) + s * (IZR (lat b) - IZR (lat o)) = r * (IZR (lat v) - IZR (lat o)))%R) by lra.
  transitivity ((IZR (lon v) - IZR (lon o)) * ((1 - s) * (IZR (lon a) - IZR (lon o)) + s * (IZR (lon b) - IZR (lon o))) + (IZR (lat v) - IZR (lat o)) * ((1 - s) * (IZR (lat a) - IZR (lat o)) + s * (IZR (lat b) - IZR (lat o))))%R; [ring|].
  rewrite Ex', Ey'. ring.
Qed.
(** an edge that reaches over [o] and [v] *)
Lemma covers e : polygon_edge qs e -> turn o v (e1 e) = 0 -> turn o v (e2 e) = 0 -> (along (e1 e) <= 0 /\ dist2 o v <= along (e2 e) \/ along (e2 e) <= 0 /\ dist2 o v <= along (e1 e)) -> touches e o /\ touches e v.
Proof.
  intros E A B H. pose proof ov_pos as D. destruct (along_at _ A) as [A1 A2]. destruct (along_at _ B) as [B1 B2].
  set (a := along (e1 e)) in *. set (b := along (e2 e)) in *. set (M := dist2 o v) in *. split.
  - assert (Z0 : forall x y, M * x = M * y -> x = y) by (intros x y XY; apply Z.mul_reg_l in XY; lia).
    apply (Oe e E). destruct H as [[Ha Hb]|[Ha Hb]].
    + exists (b - a), (- a). split; [lia|]. split; [lia|].
      split; apply Z0; [apply Z.sub_move_0_r; replace (_ - _) with ((b - a + a) * - (M * (lon (e1 e) - lon o)) + a * (M * (lon (e2 e) - lon o))) by ring; rewrite A1, B1; ring|
        apply Z.sub_move_0_r; replace (_ - _) with ((b - a + a) * - (M * (lat (e1 e) - lat o)) + a * (M * (lat (e2 e) - lat o))) by ring; rewrite A2, B2; ring].
    + exists (a - b), a. split; [lia|]. split; [lia|].
      split; apply Z0; [apply Z.sub_move_0_r; replace (_ - _) with (b * (M * (lon (e1 e) - lon o)) - a * (M * (lon (e2 e) - lon o))) by ring; rewrite A1, B1; ring|
        apply Z.sub_move_0_r; replace (_ - _) with (b * (M * (lat (e1 e) - lat o)) - a * (M * (lat (e2 e) - lat o))) by ring; rewrite A2, B2; ring].
  - assert (D' : (0 < IZR M)%R) by (apply (IZR_lt 0), D). assert (Nz : (IZR b - IZR a <> 0)%R).
    { rewrite <- minus_IZR. apply not_0_IZR. lia. }
    apply (corner_on v e ((IZR M - IZR a) / (IZR b - IZR a)) Vv E).
    + destruct H as [[Ha Hb]|[Ha Hb]]; apply IZR_le in Ha, Hb.
      * split; [apply Rmult_le_pos; [lra|left; apply Rinv_0_lt_compat; lra]|]. apply (Rmult_le_reg_r (IZR b - IZR a)); [lra|]. unfold Rdiv. rewrite Rmult_assoc, Rinv_l by lra. lra.
      * replace ((IZR M - IZR a) / (IZR b - IZR a))%R with ((IZR a - IZR M) / (IZR a - IZR b))%R by (field; lra).
        split; [apply Rmult_le_pos; [lra|left; apply Rinv_0_lt_compat; lra]|]. apply (Rmult_le_reg_r (IZR a - IZR b)); [lra|]. unfold Rdiv. rewrite Rmult_assoc, Rinv_l by lra. lra.
    + rewrite (along_real _ A), (along_real _ B), mix_mix. fold a b M.
      replace (_ + _)%R with 1%R by (field; lra). apply mix_1.
Qed.
(** an edge met on the way joins [o] and [v], or is crossed from its left to its right *)
Lemma met e s r : polygon_edge qs e -> (0 <= s <= 1)%R -> (0 < r < 1)%R -> mix (rp (e1 e)) (rp (e2 e)) s = L r ->
  touches e o /\ touches e v \/ (0 < s < 1)%R /\ 0 < turn o (e1 e) (e2 e) /\
    (r * IZR ((lon (e2 e) - lon (e1 e)) * (lat v - lat o) - (lat (e2 e) - lat (e1 e)) * (lon v - lon o)) = - IZR (turn o (e1 e) (e2 e)))%R.
Proof.
  intros E Hs Hr Q. destruct (poly_edge qs e E) as (P & HP & Ee). destruct (edge_verts P e Ee) as [I1 I2].
  assert (J1 : In (e1 e) (polygon_vertices qs)) by (apply in_polygon_vertices; eauto). assert (J2 : In (e2 e) (polygon_vertices qs)) by (apply in_polygon_vertices; eauto).
  set (a := e1 e) in *. set (b := e2 e) in *.
  set (K := (lon b - lon a) * (lat v - lat o) - (lat b - lat a) * (lon v - lon o)).
  set (tau := turn o a b). set (sig := turn o v a).
  assert (Er : (r * IZR K = - IZR tau)%R).
  { unfold K, tau, turn. rewrite !minus_IZR, !mult_IZR, !minus_IZR. unfold mix, rp in Q. cbn [X Y] in Q. injection Q as Qx Qy.
    assert (Px : (r * (IZR (lon v) - IZR (lon o)) = IZR (lon a) - IZR (lon o) + s * (IZR (lon b) - IZR (lon a)))%R) by lra. assert (Py : (r * (IZR (lat v) - IZR (lat o)) = IZR (lat a) - IZR (lat o) + s * (IZR (lat b) - IZR (lat a)))%R) by lra.
    transitivity ((IZR (lon b) - IZR (lon a)) * (r * (IZR (lat v) - IZR (lat o))) - (IZR (lat b) - IZR (lat a)) * (r * (IZR (lon v) - IZR (lon o))))%R; [ring|]. rewrite Px, Py. ring. }
  assert (Es : (s * IZR K = IZR sig)%R).
  { unfold K, sig, turn. rewrite !minus_IZR, !mult_IZR, !minus_IZR. unfold mix, rp in Q. cbn [X Y] in Q. injection Q as Qx Qy.
    assert (Px : (s * (IZR (lon b) - IZR (lon a)) = IZR (lon o) - IZR (lon a) + r * (IZR (lon v) - IZR (lon o)))%R) by lra. assert (Py : (s * (IZR (lat b) - IZR (lat a)) = IZR (lat o) - IZR (lat a) + r * (IZR (lat v) - IZR (lat o)))%R) by lra.
    transitivity ((s * (IZR (lon b) - IZR (lon a))) * (IZR (lat v) - IZR (lat o)) - (s * (IZR (lat b) - IZR (lat a))) * (IZR (lon v) - IZR (lon o)))%R; [ring|]. rewrite Px, Py. ring. }
  destruct (Z.eq_dec K 0) as [Z|N].
  - left. rewrite Z in Er, Es. assert (sig = 0) by (apply eq_IZR; lra). assert (Tb : turn o v b = 0).
    { assert (X : turn o v b = sig - K) by (unfold sig, K, turn; ring). rewrite X. lia. }
    pose proof (on_line a b s r H Tb Q) as Al. assert (D' : (0 < IZR (dist2 o v))%R) by (apply (IZR_lt 0), ov_pos).
    apply covers; try assumption. fold a b.
    assert (Na : ~ 0 < along a < dist2 o v) by (intros X; exact (not_between a J1 H X)). assert (Nb : ~ 0 < along b < dist2 o v) by (intros X; exact (not_between b J2 Tb X)).
    destruct (Z.le_gt_cases (along a) 0) as [Ga|Ga], (Z.le_gt_cases (along b) 0) as [Gb|Gb]; try lia; exfalso.
    + apply IZR_le in Ga, Gb. nra.
    + assert (Ma : dist2 o v <= along a) by lia. assert (Mb : dist2 o v <= along b) by lia. apply IZR_le in Ma, Mb. nra.
  - right. assert (S0 : (0 < s < 1)%R).
    { destruct (Req_dec s 0) as [->|N0]; [exfalso; rewrite mix_0 in Q; exact (real_between a r J1 Q Hr)|]. destruct (Req_dec s 1) as [->|N1]; [exfalso; rewrite mix_1 in Q; exact (real_between b r J2 Q Hr)|]. lra. }
    split; [exact S0|]. split; [|exact Er].
    destruct (Z.lt_trichotomy tau 0) as [T|[T|T]]; [exfalso|exfalso|exact T].
    + apply (proj1 Sea e E). split; [exact T|]. assert (T' : (IZR tau < 0)%R) by (apply (IZR_lt tau 0), T).
      assert (K0 : (0 < IZR K)%R) by nra. exists K, sig, (- tau).
      split; [apply lt_IZR, K0|]. split; [split; [apply lt_IZR|apply le_IZR]; rewrite <- Es; nra|]. split; [split; [apply le_IZR|apply lt_IZR]; rewrite opp_IZR; nra|].
      fold a b. unfold K, sig, tau, turn. split; ring.
    + rewrite T in Er. assert (IZR K <> 0)%R by (apply not_0_IZR, N). nra.
Qed.
(** [r] on the way lies on the edge [e] *)
Definition struck (e : segment) (r : R) : Prop := exists s, (0 <= s <= 1)%R /\ mix (rp (e1 e)) (rp (e2 e)) s = L r.
Lemma meet_struck e a b : meet (L a) (L b) (rp (e1 e)) (rp (e2 e)) -> exists c, (0 <= c <= 1)%R /\ struck e ((1 - c) * a + c * b).
Proof. intros (c & s & C & S & E). rewrite mix_mix in E. exists c. split; [exact C|]. exists s. auto. Qed.

(** *** Setting out *)
(** a direction [w] along [d]: to which side of [e] it leads *)
Lemma opposed dx dy ex ey wx wy a b c : a = dx * wy - dy * wx -> b = ex * wy - ey * wx -> c = dx * ey - dy * ex -> a = 0 ->
  dx <> 0 \/ dy <> 0 -> wx <> 0 \/ wy <> 0 -> 0 <= dx * wx + dy * wy -> (0 < c -> b < 0) /\ (c < 0 -> 0 < b).
Proof.
  intros Ea Eb Ec A0 D W H. set (K := dx * wx + dy * wy) in *. set (D2 := dx * dx + dy * dy).
  assert (D0 : 0 < D2) by (unfold D2; pose proof (Z.square_nonneg dx); pose proof (Z.square_nonneg dy); destruct D as [D|D]; [assert (0 < dx * dx) by nia|assert (0 < dy * dy) by nia]; lia).
  assert (Wx : D2 * wx = K * dx) by (apply Z.sub_move_0_r; transitivity (- dy * a); [subst a; unfold D2, K; ring|rewrite A0; ring]).
  assert (Wy : D2 * wy = K * dy) by (apply Z.sub_move_0_r; transitivity (dx * a); [subst a; unfold D2, K; ring|rewrite A0; ring]).
  assert (K0 : 0 < K).
  { destruct (Z.eq_dec K 0) as [Z|Z]; [exfalso|lia]. rewrite Z in Wx, Wy. assert (wx = 0) by (apply Z.mul_eq_0 in Wx; lia). assert (wy = 0) by (apply Z.mul_eq_0 in Wy; lia). lia. }
  assert (B : D2 * b = - (K * c)) by (subst b c; transitivity (ex * (D2 * wy) - ey * (D2 * wx)); [ring|rewrite Wx, Wy; ring]).
  clear - D0 K0 B. split; intros; nia.
Qed.
(** [v] is not in line with an edge from [o] to [p] *)
Lemma beside_edge p e : In p (polygon_vertices qs) -> polygon_edge qs e -> touches e p -> touches e o -> p <> o -> v <> p -> ~ on_ray o p v.
Proof.
  intros Vp E Tp To Np Nv R. destruct (ray_order o p v Np Nov Nv R) as [B|(q & u & U & X & Y)]; [exact (proj1 (proj2 Sea) p Vp B)|].
  assert (Q : (0 < IZR q)%R) by (apply (IZR_lt 0); lia). assert (U1 : (0 < IZR u < IZR q)%R) by (split; [apply (IZR_lt 0)|apply IZR_lt]; lia).
  apply (f_equal IZR) in X, Y. rewrite plus_IZR, !mult_IZR, minus_IZR in X, Y.
  set (h := (IZR u / IZR q)%R). assert (Hq : (h * IZR q = IZR u)%R) by (unfold h; field; lra).
  assert (M : mix (rp o) (rp p) h = rp v).
  { apply pt_eq; unfold mix, rp; cbn [Jordan.X Jordan.Y]; apply (Rmult_eq_reg_r (IZR q)); try lra.
    - transitivity ((IZR q - h * IZR q) * IZR (lon o) + h * IZR q * IZR (lon p))%R; [ring|]. rewrite Hq. lra.
    - transitivity ((IZR q - h * IZR q) * IZR (lat o) + h * IZR q * IZR (lat p))%R; [ring|]. rewrite Hq. lra. }
  assert (Hh : (0 <= h <= 1)%R) by (clear - Q U1 Hq; split; nra).
  assert (T : touches e v).
  { destruct To as [To|To], Tp as [Tp|Tp]; try (exfalso; apply Np; congruence).
    - apply (corner_on v e h Vv E Hh). rewrite To, Tp. exact M.
    - apply (corner_on v e (1 - h)%R Vv E); [lra|]. rewrite To, Tp, <- M. apply pt_eq; unfold mix; cbn [Jordan.X Jordan.Y]; ring. }
  destruct To as [To|To], Tp as [Tp|Tp], T as [T|T]; try congruence; try (apply Nov; congruence); apply Nv; congruence.
Qed.
(** at a corner in [o], the way sets out on the outside *)
Lemma set_out P j : In P qs -> (j < length (verts P))%nat -> o = vat (verts P) j -> ~ (exists e, polygon_edge qs e /\ touches e o /\ touches e v) ->
  let p := ring_prev (verts P) j in let q := ring_next (verts P) j in
  (turn o q v < 0 /\ (turn p o q < 0 -> turn p o v < 0)) \/ (0 < turn p o q /\ turn p o v < 0).
Proof.
  intros HP J Eo Ne p q. assert (K : corner_of qs p o q) by (exists P, j; auto).
  pose proof (Cc p q K) as N0. pose proof (proj2 (proj2 Sea) p q K) as Ns.
  assert (Co : corner P p o q) by (rewrite Eo; apply corner_ring; [apply parts, HP|apply sides, HP|exact J]).
  assert (Np : v <> p) by (intros ->; apply Ne; exists (mkS p o); split; [apply (edge_poly qs P _ HP), (c_in _ _ _ _ Co)|split; [right|left]; reflexivity]).
  assert (Nq : v <> q) by (intros ->; apply Ne; exists (mkS o q); split; [apply (edge_poly qs P _ HP), (c_out _ _ _ _ Co)|split; [left|right]; reflexivity]).
  destruct (edge_verts P _ (c_in _ _ _ _ Co)) as [Ip _]. destruct (edge_verts P _ (c_out _ _ _ _ Co)) as [_ Iq]. cbn [e1 e2] in Ip, Iq.
  assert (Vp : In p (polygon_vertices qs)) by (apply in_polygon_vertices; eauto). assert (Vq : In q (polygon_vertices qs)) by (apply in_polygon_vertices; eauto).
  assert (Dp : ~ on_ray o p v).
  { apply (beside_edge p (mkS p o) Vp (edge_poly qs P _ HP (c_in _ _ _ _ Co))); [left; reflexivity|right; reflexivity|apply Co|exact Np]. }
  assert (Dq : ~ on_ray o q v).
  { apply (beside_edge q (mkS o q) Vq (edge_poly qs P _ HP (c_out _ _ _ _ Co))); [right; reflexivity|left; reflexivity|apply not_eq_sym, Co|exact Nq]. }
  pose proof (c_pv _ _ _ _ Co) as Qp. pose proof (c_vn _ _ _ _ Co) as Qq.
  unfold into_solid in Ns. unfold on_ray, inner in Dp, Dq.
  set (a := turn p o v) in *. set (b := turn o q v) in *. set (c := turn p o q) in *.
  assert (Ha : a = 0 -> (0 < c -> b < 0) /\ (c < 0 -> 0 < b)).
  { intros A0. apply (opposed (lon o - lon p) (lat o - lat p) (lon q - lon o) (lat q - lat o) (lon v - lon o) (lat v - lat o) a b c); [subst a; unfold turn; ring|subst b; unfold turn; ring|subst c; unfold turn; ring|exact A0|..].
    - destruct (Z.eq_dec (lon p) (lon o)); [right|left; lia]. intros Z. apply Qp, coord_ext; lia.
    - destruct (Z.eq_dec (lon v) (lon o)); [right|left; lia]. intros Z. apply Nov, coord_ext; lia.
    - apply Z.le_ngt. intros Z. apply Dp. subst a. unfold turn in *. split; lia. }
  assert (Hb : b = 0 -> (0 < c -> a < 0) /\ (c < 0 -> 0 < a)).
  { intros B0. enough ((0 < - c -> - a < 0) /\ (- c < 0 -> 0 < - a)) by lia.
    apply (opposed (lon o - lon q) (lat o - lat q) (lon p - lon o) (lat p - lat o) (lon v - lon o) (lat v - lat o) (- b) (- a) (- c)); [subst b; unfold turn; ring|subst a; unfold turn; ring|subst c; unfold turn; ring|lia|..].
    - destruct (Z.eq_dec (lon q) (lon o)); [right|left; lia]. intros Z. apply Qq, coord_ext; lia.
    - destruct (Z.eq_dec (lon v) (lon o)); [right|left; lia]. intros Z. apply Nov, coord_ext; lia.
    - apply Z.le_ngt. intros Z. apply Dq. subst b. unfold turn in *. split; lia. }
  lia.
Qed.
(** [o] on an edge is one of its ends *)
Lemma Ro e s : polygon_edge qs e -> (0 <= s <= 1)%R -> mix (rp (e1 e)) (rp (e2 e)) s = rp o -> touches e o.
Proof.
  intros E Hs Q. destruct (poly_edge qs e E) as (P & HP & Ee). apply (Oe e E). apply (on_segment e o s); [|exact Hs|exact Q].
  apply (edge_ends P e (parts P HP)); [pose proof (sides P HP); lia|exact Ee].
Qed.
Definition joined : Prop := exists e, polygon_edge qs e /\ touches e o /\ touches e v.
(** as long as no edge of [P] is struck, the way is outside [P] *)
Lemma outside_start P r : In P qs -> ~ In o (verts P) -> (0 < r)%R -> (forall e x, edge_of P e -> (0 < x <= r)%R -> ~ struck e x) -> winding (length (verts P)) (ring P) (L r) = 0.
Proof.
  intros HP I R0 H. pose proof (sides P HP) as N3.
  destruct (Ol P HP) as [Z|Z]; [contradiction|]. rewrite <- (r_winding P N3 o) in Z. rewrite <- Z. symmetry. apply moving; [apply (r_per P N3 0)|]. apply r_misses; [assumption|].
  intros e E M. rewrite <- (mix_0 (rp o) (rp v)) in M at 1. apply meet_struck in M. destruct M as (c & C & S).
  destruct (Req_dec c 0) as [->|Nc]; [|apply (H e _ E) in S; [exact S|split; nra]].
  replace ((1 - 0) * 0 + 0 * r)%R with 0%R in S by ring. destruct S as (s & Hs & S). rewrite mix_0 in S.
  destruct (Ro e s (edge_poly qs P e HP E) Hs S) as [<-|<-]; apply I; apply (edge_verts P e E).
Qed.
Lemma started P r : In P qs -> ~ joined -> (0 < r)%R -> (forall e x, edge_of P e -> (0 < x <= r)%R -> ~ struck e x) -> winding (length (verts P)) (ring P) (L r) = 0.
Proof.
  intros HP Nj R0 H. pose proof (parts P HP) as Np. pose proof (sides P HP) as N3. destruct (classic (In o (verts P))) as [I|I].
  - destruct (In_nth _ _ (mkC 0 0) I) as (j & J & Eo). apply (r_sides qs P HP Np N3 simple_qs (L r) (left P HP)).
    pose proof (set_out P j HP J (eq_sym Eo) Nj) as W. cbv zeta in W. change (nth j (verts P) (mkC 0 0)) with (vat (verts P) j) in Eo.
    replace (rp o) with (rp (vat (verts P) j)) by (rewrite Eo; reflexivity). apply (r_sees P N3 (-1) j v r J R0).
    + rewrite Eo. assert (Lt : forall z, z < 0 -> (0 < -1 * IZR z)%R) by (intros z Z; apply (IZR_lt z 0) in Z; lra).
      assert (Gt : forall z, (0 < -1 * IZR z)%R -> z < 0) by (intros z Z; apply lt_IZR; lra).
      destruct W as [[W1 W2]|[W1 W2]]; [left; split; [auto|intros Z; auto]|right; split; [apply (IZR_lt 0) in W1; lra|auto]].
    + rewrite Eo. intros e E x Hx M. apply meet_struck in M. destruct M as (c & C & S). apply (H e _ E) in S; [exact S|]. split; nra.
  - apply outside_start; assumption.
Qed.

(** *** The first edge struck *)
Definition all_of : list segment := flat_map edges_list qs.
Lemma all_of_ok e : polygon_edge qs e <-> In e all_of.
Proof.
  unfold all_of. rewrite in_flat_map. split.
  - intros E. destruct (poly_edge qs e E) as (P & HP & Ee). exists P. split; [exact HP|apply edges_list_ok, Ee].
  - intros (P & HP & Ee). apply (edge_poly qs P e HP), edges_list_ok, Ee.
Qed.
Lemma least {A} (l : list A) (Q : A -> R -> Prop) : (forall a x y, Q a x -> Q a y -> x = y) -> (exists a x, In a l /\ Q a x) ->
  exists a x, In a l /\ Q a x /\ forall b y, In b l -> Q b y -> (x <= y)%R.
Proof.
  intros U. induction l as [|a l IH]; intros (b & x & B & H); [destruct B|].
  destruct (classic (exists c y, In c l /\ Q c y)) as [E|E].
  - destruct (IH E) as (c & y & C & Hc & M). destruct (classic (exists z, Q a z /\ (z < y)%R)) as [(z & Hz & Lz)|N].
    + exists a, z. split; [left; reflexivity|]. split; [exact Hz|]. intros d w [<-|D] Hd; [rewrite (U a w z Hd Hz); lra|]. specialize (M d w D Hd). lra.
    + exists c, y. split; [right; exact C|]. split; [exact Hc|]. intros d w [<-|D] Hd; [|exact (M d w D Hd)]. destruct (Rlt_le_dec w y); [exfalso; apply N; eauto|assumption].
  - destruct B as [<-|B]; [|exfalso; apply E; eauto]. exists a, x. split; [left; reflexivity|]. split; [exact H|].
    intros d w [<-|D] Hd; [rewrite (U a w x Hd H); lra|exfalso; apply E; eauto].
Qed.
Lemma clear_way e r : ~ joined -> polygon_edge qs e -> (0 < r < 1)%R -> ~ struck e r.
Proof.
  intros Nj E Hr St.
  assert (Kd : forall f s x, polygon_edge qs f -> (0 <= s <= 1)%R -> (0 < x < 1)%R -> mix (rp (e1 f)) (rp (e2 f)) s = L x -> (0 < s < 1)%R /\ 0 < turn o (e1 f) (e2 f) /\
    (x * IZR ((lon (e2 f) - lon (e1 f)) * (lat v - lat o) - (lat (e2 f) - lat (e1 f)) * (lon v - lon o)) = - IZR (turn o (e1 f) (e2 f)))%R).
  { intros f s x F Hs Hx Q. destruct (met f s x F Hs Hx Q) as [T|T]; [|exact T]. exfalso. apply Nj. exists f. tauto. }
  destruct (least all_of (fun f x => (polygon_edge qs f /\ 0 < x < 1)%R /\ struck f x)) as (f & x & F & ((Fe & Hx) & (s & Hs & Q)) & M).
  { intros f x y ((F & Hx) & (s & Hs & Q)) ((_ & Hy) & (t & Ht & Q')). destruct (Kd f s x F Hs Hx Q) as (_ & T & A). destruct (Kd f t y F Ht Hy Q') as (_ & _ & B).
    rewrite <- B in A. set (k := IZR (_ - _)) in *. apply (IZR_lt 0) in T. assert (k <> 0)%R by (intros Z; rewrite Z in B; lra). apply (Rmult_eq_reg_r k); assumption. }
  { exists e, r. split; [apply all_of_ok, E|]. auto. }
  clear e r E Hr St. destruct (Kd f s x Fe Hs Hx Q) as (Hs' & T & A). destruct (poly_edge qs f Fe) as (P & HP & Ef).
  assert (Free : forall g y, edge_of P g -> (0 < y < x)%R -> ~ struck g y).
  { intros g y G Hy St. pose proof (edge_poly qs P g HP G) as Ge. pose proof (M g y (proj1 (all_of_ok g) Ge)) as Z. cbv beta in Z.
    assert (x <= y)%R by (apply Z; split; [split; [exact Ge|lra]|exact St]). lra. }
  pose proof (parts P HP) as Np. pose proof (sides P HP) as N3. destruct (edge_all P f Ef) as (m & Hm & Em).
  assert (W0 : winding (length (verts P)) (ring P) (L (x / 2)) = 0) by (apply started; [assumption|assumption|lra|]; intros g y G Hy; apply Free; [exact G|lra]).
  assert (W1 : winding (length (verts P)) (ring P) (L (x / 2)) = 1); [|lia].
  apply (r_sides qs P HP Np N3 simple_qs (L (x / 2)) (left P HP)). left.
  destruct (r_corner P N3 m Hm) as (_ & B & C). set (i := (m + length (verts P) - 1)%nat) in *.
  assert (E1' : ring P (S i) = rp (e1 f)) by (rewrite B, Em; unfold edge; cbn [e1]; rewrite Nat.mod_small by exact Hm; reflexivity).
  assert (E2' : ring P (S (S i)) = rp (e2 f)) by (rewrite C, Em; unfold edge; cbn [e2]; rewrite Nat.mod_small by exact Hm; reflexivity).
  exists i, s. split; [lra|]. cbv zeta. rewrite E1', E2', Q. split; [|split; [|lra]].
  - intros e He. apply r_misses; [exact N3|]. intros g G Mt. replace (Jordan.shift (L x) e (minus (L (x / 2)) (L x))) with (L (x - e * (x / 2))) in Mt.
    + apply meet_struck in Mt. destruct Mt as (c & Hc & St). apply (Free g _ G) in St; [exact St|].
      set (w := ((1 - c) * e + c)%R). assert (Hw : (0 < w <= 1)%R) by (unfold w; split; nra). replace ((1 - c) * (x - e * (x / 2)) + c * (x / 2))%R with (x * (1 - w / 2))%R by (unfold w; field). split; nra.
    + apply pt_eq; unfold mix, Jordan.shift, minus; cbn [X Y]; field.
  - rewrite !minus_IZR, !mult_IZR, !minus_IZR in A. apply (IZR_lt 0) in T.
    replace (1 * _)%R with (- (1 / 2) * (x * ((IZR (lon (e2 f)) - IZR (lon (e1 f))) * (IZR (lat v) - IZR (lat o)) - (IZR (lat (e2 f)) - IZR (lat (e1 f))) * (IZR (lon v) - IZR (lon o)))))%R; [rewrite A; lra|].
    unfold cross, minus, mix, rp. cbn [X Y]. field.
Qed.

(** *** The way is open *)
Theorem sea_open : open_here qs o v.
Proof.
  split; [|split; [apply Sea|]].
  - intros e q t u E Q T U Ex Ey. assert (Q' : (0 < IZR q)%R) by (apply (IZR_lt 0), Q). set (s := (IZR t / IZR q)%R). set (r := (IZR u / IZR q)%R).
    assert (Sq : (s * IZR q = IZR t)%R) by (unfold s; field; lra). assert (Rq : (r * IZR q = IZR u)%R) by (unfold r; field; lra).
    assert (Hs : (0 <= s <= 1)%R) by (destruct T as [T1 T2]; apply IZR_le in T1, T2; split; apply (Rmult_le_reg_r (IZR q)); lra).
    assert (Eq : mix (rp (e1 e)) (rp (e2 e)) s = L r).
    { apply (f_equal IZR) in Ex, Ey. rewrite !plus_IZR, !mult_IZR, !minus_IZR in Ex, Ey. apply pt_eq; unfold mix, rp; cbn [X Y]; apply (Rmult_eq_reg_l (IZR q)); try lra; unfold s, r; field_simplify; lra. }
    destruct (Z.eq_dec u 0) as [->|N0].
    { left. split; [reflexivity|]. apply (Ro e s E Hs). rewrite Eq. unfold r. replace (0 / IZR q)%R with 0%R by (field; lra). apply mix_0. }
    destruct (Z.eq_dec u q) as [->|N1].
    { right. left. split; [reflexivity|]. apply (corner_on v e s Vv E Hs). rewrite Eq. unfold r. replace (IZR q / IZR q)%R with 1%R by (field; lra). apply mix_1. }
    assert (Hr : (0 < r < 1)%R) by (assert (A : 0 < u) by lia; assert (B : u < q) by lia; apply IZR_lt in A, B; split; apply (Rmult_lt_reg_r (IZR q)); lra).
    right. right. destruct (classic joined) as [(f & F & Fo & Fv)|Nj].
    + destruct (met e s r E Hs Hr Eq) as [D|(D & Tn & _)]; [exact D|exfalso].
      assert (Ne : e <> f) by (intros ->; destruct Fo as [Z|Z]; rewrite Z in Tn; unfold turn in Tn; lia).
      assert (Hf : exists x, (0 <= x <= 1)%R /\ mix (rp (e1 f)) (rp (e2 f)) x = L r).
      { destruct Fo as [Fo|Fo], Fv as [Fv|Fv]; try congruence; rewrite Fo, Fv; [exists r|exists (1 - r)%R]; (split; [lra|]); [reflexivity|]. rewrite (mix_flip (rp o)). reflexivity. }
      destruct Hf as (x & Hx & Ef). destruct (simple_qs e f s x E F Ne Hs Hx) as [Z _]; [congruence|]. lra.
    + exfalso. apply (clear_way e r Nj E Hr). exists s. auto.
  - intros p n K S. pose proof K as (P & j & HP & J & Ep & Ev & En). pose proof (parts P HP) as Np. pose proof (sides P HP) as N3.
    destruct (classic joined) as [(f & F & Fo & Fv)|Nj].
    + assert (Co : corner P p v n) by (rewrite Ep, Ev, En; apply corner_ring; assumption).
      destruct (poly_edge qs f F) as (P' & HP' & Ef). destruct (edge_verts P' f Ef) as [I1 I2]. assert (Iv : In v (verts P')) by (destruct Fv as [<-|<-]; assumption).
      assert (Iv' : In v (verts P)) by (rewrite Ev; apply nth_In, J). assert (P' = P) by (apply (nodup_owner qs P' P v); assumption). subst P'.
      destruct (c_only _ _ _ _ Co f Ef Fv) as [-> | ->]; destruct Fo as [Fo|Fo]; cbn [e1 e2] in Fo; try congruence; subst; unfold into_solid, turn in S; lia.
    + assert (W0 : winding (length (verts P)) (ring P) (L (1 / 2)) = 0).
      { apply started; [assumption|assumption|lra|]. intros e x E Hx. apply clear_way; [exact Nj|exact (edge_poly qs P e HP E)|lra]. }
      assert (W1 : winding (length (verts P)) (ring P) (L (1 / 2)) = 1); [|lia].
      apply (r_sides qs P HP Np N3 simple_qs _ (left P HP)). rewrite mix_flip, Ev. apply (r_sees P N3 1 j o (1 - 1 / 2) J); [lra| |].
      * rewrite <- Ep, <- Ev, <- En. assert (Lt : forall z, 0 < z -> (0 < 1 * IZR z)%R) by (intros z Z; apply (IZR_lt 0) in Z; lra).
        destruct S as [(A & B & C)|(A & [B|B])]; [left; split; [auto|intros _; auto]|right|left; split; [auto|]].
        -- split; [apply (IZR_lt _ 0) in A; lra|auto].
        -- intros Z. apply (IZR_lt _ 0) in A. lra.
      * rewrite <- Ev. intros e E x Hx M. rewrite (mix_flip (rp v) (rp o)), (mix_flip (rp v) (rp o)) in M. apply meet_struck in M. destruct M as (c & Hc & St).
        apply (clear_way e _ Nj (edge_poly qs P e HP E)) in St; [exact St|]. split; nra.
Qed.
(** and every point of it lies on a shore or at sea *)
Lemma crossed e r : joined -> polygon_edge qs e -> (0 < r < 1)%R -> struck e r -> touches e o /\ touches e v.
Proof.
  intros (f & F & Fo & Fv) E Hr (s & Hs & Eq). destruct (met e s r E Hs Hr Eq) as [D|(D & Tn & _)]; [exact D|exfalso].
  assert (Ne : e <> f) by (intros ->; destruct Fo as [Z|Z]; rewrite Z in Tn; unfold turn in Tn; lia).
  assert (Hf : exists x, (0 <= x <= 1)%R /\ mix (rp (e1 f)) (rp (e2 f)) x = L r).
  { destruct Fo as [Fo|Fo], Fv as [Fv|Fv]; try congruence; rewrite Fo, Fv; [exists r|exists (1 - r)%R]; (split; [lra|]); [reflexivity|]. rewrite (mix_flip (rp o)). reflexivity. }
  destruct Hf as (x & Hx & Ef). destruct (simple_qs e f s x E F Ne Hs Hx) as [Z _]; [congruence|]. lra.
Qed.
Theorem sea_wet P r : In P qs -> (0 < r < 1)%R -> (exists e, edge_of P e /\ struck e r) \/ winding (length (verts P)) (ring P) (L r) = 0.
Proof.
  intros HP Hr. destruct (classic joined) as [Jo|Nj]; [|right; apply started; [exact HP|exact Nj|lra|]; intros e x E Hx; apply clear_way; [exact Nj|exact (edge_poly qs P e HP E)|lra]].
  destruct (classic (In o (verts P))) as [I|I].
  - left. destruct Jo as (f & F & Fo & Fv). destruct (poly_edge qs f F) as (P' & HP' & Ef). destruct (edge_verts P' f Ef) as [I1 I2].
    assert (Io : In o (verts P')) by (destruct Fo as [<-|<-]; assumption). assert (P' = P) by (apply (nodup_owner qs P' P o); assumption). subst P'.
    exists f. split; [exact Ef|]. destruct Fo as [Fo|Fo], Fv as [Fv|Fv]; try congruence; unfold struck; rewrite Fo, Fv; [exists r|exists (1 - r)%R]; (split; [lra|]); [reflexivity|]. rewrite (mix_flip (rp o)). reflexivity.
  - right. apply outside_start; [exact HP|exact I|lra|]. intros e x E Hx St. destruct (crossed e x Jo (edge_poly qs P e HP E)) as [[<-|<-] _]; [lra|exact St|..]; apply I, (edge_verts P e E).
Qed.
End Line.
