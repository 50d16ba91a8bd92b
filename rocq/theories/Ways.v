(** Ways over the water, with bends anywhere: on a map of simple rings none is shorter than one
    which bends at the vertices of the map only.  No code is modelled here. *)
From Coq Require Import ZArith Reals Bool List Lia Lra Psatz Classical_Prop.
From Verif Require Import Jordan.
From Verif Require Import Base Coordinate Segment Polygon SpecGeom PolylineFacts GraphMore Graph Visgraph SweepFacts SweepGeo SweepSound SweepExact SweepGraph SweepLayers SweepFronts OpenWater SeaLines Coasts.
Import ListNotations.
Local Open Scope R_scope.

(** ** Vocabulary *)
Definition on_shore (P : polygon) (z : pt) : Prop := exists e s, edge_of P e /\ 0 <= s <= 1 /\ mix (rp (e1 e)) (rp (e2 e)) s = z.
(** for every polygon, on its shore or not inside *)
Definition afloat (ps : list polygon) (z : pt) : Prop := forall P, In P ps -> on_shore P z \/ winding (length (verts P)) (ring P) z = 0%Z.
(** every point of the segment, its ends included *)
Definition sails (ps : list polygon) (a b : pt) : Prop := forall r, 0 <= r <= 1 -> afloat ps (mix a b r).
(** from [a] straight on to each of the points [l] in turn *)
Fixpoint course (ps : list polygon) (a : pt) (l : list pt) : Prop :=
  match l with nil => True | b :: l => sails ps a b /\ course ps b l end.
Definition far (a b : pt) : R := sqrt (Rsqr (X a - X b) + Rsqr (Y a - Y b)).
Fixpoint run (a : pt) (l : list pt) : R := match l with nil => 0 | b :: l => far a b + run b l end.

(** ** Distances *)
Lemma far_pos a b : 0 <= far a b. Proof. apply sqrt_pos. Qed.
Lemma far_same a : far a a = 0.
Proof. unfold far. rewrite !Rminus_diag_eq by reflexivity. rewrite Rsqr_0, Rplus_0_r. apply sqrt_0. Qed.
Lemma far_flip a b : far a b = far b a.
Proof. unfold far. rewrite (Rsqr_neg_minus (X a)), (Rsqr_neg_minus (Y a)). reflexivity. Qed.
Lemma far_triangle a b c : far a c <= far a b + far b c.
Proof.
  unfold far. set (p := X a - X b). set (q := Y a - Y b). set (u := X b - X c). set (v := Y b - Y c).
  replace (X a - X c) with (p + u) by (unfold p, u; ring). replace (Y a - Y c) with (q + v) by (unfold q, v; ring).
  pose proof (sqrt_pos (Rsqr p + Rsqr q)) as A. pose proof (sqrt_pos (Rsqr u + Rsqr v)) as B.
  assert (Pp : 0 <= Rsqr p + Rsqr q) by (pose proof (Rle_0_sqr p); pose proof (Rle_0_sqr q); lra). assert (Pu : 0 <= Rsqr u + Rsqr v) by (pose proof (Rle_0_sqr u); pose proof (Rle_0_sqr v); lra).
  apply Rsqr_incr_0_var; [|lra]. rewrite Rsqr_sqrt by (pose proof (Rle_0_sqr (p + u)); pose proof (Rle_0_sqr (q + v)); lra).
  rewrite (Rsqr_plus (sqrt _)). rewrite !Rsqr_sqrt by assumption.
  assert (C : p * u + q * v <= sqrt (Rsqr p + Rsqr q) * sqrt (Rsqr u + Rsqr v)).
  { rewrite <- sqrt_mult by assumption. apply Rle_trans with (Rabs (p * u + q * v)); [apply Rle_abs|]. rewrite <- sqrt_Rsqr_abs. apply sqrt_le_1_alt. unfold Rsqr. pose proof (Rle_0_sqr (p * v - q * u)) as Z. unfold Rsqr in Z. lra. }
  unfold Rsqr in *. lra.
Qed.
Lemma far_mix a b s : 0 <= s <= 1 -> far a b = far a (mix a b s) + far (mix a b s) b.
Proof.
  intros S. set (d := far a b).
  assert (K : forall k x y, 0 <= k -> sqrt (Rsqr (k * x) + Rsqr (k * y)) = k * sqrt (Rsqr x + Rsqr y)).
  { intros k x y Hk. replace (Rsqr (k * x) + Rsqr (k * y)) with (Rsqr k * (Rsqr x + Rsqr y)) by (unfold Rsqr; ring).
    rewrite sqrt_mult, sqrt_Rsqr; [reflexivity|exact Hk|apply Rle_0_sqr|]. pose proof (Rle_0_sqr x). pose proof (Rle_0_sqr y). lra. }
  assert (E1 : far a (mix a b s) = s * d).
  { unfold d, far, mix. cbn [X Y]. rewrite <- K by lra. f_equal. f_equal; f_equal; ring. }
  assert (E2 : far (mix a b s) b = (1 - s) * d).
  { unfold d, far, mix. cbn [X Y]. rewrite <- K by lra. f_equal. f_equal; f_equal; ring. }
  rewrite E1, E2. ring.
Qed.

(** ** Triangles *)
Definition blend (a b c : pt) (u v w : R) : pt := P2 (u * X a + v * X b + w * X c) (u * Y a + v * Y b + w * Y c).
(** in the triangle, its boundary included *)
Definition inside (a b c z : pt) : Prop := exists u v w, 0 <= u /\ 0 <= v /\ 0 <= w /\ u + v + w = 1 /\ z = blend a b c u v w.
Section Bary.
Variables a b c : pt.
Hypothesis Nd : cross (minus b a) (minus c a) <> 0.
Definition bc (z : pt) : R := cross (minus z a) (minus c a) / cross (minus b a) (minus c a).
Definition cc (z : pt) : R := cross (minus b a) (minus z a) / cross (minus b a) (minus c a).
Definition ac (z : pt) : R := 1 - bc z - cc z.
Lemma bary z : z = blend a b c (ac z) (bc z) (cc z).
Proof.
  unfold ac, bc, cc. set (D := cross (minus b a) (minus c a)) in *. apply pt_eq; unfold blend; cbn [X Y]; apply (Rmult_eq_reg_r D); try exact Nd; field_simplify; try exact Nd;
    unfold D, cross, minus; cbn [X Y]; ring.
Qed.
Lemma bary_only u v w : u + v + w = 1 -> ac (blend a b c u v w) = u /\ bc (blend a b c u v w) = v /\ cc (blend a b c u v w) = w.
Proof.
  intros S. assert (B : bc (blend a b c u v w) = v /\ cc (blend a b c u v w) = w).
  { unfold bc, cc. set (D := cross (minus b a) (minus c a)) in *. split; apply (Rmult_eq_reg_r D); try exact Nd; unfold Rdiv; rewrite Rmult_assoc, Rinv_l, Rmult_1_r by exact Nd;
      replace u with (1 - v - w) by lra; unfold D, cross, minus, blend; cbn [X Y]; ring. }
  unfold ac. destruct B as [-> ->]. lra.
Qed.
Lemma bc_mix p q s : bc (mix p q s) = (1 - s) * bc p + s * bc q.
Proof. unfold bc. set (D := cross (minus b a) (minus c a)) in *. apply (Rmult_eq_reg_r D); [|exact Nd]. field_simplify; [|exact Nd|exact Nd]. unfold cross, minus, mix. cbn [X Y]. ring. Qed.
Lemma cc_mix p q s : cc (mix p q s) = (1 - s) * cc p + s * cc q.
Proof. unfold cc. set (D := cross (minus b a) (minus c a)) in *. apply (Rmult_eq_reg_r D); [|exact Nd]. field_simplify; [|exact Nd|exact Nd]. unfold cross, minus, mix. cbn [X Y]. ring. Qed.
Lemma ac_mix p q s : ac (mix p q s) = (1 - s) * ac p + s * ac q.
Proof. unfold ac. rewrite bc_mix, cc_mix. ring. Qed.
End Bary.
Lemma parallel d u v : d <> P2 0 0 -> cross d u = 0 -> cross d v = 0 -> cross u v = 0.
Proof.
  intros N A B. unfold cross in *. set (x := X d) in *. set (y := Y d) in *.
  assert (Nz : x <> 0 \/ y <> 0).
  { destruct (Req_dec x 0) as [Zx|Zx]; [right|left; exact Zx]. intros Zy. apply N. apply pt_eq; assumption. }
  destruct Nz as [Nz|Nz]; [apply (Rmult_eq_reg_l x); [|exact Nz]|apply (Rmult_eq_reg_l y); [|exact Nz]]; rewrite Rmult_0_r.
  - transitivity (X u * (x * Y v) - (x * Y u) * X v); [ring|]. replace (x * Y v) with (y * X v) by lra. replace (x * Y u) with (y * X u) by lra. ring.
  - transitivity ((y * X u) * Y v - Y u * (y * X v)); [ring|]. replace (y * X u) with (x * Y u) by lra. replace (y * X v) with (x * Y v) by lra. ring.
Qed.

Section Sea.
Variable ps : list polygon.
Hypothesis Nd : NoDup (polygon_vertices ps).
Hypothesis Sk : sketched ps.
Notation sails := (sails ps).
Notation course := (course ps).
Lemma sa_parts P : In P ps -> NoDup (verts P). Proof. apply nodup_parts, Nd. Qed.
Lemma sa_three P : In P ps -> (3 <= length (verts P))%nat. Proof. intros H. apply (proj2 Sk P H). Qed.
Lemma sa_left P : In P ps -> leftward P. Proof. intros H. apply (proj2 Sk P H). Qed.
Lemma sails_flip a b : sails a b -> sails b a.
Proof. intros H r R. rewrite mix_flip. apply H. lra. Qed.
Lemma sails_part a b s t : 0 <= s <= 1 -> 0 <= t <= 1 -> sails a b -> sails (mix a b s) (mix a b t).
Proof. intros S T H r R. rewrite mix_mix. apply H, mix_between; assumption. Qed.
Lemma shore_misses P z : In P ps -> ~ on_shore P z <-> misses (length (verts P)) (ring P) z z.
Proof.
  intros HP. rewrite (r_misses P (sa_three P HP)). split.
  - intros N e E (r & s & R & S & Q). apply N. exists e, s. split; [exact E|]. split; [exact S|]. rewrite <- Q. apply pt_eq; unfold mix; cbn [X Y]; ring.
  - intros M (e & s & E & S & Q). apply (M e E). exists 0, s. split; [lra|]. split; [exact S|]. rewrite mix_0. auto.
Qed.
(** *** No way leads into the land *)
Lemma edge_dir P e : In P ps -> edge_of P e -> minus (rp (e2 e)) (rp (e1 e)) <> P2 0 0.
Proof.
  intros HP E Z. destruct (edge_all P e E) as (i & I & ->). apply (r_dist P (sa_parts P HP) (sa_three P HP) i). rewrite <- (edge_1 P i), <- (edge_2 P (sa_three P HP) i).
  pose proof (f_equal X Z) as Zx. pose proof (f_equal Y Z) as Zy. unfold minus in Zx, Zy. cbn [X Y] in Zx, Zy. apply pt_eq; lra.
Qed.
Lemma ashore P e s q a : In P ps -> edge_of P e -> 0 < s < 1 -> q = mix (rp (e1 e)) (rp (e2 e)) s -> 0 < cross (minus (rp (e2 e)) (rp (e1 e))) (minus a q) -> ~ sails q a.
Proof.
  intros HP E Hs Q L W. pose proof (sa_parts P HP) as Np. pose proof (sa_three P HP) as N3. set (n := length (verts P)) in *.
  set (d := minus a q) in *. destruct (edge_all P e E) as (i0 & I0 & ->).
  assert (So : soon (fun h => forall i, (i < n)%nat -> ~ meet (Jordan.shift q h d) (Jordan.shift q h d) ((ring P) i) ((ring P) (S i)))).
  { apply soon_all. intros i I. destruct (Nat.eq_dec i i0) as [->|Ni].
    - apply soon_now. intros h H. rewrite <- (edge_1 P i0), <- (edge_2 P N3 i0). set (D := minus (rp (e2 (edge P i0))) (rp (e1 (edge P i0)))) in *.
      assert (Z : 0 < 1 * cross D (minus (Jordan.shift q h d) q)). { replace (1 * cross D (minus (Jordan.shift q h d) q)) with (h * cross D d) by (unfold cross, minus, Jordan.shift; cbn [X Y]; ring). apply Rmult_lt_0_compat; assumption. }
      apply (parted 1 D q); [exact Z|exact Z| |]; apply Req_le; rewrite Q; unfold D, cross, minus, mix; cbn [X Y]; ring.
    - apply perturb; [right; apply r_dist; assumption|]. intros (r & t & R & T & M). rewrite <- (edge_1 P i), <- (edge_2 P N3 i) in M.
      assert (Mq : mix (rp (e1 (edge P i0))) (rp (e2 (edge P i0))) s = mix (rp (e1 (edge P i))) (rp (e2 (edge P i))) t) by (rewrite <- M, <- Q; apply pt_eq; unfold mix; cbn [X Y]; ring).
      assert (Ne : edge P i0 <> edge P i) by (apply edge_ne; [assumption|assumption|]; rewrite !Nat.mod_small by assumption; auto).
      destruct (proj1 Sk _ _ s t (edge_map ps P HP N3 i0) (edge_map ps P HP N3 i) Ne ltac:(lra) T Mq) as [[Z|Z] _]; lra. }
  destruct So as (h & H & A). set (r := Rmin h 1). assert (R : 0 < r <= 1) by (unfold r; split; [apply Rmin_pos; lra|apply Rmin_r]). assert (Rh : r <= h) by apply Rmin_l.
  set (x := Jordan.shift q r d).
  assert (Mi : forall u, 0 < u <= 1 -> misses n (ring P) (Jordan.shift q (u * r) d) x).
  { intros u U i I (c & t & C & T & M). set (w := (1 - c) * u + c * 1). assert (Hw : 0 < w <= 1) by (unfold w; nra). assert (Hr : 0 < w * r <= h) by nra. apply (A (w * r) Hr i I). exists 0, t. split; [lra|]. split; [exact T|]. rewrite <- M. apply pt_eq; unfold w, x, mix, Jordan.shift; cbn [X Y]; ring. }
  assert (Sx : sees n (ring P) 1 x).
  { left. exists (i0 + n - 1)%nat, s. destruct (r_corner P N3 i0 I0) as (_ & B & C). split; [lra|]. cbv zeta. fold n in B, C.
    assert (B' : (ring P) (S (i0 + n - 1)) = rp (e1 (edge P i0))) by (rewrite B; unfold edge; cbn [e1]; rewrite Nat.mod_small by exact I0; reflexivity).
    assert (C' : (ring P) (S (S (i0 + n - 1))) = rp (e2 (edge P i0))) by (rewrite C; unfold edge; cbn [e2]; rewrite Nat.mod_small by exact I0; reflexivity).
    rewrite B', C'.
    assert (Qz : mix (rp (e1 (edge P i0))) (rp (e2 (edge P i0))) s = q) by (symmetry; exact Q). rewrite Qz. split; [|split].
    - intros u U. replace (Jordan.shift q u (minus x q)) with (Jordan.shift q (u * r) d) by (apply pt_eq; unfold x, Jordan.shift, minus; cbn [X Y]; ring). apply Mi, U.
    - replace (cross _ (minus x q)) with (r * cross (minus (rp (e2 (edge P i0))) (rp (e1 (edge P i0)))) d) by (unfold x, cross, minus, Jordan.shift; cbn [X Y]; ring).
      rewrite Rmult_1_l. apply Rmult_lt_0_compat; lra.
    - intros Z. lra. }
  assert (Wx : winding n (ring P) x = 1%Z) by (apply (proj1 (r_sides ps P HP Np N3 (proj1 Sk) x (sa_left P HP))), Sx).
  assert (Ex : x = mix q a r) by (apply pt_eq; unfold x, d, mix, Jordan.shift, minus; cbn [X Y]; ring).
  destruct (W r ltac:(lra) P HP) as [Sh|Z]; rewrite <- Ex in *.
  - apply (shore_misses P x HP); [|exact Sh]. fold n. replace x with (Jordan.shift q (1 * r) d) at 1 by (unfold x; f_equal; ring). apply Mi. lra.
  - fold n in Z. congruence.
Qed.
Lemma ashore_corner P j v : In P ps -> (j < length (verts P))%nat ->
  into_solid (ring_prev (verts P) j) (vat (verts P) j) (ring_next (verts P) j) v -> ~ sails (rp (vat (verts P) j)) (rp v).
Proof.
  intros HP J Is W. pose proof (sa_parts P HP) as Np. pose proof (sa_three P HP) as N3. set (n := length (verts P)) in *.
  set (p := ring_prev (verts P) j) in *. set (c := vat (verts P) j) in *. set (q := ring_next (verts P) j) in *.
  pose proof (corner_ring P j Np N3 J) as Co. fold p c q in Co.
  assert (Sol : (0 < turn p c q /\ 0 < turn p c v /\ 0 < turn c q v)%Z \/ (turn p c q < 0 /\ 0 < turn p c v)%Z \/ (turn p c q < 0 /\ 0 < turn c q v)%Z) by (unfold into_solid in Is; tauto).
  assert (So : soon (fun h => forall i, (i < n)%nat -> ~ meet (Jordan.shift (rp c) h (minus (rp v) (rp c))) (Jordan.shift (rp c) h (minus (rp v) (rp c))) ((ring P) i) ((ring P) (S i)))).
  { apply soon_all. intros i I. rewrite <- (edge_1 P i), <- (edge_2 P N3 i). destruct (classic (touches (edge P i) c)) as [To|To].
    - apply soon_now. intros h H (r & t & R & T & M). assert (M' : Jordan.shift (rp c) h (minus (rp v) (rp c)) = mix (rp (e1 (edge P i))) (rp (e2 (edge P i))) t) by (rewrite <- M; apply pt_eq; unfold mix; cbn [X Y]; ring). clear M.
      destruct (c_only _ _ _ _ Co _ (edge_is P N3 i) To) as [Eq|Eq]; rewrite Eq in M'; cbn [e1 e2] in M'.
      + assert (A : h * IZR (turn p c v) = 0).
        { rewrite <- cross_turn_on. transitivity (cross (minus (rp c) (rp p)) (minus (Jordan.shift (rp c) h (minus (rp v) (rp c))) (rp c))); [unfold cross, minus, Jordan.shift; cbn [X Y]; ring|]. rewrite M'. unfold cross, minus, mix; cbn [X Y]; ring. }
        assert (B : h * IZR (turn c q v) = (1 - t) * IZR (turn p c q)).
        { rewrite <- (cross_turn c q v), <- (cross_turn p c q). transitivity (cross (minus (rp q) (rp c)) (minus (Jordan.shift (rp c) h (minus (rp v) (rp c))) (rp c))); [unfold cross, minus, Jordan.shift; cbn [X Y]; ring|]. rewrite M'. unfold cross, minus, mix; cbn [X Y]; ring. }
        destruct Sol as [(S1 & S2 & S3)|[(S1 & S2)|(S1 & S2)]].
        * apply (IZR_lt 0) in S2. nra.
        * apply (IZR_lt 0) in S2. nra.
        * apply (IZR_lt 0) in S2. apply (IZR_lt _ 0) in S1. nra.
      + assert (A : h * IZR (turn c q v) = 0).
        { rewrite <- cross_turn. transitivity (cross (minus (rp q) (rp c)) (minus (Jordan.shift (rp c) h (minus (rp v) (rp c))) (rp c))); [unfold cross, minus, Jordan.shift; cbn [X Y]; ring|]. rewrite M'. unfold cross, minus, mix; cbn [X Y]; ring. }
        assert (B : h * IZR (turn p c v) = t * IZR (turn p c q)).
        { rewrite <- (cross_turn_on p c v), <- (cross_turn_on p c q). transitivity (cross (minus (rp c) (rp p)) (minus (Jordan.shift (rp c) h (minus (rp v) (rp c))) (rp c))); [unfold cross, minus, Jordan.shift; cbn [X Y]; ring|]. rewrite M'. unfold cross, minus, mix; cbn [X Y]; ring. }
        destruct Sol as [(S1 & S2 & S3)|[(S1 & S2)|(S1 & S2)]].
        * apply (IZR_lt 0) in S3. nra.
        * apply (IZR_lt 0) in S2. apply (IZR_lt _ 0) in S1. nra.
        * apply (IZR_lt 0) in S2. nra.
    - apply perturb; [right; rewrite edge_1, (edge_2 P N3); apply r_dist; assumption|]. intros (r & t & R & T & M). apply To.
      apply (corner_on ps Nd Sk c (edge P i) t); [apply in_polygon_vertices; exists P; split; [exact HP|apply nth_In, J]|apply edge_map; assumption|exact T|].
      rewrite <- M. apply pt_eq; unfold mix; cbn [X Y]; ring. }
  destruct So as (h & H & A). set (r := Rmin h 1). assert (R : 0 < r <= 1) by (unfold r; split; [apply Rmin_pos; lra|apply Rmin_r]). assert (Rh : r <= h) by apply Rmin_l.
  assert (Of : forall u s, edge_of P s -> 0 < u <= r -> ~ meet (mix (rp c) (rp v) u) (mix (rp c) (rp v) r) (rp (e1 s)) (rp (e2 s))).
  { intros u s Es U (b & t & B & T & M). destruct (edge_all P s Es) as (i & I & ->). rewrite mix_mix in M.
    assert (Hr : 0 < (1 - b) * u + b * r <= h) by nra. apply (A _ Hr i I). exists 0, t. split; [lra|]. split; [exact T|]. rewrite <- (edge_1 P i), <- (edge_2 P N3 i), <- M. apply pt_eq; unfold mix, Jordan.shift, minus; cbn [X Y]; ring. }
  assert (Sx : sees n (ring P) 1 (mix (rp c) (rp v) r)).
  { apply (r_sees P N3 1 j v r J ltac:(lra)); [|intros s Es u U; apply Of; assumption]. fold p c q. rewrite !Rmult_1_l. destruct Sol as [(S1 & S2 & S3)|[(S1 & S2)|(S1 & S2)]].
    - left. split; [apply (IZR_lt 0), S3|]. intros _. apply (IZR_lt 0), S2.
    - right. split; [apply (IZR_lt _ 0), S1|apply (IZR_lt 0), S2].
    - left. split; [apply (IZR_lt 0), S2|]. intros Z. apply (IZR_lt _ 0) in S1. lra. }
  assert (Wx : winding n (ring P) (mix (rp c) (rp v) r) = 1%Z) by (apply (proj1 (r_sides ps P HP Np N3 (proj1 Sk) _ (sa_left P HP))), Sx).
  destruct (W r ltac:(lra) P HP) as [(s & t & Es & T & M)|Z]; [|fold n in Z; congruence].
  apply (Of r s Es ltac:(lra)). exists 0, t. split; [lra|]. split; [exact T|]. rewrite mix_0. auto.
Qed.
(** *** Cutting a corner *)
Lemma first_zero a0 a1 b0 b1 c0 c1 : 0 < a0 -> 0 < b0 -> 0 < c0 -> 0 < b1 -> a1 < 0 \/ c1 < 0 ->
  exists t, 0 < t < 1 /\ 0 <= (1 - t) * a0 + t * a1 /\ 0 < (1 - t) * b0 + t * b1 /\ 0 <= (1 - t) * c0 + t * c1 /\ ((1 - t) * a0 + t * a1 = 0 \/ (1 - t) * c0 + t * c1 = 0).
Proof.
  intros A B C B1 H. set (K := a1 * c0 - a0 * c1).
  assert (Go : forall x0 x1 y0 y1, 0 < x0 -> x1 < 0 -> 0 < y0 -> x1 * y0 - x0 * y1 <= 0 -> exists t, 0 < t < 1 /\ (1 - t) * x0 + t * x1 = 0 /\ 0 <= (1 - t) * y0 + t * y1).
  { intros x0 x1 y0 y1 X0 X1 Y0 L. exists (x0 / (x0 - x1)). split; [|split].
    - split; [apply Rdiv_lt_0_compat; lra|]. apply (Rmult_lt_reg_r (x0 - x1)); [lra|]. unfold Rdiv. rewrite Rmult_assoc, Rinv_l by lra. lra.
    - field. lra.
    - replace ((1 - x0 / (x0 - x1)) * y0 + x0 / (x0 - x1) * y1) with ((x0 * y1 - x1 * y0) / (x0 - x1)) by (field; lra). apply Rmult_le_pos; [lra|left; apply Rinv_0_lt_compat; lra]. }
  assert (D : a1 < 0 /\ K <= 0 \/ c1 < 0 /\ 0 <= K).
  { unfold K. destruct (Rle_lt_dec 0 c1) as [C1|C1]; [left|destruct (Rle_lt_dec 0 a1) as [A1|A1]; [right|destruct (Rle_lt_dec (a1 * c0 - a0 * c1) 0); [left|right]]]; try (split; [lra|nra]). }
  destruct D as [[D1 D2]|[D1 D2]].
  - destruct (Go a0 a1 c0 c1 A D1 C ltac:(exact D2)) as (t & T & Z & Y). exists t. split; [exact T|]. split; [lra|]. split; [nra|]. split; [exact Y|]. left; exact Z.
  - destruct (Go c0 c1 a0 a1 C D1 A ltac:(unfold K in D2; lra)) as (t & T & Z & Y). exists t. split; [exact T|]. split; [exact Y|]. split; [nra|]. split; [lra|]. right; exact Z.
Qed.
Lemma cross_blend d q a b c u v w : u + v + w = 1 -> cross d (minus (blend a b c u v w) q) = u * cross d (minus a q) + v * cross d (minus b q) + w * cross d (minus c q).
Proof. intros S. replace u with (1 - v - w) by lra. unfold cross, minus, blend. cbn [X Y]. ring. Qed.
(** no vertex in the triangle, but on the side from [a] to [x] *)
Definition bare (a b x : pt) : Prop := forall c u v w, In c (polygon_vertices ps) -> 0 <= u -> 0 < v -> 0 <= w -> u + v + w = 1 -> rp c <> blend a b x u v w.
Section Fan.
Variables a b x : pt.
Hypothesis Nt : cross (minus b a) (minus x a) <> 0.
Hypothesis Ba : bare a b x.
Hypothesis Sab : sails a b.
Hypothesis Sbx : sails b x.
Notation A := (ac a b x).
Notation B := (bc a b x).
Notation C := (cc a b x).
Lemma bare_at c : In c (polygon_vertices ps) -> 0 <= A (rp c) -> 0 < B (rp c) -> 0 <= C (rp c) -> False.
Proof. intros V HA HB HC. apply (Ba c _ _ _ V HA HB HC); [unfold ac; lra|apply bary, Nt]. Qed.
Lemma edge_ends P e : In P ps -> edge_of P e -> In (e1 e) (polygon_vertices ps) /\ In (e2 e) (polygon_vertices ps).
Proof. intros HP E. destruct (edge_verts P e E) as [I1 I2]. split; apply in_polygon_vertices; eauto. Qed.
Lemma leaves P e s : In P ps -> edge_of P e -> 0 < s < 1 -> let p := mix (rp (e1 e)) (rp (e2 e)) s in 0 < A p -> 0 < B p -> 0 < C p -> False.
Proof.
  intros HP E Hs p Ap Bp Cp. destruct (edge_ends P e HP E) as [V1 V2]. set (E1 := rp (e1 e)) in *. set (E2 := rp (e2 e)) in *.
  assert (End : exists t c, (t = 0 \/ t = 1) /\ mix E1 E2 t = rp c /\ In c (polygon_vertices ps) /\ 0 < B (rp c)).
  { assert (Bs : B p = (1 - s) * B E1 + s * B E2) by (apply bc_mix, Nt). destruct (Rlt_le_dec 0 (B E1)) as [L|L].
    - exists 0, (e1 e). rewrite mix_0. auto.
    - exists 1, (e2 e). rewrite mix_1. fold E2. assert (0 < B E2) by nra. auto. }
  destruct End as (t & c & T & Ec & Vc & Bc).
  assert (Out : A (rp c) < 0 \/ C (rp c) < 0).
  { destruct (Rlt_le_dec (A (rp c)) 0) as [L|L]; [left; exact L|]. destruct (Rlt_le_dec (C (rp c)) 0) as [M|M]; [right; exact M|]. exfalso. exact (bare_at c Vc L Bc M). }
  destruct (first_zero _ _ _ _ _ _ Ap Bp Cp Bc Out) as (h & H & HA & HB & HC & HZ).
  set (s1 := (1 - h) * s + h * t). assert (S1 : 0 < s1 < 1) by (unfold s1; destruct T as [-> | ->]; nra).
  set (q := mix E1 E2 s1). assert (Eq : mix p (rp c) h = q) by (unfold p, q, s1; rewrite <- Ec; apply mix_mix).
  rewrite <- (ac_mix a b x Nt), Eq in HA. rewrite <- (bc_mix a b x Nt), Eq in HB. rewrite <- (cc_mix a b x Nt), Eq in HC. rewrite <- (ac_mix a b x Nt), <- (cc_mix a b x Nt), Eq in HZ.
  set (D := minus E2 E1). set (g := fun z => cross D (minus z q)).
  assert (Gq : A q * g a + B q * g b + C q * g x = 0).
  { unfold g. rewrite <- cross_blend by (unfold ac; lra). rewrite <- bary by exact Nt. unfold cross, minus. cbn [X Y]. ring. }
  assert (Gp : A p * g a + B p * g b + C p * g x = 0).
  { unfold g. rewrite <- cross_blend by (unfold ac; lra). rewrite <- bary by exact Nt. unfold D, p, q, cross, minus, mix. cbn [X Y]. ring. }
  assert (No : forall z, sails q z -> g z <= 0).
  { intros z Sz. apply Rnot_lt_le. intros L. exact (ashore P e s1 q z HP E S1 eq_refl L Sz). }
  assert (Sum : A q + B q + C q = 1) by (unfold ac; lra).
  assert (Qab : C q = 0 -> q = mix a b (B q)).
  { intros Z. rewrite (bary a b x Nt q) at 1. rewrite Z. assert (U : A q = 1 - B q) by lra. rewrite U. apply pt_eq; unfold blend, mix; cbn [X Y]; ring. }
  assert (Qbx : A q = 0 -> q = mix x b (B q)).
  { intros Z. rewrite (bary a b x Nt q) at 1. rewrite Z. assert (U : C q = 1 - B q) by lra. rewrite U. apply pt_eq; unfold blend, mix; cbn [X Y]; ring. }
  assert (Ga : C q = 0 -> g a <= 0).
  { intros Z. apply No. rewrite (Qab Z). pose proof (sails_part a b (B q) 0 ltac:(lra) ltac:(lra) Sab) as K. rewrite mix_0 in K. exact K. }
  assert (Gx : A q = 0 -> g x <= 0).
  { intros Z. apply No. rewrite (Qbx Z). pose proof (sails_part x b (B q) 0 ltac:(lra) ltac:(lra) (sails_flip _ _ Sbx)) as K. rewrite mix_0 in K. exact K. }
  assert (Gb : g b <= 0).
  { apply No. destruct HZ as [Z|Z].
    - rewrite (Qbx Z). pose proof (sails_part x b (B q) 1 ltac:(lra) ltac:(lra) (sails_flip _ _ Sbx)) as K. rewrite mix_1 in K. exact K.
    - rewrite (Qab Z). pose proof (sails_part a b (B q) 1 ltac:(lra) ltac:(lra) Sab) as K. rewrite mix_1 in K. exact K. }
  assert (All : g a = 0 /\ g b = 0 /\ g x = 0).
  { set (ga := g a) in *. set (gb := g b) in *. set (gx := g x) in *. set (u := A q) in *. set (v := B q) in *. set (w := C q) in *. set (u0 := A p) in *. set (v0 := B p) in *. set (w0 := C p) in *.
    clearbody ga gb gx u v w u0 v0 w0. clear - HA HB HC HZ Gq Gp Ga Gx Gb Ap Bp Cp.
    assert (Go : forall u v ga gb gx u0 v0 w0, 0 <= u -> 0 < v -> u * ga + v * gb = 0 -> ga <= 0 -> gb <= 0 -> (u = 0 -> gx <= 0) -> 0 < u0 -> 0 < v0 -> 0 < w0 -> u0 * ga + v0 * gb + w0 * gx = 0 -> ga = 0 /\ gb = 0 /\ gx = 0).
    { clear. intros u v ga gb gx u0 v0 w0 U V E A B C U0 V0 W0 F. assert (Gb : gb = 0).
      { assert (u * ga <= 0) by nra. assert (0 <= v * gb) by lra. destruct (Rle_lt_or_eq_dec gb 0 B) as [L|L]; [nra|exact L]. }
      subst gb. destruct (Rle_lt_or_eq_dec 0 u U) as [L|L].
      - assert (ga = 0) by (apply (Rmult_eq_reg_l u); lra). subst ga. assert (gx = 0) by (apply (Rmult_eq_reg_l w0); lra). auto.
      - specialize (C (eq_sym L)). assert (u0 * ga <= 0) by nra. assert (w0 * gx <= 0) by nra. assert (ga = 0) by (apply (Rmult_eq_reg_l u0); lra). assert (gx = 0) by (apply (Rmult_eq_reg_l w0); lra). auto. }
    destruct HZ as [Z|Z].
    - destruct (Go w v gx gb ga w0 v0 u0) as (H1 & H2 & H3); auto. rewrite Z in Gq. lra. lra.
    - destruct (Go u v ga gb gx u0 v0 w0) as (H1 & H2 & H3); auto. rewrite Z in Gq. lra. }
  destruct All as (Za & Zb & Zx). apply Nt. apply (parallel D).
  - apply (edge_dir P e HP E).
  - replace (cross D (minus b a)) with (g b - g a) by (unfold g, cross, minus; cbn [X Y]; ring). lra.
  - replace (cross D (minus x a)) with (g x - g a) by (unfold g, cross, minus; cbn [X Y]; ring). lra.
Qed.
Lemma bc_b : A b = 0 /\ B b = 1 /\ C b = 0.
Proof. pose proof (bary_only a b x Nt 0 1 0 ltac:(ring)) as K. replace (blend a b x 0 1 0) with b in K by (apply pt_eq; unfold blend; cbn [X Y]; ring). exact K. Qed.
Lemma bc_a : A a = 1 /\ B a = 0 /\ C a = 0.
Proof. pose proof (bary_only a b x Nt 1 0 0 ltac:(ring)) as K. replace (blend a b x 1 0 0) with a in K by (apply pt_eq; unfold blend; cbn [X Y]; ring). exact K. Qed.
Lemma bc_x : A x = 0 /\ B x = 0 /\ C x = 1.
Proof. pose proof (bary_only a b x Nt 0 0 1 ltac:(ring)) as K. replace (blend a b x 0 0 1) with x in K by (apply pt_eq; unfold blend; cbn [X Y]; ring). exact K. Qed.
Theorem fan : sails a x.
Proof.
  intros r R P HP. destruct (Req_dec r 0) as [->|R0]; [rewrite mix_0; pose proof (Sab 0 ltac:(lra) P HP) as K; rewrite mix_0 in K; exact K|].
  destruct (Req_dec r 1) as [->|R1]; [rewrite mix_1; pose proof (Sbx 1 ltac:(lra) P HP) as K; rewrite mix_1 in K; exact K|]. set (z := mix a x r).
  destruct (classic (on_shore P z)) as [Sh|Sh]; [left; exact Sh|]. destruct (Z.eq_dec (winding (length (verts P)) (ring P) z) 0) as [W|W]; [right; exact W|]. exfalso.
  destruct bc_a as (Aa & Ba' & Ca). destruct bc_b as (Ab & Bb & Cb). destruct bc_x as (Ax & Bx & Cx).
  assert (Zz : A z = 1 - r /\ B z = 0 /\ C z = r) by (unfold z; rewrite ac_mix, bc_mix, cc_mix, Aa, Ba', Ca, Ax, Bx, Cx by exact Nt; repeat split; ring).
  destruct Zz as (Az & Bz & Cz).
  assert (Hit : forall u e s, edge_of P e -> 0 <= u <= 1 -> 0 <= s <= 1 -> mix z b u = mix (rp (e1 e)) (rp (e2 e)) s -> u = 1 /\ 0 < s < 1).
  { intros u e s E U S M. destruct (edge_ends P e HP E) as [V1 V2].
    assert (U0 : 0 < u). { destruct (Req_dec u 0) as [->|N]; [exfalso|lra]. apply Sh. exists e, s. rewrite mix_0 in M. auto. }
    set (y := mix z b u) in *. assert (Ay : A y = (1 - u) * (1 - r)) by (unfold y; rewrite ac_mix, Az, Ab by exact Nt; ring). assert (By : B y = u) by (unfold y; rewrite bc_mix, Bz, Bb by exact Nt; ring). assert (Cy : C y = (1 - u) * r) by (unfold y; rewrite cc_mix, Cz, Cb by exact Nt; ring).
    assert (Py : 0 <= A y /\ 0 < B y /\ 0 <= C y) by (rewrite Ay, By, Cy; repeat split; [|exact U0|]; apply Rmult_le_pos; lra). destruct Py as (P1 & P2' & P3).
    assert (Si : 0 < s < 1).
    { destruct (Req_dec s 0) as [->|S0]; [exfalso; rewrite mix_0 in M; rewrite M in P1, P2', P3; exact (bare_at _ V1 P1 P2' P3)|].
      destruct (Req_dec s 1) as [->|S1]; [exfalso; rewrite mix_1 in M; rewrite M in P1, P2', P3; exact (bare_at _ V2 P1 P2' P3)|]. lra. }
    split; [|exact Si]. destruct (Req_dec u 1) as [->|U1]; [reflexivity|exfalso]. apply (leaves P e s HP E Si); rewrite <- M; [rewrite Ay|rewrite By|rewrite Cy]; [apply Rmult_lt_0_compat; lra|lra|apply Rmult_lt_0_compat; lra]. }
  pose proof (sa_parts P HP) as Np. pose proof (sa_three P HP) as N3. set (n := length (verts P)) in *.
  destruct (classic (misses n (ring P) z b)) as [M|M].
  - assert (Wb : winding n (ring P) b <> 0%Z) by (rewrite <- (moving n (ring P) z b); [exact W| |exact M]; apply (r_per P N3 0)).
    destruct (Sab 1 ltac:(lra) P HP) as [(e & s & E & S & Q)|Z]; rewrite mix_1 in *; [|fold n in Z; contradiction].
    apply (proj1 (r_misses P N3 z b) M e E). exists 1, s. split; [lra|]. split; [exact S|]. rewrite mix_1. auto.
  - assert (Ex : exists e u s, edge_of P e /\ 0 <= u <= 1 /\ 0 <= s <= 1 /\ mix z b u = mix (rp (e1 e)) (rp (e2 e)) s).
    { apply NNPP. intros N. apply M. apply r_misses; [exact N3|]. intros e E (u & s & U & S & Q). apply N. exists e, u, s. auto. }
    destruct Ex as (e & u & s & E & U & Hs & Q). destruct (Hit u e s E U Hs Q) as [-> Si]. rewrite mix_1 in Q.
    set (D := minus (rp (e2 e)) (rp (e1 e))).
    assert (Ga : cross D (minus a b) <= 0) by (apply Rnot_lt_le; intros L; exact (ashore P e s b a HP E Si Q L (sails_flip _ _ Sab))).
    assert (Gx : cross D (minus x b) <= 0) by (apply Rnot_lt_le; intros L; exact (ashore P e s b x HP E Si Q L Sbx)).
    assert (Gz : cross D (minus z b) = (1 - r) * cross D (minus a b) + r * cross D (minus x b)) by (unfold z, cross, minus, mix; cbn [X Y]; ring).
    assert (Lz : cross D (minus z b) < 0).
    { destruct (Rle_lt_or_eq_dec _ _ Ga) as [L|Za]; [nra|]. destruct (Rle_lt_or_eq_dec _ _ Gx) as [L|Zx]; [nra|]. exfalso. apply Nt. apply (parallel D).
      - apply (edge_dir P e HP E).
      - replace (cross D (minus b a)) with (- cross D (minus a b)) by (unfold cross, minus; cbn [X Y]; ring). lra.
      - replace (cross D (minus x a)) with (cross D (minus x b) - cross D (minus a b)) by (unfold cross, minus; cbn [X Y]; ring). lra. }
    apply W. apply (proj2 (r_sides ps P HP Np N3 (proj1 Sk) z (sa_left P HP))). left. destruct (edge_all P e E) as (i0 & I0 & ->). exists (i0 + n - 1)%nat, s.
    destruct (r_corner P N3 i0 I0) as (_ & Rb & Rc). fold n in Rb, Rc.
    assert (Rb' : ring P (S (i0 + n - 1)) = rp (e1 (edge P i0))) by (rewrite Rb; unfold edge; cbn [e1]; rewrite Nat.mod_small by exact I0; reflexivity).
    assert (Rc' : ring P (S (S (i0 + n - 1))) = rp (e2 (edge P i0))) by (rewrite Rc; unfold edge; cbn [e2]; rewrite Nat.mod_small by exact I0; reflexivity).
    split; [lra|]. cbv zeta. rewrite Rb', Rc', <- Q. split; [|split; [fold D; lra|intros Z; lra]].
    intros h H. apply r_misses; [exact N3|]. intros f F (c & t & Hc & Ht & Mf). destruct (Hit ((1 - c) * (1 - h)) f t F) as [K _]; [nra|exact Ht| |nra].
    rewrite <- Mf. apply pt_eq; unfold mix, Jordan.shift, minus; cbn [X Y]; ring.
Qed.
End Fan.
(** straight on *)
Lemma straight a b c : cross (minus b a) (minus c a) = 0 -> sails a b -> sails b c -> sails a c.
Proof.
  intros Z Sab Sbc r R. destruct (classic (a = c)) as [->|N].
  { replace (mix c c r) with (mix b c 1) by (rewrite mix_1; apply pt_eq; unfold mix; cbn [X Y]; ring). apply Sbc. lra. }
  set (d := minus c a) in *. assert (Nd' : d <> P2 0 0).
  { intros E. apply N. pose proof (f_equal X E) as Ex. pose proof (f_equal Y E) as Ey. unfold d, minus in Ex, Ey. cbn [X Y] in Ex, Ey. apply pt_eq; lra. }
  assert (Dp : 0 < dot d d).
  { unfold dot. destruct (Req_dec (X d) 0) as [Zx|Zx]; [|pose proof (Rsqr_pos_lt _ Zx) as K; pose proof (Rle_0_sqr (Y d)); unfold Rsqr in *; lra].
    destruct (Req_dec (Y d) 0) as [Zy|Zy]; [exfalso; apply Nd'; apply pt_eq; assumption|]. pose proof (Rsqr_pos_lt _ Zy) as K; pose proof (Rle_0_sqr (X d)); unfold Rsqr in *; lra. }
  set (m := dot (minus b a) d / dot d d). assert (Eb : b = mix a c m).
  { assert (Ex : dot d d * (X b - X a) = dot (minus b a) d * X d).
    { change (X b - X a) with (X (minus b a)). set (e := minus b a) in *. transitivity (dot e d * X d + Y d * cross e d); [unfold dot, cross; ring|rewrite Z; ring]. }
    assert (Ey : dot d d * (Y b - Y a) = dot (minus b a) d * Y d).
    { change (Y b - Y a) with (Y (minus b a)). set (e := minus b a) in *. transitivity (dot e d * Y d - X d * cross e d); [unfold dot, cross; ring|rewrite Z; ring]. }
    apply pt_eq; unfold mix; cbn [X Y]; apply (Rmult_eq_reg_l (dot d d)); try lra.
    - transitivity (dot d d * X a + dot (minus b a) d * X d); [lra|]. unfold m. replace (X d) with (X c - X a) by reflexivity. field. lra.
    - transitivity (dot d d * Y a + dot (minus b a) d * Y d); [lra|]. unfold m. replace (Y d) with (Y c - Y a) by reflexivity. field. lra. }
  destruct (Rle_lt_dec r m) as [L|L].
  - destruct (Req_dec m 0) as [Zm|Zm]; [assert (r = 0) by lra; subst r; rewrite mix_0; rewrite <- (mix_0 a b); apply Sab; lra|].
    replace (mix a c r) with (mix a b (r / m)); [apply Sab|].
    + split; [apply Rmult_le_pos; [lra|left; apply Rinv_0_lt_compat; lra]|]. apply (Rmult_le_reg_r m); [lra|]. unfold Rdiv. rewrite Rmult_assoc, Rinv_l by lra. lra.
    + rewrite Eb. apply pt_eq; unfold mix; cbn [X Y]; field; exact Zm.
  - replace (mix a c r) with (mix b c ((r - m) / (1 - m))); [apply Sbc|].
    + split; [apply Rmult_le_pos; [lra|left; apply Rinv_0_lt_compat; lra]|]. apply (Rmult_le_reg_r (1 - m)); [lra|]. unfold Rdiv. rewrite Rmult_assoc, Rinv_l by lra. lra.
    + rewrite Eb. apply pt_eq; unfold mix; cbn [X Y]; field; lra.
Qed.
Lemma least {T : Type} (l : list T) (Q : T -> Prop) (f : T -> R) : (exists a, In a l /\ Q a) -> exists a, In a l /\ Q a /\ forall b, In b l -> Q b -> f a <= f b.
Proof.
  induction l as [|h l IH]; intros (a & I & H); [destruct I|].
  destruct (classic (exists a, In a l /\ Q a)) as [E|E].
  - destruct (IH E) as (m & Im & Hm & Lm). destruct (classic (Q h /\ f h < f m)) as [(Hh & L)|N].
    + exists h. split; [left; reflexivity|]. split; [exact Hh|]. intros b [<-|Ib] Hb; [lra|]. pose proof (Lm b Ib Hb). lra.
    + exists m. split; [right; exact Im|]. split; [exact Hm|]. intros b [<-|Ib] Hb; [|auto]. destruct (Rlt_le_dec (f h) (f m)); [exfalso; auto|assumption].
  - destruct I as [<-|I]; [|exfalso; eauto]. exists h. split; [left; reflexivity|]. split; [exact H|]. intros b [<-|Ib] Hb; [lra|exfalso; eauto].
Qed.
(** a region which holds every segment between its points *)
Variable D : pt -> Prop.
Hypothesis Cv : forall p q s, D p -> D q -> 0 <= s <= 1 -> D (mix p q s).
Lemma blend_mix a b c u v w : u + v + w = 1 -> 0 < v + w -> blend a b c u v w = mix a (mix b c (w / (v + w))) (v + w).
Proof. intros S P. replace u with (1 - (v + w)) by lra. apply pt_eq; unfold blend, mix; cbn [X Y]; field; lra. Qed.
Lemma part_of v w : 0 <= v -> 0 <= w -> 0 < v + w -> 0 <= w / (v + w) <= 1.
Proof.
  intros V W P. split; [apply Rmult_le_pos; [lra|left; apply Rinv_0_lt_compat; lra]|]. apply (Rmult_le_reg_r (v + w)); [lra|]. unfold Rdiv. rewrite Rmult_assoc, Rinv_l by lra. lra.
Qed.
Lemma inside_D a b c z : D a -> D b -> D c -> inside a b c z -> D z.
Proof.
  intros Da Db Dc (u & v & w & U & V & W & S & ->). destruct (Req_dec (v + w) 0) as [Z|Z].
  - replace (blend a b c u v w) with a; [exact Da|]. assert (v = 0) by lra. assert (w = 0) by lra. assert (u = 1) by lra. subst. apply pt_eq; unfold blend; cbn [X Y]; ring.
  - rewrite blend_mix by lra. apply Cv; [exact Da| |lra]. apply Cv; [exact Db|exact Dc|]. apply part_of; lra.
Qed.
(** a bend is replaced by bends at vertices *)
Lemma chain : forall (n : nat) (l0 : list coord) a b c, (length l0 <= n)%nat ->
  (forall w, In w (polygon_vertices ps) -> inside a b c (rp w) -> rp w <> a -> rp w <> c -> In w l0) ->
  sails a b -> sails b c -> D a -> D b -> D c ->
  exists ws, (forall w, In w ws -> In w (polygon_vertices ps) /\ D (rp w)) /\ course a (map rp ws ++ [c]) /\ run a (map rp ws ++ [c]) <= far a b + far b c.
Proof.
  induction n as [|n IH]; intros l0 a b c Len All Sab Sbc Da Db Dc.
  all: assert (Direct : sails a c -> exists ws, (forall w, In w ws -> In w (polygon_vertices ps) /\ D (rp w)) /\ course a (map rp ws ++ [c]) /\ run a (map rp ws ++ [c]) <= far a b + far b c)
    by (intros Sac; exists []; cbn [map app Ways.course run]; split; [intros w []|]; split; [auto|]; rewrite Rplus_0_r; apply far_triangle).
  all: destruct (Req_dec (cross (minus b a) (minus c a)) 0) as [Z|Nt]; [apply Direct, (straight a b c Z Sab Sbc)|].
  all: set (Q := fun w => inside a b c (rp w) /\ rp w <> a /\ rp w <> c).
  all: destruct (classic (exists w, In w (polygon_vertices ps) /\ Q w)) as [Ex|Ex];
    [|apply Direct, (fan a b c Nt); [|exact Sab|exact Sbc]; intros w u v t V U Pv T S E; apply Ex; exists w; split; [exact V|];
      destruct (bary_only a b c Nt u v t S) as (Au & Bv & Ct); rewrite <- E in Au, Bv, Ct; split; [exists u, v, t; repeat split; try lra; exact E|];
      split; intros K; rewrite K in Bv; [destruct (bc_a a b c Nt) as (_ & B0 & _)|destruct (bc_x a b c Nt) as (_ & B0 & _)]; lra].
  { exfalso. destruct Ex as (w & V & (Iw & Na & Nc)). pose proof (All w V Iw Na Nc) as I. destruct l0; [destruct I|cbn [length] in Len; lia]. }
  destruct (least (polygon_vertices ps) Q (fun w => cc a b c (rp w) / (bc a b c (rp w) + cc a b c (rp w))) Ex) as (w & V & (Iw & Na & Nc) & Le).
  pose proof (All w V Iw Na Nc) as I0. pose proof Iw as (al & be & ga & Ua & Ub & Ug & Su & Ew).
  destruct (bary_only a b c Nt al be ga Su) as (Ea & Eb & Eg). rewrite <- Ew in Ea, Eb, Eg.
  assert (Pos : 0 < be + ga).
  { destruct (Req_dec (be + ga) 0) as [Z|Z]; [exfalso|lra]. apply Na. rewrite Ew. replace be with 0 by lra. replace ga with 0 by lra. replace al with 1 by lra. apply pt_eq; unfold blend; cbn [X Y]; ring. }
  set (t := ga / (be + ga)). assert (T : 0 <= t <= 1) by (apply part_of; assumption). set (x := mix b c t).
  assert (Wx : rp w = mix a x (be + ga)) by (rewrite Ew; unfold x, t; apply blend_mix; assumption).
  assert (Tb : t * (be + ga) = ga) by (unfold t; field; lra).
  assert (Sax : sails a x).
  { destruct (Req_dec t 0) as [Z|Zt]; [unfold x; rewrite Z, mix_0; exact Sab|].
    assert (Nx : cross (minus b a) (minus x a) <> 0).
    { replace (cross (minus b a) (minus x a)) with (t * cross (minus b a) (minus c a)) by (unfold x, cross, minus, mix; cbn [X Y]; ring). apply Rmult_integral_contrapositive_currified; assumption. }
    apply (fan a b x Nx); [|exact Sab|].
    - intros w' u v k V' U Pv K S E.
      assert (E' : rp w' = blend a b c u (v + k * (1 - t)) (k * t)) by (rewrite E; unfold x; apply pt_eq; unfold blend, mix; cbn [X Y]; ring).
      assert (B1 : 0 < v + k * (1 - t)) by (assert (0 <= k * (1 - t)) by (apply Rmult_le_pos; lra); lra). assert (B2 : 0 <= k * t) by (apply Rmult_le_pos; lra).
      assert (S' : u + (v + k * (1 - t)) + k * t = 1) by lra.
      destruct (bary_only a b c Nt u (v + k * (1 - t)) (k * t) S') as (E1' & E2' & E3'). rewrite <- E' in E1', E2', E3'.
      assert (Qw : Q w').
      { split; [exists u, (v + k * (1 - t)), (k * t); repeat split; try lra; exact E'|]. split; intros Z; rewrite Z in E2'; [destruct (bc_a a b c Nt) as (_ & B0 & _)|destruct (bc_x a b c Nt) as (_ & B0 & _)]; lra. }
      pose proof (Le w' V' Qw) as L. cbv beta in L. rewrite Eb, Eg, E2', E3' in L. fold t in L.
      replace (v + k * (1 - t) + k * t) with (v + k) in L by ring. assert (L' : t * (v + k) <= k * t).
      { apply (Rmult_le_compat_r (v + k)) in L; [|lra]. unfold Rdiv in L. rewrite Rmult_assoc, Rinv_l in L by lra. lra. }
      assert (0 < t * v) by (apply Rmult_lt_0_compat; lra). lra.
    - unfold x. rewrite <- (mix_0 b c) at 1. apply sails_part; [lra|exact T|exact Sbc]. }
  assert (Saw : sails a (rp w)) by (rewrite Wx; rewrite <- (mix_0 a x) at 1; apply sails_part; [lra|lra|exact Sax]).
  assert (Swx : sails (rp w) x) by (rewrite Wx; pose proof (sails_part a x (be + ga) 1 ltac:(lra) ltac:(lra) Sax) as K; rewrite mix_1 in K; exact K).
  assert (Sxc : sails x c) by (unfold x; pose proof (sails_part b c t 1 T ltac:(lra) Sbc) as K; rewrite mix_1 in K; exact K).
  assert (Dx : D x) by (apply Cv; assumption). assert (Dw : D (rp w)) by (exact (inside_D a b c _ Da Db Dc Iw)).
  destruct (IH (remove coord_dec w l0) (rp w) x c) as (ws & Hw & Co & Ru); try assumption.
  - pose proof (remove_length_lt coord_dec l0 w I0). lia.
  - intros w' V' (u & v & k & U & Hv & Hk & S & E) N1 N2. apply in_in_remove; [intros ->; apply N1; reflexivity|].
    assert (E' : rp w' = blend a b c (u * al) (u * be + v * (1 - t)) (u * ga + v * t + k)).
    { rewrite E, Ew. unfold x. apply pt_eq; unfold blend, mix; cbn [X Y]; ring. }
    assert (S' : u * al + (u * be + v * (1 - t)) + (u * ga + v * t + k) = 1) by (transitivity (u * (al + be + ga) + v + k); [ring|rewrite Su; lra]).
    assert (P1 : 0 <= u * al) by (apply Rmult_le_pos; lra). assert (P2' : 0 <= u * be + v * (1 - t)) by (apply Rplus_le_le_0_compat; apply Rmult_le_pos; lra).
    assert (P3 : 0 <= u * ga + v * t + k) by (apply Rplus_le_le_0_compat; [apply Rplus_le_le_0_compat; apply Rmult_le_pos; lra|lra]).
    apply All; [exact V'|exists (u * al), (u * be + v * (1 - t)), (u * ga + v * t + k); auto| |exact N2].
    intros Z. destruct (bary_only a b c Nt _ _ _ S') as (A1 & _ & _). rewrite <- E', Z in A1. destruct (bc_a a b c Nt) as (A0 & _ & _). assert (u <= 1) by lra. assert (u * al <= 1 * al) by (apply Rmult_le_compat_r; lra). lra.
  - exists (w :: ws). split; [|split].
    + intros w' [<-|I]; [auto|apply Hw, I].
    + cbn [map app Ways.course]. auto.
    + cbn [map app run]. assert (Fx : far a x = far a (rp w) + far (rp w) x) by (rewrite Wx; apply far_mix; lra).
      assert (Fc : far b c = far b x + far x c) by (apply far_mix, T). pose proof (far_triangle a b x). lra.
Qed.
(** every bend *)
Theorem smoothed : forall l a z, course a (l ++ [z]) -> D a -> D z -> (forall p, In p l -> D p) ->
  exists ws, (forall w, In w ws -> In w (polygon_vertices ps) /\ D (rp w)) /\ course a (map rp ws ++ [z]) /\ run a (map rp ws ++ [z]) <= run a (l ++ [z]).
Proof.
  induction l as [|b l IH]; intros a z Co Da Dz Dl; [exists []; split; [intros w []|]; split; [exact Co|cbn [map app run]; lra]|].
  cbn [app Ways.course] in Co. destruct Co as [Sab Co]. destruct (IH b z Co (Dl b (or_introl eq_refl)) Dz (fun p I => Dl p (or_intror I))) as (ws & Hw & Co' & Ru). cbn [app run].
  destruct ws as [|w ws]; cbn [map app Ways.course run] in Co', Ru.
  - destruct Co' as [Sbz _]. destruct (chain (length (polygon_vertices ps)) (polygon_vertices ps) a b z (le_n _) (fun w V _ _ _ => V) Sab Sbz Da (Dl b (or_introl eq_refl)) Dz) as (vs & Hv & Cv' & Rv).
    exists vs. split; [exact Hv|]. split; [exact Cv'|]. lra.
  - destruct Co' as [Sbw Co']. destruct (Hw w (or_introl eq_refl)) as [Vw Dw]. destruct (chain (length (polygon_vertices ps)) (polygon_vertices ps) a b (rp w) (le_n _) (fun w V _ _ _ => V) Sab Sbw Da (Dl b (or_introl eq_refl)) Dw) as (vs & Hv & Cv' & Rv).
    exists (vs ++ w :: ws). split; [|split].
    + intros v I. apply in_app_or in I. destruct I as [I|I]; [apply Hv, I|apply Hw, I].
    + rewrite map_app, <- app_assoc. clear - Cv' Co'. revert a Cv'. induction vs as [|v vs IHv]; intros a Cv'; cbn [map app Ways.course] in *; [tauto|]. destruct Cv' as [S Cv']. auto.
    + assert (K : forall vs a, run a (map rp (vs ++ w :: ws) ++ [z]) = run a (map rp vs ++ [rp w]) + run (rp w) (map rp ws ++ [z])).
      { clear. induction vs as [|v vs IHv]; intros a; cbn [map app run]; [ring|]. rewrite IHv. ring. }
      rewrite K. lra.
Qed.
End Sea.
