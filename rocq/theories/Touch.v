(** Straight lines which meet no edge, or only touch the land.  No code is modelled here. *)
From Coq Require Import ZArith Reals Bool List Lia Lra Psatz Permutation String Classical.
From Flocq Require Import Core BinarySingleNaN.
From Verif Require Import Jordan.
From Verif Require Import PyLayer PyFacts Base F64 Coordinate Segment Polygon PolygonMore Periodicity PeriodicityFacts SegmentFacts Serializer SerializerMore Graph GraphFacts GraphMore Visgraph VisgraphFacts SpecGeom SpecGraph F64Facts CoordinateFacts
  Sweep SweepFacts SweepMaps SweepGen SweepOrder AngleFacts AngleSort SweepGeo SweepSound SweepExact SweepGraph SweepLayers SweepFronts
  ShortestPath DistFacts SearchFacts SearchSpec SearchGraph SearchQuery PathFacts PathMore FreePaths OpenWater SeaLines Coasts CoastExact CoastCheck CoastRun Ways LandWays WayRun.
Import ListNotations.
Local Open Scope Z_scope.

(** ** Vocabulary *)
(** the segment between [a] and [b], its ends included, meets an edge of the map *)
Definition edge_between (ps : list polygon) (a b : coord) : Prop := exists e, polygon_edge ps e /\ meet (rp a) (rp b) (rp (e1 e)) (rp (e2 e)).

Lemma on_line a b s : turn a b s = 0 -> let q := (lon b - lon a) * (lon b - lon a) + (lat b - lat a) * (lat b - lat a) in let t := (lon b - lon a) * (lon s - lon a) + (lat b - lat a) * (lat s - lat a) in
  q * lon s = (q - t) * lon a + t * lon b /\ q * lat s = (q - t) * lat a + t * lat b.
Proof.
  intros H q t. assert (A : q * lon s - ((q - t) * lon a + t * lon b) = - (lat b - lat a) * turn a b s) by (unfold q, t, turn; ring).
  assert (B : q * lat s - ((q - t) * lat a + t * lat b) = (lon b - lon a) * turn a b s) by (unfold q, t, turn; ring). rewrite H in A, B. split; lia.
Qed.
Lemma mix_inj a b s t : a <> b -> mix a b s = mix a b t -> s = t.
Proof.
  intros N E. destruct (Req_dec s t) as [|D]; [assumption|]. exfalso. apply N. pose proof (f_equal X E) as A. pose proof (f_equal Y E) as B. unfold mix in A, B. cbn [X Y] in A, B.
  apply pt_eq; apply (Rmult_eq_reg_l (s - t)); lra.
Qed.
(** a place on the line of an edge but not on it *)
Lemma beyond ps e c : off_edges c ps -> ~ In c (polygon_vertices ps) -> polygon_edge ps e -> In (e1 e) (polygon_vertices ps) -> In (e2 e) (polygon_vertices ps) -> e1 e <> e2 e -> turn (e1 e) (e2 e) c = 0 ->
  exists k, rp c = mix (rp (e1 e)) (rp (e2 e)) k /\ (k < 0 \/ 1 < k)%R.
Proof.
  intros Oe Vc Ee V1 V2 Ne H. destruct (on_line _ _ _ H) as [A B]. set (a := e1 e) in *. set (b := e2 e) in *.
  set (q := (lon b - lon a) * (lon b - lon a) + (lat b - lat a) * (lat b - lat a)) in *. set (t := (lon b - lon a) * (lon c - lon a) + (lat b - lat a) * (lat c - lat a)) in *.
  assert (Q : 0 < q). { assert (lon b - lon a <> 0 \/ lat b - lat a <> 0) as [N|N] by (destruct (Z.eq_dec (lon b - lon a) 0); destruct (Z.eq_dec (lat b - lat a) 0); auto; exfalso; apply Ne, coord_ext; lia); unfold q; pose proof (Z.square_nonneg (lon b - lon a)); pose proof (Z.square_nonneg (lat b - lat a)); nia. }
  assert (Out : t < 0 \/ q < t). { destruct (Z_lt_le_dec t 0); [auto|]. destruct (Z_lt_le_dec q t); [auto|]. exfalso. destruct (Oe e Ee) as [E|E]; [exists q, t; repeat split; try assumption; lia|apply Vc; rewrite <- E; exact V1|apply Vc; rewrite <- E; exact V2]. }
  clearbody q t. apply IZR_lt in Q as Qr. exists (IZR t / IZR q)%R. split.
  - apply (f_equal IZR) in A, B. rewrite plus_IZR, !mult_IZR, minus_IZR in A, B.
    apply pt_eq; unfold mix; cbn [rp X Y]; apply (Rmult_eq_reg_l (IZR q)); try lra; [rewrite A|rewrite B]; field; lra.
  - destruct Out as [O|O]; apply IZR_lt in O; [left|right]; apply (Rmult_lt_reg_l (IZR q)); try assumption; unfold Rdiv; rewrite (Rmult_comm (IZR t)), <- Rmult_assoc, Rinv_r by lra; lra.
Qed.

Section Plane.
Variable ps : list polygon.
Hypotheses (Ng : forall c, In c (polygon_vertices ps) -> ngeo c) (Nd : NoDup (polygon_vertices ps)) (Dr : drawn ps) (Vw : viewed ps).
Variables s d : coord.
Hypotheses (Hs : at_sea ps s) (Hd : at_sea ps d).
(** nothing in between *)
Lemma between_sails : ~ edge_between ps s d -> sails ps (rp s) (rp d).
Proof.
  intros No r R P HP. right. pose proof (sk ps Dr) as Sk. pose proof (proj1 (proj2 Sk P HP)) as N3. destruct (sea_fine ps Ng Dr Vw s Hs) as (_ & Ol & _).
  assert (Mi : forall e, edge_of P e -> ~ meet (rp s) (rp d) (rp (e1 e)) (rp (e2 e))) by (intros e (i & I & ->) M; apply No; eexists; split; [exists P, i; split; [exact HP|split; [exact I|reflexivity]]|exact M]).
  assert (W : wind P s = 0).
  { destruct (Ol P HP) as [I|W]; [|exact W]. exfalso. destruct (In_nth _ _ (mkC 0 0) I) as (i & Li & E). apply (Mi (edge P i)); [apply edge_is, N3|]. exists 0%R, 0%R. split; [lra|]. split; [lra|].
    rewrite !mix_0. unfold edge. cbn [e1]. rewrite Nat.mod_small by exact Li. f_equal. unfold vat. rewrite <- E. apply nth_indep, Li. }
  rewrite <- (r_winding P N3) in W. rewrite <- W. symmetry. apply moving; [apply (r_per P N3 0)|].
  apply r_misses; [exact N3|]. intros e E (x & t & Hx & Ht & M). apply (Mi e E). exists (x * r)%R, t. split; [nra|]. split; [exact Ht|]. rewrite <- M. apply pt_eq; unfold mix; cbn [X Y]; ring.
Qed.
(** a line over the water between two places that are not vertices meets edges only in vertices *)
Lemma sails_touch : ~ In s (polygon_vertices ps) -> ~ In d (polygon_vertices ps) -> sails ps (rp s) (rp d) -> edge_between ps s d ->
  exists v h, In v (polygon_vertices ps) /\ (0 < h < 1)%R /\ rp v = mix (rp s) (rp d) h.
Proof.
  intros Vs Vd Sl (e & Ee & h & t & Hh & Ht & M). pose proof (sk ps Dr) as Sk. destruct (poly_edge ps e Ee) as (P & HP & Eo). destruct (edge_verts P e Eo) as [I1 I2].
  assert (V1 : In (e1 e) (polygon_vertices ps)) by (apply in_polygon_vertices; eauto). assert (V2 : In (e2 e) (polygon_vertices ps)) by (apply in_polygon_vertices; eauto).
  assert (Rp : forall a b, rp a = rp b -> a = b) by (intros a b E; apply coord_ext; apply eq_IZR; [exact (f_equal X E)|exact (f_equal Y E)]).
  assert (In1 : forall v, In v (polygon_vertices ps) -> rp v = mix (rp s) (rp d) h -> (0 < h < 1)%R).
  { intros v Iv E. destruct (Req_dec h 0) as [->|]; [exfalso; rewrite mix_0 in E; apply Vs; rewrite <- (Rp v s E); exact Iv|]. destruct (Req_dec h 1) as [->|]; [exfalso; rewrite mix_1 in E; apply Vd; rewrite <- (Rp v d E); exact Iv|]. lra. }
  destruct (Req_dec t 0) as [->|T0]; [exists (e1 e), h; rewrite mix_0 in M; split; [exact V1|split; [apply (In1 _ V1)|]; symmetry; exact M]|].
  destruct (Req_dec t 1) as [->|T1]; [exists (e2 e), h; rewrite mix_1 in M; split; [exact V2|split; [apply (In1 _ V2)|]; symmetry; exact M]|].
  destruct (coord_eq_dec (e1 e) (e2 e)) as [Ab|Ab].
  { exists (e1 e), h. assert (E : rp (e1 e) = mix (rp s) (rp d) h) by (rewrite M, <- Ab; apply pt_eq; unfold mix; cbn [X Y]; ring). split; [exact V1|]. split; [apply (In1 _ V1 E)|exact E]. }
  assert (Rab : rp (e1 e) <> rp (e2 e)) by (intros E; apply Ab, Rp, E).
  pose proof (sea_fine ps Ng Dr Vw s Hs) as (_ & _ & Os & _). pose proof (sea_fine ps Ng Dr Vw d Hd) as (_ & _ & Od & _).
  pose proof (beyond ps e s Os Vs Ee V1 V2 Ab) as Bs. pose proof (beyond ps e d Od Vd Ee V1 V2 Ab) as Bd.
  set (z := mix (rp (e1 e)) (rp (e2 e)) t) in *. set (D := minus (rp (e2 e)) (rp (e1 e))).
  assert (Ct : forall c, cross D (minus (rp c) z) = IZR (turn (e1 e) (e2 e) c)) by (intros c; rewrite <- cross_turn; unfold D, z, cross, minus, mix; cbn [X Y]; ring).
  assert (H0 : h <> 0%R). { intros ->. rewrite mix_0 in M. destruct Bs as (k & K & O); [apply eq_IZR; rewrite <- Ct, M; unfold cross, minus; cbn [X Y]; ring|]. rewrite M in K. apply mix_inj in K; [lra|exact Rab]. }
  assert (H1 : h <> 1%R). { intros ->. rewrite mix_1 in M. destruct Bd as (k & K & O); [apply eq_IZR; rewrite <- Ct, M; unfold cross, minus; cbn [X Y]; ring|]. rewrite M in K. apply mix_inj in K; [lra|exact Rab]. }
  assert (Sum : ((1 - h) * cross D (minus (rp s) z) + h * cross D (minus (rp d) z) = 0)%R) by (rewrite <- M; unfold cross, minus, mix; cbn [X Y]; ring).
  assert (Ls : ~ (0 < cross D (minus (rp s) z))%R). { intros L. apply (ashore ps Nd Sk P e t z (rp s) HP Eo ltac:(lra) eq_refl L). rewrite <- M. rewrite <- (mix_0 (rp s) (rp d)) at 2. apply sails_part; [lra|lra|exact Sl]. }
  assert (Ld : ~ (0 < cross D (minus (rp d) z))%R). { intros L. apply (ashore ps Nd Sk P e t z (rp d) HP Eo ltac:(lra) eq_refl L). rewrite <- M. rewrite <- (mix_1 (rp s) (rp d)) at 2. apply sails_part; [lra|lra|exact Sl]. }
  assert (Zs : cross D (minus (rp s) z) = 0%R) by nra. rewrite Ct in Zs. destruct (Bs (eq_IZR _ _ Zs)) as (k & K & [O|O]).
  - assert (R : (0 < - k / (t - k) < 1)%R) by (split; [apply Rdiv_lt_0_compat; lra|apply (Rmult_lt_reg_r (t - k)); [lra|]; unfold Rdiv; rewrite Rmult_assoc, Rinv_l by lra; lra]).
    exists (e1 e), (- k / (t - k) * h)%R. split; [exact V1|]. split; [nra|].
    assert (E : rp (e1 e) = mix (rp s) z (- k / (t - k))) by (rewrite K; unfold z; rewrite mix_mix; replace ((1 - - k / (t - k)) * k + - k / (t - k) * t)%R with 0%R by (field; lra); rewrite mix_0; reflexivity).
    rewrite E at 1. rewrite <- M. apply pt_eq; unfold mix; cbn [X Y]; ring.
  - assert (R : (0 < (k - 1) / (k - t) < 1)%R) by (split; [apply Rdiv_lt_0_compat; lra|apply (Rmult_lt_reg_r (k - t)); [lra|]; unfold Rdiv; rewrite Rmult_assoc, Rinv_l by lra; lra]).
    exists (e2 e), ((k - 1) / (k - t) * h)%R. split; [exact V2|]. split; [nra|].
    assert (E : rp (e2 e) = mix (rp s) z ((k - 1) / (k - t))) by (rewrite K; unfold z; rewrite mix_mix; replace ((1 - (k - 1) / (k - t)) * k + (k - 1) / (k - t) * t)%R with 1%R by (field; lra); rewrite mix_1; reflexivity).
    rewrite E at 1. rewrite <- M. apply pt_eq; unfold mix; cbn [X Y]; ring.
Qed.
(** then there is a route by way of the vertex, and it is no longer *)
Lemma touch_route : ~ In s (polygon_vertices ps) -> ~ In d (polygon_vertices ps) -> sails ps (rp s) (rp d) -> edge_between ps s d ->
  exists v, sailed ps s d s [v; d] d (apart s v + (apart v d + 0))%R /\ (apart s v + (apart v d + 0) = apart s d)%R.
Proof.
  intros Vs Vd Sl Eb. destruct (sails_touch Vs Vd Sl Eb) as (v & h & Iv & Hh & E). exists v.
  assert (Nsv : s <> v) by (intros ->; auto). assert (Nvd : v <> d) by (intros <-; auto).
  assert (S1 : sails ps (rp s) (rp v)) by (rewrite E; rewrite <- (mix_0 (rp s) (rp d)) at 1; apply sails_part; [lra|lra|exact Sl]).
  assert (S2 : sails ps (rp d) (rp v)) by (rewrite E; rewrite <- (mix_1 (rp s) (rp d)) at 1; apply sails_part; [lra|lra|exact Sl]).
  assert (O1 : open_line ps s v) by (apply (sails_open ps Ng Nd Dr); try assumption; apply (sea_fine ps Ng Dr Vw), Hs).
  assert (O2 : open_line ps v d). { assert (O : open_line ps d v) by (apply (sails_open ps Ng Nd Dr); try assumption; [apply (sea_fine ps Ng Dr Vw), Hd|auto]). intros j. apply open_here_flip, O. }
  split.
  - apply sailed_straight; auto. apply sailed_straight; auto. apply sailed_end.
  - rewrite Rplus_0_r, <- !far_apart, E. symmetry. apply Ways.far_mix. lra.
Qed.
End Plane.
(** a line which is not direct meets an edge *)
Lemma not_direct_meets ps s d : (forall c, In c (polygon_vertices ps) -> ngeo c) -> drawn ps -> viewed ps -> at_sea ps s -> not_direct ps s d -> edge_between ps s d.
Proof.
  intros Ng Dr Vw Hs H. assert (V : forall v h, In v (polygon_vertices ps) -> (0 <= h <= 1)%R -> rp v = mix (rp s) (rp d) h -> edge_between ps s d).
  { intros v h I R E. apply in_polygon_vertices in I. destruct I as (P & HP & I). destruct (In_nth _ _ (mkC 0 0) I) as (i & Li & Ei). pose proof (proj1 (proj2 (sk ps Dr) P HP)) as N3.
    exists (edge P i). split; [exists P, i; split; [exact HP|split; [exact Li|unfold edge; rewrite Nat.mod_small by exact Li; reflexivity]]|]. exists h, 0%R. split; [exact R|]. split; [lra|].
    rewrite mix_0, <- E. unfold edge. cbn [e1]. rewrite Nat.mod_small by exact Li. f_equal. unfold vat. rewrite <- Ei. apply nth_indep, Li. }
  destruct H as [H|[H|H]].
  - apply (V s 0%R H); [lra|]. rewrite mix_0. reflexivity.
  - apply (V d 1%R H); [lra|]. rewrite mix_1. reflexivity.
  - apply NNPP. intros N. apply H. apply between_sails; assumption.
Qed.

Lemma run_straight z : forall l a, (far a z <= run a (l ++ [z]))%R.
Proof.
  induction l as [|b l IH]; intros a; cbn [app run]; [lra|]. specialize (IH b). pose proof (far_triangle a b z). lra.
Qed.
(** a way is no shorter than some route, even if the straight line touches land *)
Section Touching.
Variables (atan2 : Z -> Z -> f64) (ords' : coord -> orders) (ps : list polygon) (g : graph) (en : env) (source destination ns nd : coord).
Hypotheses (T : accurate_atan2 atan2) (Tg : true_graph ps g) (Dr : drawn ps) (Vw : viewed ps) (Cq : coast_query atan2 ords' ps g en source destination ns nd) (Eb : edge_between ps ns nd).
Lemma touch_or_way radius rho l : reaches radius rho -> a_way ps rho ns nd l ->
  exists l' r', sailed ps ns nd ns l' nd r' /\ (r' <= run (rp ns) (l ++ [rp nd]))%R /\ Forall (within ns radius) l' /\ (List.length (ns :: l') <= List.length (polygon_vertices ps) + 2)%nat.
Proof.
  intros Re Wa. destruct (classic (not_direct ps ns nd)) as [Bl|Nb]; [exact (way_route atan2 ords' ps g en source destination ns nd Tg Dr Vw Cq Bl radius rho l Re Wa)|].
  unfold not_direct in Nb. assert (Sl : sails ps (rp ns) (rp nd)) by (apply NNPP; tauto). pose proof Cq as (_ & Ss & Sd).
  destruct (touch_route ps (wq_ngeo ps g Tg) (proj1 (proj2 Tg)) Dr Vw ns nd Ss Sd ltac:(tauto) ltac:(tauto) Sl Eb) as (v & Sa & E). exists [v; nd], (apart ns v + (apart v nd + 0))%R.
  assert (Iv : In v (polygon_vertices ps)) by (destruct (sailed_members ps ns nd _ _ _ _ Sa v (or_introl eq_refl)) as [I|[-> | ->]]; [exact I|inversion Sa; subst; congruence|inversion Sa as [|? ? ? ? ? _ _ _ _ X|]; subst; tauto]).
  assert (Bd : (apart ns nd <= rho)%R) by (rewrite <- far_apart; apply (proj2 Wa), in_or_app; right; left; reflexivity). pose proof (apart_pos v nd) as Pv.
  split; [exact Sa|]. split; [rewrite E, <- far_apart; apply run_straight|]. split.
  - apply Forall_cons; [|apply Forall_cons; [|apply Forall_nil]]; apply (reaches_within radius rho); try assumption; try apply Ss; try apply Sd; [apply (wq_ngeo ps g Tg), Iv|lra].
  - destruct (polygon_vertices ps) as [|x m]; [destruct Iv|]. cbn [List.length]. lia.
Qed.
Theorem best_touch radius rho flag fuel path w : reaches radius rho -> Z.of_nat (List.length (polygon_vertices ps)) <= 999998 ->
  shortest_path fuel en g source destination radius flag = Some (Ok path) -> minimal w (en_pick en) -> is_finite w = true -> (Rabs (V w) <= bpow radix2 900)%R ->
  exists l r, path = ns :: l /\ sailed ps ns nd ns l nd r /\
    forall l', a_way ps rho ns nd l' -> (r <= Rmax 1 (V w) * run (rp ns) (l' ++ [rp nd]) * (1 + / 2000000000))%R.
Proof.
  intros Re Sz E Mn Fw Bw. pose proof (path_size atan2 ords' ps g en source destination ns nd T Tg Dr Cq radius flag fuel path E) as Sp.
  destruct (best_route atan2 ords' ps g en source destination ns nd T Tg Dr Cq radius flag fuel path w E ltac:(lia) Mn Fw Bw) as (l & r & Ep & Sa & O). exists l, r. split; [exact Ep|]. split; [exact Sa|].
  intros l' Wa. destruct (touch_or_way radius rho l' Re Wa) as (l1 & r1 & S1 & L1 & W1 & N1). cbn [List.length] in N1. pose proof (O l1 r1 S1 W1 ltac:(lia)) as K.
  eapply Rle_trans; [exact K|]. apply Rmult_le_compat_r; [lra|]. apply Rmult_le_compat_l; [pose proof (Rmax_l 1 (V w)); lra|exact L1].
Qed.
Theorem no_touch radius rho flag fuel : reaches radius rho -> shortest_path fuel en g source destination radius flag = Some (Throw NoPath) -> ~ exists l, a_way ps rho ns nd l.
Proof.
  intros Re E (l & Wa). destruct (touch_or_way radius rho l Re Wa) as (l1 & r1 & S1 & L1 & W1 & _). apply (no_route atan2 ords' ps g en source destination ns nd T Tg Dr Cq radius flag fuel E). exists l1, r1. auto.
Qed.
Theorem touch_found radius rho flag : reaches radius rho -> (exists l, a_way ps rho ns nd l) -> exists n, forall fuel, (n <= fuel)%nat -> exists path, shortest_path fuel en g source destination radius flag = Some (Ok path).
Proof.
  intros Re (l & Wa). destruct (route_found atan2 ords' ps g en source destination ns nd T Tg Dr Cq radius flag) as (n & H). exists n. intros fuel Le. apply (proj1 (H fuel Le)).
  destruct (touch_or_way radius rho l Re Wa) as (l1 & r1 & S1 & L1 & W1 & _). exists l1, r1. auto.
Qed.
End Touching.
