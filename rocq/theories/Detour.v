(** Paths by way of a third place.  No code is modelled here. *)
From Verif Require Import Jordan.
From Coq Require Import ZArith Reals Bool List Lia Lra Psatz Permutation.
From Flocq Require Import Core BinarySingleNaN.
From Verif Require Import Base F64 Coordinate Segment Polygon PolygonMore Periodicity Graph GraphFacts GraphMore Visgraph VisgraphFacts SpecGeom SpecGraph F64Facts CoordinateFacts
  Sweep SweepFacts SweepMaps SweepGen SweepOrder AngleFacts AngleSort SweepGeo SweepSound SweepExact SweepGraph SweepLayers SweepFronts
  ShortestPath DistFacts SearchFacts SearchSpec SearchGraph SearchQuery PathFacts PathMore FreePaths OpenWater SeaLines Coasts CoastExact CoastRun Ways LandWays WayRun Touch Around Stretch.
Import ListNotations.
Local Open Scope Z_scope.

(** no search radius *)
Notation unlimited := (B754_infinity false : f64).
Lemma unlimited_within s v : ngeo s -> ngeo v -> within s unlimited v.
Proof. intros Gs Gv. apply (reaches_within _ (apart s v)); [left; reflexivity|exact Gs|exact Gv|lra]. Qed.
Lemma some_bound (a : pt) : forall l, exists rho, forall p, In p l -> (far a p <= rho)%R.
Proof.
  induction l as [|x l (rho & H)]; [exists 0%R; intros p []|]. exists (Rmax (far a x) rho). intros p [<-|I]; [apply Rmax_l|]. apply Rle_trans with rho; [apply H, I|apply Rmax_r].
Qed.
Lemma sailed_last ps s d : forall l u t r, sailed ps s d u l t r -> l <> [] -> exists m, l = m ++ [t].
Proof.
  intros l u t r J. induction J as [u|u v l t r O Ne A B C H IH|u v k l t r K O No Ne A B H IH]; intros Nl; [congruence| |];
    (destruct l as [|x l]; [inversion H; subst; exists []; reflexivity|]; destruct IH as (m & E); [discriminate|]; exists (v :: m); rewrite E; reflexivity).
Qed.

(** the path of a query is a route *)
Section One.
Variables (atan2 : Z -> Z -> f64) (ords' : coord -> orders) (ps : list polygon) (g : graph) (en : env) (source destination ns nd : coord).
Hypotheses (T : accurate_atan2 atan2) (Tg : true_graph ps g) (Dr : drawn ps) (Cq : coast_query atan2 ords' ps g en source destination ns nd).
Lemma path_route radius flag fuel path : shortest_path fuel en g source destination radius flag = Some (Ok path) -> exists l r, path = ns :: l /\ sailed ps ns nd ns l nd r /\ (List.length l <= List.length (polygon_vertices ps) + 1)%nat.
Proof.
  intros E. pose proof Cq as (Sq & _). pose proof (true_complete ps g Tg) as Co. pose proof (sea_fit _ _ _ _ _ _ _ _ _ Co Sq) as Fit. pose proof Sq as (_ & _ & _ & _ & Ms & Md & _).
  destruct (query_path en g source destination radius flag Fit Ms Md fuel path E) as (lc & Cor & [(Ns & _)|(_ & l & r & Ep & Du & J)]).
  - exfalso. apply Ns. rewrite (correction_unique _ _ _ _ _ Cor (sea_correction _ _ _ _ _ _ _ _ Sq)). exact (sea_searched _ _ _ _ _ _ _ _ Sq).
  - rewrite (correction_unique _ _ _ _ _ Cor (sea_correction _ _ _ _ _ _ _ _ Sq)) in Ep, J. cbn [lc_source lc_dest] in Ep, J. pose proof (proj1 (cq_journey atan2 ords' ps g en source destination ns nd T Tg Dr Cq _ _ _ _) J) as Sa.
    exists l, r. split; [exact Ep|]. split; [exact Sa|]. pose proof (path_size atan2 ords' ps g en source destination ns nd T Tg Dr Cq radius flag fuel path E) as Sp. rewrite Ep in Sp. cbn [List.length] in Sp. lia.
Qed.
End One.

Section Three.
Variables (atan2 : Z -> Z -> f64) (o o1 o2 : coord -> orders) (ps : list polygon) (g : graph) (en en1 en2 : env) (sa sa1 sb sb2 sc sc2 a b c : coord).
Hypotheses (T : accurate_atan2 atan2) (Tg : true_graph ps g) (Dr : drawn ps) (Vw : viewed ps).
Hypotheses (Cq : coast_query atan2 o ps g en sa sc a c) (Cq1 : coast_query atan2 o1 ps g en1 sa1 sb a b) (Cq2 : coast_query atan2 o2 ps g en2 sb2 sc2 b c).
Variables (radius1 radius2 : f64) (flag flag1 flag2 : bool) (fuel1 fuel2 : nat) (path1 path2 : list coord).
Hypotheses (E1 : shortest_path fuel1 en1 g sa1 sb radius1 flag1 = Some (Ok path1)) (E2 : shortest_path fuel2 en2 g sb2 sc2 radius2 flag2 = Some (Ok path2)).

Section Vertex.
Hypothesis Vb : In b (polygon_vertices ps).
Lemma joined_route : exists l1 r1 l2 r2, path1 = a :: l1 /\ sailed ps a b a l1 b r1 /\ path2 = b :: l2 /\ sailed ps b c b l2 c r2 /\
  sailed ps a c a (l1 ++ l2) c (r1 + r2) /\ Forall (within a unlimited) (l1 ++ l2) /\ (List.length (l1 ++ l2) <= 2 * (List.length (polygon_vertices ps) + 1))%nat.
Proof.
  destruct (path_route atan2 o1 ps g en1 sa1 sb a b T Tg Dr Cq1 radius1 flag1 fuel1 path1 E1) as (l1 & r1 & P1 & S1 & N1).
  destruct (path_route atan2 o2 ps g en2 sb2 sc2 b c T Tg Dr Cq2 radius2 flag2 fuel2 path2 E2) as (l2 & r2 & P2 & S2 & N2).
  assert (S : sailed ps a c a (l1 ++ l2) c (r1 + r2)).
  { apply (sailed_app ps a c l1 a b r1 l2 c r2); [apply (sailed_ends ps a b a c); auto|apply (sailed_ends ps b c a c); auto]. }
  exists l1, r1, l2, r2. do 5 (split; [assumption|]). split; [|rewrite app_length; lia].
  pose proof Cq as (_ & Ca & Cc). apply Forall_forall. intros v Iv. apply unlimited_within; [apply Ca|].
  destruct (sailed_places _ _ _ _ _ _ _ S v Iv) as [I|[ -> | -> ]]; [|apply Ca|apply Cc]. apply (wq_ngeo ps g Tg), I.
Qed.
Theorem detour fuel path w : shortest_path fuel en g sa sc unlimited flag = Some (Ok path) -> Z.of_nat (List.length (polygon_vertices ps)) <= 499999 ->
  minimal w (en_pick en) -> is_finite w = true -> (Rabs (V w) <= bpow radix2 900)%R ->
  exists l r l1 r1 l2 r2, path = a :: l /\ sailed ps a c a l c r /\ path1 = a :: l1 /\ sailed ps a b a l1 b r1 /\ path2 = b :: l2 /\ sailed ps b c b l2 c r2 /\
    (r <= Rmax 1 (V w) * (r1 + r2) * (1 + / 2000000000))%R.
Proof.
  intros E Sz Mn Fw Bw. destruct joined_route as (l1 & r1 & l2 & r2 & P1 & S1 & P2 & S2 & S & Wi & Ln). pose proof (path_size atan2 o ps g en sa sc a c T Tg Dr Cq unlimited flag fuel path E) as Sp.
  destruct (best_route atan2 o ps g en sa sc a c T Tg Dr Cq unlimited flag fuel path w E ltac:(lia) Mn Fw Bw) as (l & r & P & Sa & O).
  exists l, r, l1, r1, l2, r2. do 6 (split; [assumption|]). apply (O (l1 ++ l2)); [exact S|exact Wi|lia].
Qed.
Theorem detour_found : exists n, forall fuel, (n <= fuel)%nat -> exists path, shortest_path fuel en g sa sc unlimited flag = Some (Ok path).
Proof.
  destruct joined_route as (l1 & r1 & l2 & r2 & P1 & S1 & P2 & S2 & S & Wi & Ln). destruct (route_found atan2 o ps g en sa sc a c T Tg Dr Cq unlimited flag) as (n & H).
  exists n. intros fuel L. apply (proj1 (H fuel L)). exists (l1 ++ l2), (r1 + r2)%R. split; [exact S|exact Wi].
Qed.
End Vertex.

(** the third place anywhere on the water *)
Section Water.
Hypotheses (Bl : edge_between ps a c) (Ab : a <> b) (Bc : b <> c).
Hypotheses (D1 : forall u v m m', path1 = m ++ u :: v :: m' -> open_line ps u v) (D2 : forall u v m m', path2 = m ++ u :: v :: m' -> open_line ps u v).
Lemma joined_way : exists l1 r1 l2 r2 rho l', path1 = a :: l1 /\ sailed ps a b a l1 b r1 /\ path2 = b :: l2 /\ sailed ps b c b l2 c r2 /\
  a_way ps rho a c l' /\ run (rp a) (l' ++ [rp c]) = (r1 + r2)%R.
Proof.
  destruct (path_route atan2 o1 ps g en1 sa1 sb a b T Tg Dr Cq1 radius1 flag1 fuel1 path1 E1) as (l1 & r1 & P1 & S1 & _).
  destruct (path_route atan2 o2 ps g en2 sb2 sc2 b c T Tg Dr Cq2 radius2 flag2 fuel2 path2 E2) as (l2 & r2 & P2 & S2 & _).
  destruct (route_way atan2 o1 ps g en1 sa1 sb a b Tg Dr Vw Cq1 l1 b r1 S1) as [C1 R1]; [intros u v m m' X; apply (D1 u v m m'); rewrite P1; exact X|].
  destruct (route_way atan2 o2 ps g en2 sb2 sc2 b c Tg Dr Vw Cq2 l2 c r2 S2) as [C2 R2]; [intros u v m m' X; apply (D2 u v m m'); rewrite P2; exact X|].
  destruct (sailed_last _ _ _ _ _ _ _ S1) as (m1 & M1); [intros ->; inversion S1; congruence|]. destruct (sailed_last _ _ _ _ _ _ _ S2) as (m2 & M2); [intros ->; inversion S2; congruence|].
  rewrite M1, map_app in C1, R1. rewrite M2, map_app in C2, R2. cbn [map] in C1, R1, C2, R2.
  destruct (some_bound (rp a) ((map rp m1 ++ rp b :: map rp m2) ++ [rp c])) as (rho & Hb).
  exists l1, r1, l2, r2, rho, (map rp m1 ++ rp b :: map rp m2). do 4 (split; [assumption|]). split; [split; [|exact Hb]|]; rewrite <- app_assoc; cbn [app].
  - apply course_app. split; assumption.
  - rewrite run_app. lra.
Qed.
Theorem detour_water fuel path w : shortest_path fuel en g sa sc unlimited flag = Some (Ok path) -> Z.of_nat (List.length (polygon_vertices ps)) <= 999998 ->
  minimal w (en_pick en) -> is_finite w = true -> (Rabs (V w) <= bpow radix2 900)%R ->
  exists l r l1 r1 l2 r2, path = a :: l /\ sailed ps a c a l c r /\ path1 = a :: l1 /\ sailed ps a b a l1 b r1 /\ path2 = b :: l2 /\ sailed ps b c b l2 c r2 /\
    (r <= Rmax 1 (V w) * (r1 + r2) * (1 + / 2000000000))%R.
Proof.
  intros E Sz Mn Fw Bw. destruct joined_way as (l1 & r1 & l2 & r2 & rho & l' & P1 & S1 & P2 & S2 & Wa & Rr).
  destruct (best_touch atan2 o ps g en sa sc a c T Tg Dr Vw Cq Bl unlimited rho flag fuel path w (or_introl eq_refl) Sz E Mn Fw Bw) as (l & r & P & Sa & O).
  exists l, r, l1, r1, l2, r2. do 6 (split; [assumption|]). rewrite <- Rr. apply O, Wa.
Qed.
Theorem detour_water_found : exists n, forall fuel, (n <= fuel)%nat -> exists path, shortest_path fuel en g sa sc unlimited flag = Some (Ok path).
Proof.
  destruct joined_way as (l1 & r1 & l2 & r2 & rho & l' & P1 & S1 & P2 & S2 & Wa & _).
  exact (touch_found atan2 o ps g en sa sc a c T Tg Dr Vw Cq Bl unlimited rho flag (or_introl eq_refl) (ex_intro _ l' Wa)).
Qed.
End Water.
End Three.

(** an endpoint moved over open water *)
Section Shift.
Variables (atan2 : Z -> Z -> f64) (o o2 : coord -> orders) (ps : list polygon) (g : graph) (en en2 : env) (sa sb sc sc2 a b c : coord).
Hypotheses (T : accurate_atan2 atan2) (Tg : true_graph ps g) (Dr : drawn ps) (Vw : viewed ps).
Hypotheses (Cq : coast_query atan2 o ps g en sa sc a c) (Cq2 : coast_query atan2 o2 ps g en2 sb sc2 b c).
Variables (radius2 : f64) (flag flag2 : bool) (fuel2 : nat) (path2 : list coord).
Hypotheses (E2 : shortest_path fuel2 en2 g sb sc2 radius2 flag2 = Some (Ok path2)).
Hypotheses (Bl : edge_between ps a c) (Sl : sails ps (rp a) (rp b)) (Bc : b <> c).
Hypotheses (D2 : forall u v m m', path2 = m ++ u :: v :: m' -> open_line ps u v).
Lemma shifted_way : exists l2 r2 rho l', path2 = b :: l2 /\ sailed ps b c b l2 c r2 /\ a_way ps rho a c l' /\ run (rp a) (l' ++ [rp c]) = (apart a b + r2)%R.
Proof.
  destruct (path_route atan2 o2 ps g en2 sb sc2 b c T Tg Dr Cq2 radius2 flag2 fuel2 path2 E2) as (l2 & r2 & P2 & S2 & _).
  destruct (route_way atan2 o2 ps g en2 sb sc2 b c Tg Dr Vw Cq2 l2 c r2 S2) as [C2 R2]; [intros u v m m' X; apply (D2 u v m m'); rewrite P2; exact X|].
  destruct (sailed_last _ _ _ _ _ _ _ S2) as (m2 & M2); [intros ->; inversion S2; congruence|]. rewrite M2, map_app in C2, R2. cbn [map] in C2, R2.
  destruct (some_bound (rp a) ((rp b :: map rp m2) ++ [rp c])) as (rho & Hb).
  exists l2, r2, rho, (rp b :: map rp m2). do 2 (split; [assumption|]). split; [split; [split; assumption|exact Hb]|]. cbn [app run]. rewrite far_apart. lra.
Qed.
Theorem shifted fuel path w : shortest_path fuel en g sa sc unlimited flag = Some (Ok path) -> Z.of_nat (List.length (polygon_vertices ps)) <= 999998 ->
  minimal w (en_pick en) -> is_finite w = true -> (Rabs (V w) <= bpow radix2 900)%R ->
  exists l r l2 r2, path = a :: l /\ sailed ps a c a l c r /\ path2 = b :: l2 /\ sailed ps b c b l2 c r2 /\
    (r <= Rmax 1 (V w) * (apart a b + r2) * (1 + / 2000000000))%R.
Proof.
  intros E Sz Mn Fw Bw. destruct shifted_way as (l2 & r2 & rho & l' & P2 & S2 & Wa & Rr).
  destruct (best_touch atan2 o ps g en sa sc a c T Tg Dr Vw Cq Bl unlimited rho flag fuel path w (or_introl eq_refl) Sz E Mn Fw Bw) as (l & r & P & Sa & O).
  exists l, r, l2, r2. do 4 (split; [assumption|]). rewrite <- Rr. apply O, Wa.
Qed.
Theorem shifted_found : exists n, forall fuel, (n <= fuel)%nat -> exists path, shortest_path fuel en g sa sc unlimited flag = Some (Ok path).
Proof.
  destruct shifted_way as (l2 & r2 & rho & l' & P2 & S2 & Wa & _).
  exact (touch_found atan2 o ps g en sa sc a c T Tg Dr Vw Cq Bl unlimited rho flag (or_introl eq_refl) (ex_intro _ l' Wa)).
Qed.
End Shift.

(** the other end *)
Section ShiftEnd.
Variables (atan2 : Z -> Z -> f64) (o o1 : coord -> orders) (ps : list polygon) (g : graph) (en en1 : env) (sa sa1 sb sc a b c : coord).
Hypotheses (T : accurate_atan2 atan2) (Tg : true_graph ps g) (Dr : drawn ps) (Vw : viewed ps).
Hypotheses (Cq : coast_query atan2 o ps g en sa sc a c) (Cq1 : coast_query atan2 o1 ps g en1 sa1 sb a b).
Variables (radius1 : f64) (flag flag1 : bool) (fuel1 : nat) (path1 : list coord).
Hypotheses (E1 : shortest_path fuel1 en1 g sa1 sb radius1 flag1 = Some (Ok path1)).
Hypotheses (Bl : edge_between ps a c) (Sl : sails ps (rp b) (rp c)) (Ab : a <> b).
Hypotheses (D1 : forall u v m m', path1 = m ++ u :: v :: m' -> open_line ps u v).
Lemma shifted_end_way : exists l1 r1 rho l', path1 = a :: l1 /\ sailed ps a b a l1 b r1 /\ a_way ps rho a c l' /\ run (rp a) (l' ++ [rp c]) = (r1 + apart b c)%R.
Proof.
  destruct (path_route atan2 o1 ps g en1 sa1 sb a b T Tg Dr Cq1 radius1 flag1 fuel1 path1 E1) as (l1 & r1 & P1 & S1 & _).
  destruct (route_way atan2 o1 ps g en1 sa1 sb a b Tg Dr Vw Cq1 l1 b r1 S1) as [C1 R1]; [intros u v m m' X; apply (D1 u v m m'); rewrite P1; exact X|].
  destruct (sailed_last _ _ _ _ _ _ _ S1) as (m1 & M1); [intros ->; inversion S1; congruence|]. rewrite M1, map_app in C1, R1. cbn [map] in C1, R1.
  destruct (some_bound (rp a) ((map rp m1 ++ [rp b]) ++ [rp c])) as (rho & Hb).
  exists l1, r1, rho, (map rp m1 ++ [rp b]). do 2 (split; [assumption|]). split; [split; [|exact Hb]|]; rewrite <- app_assoc; cbn [app].
  - apply course_app. split; [exact C1|split; [exact Sl|exact I]].
  - rewrite run_app. cbn [run]. rewrite far_apart. lra.
Qed.
Theorem shifted_end fuel path w : shortest_path fuel en g sa sc unlimited flag = Some (Ok path) -> Z.of_nat (List.length (polygon_vertices ps)) <= 999998 ->
  minimal w (en_pick en) -> is_finite w = true -> (Rabs (V w) <= bpow radix2 900)%R ->
  exists l r l1 r1, path = a :: l /\ sailed ps a c a l c r /\ path1 = a :: l1 /\ sailed ps a b a l1 b r1 /\
    (r <= Rmax 1 (V w) * (r1 + apart b c) * (1 + / 2000000000))%R.
Proof.
  intros E Sz Mn Fw Bw. destruct shifted_end_way as (l1 & r1 & rho & l' & P1 & S1 & Wa & Rr).
  destruct (best_touch atan2 o ps g en sa sc a c T Tg Dr Vw Cq Bl unlimited rho flag fuel path w (or_introl eq_refl) Sz E Mn Fw Bw) as (l & r & P & Sa & O).
  exists l, r, l1, r1. do 4 (split; [assumption|]). rewrite <- Rr. apply O, Wa.
Qed.
Theorem shifted_end_found : exists n, forall fuel, (n <= fuel)%nat -> exists path, shortest_path fuel en g sa sc unlimited flag = Some (Ok path).
Proof.
  destruct shifted_end_way as (l1 & r1 & rho & l' & P1 & S1 & Wa & _).
  exact (touch_found atan2 o ps g en sa sc a c T Tg Dr Vw Cq Bl unlimited rho flag (or_introl eq_refl) (ex_intro _ l' Wa)).
Qed.
End ShiftEnd.
