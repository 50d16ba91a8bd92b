(** Maps with more land: fewer edges and longer paths.  No code is modelled here. *)
From Verif Require Import Jordan.
From Coq Require Import ZArith Reals Bool List Lia Lra Psatz Permutation.
From Flocq Require Import Core BinarySingleNaN.
From Verif Require Import Base F64 Coordinate Segment Polygon PolygonMore Periodicity Graph GraphFacts GraphMore Visgraph VisgraphFacts SpecGeom SpecGraph F64Facts CoordinateFacts
  Sweep SweepFacts SweepMaps SweepGen SweepOrder AngleFacts AngleSort SweepGeo SweepSound SweepExact SweepGraph SweepLayers SweepFronts
  ShortestPath DistFacts SearchFacts SearchSpec SearchGraph SearchQuery PathFacts PathMore FreePaths OpenWater SeaLines Coasts CoastExact CoastRun Ways LandWays WayRun Touch Around Stretch Detour.
Import ListNotations.
Local Open Scope Z_scope.

(** ** Vocabulary *)
(** wherever there is water around [qs] there is water around [ps] *)
Definition less_land (ps qs : list polygon) : Prop := forall z, afloat qs z -> afloat ps z.

Lemma less_incl ps qs : incl ps qs -> less_land ps qs.
Proof. intros I z H P HP. apply H, I, HP. Qed.
Lemma less_course ps qs : less_land ps qs -> forall l a, course qs a l -> course ps a l.
Proof. intros Le. induction l as [|b l IH]; intros a C; [exact I|]. destruct C as [S C]. split; [intros r R; apply Le, S, R|apply IH, C]. Qed.
Lemma open_here_incl ps qs a b : incl ps qs -> open_here qs a b -> open_here ps a b.
Proof.
  intros Le (H1 & H2 & H3). assert (C : forall p o n, corner_of ps p o n -> corner_of qs p o n) by (intros p o n (P & i & HP & H); exists P, i; split; [apply Le, HP|exact H]).
  split; [|split]; [|intros p n Co; apply H2, C, Co|intros p n Co; apply H3, C, Co].
  intros e q t u (P & i & HP & E). apply (H1 e q t u). exists P, i. split; [apply Le, HP|exact E].
Qed.
Lemma open_incl ps qs a b : incl ps qs -> open_line qs a b -> open_line ps a b.
Proof. intros Le O j. apply (open_here_incl ps qs); [exact Le|apply O]. Qed.

(** an edge of the map with more land is an edge without it, and one that is not around the world stays so *)
Theorem edges_incl ps qs g h : true_graph ps g -> true_graph qs h -> incl ps qs ->
  forall a b f, In a (polygon_vertices ps) -> In b (polygon_vertices ps) -> answer h a b = Some f -> exists f', answer g a b = Some f' /\ (f = false -> f' = false).
Proof.
  intros (_ & _ & _ & _ & G) (_ & _ & _ & _ & H) Le a b f Ia Ib E. apply H in E. destruct E as (_ & _ & D & Lk).
  assert (G' : forall x, linked_by ps a b x -> answer g a b = Some x) by (intros x Lx; apply G; repeat (split; [assumption|]); exact Lx).
  destruct (answer g a b) as [x|] eqn:E.
  - exists x. split; [reflexivity|]. intros ->. cbn [linked_by] in Lk. specialize (G' false). apply (open_incl ps qs _ _ Le) in Lk. specialize (G' Lk). congruence.
  - exfalso. assert (No : ~ open_line ps a b) by (intros O; discriminate (G' false O)). destruct f; cbn [linked_by] in Lk; [|apply No, (open_incl ps qs); assumption].
    destruct Lk as (_ & k & K & O). discriminate (G' true (conj No (ex_intro _ k (conj K (open_incl ps qs _ _ Le O))))).
Qed.

Section Two.
Variables (atan2 : Z -> Z -> f64) (o o' : coord -> orders) (ps qs : list polygon) (g h : graph) (en en' : env) (sa sc sa' sc' a c : coord).
Hypotheses (T : accurate_atan2 atan2) (Tg : true_graph ps g) (Dr : drawn ps) (Vw : viewed ps) (Tg' : true_graph qs h) (Dr' : drawn qs) (Vw' : viewed qs).
Hypotheses (Cq : coast_query atan2 o ps g en sa sc a c) (Cq' : coast_query atan2 o' qs h en' sa' sc' a c).
Hypotheses (Le : less_land ps qs) (Bl : edge_between ps a c) (Ac : a <> c).
Variables (radius' : f64) (flag flag' : bool) (fuel' : nat) (path' : list coord).
Hypotheses (E' : shortest_path fuel' en' h sa' sc' radius' flag' = Some (Ok path')) (D' : forall u v m m', path' = m ++ u :: v :: m' -> open_line qs u v).
Lemma less_way : exists l' r' rho k, path' = a :: l' /\ sailed qs a c a l' c r' /\ a_way ps rho a c k /\ run (rp a) (k ++ [rp c]) = r'.
Proof.
  destruct (path_route atan2 o' qs h en' sa' sc' a c T Tg' Dr' Cq' radius' flag' fuel' path' E') as (l & r & P & S & _).
  destruct (route_way atan2 o' qs h en' sa' sc' a c Tg' Dr' Vw' Cq' l c r S) as [C R]; [intros u v m m' X; apply (D' u v m m'); rewrite P; exact X|].
  destruct (sailed_last _ _ _ _ _ _ _ S) as (m & M); [intros ->; inversion S; congruence|]. rewrite M, map_app in C, R. cbn [map] in C, R.
  destruct (some_bound (rp a) (map rp m ++ [rp c])) as (rho & Hb).
  exists l, r, rho, (map rp m). do 2 (split; [assumption|]). split; [split; [apply (less_course ps qs Le), C|exact Hb]|symmetry; exact R].
Qed.
Theorem less_shorter fuel path w : shortest_path fuel en g sa sc unlimited flag = Some (Ok path) -> Z.of_nat (List.length (polygon_vertices ps)) <= 999998 ->
  minimal w (en_pick en) -> is_finite w = true -> (Rabs (V w) <= bpow radix2 900)%R ->
  exists l r l' r', path = a :: l /\ sailed ps a c a l c r /\ path' = a :: l' /\ sailed qs a c a l' c r' /\ (r <= Rmax 1 (V w) * r' * (1 + / 2000000000))%R.
Proof.
  intros E Sz Mn Fw Bw. destruct less_way as (l' & r' & rho & k & P' & S' & Wa & Rr).
  destruct (best_touch atan2 o ps g en sa sc a c T Tg Dr Vw Cq Bl unlimited rho flag fuel path w (or_introl eq_refl) Sz E Mn Fw Bw) as (l & r & P & Sa & O).
  exists l, r, l', r'. do 4 (split; [assumption|]). rewrite <- Rr. apply O, Wa.
Qed.
Theorem less_found : exists n, forall fuel, (n <= fuel)%nat -> exists path, shortest_path fuel en g sa sc unlimited flag = Some (Ok path).
Proof.
  destruct less_way as (l' & r' & rho & k & P' & S' & Wa & _).
  exact (touch_found atan2 o ps g en sa sc a c T Tg Dr Vw Cq Bl unlimited rho flag (or_introl eq_refl) (ex_intro _ k Wa)).
Qed.
End Two.
