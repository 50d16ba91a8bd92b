(** Stretches of a path: each is as short as any way between its ends.  No code is modelled here. *)
From Verif Require Import Jordan.
From Coq Require Import ZArith Reals Bool List Lia Lra Psatz Permutation Classical.
From Flocq Require Import Core BinarySingleNaN.
From Verif Require Import Base F64 Coordinate Segment Polygon PolygonMore Periodicity Graph GraphFacts GraphMore Visgraph VisgraphFacts SpecGeom SpecGraph F64Facts CoordinateFacts
  Sweep SweepFacts SweepMaps SweepGen SweepOrder AngleFacts AngleSort SweepGeo SweepSound SweepExact SweepGraph SweepLayers SweepFronts
  ShortestPath DistFacts SearchFacts SearchSpec SearchGraph SearchQuery PathFacts PathMore FreePaths OpenWater SeaLines Coasts CoastExact CoastRun Ways WayRun Touch Around.
Import ListNotations.
Local Open Scope Z_scope.

Lemma sailed_app ps s d : forall l u v r l' t r', sailed ps s d u l v r -> sailed ps s d v l' t r' -> sailed ps s d u (l ++ l') t (r + r')%R.
Proof.
  intros l u v r l' t r' J J'. induction J as [u|u v l t0 r O Ne A B C H IH|u v k l t0 r K O No Ne A B H IH]; cbn [app].
  - rewrite Rplus_0_l. exact J'.
  - rewrite Rplus_assoc. apply sailed_straight; auto.
  - rewrite Rplus_assoc. apply (sailed_around ps s d u v k); auto.
Qed.
Lemma sailed_split ps s d a l2 : forall l1 u l t r, sailed ps s d u l t r -> u :: l = l1 ++ a :: l2 ->
  exists l0 r1 r2, u :: l0 = l1 ++ [a] /\ sailed ps s d u l0 a r1 /\ sailed ps s d a l2 t r2 /\ r = (r1 + r2)%R.
Proof.
  induction l1 as [|x l1 IH]; intros u l t r J E; cbn [app] in E.
  - injection E as -> ->. exists [], 0%R, r. split; [reflexivity|]. split; [constructor|]. split; [exact J|ring].
  - injection E as <- E. destruct l as [|v l]; [destruct l1; discriminate E|].
    inversion J as [|u' v' l' t' r' O Ne A B C H|u' v' k l' t' r' K O No Ne A B H]; subst; destruct (IH v l t r' H E) as (l0 & r1 & r2 & E1 & J1 & J2 & ->).
    + exists (v :: l0), (apart u v + r1)%R, r2. split; [cbn [app]; rewrite <- E1; reflexivity|]. split; [apply sailed_straight; assumption|]. split; [exact J2|ring].
    + exists (v :: l0), (Rmin (apart u (wrap 1 v)) (apart u (wrap (-1) v)) + r1)%R, r2. split; [cbn [app]; rewrite <- E1; reflexivity|]. split; [apply (sailed_around ps s d u v k); assumption|]. split; [exact J2|ring].
Qed.
(** the ends may be places of another route *)
Lemma sailed_ends ps a b s d : (In a (polygon_vertices ps) \/ a = s \/ a = d) -> (In b (polygon_vertices ps) \/ b = s \/ b = d) -> forall u l t r, sailed ps a b u l t r -> sailed ps s d u l t r.
Proof.
  intros Pa Pb. induction 1 as [u|u v l t r O Ne A B C H IH|u v k l t r K O No Ne A B H IH]; [constructor| |apply (sailed_around ps s d u v k); assumption].
  apply sailed_straight; try assumption; [destruct A as [A|[ -> | -> ]]|destruct B as [B|[ -> | -> ]]]; auto.
Qed.

Lemma nodup_tail {A : Type} (l l' : list A) : NoDup (l ++ l') -> NoDup l'.
Proof. induction l as [|x l IH]; [auto|]. intros H. inversion H. auto. Qed.
Section Query.
Variables (atan2 : Z -> Z -> f64) (ords' : coord -> orders) (ps : list polygon) (g : graph) (en : env) (source destination ns nd : coord).
Hypotheses (T : accurate_atan2 atan2) (Tg : true_graph ps g) (Dr : drawn ps) (Vw : viewed ps) (Cq : coast_query atan2 ords' ps g en source destination ns nd).
Hypotheses (Bl : edge_between ps ns nd).
Notation V := (polygon_vertices ps).
Lemma path_once radius flag fuel path : shortest_path fuel en g source destination radius flag = Some (Ok path) -> NoDup path.
Proof.
  intros E. pose proof Cq as (Sq & _). pose proof (true_complete ps g Tg) as Co. pose proof (sea_fit _ _ _ _ _ _ _ _ _ Co Sq) as Fit. pose proof Sq as (_ & _ & _ & _ & Ms & Md & _).
  destruct (query_path en g source destination radius flag Fit Ms Md fuel path E) as (lc & Cor & [(Ns & _)|(_ & l & r & Ep & Du & J)]); [|exact Du].
  exfalso. apply Ns. rewrite (correction_unique _ _ _ _ _ Cor (sea_correction _ _ _ _ _ _ _ _ Sq)). exact (sea_searched _ _ _ _ _ _ _ _ Sq).
Qed.
(** a way between two places of a route *)
Lemma way_between rho a b l : a <> b -> In a V \/ a = ns \/ a = nd -> In b V \/ b = ns \/ b = nd -> course ps (rp a) (l ++ [rp b]) -> (forall p, In p (rp a :: l ++ [rp b]) -> (far (rp ns) p <= rho)%R) ->
  exists l' r', sailed ps ns nd a l' b r' /\ (r' <= run (rp a) (l ++ [rp b]))%R /\ forall v, In v l' -> (apart ns v <= rho)%R.
Proof.
  intros Ne Pa Pb Co Wi. pose proof Cq as (_ & Cs & Cd). pose proof (wq_ngeo ps g Tg) as Ng. pose proof (proj1 (proj2 Tg)) as Nd.
  assert (Sea : forall c, In c V \/ c = ns \/ c = nd -> at_sea ps c) by (intros c [C|[ -> | -> ]]; [split; [apply Ng, C|left; exact C]|exact Cs|exact Cd]).
  destruct (classic (not_direct ps a b)) as [Bl'|Nb].
  2:{ unfold not_direct in Nb. assert (Sl : sails ps (rp a) (rp b)) by (apply NNPP; tauto). assert (Va : ~ In a V) by tauto. assert (Vb : ~ In b V) by tauto.
      assert (Eb : edge_between ps a b) by (destruct Bl as (e & Ee & M); exists e; split; [exact Ee|]; destruct Pa as [Pa|[-> | ->]], Pb as [Pb|[-> | ->]]; try contradiction; [exact M|apply meet_flip, M]).
      destruct (touch_route ps Ng Nd Dr Vw a b (Sea a Pa) (Sea b Pb) Va Vb Sl Eb) as (v & Sv & Ev). exists [v; b], (apart a v + (apart v b + 0))%R.
      split; [apply (sailed_ends ps a b); assumption|]. split; [rewrite Ev, <- far_apart; apply run_straight|].
      assert (Wa : (apart ns a <= rho)%R) by (rewrite <- far_apart; apply Wi; left; reflexivity). assert (Wb : (apart ns b <= rho)%R) by (rewrite <- far_apart; apply Wi; right; apply in_or_app; right; left; reflexivity).
      intros x [<-|[<-|[]]]; [|exact Wb]. pose proof (apart_pos a v). pose proof (apart_pos v b). destruct Pa as [Pa|[-> | ->]], Pb as [Pb|[-> | ->]]; try contradiction; [lra|]. rewrite (apart_sym ns v). rewrite (apart_sym ns nd) in Wa. lra. }
  set (D := fun p => (far (rp ns) p <= rho)%R). pose proof (sk ps Dr) as Sk.
  destruct (smoothed ps Nd Sk D (fun p q h => disc_convex rho (rp ns) p q h) l (rp a) (rp b) Co) as (ws & Hw & Cw & Rw).
  { apply Wi. left. reflexivity. }
  { apply Wi. right. apply in_or_app. right. left. reflexivity. }
  { intros p I. apply Wi. right. apply in_or_app. left. exact I. }
  destruct (way_legs ps Ng Nd Dr Vw a b (Sea a Pa) (Sea b Pb) Bl' ws a (or_introl eq_refl) (fun w I => proj1 (Hw w I)) Cw) as (l1 & r1 & S1 & L1 & I1).
  exists l1, r1. split; [apply (sailed_ends ps a b); assumption|]. split; [lra|]. intros v I. apply I1, in_app_or in I. rewrite <- far_apart. destruct I as [I|[<-|[]]]; [apply Hw, I|]. apply Wi. right. apply in_or_app. right. left. reflexivity.
Qed.
(** whatever replaces a stretch of the path does not make it shorter *)
Theorem best_stretch radius rho flag fuel path w : reaches radius rho -> Z.of_nat (List.length V) <= 999998 ->
  shortest_path fuel en g source destination radius flag = Some (Ok path) -> minimal w (en_pick en) -> is_finite w = true -> (Rabs (F64Facts.V w) <= bpow radix2 900)%R ->
  exists l r, path = ns :: l /\ sailed ps ns nd ns l nd r /\
    forall l1 a m b l3, path = l1 ++ a :: m ++ b :: l3 -> exists rs, sailed ps ns nd a (m ++ [b]) b rs /\ (rs <= r)%R /\
      forall l', course ps (rp a) (l' ++ [rp b]) -> (forall p, In p (rp a :: l' ++ [rp b]) -> (far (rp ns) p <= rho)%R) ->
        (r <= Rmax 1 (F64Facts.V w) * (r - rs + run (rp a) (l' ++ [rp b])) * (1 + / 2000000000))%R.
Proof.
  intros Re Sz E Mn Fw Bw. pose proof (path_once radius flag fuel path E) as Du. pose proof (path_size atan2 ords' ps g en source destination ns nd T Tg Dr Cq radius flag fuel path E) as Sp.
  destruct (best_route atan2 ords' ps g en source destination ns nd T Tg Dr Cq radius flag fuel path w E ltac:(lia) Mn Fw Bw) as (l & r & Ep & Sa & O).
  destruct (path_sailed atan2 ords' ps g en source destination ns nd T Tg Dr Cq radius flag fuel path E) as (l0 & r0 & Ep0 & _ & Wr). rewrite Ep in Ep0. injection Ep0 as <-.
  exists l, r. split; [exact Ep|]. split; [exact Sa|]. intros l1 a m b l3 Es. rewrite Ep in Es.
  pose proof Cq as (_ & Cs & Cd). pose proof (wq_ngeo ps g Tg) as Ng.
  destruct (sailed_split ps ns nd a (m ++ b :: l3) l1 ns l nd r Sa Es) as (p1 & r1 & r2 & E1 & J1 & J2 & Er).
  destruct (sailed_split ps ns nd b l3 (a :: m) a (m ++ b :: l3) nd r2 J2 eq_refl) as (p2 & rs & r3 & E2 & J3 & J4 & Er2). cbn [app] in E2. injection E2 as ->.
  exists rs. split; [exact J3|]. pose proof (sailed_pos _ _ _ _ _ _ _ J1). pose proof (sailed_pos _ _ _ _ _ _ _ J4). split; [lra|].
  intros l' Co Wi.
  assert (Pl : forall c, In c (ns :: l) -> In c V \/ c = ns \/ c = nd) by (intros c [<-|I]; [auto|exact (sailed_places _ _ _ _ _ _ _ Sa c I)]).
  assert (Ne : a <> b). { intros ->. rewrite Ep, Es in Du. apply NoDup_remove_2 in Du. apply Du. apply in_or_app. right. apply in_or_app. right. left. reflexivity. }
  destruct (way_between rho a b l' Ne) as (q & rq & Jq & Lq & Iq); [apply Pl; rewrite Es; apply in_or_app; right; left; reflexivity|apply Pl; rewrite Es; apply in_or_app; right; right; apply in_or_app; right; left; reflexivity|exact Co|exact Wi|].
  pose proof (sailed_app _ _ _ _ _ _ _ _ _ _ J1 (sailed_app _ _ _ _ _ _ _ _ _ _ Jq J4)) as Jn.
  destruct (no_loops _ _ _ _ _ _ _ Jn) as (ln & rn & Sn & Ln & In' & Dn).
  assert (Wn : Forall (within ns radius) ln).
  { apply Forall_forall. intros v I. apply In' in I. rewrite Forall_forall in Wr.
    assert (Sub : forall x, In x p1 \/ In x l3 -> In x l).
    { intros x X. assert (Y : In x (l1 ++ a :: m ++ b :: l3) /\ True).
      { split; [|exact Logic.I]. destruct X as [X|X]; [|apply in_or_app; right; right; apply in_or_app; right; right; exact X].
        assert (X' : In x (l1 ++ [a])) by (rewrite <- E1; right; exact X). apply in_app_or in X'. apply in_or_app. destruct X' as [X'|[<-|[]]]; [left; exact X'|right; left; reflexivity]. }
      destruct Y as [Y _]. rewrite <- Es in Y. destruct Y as [<-|Y]; [|exact Y]. exfalso. rewrite Ep in Du. destruct X as [X|X].
      - assert (D2 : NoDup (ns :: p1)). { rewrite E1. rewrite Es in Du. apply NoDup_remove_1 in Du as D1. clear - Du. induction l1 as [|y l1 IH]; cbn [app] in *; [repeat constructor; intros []|]. inversion Du as [|? ? N D]; subst. constructor; [|apply IH, D].
          intros I. apply N. apply in_app_or in I. apply in_or_app. destruct I as [I|[<-|[]]]; [left; exact I|right; left; reflexivity]. }
        inversion D2; contradiction.
      - inversion Du as [|? ? N _]; subst. apply N. destruct l1 as [|y l1]; cbn [app] in Es; injection Es as <- ->; apply in_or_app; [right; right; exact X|right; right; apply in_or_app; right; right; exact X]. }
    apply in_app_or in I. destruct I as [I|I]; [apply Wr, Sub; auto|]. apply in_app_or in I. destruct I as [I|I]; [|apply Wr, Sub; auto].
    apply (reaches_within radius rho); [exact Re|apply Cs| |apply Iq, I]. destruct (sailed_places _ _ _ _ _ _ _ Jq v I) as [X|[ -> | -> ]]; [apply Ng, X|apply Cs|apply Cd]. }
  assert (Nn : (List.length (ns :: ln) <= List.length V + 2)%nat).
  { replace (List.length V + 2)%nat with (List.length (ns :: nd :: V)) by (cbn [List.length]; lia). apply NoDup_incl_length; [exact Dn|].
    intros v [<-|I]; [left; reflexivity|]. destruct (sailed_places _ _ _ _ _ _ _ Sn v I) as [X|[ -> | -> ]]; cbn [In]; auto. }
  cbn [List.length] in Nn. pose proof (O ln rn Sn Wn ltac:(lia)) as K. eapply Rle_trans; [exact K|]. apply Rmult_le_compat_r; [lra|]. apply Rmult_le_compat_l; [pose proof (Rmax_l 1 (F64Facts.V w)); lra|]. lra.
Qed.
End Query.

(** ** Legs do not cross *)
Lemma apart_one a b : ngeo a -> ngeo b -> a <> b -> (1 <= cylinder a b)%R.
Proof.
  intros [A1 A2] [B1 B2] Ne. eapply Rle_trans; [|apply reach_ok]. apply (IZR_le 1). unfold reach. cbv zeta. change 1 with (Z.sqrt 1). apply Z.sqrt_le_mono.
  assert (N0 : lon a - lon b <> 0 \/ lat a - lat b <> 0) by (destruct (Z.eq_dec (lon a) (lon b)) as [E1|E1]; [right; intros E2; apply Ne, coord_ext; lia|left; lia]).
  assert (Sq : forall x y, x <> 0 \/ y <> 0 -> 1 <= x * x + y * y) by (clear; intros x y [H|H]; nia).
  apply Z.min_glb; [|apply Z.min_glb]; apply Sq; lia.
Qed.
Lemma far_one a b : ngeo a -> ngeo b -> a <> b -> (1 <= far (rp a) (rp b))%R.
Proof. intros A B Ne. rewrite far_apart. eapply Rle_trans; [apply (apart_one a b A B Ne)|]. exact (cylinder_edge false a b). Qed.
Section Legs.
Variables (atan2 : Z -> Z -> f64) (ords' : coord -> orders) (ps : list polygon) (g : graph) (en : env) (source destination ns nd : coord).
Hypotheses (T : accurate_atan2 atan2) (Tg : true_graph ps g) (Dr : drawn ps) (Vw : viewed ps) (Cq : coast_query atan2 ords' ps g en source destination ns nd).
Hypotheses (Bl : edge_between ps ns nd).
Notation V := (polygon_vertices ps).
Variables (radius : f64) (rho : R) (flag : bool) (fuel : nat) (path : list coord) (w : f64).
Hypotheses (Re : reaches radius rho) (Sz : Z.of_nat (List.length V) <= 999998) (E : shortest_path fuel en g source destination radius flag = Some (Ok path))
  (Mn : minimal w (en_pick en)) (Fw : is_finite w = true) (Bw : (-1 <= F64Facts.V w <= 1)%R) (Wi : forall v, In v path -> (apart ns v <= rho)%R).
(** what can be saved on the way from [a] to [b] is less than two, unless the path is very long *)
Lemma no_saving : exists l r, path = ns :: l /\ sailed ps ns nd ns l nd r /\ ((r <= 4000000000)%R ->
  forall l1 a m b l3 rs l', path = l1 ++ a :: m ++ b :: l3 -> sailed ps ns nd a (m ++ [b]) b rs -> course ps (rp a) (l' ++ [rp b]) -> (forall p, In p l' -> (far (rp ns) p <= rho)%R) ->
    (rs < run (rp a) (l' ++ [rp b]) + 2)%R).
Proof.
  assert (Bw' : (Rabs (F64Facts.V w) <= bpow radix2 900)%R). { apply (Rle_trans _ (bpow radix2 0)); [apply Rabs_le; exact Bw|apply bpow_le; lia]. }
  destruct (best_stretch atan2 ords' ps g en source destination ns nd T Tg Dr Vw Cq Bl radius rho flag fuel path w Re Sz E Mn Fw Bw') as (l & r & Ep & Sa & H). exists l, r. split; [exact Ep|]. split; [exact Sa|].
  intros Lr l1 a m b l3 rs l' Es J Co Wl. destruct (H l1 a m b l3 Es) as (rs' & J' & Ls & K).
  assert (rs' = rs) as -> by exact (sailed_length _ _ _ _ _ _ _ _ J' J).
  assert (Inp : forall x, x = a \/ x = b -> In x path) by (intros x [ -> | -> ]; rewrite Es; apply in_or_app; right; [left; reflexivity|right; apply in_or_app; right; left; reflexivity]).
  specialize (K l' Co). rewrite Rmax_left in K by lra. destruct (Rlt_le_dec rs (run (rp a) (l' ++ [rp b]) + 2)) as [Lt|Ge]; [exact Lt|exfalso].
  assert (K' : (r <= 1 * (r - rs + run (rp a) (l' ++ [rp b])) * (1 + / 2000000000))%R).
  { apply K. intros p [<-|I]; [rewrite far_apart; apply Wi, Inp; auto|]. apply in_app_or in I. destruct I as [I|[<-|[]]]; [apply Wl, I|rewrite far_apart; apply Wi, Inp; auto]. }
  pose proof (sailed_pos _ _ _ _ _ _ _ Sa). lra.
Qed.

Lemma places_ngeo c : In c path -> ngeo c.
Proof.
  intros I. destruct (path_sailed atan2 ords' ps g en source destination ns nd T Tg Dr Cq radius flag fuel path E) as (l & r & Ep & Sa & _). pose proof Cq as (_ & Cs & Cd). rewrite Ep in I.
  destruct I as [<-|I]; [apply Cs|]. destruct (sailed_places _ _ _ _ _ _ _ Sa c I) as [X|[ -> | -> ]]; [exact (wq_ngeo ps g Tg c X)|apply Cs|apply Cd].
Qed.
Lemma leg_sails u v l t r : sailed ps ns nd u (v :: l) t r -> open_line ps u v -> sails ps (rp u) (rp v).
Proof. exact (leg_way atan2 ords' ps g en source destination ns nd Tg Dr Vw Cq u v l t r). Qed.
(** legs which do not follow one another have no point in common *)
Theorem legs_apart : exists l r, path = ns :: l /\ sailed ps ns nd ns l nd r /\ ((r <= 4000000000)%R ->
  forall l1 a b m c d l3, path = l1 ++ a :: b :: m ++ c :: d :: l3 -> open_line ps a b -> open_line ps c d ->
  forall h k, (0 <= h <= 1)%R -> (0 <= k <= 1)%R -> mix (rp a) (rp b) h <> mix (rp c) (rp d) k).
Proof.
  destruct no_saving as (l & r & Ep & Sa & H). exists l, r. split; [exact Ep|]. split; [exact Sa|]. intros Lr l1 a b m c d l3 Es Oa Oc h k Hh Hk X.
  assert (Es' : path = l1 ++ a :: (b :: m ++ [c]) ++ d :: l3) by (rewrite Es; cbn [app]; rewrite <- !app_assoc; reflexivity).
  assert (Inp : forall x, In x [a; b; c; d] -> In x path).
  { intros x Hx. rewrite Es. apply in_or_app. right. cbn [In] in Hx. destruct Hx as [<-|[<-|[<-|[<-|[]]]]]; cbn [In]; auto; right; right; apply in_or_app; right; cbn [In]; auto. }
  assert (Sp : ns :: l = l1 ++ a :: (b :: m ++ c :: d :: l3)) by (rewrite <- Ep; exact Es).
  destruct (sailed_split ps ns nd a (b :: m ++ c :: d :: l3) l1 ns l nd r Sa Sp) as (_ & _ & r2 & _ & _ & J2 & _).
  pose proof (leg_sails _ _ _ _ _ J2 Oa) as Sab.
  inversion J2 as [|u' v' l' t' r3 O' Ne A B C J3|u' v' k' l' t' r3 K O No Ne A B J3]; subst u' v' l' t'; [|contradiction]. 
  destruct (sailed_split ps ns nd c (d :: l3) (b :: m) b (m ++ c :: d :: l3) nd r3 J3 eq_refl) as (p & rm & r4 & E1 & J4 & J5 & _).
  pose proof (leg_sails _ _ _ _ _ J5 Oc) as Scd.
  inversion J5 as [|u' v' l' t' r5 O2 Ne2 A2 B2 C2 J6|u' v' k' l' t' r5 K O No2 Ne2 A2 B2 J6]; subst u' v' l' t'; [|contradiction].
  cbn [app] in E1. injection E1 as ->.
  assert (Js : sailed ps ns nd a ((b :: m ++ [c]) ++ [d]) d (apart a b + (rm + (apart c d + 0)))%R).
  { cbn [app]. apply sailed_straight; try assumption. apply (sailed_app ps ns nd _ b c); [exact J4|]. apply sailed_straight; try assumption. constructor. }
  set (x := mix (rp a) (rp b) h) in *.
  assert (Dx : (far (rp ns) x <= rho)%R) by (apply disc_convex; [rewrite far_apart; apply Wi, Inp; cbn [In]; auto|rewrite far_apart; apply Wi, Inp; cbn [In]; auto|exact Hh]).
  assert (Sv := H Lr l1 a (b :: m ++ [c]) d l3 _ [x] Es' Js).
  assert (Cx : course ps (rp a) ([x] ++ [rp d])).
  { cbn [app course]. split; [|split; [|exact I]].
    - unfold x. rewrite <- (mix_0 (rp a) (rp b)) at 1. apply sails_part; [lra|exact Hh|exact Sab].
    - rewrite X. rewrite <- (mix_1 (rp c) (rp d)) at 2. apply sails_part; [exact Hk|lra|exact Scd]. }
  specialize (Sv Cx). cbn [app run] in Sv.
  assert (Gn : forall y, In y [a; b; c; d] -> ngeo y) by (intros y I; apply places_ngeo, Inp, I).
  assert (Gd : forall y, In y V \/ y = ns \/ y = nd -> ngeo y) by (pose proof Cq as (_ & Cs & Cd); intros y [Y|[ -> | -> ]]; [exact (wq_ngeo ps g Tg y Y)|apply Cs|apply Cd]).
  assert (Nbc : b <> c).
  { intros ->. pose proof (path_once atan2 ords' ps g en source destination ns nd Tg Cq radius flag fuel path E) as Du. rewrite Es in Du. apply nodup_tail in Du. inversion Du as [|? ? _ Du']; subst. inversion Du' as [|? ? N _]; subst. apply N, in_or_app. right. left. reflexivity. }
  destruct (sailed_reach _ _ _ _ _ _ _ Gd J4 (Gn b ltac:(cbn [In]; auto))) as [Lm _].
  assert (L1 : (1 <= cylinder b c)%R) by (apply apart_one; [apply Gn; cbn [In]; auto|apply Gn; cbn [In]; auto|exact Nbc]).
  assert (L2 : (1 <= far (rp b) (rp c))%R) by (apply far_one; [apply Gn; cbn [In]; auto|apply Gn; cbn [In]; auto|exact Nbc]).
  pose proof (far_mix (rp a) (rp b) h Hh) as F1. pose proof (far_mix (rp c) (rp d) k Hk) as F2. fold x in F1. rewrite <- X in F2. rewrite far_apart in F1, F2.
  pose proof (far_triangle (rp b) x (rp c)) as F3. rewrite (far_flip (rp b) x), (far_flip x (rp c)) in F3. rewrite (far_flip x (rp b)) in F1, F3.
  assert (Sv' := Sv ltac:(intros p [<-|[]]; exact Dx)). lra.
Qed.
(** two legs which follow one another meet only where they join *)
Theorem legs_join : exists l r, path = ns :: l /\ sailed ps ns nd ns l nd r /\ ((r <= 4000000000)%R ->
  forall l1 a b c l3, path = l1 ++ a :: b :: c :: l3 -> open_line ps a b -> open_line ps b c ->
  forall h k, (0 <= h <= 1)%R -> (0 <= k <= 1)%R -> mix (rp a) (rp b) h = mix (rp b) (rp c) k -> h = 1%R /\ k = 0%R).
Proof.
  destruct no_saving as (l & r & Ep & Sa & H). exists l, r. split; [exact Ep|]. split; [exact Sa|]. intros Lr l1 a b c l3 Es Oa Oc h k Hh Hk X.
  assert (Inp : forall x, In x [a; b; c] -> In x path).
  { intros x Hx. rewrite Es. apply in_or_app. right. cbn [In] in Hx. destruct Hx as [<-|[<-|[<-|[]]]]; cbn [In]; auto. }
  assert (Gn : forall y, In y [a; b; c] -> ngeo y) by (intros y I; apply places_ngeo, Inp, I).
  destruct (sailed_split ps ns nd a (b :: c :: l3) l1 ns l nd r Sa) as (_ & _ & r2 & _ & _ & J2 & _); [rewrite <- Ep; exact Es|].
  pose proof (leg_sails _ _ _ _ _ J2 Oa) as Sab.
  inversion J2 as [|u' v' l' t' r3 O' Ne A B C J3|u' v' k' l' t' r3 K O No Ne A B J3]; subst u' v' l' t'; [|contradiction].
  pose proof (leg_sails _ _ _ _ _ J3 Oc) as Sbc.
  inversion J3 as [|u' v' l' t' r5 O2 Ne2 A2 B2 C2 J6|u' v' k' l' t' r5 K O No2 Ne2 A2 B2 J6]; subst u' v' l' t'; [|contradiction].
  assert (Js : sailed ps ns nd a ([b] ++ [c]) c (apart a b + (apart b c + 0))%R) by (cbn [app]; repeat (apply sailed_straight; try assumption); constructor).
  pose proof (far_one a b (Gn a ltac:(cbn [In]; auto)) (Gn b ltac:(cbn [In]; auto)) Ne) as Fab. pose proof (far_one b c (Gn b ltac:(cbn [In]; auto)) (Gn c ltac:(cbn [In]; auto)) Ne2) as Fbc.
  assert (Sv := H Lr l1 a [b] c l3 _ [] Es Js). cbn [app course run] in Sv.
  assert (Ba : forall p q, (1 <= far p q)%R -> p <> q) by (intros p q Hp ->; rewrite far_same in Hp; lra).
  destruct (Req_dec h 1) as [->|Hn].
  { split; [reflexivity|]. rewrite mix_1 in X. destruct (Req_dec k 0) as [|Kn]; [assumption|exfalso]. apply (Ba _ _ Fbc). pose proof (f_equal Jordan.X X) as X1. pose proof (f_equal Jordan.Y X) as X2. unfold mix in X1, X2. cbn [Jordan.X Jordan.Y] in X1, X2.
    apply pt_eq; nra. }
  exfalso. destruct (Req_dec k 0) as [->|Kn].
  { rewrite mix_0 in X. apply (Ba _ _ Fab). pose proof (f_equal Jordan.X X) as X1. pose proof (f_equal Jordan.Y X) as X2. unfold mix in X1, X2. cbn [Jordan.X Jordan.Y] in X1, X2. apply pt_eq; nra. }
  (* the legs lie along the same line, one on the other *)
  destruct (Rle_lt_dec (1 - h) k) as [Le|Lt].
  - (* c is beyond: a lies on the second leg... *)
    assert (Ea : rp c = mix (rp b) (rp a) ((1 - h) / k) ).
    { pose proof (f_equal Jordan.X X) as X1. pose proof (f_equal Jordan.Y X) as X2. unfold mix in X1, X2. cbn [Jordan.X Jordan.Y] in X1, X2. apply pt_eq; unfold mix; cbn [Jordan.X Jordan.Y]; apply (Rmult_eq_reg_l k); try lra; field_simplify; try lra. }
    assert (Hq : (0 <= (1 - h) / k <= 1)%R). { split; [apply Rmult_le_pos; [lra|left; apply Rinv_0_lt_compat; lra]|]. apply (Rmult_le_reg_r k); [lra|]. unfold Rdiv. rewrite Rmult_assoc, Rinv_l; lra. }
    assert (Sac : sails ps (rp a) (rp c)). { rewrite Ea. rewrite <- (mix_1 (rp b) (rp a)) at 1. apply sails_part; [lra|exact Hq|apply sails_flip, Sab]. }
    pose proof (far_mix (rp b) (rp a) _ Hq) as F. rewrite <- Ea in F. rewrite (far_flip (rp b) (rp a)), (far_flip (rp c) (rp a)) in F. rewrite !far_apart in *.
    assert (Sv' := Sv (conj Sac I) ltac:(intros p [])). lra.
  - assert (Ea : rp a = mix (rp b) (rp c) (k / (1 - h)) ).
    { pose proof (f_equal Jordan.X X) as X1. pose proof (f_equal Jordan.Y X) as X2. unfold mix in X1, X2. cbn [Jordan.X Jordan.Y] in X1, X2. apply pt_eq; unfold mix; cbn [Jordan.X Jordan.Y]; apply (Rmult_eq_reg_l (1 - h)); try lra; field_simplify; try lra. }
    assert (Hq : (0 <= k / (1 - h) <= 1)%R). { split; [apply Rmult_le_pos; [lra|left; apply Rinv_0_lt_compat; lra]|]. apply (Rmult_le_reg_r (1 - h)); [lra|]. unfold Rdiv. rewrite Rmult_assoc, Rinv_l; lra. }
    assert (Sac : sails ps (rp a) (rp c)). { rewrite Ea. rewrite <- (mix_1 (rp b) (rp c)) at 2. apply sails_part; [exact Hq|lra|exact Sbc]. }
    pose proof (far_mix (rp b) (rp c) _ Hq) as F. rewrite <- Ea in F. rewrite (far_flip (rp b) (rp a)) in F. rewrite !far_apart in *.
    assert (Sv' := Sv (conj Sac I) ltac:(intros p [])). lra.
Qed.
End Legs.
