(** Properties of whole queries, in terms of the map and the query alone. *)
From Coq Require Import ZArith Reals Bool List Lia Lra Psatz Permutation.
From Flocq Require Import Core.
From Flocq Require Import BinarySingleNaN.
From Verif Require Import Base F64 Coordinate Segment Polygon SpecGeom SpecGraph F64Facts CoordinateFacts SegmentFacts Periodicity PeriodicityFacts
  Graph GraphFacts GraphMore Overlay OverlayFacts Visgraph Sweep SweepFacts SweepMaps SweepCases
  ShortestPath DistFacts SearchFacts SearchSpec SearchGraph SearchQuery.
Import ListNotations.
Local Open Scope R_scope.

(** ** Journeys *)
(** [u :: l] is a sequence of roads to [t]; their lengths add up to [r] millionths of a degree *)
Inductive journey (roads : coord -> coord -> bool -> Prop) : coord -> list coord -> coord -> R -> Prop :=
| journey_end u : journey roads u [] u 0
| journey_road u v f l t r : roads u v f -> journey roads v l t r -> journey roads u (v :: l) t (edge_length f u v + r).

Section Graph.
Variables (sg : sgraph) (dom : list coord) (roads : coord -> coord -> bool -> Prop).
Hypotheses (U : usable sg dom) (H : forall u v f, joined sg u v /\ sg_crossing sg u v = Ok f <-> roads u v f).

Lemma journey_linked u l t r : journey roads u l t r -> linked sg u l t /\ r = route_length sg u l.
Proof.
  induction 1 as [u|u v f l t r R J [L ->]]; [split; reflexivity|]. apply H in R. destruct R as [Jn C].
  split; [split; assumption|]. cbn [route_length]. unfold edge_real. rewrite C. reflexivity.
Qed.
Lemma linked_journey l : forall u t, In u dom -> linked sg u l t -> journey roads u l t (route_length sg u l).
Proof.
  induction l as [|v l IH]; intros u t I L; [cbn in L; subst; constructor|]. destruct L as [J L].
  destruct (joined_dom sg dom U u v I J) as (Iv & _). destruct (U u I) as (_ & ns & En & Hn). pose proof J as (ns' & En' & Iv').
  rewrite En in En'. inversion En'; subst ns'. destruct (Hn v Iv') as (_ & f & Ef).
  cbn [route_length]. unfold edge_real. rewrite Ef. constructor; [apply H; split; assumption|]. apply IH; assumption.
Qed.
End Graph.

(** the queries that are searched: something is in the way which is not the shore an endpoint was moved to *)
Definition searched (en : env) (lc : correction) : Prop := exists x, In x (ix_crossing (en_index en) (mkS (lc_source lc) (lc_dest lc))) /\
  forall shore, lc_source_edge lc = Some shore \/ lc_dest_edge lc = Some shore -> segment_eqb x shore = false.
Lemma searched_iff en lc : searched en lc <-> exists x, In x (ix_crossing (en_index en) (mkS (lc_source lc) (lc_dest lc))) /\
  forall shore, lc_source_edge lc = Some shore \/ lc_dest_edge lc = Some shore -> segment_eqb x shore = false.
Proof. reflexivity. Qed.
Lemma searched_other en lc : searched en lc <-> other_crossings (en_index en) lc <> [].
Proof.
  enough (H : other_crossings (en_index en) lc <> [] <-> searched en lc) by (symmetry; exact H). unfold searched, other_crossings. split.
  - intros N. match type of N with ?l <> [] => destruct l as [|x l'] eqn:E; [congruence|] end.
    assert (I : In x (x :: l')) by (left; reflexivity). rewrite <- E in I. apply filter_In in I. destruct I as [I K]. apply andb_prop in K. destruct K as [K1 K2].
    exists x. split; [exact I|]. intros shore [S|S]; rewrite S in *; apply negb_true_iff; assumption.
  - intros (x & I & K) E. match type of E with ?l = [] => assert (I' : In x l) end.
    { apply filter_In. split; [exact I|]. apply andb_true_intro. split; apply negb_true_iff.
      - destruct (lc_source_edge lc) as [e|] eqn:Q; [apply K; left; reflexivity|reflexivity].
      - destruct (lc_dest_edge lc) as [e|] eqn:Q; [apply K; right; reflexivity|reflexivity]. }
    rewrite E in I'. destruct I'.
Qed.

Lemma moved_unique ix c c1 e1 c2 e2 : moved ix c c1 e1 -> moved ix c c2 e2 -> c1 = c2 /\ e1 = e2.
Proof.
  intros [(A & -> & ->)|(A & s1 & E1 & -> & ->)] [(B & -> & ->)|(B & s2 & E2 & -> & ->)]; try congruence; [auto|].
  rewrite E1 in E2. inversion E2. auto.
Qed.
Lemma correction_unique en s d lc lc' : correction_of en s d lc -> correction_of en s d lc' -> lc = lc'.
Proof.
  intros (ns & nd & E1 & E2 & M1 & M2) (ns' & nd' & E1' & E2' & M1' & M2'). rewrite E1 in E1'. rewrite E2 in E2'. inversion E1'; inversion E2'; subst.
  destruct (moved_unique _ _ _ _ _ _ M1 M1'), (moved_unique _ _ _ _ _ _ M2 M2'). destruct lc, lc'. cbn in *. congruence.
Qed.

Section Query.
Variables (en : env) (g : graph) (source destination : coord) (radius : f64) (flag : bool).
Hypotheses (Fit : fit_for_queries en g) (Ms : in_the_map source) (Md : in_the_map destination).
Notation query fuel := (shortest_path fuel en g source destination radius flag).

(** C49 *)
Lemma query_path fuel path : query fuel = Some (Ok path) ->
  exists lc, correction_of en source destination lc /\
    ((~ searched en lc /\ path = [lc_source lc; lc_dest lc]) \/
     (searched en lc /\ exists l r, path = lc_source lc :: l /\ NoDup path /\
        journey (road g (en_vis en) lc) (lc_source lc) l (lc_dest lc) r)).
Proof.
  intros E. destruct (query_cases en g source destination radius flag Fit Ms Md) as (ns & nd & _ & _ & _ & _ & K).
  destruct (handle_land_collisions (en_index en) ns nd flag) as [lc|e|u]; [|destruct K as (_ & _ & _ & K); rewrite K in E; discriminate E|destruct K].
  destruct K as [Co [[Oc Q]|(Oc & sg & dom & U & Is & Gt & R & Q)]]; exists lc; (split; [exact Co|]).
  - left. split; [intros S; apply (proj1 (searched_other _ _) S); exact Oc|]. rewrite Q in E. inversion E. reflexivity.
  - right. split; [exact (proj2 (searched_other _ _) Oc)|]. rewrite Q in E.
    destruct (search_result sg (lc_source lc) (lc_dest lc) radius dom U Is Gt _ _ _ E) as [[X _]|(l & d & st & x & k & X & L & W & N & _)]; [discriminate X|].
    inversion X; subst path. exists l, (route_length sg (lc_source lc) l). split; [reflexivity|]. split; [exact N|].
    exact (linked_journey sg dom _ U R l _ _ Is L).
Qed.

(** C53 *)
Lemma query_radius fuel path lc : query fuel = Some (Ok path) -> correction_of en source destination lc -> searched en lc ->
  is_finite radius = true ->
  forall v, In v path -> v = lc_source lc \/ (ngeo v /\ micro * cylinder (lc_source lc) v * (1 - u5) <= V radius).
Proof.
  intros E Co Se Fr. destruct (query_cases en g source destination radius flag Fit Ms Md) as (ns & nd & _ & _ & _ & _ & K).
  destruct (handle_land_collisions (en_index en) ns nd flag) as [lc'|e|u]; [|destruct K as (_ & _ & _ & K); rewrite K in E; discriminate E|destruct K].
  destruct K as [Co' K]. assert (lc' = lc) as -> by exact (correction_unique _ _ _ _ _ Co' Co).
  destruct K as [[Oc _]|(Oc & sg & dom & U & Is & Gt & R & Q)]; [elim (proj1 (searched_other _ _) Se Oc)|]. rewrite Q in E.
  destruct (search_result sg (lc_source lc) (lc_dest lc) radius dom U Is Gt _ _ _ E) as [[X _]|(l & d & st & x & k & X & L & W & N & _)]; [discriminate X|].
  inversion X; subst path. intros v [<-|I]; [left; reflexivity|right].
  destruct (linked_dom sg dom U _ _ _ Is L) as [_ Dl]. destruct (U v (Dl v I)) as [Gv _]. split; [exact Gv|]. destruct (U _ Is) as [Gs _].
  rewrite Forall_forall in W. destruct (W v I) as (dv & Ed & Lt). destruct (heuristic_ok (lc_source lc) v Gs Gv) as (dv' & Ed' & M).
  rewrite Ed in Ed'. inversion Ed'; subst dv'. destruct (measures_bounds _ _ M) as [B _]. destruct M as (Fd & _).
  eapply Rle_trans; [exact B|]. destruct (Rle_or_lt (V dv) (V radius)) as [Y|Y]; [exact Y|]. apply (fltb_iff _ _ Fr Fd) in Y. congruence.
Qed.

(** C51 *)
Lemma query_failure fuel lc r : query fuel = Some r -> correction_of en source destination lc -> searched en lc ->
  flag = true \/ (exists ns nd, normalize_coord source = Ok ns /\ normalize_coord destination = Ok nd /\
                   ix_contains (en_index en) ns = false /\ ix_contains (en_index en) nd = false) ->
  (exists path, r = Ok path) \/
  (r = Throw NoPath /\ ~ exists l d, journey (road g (en_vis en) lc) (lc_source lc) l (lc_dest lc) d /\ Forall (within (lc_source lc) radius) l).
Proof.
  intros E Co Se Fl. destruct (query_cases en g source destination radius flag Fit Ms Md) as (ns & nd & En1 & En2 & _ & _ & K).
  destruct (handle_land_collisions (en_index en) ns nd flag) as [lc'|e|u]; [| |destruct K].
  2:{ exfalso. destruct K as (_ & Ff & L & _). destruct Fl as [Fl|(ns' & nd' & A & B & C & D)]; [congruence|].
      rewrite En1 in A. rewrite En2 in B. inversion A; inversion B; subst. rewrite C, D in L. discriminate L. }
  destruct K as [Co' K]. assert (lc' = lc) as -> by exact (correction_unique _ _ _ _ _ Co' Co).
  destruct K as [[Oc _]|(Oc & sg & dom & U & Is & Gt & R & Q)]; [elim (proj1 (searched_other _ _) Se Oc)|]. rewrite Q in E.
  destruct (search_result sg (lc_source lc) (lc_dest lc) radius dom U Is Gt _ _ _ E) as [[-> X]|(l & d & st & x & k & X & _)].
  - right. split; [reflexivity|]. intros (l & d & J & W). apply X. exists l. split; [|exact W]. apply (journey_linked sg _ R _ _ _ _ J).
  - left. eauto.
Qed.
(** conversely a path is returned only if there is one inside the radius *)
Lemma query_success fuel lc path : query fuel = Some (Ok path) -> correction_of en source destination lc -> searched en lc ->
  exists l r, path = lc_source lc :: l /\ journey (road g (en_vis en) lc) (lc_source lc) l (lc_dest lc) r /\ Forall (within (lc_source lc) radius) l.
Proof.
  intros E Co Se. destruct (query_cases en g source destination radius flag Fit Ms Md) as (ns & nd & _ & _ & _ & _ & K).
  destruct (handle_land_collisions (en_index en) ns nd flag) as [lc'|e|u]; [|destruct K as (_ & _ & _ & K); rewrite K in E; discriminate E|destruct K].
  destruct K as [Co' K]. assert (lc' = lc) as -> by exact (correction_unique _ _ _ _ _ Co' Co).
  destruct K as [[Oc _]|(Oc & sg & dom & U & Is & Gt & R & Q)]; [elim (proj1 (searched_other _ _) Se Oc)|]. rewrite Q in E.
  destruct (search_result sg (lc_source lc) (lc_dest lc) radius dom U Is Gt _ _ _ E) as [[X _]|(l & d & st & x & k & X & L & W & N & _)]; [discriminate X|].
  inversion X; subst path. exists l, (route_length sg (lc_source lc) l). split; [reflexivity|]. split; [|exact W].
  exact (linked_journey sg dom _ U R l _ _ Is L).
Qed.

(** C52 *)
Lemma query_terminates : exists n, forall fuel, (n <= fuel)%nat -> query fuel <> None /\ forall u, query fuel <> Some (UB u).
Proof.
  destruct (query_cases en g source destination radius flag Fit Ms Md) as (ns & nd & _ & _ & _ & _ & K).
  destruct (handle_land_collisions (en_index en) ns nd flag) as [lc|e|u]; [|exists O; intros fuel _; destruct K as (_ & _ & _ & ->); split; [intros X; discriminate X|intros u X; discriminate X]|destruct K].
  destruct K as [Co [[Oc Q]|(Oc & sg & dom & U & Is & Gt & R & Q)]].
  - exists O. intros fuel _. rewrite Q. split; [intros X; discriminate X|intros u X; discriminate X].
  - exists (bound (lc_source lc) dom). intros fuel L. rewrite Q.
    pose proof (search_terminates sg (lc_source lc) (lc_dest lc) radius dom U Is Gt (en_pick en) fuel L) as T. split; [exact T|].
    intros u E. destruct (search_result sg (lc_source lc) (lc_dest lc) radius dom U Is Gt _ _ _ E) as [[X _]|(l & d & st & x & k & X & _)]; discriminate X.
Qed.

(** C50 *)
Lemma query_optimal fuel path lc w : query fuel = Some (Ok path) -> correction_of en source destination lc -> searched en lc ->
  minimal w (en_pick en) -> is_finite w = true -> Rabs (V w) <= bpow radix2 900 ->
  exists l r, path = lc_source lc :: l /\ journey (road g (en_vis en) lc) (lc_source lc) l (lc_dest lc) r /\
    forall l' r', journey (road g (en_vis en) lc) (lc_source lc) l' (lc_dest lc) r' -> Forall (within (lc_source lc) radius) l' ->
      r * ((1 - u5) * (1 - uu) ^ length l) <= Rmax 1 (V w) * r' * ((1 + u5) * (1 + uu) ^ (length l' + 2)).
Proof.
  intros E Co Se Mn Fw Bw. destruct (query_cases en g source destination radius flag Fit Ms Md) as (ns & nd & _ & _ & _ & _ & K).
  destruct (handle_land_collisions (en_index en) ns nd flag) as [lc'|e|u]; [|destruct K as (_ & _ & _ & K); rewrite K in E; discriminate E|destruct K].
  destruct K as [Co' K]. assert (lc' = lc) as -> by exact (correction_unique _ _ _ _ _ Co' Co).
  destruct K as [[Oc _]|(Oc & sg & dom & U & Is & Gt & R & Q)]; [elim (proj1 (searched_other _ _) Se Oc)|]. rewrite Q in E.
  destruct (search_result sg (lc_source lc) (lc_dest lc) radius dom U Is Gt _ _ _ E) as [[X _]|(l & d & st & x & k & X & L & W & N & _)]; [discriminate X|].
  inversion X; subst path. exists l, (route_length sg (lc_source lc) l). split; [reflexivity|]. split; [exact (linked_journey sg dom _ U R l _ _ Is L)|].
  intros l' r' J W'. destruct (journey_linked sg _ R _ _ _ _ J) as [L' ->].
  exact (search_optimal sg (lc_source lc) (lc_dest lc) radius dom U Is Gt w Fw Bw (en_pick en) fuel l Mn E l' L' W').
Qed.
End Query.

(** ** The rounding factors *)
Lemma pow_below n : (1 + uu) ^ n * (1 - uu) ^ n <= 1.
Proof.
  rewrite <- Rpow_mult_distr. apply Rle_trans with (1 ^ n); [apply pow_incr; unfold uu; lra|rewrite pow1; apply Rle_refl].
Qed.
Lemma bernoulli n : 1 - INR n * uu <= (1 - uu) ^ n.
Proof.
  induction n as [|n IH]; [cbn; lra|]. rewrite S_INR. cbn [pow]. assert (0 <= INR n) by apply pos_INR.
  destruct (Rle_or_lt 0 (1 - INR n * uu)) as [P|P].
  - assert (U : uu = 1 / 9007199254740992) by reflexivity. apply Rle_trans with ((1 - uu) * (1 - INR n * uu)); [nra|]. apply Rmult_le_compat_l; lra.
  - apply Rle_trans with 0; [unfold uu in *; lra|]. apply Rmult_le_pos; [unfold uu; lra|apply pow_le; unfold uu; lra].
Qed.
Lemma few_steps n : (Z.of_nat n <= 1048578)%Z -> 1 - / 8589000000 <= (1 - uu) ^ n /\ (1 + uu) ^ n <= 1 + / 8588000000.
Proof.
  intros L. assert (In' : INR n <= 1048578) by (rewrite INR_IZR_INZ; apply IZR_le; exact L).
  pose proof (bernoulli n) as B. pose proof (pow_below n) as P. assert (U : uu = 1 / 9007199254740992) by reflexivity.
  assert (B' : 1 - / 8589000000 <= (1 - uu) ^ n) by (rewrite U in *; lra). split; [exact B'|].
  assert (Q : 0 <= (1 + uu) ^ n) by (apply pow_le; lra). nra.
Qed.
(** up to a million points per path all the rounding together stays below one part in two billion *)
Lemma rounding_factor r W r' n m : 0 <= r -> 1 <= W -> 0 <= r' -> (Z.of_nat n <= 1048576)%Z -> (Z.of_nat m <= 1048576)%Z ->
  r * ((1 - u5) * (1 - uu) ^ n) <= W * r' * ((1 + u5) * (1 + uu) ^ (m + 2)) -> r <= W * r' * (1 + / 2000000000).
Proof.
  intros Pr PW Pr' Ln Lm H. destruct (few_steps n) as [A _]; [lia|]. destruct (few_steps (m + 2)) as [_ B]; [lia|].
  pose proof u5_val as U5. set (x := (1 - uu) ^ n) in *. set (y := (1 + uu) ^ (m + 2)) in *.
  assert (Q : 0 <= W * r') by (apply Rmult_le_pos; lra). set (q := W * r') in *. clearbody x y q.
  assert (Lo : r * (1 - / 8000000000) <= r * ((1 - u5) * x)) by (apply Rmult_le_compat_l; [exact Pr|]; rewrite U5; apply Rle_trans with ((1 - 5 / 9007199254740992) * (1 - / 8589000000)); [lra|apply Rmult_le_compat_l; lra]).
  assert (Hi : q * ((1 + u5) * y) <= q * (1 + / 8000000000)).
  { apply Rmult_le_compat_l; [exact Q|]. rewrite U5. apply Rle_trans with ((1 + 5 / 9007199254740992) * (1 + / 8588000000)); [apply Rmult_le_compat_l; lra|lra]. }
  assert (M : r * (1 - / 8000000000) <= q * (1 + / 8000000000)) by lra.
  apply Rmult_le_reg_r with (1 - / 8000000000); [lra|]. eapply Rle_trans; [exact M|]. rewrite Rmult_assoc. apply Rmult_le_compat_l; [exact Q|lra].
Qed.
Lemma journey_pos roads u l t r : journey roads u l t r -> 0 <= r.
Proof. induction 1 as [u|u v f l t r R J IH]; [lra|]. pose proof (edge_length_pos f u v). lra. Qed.
