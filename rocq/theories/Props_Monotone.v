(** C81: a larger radius and more edges lose no path.  Beside each theorem an example meets its
    hypotheses. *)
From Coq Require Import ZArith Reals Bool List Lia Lra Psatz Permutation.
From Flocq Require Import Core.
From Flocq Require Import BinarySingleNaN.
From Verif Require Import Base F64 Coordinate Segment Polygon SpecGeom SpecGraph F64Facts CoordinateFacts SegmentFacts Periodicity PeriodicityFacts
  Graph GraphFacts GraphMore Overlay OverlayFacts Visgraph Sweep SweepFacts SweepMaps SweepGen SweepCases
  ShortestPath DistFacts SearchFacts SearchSpec SearchGraph SearchQuery PathFacts PathMore PathMonotone Props_Path.
Import ListNotations.
Local Open Scope R_scope.

(** ** Two graphs for the examples: one way from [S0] to [T0], and both *)
Definition one_way : graph := match grun (make_graph map0) [GAdd S0 Q0 false; GAdd Q0 T0 false] with Ok g => g | _ => make_graph [] end.
Lemma one_way_fit pick w : fit_for_queries (en0 pick w) one_way.
Proof.
  split; [exists map0, [GAdd S0 Q0 false; GAdd Q0 T0 false]; split; [repeat constructor|vm_compute; reflexivity]|].
  destruct (en0_fit pick w) as (_ & G & R & S & X). split; [|split; [exact R|split; [exact S|exact X]]].
  intros c I. vm_compute in I. repeat (destruct I as [<-|I]; [split; vm_compute; congruence|]). destruct I.
Qed.
Lemma one_way_extends : extends one_way g0.
Proof.
  split; [intros c; reflexivity|]. intros u v f H C.
  assert (I : forall c i, coordinate_to_index one_way c = Ok i -> In c (polygon_vertices map0)).
  { intros c i E. apply (built_has_vertex map0 [GAdd S0 Q0 false; GAdd Q0 T0 false] one_way); [vm_compute; reflexivity|].
    unfold has_vertex. unfold coordinate_to_index in E. match type of E with match ?x with _ => _ end = _ => destruct x end; [reflexivity|discriminate E]. }
  unfold has_edge in H. destruct (coord_eqb u v) eqn:Uv; [discriminate H|].
  destruct (coordinate_to_index one_way u) as [i|e|k] eqn:Eu; try discriminate H.
  destruct (coordinate_to_index one_way v) as [j|e|k] eqn:Ev; try discriminate H. cbn [bind] in H.
  assert (H' : has_edge one_way u v = Ok true) by (unfold has_edge; rewrite Uv, Eu, Ev; exact H). clear H.
  apply I in Eu, Ev. vm_compute in Eu, Ev.
  repeat (destruct Eu as [<-|Eu]; [repeat (destruct Ev as [<-|Ev];
    [first [vm_compute in H'; discriminate H'|vm_compute in C; injection C as <-; split; vm_compute; reflexivity]|]); destruct Ev|]). destruct Eu.
Qed.
Lemma one_way_path : shortest_path 10 (en0 first_best f_1) one_way S0 T0 f_max true = Some (Ok [S0; Q0; T0]).
Proof. vm_compute. reflexivity. Qed.

(** ** C81: more edges, a larger radius *)
Theorem C81_more_roads_partial : forall en en' g g' source destination radius radius' flag,
  fit_for_queries en g -> fit_for_queries en' g' -> in_the_map source -> in_the_map destination ->
  en_index en = en_index en' -> en_vis en = en_vis en' -> extends g g' -> farther radius radius' ->
  forall fuel fuel' path r',
  shortest_path fuel en g source destination radius flag = Some (Ok path) ->
  shortest_path fuel' en' g' source destination radius' flag = Some r' ->
  exists path' lc, r' = Ok path' /\ correction_of en source destination lc /\
    ((~ searched en lc /\ path' = path) \/
     exists l r l' r', path = lc_source lc :: l /\ journey (road g (en_vis en) lc) (lc_source lc) l (lc_dest lc) r /\
       path' = lc_source lc :: l' /\ journey (road g' (en_vis en) lc) (lc_source lc) l' (lc_dest lc) r' /\
       forall w, minimal w (en_pick en') -> is_finite w = true -> Rabs (V w) <= bpow radix2 900 ->
         r' * ((1 - u5) * (1 - uu) ^ length l') <= Rmax 1 (V w) * r * ((1 + u5) * (1 + uu) ^ (length l + 2))).
Proof. exact more_roads. Qed.
Print Assumptions C81_more_roads_partial.
Example C81_ex : fit_for_queries (en0 first_best f_1) one_way /\ fit_for_queries (en0 first_best f_1) g0 /\ in_the_map S0 /\ in_the_map T0 /\
  extends one_way g0 /\ ~ extends g0 one_way /\ farther f_max f_max /\
  shortest_path 10 (en0 first_best f_1) one_way S0 T0 f_max true = Some (Ok [S0; Q0; T0]) /\
  shortest_path 10 (en0 first_best f_1) g0 S0 T0 f_max true = Some (Ok [S0; P0; T0]) /\
  minimal f_1 (en_pick (en0 first_best f_1)) /\ V f_1 = 1.
Proof.
  split; [apply one_way_fit|]. split; [apply en0_fit|]. split; [apply ends_in_the_map|]. split; [apply ends_in_the_map|].
  split; [exact one_way_extends|]. split.
  { intros [_ E]. destruct (E S0 P0 false) as [H _]; [vm_compute; reflexivity..|]. vm_compute in H. discriminate H. }
  split; [intros d _ H; exact H|]. split; [exact one_way_path|]. split; [exact first_path|]. split; [apply first_best_minimal|exact (proj1 V_f1)].
Qed.

(** a radius is farther than another when it is larger, and infinity is farther than all *)
Theorem C81_farther : forall radius radius',
  (is_finite radius = true -> is_finite radius' = true -> V radius <= V radius' -> farther radius radius') /\
  farther radius (B754_infinity false).
Proof.
  intros r r'. split; [apply farther_finite|]. intros d Fd _. destruct d; try discriminate Fd; reflexivity.
Qed.
Print Assumptions C81_farther.
Example C81_farther_ex : is_finite f_1 = true /\ is_finite f_max = true /\ V f_1 <= V f_max /\
  shortest_path 10 (en0 first_best f_1) g0 S0 T0 f_1 true = Some (Throw NoPath) /\
  shortest_path 10 (en0 first_best f_1) g0 S0 T0 f_max true = Some (Ok [S0; P0; T0]).
Proof.
  split; [reflexivity|]. split; [reflexivity|]. split; [|split; [vm_compute; reflexivity|exact first_path]].
  rewrite (proj1 V_f1). change (V f_max) with (IZR 9007199254740991 * bpow radix2 971).
  assert (1 <= bpow radix2 971) by (change 1 with (bpow radix2 0); apply bpow_le; lia). nra.
Qed.

(** more edges can lengthen the path: here adding two edges makes it longer, by less than the
    rounding lets the search see *)
Theorem C81_no_longer_refuted : ~ (forall en en' g g' source destination radius flag,
  fit_for_queries en g -> fit_for_queries en' g' -> in_the_map source -> in_the_map destination ->
  en_index en = en_index en' -> en_vis en = en_vis en' -> extends g g' ->
  forall fuel fuel' lc l l' r r' w, minimal w (en_pick en) -> minimal w (en_pick en') -> is_finite w = true -> V w = 1 ->
  correction_of en source destination lc ->
  shortest_path fuel en g source destination radius flag = Some (Ok (lc_source lc :: l)) ->
  shortest_path fuel' en' g' source destination radius flag = Some (Ok (lc_source lc :: l')) ->
  journey (road g (en_vis en) lc) (lc_source lc) l (lc_dest lc) r -> journey (road g' (en_vis en) lc) (lc_source lc) l' (lc_dest lc) r' -> r' <= r).
Proof.
  intros H. destruct C81_ex as (F & F' & Ms & Md & X & _ & _ & E & E' & M & W).
  assert (J : journey (road one_way (fun _ => Ok []) lc0) S0 [Q0; T0] T0 (edge_length false S0 Q0 + (edge_length false Q0 T0 + 0))).
  { constructor; [left; vm_compute; reflexivity|]. constructor; [left; vm_compute; reflexivity|]. constructor. }
  pose proof (H _ _ _ _ S0 T0 f_max true F F' Ms Md eq_refl eq_refl X 10%nat 10%nat lc0 [Q0; T0] [P0; T0] _ _ f_1
    M M eq_refl W (lc0_correction _ _) E E' J long_way) as L.
  destruct lengths0 as (A & B & C & D). rewrite A, B in L. lra.
Qed.
Print Assumptions C81_no_longer_refuted.
