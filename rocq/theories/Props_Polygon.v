(** Property theorems C13-C17 (polygon.cpp and make_polygons_periodic). *)
From Coq Require Import ZArith Bool List Reals Sorted Lia.
From Verif Require Import Base F64 Coordinate Segment Polygon Periodicity CoordinateFacts SpecGeom
  SegmentFacts PolygonFacts PolygonFloat PolygonMore.
Import ListNotations.
Local Open Scope Z_scope.

Ltac in_range := repeat constructor; unfold pgeo, ngeo; cbn [lon lat]; lia.
Ltac no_reps := intros i Hi;
  do 8 (destruct i as [|i]; [first [vm_compute; discriminate|exfalso; vm_compute in Hi; lia]|]);
  exfalso; vm_compute in Hi; lia.

(** a square with a redundant vertex on each of two sides and a spike *)
Definition vx : list coord :=
  [mkC 0 0; mkC 0 500; mkC 0 1000; mkC 1000 1000; mkC 2000 1000; mkC 1000 1000; mkC 1000 0].

(** C13: the stored vertices are exactly the given ones that do not lie on the closed segment
    between their neighbours, in the given order or entirely reversed. *)
Theorem C13_construction_selects : forall vs, Forall pgeo vs ->
  exists p idx, make_polygon vs = Ok p /\
    StronglySorted lt idx /\
    (forall i, In i idx <-> (i < length vs)%nat /\ ~ straight_at vs i) /\
    (verts p = map (vat vs) idx \/ verts p = rev (map (vat vs) idx)).
Proof. exact construction_selects. Qed.
Print Assumptions C13_construction_selects.

(** after that no stored vertex lies between its (new) neighbours *)
Theorem C13_no_straight_left : forall vs p, Forall pgeo vs -> no_repeats vs -> make_polygon vs = Ok p ->
  (forall i, (i < length (verts p))%nat -> ~ straight_at (verts p) i) /\
  (vs <> [] -> (2 <= length (verts p))%nat).
Proof.
  intros vs p F N E. destruct (construction_no_straight vs p F N E) as (A & B & _). auto.
Qed.
Print Assumptions C13_no_straight_left.

Example C13_example : Forall pgeo vx /\ no_repeats vx /\
  make_polygon vx = Ok (mkP [mkC 1000 0; mkC 1000 1000; mkC 2000 1000; mkC 0 1000; mkC 0 0]).
Proof. split; [in_range|]. split; [no_reps|]. vm_compute. reflexivity. Qed.

(** C14 *)
Theorem C14_area_preserved_partial : forall vs p, Forall pgeo vs -> no_repeats vs -> make_polygon vs = Ok p ->
  Z.abs (ring_area (verts p)) = Z.abs (ring_area vs).
Proof. intros vs p F N E. apply (construction_no_straight vs p F N E). Qed.
Print Assumptions C14_area_preserved_partial.

(** missing from the full statement (finding): a vertex given twice in a row is dropped
    altogether, here turning a triangle into a two-vertex polygon *)
Theorem C14_duplicate_vertex_refuted :
  ~ (forall vs p, Forall ngeo vs -> make_polygon vs = Ok p ->
       Z.abs (ring_area (verts p)) = Z.abs (ring_area vs)).
Proof.
  intros H. specialize (H [mkC 0 0; mkC 10 0; mkC 10 0; mkC 0 10] (mkP [mkC 0 0; mkC 0 10])).
  assert (F : Forall ngeo [mkC 0 0; mkC 10 0; mkC 10 0; mkC 0 10]) by in_range.
  specialize (H F). vm_compute in H. specialize (H eq_refl). discriminate H.
Qed.
Print Assumptions C14_duplicate_vertex_refuted.

Example C14_example : ring_area vx = -2000000 /\ Forall pgeo vx /\ no_repeats vx.
Proof. split; [reflexivity|]. split; [in_range|no_reps]. Qed.

(** C15.  [built_in_some_order] is construction with the reduction of get_orientation_of_vertices
    summed in any order and bracketing; the source order is one of them (C15_source_order). *)
Theorem C15_counter_clockwise_partial : forall vs, Forall pgeo vs -> no_repeats vs -> clear_area vs ->
  (exists p, make_polygon vs = Ok p) /\
  forall p, built_in_some_order vs p ->
    0 < ring_area (verts p) /\ ring_area (verts p) = Z.abs (ring_area vs).
Proof. exact clear_ccw. Qed.
Print Assumptions C15_counter_clockwise_partial.
Theorem C15_source_order : forall vs p, Forall pgeo vs -> make_polygon vs = Ok p -> built_in_some_order vs p.
Proof. exact model_order. Qed.
Print Assumptions C15_source_order.

(** missing (finding): for slivers the double sum has the wrong sign *)
Definition sliver_cw : list coord := [mkC (-114077593) (-65318257); mkC 163252118 (-75568512); mkC (-14942047) (-68982360)].
Definition sliver_ccw : list coord := [mkC (-158091827) (-80998787); mkC 126980774 (-83307818); mkC (-118365660) (-81320561)].
Theorem C15_sliver_refuted :
  ~ (forall vs p, Forall ngeo vs -> no_repeats vs -> ring_area vs <> 0 -> make_polygon vs = Ok p -> 0 < ring_area (verts p)).
Proof.
  intros H. specialize (H sliver_cw (mkP sliver_cw)).
  assert (F : Forall ngeo sliver_cw) by in_range. assert (N : no_repeats sliver_cw) by no_reps.
  assert (E : make_polygon sliver_cw = Ok (mkP sliver_cw)) by (vm_compute; reflexivity).
  specialize (H F N ltac:(vm_compute; discriminate) E). vm_compute in H. discriminate H.
Qed.
Print Assumptions C15_sliver_refuted.
(** the converse mistake: a counter-clockwise ring is turned around *)
Example C15_ccw_reversed : ring_area sliver_ccw = 3 /\ make_polygon sliver_ccw = Ok (mkP (rev sliver_ccw)).
Proof. vm_compute. split; reflexivity. Qed.

Example C15_example : Forall pgeo vx /\ no_repeats vx /\ clear_area vx.
Proof.
  split; [in_range|]. split; [no_reps|]. split; [vm_compute; discriminate|]. exists 2000, 1000. split.
  - split; [lia|]. intros a b Ha Hb. unfold vx in *. simpl in Ha, Hb.
    decompose [or] Ha; decompose [or] Hb; subst; try tauto; vm_compute; split; discriminate.
  - vm_compute. reflexivity.
Qed.

(** C16 *)
Theorem C16_rebuild_partial : forall vs p, Forall pgeo vs -> no_repeats vs -> clear_area vs ->
  make_polygon vs = Ok p -> make_polygon (verts p) = Ok p.
Proof. exact rebuild_clear. Qed.
Print Assumptions C16_rebuild_partial.
(** without the area condition only the direction can change *)
Theorem C16_rebuild_or_reverse_partial : forall vs p, Forall pgeo vs -> no_repeats vs -> make_polygon vs = Ok p ->
  make_polygon (verts p) = Ok p \/ make_polygon (verts p) = Ok (mkP (rev (verts p))).
Proof. exact rebuild_any. Qed.
Print Assumptions C16_rebuild_or_reverse_partial.

Definition bow : list coord := [mkC 179999998 89999986; mkC 179999995 89999982; mkC 179999990 89999988; mkC 179999999 89999981].
(** findings: a tiny self-crossing ring flips at every rebuild; a ring with a repeated vertex
    loses a further vertex at the second construction *)
Theorem C16_rebuild_refuted :
  ~ (forall vs p, Forall ngeo vs -> no_repeats vs -> make_polygon vs = Ok p -> make_polygon (verts p) = Ok p).
Proof.
  intros H. specialize (H bow (mkP (rev bow))).
  assert (F : Forall ngeo bow) by in_range. assert (N : no_repeats bow) by no_reps.
  assert (E : make_polygon bow = Ok (mkP (rev bow))) by (vm_compute; reflexivity).
  specialize (H F N E). vm_compute in H. discriminate H.
Qed.
Print Assumptions C16_rebuild_refuted.
Example C16_duplicates_lose_vertices :
  make_polygon [mkC 0 0; mkC 10 0; mkC 15 5; mkC 15 5; mkC 20 0; mkC 10 20] = Ok (mkP [mkC 0 0; mkC 10 0; mkC 20 0; mkC 10 20]) /\
  make_polygon [mkC 0 0; mkC 10 0; mkC 20 0; mkC 10 20] = Ok (mkP [mkC 0 0; mkC 20 0; mkC 10 20]).
Proof. vm_compute. split; reflexivity. Qed.

(** C17 *)
Theorem C17_exact_translates_partial : forall ps, Forall clear_polygon ps ->
  make_polygons_periodic ps = Ok (concat (map translates ps)) /\
  (forall p q k, In p ps -> In q (translates p) -> (k < length (verts p))%nat ->
     length (verts q) = length (verts p) /\ normalize_coord (vat (verts q) k) = Ok (vat (verts p) k)).
Proof. exact periodic_polygons_full. Qed.
Print Assumptions C17_exact_translates_partial.

Definition sliver_copy : list coord := [mkC (-112106754) (-12090219); mkC 174476191 57608264; mkC 59316730 29600876].
(** finding: one copy of a sliver is turned around *)
Theorem C17_copy_reversed_refuted :
  ~ (forall vs p, Forall ngeo vs -> no_repeats vs -> make_polygon vs = Ok p ->
       make_polygons_periodic [p] = Ok (translates p)).
Proof.
  intros H. specialize (H sliver_copy (mkP sliver_copy)).
  assert (F : Forall ngeo sliver_copy) by in_range. assert (N : no_repeats sliver_copy) by no_reps.
  assert (E : make_polygon sliver_copy = Ok (mkP sliver_copy)) by (vm_compute; reflexivity).
  specialize (H F N E). vm_compute in H. discriminate H.
Qed.
Print Assumptions C17_copy_reversed_refuted.

Example C17_example : exists p, make_polygon vx = Ok p /\ clear_polygon p /\ length (verts p) = 5%nat.
Proof.
  eexists. split; [vm_compute; reflexivity|]. split; [|reflexivity].
  exists vx. split; [in_range|]. split; [no_reps|]. split; [apply C15_example|]. vm_compute. reflexivity.
Qed.
