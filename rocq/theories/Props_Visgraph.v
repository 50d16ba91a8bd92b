(** Property theorems C29-C31 (visgraph_generator.cpp, graph_generator.py, graph_merger.py).
    The visibility computation of one vertex is any function [vis] that names polygon
    vertices. *)
From Coq Require Import ZArith Bool List Lia Permutation.
From Verif Require Import Base F64 Coordinate Segment Polygon Graph SpecGraph GraphFacts GraphMore
  Serializer SpecFile SerializerMore Visgraph VisgraphFacts.
Import ListNotations.
Local Open Scope Z_scope.

(** ** Example map *)
Definition exv_ps : list polygon := [mkP [mkC 10 0; mkC 0 10; mkC 0 0]; mkP [mkC 100 0; mkC 110 0; mkC 120 20; mkC 100 10]].
(** every vertex sees two others, sometimes across the meridian; (0,0) and (100,10) disagree *)
Definition exv_vis (v : coord) : res (list visible) :=
  if lon v =? 0 then Ok [mkV (mkC 100 10) true; mkV (mkC 10 0) false]
  else if lon v =? 100 then Ok [mkV (mkC 0 0) false; mkV (mkC 120 20) true] else Ok [].
Definition exv_shuffled : list coord :=
  [mkC 110 0; mkC 0 10; mkC 120 20; mkC 100 0; mkC 0 0; mkC 100 10; mkC 10 0].
Lemma exv_reports : reports exv_ps exv_vis.
Proof.
  intros v Hv. repeat (destruct Hv as [<-|Hv]; [eexists; split; [reflexivity|]; intros x Hx;
    repeat (destruct Hx as [<-|Hx]; [vm_compute; tauto|]); destruct Hx|]). destruct Hv.
Qed.
Lemma exv_perm : Permutation exv_shuffled (polygon_vertices exv_ps).
Proof.
  apply NoDup_Permutation.
  - unfold exv_shuffled. repeat (constructor; [intros H; repeat (destruct H as [H|H]; [discriminate H|]); destruct H|]). constructor.
  - repeat (constructor; [intros H; repeat (destruct H as [H|H]; [discriminate H|]); destruct H|]). constructor.
  - intros x. vm_compute. tauto.
Qed.

(** C29.  The bounds of split [cur] of [num] are within the vertices, and every vertex index
    lies in exactly one split. *)
Theorem C29_split_ranges : forall (n : nat) (num : Z), 1 <= num ->
  (forall cur, 0 <= cur < num -> 0 <= split_start (Z.of_nat n) cur num <= split_end (Z.of_nat n) cur num /\ split_end (Z.of_nat n) cur num <= Z.of_nat n) /\
  forall i, 0 <= i < Z.of_nat n -> exists! cur, 0 <= cur < num /\ split_start (Z.of_nat n) cur num <= i < split_end (Z.of_nat n) cur num.
Proof. exact split_ranges. Qed.
Print Assumptions C29_split_ranges.

(** The number which the ranges are computed from is the number of vertices of the map, so that
    every vertex of the shuffled list is at a place of exactly one split. *)
Theorem C29_every_vertex : forall ps shuffled (num : Z), ps <> [] -> Permutation shuffled (polygon_vertices ps) -> 1 <= num ->
  exists n, num_vertices_in_polygons ps = Ok n /\
    forall i v, nth_error shuffled i = Some v ->
      exists! cur, 0 <= cur < num /\ split_start n cur num <= Z.of_nat i < split_end n cur num.
Proof.
  intros ps shuffled num NE P N. exists (Z.of_nat (length (polygon_vertices ps))). split; [exact (num_vertices ps NE)|].
  intros i v E. apply (proj2 (split_ranges (length (polygon_vertices ps)) num N)).
  assert (H : (i < length shuffled)%nat) by (apply nth_error_Some; rewrite E; discriminate).
  rewrite (Permutation_length P) in H. lia.
Qed.
Print Assumptions C29_every_vertex.

Example C29_every_vertex_ex : num_vertices_in_polygons exv_ps = Ok 7 /\ nth_error exv_shuffled 6 = Some (mkC 10 0) /\
  split_start 7 2 3 <= 6 < split_end 7 2 3 /\ exv_ps <> [] /\ Permutation exv_shuffled (polygon_vertices exv_ps).
Proof. split; [reflexivity|]. split; [reflexivity|]. split; [vm_compute; split; congruence|]. split; [discriminate|exact exv_perm]. Qed.

Example C29_example :
  map (fun cur => (split_start 11 cur 4, split_end 11 cur 4)) [0; 1; 2; 3] = [(0, 2); (2, 4); (4, 6); (6, 11)] /\
  map (fun cur => (split_start 2 cur 3, split_end 2 cur 3)) [0; 1; 2] = [(0, 0); (0, 0); (0, 2)].
Proof. vm_compute. auto. Qed.

(** A split number outside 0..num-1 is not always rejected. *)
Example C29_out_of_range : map (fun cur => (split_start 5 cur 2, split_end 5 cur 2)) [0; 1; 2] = [(0, 2); (2, 5); (4, 5)].
Proof. vm_compute. reflexivity. Qed.

(** C30.  All splits succeed; merged in any order, on any ordering of the polygon set, they
    answer every query as the graph generated in one go. *)
Theorem C30_distributed : forall ps vis shuffled (num : nat),
  ps <> [] -> reports ps vis -> Permutation shuffled (polygon_vertices ps) -> (1 <= num)%nat ->
  exists gs g,
    mapM (fun cur => generate_for_vertex_range vis ps (Z.of_nat cur) (Z.of_nat num) shuffled) (seq 0 num) = Ok gs /\
    generate vis ps = Ok g /\
    forall gs2 polys, Permutation gs2 gs -> (forall p, In p polys <-> In p ps) ->
    exists m, merge_graphs polys gs2 = Ok m /\ get_polygons m = polys /\
      forall a b, has_edge m a b = has_edge g a b /\
                  is_edge_meridian_crossing m a b = is_edge_meridian_crossing g a b.
Proof. exact distributed_total. Qed.
Print Assumptions C30_distributed.

Example C30_example : exv_ps <> [] /\ reports exv_ps exv_vis /\ Permutation exv_shuffled (polygon_vertices exv_ps) /\
  exists g, generate exv_vis exv_ps = Ok g /\ has_edge g (mkC 0 0) (mkC 100 10) = Ok true /\
    is_edge_meridian_crossing g (mkC 0 0) (mkC 100 10) = Ok false /\
    is_edge_meridian_crossing g (mkC 0 10) (mkC 100 10) = Ok true.
Proof.
  split; [discriminate|]. split; [exact exv_reports|]. split; [exact exv_perm|].
  eexists. split; [vm_compute; reflexivity|]. repeat split; vm_compute; reflexivity.
Qed.

(** The same when every split is saved to a file of its own and read back before the merge. *)
Theorem C30_distributed_files : forall ps vis shuffled (num : nat) limit,
  ps <> [] -> reports ps vis -> Permutation shuffled (polygon_vertices ps) -> (1 <= num)%nat -> fixed_map ps ->
  exists gs g,
    mapM (fun cur => generate_for_vertex_range vis ps (Z.of_nat cur) (Z.of_nat num) shuffled) (seq 0 num) = Ok gs /\
    generate vis ps = Ok g /\
    ((forall h, In h gs -> file_size h < 2 ^ 60 /\ file_size h <= limit) ->
     forall gs2 polys, Permutation gs2 gs -> (forall p, In p polys <-> In p ps) ->
     exists ls m, mapM (fun h => f <- serialize_to_file h None ;; deserialize_from_file limit f) gs2 = Ok ls /\
       merge_graphs polys ls = Ok m /\ get_polygons m = polys /\
       forall a b, has_edge m a b = has_edge g a b /\
                   is_edge_meridian_crossing m a b = is_edge_meridian_crossing g a b).
Proof. exact distributed_files_total. Qed.
Print Assumptions C30_distributed_files.

Example C30_files_example : fixed_map exv_ps /\
  exists gs, mapM (fun cur => generate_for_vertex_range exv_vis exv_ps (Z.of_nat cur) 3 exv_shuffled) (seq 0 3) = Ok gs /\
    map file_size gs = [111; 111; 111].
Proof.
  split.
  { unfold exv_ps. repeat (apply Forall_cons; [split; [vm_compute; reflexivity|repeat (apply Forall_cons; [split; vm_compute; split; discriminate|]); apply Forall_nil]|]).
    apply Forall_nil. }
  eexists. split; vm_compute; reflexivity.
Qed.

(** C31.  In whatever order the calls of the loop take effect the result is the same graph;
    it connects two vertices exactly when one reported the other, and marks the connection as
    crossing exactly when all reports do. *)
Theorem C31_schedule_independent : forall ps vis, reports ps vis ->
  exists g, generate vis ps = Ok g /\
    (forall calls, Permutation calls (flat_map (vertex_calls vis) (polygon_vertices ps)) -> parallel_generate ps calls = Ok g) /\
    forall a b, In a (polygon_vertices ps) -> In b (polygon_vertices ps) -> a <> b ->
      (has_edge g a b = Ok true <-> exists f, reported vis a b f \/ reported vis b a f) /\
      (is_edge_meridian_crossing g a b = Ok true <->
         has_edge g a b = Ok true /\ forall f, reported vis a b f \/ reported vis b a f -> f = true).
Proof. exact schedule_total. Qed.
Print Assumptions C31_schedule_independent.

Example C31_example : reports exv_ps exv_vis /\ reported exv_vis (mkC 0 0) (mkC 100 10) true /\
  reported exv_vis (mkC 100 10) (mkC 0 0) false /\
  length (flat_map (vertex_calls exv_vis) (polygon_vertices exv_ps)) = 8%nat.
Proof.
  split; [exact exv_reports|]. split; [|split; [|vm_compute; reflexivity]].
  - eexists. exists (mkV (mkC 100 10) true). split; [vm_compute; reflexivity|]. split; [left; reflexivity|auto].
  - eexists. exists (mkV (mkC 0 0) false). split; [vm_compute; reflexivity|]. split; [left; reflexivity|auto].
Qed.
