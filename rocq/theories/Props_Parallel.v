(** C71: failures inside the parallel loops. *)
From Coq Require Import ZArith Bool List Lia String.
From Verif Require Import Base F64 Coordinate Segment Polygon Graph SpecGraph GraphFacts GraphMore Visgraph VisgraphFacts ParallelFacts
  Sweep SweepFacts SweepMaps SweepGen SweepCases AngleFacts AngleSort PyLayer Pipeline PipelineFacts Props_Visgraph Props_Python Props_Pipeline.
Import ListNotations.

(** C71.  False of the code: an exception inside a parallel loop is not caught there, so the
    program is terminated.  The command generating a triangle that reaches to 181 degrees never
    returns to its caller, whatever the arctangent and the orders; it leaves a directory. *)
Definition meridian_shape : shape :=
  mkSh true [(fz 179, fz 0); (fz 181, fdiv (fz 1) (fz 10)); (fz 180, fz 1); (fz 179, fz 0)] [0]%nat.
Theorem C71_failure_reported_refuted : forall atan2 ords out s, accurate_atan2 atan2 -> (forall v, library_orders (ords v)) -> fresh s out ->
  generate_cmd (fun ps v => vis_periodic atan2 (ords v) ps v) (Ok [meridian_shape]) out s = (put out Dir s, UB EscapesParallel).
Proof.
  intros atan2 ords out s T L (F1 & F2 & F3). unfold generate_cmd, andthen, effect, mkdir, lift. rewrite F1, F2. cbn [is_dir bind].
  replace (read_polygons_from_shapefile [meridian_shape]) with (Ok meridian_triangle) by (vm_compute; reflexivity).
  rewrite (meridian_throws atan2 ords T L). reflexivity.
Qed.
Print Assumptions C71_failure_reported_refuted.
Example C71_ex : fresh disk ["out"%string] /\ library_orders plain_orders.
Proof. split; [repeat split|exact plain_orders_ok]. Qed.

(** C71, exactly when: a vertex the loop sweeps reports a place that is no vertex of the map.
    Otherwise there is a graph.  Missing: an exception for the caller (false, above). *)
Theorem C71_aborts_partial : forall ps vis shuffled s e, (forall v, In v (polygon_vertices ps) -> exists xs, vis v = Ok xs) ->
  ((exists g, generate vis ps = Ok g) \/ generate vis ps = UB EscapesParallel) /\
  (generate vis ps = UB EscapesParallel <-> exists v, In v (polygon_vertices ps) /\ strays ps vis v) /\
  ((forall v, In v shuffled -> In v (polygon_vertices ps)) -> (e <= List.length (polygon_vertices ps))%nat -> (s <= e)%nat -> ps <> [] ->
   (generate_with_shuffled_range vis ps s e shuffled = UB EscapesParallel <-> exists v, In v (firstn (e - s) (skipn s shuffled)) /\ strays ps vis v)).
Proof. exact generation_aborts. Qed.
Print Assumptions C71_aborts_partial.
(** a report of a place off the map, found by the second of two splits only *)
Definition lost_vis : vis_oracle := fun v => Ok (if coord_eqb v (mkC 0 0) then [] else [mkV (mkC 7 7) false]).
Definition lost_map : list polygon := [mkP [mkC 0 0; mkC 10 0; mkC 0 10]].
Example C71_aborts_ex : (forall v, In v (polygon_vertices lost_map) -> exists xs, lost_vis v = Ok xs) /\ lost_map <> [] /\
  is_ok (generate_with_shuffled_range lost_vis lost_map 0 1 (polygon_vertices lost_map)) = true /\
  generate_with_shuffled_range lost_vis lost_map 1 3 (polygon_vertices lost_map) = UB EscapesParallel /\ generate lost_vis lost_map = UB EscapesParallel.
Proof. split; [intros v _; eexists; reflexivity|]. split; [discriminate|]. repeat split; vm_compute; reflexivity. Qed.

(** C71, what callers can see: generating and merging never raise an exception, generating a
    range raises only for a range outside the vertices. *)
Theorem C71_exceptions_partial : forall vis ps polys gs s e shuffled x,
  generate vis ps <> Throw x /\ merge_graphs polys gs <> Throw x /\
  (generate_with_shuffled_range vis ps s e shuffled = Throw x -> x = ImproperRange).
Proof.
  intros. split; [apply in_parallel_throws|]. split; [apply in_parallel_throws|]. apply range_throws.
Qed.
Print Assumptions C71_exceptions_partial.
Example C71_exceptions_ex : generate_with_shuffled_range lost_vis lost_map 1 4 (polygon_vertices lost_map) = Throw ImproperRange.
Proof. reflexivity. Qed.
