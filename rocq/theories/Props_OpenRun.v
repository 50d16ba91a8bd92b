(** C91: from a shape file of any map to a path, no way through open water is missed. *)
From Coq Require Import ZArith Reals Bool List Lia Lra Permutation String.
From Flocq Require Import Core BinarySingleNaN.
From Verif Require Import Base F64 Coordinate Segment Polygon PolygonMore Polyline PolylineFacts Periodicity Graph GraphFacts GraphMore Visgraph VisgraphFacts SpecGeom SpecGraph F64Facts CoordinateFacts Serializer SerializerMore
  Sweep SweepFacts SweepMaps SweepGen SweepOrder AngleFacts AngleSort SweepGeo SweepGraph
  ShortestPath DistFacts SearchFacts SearchSpec SearchGraph SearchQuery PathFacts PathMore FreePaths OpenWater PyLayer PyFacts Pipeline PipelineFacts PipelineFree PipelineOpen
  Props_Path Props_Python Props_Pipeline Props_Exact Props_EndToEnd Props_Open.
Import ListNotations.
Local Open Scope Z_scope.

(** C91.  A graph generated in one run: every query between points at sea ends with a path no longer
    than any route through open water, or with none if there is no such route. *)
Theorem C91_one_run : forall atan2 ords shapes ps out s limit, accurate_atan2 atan2 -> (forall v, library_orders (ords v)) ->
  mapped_shapes atan2 shapes ps limit -> fresh s out ->
  exists s', generate_cmd (fun ps v => vis_periodic atan2 (ords v) ps v) (Ok shapes) out s = (s', Ok tt) /\ answers_open atan2 ps limit out s'.
Proof. exact generate_open. Qed.
Print Assumptions C91_one_run.
(** the same of a graph generated in splits and merged *)
Theorem C91_splits : forall atan2 ords shuffle enum shapes ps (num : nat) dir inputs out s limit, accurate_atan2 atan2 -> (forall v, library_orders (ords v)) ->
  (forall l, Permutation (shuffle l) l) -> enumerates enum -> mapped_shapes atan2 shapes ps limit -> ps <> [] ->
  (1 <= num)%nat -> NoDup (map dir (seq 0 num)) -> (forall i, (i < num)%nat -> fresh s (dir i)) ->
  Permutation inputs (map dir (seq 0 num)) -> fresh s out -> ~ In out inputs ->
  let vis := fun ps v => vis_periodic atan2 (ords v) ps v in
  exists s1 s2, sequence (map (fun cur => generate_range_cmd vis shuffle (Ok shapes) (dir cur) (Z.of_nat cur) (Z.of_nat num)) (seq 0 num)) s = (s1, Ok tt) /\
    merge_cmd limit enum inputs out s1 = (s2, Ok tt) /\ answers_open atan2 ps limit out s2.
Proof. exact distributed_open. Qed.
Print Assumptions C91_splits.

(** the bay of C90 as a shape file *)
Lemma bay_shapes atan2 : accurate_atan2 atan2 -> mapped_shapes atan2 (map shape_of bay) bay 10000.
Proof.
  intros A. destruct (shapes_of_ok bay) as [W E]; [vm_compute; reflexivity|].
  destruct (bay_mapped atan2 (fun _ => plain_orders) A (fun _ => plain_orders_ok)) as (g & _ & _ & F & Cc & Sw & _).
  split; [exact W|]. split; [exact E|]. split; [apply read_b_ok; vm_compute; reflexivity|]. split; [exact F|]. split; [exact Cc|]. split; [exact Sw|]. split; vm_compute; congruence.
Qed.
(** from inside the bay to the sea south of it *)
Example C91_ex : forall atan2 ords, accurate_atan2 atan2 -> (forall v, library_orders (ords v)) ->
  fresh disk ["out"%string] /\ mapped_shapes atan2 (map shape_of bay) bay 10000 /\
  exists s' g fuel path, generate_cmd (fun ps v => vis_periodic atan2 (ords v) ps v) (Ok (map shape_of bay)) ["out"%string] disk = (s', Ok tt) /\
    load_graph_from_file 10000 (default_graph_path ["out"%string]) s' = Ok g /\
    interpolate_cmd 10000 ["out"%string] (bay_env atan2 ords) fuel (place 10 15) (place 10 (-10)) f_max true s' = Some (Ok (convert path)).
Proof.
  intros atan2 ords A L. assert (Fr : fresh disk ["out"%string]) by (repeat split). split; [exact Fr|]. split; [exact (bay_shapes atan2 A)|].
  set (s := mkC 10000000 15000000). set (d := mkC 10000000 (-10000000)).
  assert (E1 : vis_coord (place 10 15) = Ok s) by (vm_compute; reflexivity). assert (E2 : vis_coord (place 10 (-10)) = Ok d) by (vm_compute; reflexivity).
  destruct (C91_one_run atan2 ords _ _ _ _ _ A L (bay_shapes atan2 A) Fr) as (s' & E & g & Eg & H). exists s', g.
  destruct (H ords (bay_env atan2 ords) (place 10 15) (place 10 (-10)) s d s d f_max true E1 E2 (bay_query atan2 ords g L)) as (n & K).
  exists n. destruct (K n (le_n n)) as [(path & R & _)|(_ & X)].
  - exists path. split; [exact E|]. split; [exact Eg|exact R].
  - exfalso. apply X. destruct bay_route as [(r & Ro) Wi]. eexists _, r. split; [exact Ro|exact Wi].
Qed.
(** and in three splits *)
Example C91_splits_ex : forall atan2, accurate_atan2 atan2 ->
  (forall l, Permutation (rotate l) l) /\ enumerates distinct /\ mapped_shapes atan2 (map shape_of bay) bay 10000 /\ bay <> [] /\
  NoDup (map split_dir (seq 0 3)) /\ (forall i, (i < 3)%nat -> fresh split_disk (split_dir i)) /\
  Permutation [split_dir 2; split_dir 0; split_dir 1] (map split_dir (seq 0 3)) /\ fresh split_disk ["out"%string] /\
  ~ In ["out"%string] [split_dir 2; split_dir 0; split_dir 1].
Proof.
  intros atan2 T. destruct C66_ex as (_ & A & B & _ & C & D & E & F & G & _). split; [exact A|]. split; [exact B|]. split; [exact (bay_shapes atan2 T)|]. split; [discriminate|].
  split; [exact C|]. split; [exact D|]. split; [exact E|]. split; [exact F|exact G].
Qed.
