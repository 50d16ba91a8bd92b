(** Property theorem C77: visibility over a map given as segments
    (vistree_generator.cpp:17-33 and 40-45). *)
From Coq Require Import ZArith Bool List Lia Permutation.
From Verif Require Import Base F64 Coordinate Segment Polygon Periodicity Graph Visgraph SpecGeom
  CoordinateFacts PolylineFacts GraphFacts Sweep SweepFacts SweepMaps SweepGen AngleFacts AngleSort SweepForced SegmentTree.
Import ListNotations.
Local Open Scope Z_scope.

(** C77.  Full statement: for every list of segments, every observer and every list of
    candidate segments the call succeeds and answers as the generator built from the polygons
    does.  What holds for any arctangent and all orders of the library: the full scan succeeds
    exactly when the observer is not the end of a single segment; the reports are then
    distinct ends of the segments other than the observer, normalised. *)
Theorem C77_total_iff_partial : forall atan2 ord ss o,
  library_orders ord -> pgeo o -> (forall s, In s ss -> pgeo_seg s) ->
  ((exists res, get_visible_vertices atan2 ord (vistree_of_segments ss) o false = Ok res) <-> ends_at o ss <> 1%nat) /\
  (forall half, ends_at o ss <> 1%nat ->
     exists res seen, get_visible_vertices atan2 ord (vistree_of_segments ss) o half = Ok res /\ NoDup seen /\
       Forall2 reports_as seen res /\ (forall v, In v seen -> v <> o /\ exists s, In s ss /\ (e1 s = v \/ e2 s = v))).
Proof.
  intros atan2 ord ss o LO O G.
  assert (A : forall half, ends_at o ss <> 1%nat ->
     exists res seen, get_visible_vertices atan2 ord (vistree_of_segments ss) o half = Ok res /\ NoDup seen /\
       Forall2 reports_as seen res /\ (forall v, In v seen -> v <> o /\ exists s, In s ss /\ (e1 s = v \/ e2 s = v))).
  { intros half N. destruct (all_ok atan2 ord ss o LO O G half N) as (res & seen & R & D & F & S). exists res, seen.
    split; [exact R|]. split; [exact D|]. split; [exact F|]. intros v V. destruct (S v V) as [S1 S2]. apply ends_in in S1. split; assumption. }
  split; [|exact A]. split.
  - intros (res & R) N. rewrite (all_fails atan2 ord ss o LO O G N) in R. discriminate R.
  - intros N. destruct (A false N) as (res & _ & R & _). exists res. exact R.
Qed.
Print Assumptions C77_total_iff_partial.

(** with candidates: every end of a candidate must be an end of some segment of the map,
    otherwise the full scan throws *)
Theorem C77_candidates_partial : forall atan2 ord ss o cs,
  library_orders ord -> pgeo o -> (forall s, In s (ss ++ cs) -> pgeo_seg s) -> ends_at o ss <> 1%nat -> ss <> [] ->
  ((forall c, In c (ends cs) -> In c (ends ss)) -> forall half,
     exists res seen, get_visible_from_candidates atan2 ord (vistree_of_segments ss) o cs half = Ok res /\ NoDup seen /\
       Forall2 reports_as seen res /\ (forall v, In v seen -> In v (ends cs) /\ v <> o)) /\
  ((exists c, In c (ends cs) /\ c <> o /\ ~ In c (ends ss)) ->
     get_visible_from_candidates atan2 ord (vistree_of_segments ss) o cs false = Throw MapOutOfRange).
Proof.
  intros atan2 ord ss o cs LO O G N Ne.
  assert (G1 : forall s, In s ss -> pgeo_seg s) by (intros; apply G, in_or_app; auto).
  assert (G2 : forall s, In s cs -> pgeo_seg s) by (intros; apply G, in_or_app; auto).
  split.
  - intros K half. exact (proj1 (candidates_ok atan2 ord ss o LO O G1 cs half G2 N Ne) K).
  - exact (proj2 (candidates_ok atan2 ord ss o LO O G1 cs false G2 N Ne)).
Qed.
Print Assumptions C77_candidates_partial.

(** finding: standing at the end of a single segment reads past the end of a vector *)
Definition wall : segment := mkS (mkC 0 0) (mkC 10000000 0).
Theorem C77_lone_end_refuted : forall atan2 ord, library_orders ord ->
  get_visible_vertices atan2 ord (vistree_of_segments [wall]) (mkC 0 0) false = UB OutOfBounds.
Proof.
  intros atan2 ord LO. apply all_fails; [exact LO|unfold pgeo; cbn [lon lat]; lia| |reflexivity].
  intros s [<-|[]]. unfold pgeo_seg, pgeo. cbn [wall e1 e2 lon lat]. lia.
Qed.
Print Assumptions C77_lone_end_refuted.

(** finding: given the boundary of a polygon in order, the generator sees through the polygon
    from its first vertex, because the barrier there is built from the two segments in the
    wrong order *)
Definition block : polygon := mkP [mkC 0 0; mkC 10000000 0; mkC 10000000 10000000; mkC 0 10000000].
Theorem C77_first_vertex_refuted : forall atan2 ord, accurate_atan2 atan2 -> library_orders ord ->
  get_visible_vertices atan2 ord (vistree_of_segments (get_line_segments block)) (mkC 0 0) false =
    Ok [mkV (mkC 10000000 0) false; mkV (mkC 10000000 10000000) false; mkV (mkC 0 10000000) false] /\
  get_visible_vertices atan2 ord (vistree_of_polygons [block]) (mkC 0 0) false =
    Ok [mkV (mkC 10000000 0) false; mkV (mkC 0 10000000) false].
Proof.
  intros atan2 ord T L. split.
  - rewrite (forced_tree (vistree_of_segments (get_line_segments block)) (mkC 0 0) (verts block) false atan2 ord); try assumption;
      [|vm_compute; reflexivity|discriminate|apply segment_map_nodup].
    cbn [vistree_of_segments vt_segments vt_map]. rewrite (initial_skip (mkC 0 0) (o_segments ord (get_line_segments block))); [vm_compute; reflexivity|].
    intros s S. apply (Permutation_in _ (proj1 (proj2 L) _)) in S. repeat (destruct S as [<-|S]; [vm_compute; reflexivity|]). destruct S.
  - rewrite (forced [block] (mkC 0 0) (verts block) false atan2 ord); try assumption; [vm_compute; reflexivity|vm_compute; reflexivity|discriminate].
Qed.
Print Assumptions C77_first_vertex_refuted.

Example C77_example :
  library_orders plain_orders /\ accurate_atan2 atan2_real /\
  (forall s, In s (get_line_segments block) -> pgeo_seg s) /\ ends_at (mkC 0 0) (get_line_segments block) = 2%nat /\
  ends_at (mkC 5000000 (-5000000)) [wall] = 0%nat /\
  (forall c, In c (ends [wall]) -> In c (ends (get_line_segments block))).
Proof.
  split; [exact plain_orders_ok|]. split; [exact atan2_real_accurate|]. split; [|split; [reflexivity|split; [reflexivity|]]].
  - intros s S. vm_compute in S. repeat (destruct S as [<-|S]; [unfold pgeo_seg, pgeo; cbn [e1 e2 lon lat]; lia|]). destruct S.
  - intros c C. vm_compute in C |- *. tauto.
Qed.
