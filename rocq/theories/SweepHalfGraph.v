(** What the half scans come to in the generated graph. *)
From Coq Require Import ZArith Bool List Lia.
From Verif Require Import Base F64 Coordinate Segment Polyline Polygon Periodicity PeriodicityFacts Graph Visgraph VisgraphFacts SpecGeom SpecGraph CoordinateFacts PolylineFacts
  PolygonMore GraphFacts GraphMore Sweep SweepFacts SweepMaps SweepGen AngleFacts AngleSort SweepHalf SweepGraph.
Import ListNotations.
Local Open Scope Z_scope.

(** every copy of a vertex on or above the parallel of another is joined to it, or blocked from it *)
Theorem half_graph atan2 ords ps : accurate_atan2 atan2 -> (forall v, library_orders (ords v)) -> Forall clear_polygon ps ->
  (forall o, In o (polygon_vertices ps) -> swo_on (less_b atan2 o) (polygon_vertices (map_copies ps))) ->
  exists g, generate (fun v => vis_periodic atan2 (ords v) ps v) ps = Ok g /\
    forall a b k, In a (polygon_vertices ps) -> In b (polygon_vertices ps) -> a <> b -> lat a <= lat b -> -1 <= k <= 1 ->
      (has_edge g a b = Ok true /\ (k = 0 -> is_edge_meridian_crossing g a b <> Ok true)) \/ blocked_vertex (map_copies ps) a (wrap k b).
Proof.
  intros T L F W.
  assert (Gv : forall c, In c (polygon_vertices ps) -> ngeo c).
  { intros c I. apply in_polygon_vertices in I. destruct I as (P & HP & I). rewrite Forall_forall in F. destruct (clear_polygon_facts P (F P HP)) as (X & _).
    rewrite Forall_forall in X. apply X, I. }
  assert (Gp : forall c, In c (polygon_vertices (map_copies ps)) -> pgeo c).
  { intros c C. apply copies_vertices in C. destruct C as (v & k & V & K & ->). apply (copy_facts v _ (Gv v V) (copy_of_wrap v k K)). }
  pose proof (periodic_reports atan2 ords ps L Gv) as R. set (vis := fun v => vis_periodic atan2 (ords v) ps v) in *.
  destruct (generate_ok ps vis R) as (g & E & _). exists g. split; [exact E|]. intros a b k A B D La K.
  destruct (generate_edges ps vis g a b R E A B D) as [H1 H2].
  assert (Ga := Gv a A). assert (Gb := Gv b B).
  destruct (half_exact atan2 (ords a) (map_copies ps) a T (L a) (ngeo_pgeo a Ga)) as (res & seen & _ & _ & Rs & _ & Fr & _ & _ & _ & _ & H); [destruct Ga; lia|exact Gp|apply W, A|].
  destruct (H (wrap k b)) as [Is|Bl]; [apply copies_vertices; exists b, k; auto| |cbn [wrap lat]; lia| |right; exact Bl].
  { intros X. rewrite <- (wrap_0 a) in X. destruct (wrap_home _ _ _ _ Gb Ga X). congruence. }
  left. destruct (Forall2_at _ _ _ _ Fr Is) as (x & X & Nc & Ac).
  destruct (copy_facts b _ Gb (copy_of_wrap b k K)) as (_ & Nv & _).
  assert (Rep : reported vis a b (negb (k =? 0))).
  { exists res, x. split; [|split; [exact X|split; [congruence|rewrite Ac; apply copy_meridian, Gb]]].
    unfold vis, vis_periodic. rewrite (periodic_polygons_ok ps F). cbn [bind]. rewrite copies_translates. exact Rs. }
  split; [apply H1; eauto|]. intros -> Cr. apply H2 in Cr. destruct Cr as [_ Cr]. specialize (Cr false (or_introl Rep)). discriminate Cr.
Qed.
