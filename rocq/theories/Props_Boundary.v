(** Property theorems C74 (the boundary of a polygon) and C75 (its periodic copies). *)
From Coq Require Import ZArith Bool List Lia Permutation.
From Verif Require Import Base F64 Coordinate Segment Polygon Periodicity PeriodicityFacts CoordinateFacts SpecGeom
  Graph GraphFacts PolygonFacts PolygonMore Sweep SweepMaps SweepGeo Boundary Props_Polygon.
Import ListNotations.
Local Open Scope Z_scope.

(** C74.  The segments of a polygon are a closed chain through its vertices in order, whose
    shoelace sum is the area of the ring. *)
Theorem C74_closed_chain : forall p,
  length (get_line_segments p) = length (verts p) /\
  (forall i c, nth_error (verts p) i = Some c -> exists s, nth_error (get_line_segments p) i = Some s /\ e1 s = c) /\
  (forall i s t, nth_error (get_line_segments p) i = Some s ->
     nth_error (get_line_segments p) (if (S i =? length (verts p))%nat then 0 else S i) = Some t -> e2 s = e1 t) /\
  fold_right Z.add 0 (map (fun s => lon (e1 s) * lat (e2 s) - lat (e1 s) * lon (e2 s)) (get_line_segments p)) = ring_area (verts p).
Proof.
  intros p. split; [apply segments_length|]. split; [|split; [|apply segments_area]].
  - intros i c E. assert (I : (i < length (verts p))%nat) by (apply nth_error_Some; congruence).
    eexists. split; [apply segment_at, I|]. cbn [e1]. unfold vat. apply (nth_error_nth _ _ (mkC 0 0)) in E. exact E.
  - intros i s t S T. assert (I : (i < length (verts p))%nat) by (rewrite <- segments_length; apply nth_error_Some; congruence).
    rewrite segment_at in S by exact I. injection S as <-. cbn [e2]. unfold ring_next. rewrite next_cases by exact I. rewrite Nat.add_1_r.
    rewrite segment_at in T by (destruct (S i =? length (verts p))%nat eqn:E; [|apply Nat.eqb_neq in E]; lia).
    injection T as <-. reflexivity.
Qed.
Print Assumptions C74_closed_chain.

(** no segment of a polygon built from a ring without repetitions is a single point *)
Theorem C74_no_point : forall vs p s, Forall pgeo vs -> no_repeats vs -> make_polygon vs = Ok p ->
  In s (get_line_segments p) -> e1 s <> e2 s.
Proof. exact built_segments. Qed.
Print Assumptions C74_no_point.

(** the sweep over polygons without common or repeated vertices works on exactly these
    segments: each is held twice, once at each of its ends, and nowhere else *)
Theorem C74_sweep_segments_partial : forall ps, NoDup (concat (map verts ps)) ->
  Permutation (vt_segments (vistree_of_polygons ps)) (flat_map get_line_segments ps ++ flat_map get_line_segments ps) /\
  (forall c, In c (concat (map verts ps)) <-> exists ss, vm_find (vt_map (vistree_of_polygons ps)) c = Some ss) /\
  (forall c ss s, vm_find (vt_map (vistree_of_polygons ps)) c = Some ss ->
     (In s ss <-> In s (flat_map get_line_segments ps) /\ (e1 s = c \/ e2 s = c))).
Proof.
  intros ps N. split; [apply sweep_segments, N|]. split.
  - intros c. destruct (incident_map_good ps) as [[D _] K]. rewrite <- (K c). cbn [vt_map vistree_of_polygons]. split.
    + intros I. apply in_map_iff in I. destruct I as ([c' ss] & <- & I). exists ss. apply (in_find _ _ _ D), I.
    + intros (ss & F). apply find_in in F. apply in_map_iff. exists (c, ss). auto.
  - intros c ss s F. apply map_entries; assumption.
Qed.
Print Assumptions C74_sweep_segments_partial.

(** missing (finding): at a vertex of two polygons the sweep holds the segments of the last
    polygon only *)
Definition left_square : polygon := mkP [mkC 0 0; mkC 10 0; mkC 10 10; mkC 0 10].
Definition right_square : polygon := mkP [mkC 10 10; mkC 20 10; mkC 20 20; mkC 10 20].
Theorem C74_shared_vertex_refuted :
  ~ (forall ps c ss s, vm_find (vt_map (vistree_of_polygons ps)) c = Some ss ->
       In s (flat_map get_line_segments ps) -> e1 s = c \/ e2 s = c -> In s ss).
Proof.
  intros H. specialize (H [left_square; right_square] (mkC 10 10) [mkS (mkC 10 20) (mkC 10 10); mkS (mkC 10 10) (mkC 20 10)]
    (mkS (mkC 10 0) (mkC 10 10)) ltac:(vm_compute; reflexivity) ltac:(vm_compute; tauto) ltac:(right; reflexivity)).
  destruct H as [H|[H|[]]]; discriminate H.
Qed.
Print Assumptions C74_shared_vertex_refuted.

Example C74_example :
  get_line_segments left_square = [mkS (mkC 0 0) (mkC 10 0); mkS (mkC 10 0) (mkC 10 10); mkS (mkC 10 10) (mkC 0 10); mkS (mkC 0 10) (mkC 0 0)] /\
  ring_area (verts left_square) = 200 /\ NoDup (concat (map verts [left_square])) /\
  exists p, make_polygon vx = Ok p /\ length (get_line_segments p) = 5%nat.
Proof.
  split; [reflexivity|]. split; [reflexivity|]. split.
  - cbn. repeat (constructor; [cbn [In]; intuition discriminate|]). constructor.
  - eexists. split; [vm_compute; reflexivity|reflexivity].
Qed.

(** C75.  Coordinates and segments are copied one period to the east and one to the west,
    unmoved otherwise; the calls are undefined exactly when a copy does not fit 32 bits. *)
Theorem C75_coordinates : forall cs,
  ((forall c, In c cs -> -1787483647 <= lon c <= 1787483646) ->
    make_coordinates_periodic cs = Ok (flat_map (fun c => [c; mkC (lon c + 360000001) (lat c); mkC (lon c - 360000001) (lat c)]) cs)) /\
  ((exists c, In c cs /\ ~ (-1787483647 <= lon c <= 1787483646)) -> make_coordinates_periodic cs = UB SignedOverflow).
Proof.
  intros cs. split.
  - intros F. rewrite coordinates_periodic by (apply Forall_forall; exact F). f_equal. rewrite !flat_map_concat_map. f_equal. apply map_ext.
    intros c. unfold copies, shift, PolygonMore.east, west. cbn [lon lat]. rewrite !Z.add_0_r. reflexivity.
  - intros (c & I & N). apply (coordinates_fail cs c I). exact N.
Qed.
Print Assumptions C75_coordinates.

Theorem C75_segments : forall ss,
  ((forall s, In s ss -> -1787483647 <= lon (e1 s) <= 1787483646 /\ -1787483647 <= lon (e2 s) <= 1787483646) ->
    make_segments_periodic ss = Ok (flat_map (fun s => [s;
      mkS (mkC (lon (e1 s) + 360000001) (lat (e1 s))) (mkC (lon (e2 s) + 360000001) (lat (e2 s)));
      mkS (mkC (lon (e1 s) - 360000001) (lat (e1 s))) (mkC (lon (e2 s) - 360000001) (lat (e2 s)))]) ss)) /\
  ((exists s, In s ss /\ ~ (-1787483647 <= lon (e1 s) <= 1787483646 /\ -1787483647 <= lon (e2 s) <= 1787483646)) ->
    make_segments_periodic ss = UB SignedOverflow).
Proof.
  intros ss. split.
  - intros F. rewrite segments_periodic by (apply Forall_forall; exact F). f_equal. rewrite !flat_map_concat_map. f_equal. apply map_ext.
    intros s. unfold seg_copies, shift_seg, shift, PolygonMore.east, west. cbn [lon lat]. rewrite !Z.add_0_r. reflexivity.
  - intros (s & I & N). apply (segments_fail ss s I). exact N.
Qed.
Print Assumptions C75_segments.

(** copying the boundary is the boundary of the copies, for polygons whose copies are exact (C17) *)
Theorem C75_boundary_of_copies : forall ps, Forall clear_polygon ps ->
  exists pps ss, make_polygons_periodic ps = Ok pps /\ make_segments_periodic (flat_map get_line_segments ps) = Ok ss /\
    Permutation ss (flat_map get_line_segments pps).
Proof. exact boundary_of_copies. Qed.
Print Assumptions C75_boundary_of_copies.

Example C75_example :
  make_coordinates_periodic [mkC (-1787483647) 4; mkC 9 1] =
    Ok [mkC (-1787483647) 4; mkC (-1427483646) 4; mkC (-2147483648) 4; mkC 9 1; mkC 360000010 1; mkC (-359999992) 1] /\
  make_segments_periodic [mkS (mkC 0 0) (mkC 1787483647 0)] = UB SignedOverflow /\
  exists p, make_polygon vx = Ok p /\ Forall clear_polygon [p].
Proof.
  split; [reflexivity|]. split; [reflexivity|]. destruct C17_example as (p & E & C & _). exists p. split; [exact E|]. constructor; [exact C|constructor].
Qed.
