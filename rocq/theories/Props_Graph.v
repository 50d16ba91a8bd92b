(** Property theorems C19-C24 and C28 (graph.cpp). *)
From Coq Require Import ZArith Bool List Permutation.
From Verif Require Import CoordinateFacts Base F64 Coordinate Segment Polygon Graph SpecGraph GraphFacts GraphMore.
Import ListNotations.
Local Open Scope Z_scope.

(** A map with two triangles, used in the examples below. *)
Definition ex_p1 : polygon := mkP [mkC 0 0; mkC 10 0; mkC 0 10].
Definition ex_p2 : polygon := mkP [mkC 100 0; mkC 110 0; mkC 100 10].
Definition ex_h : list gop :=
  [GAdd (mkC 0 0) (mkC 100 0) false; GAdd (mkC 10 0) (mkC 100 10) true;
   GAddDir (mkC 0 0) (mkC 10 0) true; GRem (mkC 100 0) (mkC 0 0);
   GAdd (mkC 100 0) (mkC 0 0) true; GAdd (mkC 10 0) (mkC 100 10) false].

(** C19.  After any history the edge queries answer as the history says. *)
Theorem C19_graph_is_edge_map : forall ps h,
  exists g, grun (make_graph ps) h = Ok g /\
  forall a b, In a (polygon_vertices ps) -> In b (polygon_vertices ps) -> a <> b ->
    has_edge g a b = Ok (spec_connected a b h) /\
    is_edge_meridian_crossing g a b = Ok (spec_crossing a b h).
Proof. exact history_is_edge_map. Qed.
Print Assumptions C19_graph_is_edge_map.

Example C19_example :
  (spec_connected (mkC 0 0) (mkC 100 0) ex_h, spec_crossing (mkC 0 0) (mkC 100 0) ex_h,
   spec_connected (mkC 10 0) (mkC 100 10) ex_h, spec_crossing (mkC 10 0) (mkC 100 10) ex_h,
   spec_connected (mkC 10 0) (mkC 0 0) ex_h) = (true, true, true, false, false).
Proof. reflexivity. Qed.

(** C20.  Full statement: for every history, [In u (get_neighbors v) <-> has_edge v u].
    Proved for undirected histories, with symmetry and absence of self loops; for directed
    histories the neighbour list is that of the reversed edges, which refutes the full one. *)
Theorem C20_neighbors_undirected_partial : forall ps h g v,
  Forall undirected h -> grun (make_graph ps) h = Ok g -> In v (polygon_vertices ps) ->
  exists l, get_neighbors g v = Ok l /\ NoDup l /\
    (forall u, In u l <-> has_edge g v u = Ok true) /\
    (forall u, has_edge g v u = has_edge g u v) /\ has_edge g v v = Ok false.
Proof. exact undirected_neighbors. Qed.
Print Assumptions C20_neighbors_undirected_partial.

Theorem C20_neighbors_column_partial : forall ps h g v,
  grun (make_graph ps) h = Ok g -> In v (polygon_vertices ps) ->
  exists l, get_neighbors g v = Ok l /\ NoDup l /\ forall u, In u l <-> has_edge g u v = Ok true.
Proof. exact neighbors_column. Qed.
Print Assumptions C20_neighbors_column_partial.

Theorem C20_directed_neighbors_refuted : exists ps h g v u l,
  grun (make_graph ps) h = Ok g /\ In v (polygon_vertices ps) /\ In u (polygon_vertices ps) /\
  has_edge g v u = Ok true /\ get_neighbors g v = Ok l /\ ~ In u l.
Proof.
  exists [ex_p1], [GAddDir (mkC 0 0) (mkC 10 0) false]. eexists. exists (mkC 0 0), (mkC 10 0). eexists.
  split; [vm_compute; reflexivity|]. split; [left; reflexivity|]. split; [right; left; reflexivity|].
  split; [vm_compute; reflexivity|]. split; [vm_compute; reflexivity|]. intros [].
Qed.
Print Assumptions C20_directed_neighbors_refuted.

Example C20_example : exists g,
  grun (make_graph [ex_p1; ex_p2]) [GAdd (mkC 0 0) (mkC 100 0) false; GAdd (mkC 0 0) (mkC 10 0) true] = Ok g /\
  get_neighbors g (mkC 0 0) = Ok [mkC 10 0; mkC 100 0].
Proof. eexists. split; vm_compute; reflexivity. Qed.

(** C21.  Sequences with the same set of [add_edge] calls give the very same graph. *)
Theorem C21_add_order_independent : forall ps h1 h2,
  Forall is_add h1 -> Forall is_add h2 -> (forall o, In o h1 <-> In o h2) ->
  exists g, grun (make_graph ps) h1 = Ok g /\ grun (make_graph ps) h2 = Ok g.
Proof. exact adds_same_graph. Qed.
Print Assumptions C21_add_order_independent.

Example C21_example :
  let a := GAdd (mkC 0 0) (mkC 100 0) false in let b := GAdd (mkC 10 0) (mkC 100 10) true in
  Forall is_add [a; b; a] /\ Forall is_add [b; b; a] /\ (forall o, In o [a; b; a] <-> In o [b; b; a]).
Proof.
  split; [repeat constructor|]. split; [repeat constructor|]. intros o. simpl. tauto.
Qed.

(** C22.  [known ps o]: the two coordinates are equal or both are vertices.  An exception
    leaves the graph as it was because [gstep] returns a graph only on success. *)
Theorem C22_unknown_rejected_no_oob : forall ps h g o,
  grun (make_graph ps) h = Ok g ->
  (known ps o <-> exists g', gstep g o = Ok g') /\
  (~ known ps o <-> gstep g o = Throw NotInGraph) /\
  (forall u, gstep g o <> UB u) /\
  (forall v u, get_neighbors g v <> UB u) /\
  (forall a b u, has_edge g a b <> UB u /\ is_edge_meridian_crossing g a b <> UB u).
Proof. exact rejection. Qed.
Print Assumptions C22_unknown_rejected_no_oob.

Example C22_example : exists g, grun (make_graph [ex_p1; ex_p2]) ex_h = Ok g /\
  known [ex_p1; ex_p2] (GAdd (mkC 0 0) (mkC 100 0) true) /\
  ~ known [ex_p1; ex_p2] (GAdd (mkC 0 0) (mkC 100 1) true).
Proof.
  eexists. split; [vm_compute; reflexivity|]. split.
  - right. split; simpl; auto.
  - intros [H|[_ H]]; [discriminate|]. simpl in H.
    repeat (destruct H as [H|H]; [discriminate|]). exact H.
Qed.

(** C23.  Full statement: queries about old vertices are unchanged by [add_vertex].  False
    as soon as there are edges: the row stride changes but the rows are not moved. *)
Theorem C23_add_vertex_loses_edges_refuted : exists ps h g c a b,
  grun (make_graph ps) h = Ok g /\ ~ In c (polygon_vertices ps) /\
  has_edge g a b = Ok true /\ has_edge (add_vertex g c) a b = Ok false /\
  has_edge (add_vertex g c) c b = Ok true.
Proof.
  exists [ex_p1], [GAdd (mkC 0 10) (mkC 10 0) false]. eexists.
  exists (mkC 7 7), (mkC 0 10), (mkC 10 0).
  split; [vm_compute; reflexivity|]. split; [|repeat split; vm_compute; reflexivity].
  intros H. simpl in H. repeat (destruct H as [H|H]; [discriminate|]). exact H.
Qed.
Print Assumptions C23_add_vertex_loses_edges_refuted.

(** What is missing: graphs that already have edges, where it is false. *)
Theorem C23_add_vertex_edgeless_partial : forall ps h g c,
  grun (make_graph ps) h = Ok g ->
  (forall a b, has_edge g a b <> Ok true) -> ~ In c (polygon_vertices ps) ->
  let g' := add_vertex g c in
  get_vertices g' = get_vertices g ++ [c] /\
  (forall v, has_vertex g' v = true <-> v = c \/ has_vertex g v = true) /\
  (forall a b, has_vertex g' a = true -> has_vertex g' b = true ->
     has_edge g' a b = Ok false /\ is_edge_meridian_crossing g' a b = Ok false) /\
  (forall v, has_vertex g' v = true -> get_neighbors g' v = Ok []).
Proof. exact add_vertex_no_edges. Qed.
Print Assumptions C23_add_vertex_edgeless_partial.

Example C23_example : exists g, grun (make_graph [ex_p1])
    [GAdd (mkC 0 10) (mkC 10 0) false; GRem (mkC 10 0) (mkC 0 10)] = Ok g /\
  forallb (fun a => forallb (fun b =>
     match has_edge g a b with Ok true => false | _ => true end) (get_vertices g)) (get_vertices g) = true.
Proof. eexists. split; vm_compute; reflexivity. Qed.

(** C24.  Full statement: graphs over the same polygons in another order with the same edges
    are [==].  False when two vertices have the same hash: rows are sorted by hash only. *)
Definition ex_p3 : polygon := mkP [mkC 35 1; mkC 500 1; mkC 500 700].
Theorem C24_equality_polygon_order_refuted :
  make_polygon (verts ex_p2) = Ok ex_p2 /\ make_polygon (verts ex_p3) = Ok ex_p3 /\
  (forall a b, answer (make_graph [ex_p2; ex_p3]) a b = answer (make_graph [ex_p3; ex_p2]) a b) /\
  hash_sort_spec hash_sort /\
  graph_eqb hash_sort (make_graph [ex_p2; ex_p3]) (make_graph [ex_p3; ex_p2]) = Ok false.
Proof.
  split; [vm_compute; reflexivity|]. split; [vm_compute; reflexivity|].
  split; [exact (edgeless_answers _ _)|]. split; [exact hash_sort_ok|]. vm_compute; reflexivity.
Qed.
Print Assumptions C24_equality_polygon_order_refuted.

(** Without hash collisions among the vertices, [==] holds exactly when all answers agree,
    whatever correct sort is used.  Missing: colliding hashes, where it is false. *)
Theorem C24_equality_partial : forall g1 g2 srt,
  hash_sort_spec srt -> built g1 -> built g2 ->
  (forall a b, In a (get_vertices g1) -> In b (get_vertices g1) -> hash_coord a = hash_coord b -> a = b) ->
  Permutation (get_vertices g1) (get_vertices g2) ->
  exists r, graph_eqb srt g1 g2 = Ok r /\ (r = true <-> forall a b, answer g1 a b = answer g2 a b).
Proof. exact graph_eqb_iff. Qed.
Print Assumptions C24_equality_partial.

Example C24_example : exists g1 g2,
  grun (make_graph [ex_p1; ex_p2]) [GAdd (mkC 0 0) (mkC 100 0) true] = Ok g1 /\
  grun (make_graph [ex_p2; ex_p1]) [GAdd (mkC 100 0) (mkC 0 0) true] = Ok g2 /\
  map hash_coord (get_vertices g1) =
    [2654435769; 2654435779; 2654436401; 2654435869; 2654435879; 2654436501] /\
  graph_eqb hash_sort g1 g2 = Ok true.
Proof. eexists. eexists. split; [vm_compute; reflexivity|]. split; [vm_compute; reflexivity|].
  split; vm_compute; reflexivity. Qed.

(** C28.  [polys] is any list that contains the polygons of the inputs (the code uses the
    set of them in an unspecified order); the calls of the parallel loop may come in any
    order ([h]). *)
Theorem C28_merge_is_union : forall polys gs,
  Forall built gs ->
  (forall g p, In g gs -> In p (get_polygons g) -> In p polys) ->
  exists m, merge_graphs polys gs = Ok m /\
    get_polygons m = polys /\ forall a b, answer m a b = union_view gs a b.
Proof. exact merge_graphs_union. Qed.
Print Assumptions C28_merge_is_union.

Theorem C28_merge_any_schedule : forall polys gs h,
  Forall built gs ->
  (forall g p, In g gs -> In p (get_polygons g) -> In p polys) ->
  (forall o, In o h <-> In o (flat_map merge_ops gs)) ->
  exists m, foldM gstep h (make_graph polys) = Ok m /\ grun (make_graph polys) h = Ok m /\
    get_polygons m = polys /\ forall a b, answer m a b = union_view gs a b.
Proof. exact merge_any_order. Qed.
Print Assumptions C28_merge_any_schedule.

Theorem C28_merge_input_order : forall gs1 gs2 a b,
  Permutation gs1 gs2 -> union_view gs1 a b = union_view gs2 a b.
Proof. exact union_view_perm. Qed.
Print Assumptions C28_merge_input_order.

(** the set of polygons is one of the lists allowed above: every polygon of the graphs once *)
Theorem C28_collected : forall gs, Forall built gs -> let polys := dedup_polys [] (flat_map get_polygons gs) in
  NoDup polys /\ (forall p, In p polys <-> exists g, In g gs /\ In p (get_polygons g)) /\
  exists m, merge_graphs polys gs = Ok m /\ forall a b, answer m a b = union_view gs a b.
Proof.
  assert (E : forall p l, existsb (polygon_eqb p) l = true <-> In p l).
  { intros p l. rewrite existsb_exists. split; [intros (q & Hq & H)|intros H; exists p; split; [exact H|apply verts_eqb_eq; reflexivity]].
    apply verts_eqb_eq in H. destruct p as [u], q as [v]. cbn [verts] in H. subst v. exact Hq. }
  assert (K : forall l seen, NoDup (dedup_polys seen l) /\ forall p, In p (dedup_polys seen l) <-> In p l /\ ~ In p seen).
  { induction l as [|q l IH]; intros seen; [split; [constructor|cbn; tauto]|]. cbn [dedup_polys].
    destruct (existsb (polygon_eqb q) seen) eqn:X.
    - apply E in X. destruct (IH seen) as [N I]. split; [exact N|]. intros p. rewrite I. cbn [In]. split; [tauto|].
      intros [[<-|H] S]; [contradiction|auto].
    - assert (Q : ~ In q seen) by (intros H; apply E in H; congruence). destruct (IH (q :: seen)) as [N I]. split.
      + constructor; [|exact N]. rewrite I. cbn [In]. tauto.
      + intros p. cbn [In]. rewrite I. cbn [In]. destruct (list_eq_dec coord_dec (verts q) (verts p)) as [D|D].
        * assert (q = p) by (destruct p as [u], q as [v]; cbn [verts] in D; congruence). subst p. tauto.
        * assert (q <> p) by congruence. tauto. }
  intros gs B. cbv zeta. destruct (K (flat_map get_polygons gs) []) as [N I]. split; [exact N|].
  assert (J : forall p, In p (dedup_polys [] (flat_map get_polygons gs)) <-> exists g, In g gs /\ In p (get_polygons g)).
  { intros p. rewrite I, in_flat_map. cbn [In]. tauto. }
  split; [exact J|]. destruct (merge_graphs_union (dedup_polys [] (flat_map get_polygons gs)) gs B) as (m & M & _ & A); [intros g p Hg Hp; apply J; eauto|eauto].
Qed.
Print Assumptions C28_collected.

Example C28_example : exists g1 g2 m,
  grun (make_graph [ex_p1; ex_p2]) [GAdd (mkC 0 0) (mkC 100 0) true] = Ok g1 /\
  grun (make_graph [ex_p1]) [GAdd (mkC 0 0) (mkC 10 0) false] = Ok g2 /\
  merge_graphs (dedup_polys [] [ex_p1; ex_p2; ex_p1]) [g1; g2] = Ok m /\
  answer m (mkC 100 0) (mkC 0 0) = Some true /\ answer m (mkC 10 0) (mkC 0 0) = Some false /\
  answer m (mkC 10 0) (mkC 100 0) = None.
Proof. eexists. eexists. eexists. repeat (split; [vm_compute; reflexivity|]). vm_compute; reflexivity. Qed.
