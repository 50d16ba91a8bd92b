(** Property theorems C40-C42 and C76 (modified_graph.cpp). *)
From Coq Require Import ZArith Bool List Lia Permutation.
From Verif Require Import Base F64 Coordinate Segment Polygon Graph SpecGraph GraphFacts GraphMore Overlay OverlayFacts OverlayVertices.
Import ListNotations.
Local Open Scope Z_scope.

Definition exo_ps : list polygon := [mkP [mkC 0 0; mkC 10 0; mkC 0 10]; mkP [mkC 100 0; mkC 110 0; mkC 100 10]].
Definition exo_hb : list gop := [GAdd (mkC 0 0) (mkC 100 0) true; GAdd (mkC 10 0) (mkC 100 0) false].

(** C40.  Full statement: after every history the overlay answers as the base graph would
    after the same calls.  Refuted below in three ways.  What holds: if crossing edges are
    only added between vertices of the base graph, no call throws, the base graph is
    untouched, [has_vertex] knows the base vertices and those named by the calls, [has_edge]
    between base vertices answers as the base graph after the same calls, a reported crossing
    is one there, and the crossing flag is the same if no addition of that pair follows a
    removal of it; pairs with a new vertex answer by the history alone once a call named the
    pair, and throw before. *)
Theorem C40_overlay_partial : forall ps hb g h,
  grun (make_graph ps) hb = Ok g -> Forall (safe_op g) h ->
  exists m g', mrun_strict (make_mgraph g) h = (m, Ok tt) /\ mrun (make_mgraph g) h = m /\ m_base m = g /\
    grun (make_graph ps) (hb ++ edges h) = Ok g' /\
    (forall a b, In a (polygon_vertices ps) -> In b (polygon_vertices ps) ->
       m_has_edge m a b = has_edge g' a b /\
       (m_is_edge_meridian_crossing m a b = Ok true -> is_edge_meridian_crossing g' a b = Ok true) /\
       (no_readd a b h -> m_is_edge_meridian_crossing m a b = is_edge_meridian_crossing g' a b)) /\
    (forall a b, a <> b -> (~ In a (polygon_vertices ps) \/ ~ In b (polygon_vertices ps)) ->
       ((exists o, In o h /\ mevent a b o <> None) ->
          m_has_edge m a b = Ok (spec_connected a b (edges h)) /\ m_is_edge_meridian_crossing m a b = Ok false) /\
       ((forall o, In o h -> mevent a b o = None) ->
          m_has_edge m a b = Throw NotInGraph /\ m_is_edge_meridian_crossing m a b = Throw NotInGraph)) /\
    (forall v, m_has_vertex m v = has_vertex g v || existsb (touches v) h).
Proof. intros ps hb g h G. exact (overlay_spec ps hb g G h). Qed.
Print Assumptions C40_overlay_partial.

Definition exo_h : list mop :=
  [MVertex (mkC 5 5); MEdge (GAdd (mkC 5 5) (mkC 0 0) false); MEdge (GAdd (mkC 0 0) (mkC 100 0) false);
   MEdge (GRem (mkC 10 0) (mkC 100 0)); MEdge (GAdd (mkC 0 10) (mkC 100 0) true)].
Example C40_example : exists g, grun (make_graph exo_ps) exo_hb = Ok g /\ Forall (safe_op g) exo_h /\
  no_readd (mkC 0 10) (mkC 100 0) exo_h /\
  let m := mrun (make_mgraph g) exo_h in
  m_is_edge_meridian_crossing m (mkC 0 0) (mkC 100 0) = Ok false /\
  m_is_edge_meridian_crossing m (mkC 0 10) (mkC 100 0) = Ok true /\
  m_has_edge m (mkC 100 0) (mkC 10 0) = Ok false /\ m_has_edge m (mkC 0 0) (mkC 5 5) = Ok true.
Proof.
  eexists. split; [vm_compute; reflexivity|]. split; [|split].
  - unfold exo_h. repeat (apply Forall_cons; [first [exact I|intros H; discriminate H|intros _; right; split; vm_compute; reflexivity]|]).
    apply Forall_nil.
  - intros h1 o1 h2 o2 h3 f E E1 E2.
    assert (I : In o1 exo_h) by (rewrite E; apply in_or_app; right; left; reflexivity).
    repeat (destruct I as [<-|I]; [vm_compute in E1; discriminate E1|]). destruct I.
  - cbv zeta. repeat split; vm_compute; reflexivity.
Qed.

(** A crossing edge that was removed and added again is reported as not crossing. *)
Theorem C40_readded_refuted : exists ps hb g a b, grun (make_graph ps) hb = Ok g /\ a <> b /\
  let h := [MEdge (GRem a b); MEdge (GAdd a b true)] in
  snd (mrun_strict (make_mgraph g) h) = Ok tt /\
  m_is_edge_meridian_crossing (mrun (make_mgraph g) h) a b = Ok false /\
  exists g', grun (make_graph ps) (hb ++ edges h) = Ok g' /\ is_edge_meridian_crossing g' a b = Ok true.
Proof.
  exists exo_ps, exo_hb. eexists. exists (mkC 0 0), (mkC 100 0). split; [vm_compute; reflexivity|]. split; [discriminate|].
  cbv zeta. split; [vm_compute; reflexivity|]. split; [vm_compute; reflexivity|]. eexists. split; vm_compute; reflexivity.
Qed.
Print Assumptions C40_readded_refuted.

(** A vertex added to the overlay is known to [has_vertex], but [has_edge] on it throws. *)
Theorem C40_new_vertex_query_refuted : forall ps hb g v b,
  grun (make_graph ps) hb = Ok g -> ~ In v (polygon_vertices ps) -> v <> b ->
  let m := mrun (make_mgraph g) [MVertex v] in
  m_has_vertex m v = true /\ m_has_edge m v b = Throw NotInGraph.
Proof. exact new_vertex_query. Qed.
Print Assumptions C40_new_vertex_query_refuted.

(** C41.  Full statement: the neighbour list of v has exactly the u with [has_edge v u], each
    once.  Refuted below: an edge of the base graph that is added again is listed twice.
    What holds, for every history and iteration order: membership, and no repetition if no
    addition at v repeats an edge of the base graph. *)
Theorem C41_neighbors_partial : forall ps hb g h v order,
  Forall undirected hb -> grun (make_graph ps) hb = Ok g ->
  let m := mrun (make_mgraph g) h in
  (forall row, assoc v (m_nb m) = Some row -> Permutation order row) ->
  exists l, m_get_neighbors m order v = Ok l /\
    (forall u, In u l <-> m_has_edge m v u = Ok true) /\
    ((forall u o f, In o h -> mevent v u o = Some (Some f) -> has_edge g v u <> Ok true) -> NoDup l).
Proof. exact overlay_neighbors. Qed.
Print Assumptions C41_neighbors_partial.

Example C41_example : exists g, Forall undirected exo_hb /\ grun (make_graph exo_ps) exo_hb = Ok g /\
  let m := mrun (make_mgraph g) exo_h in
  assoc (mkC 100 0) (m_nb m) = Some [(mkC 0 0, mkN false true); (mkC 10 0, mkN false false); (mkC 0 10, mkN true true)] /\
  m_get_neighbors m [(mkC 10 0, mkN false false); (mkC 0 10, mkN true true); (mkC 0 0, mkN false true)] (mkC 100 0)
    = Ok [mkC 0 0; mkC 0 10; mkC 0 0].
Proof.
  eexists. split; [repeat constructor|]. split; [vm_compute; reflexivity|]. split; vm_compute; reflexivity.
Qed.

Theorem C41_listed_twice_refuted : exists ps hb g h v, Forall undirected hb /\ grun (make_graph ps) hb = Ok g /\
  let m := mrun (make_mgraph g) h in
  snd (mrun_strict (make_mgraph g) h) = Ok tt /\
  exists row l, assoc v (m_nb m) = Some row /\ m_get_neighbors m row v = Ok l /\ ~ NoDup l.
Proof.
  exists exo_ps, exo_hb. eexists. exists [MEdge (GAdd (mkC 0 0) (mkC 100 0) false)], (mkC 0 0).
  split; [repeat constructor|]. split; [vm_compute; reflexivity|]. cbv zeta. split; [vm_compute; reflexivity|].
  do 2 eexists. split; [vm_compute; reflexivity|]. split; [vm_compute; reflexivity|].
  intros N. inversion N as [|? ? N1 N2]; subst. apply N1. left. reflexivity.
Qed.
Print Assumptions C41_listed_twice_refuted.

(** C42.  Refuted for every base graph and every new vertex: adding a crossing edge to it
    throws, and leaves the overlay with the vertex registered but without the edge. *)
Theorem C42_crossing_edge_refuted : forall ps hb g v b,
  grun (make_graph ps) hb = Ok g -> ~ In v (polygon_vertices ps) -> v <> b ->
  let m := mrun (make_mgraph g) [MVertex v] in
  snd (m_add_edge m v b true) = Throw NotInGraph /\ snd (m_add_edge m b v true) = Throw NotInGraph /\
  m_entry (fst (m_add_edge m v b true)) v b = None.
Proof. exact new_vertex_crossing. Qed.
Print Assumptions C42_crossing_edge_refuted.

(** What holds: an edge that does not cross can be added to a new vertex, in both orders, and
    is then found. *)
Theorem C42_plain_edge_partial : forall ps hb g v b,
  grun (make_graph ps) hb = Ok g -> ~ In v (polygon_vertices ps) -> v <> b ->
  let m := mrun (make_mgraph g) [MVertex v] in
  snd (m_add_edge m v b false) = Ok tt /\
  m_has_edge (fst (m_add_edge m v b false)) v b = Ok true /\ m_has_edge (fst (m_add_edge m v b false)) b v = Ok true /\
  m_is_edge_meridian_crossing (fst (m_add_edge m v b false)) v b = Ok false.
Proof. exact new_vertex_plain. Qed.
Print Assumptions C42_plain_edge_partial.

Example C42_example : exists g, grun (make_graph exo_ps) exo_hb = Ok g /\ ~ In (mkC 5 5) (polygon_vertices exo_ps) /\ mkC 5 5 <> mkC 0 0.
Proof.
  eexists. split; [vm_compute; reflexivity|]. split; [|discriminate].
  intros H. repeat (destruct H as [H|H]; [discriminate H|]). destruct H.
Qed.

(** C76.  For every base graph, every history (exceptions included) and every iteration order
    the vertex list of the overlay has exactly the vertices that [has_vertex] knows, and the
    polygons are those of the base graph.  The list is free of repetitions only if the
    overlay holds no changes at a vertex of the base graph. *)
Theorem C76_vertices_partial : forall ps hb g h order,
  grun (make_graph ps) hb = Ok g ->
  let m := mrun (make_mgraph g) h in Permutation order (m_nb m) ->
  (forall v, In v (m_get_vertices m order) <-> m_has_vertex m v = true) /\
  (Forall (safe_op g) h -> forall v, In v (m_get_vertices m order) <-> In v (polygon_vertices ps) \/ exists o, In o h /\ touches v o = true) /\
  (NoDup (m_get_vertices m order) <->
     NoDup (polygon_vertices ps) /\ forall v, In v (polygon_vertices ps) -> ~ In v (map fst (m_nb m))) /\
  m_get_polygons m = ps.
Proof.
  intros ps hb g h order G m O. destruct (overlay_vertices ps hb g h order G O) as [A B]. fold m in A, B.
  split; [exact A|]. split; [|split; [exact B|]].
  - intros F v. rewrite A. destruct (mrun_spec ps hb g G h F) as (m' & _ & E & _ & _ & _ & V). fold m in E. subst m'. rewrite V.
    rewrite orb_true_iff, (hv ps hb g G), existsb_exists. reflexivity.
  - unfold m_get_polygons. assert (m_base m = g) as -> by (apply (after_run g h)).
    destruct (grun_spec ps hb) as (F & g' & G' & R & _). rewrite G in G'. injection G' as <-. apply R.
Qed.
Print Assumptions C76_vertices_partial.

(** The full claim, every vertex once, fails as soon as a vertex of the base graph gets an edge. *)
Theorem C76_listed_twice_refuted : exists ps hb g h, grun (make_graph ps) hb = Ok g /\ NoDup (polygon_vertices ps) /\
  let m := mrun (make_mgraph g) h in snd (mrun_strict (make_mgraph g) h) = Ok tt /\
  forall order, Permutation order (m_nb m) -> ~ NoDup (m_get_vertices m order).
Proof.
  destruct (grun_spec exo_ps exo_hb) as (_ & g & E & _).
  exists exo_ps, exo_hb, g, [MEdge (GAdd (mkC 5 5) (mkC 0 0) false)]. split; [exact E|]. split.
  { cbn. repeat (constructor; [cbn [In]; intuition discriminate|]). constructor. }
  split; [reflexivity|]. intros order O. rewrite (proj2 (overlay_vertices exo_ps exo_hb g _ order E O)). intros (_ & N).
  apply (N (mkC 0 0)); [left; reflexivity|]. apply known_in. reflexivity.
Qed.
Print Assumptions C76_listed_twice_refuted.

Example C76_example : exists g, grun (make_graph exo_ps) exo_hb = Ok g /\ Forall (safe_op g) exo_h /\
  (let m := mrun (make_mgraph g) exo_h in m_get_vertices m (m_nb m) =
    polygon_vertices exo_ps ++ [mkC 5 5; mkC 0 0; mkC 100 0; mkC 10 0; mkC 0 10]) /\
  (let m := mrun (make_mgraph g) [MVertex (mkC 5 5); MVertex (mkC 0 0)] in m_get_vertices m (m_nb m) = polygon_vertices exo_ps ++ [mkC 5 5]).
Proof.
  eexists. split; [vm_compute; reflexivity|]. split; [|split; vm_compute; reflexivity].
  repeat (constructor; [unfold safe_op, decided; first [exact I|intros; discriminate|intros _; right; split; vm_compute; reflexivity]|]). constructor.
Qed.
