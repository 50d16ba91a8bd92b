(** C84, C85: printed forms, and graphs which print alike.  Beside each theorem an example meets its hypotheses. *)
From Coq Require Import ZArith Bool List String Ascii Lia Permutation.
From Flocq Require Import Core BinarySingleNaN.
From Verif Require Import Base F64 F64Facts Coordinate CoordinateFacts Segment SpecGeom SpecGraph Polygon Graph GraphFacts GraphMore Visgraph Sweep SweepMaps SweepGen SweepForced SweepCases AngleFacts SweepGeo SweepLayers
  ShortestPath SearchQuery BlockedLegs Show ShowFacts Props_Graph Props_Path Props_Pipeline.
Import ListNotations.
Local Open Scope Z_scope.

(** ** C84: printed forms identify what they print *)
Theorem C84_coordinates : forall fmt a b, writes_numbers fmt -> coord_i32 a -> coord_i32 b -> (coord_text fmt a = coord_text fmt b <-> a = b).
Proof. intros fmt a b H. exact (coord_text_inj fmt H a b). Qed.
Print Assumptions C84_coordinates.
Theorem C84_polygons : forall fmt p q, writes_numbers fmt -> Forall coord_i32 (verts p) -> Forall coord_i32 (verts q) -> (polygon_text fmt p = polygon_text fmt q <-> p = q).
Proof. intros fmt p q H. exact (polygon_text_inj fmt H p q). Qed.
Print Assumptions C84_polygons.
Theorem C84_visible_vertices : forall fmt v w, writes_numbers fmt -> coord_i32 (v_coord v) -> coord_i32 (v_coord w) -> (visible_text fmt v = visible_text fmt w <-> v = w).
Proof. intros fmt v w H. exact (visible_text_inj fmt H v w). Qed.
Print Assumptions C84_visible_vertices.
(** the comparison of two graphs by their texts compares their rows *)
Theorem C84_graphs : forall fmt srt g h, writes_numbers fmt -> hash_sort_spec srt -> built g -> built h ->
  Forall coord_i32 (get_vertices g) -> Forall coord_i32 (get_vertices h) -> graph_text_eqb fmt srt g h = graph_eqb srt g h.
Proof. intros fmt srt g h H. exact (text_comparison fmt H srt g h). Qed.
Print Assumptions C84_graphs.

(** a way to write doubles: sign, binary digits from the last, exponent *)
Fixpoint digits (p : positive) : string := match p with xH => "1" | xO q => String "0" (digits q) | xI q => String "1" (digits q) end%string.
Definition exponent (e : Z) : string := match e with Z0 => "." | Zpos p => digits p | Zneg p => "-" ++ digits p end%string.
Definition write (x : f64) : string :=
  match x with
  | B754_zero s => if s then "-0" else "0"
  | B754_finite s m e _ => (if s then "-" else "+") ++ digits m ++ "e" ++ exponent e
  | _ => "e"
  end%string.
Lemma digits_number p : number_text (digits p) = true.
Proof. induction p as [p IH|p IH|]; cbn; auto. Qed.
Lemma digits_inj p q x y : (digits p ++ String "e" x = digits q ++ String "e" y -> p = q /\ x = y)%string.
Proof.
  assert (N : forall r t u, (digits r ++ String "e" t <> String "e" u)%string) by (intros [r|r|] t u E0; discriminate E0).
  revert q. induction p as [p IH|p IH|]; intros [q|q|] E; cbn [digits append] in E; try discriminate E; inversion E as [E'].
  - destruct (IH q E') as [-> ->]. auto.
  - exfalso. exact (N p x y E').
  - destruct (IH q E') as [-> ->]. auto.
  - exfalso. exact (N q y x (eq_sym E')).
  - auto.
Qed.
Lemma digits_only p q : digits p = digits q -> p = q.
Proof. intros E. apply (digits_inj p q "" ""). rewrite E. reflexivity. Qed.
Lemma exponent_inj e f : exponent e = exponent f -> e = f.
Proof.
  assert (D : forall p s, digits p <> String "-" s) by (intros [p|p|] s E; discriminate E). assert (D' : forall p, digits p <> "."%string) by (intros [p|p|] E; discriminate E).
  destruct e as [|p|p], f as [|q|q]; cbn [exponent append]; intros E; try reflexivity; try discriminate E.
  - exfalso. exact (D' q (eq_sym E)).
  - exfalso. exact (D' p E).
  - f_equal. apply digits_only, E.
  - exfalso. exact (D p _ E).
  - exfalso. exact (D q _ (eq_sym E)).
  - f_equal. apply digits_only. inversion E. reflexivity.
Qed.
Lemma number_app s t : number_text s = true -> number_text t = true -> number_text (s ++ t) = true.
Proof. induction s as [|c s IH]; intros S T; [exact T|]. cbn [append number_text] in *. apply andb_true_iff in S. destruct S as [-> S]. rewrite IH; auto. Qed.
Lemma write_ok : writes_numbers write.
Proof.
  split.
  - intros [s|s| |s m e H] F; cbn in F; try discriminate F; [destruct s; reflexivity|]. cbn [write]. apply number_app; [destruct s; reflexivity|].
    apply number_app; [apply digits_number|]. apply (number_app "e"); [reflexivity|]. destruct e; cbn [exponent]; [reflexivity|apply digits_number|apply (number_app "-"); [reflexivity|apply digits_number]].
  - assert (Z0 : forall (s t : bool) m e, (if s then "-0" else "0")%string <> ((if t then "-" else "+") ++ digits m ++ "e" ++ exponent e)%string).
    { intros s t m e E. destruct s, t; try discriminate E. cbn [append] in E. inversion E as [E']. destruct m as [m|m|]; cbn [digits append] in E'; try discriminate E'. inversion E' as [E'']. destruct m; discriminate E''. }
    intros [s|s| |s m e H] [t|t| |t n f H'] F G E; cbn in F, G; try discriminate F; try discriminate G.
    + destruct s, t; try reflexivity; discriminate E.
    + exfalso. exact (Z0 _ _ _ _ E).
    + exfalso. exact (Z0 _ _ _ _ (eq_sym E)).
    + apply B2SF_inj. cbn [B2SF]. cbn [write] in E.
      assert (E' : s = t /\ (digits m ++ "e" ++ exponent e = digits n ++ "e" ++ exponent f)%string) by (destruct s, t; cbn [append] in E; try discriminate E; inversion E; auto).
      destruct E' as [-> E']. cbn [append] in E'. apply digits_inj in E'. destruct E' as [-> E']. apply exponent_inj in E'. subst. reflexivity.
Qed.
Example C84_ex : writes_numbers write /\ coord_i32 (mkC 179999999 (-89999999)) /\
  (coord_text write (mkC 0 1) <> coord_text write (mkC 1 0))%string /\
  coord_text write (mkC 0 2000000) = "(0,+00000000000000000000000000000000000000000000000000001e-110011)"%string /\
  built (make_graph [ex_p2; ex_p3]) /\ Forall coord_i32 (get_vertices (make_graph [ex_p2; ex_p3])).
Proof.
  split; [exact write_ok|]. split; [split; vm_compute; split; discriminate|]. split; [vm_compute; discriminate|]. split; [vm_compute; reflexivity|].
  split; [exists [ex_p2; ex_p3], []; split; [constructor|reflexivity]|]. repeat (constructor; [split; vm_compute; split; discriminate|]). constructor.
Qed.

(** ** C85: graphs which compare equal are interchangeable *)
(** proved: the same vertices, and the same answers about edges, whatever the hashes; missing: polygons *)
Theorem C85_same_answers_partial : forall fmt srt g h, writes_numbers fmt -> hash_sort_spec srt -> built g -> built h ->
  Forall coord_i32 (get_vertices g) -> Forall coord_i32 (get_vertices h) -> graph_text_eqb fmt srt g h = Ok true ->
  Permutation (get_vertices g) (get_vertices h) /\ forall a b, answer g a b = answer h a b.
Proof.
  intros fmt srt g h W S B1 B2 V1 V2 E. rewrite (C84_graphs fmt srt g h W S B1 B2 V1 V2) in E. exact (equal_same_answers srt g h S B1 B2 E).
Qed.
Print Assumptions C85_same_answers_partial.
Definition lower : polygon := mkP [mkC 0 (-4000000); mkC 3000000 (-3000000); mkC 4000000 (-1000000)].
Definition upper : polygon := mkP [mkC 3500000 3000000; mkC 500000 4100000; mkC (-1000000) 1200000].
Definition whole : polygon := mkP (verts lower ++ verts upper).
Definition watcher : coord := mkC (-6000000) 300000.
Definition across : coord := mkC 4000000 (-1000000).
Lemma without_edges ps : get_polygons (make_graph ps) = ps.
Proof. reflexivity. Qed.
(** two triangles and the hexagon on the same six corners: equal as graphs, but a query crosses the channel of the one and not the other *)
Theorem C85_interchangeable_refuted : forall atan2 : Z -> Z -> f64, accurate_atan2 atan2 ->
  let g := make_graph [lower; upper] in let h := make_graph [whole] in
  (forall fmt, writes_numbers fmt -> graph_text_eqb fmt hash_sort g h = Ok true) /\ Forall (convex 1) (get_polygons g) /\ Forall (convex 1) (get_polygons h) /\
  shortest_path 12 (blocked_env (endpoint_vis atan2 (fun _ => plain_orders) g)) g watcher across f_max true = Some (Ok [watcher; across]) /\
  shortest_path 12 (blocked_env (endpoint_vis atan2 (fun _ => plain_orders) h)) h watcher across f_max true = Some (Throw NoPath).
Proof.
  intros atan2 T g h.
  assert (B : forall ps, built (make_graph ps)) by (intros ps; exists ps, []; split; [constructor|reflexivity]).
  split; [|split; [|split; [|split]]].
  - intros fmt W. rewrite (C84_graphs fmt hash_sort g h W); [vm_compute; reflexivity|exact hash_sort_ok|apply B..| |]; repeat (constructor; [split; vm_compute; split; discriminate|]); constructor.
  - repeat constructor; apply convex_b_ok; vm_compute; reflexivity.
  - repeat constructor; apply convex_b_ok; vm_compute; reflexivity.
  - rewrite (same_query 12 _ (settled [lower; upper] false)); [vm_compute; reflexivity|vm_compute; reflexivity|vm_compute; reflexivity| |vm_compute; reflexivity].
    unfold endpoint_vis, g. rewrite without_edges. apply settled_endpoint; [exact T|vm_compute; reflexivity|vm_compute; congruence].
  - rewrite (same_query 12 _ (settled [whole] false)); [vm_compute; reflexivity|vm_compute; reflexivity|vm_compute; reflexivity| |vm_compute; reflexivity].
    unfold endpoint_vis, h. rewrite without_edges. apply settled_endpoint; [exact T|vm_compute; reflexivity|vm_compute; congruence].
Qed.
Print Assumptions C85_interchangeable_refuted.
Example C85_ex : writes_numbers write /\ hash_sort_spec hash_sort /\ graph_text_eqb write hash_sort (make_graph [lower; upper]) (make_graph [upper; lower]) = Ok true /\
  graph_text_eqb write hash_sort (make_graph [lower]) (make_graph [upper]) = Ok false.
Proof. split; [exact write_ok|]. split; [exact hash_sort_ok|]. split; vm_compute; reflexivity. Qed.
