(** From a shape file to a path: the graph that is generated, saved and loaded again is drawn
    exactly, and the paths interpolated from it are free of land. *)
From Coq Require Import ZArith Reals Bool List Lia Lra Permutation String.
From Flocq Require Import Core BinarySingleNaN.
From Verif Require Import Base F64 Coordinate Polygon PolygonMore SpecGeom SpecGraph F64Facts CoordinateFacts Graph GraphFacts GraphMore Visgraph VisgraphFacts Serializer SerializerMore
  Segment Sweep Periodicity AngleFacts SweepMaps SweepGen SweepCases SweepGraph Overlay ShortestPath DistFacts SearchFacts SearchSpec SearchGraph SearchQuery PathFacts PathMore
  FreePaths PyLayer PyFacts Pipeline PipelineFacts.
Import ListNotations.
Local Open Scope Z_scope.

(** the answer to a query between [ns] and [nd]: a path of free legs between them, than which no
    free route within the radius is shorter; or no path, and there is no such route *)
Definition charted_answer (ps : list polygon) (g : graph) (en : env) (ns nd : coord) (radius : f64) (r : option (res (list pcoord))) : Prop :=
  (exists path, r = Some (Ok (convert path)) /\ (exists l, path = ns :: l) /\ (exists l, path = l ++ [nd]) /\ free_legs g ps path /\
     (ix_crossing (en_index en) (mkS ns nd) <> [] -> Z.of_nat (List.length path) <= 1000000 ->
      forall w, minimal w (en_pick en) -> is_finite w = true -> (Rabs (V w) <= bpow radix2 900)%R ->
      exists l t, path = ns :: l /\ journey (road g (en_vis en) (mkLC ns nd None None)) ns l nd t /\
        forall l' t', free_route ps ns nd ns l' nd t' -> Forall (within ns radius) l' -> Z.of_nat (List.length l') <= 1000000 ->
          (t <= Rmax 1 (V w) * t' * (1 + / 2000000000))%R)) \/
  (r = Some (Throw NoPath) /\ ix_crossing (en_index en) (mkS ns nd) <> [] /\ ~ exists l t, free_route ps ns nd ns l nd t /\ Forall (within ns radius) l).

Lemma drawn_answers atan2 ords' ps g en c1 c2 source destination ns nd radius flag :
  drawn atan2 ps g -> charted_query atan2 ords' ps g en source destination ns nd -> vis_coord c1 = Ok source -> vis_coord c2 = Ok destination ->
  (ix_crossing (en_index en) (mkS ns nd) = [] -> free_line ps ns nd) ->
  exists n, forall fuel, (n <= fuel)%nat -> charted_answer ps g en ns nd radius (interpolate fuel en g c1 c2 radius flag).
Proof.
  intros Dr Cq E1 E2 Ho. pose proof (query_fit _ _ _ _ _ _ _ _ _ Dr Cq) as Fit. pose proof Cq as (_ & _ & _ & _ & Ms & Md & _).
  destruct (query_terminates en g source destination radius flag Fit Ms Md) as (n & T). exists n. intros fuel Lf. destruct (T fuel Lf) as [T1 _].
  unfold interpolate. rewrite E1, E2. destruct (shortest_path fuel en g source destination radius flag) as [r|] eqn:Q; [|congruence].
  assert (K : (exists path, r = Ok path) \/ (r = Throw NoPath /\ ix_crossing (en_index en) (mkS ns nd) <> [])).
  { pose proof Cq as (_ & _ & _ & _ & _ & _ & N1 & N2 & L1 & L2 & _).
    destruct (ix_crossing (en_index en) (mkS ns nd)) as [|x xs] eqn:X.
    - left. destruct (query_cases en g source destination radius flag Fit Ms Md) as (ns' & nd' & N1' & N2' & _ & _ & K).
      rewrite N1 in N1'. inversion N1'; subst ns'. rewrite N2 in N2'. inversion N2'; subst nd'.
      destruct (handle_land_collisions (en_index en) ns nd flag) as [lc|e|u]; [|destruct K as (_ & _ & K & _); rewrite L1, L2 in K; discriminate K|destruct K].
      destruct K as [Co [[_ K]|(Oc & _)]]; [rewrite K in Q; inversion Q; eauto|]. exfalso. apply (query_correction _ _ _ _ _ _ _ _ _ Cq) in Co. subst lc.
      apply Oc. destruct (other_crossings (en_index en) (mkLC ns nd None None)) as [|y ys] eqn:O; [reflexivity|].
      assert (Se : searched en (mkLC ns nd None None)) by (apply searched_other; rewrite O; discriminate).
      apply searched_iff in Se. destruct Se as (z & Iz & _). cbn [lc_source lc_dest] in Iz. rewrite X in Iz. destruct Iz.
    - destruct (query_failure en g source destination radius flag Fit Ms Md fuel (mkLC ns nd None None) r Q) as [K|[K _]].
      + apply (query_correction _ _ _ _ _ _ _ _ _ Cq). reflexivity.
      + apply searched_iff. exists x. cbn [lc_source lc_dest lc_source_edge lc_dest_edge]. rewrite X. split; [left; reflexivity|]. intros shore [Y|Y]; discriminate Y.
      + right. exists ns, nd. auto.
      + left. exact K.
      + right. split; [exact K|discriminate]. }
  destruct K as [(path & ->)|[-> Nx]].
  - left. exists path. split; [reflexivity|]. destruct (paths_free atan2 ords' ps g en source destination ns nd Dr Cq radius flag fuel path Ho Q) as (P1 & P2 & P3).
    split; [exact P1|]. split; [exact P2|]. split; [exact P3|]. intros Nx Len w Mn Fw Bw.
    exact (no_shorter_route atan2 ords' ps g en source destination ns nd Dr Cq radius flag fuel path w Nx Q Len Mn Fw Bw).
  - right. split; [reflexivity|]. split; [exact Nx|]. exact (no_route atan2 ords' ps g en source destination ns nd Dr Cq radius flag fuel Nx Q).
Qed.

(** ** shapes which make a map on which every vertex has a clear view *)
Definition charted_shapes (shapes : list shape) (ps : list polygon) (limit : Z) : Prop :=
  Forall (fun s => nth_error (sh_parts s) 0 = Some O) shapes /\ Forall on_earth_shape shapes /\ read_polygons_from_shapefile shapes = Ok ps /\
  Forall clear_polygon ps /\ NoDup (polygon_vertices ps) /\ (forall o, In o (polygon_vertices ps) -> clear_view o (map_copies ps)) /\ fits ps limit.
(** any query of the graph in [folder] *)
Definition answers_charted (atan2 : Z -> Z -> f64) (ps : list polygon) (limit : Z) (folder : path) (s : fs) : Prop :=
  exists g, load_graph_from_file limit (default_graph_path folder) s = Ok g /\
  forall ords en c1 c2 source destination ns nd radius flag,
    vis_coord c1 = Ok source -> vis_coord c2 = Ok destination -> charted_query atan2 ords ps g (en g) source destination ns nd ->
    (ix_crossing (en_index (en g)) (mkS ns nd) = [] -> free_line ps ns nd) ->
    exists n, forall fuel, (n <= fuel)%nat -> charted_answer ps g (en g) ns nd radius (interpolate_cmd limit folder en fuel c1 c2 radius flag s).

Lemma drawn_folder atan2 ps limit folder s g : drawn atan2 ps g -> load_graph_from_file limit (default_graph_path folder) s = Ok g -> answers_charted atan2 ps limit folder s.
Proof.
  intros Dr E. exists g. split; [exact E|]. intros ords en c1 c2 source destination ns nd radius flag E1 E2 Cq Ho.
  destruct (drawn_answers atan2 ords ps g (en g) c1 c2 source destination ns nd radius flag Dr Cq E1 E2 Ho) as (n & H). exists n. intros fuel L.
  unfold interpolate_cmd. rewrite E. apply H, L.
Qed.

Lemma clear_fixed ps : Forall clear_polygon ps -> Forall (fun p => make_polygon (verts p) = Ok p) ps.
Proof.
  apply Forall_impl. intros p (vs & F & N & C & E). apply (rebuild_clear vs); try assumption. eapply Forall_impl; [|exact F]. apply ngeo_pgeo.
Qed.
Lemma clear_parts_distinct ps : Forall clear_polygon ps -> NoDup (polygon_vertices ps) -> NoDup ps.
Proof.
  induction ps as [|P ps IH]; intros F N; [constructor|]. inversion F as [|? ? FP F']; subst. unfold polygon_vertices in N. cbn [map concat] in N.
  destruct (clear_polygon_facts P FP) as (_ & _ & Le & _). constructor.
  - intros I. destruct (verts P) as [|c l] eqn:V; [cbn [List.length] in Le; lia|]. cbn [app] in N. inversion N as [|? ? Nc N']; subst. apply Nc, in_or_app. right.
    change (In c (polygon_vertices ps)). apply in_polygon_vertices. exists P. split; [exact I|]. rewrite V. left. reflexivity.
  - apply IH; [exact F'|]. revert N. generalize (verts P). clear. induction l as [|x l IHl]; intros N; [exact N|]. cbn [app] in N. inversion N. auto.
Qed.

(** ** the commands *)
Theorem generate_free atan2 ords shapes ps out s limit : accurate_atan2 atan2 -> (forall v, library_orders (ords v)) -> charted_shapes shapes ps limit -> fresh s out ->
  exists s', generate_cmd (fun ps v => vis_periodic atan2 (ords v) ps v) (Ok shapes) out s = (s', Ok tt) /\ answers_charted atan2 ps limit out s'.
Proof.
  intros T L (W & E & Er & F & N & C & Fi) (N1 & N2 & N3).
  destruct (generate_pipeline atan2 ords shapes out s limit L W E N1 N2 N3) as (ps' & g & Er' & Eg & H). rewrite Er in Er'. injection Er' as <-.
  destruct (H (clear_fixed ps F) Fi) as (s' & g' & E1 & E2 & B & Sg & _). exists s'. split; [exact E1|].
  pose proof (charted_drawn atan2 ords ps g (conj T (conj L (conj F (conj N (conj C Eg)))))) as Dr. pose proof Sg as (S1 & S2 & S3 & _).
  apply (drawn_folder atan2 ps limit out s' g'); [|exact E2].
  eapply drawn_like; [exact Dr|exact B| |].
  - rewrite S1. apply Dr.
  - intros a b. unfold answer. rewrite S2, S3. reflexivity.
Qed.
Theorem distributed_free atan2 ords shuffle enum shapes ps (num : nat) dir inputs out s limit : accurate_atan2 atan2 -> (forall v, library_orders (ords v)) ->
  (forall l, Permutation (shuffle l) l) -> enumerates enum -> charted_shapes shapes ps limit -> ps <> [] ->
  (1 <= num)%nat -> NoDup (map dir (seq 0 num)) -> (forall i, (i < num)%nat -> fresh s (dir i)) ->
  Permutation inputs (map dir (seq 0 num)) -> fresh s out -> ~ In out inputs ->
  let vis := fun ps v => vis_periodic atan2 (ords v) ps v in
  exists s1 s2, sequence (map (fun cur => generate_range_cmd vis shuffle (Ok shapes) (dir cur) (Z.of_nat cur) (Z.of_nat num)) (seq 0 num)) s = (s1, Ok tt) /\
    merge_cmd limit enum inputs out s1 = (s2, Ok tt) /\ answers_charted atan2 ps limit out s2.
Proof.
  intros T L Sh En (W & E & Er & F & N & C & Fi) Ne N1 N2 N3 Pi Fo No vis.
  destruct (distributed_pipeline atan2 ords shuffle enum shapes num dir inputs out s limit L Sh En W E N1 N2 N3 Pi Fo No) as (ps' & g & Er' & Eg & H). rewrite Er in Er'. injection Er' as <-.
  destruct (H Ne (clear_fixed ps F) Fi) as (s1 & s2 & m & E1 & E2 & E3 & B & Nd & In_m & Sa). exists s1, s2. split; [exact E1|]. split; [exact E2|].
  pose proof (charted_drawn atan2 ords ps g (conj T (conj L (conj F (conj N (conj C Eg)))))) as Dr.
  apply (drawn_folder atan2 ps limit out s2 m); [|exact E3]. eapply drawn_like; [exact Dr|exact B| |].
  - apply NoDup_Permutation; [exact Nd|apply clear_parts_distinct; assumption|exact In_m].
  - intros a b. unfold answer. destruct (Sa a b) as [-> ->]. reflexivity.
Qed.
