(** C87, C88: what a graph file depends on, and merging in stages (graph_serializer.cpp, graph.cpp, graph_merger.py). *)
From Coq Require Import ZArith Bool List Lia Permutation.
From Verif Require Import Base F64 Coordinate Segment Polygon Graph SpecGraph GraphFacts GraphMore
  Serializer SpecFile SerializerMore Visgraph VisgraphFacts FileIdentity Props_Serializer Props_Visgraph.
Import ListNotations.
Local Open Scope Z_scope.

(** C87.  Two graphs give the same file if and only if they are the same graph: polygons, edges, flags, neighbours.
    [fixed_map] as in C35. *)
Theorem C87_files_identify : forall ps1 ps2 h1 h2 g1 g2,
  grun (make_graph ps1) h1 = Ok g1 -> grun (make_graph ps2) h2 = Ok g2 -> fixed_map ps1 -> fixed_map ps2 ->
  Forall undirected h1 -> Forall undirected h2 -> file_size g1 < 2 ^ 60 -> file_size g2 < 2 ^ 60 ->
  exists m1 m2, serialize_to_file g1 None = Ok m1 /\ serialize_to_file g2 None = Ok m2 /\ (same_file m1 m2 <-> same_graph g1 g2).
Proof. exact files_identify. Qed.
Print Assumptions C87_files_identify.

(** the way there does not matter, over whatever was at the path, and for directed calls too *)
Theorem C87_only_answers : forall ps1 ps2 h1 h2 g1 g2 old,
  grun (make_graph ps1) h1 = Ok g1 -> grun (make_graph ps2) h2 = Ok g2 ->
  get_polygons g1 = get_polygons g2 -> (forall a b, has_edge g1 a b = has_edge g2 a b) ->
  (forall a b, is_edge_meridian_crossing g1 a b = is_edge_meridian_crossing g2 a b) ->
  serialize_to_file g1 old = serialize_to_file g2 old.
Proof. intros ps1 ps2 h1 h2 g1 g2 old G1 G2. exact (same_graph_saved ps1 ps2 h1 h2 g1 g2 G1 G2 old). Qed.
Print Assumptions C87_only_answers.

(** loading depends on the bytes alone, for any bytes *)
Theorem C87_only_bytes : forall m1 m2 limit, same_file m1 m2 -> deserialize_from_file limit m1 = deserialize_from_file limit m2.
Proof. intros m1 m2 limit S. exact (loaded_same m1 m2 S limit). Qed.
Print Assumptions C87_only_bytes.

(** a file loaded and saved again is the same file *)
Theorem C87_resaved : forall ps h g limit, fixed_map ps -> Forall undirected h -> grun (make_graph ps) h = Ok g ->
  file_size g < 2 ^ 60 -> file_size g <= limit ->
  exists m g', serialize_to_file g None = Ok m /\ deserialize_from_file limit m = Ok g' /\ serialize_to_file g' None = Ok m.
Proof. exact resaved. Qed.
Print Assumptions C87_resaved.

(** splits merged in any order give the file of one run, byte for byte, if the set of polygons is listed in the order of the map *)
Theorem C87_splits : forall ps vis shuffled (num : nat),
  ps <> [] -> reports ps vis -> Permutation shuffled (polygon_vertices ps) -> (1 <= num)%nat ->
  exists gs g,
    mapM (fun cur => generate_for_vertex_range vis ps (Z.of_nat cur) (Z.of_nat num) shuffled) (seq 0 num) = Ok gs /\
    generate vis ps = Ok g /\
    forall gs2, Permutation gs2 gs -> exists m, merge_graphs ps gs2 = Ok m /\ forall old, serialize_to_file m old = serialize_to_file g old.
Proof. exact splits_same_file. Qed.
Print Assumptions C87_splits.

(** two histories of one graph, and a third which differs in one flag only *)
Definition other_hist : list gop :=
  [GAdd (mkC (-179999999) (-5)) (mkC 179999999 89000000) false; GAdd ex_b ex_c true; GAdd ex_a ex_b true; GAdd ex_c ex_b false;
   GAdd (mkC 179999999 (-5)) ex_c true].
Definition flag_hist : list gop := GAdd ex_b ex_a false :: other_hist.
Definition same_file_b (m1 m2 : file) : bool :=
  (f_len m1 =? f_len m2) && forallb (fun k => f_byte m1 (Z.of_nat k) =? f_byte m2 (Z.of_nat k)) (seq 0 (Z.to_nat (f_len m1))).
Definition compared (h1 h2 : list gop) : res bool :=
  g1 <- grun (make_graph [ex_tri; ex_quad]) h1 ;; g2 <- grun (make_graph [ex_tri; ex_quad]) h2 ;;
  m1 <- serialize_to_file g1 None ;; m2 <- serialize_to_file g2 None ;; Ok (same_file_b m1 m2).
Example C87_ex : fixed_map [ex_tri; ex_quad] /\ Forall undirected ex_hist /\ Forall undirected other_hist /\ Forall undirected flag_hist /\
  compared ex_hist other_hist = Ok true /\ compared other_hist flag_hist = Ok false.
Proof. split; [exact ex_fixed|]. repeat (split; [repeat constructor|]); vm_compute; reflexivity. Qed.
(** without the hypothesis on the calls it is false: the file holds one direction only *)
Example C87_ex_directed : exists g1 g2 m1 m2, grun (make_graph [ex_tri]) [] = Ok g1 /\ grun (make_graph [ex_tri]) [GAddDir ex_a ex_b false] = Ok g2 /\
  has_edge g1 ex_a ex_b = Ok false /\ has_edge g2 ex_a ex_b = Ok true /\
  serialize_to_file g1 None = Ok m1 /\ serialize_to_file g2 None = Ok m2 /\ same_file_b m1 m2 = true.
Proof. do 4 eexists. repeat (split; [cbv; reflexivity|]). vm_compute. reflexivity. Qed.
(** the order of the polygons is part of the file, and the example map of C87_splits meets its hypotheses *)
Example C87_ex_order : exists g1 g2 m1 m2, grun (make_graph [ex_tri; ex_quad]) [] = Ok g1 /\ grun (make_graph [ex_quad; ex_tri]) [] = Ok g2 /\
  serialize_to_file g1 None = Ok m1 /\ serialize_to_file g2 None = Ok m2 /\ same_file_b m1 m2 = false.
Proof. do 4 eexists. repeat (split; [cbv; reflexivity|]). vm_compute. reflexivity. Qed.
Example C87_ex_splits : exv_ps <> [] /\ reports exv_ps exv_vis /\ Permutation exv_shuffled (polygon_vertices exv_ps).
Proof. split; [discriminate|]. split; [exact exv_reports|exact exv_perm]. Qed.

(** C88.  What merging gives depends on which graphs are given, not on their order or how often each is given. *)
Theorem C88_set : forall polys gs1 gs2, Forall built gs1 -> (forall g, In g gs1 <-> In g gs2) ->
  (forall g p, In g gs1 -> In p (get_polygons g) -> In p polys) ->
  exists m1 m2, merge_graphs polys gs1 = Ok m1 /\ merge_graphs polys gs2 = Ok m2 /\ same_graph m1 m2 /\
    forall old, serialize_to_file m1 old = serialize_to_file m2 old.
Proof. exact merge_set. Qed.
Print Assumptions C88_set.

(** Merging groups first and then the results is merging everything at once.  Each group is merged over its own polygons
    in any order ([polygons_of]), the last merge over [polys]. *)
Theorem C88_stages : forall gss ms, Forall (Forall built) gss ->
  Forall2 (fun gs m => exists polys, polygons_of gs polys /\ merge_graphs polys gs = Ok m) gss ms ->
  forall polys, (forall g p, In g (concat gss) -> In p (get_polygons g) -> In p polys) ->
  exists m1 m2, merge_graphs polys ms = Ok m1 /\ merge_graphs polys (concat gss) = Ok m2 /\ same_graph m1 m2 /\
    forall old, serialize_to_file m1 old = serialize_to_file m2 old.
Proof. exact merge_stages. Qed.
Print Assumptions C88_stages.

(** the same when the results of the groups go through files at fresh paths *)
Theorem C88_stages_files : forall limit gss ms, Forall (Forall built) gss -> (forall g, In g (concat gss) -> fixed_map (get_polygons g)) ->
  Forall2 (fun gs m => exists polys m0 f, polygons_of gs polys /\ merge_graphs polys gs = Ok m0 /\ file_size m0 < 2 ^ 60 /\ file_size m0 <= limit /\
    serialize_to_file m0 None = Ok f /\ deserialize_from_file limit f = Ok m) gss ms ->
  forall polys, (forall g p, In g (concat gss) -> In p (get_polygons g) -> In p polys) ->
  exists m1 m2, merge_graphs polys ms = Ok m1 /\ merge_graphs polys (concat gss) = Ok m2 /\ same_graph m1 m2 /\
    forall old, serialize_to_file m1 old = serialize_to_file m2 old.
Proof. exact merge_stages_files. Qed.
Print Assumptions C88_stages_files.

(** four graphs over different polygons, merged as two and two; an edge is told crossing by one group and not by the other *)
Definition st_graph (ps : list polygon) (h : list gop) : graph := match grun (make_graph ps) h with Ok g => g | _ => make_graph [] end.
Definition st_g1 := st_graph [ex_tri] [GAdd ex_a ex_b true].
Definition st_g2 := st_graph [ex_quad; ex_tri] [GAdd ex_b ex_a true; GAdd ex_c (mkC 179999999 (-5)) true].
Definition st_g3 := st_graph [ex_tri; ex_quad] [GAdd ex_a ex_b false].
Definition st_g4 := st_graph [ex_tri] [GAdd ex_b ex_c true].
Definition st_merged (polys : list polygon) (gs : list graph) : graph := match merge_graphs polys gs with Ok m => m | _ => make_graph [] end.
Example C88_ex : let gss := [[st_g1; st_g2]; [st_g3; st_g4; st_g3]] in
  let ms := [st_merged [ex_quad; ex_tri] [st_g1; st_g2]; st_merged [ex_tri; ex_quad] [st_g3; st_g4; st_g3]] in
  Forall (Forall built) gss /\ (forall g, In g (concat gss) -> fixed_map (get_polygons g)) /\
  Forall2 (fun gs m => exists polys, polygons_of gs polys /\ merge_graphs polys gs = Ok m) gss ms /\
  map (fun m => answer m ex_a ex_b) ms = [Some true; Some false] /\
  exists m, merge_graphs [ex_tri; ex_quad] ms = Ok m /\ answer m ex_a ex_b = Some false /\ answer m ex_b ex_c = Some true.
Proof.
  cbv zeta. split.
  { assert (K : forall ps h, Forall undirected h -> grun (make_graph ps) h = Ok (st_graph ps h) -> built (st_graph ps h)) by (intros ps h U G; exists ps, h; auto).
    repeat first [apply Forall_nil|apply Forall_cons]; (apply K; [repeat constructor|vm_compute; reflexivity]). }
  split.
  { pose proof ex_fixed as F. unfold fixed_map in F. inversion F as [|? ? F1 F']; subst. inversion F' as [|? ? F2 _]; subst.
    intros g Hg. cbn [concat app In] in Hg.
    repeat (destruct Hg as [<-|Hg]; [change (fixed_map [ex_tri]) || change (fixed_map [ex_quad; ex_tri]) || change (fixed_map [ex_tri; ex_quad]); unfold fixed_map; repeat (apply Forall_cons; [assumption|]); apply Forall_nil|]). destruct Hg. }
  split.
  { constructor; [|constructor; [|constructor]].
    - exists [ex_quad; ex_tri]. split; [|vm_compute; reflexivity]. intros p. split.
      + intros [<-|[<-|[]]]; exists st_g2; (split; [right; left; reflexivity|vm_compute; tauto]).
      + intros (g & [<-|[<-|[]]] & Hp); vm_compute in Hp |- *; tauto.
    - exists [ex_tri; ex_quad]. split; [|vm_compute; reflexivity]. intros p. split.
      + intros [<-|[<-|[]]]; exists st_g3; (split; [left; reflexivity|vm_compute; tauto]).
      + intros (g & [<-|[<-|[<-|[]]]] & Hp); vm_compute in Hp |- *; tauto. }
  split; [vm_compute; reflexivity|]. eexists. split; [vm_compute; reflexivity|]. split; vm_compute; reflexivity.
Qed.
