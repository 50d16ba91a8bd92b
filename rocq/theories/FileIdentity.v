(** A saved file depends on nothing but the polygons and answers of the graph, and loading on nothing
    but the bytes of the file (for C87). *)
From Coq Require Import ZArith Bool List Lia Permutation.
From Verif Require Import Base F64 Coordinate Segment Polygon Graph SpecGraph GraphFacts GraphMore
  Serializer BytesFacts SaveFacts LoadFacts SpecFile RoundFacts SerializerMore Visgraph VisgraphFacts.
Import ListNotations.
Local Open Scope Z_scope.

(** the same bytes; what a model file holds outside its length is of no meaning *)
Definition same_file (m1 m2 : file) : Prop :=
  f_len m1 = f_len m2 /\ forall k, 0 <= k < f_len m1 -> f_byte m1 k = f_byte m2 k.

Lemma foldM_ext {A S} (f g : S -> A -> res S) l s : (forall s x, f s x = g s x) -> foldM f l s = foldM g l s.
Proof. intros E. revert s. induction l as [|x l IH]; intros s; [reflexivity|]. cbn [foldM]. rewrite E. destruct (g s x); [apply IH|reflexivity|reflexivity]. Qed.
Lemma mapM_ext {A B} (f g : A -> res B) l : (forall x, f x = g x) -> mapM f l = mapM g l.
Proof. intros E. induction l as [|x l IH]; [reflexivity|]. cbn [mapM]. rewrite E, IH. reflexivity. Qed.

(** ** Saving *)
Section Save.
Variables g1 g2 : graph.
Hypothesis P : get_polygons g1 = get_polygons g2.
Hypothesis V : get_vertices g1 = get_vertices g2.
Hypothesis H : forall a b, has_edge g1 a b = has_edge g2 a b.
Hypothesis C : forall a b, is_edge_meridian_crossing g1 a b = is_edge_meridian_crossing g2 a b.

Lemma at_same i : vertex_at g1 i = vertex_at g2 i.
Proof. unfold vertex_at, index_to_coordinate. unfold get_vertices in V. rewrite V. reflexivity. Qed.

Lemma encode_same i j : encode_byte g1 i j = encode_byte g2 i j.
Proof.
  unfold encode_byte. apply foldM_ext. intros enc l. rewrite !at_same. destruct (vertex_at g2 i); cbn [bind]; auto.
  destruct (vertex_at g2 l); cbn [bind]; auto. rewrite H. reflexivity.
Qed.
Lemma row_same off i : put_row g1 off i = put_row g2 off i.
Proof. unfold put_row. rewrite (mapM_ext _ (fun j => b <- encode_byte g2 i j ;; Ok (put_u8 b (row_offset off i + Z.of_nat j)))); [reflexivity|]. intros j. rewrite encode_same. reflexivity. Qed.
Lemma crossings_same back : put_crossings g1 back = put_crossings g2 back.
Proof.
  unfold put_crossings. rewrite V. apply foldM_ext. intros st i. apply foldM_ext. intros [ws cur] j. rewrite !at_same.
  destruct (vertex_at g2 i); cbn [bind]; auto. destruct (vertex_at g2 j); cbn [bind]; auto. rewrite C. reflexivity.
Qed.
Lemma count_same : count_crossings g1 = count_crossings g2.
Proof. unfold count_crossings. rewrite V. apply foldM_ext. intros n v1. apply foldM_ext. intros m v2. rewrite C. reflexivity. Qed.
Lemma writes_same : save_writes g1 = save_writes g2.
Proof.
  unfold save_writes. rewrite count_same. destruct (count_crossings g2) as [nc|e|u]; cbn [bind]; auto. rewrite P.
  destruct (put_polygons (get_polygons g2) 8) as [pw off].
  assert (E : put_adjacency g1 off nc = put_adjacency g2 off nc).
  { unfold put_adjacency. cbv zeta. rewrite V, (mapM_ext _ (put_row g2 off)) by (intros i; apply row_same). rewrite crossings_same. reflexivity. }
  rewrite E. unfold num_bytes. rewrite P, V. reflexivity.
Qed.
Lemma saved_same old : serialize_to_file g1 old = serialize_to_file g2 old.
Proof. unfold serialize_to_file. rewrite writes_same. reflexivity. Qed.
End Save.

(** ** Loading *)
Section Load.
Variables m1 m2 : file.
Hypothesis S : same_file m1 m2.

Lemma read_same off : read_byte m1 off = read_byte m2 off.
Proof.
  destruct S as [L B]. unfold read_byte. rewrite <- L. destruct (Z.leb_spec 0 off); [|reflexivity]. destruct (Z.ltb_spec off (f_len m1)); [|reflexivity].
  cbn. rewrite B by lia. reflexivity.
Qed.
Lemma bytes_same n off : get_bytes n m1 off = get_bytes n m2 off.
Proof. unfold get_bytes. apply foldM_ext. intros v i. rewrite read_same. reflexivity. Qed.
Lemma i32_same off : get_i32 m1 off = get_i32 m2 off.
Proof. unfold get_i32, get_u32. rewrite bytes_same. reflexivity. Qed.
Lemma list_same limit num off : get_vertex_list limit m1 num off = get_vertex_list limit m2 num off.
Proof.
  unfold get_vertex_list. destruct (alloc limit num); cbn [bind]; auto. apply mapM_ext. intros j. cbv zeta. rewrite i32_same.
  destruct (get_i32 m2 _); cbn [bind]; auto. rewrite i32_same. reflexivity.
Qed.
Lemma polygons_same limit fuel : forall off, get_polygons_from fuel limit m1 off = get_polygons_from fuel limit m2 off.
Proof.
  induction fuel as [|fuel IH]; intros off; [reflexivity|]. cbn [get_polygons_from]. unfold get_u64. rewrite bytes_same.
  destruct (get_bytes 8 m2 off); cbn [bind]; auto. rewrite list_same. destruct (get_vertex_list limit m2 _ _); cbn [bind]; auto.
  destruct (make_polygon _); cbn [bind]; auto. rewrite IH. reflexivity.
Qed.
Lemma adjacency_same g off : get_adjacency m1 g off = get_adjacency m2 g off.
Proof.
  unfold get_adjacency. cbv zeta.
  assert (E : forall back, get_crossings m1 back = get_crossings m2 back).
  { intros back. unfold get_crossings, get_u64. rewrite bytes_same. destruct (get_bytes 8 m2 back); cbn [bind]; auto. apply mapM_ext. intros i. apply bytes_same. }
  rewrite E. destruct (get_crossings m2 _); cbn [bind]; auto. apply foldM_ext. intros g' i. apply foldM_ext. intros g'' j.
  unfold load_byte. rewrite read_same. reflexivity.
Qed.
Lemma loaded_same limit : deserialize_from_file limit m1 = deserialize_from_file limit m2.
Proof.
  unfold deserialize_from_file. rewrite (proj1 S). destruct (_ <=? _); [reflexivity|]. unfold get_u64. rewrite bytes_same.
  destruct (get_bytes 8 m2 0); cbn [bind]; auto. destruct (alloc limit _); cbn [bind]; auto. rewrite polygons_same.
  destruct (get_polygons_from _ limit m2 8) as [[ps off]| |]; cbn [bind]; auto. apply adjacency_same.
Qed.
End Load.

Lemma same_file_refl m : same_file m m.
Proof. split; auto. Qed.

Lemma same_graph_sym g1 g2 : same_graph g1 g2 -> same_graph g2 g1.
Proof. intros (A & B & C & D). repeat split; intros; symmetry; auto. Qed.
Lemma same_graph_trans g1 g2 g3 : same_graph g1 g2 -> same_graph g2 g3 -> same_graph g1 g3.
Proof. intros (A & B & C & D) (A' & B' & C' & D'). repeat split; intros; etransitivity; eauto. Qed.

(** ** C87 *)
Section Identity.
Variables (ps1 ps2 : list polygon) (h1 h2 : list gop) (g1 g2 : graph).
Hypothesis G1 : grun (make_graph ps1) h1 = Ok g1.
Hypothesis G2 : grun (make_graph ps2) h2 = Ok g2.

Lemma same_graph_saved old : get_polygons g1 = get_polygons g2 -> (forall a b, has_edge g1 a b = has_edge g2 a b) ->
  (forall a b, is_edge_meridian_crossing g1 a b = is_edge_meridian_crossing g2 a b) -> serialize_to_file g1 old = serialize_to_file g2 old.
Proof.
  intros P H C. apply saved_same; auto. rewrite (built_vertices _ _ _ G1), (built_vertices _ _ _ G2).
  rewrite (built_polys _ _ _ G1), (built_polys _ _ _ G2) in P. rewrite P. reflexivity.
Qed.

Hypothesis M1 : fixed_map ps1.
Hypothesis M2 : fixed_map ps2.
Hypothesis U1 : Forall undirected h1.
Hypothesis U2 : Forall undirected h2.
Hypothesis L1 : file_size g1 < 2 ^ 60.
Hypothesis L2 : file_size g2 < 2 ^ 60.

Lemma files_identify : exists m1 m2, serialize_to_file g1 None = Ok m1 /\ serialize_to_file g2 None = Ok m2 /\
  (same_file m1 m2 <-> same_graph g1 g2).
Proof.
  set (limit := Z.max (file_size g1) (file_size g2)).
  destruct (save_load_fresh ps1 h1 g1 limit M1 U1 G1 L1 ltac:(unfold limit; lia)) as (m1 & l1 & S1 & D1 & _ & E1).
  destruct (save_load_fresh ps2 h2 g2 limit M2 U2 G2 L2 ltac:(unfold limit; lia)) as (m2 & l2 & S2 & D2 & _ & E2).
  exists m1, m2. split; [exact S1|]. split; [exact S2|]. split.
  - intros F. rewrite (loaded_same m1 m2 F limit) in D1. assert (l1 = l2) by congruence. subst l2.
    eapply same_graph_trans; [apply same_graph_sym; exact E1|exact E2].
  - intros (P & H & C & _). pose proof (same_graph_saved None P H C) as E. rewrite S1, S2 in E. injection E as <-. apply same_file_refl.
Qed.
End Identity.

(** loading and saving again gives the same bytes *)
Lemma resaved ps h g limit : fixed_map ps -> Forall undirected h -> grun (make_graph ps) h = Ok g ->
  file_size g < 2 ^ 60 -> file_size g <= limit ->
  exists m g', serialize_to_file g None = Ok m /\ deserialize_from_file limit m = Ok g' /\ serialize_to_file g' None = Ok m.
Proof.
  intros M U G S L. destruct (save_load_fresh ps h g limit M U G S L) as (m & g' & E & D & (ps' & h' & U' & G') & P & H & C & _).
  exists m, g'. split; [exact E|]. split; [exact D|]. rewrite <- E. eapply same_graph_saved; eauto.
Qed.

(** ** Merging (for C88) *)
Definition join (x y : view) : view := match x, y with None, _ => y | _, None => x | Some a, Some b => Some (a && b) end.
Lemma union_nil a b : union_view [] a b = None.
Proof. reflexivity. Qed.
Lemma union_cons g gs a b : union_view (g :: gs) a b = join (answer g a b) (union_view gs a b).
Proof.
  unfold union_view, flags_of. cbn [flat_map]. destruct (answer g a b) as [c|]; cbn [app join]; [|reflexivity].
  destruct (flat_map _ gs) as [|x l]; cbn [forallb]; [rewrite andb_true_r|]; reflexivity.
Qed.
Lemma join_assoc x y z : join x (join y z) = join (join x y) z.
Proof. destruct x, y, z; cbn; try reflexivity. rewrite andb_assoc. reflexivity. Qed.
Lemma union_app gs1 gs2 a b : union_view (gs1 ++ gs2) a b = join (union_view gs1 a b) (union_view gs2 a b).
Proof. induction gs1 as [|g gs IH]; [reflexivity|]. cbn [app]. rewrite !union_cons, IH. apply join_assoc. Qed.

(** every polygon of the graphs, no others *)
Definition polygons_of (gs : list graph) (polys : list polygon) : Prop :=
  forall p, In p polys <-> exists g, In g gs /\ In p (get_polygons g).

Lemma merged_built polys gs m : Forall built gs -> (forall g p, In g gs -> In p (get_polygons g) -> In p polys) -> merge_graphs polys gs = Ok m ->
  (exists h, Forall undirected h /\ grun (make_graph polys) h = Ok m) /\ get_polygons m = polys /\ forall a b, answer m a b = union_view gs a b.
Proof.
  intros B Hp E. destruct (merge_any_order polys gs (flat_map merge_ops gs) B Hp) as (m' & E1 & E2 & P & Q); [tauto|].
  rewrite merge_graphs_ops, E1 in E by assumption. injection E as <-. split; [|auto]. exists (flat_map merge_ops gs). split; [|exact E2].
  apply Forall_forall. intros o Ho. apply in_flat_map in Ho. destruct Ho as (g & _ & Ho).
  pose proof (merge_ops_adds g) as A. rewrite Forall_forall in A. specialize (A o Ho). destruct o; simpl in *; tauto.
Qed.

Lemma answers_same_graph ps h1 h2 g1 g2 : grun (make_graph ps) h1 = Ok g1 -> grun (make_graph ps) h2 = Ok g2 -> Forall undirected h1 -> Forall undirected h2 ->
  (forall a b, answer g1 a b = answer g2 a b) -> same_graph g1 g2 /\ forall old, serialize_to_file g1 old = serialize_to_file g2 old.
Proof.
  intros G1 G2 U1 U2 A. pose proof (answers_agree ps h1 g1 ps h2 g2 G1 G2 ltac:(tauto) A) as S.
  assert (P : get_polygons g1 = get_polygons g2) by (rewrite (built_polys _ _ _ G1), (built_polys _ _ _ G2); reflexivity).
  split.
  - split; [exact P|]. split; [intros a b; apply (S a b)|]. split; [intros a b; apply (S a b)|].
    eapply same_edges_neighbors; eauto. intros a b. apply (S a b).
  - intros old. eapply same_graph_saved; eauto; intros a b; apply (S a b).
Qed.

Lemma merge_set polys gs1 gs2 : Forall built gs1 -> (forall g, In g gs1 <-> In g gs2) -> (forall g p, In g gs1 -> In p (get_polygons g) -> In p polys) ->
  exists m1 m2, merge_graphs polys gs1 = Ok m1 /\ merge_graphs polys gs2 = Ok m2 /\ same_graph m1 m2 /\ forall old, serialize_to_file m1 old = serialize_to_file m2 old.
Proof.
  intros B1 I Hp. assert (B2 : Forall built gs2) by (rewrite Forall_forall in *; intros g Hg; apply B1, I, Hg).
  assert (Hp2 : forall g p, In g gs2 -> In p (get_polygons g) -> In p polys) by (intros g p Hg; apply Hp, I, Hg).
  destruct (merge_graphs_union polys gs1 B1 Hp) as (m1 & E1 & _). destruct (merge_graphs_union polys gs2 B2 Hp2) as (m2 & E2 & _).
  exists m1, m2. split; [exact E1|]. split; [exact E2|].
  destruct (merged_built polys gs1 m1 B1 Hp E1) as ((h1 & U1 & G1) & _ & A1). destruct (merged_built polys gs2 m2 B2 Hp2 E2) as ((h2 & U2 & G2) & _ & A2).
  eapply answers_same_graph; eauto. intros a b. rewrite A1, A2. unfold union_view.
  assert (F : forall f, In f (flags_of gs1 a b) <-> In f (flags_of gs2 a b)).
  { intros f. rewrite !flags_of_in. split; intros (g & Hg & E); exists g; (split; [apply I, Hg|exact E]). }
  pose proof (forallb_ext_set _ _ F) as Hf. destruct (flags_of gs1 a b) as [|x l1] eqn:X1, (flags_of gs2 a b) as [|y l2] eqn:X2; try reflexivity.
  - destruct (proj2 (F y)); left; reflexivity.
  - destruct (proj1 (F x)); left; reflexivity.
  - rewrite Hf. reflexivity.
Qed.

(** what merging one group may leave: a graph of the same answers *)
Definition staged (gs : list graph) (m : graph) : Prop :=
  exists polys m0, polygons_of gs polys /\ merge_graphs polys gs = Ok m0 /\ built m /\ same_graph m m0.

Lemma merge_staged gss ms : Forall (Forall built) gss -> Forall2 staged gss ms ->
  forall polys, (forall g p, In g (concat gss) -> In p (get_polygons g) -> In p polys) ->
  exists m1 m2, merge_graphs polys ms = Ok m1 /\ merge_graphs polys (concat gss) = Ok m2 /\ same_graph m1 m2 /\ forall old, serialize_to_file m1 old = serialize_to_file m2 old.
Proof.
  intros B F polys Hp.
  assert (Bc : Forall built (concat gss)).
  { rewrite Forall_forall in *. intros g Hg. apply in_concat in Hg. destruct Hg as (gs & Hgs & Hg). specialize (B gs Hgs). rewrite Forall_forall in B. auto. }
  assert (K : Forall built ms /\ (forall g p, In g ms -> In p (get_polygons g) -> In p polys) /\ forall a b, union_view ms a b = union_view (concat gss) a b).
  { clear Bc. revert B Hp. induction F as [|gs m gss ms (qs & m0 & Q & E & Bm & Sm) F IH]; intros B Hp; [split; [constructor|split; [intros g p []|reflexivity]]|].
    inversion B as [|? ? B1 B2]; subst.
    assert (Hq : forall g p, In g gs -> In p (get_polygons g) -> In p qs) by (intros g p Hg Hgp; apply Q; eauto).
    destruct (merged_built qs gs m0 B1 Hq E) as (_ & P & A).
    destruct IH as (K1 & K2 & K3); [exact B2|intros g p Hg; apply Hp; cbn [concat]; apply in_or_app; right; exact Hg|].
    destruct Sm as (P' & H' & C' & _). split; [|split].
    - constructor; assumption.
    - intros g p [<-|Hg] Hgp; [|apply (K2 g p Hg Hgp)]. rewrite P', P in Hgp. apply Q in Hgp. destruct Hgp as (g & Hg & Hgp).
      apply (Hp g p); [|exact Hgp]. cbn [concat]. apply in_or_app. left. exact Hg.
    - intros a b. cbn [concat]. rewrite union_cons, union_app, K3, <- A. unfold answer. rewrite H', C'. reflexivity. }
  destruct K as (Bm & Hm & V).
  destruct (merge_graphs_union polys ms Bm Hm) as (m1 & E1 & _). destruct (merge_graphs_union polys (concat gss) Bc Hp) as (m2 & E2 & _).
  exists m1, m2. split; [exact E1|]. split; [exact E2|].
  destruct (merged_built polys ms m1 Bm Hm E1) as ((h1 & U1 & G1) & _ & A1). destruct (merged_built polys (concat gss) m2 Bc Hp E2) as ((h2 & U2 & G2) & _ & A2).
  eapply answers_same_graph; eauto. intros a b. rewrite A1, A2. apply V.
Qed.

Lemma same_graph_refl g : same_graph g g.
Proof. repeat split; reflexivity. Qed.

Lemma merge_stages gss ms : Forall (Forall built) gss ->
  Forall2 (fun gs m => exists polys, polygons_of gs polys /\ merge_graphs polys gs = Ok m) gss ms ->
  forall polys, (forall g p, In g (concat gss) -> In p (get_polygons g) -> In p polys) ->
  exists m1 m2, merge_graphs polys ms = Ok m1 /\ merge_graphs polys (concat gss) = Ok m2 /\ same_graph m1 m2 /\ forall old, serialize_to_file m1 old = serialize_to_file m2 old.
Proof.
  intros B F. apply merge_staged; [exact B|]. induction F as [|gs m gss ms (qs & Q & E) F IH]; constructor; inversion B as [|? ? B1 B2]; subst.
  - assert (Hq : forall g p, In g gs -> In p (get_polygons g) -> In p qs) by (intros g p Hg Hgp; apply Q; eauto).
    destruct (merged_built qs gs m B1 Hq E) as ((h & U & G) & _). exists qs, m. split; [exact Q|]. split; [exact E|].
    split; [exists qs, h; auto|apply same_graph_refl].
  - apply IH. exact B2.
Qed.

(** the same with the results of the groups saved to fresh paths and loaded *)
Lemma merge_stages_files limit gss ms : Forall (Forall built) gss -> (forall g, In g (concat gss) -> fixed_map (get_polygons g)) ->
  Forall2 (fun gs m => exists polys m0 f, polygons_of gs polys /\ merge_graphs polys gs = Ok m0 /\ file_size m0 < 2 ^ 60 /\ file_size m0 <= limit /\
    serialize_to_file m0 None = Ok f /\ deserialize_from_file limit f = Ok m) gss ms ->
  forall polys, (forall g p, In g (concat gss) -> In p (get_polygons g) -> In p polys) ->
  exists m1 m2, merge_graphs polys ms = Ok m1 /\ merge_graphs polys (concat gss) = Ok m2 /\ same_graph m1 m2 /\ forall old, serialize_to_file m1 old = serialize_to_file m2 old.
Proof.
  intros B M F. apply merge_staged; [exact B|]. induction F as [|gs m gss ms (qs & m0 & f & Q & E & S & L & Sf & D) F IH]; constructor; inversion B as [|? ? B1 B2]; subst.
  - assert (Hq : forall g p, In g gs -> In p (get_polygons g) -> In p qs) by (intros g p Hg Hgp; apply Q; eauto).
    destruct (merged_built qs gs m0 B1 Hq E) as ((h & U & G) & _).
    assert (Fm : fixed_map qs).
    { apply Forall_forall. intros p Hqp. apply Q in Hqp. destruct Hqp as (g & Hg & Hgp).
      assert (FM : fixed_map (get_polygons g)) by (apply M; cbn [concat]; apply in_or_app; left; exact Hg).
      unfold fixed_map in FM. rewrite Forall_forall in FM. exact (FM p Hgp). }
    destruct (save_load_fresh qs h m0 limit Fm U G S L) as (f' & m' & Sf' & D' & Bm & Sm).
    assert (f' = f) by congruence. subst f'. assert (m' = m) by congruence. subst m'.
    exists qs, m0. auto.
  - apply IH; [exact B2|]. intros g Hg. apply M. cbn [concat]. apply in_or_app. right. exact Hg.
Qed.

(** ** Splits (for C87): with the polygons in the same order the merged file is the file of one run *)
Lemma splits_same_file ps vis shuffled (num : nat) :
  ps <> [] -> reports ps vis -> Permutation shuffled (polygon_vertices ps) -> (1 <= num)%nat ->
  exists gs g,
    mapM (fun cur => generate_for_vertex_range vis ps (Z.of_nat cur) (Z.of_nat num) shuffled) (seq 0 num) = Ok gs /\
    generate vis ps = Ok g /\
    forall gs2, Permutation gs2 gs -> exists m, merge_graphs ps gs2 = Ok m /\ forall old, serialize_to_file m old = serialize_to_file g old.
Proof.
  intros NE R P N. destruct (distributed_total ps vis shuffled num NE R P N) as (gs & g & E & G & D).
  destruct (all_splits ps vis shuffled num NE R P N) as (gs' & E' & F). assert (gs' = gs) by congruence. subst gs'.
  destruct (generate_ok ps vis R) as (g' & Eg & Gg). assert (g' = g) by congruence. subst g'.
  exists gs, g. split; [exact E|]. split; [exact G|]. intros gs2 Pe. destruct (D gs2 ps Pe ltac:(tauto)) as (m & Em & Pm & A).
  exists m. split; [exact Em|].
  assert (B : forall x, In x gs2 -> exists h, Forall undirected h /\ grun (make_graph ps) h = Ok x).
  { intros x Hx. apply (Permutation_in _ Pe) in Hx. destruct (Forall2_in_r _ _ _ _ F Hx) as (h & _ & Ha & Hg). exists h. split; [|exact Hg].
    eapply Forall_impl; [|exact Ha]. intros o Ho. destruct o; simpl in *; tauto. }
  assert (Bs : Forall built gs2) by (apply Forall_forall; intros x Hx; destruct (B x Hx) as (h & U & H); exists ps, h; auto).
  destruct (merged_built ps gs2 m Bs) as ((h & U & H) & _).
  - intros x p Hx Hp. destruct (B x Hx) as (h & _ & H). rewrite (built_polys _ _ _ H) in Hp. exact Hp.
  - exact Em.
  - intros old. eapply same_graph_saved; [exact H|exact Gg| | |]; [|intros a b; apply (A a b)|intros a b; apply (A a b)].
    rewrite (built_polys _ _ _ H), (built_polys _ _ _ Gg). reflexivity.
Qed.
