(** C63-C66: the commands and the files they leave.  Beside each theorem an example meets its hypotheses. *)
From Coq Require Import ZArith Bool List Lia Permutation String.
From Verif Require Import Base F64 Coordinate Polygon SpecGeom SpecGraph Graph GraphMore Visgraph VisgraphFacts Serializer SerializerMore Segment Sweep Periodicity
  AngleFacts SweepMaps SweepGen SweepForced SweepCases ShortestPath SearchQuery PyLayer PyFacts Pipeline PipelineFacts Props_Path Props_Sweep Props_Python.
Import ListNotations.
Local Open Scope Z_scope.

(** ** C63: generate a graph, save it, load it, ask for a path *)
(** proved for shapes whose polygons the constructor keeps when given their vertices again; missing: the other polygons, see the refutation *)
Theorem C63_end_to_end_partial : forall atan2 ords shapes out s limit,
  (forall v, library_orders (ords v)) -> Forall (fun s => nth_error (sh_parts s) 0 = Some O) shapes -> Forall on_earth_shape shapes -> fresh s out ->
  let vis := fun ps v => vis_periodic atan2 (ords v) ps v in
  exists ps g, read_polygons_from_shapefile shapes = Ok ps /\ generate (vis ps) ps = Ok g /\
    (Forall (fun p => make_polygon (verts p) = Ok p) ps -> fits ps limit ->
     exists s' g', generate_cmd vis (Ok shapes) out s = (s', Ok tt) /\
       load_graph_from_file limit (default_graph_path out) s' = Ok g' /\ built g' /\ same_graph g' g /\
       forall en c1 c2 radius flag, usual_env (en g') g' -> on_earth c1 -> on_earth c2 ->
         exists n, forall fuel, (n <= fuel)%nat -> proper_answer (interpolate_cmd limit out en fuel c1 c2 radius flag s')).
Proof. intros atan2 ords shapes out s limit L W E (N & D & N2). exact (generate_pipeline atan2 ords shapes out s limit L W E N D N2). Qed.
Print Assumptions C63_end_to_end_partial.

Definition disk : fs := fun p => match p with [] => Some Dir | _ => None end.
Definition usual (g : graph) : env := mkEnv sea (endpoint_vis (fun _ _ => f_0) (fun _ => plain_orders) g) no_rows (fun _ => first_best f_1).
Definition one_square : polygon := mkP [mkC 1000000 2000000; mkC 2000000 2000000; mkC 2000000 3000000; mkC 1000000 3000000].
Lemma usual_ok g : usual_env (usual g) g.
Proof.
  split; [exists (fun _ _ => f_0), (fun _ => plain_orders); split; [intros _; exact library_orders_ex|reflexivity]|].
  split; [intros v l; reflexivity|exact sea_in_range].
Qed.
Example C63_ex : library_orders plain_orders /\ Forall (fun s => nth_error (sh_parts s) 0 = Some O) [one_part] /\ Forall on_earth_shape [one_part] /\
  fresh disk ["out"%string] /\ read_polygons_from_shapefile [one_part] = Ok [one_square] /\ make_polygon (verts one_square) = Ok one_square /\
  fits [one_square] 1000 /\ (forall g, usual_env (usual g) g) /\ on_earth (place 0 0) /\ on_earth (place 180 0).
Proof.
  split; [exact library_orders_ex|]. split; [repeat constructor|]. split; [constructor; [|constructor]; apply square_on_earth; lia|].
  split; [repeat split|]. split; [vm_compute; reflexivity|]. split; [vm_compute; reflexivity|]. split; [split; vm_compute; congruence|].
  split; [exact usual_ok|]. split; apply fz_on_earth; lia.
Qed.

(** a ring with a repeated vertex: the polygon built from it changes when it is built again, and the loader reads past the end of the file *)
Definition spiked_ring : shape :=
  mkSh true [(fz 0, fz 0); (fz 10, fz 0); (fz 15, fz 5); (fz 15, fz 5); (fz 20, fz 0); (fz 10, fz 20); (fz 0, fz 0)] [0]%nat.
Definition spiked_polygon : polygon := mkP [mkC 0 0; mkC 10000000 0; mkC 20000000 0; mkC 10000000 20000000].
Definition spiked_sees (o : coord) : res (list visible) :=
  bind (get_tangent_vector (initial_scanline o)) (fun init =>
    sweep (incident_map (copies_of [spiked_polygon])) init o true (order_around (copies_of [spiked_polygon]) o) no_edges).
Lemma spiked_vis atan2 ord o : accurate_atan2 atan2 -> library_orders ord -> In o (verts spiked_polygon) ->
  vis_periodic atan2 ord [spiked_polygon] o = spiked_sees o.
Proof.
  intros T L H. unfold vis_periodic. replace (make_polygons_periodic [spiked_polygon]) with (Ok (copies_of [spiked_polygon])) by (vm_compute; reflexivity).
  cbn [bind]. apply forced; [|vm_compute; congruence|exact T|exact L].
  destruct H as [<-|[<-|[<-|[<-|[]]]]]; vm_compute; reflexivity.
Qed.
Lemma generate_ext vis vis' ps : (forall o, In o (polygon_vertices ps) -> vis o = vis' o) -> generate vis ps = generate vis' ps.
Proof.
  unfold generate. generalize (make_graph ps). induction (polygon_vertices ps) as [|o l IH]; intros g H; [reflexivity|].
  cbn [foldM]. replace (connect_vertex vis g o) with (connect_vertex vis' g o) by (unfold connect_vertex; rewrite (H o) by (left; reflexivity); reflexivity).
  destruct (connect_vertex vis' g o) as [g'|e|u]; cbn [bind]; [|reflexivity..]. apply IH. intros o' Ho. apply H. right. exact Ho.
Qed.
Definition spiked_graph : graph := match generate spiked_sees [spiked_polygon] with Ok g => g | _ => make_graph [] end.
Definition spiked_file : file := match serialize_to_file spiked_graph None with Ok f => f | _ => allocate_file None 0 end.
Theorem C63_end_to_end_refuted : forall atan2 ords, accurate_atan2 atan2 -> (forall v, library_orders (ords v)) ->
  let vis := fun ps v => vis_periodic atan2 (ords v) ps v in
  Forall (fun s => nth_error (sh_parts s) 0 = Some O) [spiked_ring] /\ Forall on_earth_shape [spiked_ring] /\ fresh disk ["out"%string] /\
  read_polygons_from_shapefile [spiked_ring] = Ok [spiked_polygon] /\ fits [spiked_polygon] 1000 /\
  exists s', generate_cmd vis (Ok [spiked_ring]) ["out"%string] disk = (s', Ok tt) /\
    forall en fuel c1 c2 radius flag, interpolate_cmd 1000 ["out"%string] en fuel c1 c2 radius flag s' = Some (UB OutOfBounds).
Proof.
  intros atan2 ords T L vis. split; [repeat constructor|]. split.
  { constructor; [|constructor]. unfold on_earth_shape, spiked_ring, sh_points. repeat (apply Forall_cons; [apply fz_on_earth; lia|]). apply Forall_nil. }
  split; [repeat split|].
  assert (R : read_polygons_from_shapefile [spiked_ring] = Ok [spiked_polygon]) by (vm_compute; reflexivity).
  split; [exact R|]. split; [split; vm_compute; congruence|].
  assert (G : generate (vis [spiked_polygon]) [spiked_polygon] = Ok spiked_graph).
  { rewrite (generate_ext _ spiked_sees); [vm_compute; reflexivity|]. intros o Ho. apply spiked_vis; [exact T|apply L|].
    apply in_polygon_vertices in Ho. destruct Ho as (p & [<-|[]] & Ho). exact Ho. }
  assert (Se : serialize_to_file spiked_graph None = Ok spiked_file) by (vm_compute; reflexivity).
  exists (put ["out"; "default"]%string (Doc spiked_file) (put ["out"%string] Dir disk)). split.
  - unfold generate_cmd, andthen, lift, effect, bind at 1. change (mkdir ["out"%string] disk) with (Ok (put ["out"%string] Dir disk)). cbv beta iota.
    rewrite R, G. unfold save_graph_to_file. change (default_graph_path ["out"%string]) with ["out"; "default"]%string.
    change (is_dir _ && negb _) with true. cbv iota. change (put ["out"%string] Dir disk ["out"; "default"]%string) with (@None node). cbv iota. rewrite Se. reflexivity.
  - intros. unfold interpolate_cmd, load_graph_from_file. change (default_graph_path ["out"%string]) with ["out"; "default"]%string. rewrite put_same.
    replace (deserialize_from_file 1000 spiked_file) with (@UB graph OutOfBounds); [reflexivity|]. vm_compute. reflexivity.
Qed.
Print Assumptions C63_end_to_end_refuted.

(** ** C64: a command never touches what already exists *)
(** the three commands that write *)
Inductive writing : cmd unit -> path -> Prop :=
| w_generate vis shapes out : writing (generate_cmd vis shapes out) out
| w_range vis shuffle shapes out cur num : writing (generate_range_cmd vis shuffle shapes out cur num) out
| w_merge limit enum inputs out : writing (merge_cmd limit enum inputs out) out.
Lemma writing_staged c out : writing c out -> exists A (prepare : fs -> res A) make, c = staged out prepare make.
Proof. intros [vis shapes o|vis shuffle shapes o cur num|limit enum inputs o]; do 3 eexists; reflexivity. Qed.

Theorem C64_no_overwrite : forall c out s s' r, writing c out -> c s = (s', r) ->
  (s out <> None -> s' = s /\ r = Throw PyFileExists) /\
  (forall q n, s q = Some n -> q <> default_graph_path out -> s' q = Some n) /\
  (forall q, q <> out -> q <> default_graph_path out -> s' q = s q).
Proof.
  intros c out s s' r W E. destruct (writing_staged c out W) as (A & prepare & make & ->).
  assert (C : forall q, q <> out -> q <> default_graph_path out -> s' q = s q).
  { intros q N1 N2. pose proof (staged_changes out prepare make s q N1 N2) as H. rewrite E in H. exact H. }
  split; [|split; [|exact C]].
  - intros N. pose proof (staged_refuses out prepare make s N) as H. rewrite E in H. injection H as -> ->. split; reflexivity.
  - intros q n H Nd. destruct (list_eq_dec string_dec q out) as [->|No]; [|rewrite C by assumption; exact H].
    assert (N : s out <> None) by congruence. pose proof (staged_refuses out prepare make s N) as K. rewrite E in K. injection K as -> ->. exact H.
Qed.
Print Assumptions C64_no_overwrite.
Example C64_ex : writing (generate_cmd (fun _ _ => Ok []) (Ok [one_part]) ["out"%string]) ["out"%string] /\
  snd (generate_cmd (fun _ _ => Ok []) (Ok [one_part]) ["out"%string] disk) = Ok tt /\
  fst (generate_cmd (fun _ _ => Ok []) (Ok [one_part]) ["out"%string] disk) ["out"%string] = Some Dir /\
  snd (generate_cmd (fun _ _ => Ok []) (Ok [one_part]) ["out"%string] (put ["out"%string] Dir disk)) = Throw PyFileExists.
Proof. split; [constructor|]. split; [vm_compute; reflexivity|]. split; vm_compute; reflexivity. Qed.

(** ** C65: a command that failed can be run again *)
(** false: whatever made it fail, the directory it created stays and the next run refuses it *)
Theorem C65_retry_refuted : forall c c' out s s' r, writing c out -> writing c' out ->
  s out = None -> s (removelast out) = Some Dir -> c s = (s', r) -> c' s' = (s', Throw PyFileExists).
Proof.
  intros c c' out s s' r W W' N D E. destruct (writing_staged c out W) as (A & prepare & make & ->).
  destruct (writing_staged c' out W') as (B & prepare' & make' & ->). exact (staged_again out prepare make prepare' make' s s' r N D E).
Qed.
Print Assumptions C65_retry_refuted.
(** a shape file that is not there yet *)
Example C65_retry_refuted_ex : exists s', generate_cmd (fun _ _ => Ok []) (Throw FileError) ["out"%string] disk = (s', Throw FileError) /\
  snd (generate_cmd (fun _ _ => Ok []) (Ok [one_part]) ["out"%string] s') = Throw PyFileExists.
Proof. eexists. split; [reflexivity|vm_compute; reflexivity]. Qed.

(** proved: a run that fails leaves no graph file behind, so nothing is loaded from it; missing: it leaves the directory *)
Theorem C65_no_partial_graph_partial : forall c out s s' r, writing c out -> c s = (s', r) -> r <> Ok tt ->
  s' (default_graph_path out) = s (default_graph_path out) /\
  (s (default_graph_path out) = None -> forall limit en fuel c1 c2 radius flag,
     interpolate_cmd limit out en fuel c1 c2 radius flag s' = Some (Throw FileError)).
Proof.
  intros c out s s' r W E N. destruct (writing_staged c out W) as (A & prepare & make & ->).
  assert (K : s' (default_graph_path out) = s (default_graph_path out)).
  { destruct (staged_cases out prepare make s) as [[_ H]|[[_ H]|(_ & _ & [[r' H]|[f H]])]]; rewrite E in H; injection H as -> ->; try reflexivity.
    - apply put_other, default_differs.
    - congruence. }
  split; [exact K|]. intros Hn. intros. unfold interpolate_cmd, load_graph_from_file. rewrite K, Hn. reflexivity.
Qed.
Print Assumptions C65_no_partial_graph_partial.
Example C65_ex : writing (generate_cmd (fun _ _ => Ok []) (Throw FileError) ["out"%string]) ["out"%string] /\
  snd (generate_cmd (fun _ _ => Ok []) (Throw FileError) ["out"%string] disk) = Throw FileError /\ disk (default_graph_path ["out"%string]) = None.
Proof. split; [constructor|]. split; reflexivity. Qed.

(** ** C66: generation in splits, merged, answers as generation in one go *)
(** proved for polygons the constructor keeps, as for C63, and at least one polygon *)
Theorem C66_distributed_partial : forall atan2 ords shuffle enum shapes (num : nat) dir inputs out s limit,
  (forall v, library_orders (ords v)) -> (forall l, Permutation (shuffle l) l) -> enumerates enum ->
  Forall (fun s => nth_error (sh_parts s) 0 = Some O) shapes -> Forall on_earth_shape shapes ->
  (1 <= num)%nat -> NoDup (map dir (seq 0 num)) -> (forall i, (i < num)%nat -> fresh s (dir i)) ->
  Permutation inputs (map dir (seq 0 num)) -> fresh s out -> ~ In out inputs ->
  let vis := fun ps v => vis_periodic atan2 (ords v) ps v in
  exists ps g, read_polygons_from_shapefile shapes = Ok ps /\ generate (vis ps) ps = Ok g /\
    (ps <> [] -> Forall (fun p => make_polygon (verts p) = Ok p) ps -> fits ps limit ->
     exists s1 s2 m, 
       sequence (map (fun cur => generate_range_cmd vis shuffle (Ok shapes) (dir cur) (Z.of_nat cur) (Z.of_nat num)) (seq 0 num)) s = (s1, Ok tt) /\
       merge_cmd limit enum inputs out s1 = (s2, Ok tt) /\
       load_graph_from_file limit (default_graph_path out) s2 = Ok m /\ built m /\
       NoDup (get_polygons m) /\ (forall p, In p (get_polygons m) <-> In p ps) /\ same_answers m g).
Proof. exact distributed_pipeline. Qed.
Print Assumptions C66_distributed_partial.
Definition split_dir (i : nat) : path := ["split"%string; String (Ascii.ascii_of_nat (48 + i)) EmptyString].
Definition split_disk : fs := put ["split"%string] Dir disk.
Definition rotate (l : list coord) : list coord := match l with [] => [] | x :: l' => l' ++ [x] end.
Definition polygon_dec (p q : polygon) : {p = q} + {p <> q}.
Proof. repeat decide equality. Defined.
Definition distinct (l : list polygon) : list polygon := nodup polygon_dec l.
Example C66_ex : library_orders plain_orders /\ (forall l, Permutation (rotate l) l) /\ enumerates distinct /\
  Forall on_earth_shape [one_part] /\ NoDup (map split_dir (seq 0 3)) /\ (forall i, (i < 3)%nat -> fresh split_disk (split_dir i)) /\
  Permutation [split_dir 2; split_dir 0; split_dir 1] (map split_dir (seq 0 3)) /\ fresh split_disk ["out"%string] /\
  ~ In ["out"%string] [split_dir 2; split_dir 0; split_dir 1] /\
  read_polygons_from_shapefile [one_part] = Ok [one_square] /\ make_polygon (verts one_square) = Ok one_square /\ fits [one_square] 1000.
Proof.
  split; [exact library_orders_ex|]. split; [intros [|x l]; [constructor|]; cbn [rotate]; symmetry; apply Permutation_cons_append|].
  split; [intros l; split; [apply NoDup_nodup|intros p; apply nodup_In]|]. split; [constructor; [|constructor]; apply square_on_earth; lia|].
  split. { vm_compute. repeat constructor; cbn; intuition congruence. }
  split. { intros [|[|[|i]]] H; [repeat split..|lia]. }
  split. { change (map split_dir (seq 0 3)) with [split_dir 0; split_dir 1; split_dir 2]. symmetry. exact (Permutation_app_comm [split_dir 0; split_dir 1] [split_dir 2]). }
  split; [repeat split|]. split. { intros [H|[H|[H|[]]]]; discriminate H. }
  split; [vm_compute; reflexivity|]. split; [vm_compute; reflexivity|split; vm_compute; congruence].
Qed.
Definition empty_file : file := match serialize_to_file (make_graph []) None with Ok f => f | _ => allocate_file None 0 end.
(** false of the code otherwise: of a shape file without shapes the graph is generated in one go but
    not in splits, and the file of a ring with a repeated vertex cannot be merged *)
Theorem C66_distributed_refuted : forall atan2 ords, accurate_atan2 atan2 -> (forall v, library_orders (ords v)) ->
  let vis := fun ps v => vis_periodic atan2 (ords v) ps v in
  (exists s', generate_cmd vis (Ok []) ["out"%string] disk = (s', Ok tt)) /\
  (forall shuffle cur num, snd (generate_range_cmd vis shuffle (Ok []) ["out"%string] cur num disk) = Throw PyTypeError) /\
  exists s1, generate_range_cmd vis (fun l => l) (Ok [spiked_ring]) ["split"%string] 0 1 disk = (s1, Ok tt) /\
    forall enum, snd (merge_cmd 1000 enum [["split"%string]] ["out"%string] s1) = UB OutOfBounds.
Proof.
  intros atan2 ords T L vis. split; [|split].
  - exists (put ["out"; "default"]%string (Doc empty_file) (put ["out"%string] Dir disk)).
    unfold generate_cmd, andthen, lift, effect, bind at 1. change (mkdir ["out"%string] disk) with (Ok (put ["out"%string] Dir disk)). cbv beta iota.
    change (read_polygons_from_shapefile []) with (@Ok (list polygon) []). cbv beta iota. change (generate (vis []) []) with (Ok (make_graph [])). cbv beta iota.
    unfold save_graph_to_file. change (default_graph_path ["out"%string]) with ["out"; "default"]%string.
    change (is_dir _ && negb _) with true. cbv iota. change (put ["out"%string] Dir disk ["out"; "default"]%string) with (@None node). cbv iota.
    replace (serialize_to_file (make_graph []) None) with (Ok empty_file) by (vm_compute; reflexivity). reflexivity.
  - intros. reflexivity.
  - assert (G : generate_for_vertex_range (vis [spiked_polygon]) [spiked_polygon] 0 1 (polygon_vertices [spiked_polygon]) = Ok spiked_graph).
    { transitivity (generate (vis [spiked_polygon]) [spiked_polygon]); [reflexivity|].
      rewrite (generate_ext _ spiked_sees); [vm_compute; reflexivity|]. intros o Ho. apply spiked_vis; [exact T|apply L|].
      apply in_polygon_vertices in Ho. destruct Ho as (p & [<-|[]] & Ho). exact Ho. }
    assert (R : read_polygons_from_shapefile [spiked_ring] = Ok [spiked_polygon]) by (vm_compute; reflexivity).
    assert (Se : serialize_to_file spiked_graph None = Ok spiked_file) by (vm_compute; reflexivity).
    exists (put ["split"; "default"]%string (Doc spiked_file) (put ["split"%string] Dir disk)). split.
    + unfold generate_range_cmd, andthen, lift, effect, bind at 1. change (mkdir ["split"%string] disk) with (Ok (put ["split"%string] Dir disk)). cbv beta iota.
      rewrite R, G. unfold save_graph_to_file. change (default_graph_path ["split"%string]) with ["split"; "default"]%string.
      change (is_dir _ && negb _) with true. cbv iota. change (put ["split"%string] Dir disk ["split"; "default"]%string) with (@None node). cbv iota. rewrite Se. reflexivity.
    + intros enum. unfold merge_cmd, andthen, lift, effect. set (s1 := put _ _ _). change (mkdir ["out"%string] s1) with (Ok (put ["out"%string] Dir s1)). cbv beta iota.
      cbn [mapM]. unfold load_graph_from_file. change (default_graph_path ["split"%string]) with ["split"; "default"]%string.
      change (put ["out"%string] Dir s1 ["split"; "default"]%string) with (Some (Doc spiked_file)). cbv iota.
      replace (deserialize_from_file 1000 spiked_file) with (@UB graph OutOfBounds); [reflexivity|]. vm_compute. reflexivity.
Qed.
Print Assumptions C66_distributed_refuted.
