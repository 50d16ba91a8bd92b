(** Property theorems C34-C39 (graph_serializer.cpp). *)
From Coq Require Import ZArith Bool List Lia.
From Verif Require Import Base F64 Coordinate Segment Polygon Graph SpecGraph GraphFacts GraphMore
  Serializer BytesFacts SaveFacts LoadFacts SpecFile RoundFacts SerializerMore.
Import ListNotations.
Local Open Scope Z_scope.

(** A triangle and a quadrilateral with nine-digit coordinates, used in the examples. *)
Definition ex_a := mkC 0 0.
Definition ex_b := mkC 1000 0.
Definition ex_c := mkC 0 1000.
Definition ex_tri : polygon := mkP [ex_a; ex_b; ex_c].
Definition ex_quad : polygon := mkP [mkC (-179999999) (-5); mkC 179999999 (-5); mkC 179999999 89000000; mkC (-179999999) 89000000].
Definition ex_hist : list gop :=
  [GAdd ex_a ex_b true; GAdd ex_b ex_c false; GAdd ex_c (mkC 179999999 (-5)) true; GRem ex_a ex_b; GAdd ex_b ex_a true;
   GAdd (mkC (-179999999) (-5)) (mkC 179999999 89000000) false].

Lemma ex_fixed : fixed_map [ex_tri; ex_quad].
Proof.
  assert (K : forall p, match make_polygon (verts p) with Ok q => if list_eq_dec coord_dec (verts q) (verts p) then true else false | _ => false end = true ->
    make_polygon (verts p) = Ok p).
  { intros p. destruct (make_polygon (verts p)) as [q|e|u]; try (intros D; discriminate D).
    destruct (list_eq_dec coord_dec (verts q) (verts p)) as [E|E]; [|intros D; discriminate D].
    intros _. destruct p as [vp], q as [vq]. change (vq = vp) in E. congruence. }
  unfold fixed_map. repeat constructor; try (apply K; vm_compute; reflexivity); vm_compute; intros X; discriminate X.
Qed.

(** C34.  Saving never writes outside the allocated file, whose size is the documented sum,
    for every history of calls, directed ones included, and whatever the path held; the same
    for every prefix of the writes. *)
Theorem C34_save_in_bounds : forall ps h g old k,
  grun (make_graph ps) h = Ok g ->
  (exists m, serialize_to_file g old = Ok m /\ f_len m = file_size g) /\
  (exists m, crashed_save g old k = Ok m /\ f_len m = file_size g).
Proof. intros ps h g old k G. split; [exact (save_ok ps h g old G)|exact (crashed_ok ps h g old k G)]. Qed.
Print Assumptions C34_save_in_bounds.

Example C34_example : exists g, grun (make_graph [ex_tri; ex_quad]) ex_hist = Ok g /\ file_size g = 127.
Proof. eexists. split; vm_compute; reflexivity. Qed.

(** C35.  Saving to a fresh path and loading gives the same graph.  [limit] is the largest
    allocation the loading process is granted. *)
Theorem C35_round_trip : forall ps h g limit,
  fixed_map ps -> Forall undirected h -> grun (make_graph ps) h = Ok g ->
  file_size g < 2 ^ 60 -> file_size g <= limit ->
  exists m g', serialize_to_file g None = Ok m /\ deserialize_from_file limit m = Ok g' /\ built g' /\ same_graph g' g.
Proof. exact save_load_fresh. Qed.
Print Assumptions C35_round_trip.

Example C35_example : exists g, fixed_map [ex_tri; ex_quad] /\ Forall undirected ex_hist /\
  grun (make_graph [ex_tri; ex_quad]) ex_hist = Ok g /\ file_size g = 127 /\
  is_edge_meridian_crossing g ex_c (mkC 179999999 (-5)) = Ok true /\
  is_edge_meridian_crossing g ex_c ex_b = Ok false /\ has_edge g ex_c ex_b = Ok true.
Proof.
  eexists. split; [exact ex_fixed|]. split; [repeat constructor|]. split; [vm_compute; reflexivity|].
  repeat split; vm_compute; reflexivity.
Qed.

(** C36.  Full statement: [same_graph g' g] for every previous content [old].  Refuted below.
    Whatever the path held: polygons, edges and neighbours are right and no crossing flag is
    lost; the graph is the saved one if the path was empty, held a file no longer than the
    part of the new file before the crossing entries, or the graph has no crossing edge. *)
Theorem C36_any_previous_content_partial : forall ps h g limit old,
  fixed_map ps -> Forall undirected h -> grun (make_graph ps) h = Ok g ->
  file_size g < 2 ^ 60 -> file_size g <= limit ->
  exists m g', serialize_to_file g old = Ok m /\ deserialize_from_file limit m = Ok g' /\
    get_polygons g' = get_polygons g /\ built g' /\
    (forall a b, has_edge g' a b = has_edge g a b) /\
    (forall v, get_neighbors g' v = get_neighbors g v) /\
    (forall a b, is_edge_meridian_crossing g a b = Ok true -> is_edge_meridian_crossing g' a b = Ok true) /\
    ((forall f, old = Some f -> f_len f <= fixed_part g) \/ (forall a b, is_edge_meridian_crossing g a b <> Ok true) ->
     same_graph g' g).
Proof. exact save_load_any. Qed.
Print Assumptions C36_any_previous_content_partial.

(** Two graphs over one triangle; saving the second over the first and loading reports the
    edge b-c as crossing, although neither the saved graph nor a fresh save has it so. *)
Theorem C36_stale_entries_refuted : exists g1 g2 m1 m2 g',
  grun (make_graph [ex_tri]) [GAdd ex_a ex_b true; GAdd ex_b ex_c true] = Ok g1 /\
  grun (make_graph [ex_tri]) [GAdd ex_a ex_b true; GAdd ex_b ex_c false] = Ok g2 /\
  serialize_to_file g1 None = Ok m1 /\ serialize_to_file g2 (Some m1) = Ok m2 /\
  deserialize_from_file 1000 m2 = Ok g' /\
  is_edge_meridian_crossing g2 ex_b ex_c = Ok false /\
  is_edge_meridian_crossing g' ex_b ex_c = Ok true.
Proof.
  do 5 eexists.
  split; [vm_compute; reflexivity|]. split; [vm_compute; reflexivity|]. split; [cbv; reflexivity|].
  split; [cbv; reflexivity|]. split; [vm_compute; reflexivity|]. split; vm_compute; reflexivity.
Qed.
Print Assumptions C36_stale_entries_refuted.

Example C36_example : exists g f, grun (make_graph [ex_tri]) [GAdd ex_a ex_b true] = Ok g /\
  f_len f <= fixed_part g /\ f_byte f 3 = 77.
Proof. eexists. exists (mkF 45 (fun _ => 77)). split; [vm_compute; reflexivity|]. split; [vm_compute; discriminate|reflexivity]. Qed.

(** C37.  Full statement: after a crash at any point the load fails or gives the saved graph.
    Refuted: dying before the first byte leaves a file of zeros which loads as the empty
    graph, and dying later loses edges silently.  What does hold, for a fresh path: a crash
    after the polygon section loads a graph with the same polygons and no invented edge. *)
Theorem C37_crash_after_polygons_partial : forall ps h g limit k,
  fixed_map ps -> Forall undirected h -> grun (make_graph ps) h = Ok g ->
  file_size g < 2 ^ 60 -> file_size g <= limit -> polygon_section ps <= Z.of_nat k ->
  exists m g', crashed_save g None k = Ok m /\ deserialize_from_file limit m = Ok g' /\ get_polygons g' = ps /\
  forall a b, has_edge g' a b = Ok true -> has_edge g a b = Ok true.
Proof. exact crash_after_polygons. Qed.
Print Assumptions C37_crash_after_polygons_partial.

Theorem C37_crash_undetected_refuted : exists g m g' m2 g2',
  grun (make_graph [ex_tri]) [GAdd ex_a ex_b true; GAdd ex_b ex_c true] = Ok g /\
  crashed_save g None 0 = Ok m /\ deserialize_from_file 1000 m = Ok g' /\ get_polygons g' = [] /\
  crashed_save g None 41 = Ok m2 /\ deserialize_from_file 1000 m2 = Ok g2' /\
  has_edge g ex_b ex_c = Ok true /\ has_edge g2' ex_b ex_c = Ok false /\ get_polygons g2' = [ex_tri].
Proof.
  do 5 eexists.
  split; [vm_compute; reflexivity|]. split; [cbv; reflexivity|]. split; [vm_compute; reflexivity|].
  split; [vm_compute; reflexivity|]. split; [cbv; reflexivity|]. split; [vm_compute; reflexivity|].
  repeat split; vm_compute; reflexivity.
Qed.
Print Assumptions C37_crash_undetected_refuted.

Example C37_example : polygon_section [ex_tri] = 40 /\ exists g, file_size g = 51 /\
  grun (make_graph [ex_tri]) [GAdd ex_a ex_b false; GAdd ex_b ex_c false] = Ok g.
Proof. split; [reflexivity|]. eexists. split; [|vm_compute; reflexivity]. vm_compute. reflexivity. Qed.

(** C38.  Full statement: for every file the load returns a graph or throws.  Refuted by every
    non-empty file of fewer than eight bytes.  Holds for files that start with a readable
    polygon section and have room for the rows and the declared number of crossings,
    whatever the bytes of those parts are. *)
Theorem C38_readable_files_partial : forall limit m raws ps,
  small_file m ->
  has m 0 (le 8 (zlen raws) ++ flat_map enc_poly raws) ->
  Forall (Forall coord_i32) raws -> Forall (fun vs => zlen vs <= limit) raws -> zlen raws <= limit ->
  mapM make_polygon raws = Ok ps ->
  let back := head_len raws + row_offset 0 (length (polygon_vertices ps)) in
  back + 8 <= f_len m -> back + 8 + 8 * value_at 8 m back <= f_len m ->
  exists g, deserialize_from_file limit m = Ok g /\
    grun (make_graph ps) (load_ops m (polygon_vertices ps) (crossings_at m back) (head_len raws)) = Ok g.
Proof. exact load_general. Qed.
Print Assumptions C38_readable_files_partial.

Theorem C38_short_file_refuted : forall limit m, 0 < f_len m < 8 -> deserialize_from_file limit m = UB OutOfBounds.
Proof. exact short_file. Qed.
Print Assumptions C38_short_file_refuted.

(** a complete count followed by nothing, and a crossing count beyond the end *)
Theorem C38_truncated_file_refuted :
  deserialize_from_file 1000 (mkF 8 (fun k => if k =? 0 then 1 else 0)) = UB OutOfBounds /\
  deserialize_from_file 1000 (mkF 16 (fun k => if k =? 8 then 1 else 0)) = UB OutOfBounds.
Proof. split; vm_compute; reflexivity. Qed.
Print Assumptions C38_truncated_file_refuted.

Example C38_example : let m := mkF 60 (fun k => nth (Z.to_nat k) (le 8 1 ++ enc_poly (verts ex_tri) ++ [255; 255; 255]) 0) in
  has m 0 (le 8 (zlen [verts ex_tri]) ++ flat_map enc_poly [verts ex_tri]) /\ value_at 8 m 42 = 255.
Proof.
  cbv zeta. split; [|vm_compute; reflexivity]. split; [lia|]. split; [vm_compute; discriminate|].
  intros k Hk. change (length _) with 40%nat in Hk. do 40 (destruct k as [|k]; [vm_compute; reflexivity|]). lia.
Qed.

(** C39.  Scalars: exact, little endian, nothing else touched. *)
Theorem C39_scalars : forall m off,
  0 <= off ->
  (forall v, 0 <= v < 2 ^ 64 -> off + 8 <= f_len m -> exists m', store (put_u64 v off) m = Ok m' /\ f_len m' = f_len m /\
     (forall k, 0 <= k < 8 -> f_byte m' (off + k) = v / 2 ^ (8 * k) mod 256) /\
     (forall k, k < off \/ off + 8 <= k -> f_byte m' k = f_byte m k) /\
     (f_len m < 2 ^ 63 -> get_u64 m' off = Ok v)) /\
  (forall v, 0 <= v < 2 ^ 32 -> off + 4 <= f_len m -> exists m', store (put_u32 v off) m = Ok m' /\ f_len m' = f_len m /\
     (forall k, 0 <= k < 4 -> f_byte m' (off + k) = v / 2 ^ (8 * k) mod 256) /\
     (forall k, k < off \/ off + 4 <= k -> f_byte m' k = f_byte m k) /\
     (f_len m < 2 ^ 63 -> get_u32 m' off = Ok v)) /\
  (forall v, - 2 ^ 31 <= v < 2 ^ 31 -> off + 4 <= f_len m -> exists m', store (put_i32 v off) m = Ok m' /\ f_len m' = f_len m /\
     (forall k, 0 <= k < 4 -> f_byte m' (off + k) = v / 2 ^ (8 * k) mod 256) /\
     (forall k, k < off \/ off + 4 <= k -> f_byte m' k = f_byte m k) /\
     (f_len m < 2 ^ 63 -> get_i32 m' off = Ok v)) /\
  (forall v, off < f_len m -> exists m', store (put_u8 v off) m = Ok m' /\ f_len m' = f_len m /\
     (forall k, k <> off -> f_byte m' k = f_byte m k) /\ read_byte m' off = Ok v).
Proof.
  intros m off H. split; [|split; [|split]].
  - intros v V L. destruct (write_scalar 8 v off m H L) as (m' & E1 & E2 & E3 & E4 & E5). exists m'. auto 8.
  - intros v V L. destruct (write_scalar 4 v off m H L) as (m' & E1 & E2 & E3 & E4 & E5). exists m'. auto 8.
  - intros v V L. assert (V' : INT32_MIN <= v <= INT32_MAX) by (unfold INT32_MIN, INT32_MAX; lia).
    destruct (write_i32 v off m H L V') as (m' & E1 & E2 & E3 & E4 & E5). exists m'. auto 8.
  - intros v L. unfold put_u8, store. cbn [foldM]. unfold write_byte.
    rewrite (proj2 (Z.leb_le 0 off) H), (proj2 (Z.ltb_lt off (f_len m)) L). cbn [andb bind].
    eexists. split; [reflexivity|]. split; [reflexivity|]. cbn [f_byte f_len]. split.
    + intros k Hk. destruct (Z.eqb_spec k off); [contradiction|reflexivity].
    + unfold read_byte. cbn [f_len f_byte]. rewrite (proj2 (Z.leb_le 0 off) H), (proj2 (Z.ltb_lt off (f_len m)) L), Z.eqb_refl. reflexivity.
Qed.
Print Assumptions C39_scalars.

Example C39_example : exists m', store (put_i32 (-2) 3) (mkF 9 (fun k => k)) = Ok m' /\
  map (f_byte m') [2; 3; 4; 5; 6; 7] = [2; 254; 255; 255; 255; 7] /\ get_i32 m' 3 = Ok (-2).
Proof. eexists. split; [cbv; reflexivity|]. split; vm_compute; reflexivity. Qed.
