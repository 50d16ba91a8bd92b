(** The serializer properties in terms of [SpecFile]. *)
From Coq Require Import ZArith Bool List Lia.
From Verif Require Import Base F64 Coordinate Segment Polygon Graph SpecGraph GraphFacts GraphMore
  CoordinateFacts SpecGeom PolygonFacts PolygonMore Serializer BytesFacts SaveFacts LoadFacts SpecFile RoundFacts.
Import ListNotations.
Local Open Scope Z_scope.

Lemma filter_prod_length {A B} (f : A * B -> bool) (l : list A) (r : list B) :
  length (filter f (list_prod l r)) = length (flat_map (fun a => filter (fun b => f (a, b)) r) l).
Proof.
  induction l as [|a l IH]; [reflexivity|]. cbn [list_prod flat_map]. rewrite filter_app, !app_length, IH. f_equal. clear IH.
  induction r as [|b r IHr]; [reflexivity|]. cbn [map filter]. destruct (f (a, b)); cbn [length]; rewrite IHr; reflexivity.
Qed.
Lemma crossing_pairs_count g : crossing_pairs g = crossing_pair_count g.
Proof.
  unfold crossing_pairs, crossing_pair_count, zlen. rewrite filter_prod_length. cbn [fst snd]. f_equal. f_equal.
  rewrite !flat_map_concat_map. f_equal. apply map_ext. intros a. apply filter_ext. intros b. unfold cb.
  destruct (is_edge_meridian_crossing g a b) as [[|]|e|u]; reflexivity.
Qed.
Lemma ceil_bytes n : ceil_div (Z.of_nat n) 8 = bytes_for_bits n.
Proof.
  unfold bytes_for_bits. pose proof (ceil_spec (Z.of_nat n) ltac:(lia)) as H.
  apply Z.div_unique with (Z.of_nat n + 7 - 8 * ceil_div (Z.of_nat n) 8); lia.
Qed.
Lemma fold_add_app l1 l2 : fold_right Z.add 0 (l1 ++ l2) = fold_right Z.add 0 l1 + fold_right Z.add 0 l2.
Proof. induction l1 as [|x l1 IH]; cbn [app fold_right]; lia. Qed.
Lemma packed_offset n : row_offset 0 (S n) = packed_rows n.
Proof.
  unfold packed_rows. induction n as [|n IH]; [reflexivity|].
  change (row_offset 0 (S (S n))) with (row_offset 0 (S n) + ceil_div (Z.of_nat (S n)) 8). rewrite IH.
  rewrite (seq_S (S n) 0), map_app, fold_add_app. cbn [map fold_right Nat.add]. rewrite ceil_bytes. lia.
Qed.
Lemma num_bytes_size ps h g : grun (make_graph ps) h = Ok g -> num_bytes g (crossing_pairs g) = file_size g.
Proof.
  intros G. rewrite (num_bytes_eq ps h g G). unfold file_size. rewrite (g_verts ps h g G), (g_polygons ps h g G), <- crossing_pairs_count.
  rewrite packed_offset. unfold zlen. lia.
Qed.

Lemma save_ok ps h g old : grun (make_graph ps) h = Ok g ->
  exists m, serialize_to_file g old = Ok m /\ f_len m = file_size g.
Proof.
  intros G. destruct (save_file ps h g G old) as (m & E & L & _). exists m. split; [exact E|].
  rewrite L. apply (num_bytes_size ps h g G).
Qed.

Lemma crashed_ok ps h g old k : grun (make_graph ps) h = Ok g -> exists m, crashed_save g old k = Ok m /\ f_len m = file_size g.
Proof.
  intros G. destruct (save_file ps h g G old) as (m & E & _). unfold serialize_to_file in E. unfold crashed_save.
  rewrite (save_writes_ok ps h g G) in *. cbn [bind] in *. rewrite <- (firstn_skipn k (seqw 0 (encode g))) in E.
  unfold store in *. rewrite foldM_app in E. apply bind_ok in E. destruct E as (m1 & E1 & _). exists m1. split; [exact E1|].
  rewrite <- (num_bytes_size ps h g G).
  assert (I : forall ws m0 m2, foldM write_byte ws m0 = Ok m2 -> f_len m2 = f_len m0).
  { induction ws as [|w ws IH]; intros m0 m2 H; cbn [foldM] in H; [inversion H; reflexivity|].
    apply bind_ok in H. destruct H as (m3 & H1 & H2). apply IH in H2. rewrite H2.
    unfold write_byte in H1. destruct w as [o v]. destruct (_ && _); [|discriminate]. inversion H1. reflexivity. }
  apply I in E1. rewrite E1. reflexivity.
Qed.

Definition fixed_map (ps : list polygon) : Prop :=
  Forall (fun p => make_polygon (verts p) = Ok p /\ Forall coord_i32 (verts p)) ps.

Definition same_graph (g' g : graph) : Prop :=
  get_polygons g' = get_polygons g /\
  (forall a b, has_edge g' a b = has_edge g a b) /\
  (forall a b, is_edge_meridian_crossing g' a b = is_edge_meridian_crossing g a b) /\
  (forall v, get_neighbors g' v = get_neighbors g v).

Lemma save_load_any ps h g limit old :
  fixed_map ps -> Forall undirected h -> grun (make_graph ps) h = Ok g ->
  file_size g < 2 ^ 60 -> file_size g <= limit ->
  exists m g', serialize_to_file g old = Ok m /\ deserialize_from_file limit m = Ok g' /\
    get_polygons g' = get_polygons g /\ built g' /\
    (forall a b, has_edge g' a b = has_edge g a b) /\
    (forall v, get_neighbors g' v = get_neighbors g v) /\
    (forall a b, is_edge_meridian_crossing g a b = Ok true -> is_edge_meridian_crossing g' a b = Ok true) /\
    ((forall f, old = Some f -> f_len f <= fixed_part g) \/ (forall a b, is_edge_meridian_crossing g a b <> Ok true) ->
     same_graph g' g).
Proof.
  intros M U G S L. pose proof (num_bytes_size ps h g G) as N.
  destruct (save_load ps h g limit G U) with (old := old) as (m & g' & E1 & E2 & E3 & Bu & E4 & E5 & E6 & E7).
  - unfold fixed_map in M. rewrite Forall_forall in *. intros p Hp. apply M, Hp.
  - unfold fixed_map in M. rewrite Forall_forall in *. intros p Hp. apply M, Hp.
  - rewrite N. exact S.
  - rewrite N. exact L.
  - exists m, g'. rewrite (g_polygons ps h g G). repeat (split; [assumption|]). intros C.
    split; [rewrite (g_polygons ps h g G); exact E3|]. split; [exact E4|]. split; [|exact E5]. apply E7.
    destruct C as [C|C]; [left|right; exact C]. intros k Hk. cbn [f_byte allocate_file]. destruct old as [f|]; [|reflexivity].
    specialize (C f eq_refl). unfold fixed_part in C. rewrite N, crossing_pairs_count, ceil_bytes in Hk.
    rewrite (g_verts ps h g G) in C.
    destruct (Z.ltb_spec k (f_len f)); [lia|]. rewrite andb_false_r. reflexivity.
Qed.

Lemma save_load_fresh ps h g limit :
  fixed_map ps -> Forall undirected h -> grun (make_graph ps) h = Ok g ->
  file_size g < 2 ^ 60 -> file_size g <= limit ->
  exists m g', serialize_to_file g None = Ok m /\ deserialize_from_file limit m = Ok g' /\ built g' /\ same_graph g' g.
Proof.
  intros M U G S L. destruct (save_load_any ps h g limit None M U G S L) as (m & g' & E1 & E2 & E3 & Bu & E4 & E5 & E6 & E7).
  exists m, g'. split; [exact E1|]. split; [exact E2|]. split; [exact Bu|]. apply E7. left. intros f F. discriminate F.
Qed.

(** size of the polygon section *)
Definition polygon_section (ps : list polygon) : Z :=
  8 + 8 * Z.of_nat (length ps) + 8 * Z.of_nat (length (polygon_vertices ps)).
Lemma crash_after_polygons ps h g limit k :
  fixed_map ps -> Forall undirected h -> grun (make_graph ps) h = Ok g ->
  file_size g < 2 ^ 60 -> file_size g <= limit -> polygon_section ps <= Z.of_nat k ->
  exists m g', crashed_save g None k = Ok m /\ deserialize_from_file limit m = Ok g' /\ get_polygons g' = ps /\
  forall a b, has_edge g' a b = Ok true -> has_edge g a b = Ok true.
Proof.
  intros M U G S L K. pose proof (num_bytes_size ps h g G) as N. apply (crash_load ps h g limit G U).
  - unfold fixed_map in M. rewrite Forall_forall in *. intros p Hp. apply M, Hp.
  - unfold fixed_map in M. rewrite Forall_forall in *. intros p Hp. apply M, Hp.
  - rewrite N. exact S.
  - rewrite N. exact L.
  - unfold enc_head. rewrite zlen_app, le_zlen, enc_polys_zlen. unfold polygon_section in K. unfold zlen. lia.
Qed.

(** ** Reading *)
Lemma short_file limit m : 0 < f_len m < 8 -> deserialize_from_file limit m = UB OutOfBounds.
Proof.
  intros H. unfold deserialize_from_file. destruct (Z.leb_spec (f_len m) 0) as [X|_]; [lia|].
  unfold get_u64, get_bytes. cbn [seq foldM].
  assert (K : forall i, 0 <= i < 8 -> read_byte m (u64 (0 + i)) = if i <? f_len m then Ok (f_byte m i) else UB OutOfBounds).
  { intros i Hi. unfold read_byte. rewrite u64_small by lia. rewrite Z.add_0_l.
    rewrite (proj2 (Z.leb_le 0 i)) by lia. reflexivity. }
  assert (C : f_len m = 1 \/ f_len m = 2 \/ f_len m = 3 \/ f_len m = 4 \/ f_len m = 5 \/ f_len m = 6 \/ f_len m = 7) by lia.
  rewrite !K by lia.
  destruct C as [C|[C|[C|[C|[C|[C|C]]]]]]; rewrite C; reflexivity.
Qed.
