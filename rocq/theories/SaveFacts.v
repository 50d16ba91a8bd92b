(** What a save writes: the byte-exact file format, and that it fits the allocated file. *)
From Coq Require Import ZArith Bool List Lia.
From Verif Require Import Base F64 Coordinate Segment Polygon Graph SpecGraph GraphFacts GraphMore Serializer BytesFacts.
Import ListNotations.
Local Open Scope Z_scope.

(** ** The format *)
Definition enc_coord (c : coord) : list Z := le_i32 (lon c) ++ le_i32 (lat c).
Definition enc_poly (vs : list coord) : list Z := le 8 (zlen vs) ++ flat_map enc_coord vs.

Definition eb (g : graph) (a b : coord) : bool := match has_edge g a b with Ok e => e | _ => false end.
Definition cb (g : graph) (a b : coord) : bool := match is_edge_meridian_crossing g a b with Ok e => e | _ => false end.

(** bit k of the byte is [f k], for k < n *)
Fixpoint bits (f : nat -> bool) (n : nat) : Z :=
  match n with
  | O => 0
  | S n' => Z.lor (bits f n') (Z.shiftl (if f n' then 1 else 0) (Z.of_nat n'))
  end.

Definition vert (g : graph) (i : nat) : coord := vnth (get_vertices g) i.
Definition row_byte (g : graph) (i j : nat) : Z :=
  bits (fun l => eb g (vert g i) (vert g (j * 8 + l))) (Nat.min ((j + 1) * 8) (i + 1) - j * 8).
Definition row (g : graph) (i : nat) : list Z :=
  map (row_byte g i) (seq 0 (Z.to_nat (ceil_div (Z.of_nat i) 8))).
Definition row_entries (g : graph) (i : nat) : list Z :=
  map (edge_number i) (filter (fun j => cb g (vert g i) (vert g j)) (seq 0 i)).
Definition entries (g : graph) : list Z := flat_map (row_entries g) (seq 0 (length (get_vertices g))).
Definition crossing_pairs (g : graph) : Z :=
  zlen (flat_map (fun a => filter (cb g a) (get_vertices g)) (get_vertices g)).

Definition enc_polys (ps : list polygon) : list Z := flat_map (fun p => enc_poly (verts p)) ps.
Definition enc_head (ps : list polygon) : list Z := le 8 (zlen ps) ++ enc_polys ps.
Definition enc_rows (g : graph) : list Z := flat_map (row g) (seq 0 (length (get_vertices g))).
Definition encode (g : graph) : list Z :=
  enc_head (get_polygons g) ++ enc_rows g ++ le 8 (crossing_pairs g) ++ flat_map (le 8) (entries g).

(** ** Polygons *)
Lemma le_i32_zlen v : zlen (le_i32 v) = 4. Proof. apply le_zlen. Qed.
Lemma enc_coord_zlen c : zlen (enc_coord c) = 8.
Proof. unfold enc_coord. rewrite zlen_app, !le_i32_zlen. reflexivity. Qed.
Lemma flat_map_zlen {A} (f : A -> list Z) (d : Z) l : (forall x, zlen (f x) = d) -> zlen (flat_map f l) = d * zlen l.
Proof.
  intros H. induction l as [|x l IH]; [unfold zlen; simpl; lia|]. cbn [flat_map]. rewrite zlen_app, zlen_cons, IH, H. lia.
Qed.
Lemma enc_poly_zlen vs : zlen (enc_poly vs) = 8 + 8 * zlen vs.
Proof. unfold enc_poly. rewrite zlen_app, le_zlen, (flat_map_zlen enc_coord 8) by apply enc_coord_zlen. lia. Qed.

Lemma put_polygon_seqw p off : put_polygon p off = seqw off (enc_poly (verts p)).
Proof.
  unfold put_polygon, enc_poly, put_u64. rewrite put_bytes_seqw, seqw_app, le_zlen.
  assert (G : forall vs s, concat (map (fun jc => let '(j, c) := jc in
     put_i32 (lon c) (off + 8 + 4 * (2 * Z.of_nat j)) ++
     put_i32 (lat c) (off + 8 + 4 * (2 * Z.of_nat j) + 4)) (combine (seq s (length vs)) vs)) =
     seqw (off + 8 + 8 * Z.of_nat s) (flat_map enc_coord vs)).
  { induction vs as [|c vs IH]; intros s; [reflexivity|].
    cbn [length seq combine map concat flat_map]. rewrite IH. cbv zeta. rewrite !put_i32_seqw.
    replace (off + 8 + 4 * (2 * Z.of_nat s)) with (off + 8 + 8 * Z.of_nat s) by lia.
    replace (off + 8 + 8 * Z.of_nat (S s)) with (off + 8 + 8 * Z.of_nat s + 8) by lia.
    rewrite (seqw_app _ (enc_coord c)), enc_coord_zlen. f_equal.
    unfold enc_coord. rewrite seqw_app, le_i32_zlen. reflexivity. }
  rewrite (G (verts p) 0%nat). unfold zlen. do 2 f_equal. lia.
Qed.

Lemma put_polygons_seqw ps : forall off, put_polygons ps off = (seqw off (enc_polys ps), off + zlen (enc_polys ps)).
Proof.
  induction ps as [|p ps IH]; intros off; cbn [put_polygons].
  - unfold enc_polys, zlen. cbn [flat_map length seqw]. rewrite Z.add_0_r. reflexivity.
  - change (enc_polys (p :: ps)) with (enc_poly (verts p) ++ enc_polys ps). rewrite IH. unfold polygon_end.
    rewrite put_polygon_seqw, seqw_app, zlen_app, enc_poly_zlen.
    replace (off + 8 + Z.of_nat (length (verts p)) * 4 * 2) with (off + (8 + 8 * zlen (verts p))) by (unfold zlen; lia).
    f_equal. lia.
Qed.

(** ** Rows *)
Lemma ceil_full f : ceil_div (8 * f) 8 = f.
Proof.
  unfold ceil_div. rewrite (Z.mul_comm 8), Z.div_mul, Z.mod_mul by lia. cbn. lia.
Qed.
Lemma ceil_part f r : 0 < r < 8 -> ceil_div (8 * f + r) 8 = f + 1.
Proof.
  intros R. unfold ceil_div.
  assert (A : (8 * f + r) / 8 = f) by (symmetry; apply Z.div_unique with r; lia).
  assert (B : (8 * f + r) mod 8 = r) by (symmetry; apply Z.mod_unique with f; lia).
  rewrite A, B. destruct (Z.eqb_spec r 0); lia.
Qed.
Lemma ceil_nonneg n : 0 <= n -> 0 <= ceil_div n 8.
Proof. intros H. unfold ceil_div. pose proof (Z.div_pos n 8 H ltac:(lia)). destruct (n mod 8 =? 0); lia. Qed.
Lemma ceil_spec n : 0 <= n -> n <= 8 * ceil_div n 8 < n + 8.
Proof.
  intros H. pose proof (Z.div_mod n 8 ltac:(lia)) as D. pose proof (Z.mod_pos_bound n 8 ltac:(lia)) as B.
  unfold ceil_div. destruct (Z.eqb_spec (n mod 8) 0); lia.
Qed.

Lemma row_offset_shift off i : row_offset off i = off + row_offset 0 i.
Proof. induction i as [|i IH]; cbn [row_offset]; [lia|rewrite IH; lia]. Qed.
Lemma row_zlen g i : zlen (row g i) = ceil_div (Z.of_nat i) 8.
Proof.
  unfold zlen, row. rewrite map_length, seq_length. apply Z2Nat.id, ceil_nonneg. lia.
Qed.
Lemma rows_zlen g n : zlen (flat_map (row g) (seq 0 n)) = row_offset 0 n.
Proof.
  induction n as [|n IH]; [reflexivity|]. rewrite seq_S, flat_map_app, zlen_app, IH. cbn [flat_map Nat.add row_offset].
  rewrite app_nil_r, row_zlen. reflexivity.
Qed.
Lemma row_offset_mono i j : (i <= j)%nat -> row_offset 0 i <= row_offset 0 j.
Proof.
  induction 1 as [|j L IH]; [lia|]. cbn [row_offset]. pose proof (ceil_nonneg (Z.of_nat j)). lia.
Qed.

(** the adjacency part of lines 220-226 is the space of rows 0..n (one row more than used) *)
Lemma adjacency_bytes n :
  let fl := Z.of_nat n / 8 in
  8 * ((fl * fl + fl) / 2) + (Z.of_nat n - 8 * fl) * ceil_div (Z.of_nat n) 8 = row_offset 0 (S n).
Proof.
  cbv zeta.
  assert (EV : forall f, 0 <= f -> 8 * ((f * f + f) / 2) = 4 * (f * f + f)).
  { intros f F. assert (M : (f * f + f) mod 2 = 0).
    { replace (f * f + f) with (f * (f + 1)) by ring. rewrite <- Z.mul_mod_idemp_l, <- Z.mul_mod_idemp_r by lia.
      assert (X : f mod 2 = 0 \/ f mod 2 = 1) by (pose proof (Z.mod_pos_bound f 2); lia).
      rewrite <- (Z.add_mod_idemp_l f 1 2) by lia. destruct X as [-> | ->]; reflexivity. }
    pose proof (Z.div_mod (f * f + f) 2 ltac:(lia)). lia. }
  assert (DF : forall f r, 0 <= r < 8 -> (8 * f + r) / 8 = f) by (intros; symmetry; apply Z.div_unique with r; lia).
  induction n as [|n IH]; [reflexivity|].
  change (row_offset 0 (S (S n))) with (row_offset 0 (S n) + ceil_div (Z.of_nat (S n)) 8). rewrite <- IH. clear IH.
  pose proof (Z.div_mod (Z.of_nat n) 8 ltac:(lia)) as D. pose proof (Z.mod_pos_bound (Z.of_nat n) 8 ltac:(lia)) as B.
  pose proof (Z.div_pos (Z.of_nat n) 8 ltac:(lia) ltac:(lia)) as P.
  set (f := Z.of_nat n / 8) in *. set (r := Z.of_nat n mod 8) in *.
  destruct (Z.eq_dec r 7) as [E|E].
  - replace (Z.of_nat (S n)) with (8 * (f + 1) + 0) by lia. rewrite DF by lia.
    rewrite Z.add_0_r, ceil_full. replace (Z.of_nat n) with (8 * f + 7) by lia. rewrite ceil_part by lia.
    rewrite !EV by lia. ring.
  - replace (Z.of_nat (S n)) with (8 * f + (r + 1)) by lia. rewrite DF by lia. rewrite ceil_part by lia.
    destruct (Z.eq_dec r 0) as [Z0|Z0].
    + replace (Z.of_nat n) with (8 * f) by lia. rewrite ceil_full, !EV by lia. rewrite Z0. ring.
    + replace (Z.of_nat n) with (8 * f + r) by lia. rewrite ceil_part, !EV by lia. ring.
Qed.

Section Saved.
Variables (ps : list polygon) (h : list gop) (g : graph).
Hypothesis G : grun (make_graph ps) h = Ok g.

Lemma g_verts : get_vertices g = polygon_vertices ps.
Proof. eapply built_vertices; eauto. Qed.
Lemma g_polygons : get_polygons g = ps.
Proof. eapply built_polys; eauto. Qed.

Lemma vertex_at_ok i : (i < length (get_vertices g))%nat -> vertex_at g i = Ok (vert g i).
Proof.
  intros H. unfold vertex_at, index_to_coordinate, vert, vnth, get_vertices in *.
  rewrite (nth_error_nth' _ origin H). reflexivity.
Qed.
Lemma vert_in i : (i < length (get_vertices g))%nat -> In (vert g i) (polygon_vertices ps).
Proof. intros H. rewrite <- g_verts. apply nth_In, H. Qed.

Lemma eb_ok a b : In a (polygon_vertices ps) -> In b (polygon_vertices ps) -> has_edge g a b = Ok (eb g a b).
Proof.
  intros A B. unfold eb. destruct (grun_queries ps h g G a b) as (Q1 & _ & Q3).
  destruct (coord_dec a b) as [->|N].
  - destruct (Q3 eq_refl) as [-> _]. reflexivity.
  - destruct (Q1 N A B) as [-> _]. reflexivity.
Qed.
Lemma cb_ok a b : In a (polygon_vertices ps) -> In b (polygon_vertices ps) -> is_edge_meridian_crossing g a b = Ok (cb g a b).
Proof.
  intros A B. unfold cb. destruct (grun_queries ps h g G a b) as (Q1 & _ & Q3).
  destruct (coord_dec a b) as [->|N].
  - destruct (Q3 eq_refl) as [_ ->]. reflexivity.
  - destruct (Q1 N A B) as [_ ->]. reflexivity.
Qed.

Lemma encode_byte_ok i j : (i < length (get_vertices g))%nat -> encode_byte g i j = Ok (row_byte g i j).
Proof.
  intros Hi. unfold encode_byte, row_byte. set (c := (Nat.min ((j + 1) * 8) (i + 1) - j * 8)%nat).
  assert (C : (j * 8 + c <= i + 1 \/ c = 0)%nat) by (unfold c; lia). clearbody c.
  induction c as [|c IH]; [reflexivity|].
  rewrite seq_S, foldM_app, IH by lia. cbn [bind foldM bits].
  rewrite vertex_at_ok by exact Hi. rewrite vertex_at_ok by lia. cbn [bind].
  rewrite eb_ok by (apply vert_in; lia). cbn [bind]. do 3 f_equal. lia.
Qed.

Lemma put_row_ok off i : (i < length (get_vertices g))%nat -> put_row g off i = Ok (seqw (row_offset off i) (row g i)).
Proof.
  intros Hi. unfold put_row, row. set (c := Z.to_nat _). clearbody c.
  rewrite (mapM_ok _ (fun j => put_u8 (row_byte g i j) (row_offset off i + Z.of_nat j))).
  2:{ intros j _. rewrite encode_byte_ok by exact Hi. reflexivity. }
  cbn [bind]. f_equal.
  assert (K : forall s, concat (map (fun j => put_u8 (row_byte g i j) (row_offset off i + Z.of_nat j)) (seq s c)) =
     seqw (row_offset off i + Z.of_nat s) (map (row_byte g i) (seq s c))).
  { induction c as [|c IH]; intros s; [reflexivity|]. cbn [seq map concat seqw]. rewrite IH.
    unfold put_u8. cbn [app]. do 2 f_equal. lia. }
  rewrite K. f_equal. lia.
Qed.

Lemma rows_seqw off n : concat (map (fun i => seqw (row_offset off i) (row g i)) (seq 0 n)) =
  seqw off (flat_map (row g) (seq 0 n)).
Proof.
  induction n as [|n IH]; [reflexivity|]. rewrite seq_S, map_app, concat_app, flat_map_app, seqw_app, IH. f_equal.
  cbn [map concat flat_map Nat.add]. rewrite !app_nil_r, rows_zlen. f_equal. apply row_offset_shift.
Qed.

Lemma put_crossings_ok back : put_crossings g back = Ok (seqw (back + 8) (flat_map (le 8) (entries g)), zlen (entries g)).
Proof.
  unfold put_crossings, entries. set (n := length (get_vertices g)).
  destruct (foldM_ok_ind_in (fun (st : list bwrite * Z) i =>
    foldM (fun st j => let '(ws, cur) := st in
      vi <- vertex_at g i ;; vj <- vertex_at g j ;; c <- is_edge_meridian_crossing g vi vj ;;
      Ok (if (c : bool) then (ws ++ put_u64 (edge_number i j) ((cur + 1) * 8 + back), cur + 1) else (ws, cur))) (seq 0 i) st)
    (fun done st => st = (seqw (back + 8) (flat_map (le 8) (flat_map (row_entries g) done)), zlen (flat_map (row_entries g) done)))
    ([], 0) (seq 0 n)) as (s & E & ->); [reflexivity| |exact E].
  intros done st i Hi ->. apply in_seq in Hi. set (E0 := flat_map (row_entries g) done).
  destruct (foldM_ok_ind_in (fun (st : list bwrite * Z) j => let '(ws, cur) := st in
      vi <- vertex_at g i ;; vj <- vertex_at g j ;; c <- is_edge_meridian_crossing g vi vj ;;
      Ok (if (c : bool) then (ws ++ put_u64 (edge_number i j) ((cur + 1) * 8 + back), cur + 1) else (ws, cur)))
    (fun dj st => let X := E0 ++ map (edge_number i) (filter (fun j => cb g (vert g i) (vert g j)) dj) in
                  st = (seqw (back + 8) (flat_map (le 8) X), zlen X))
    (seqw (back + 8) (flat_map (le 8) E0), zlen E0) (seq 0 i)) as (s & E & ->).
  - cbn. rewrite app_nil_r. reflexivity.
  - intros dj st j Hj ->. apply in_seq in Hj. cbv zeta.
    rewrite !vertex_at_ok by lia. cbn [bind]. rewrite cb_ok by (apply vert_in; lia). cbn [bind].
    eexists. split; [reflexivity|]. cbv zeta. rewrite filter_app, map_app, app_assoc. cbn [filter].
    set (X := E0 ++ _). destruct (cb g (vert g i) (vert g j)); cbn [map]; [|rewrite app_nil_r; reflexivity].
    rewrite flat_map_app, seqw_app, zlen_app. unfold put_u64. rewrite put_bytes_seqw.
    rewrite (flat_map_zlen (le 8) 8) by (intros; apply le_zlen). cbn [flat_map]. rewrite app_nil_r.
    f_equal. do 2 f_equal. lia.
  - eexists. split; [exact E|].
    replace (flat_map (row_entries g) (done ++ [i])) with (E0 ++ row_entries g i); [reflexivity|].
    rewrite flat_map_app. unfold E0. f_equal. symmetry. apply app_nil_r.
Qed.

Lemma count_ok : count_crossings g = Ok (crossing_pairs g).
Proof.
  unfold count_crossings, crossing_pairs.
  destruct (foldM_ok_ind_in (fun n v1 => foldM (fun n v2 => c <- is_edge_meridian_crossing g v1 v2 ;; Ok (n + (if (c : bool) then 1 else 0)))
      (get_vertices g) n)
    (fun done n => n = zlen (flat_map (fun a => filter (cb g a) (get_vertices g)) done)) 0 (get_vertices g)) as (s & E & ->);
    [reflexivity| |exact E].
  intros done n v1 H1 ->. rewrite g_verts in H1. set (N0 := zlen _).
  destruct (foldM_ok_ind_in (fun n v2 => c <- is_edge_meridian_crossing g v1 v2 ;; Ok (n + (if (c : bool) then 1 else 0)))
    (fun dj n => n = N0 + zlen (filter (cb g v1) dj)) N0 (get_vertices g)) as (s & E & ->).
  - unfold zlen at 1. cbn [filter length]. lia.
  - intros dj n v2 H2 ->. rewrite g_verts in H2. rewrite cb_ok by assumption. cbn [bind].
    eexists. split; [reflexivity|]. rewrite filter_app, zlen_app. cbn [filter]. destruct (cb g v1 v2); unfold zlen; cbn [length]; lia.
  - eexists. split; [exact E|]. rewrite flat_map_app, zlen_app. cbn [flat_map]. rewrite app_nil_r. reflexivity.
Qed.

Lemma save_writes_ok : save_writes g = Ok (num_bytes g (crossing_pairs g), seqw 0 (encode g)).
Proof.
  unfold save_writes. rewrite count_ok. cbn [bind]. rewrite put_polygons_seqw.
  unfold put_adjacency.
  rewrite (mapM_ok _ (fun i => seqw (row_offset (8 + zlen (enc_polys (get_polygons g))) i) (row g i))).
  2:{ intros i Hi. apply in_seq in Hi. apply put_row_ok. lia. }
  cbn [bind]. rewrite put_crossings_ok. cbn [bind fst]. f_equal. f_equal.
  rewrite rows_seqw. unfold encode, enc_head, put_u64. rewrite !put_bytes_seqw, !seqw_app, !zlen_app, !le_zlen.
  unfold enc_rows. rewrite rows_zlen. rewrite !app_assoc.
  rewrite (row_offset_shift (8 + _)). repeat f_equal; unfold zlen; lia.
Qed.

(** ** Sizes *)
Lemma filter_seq_le (P : nat -> bool) i n : (i <= n)%nat -> (length (filter P (seq 0 i)) <= length (filter P (seq 0 n)))%nat.
Proof.
  intros H. replace n with (i + (n - i))%nat by lia. rewrite seq_app, filter_app, app_length. lia.
Qed.
Lemma verts_map : get_vertices g = map (vert g) (seq 0 (length (get_vertices g))).
Proof.
  apply nth_ext with (d := origin) (d' := vert g 0); [rewrite map_length, seq_length; reflexivity|].
  intros k Hk. rewrite (map_nth (vert g)), seq_nth by exact Hk. reflexivity.
Qed.
Lemma filter_map_length {A B} (f : A -> B) (P : B -> bool) l : length (filter P (map f l)) = length (filter (fun x => P (f x)) l).
Proof. induction l as [|x l IH]; [reflexivity|]. cbn [map filter]. destruct (P (f x)); cbn [length]; lia. Qed.

Lemma entries_le : zlen (entries g) <= crossing_pairs g.
Proof.
  unfold entries, crossing_pairs. set (n := length (get_vertices g)).
  assert (E : flat_map (fun a => filter (cb g a) (get_vertices g)) (get_vertices g) =
              flat_map (fun i => filter (cb g (vert g i)) (get_vertices g)) (seq 0 n)).
  { transitivity (flat_map (fun a => filter (cb g a) (get_vertices g)) (map (vert g) (seq 0 n))).
    - unfold n. rewrite <- verts_map. reflexivity.
    - rewrite !flat_map_concat_map, map_map. reflexivity. }
  rewrite E.
  assert (K : forall l, (forall i, In i l -> (i < n)%nat) ->
    zlen (flat_map (row_entries g) l) <= zlen (flat_map (fun i => filter (cb g (vert g i)) (get_vertices g)) l)).
  { induction l as [|i l IH]; intros Hl; [unfold zlen; simpl; lia|]. cbn [flat_map]. rewrite !zlen_app.
    specialize (IH (fun j Hj => Hl j (or_intror Hj))).
    assert (zlen (row_entries g i) <= zlen (filter (cb g (vert g i)) (get_vertices g))); [|lia].
    unfold zlen, row_entries. rewrite map_length. rewrite verts_map, filter_map_length.
    pose proof (filter_seq_le (fun x => cb g (vert g i) (vert g x)) i n). specialize (Hl i (or_introl eq_refl)).
    fold n. lia. }
  apply K. intros i Hi. apply in_seq in Hi. lia.
Qed.

Lemma enc_polys_zlen qs : zlen (enc_polys qs) = 8 * zlen qs + 8 * zlen (polygon_vertices qs).
Proof.
  induction qs as [|p qs IH]; [reflexivity|]. unfold enc_polys, polygon_vertices in *. cbn [flat_map map concat].
  rewrite !zlen_app, zlen_cons, enc_poly_zlen, IH. lia.
Qed.

Definition used : Z := 8 + zlen (enc_polys ps) + row_offset 0 (length (polygon_vertices ps)) + 8 + 8 * zlen (entries g).

Lemma encode_zlen : zlen (encode g) = used.
Proof.
  unfold encode, enc_head, enc_rows, used. rewrite !zlen_app, !le_zlen, rows_zlen, (flat_map_zlen (le 8) 8) by (intros; apply le_zlen).
  rewrite g_verts, g_polygons. lia.
Qed.

Lemma num_bytes_eq : num_bytes g (crossing_pairs g) =
  8 + 8 * zlen ps + 8 * zlen (polygon_vertices ps) + row_offset 0 (S (length (polygon_vertices ps))) + 8 * (crossing_pairs g + 1).
Proof.
  unfold num_bytes. rewrite g_verts, g_polygons. cbv zeta.
  pose proof (adjacency_bytes (length (polygon_vertices ps))) as A. cbv zeta in A. rewrite A. unfold zlen. lia.
Qed.

Lemma used_le : used + ceil_div (zlen (polygon_vertices ps)) 8 + 8 * (crossing_pairs g - zlen (entries g)) = num_bytes g (crossing_pairs g).
Proof.
  rewrite num_bytes_eq. unfold used. rewrite enc_polys_zlen. cbn [row_offset]. unfold zlen. lia.
Qed.

(** the saved file: the encoding, then whatever was there before *)
Lemma save_file old : exists m, serialize_to_file g old = Ok m /\
  f_len m = num_bytes g (crossing_pairs g) /\ has m 0 (encode g) /\
  forall k, zlen (encode g) <= k -> f_byte m k = f_byte (allocate_file old (num_bytes g (crossing_pairs g))) k.
Proof.
  unfold serialize_to_file. rewrite save_writes_ok. cbn [bind].
  destruct (store_seqw (encode g) 0 (allocate_file old (num_bytes g (crossing_pairs g)))) as (m & E & L & Hh & F).
  - lia.
  - rewrite encode_zlen. cbn [f_len allocate_file]. pose proof used_le. pose proof entries_le.
    pose proof (ceil_nonneg (zlen (polygon_vertices ps)) (zlen_nonneg _)). lia.
  - exists m. split; [exact E|]. split; [exact L|]. split; [exact Hh|]. intros k Hk. apply F. lia.
Qed.
End Saved.
