(** Saving then loading, over fresh and used paths; interrupted saves. *)
From Coq Require Import ZArith Bool List Lia.
From Verif Require Import Base F64 Coordinate Segment Polygon Graph SpecGraph GraphFacts GraphMore
  CoordinateFacts SpecGeom PolygonFacts PolygonMore Serializer BytesFacts SaveFacts LoadFacts.
Import ListNotations.
Local Open Scope Z_scope.

Lemma adds_undirected l : Forall is_add l -> Forall undirected l.
Proof. intros H. rewrite Forall_forall in *. intros o Ho. specialize (H o Ho). destruct o; simpl in *; tauto. Qed.
Lemma enc_polys_raws ps : flat_map enc_poly (map verts ps) = enc_polys ps.
Proof. unfold enc_polys. induction ps as [|p ps IH]; [reflexivity|]. cbn [map flat_map]. rewrite IH. reflexivity. Qed.

Lemma in_entries g n : length (get_vertices g) = n -> forall x,
  In x (entries g) <-> exists i k, (k < i < n)%nat /\ cb g (vert g i) (vert g k) = true /\ x = edge_number i k.
Proof.
  intros L x. unfold entries. rewrite in_flat_map, L. split.
  - intros (i & Hi & H). apply in_seq in Hi. unfold row_entries in H. apply in_map_iff in H. destruct H as (k & <- & H).
    apply filter_In in H. destruct H as [Hk C]. apply in_seq in Hk. exists i, k. repeat split; auto; lia.
  - intros (i & k & H & C & ->). exists i. split; [apply in_seq; lia|]. apply in_map. apply filter_In.
    split; [apply in_seq; lia|exact C].
Qed.

Lemma value_at_zero n m off : (forall k, 0 <= k < Z.of_nat n -> f_byte m (off + k) = 0) -> value_at n m off = 0.
Proof.
  induction n as [|n IH]; intros H; [reflexivity|]. cbn [value_at]. rewrite IH by (intros; apply H; lia).
  rewrite H by lia. rewrite Z.shiftl_0_l. reflexivity.
Qed.
Lemma value_at_prefix n p m off : (p <= n)%nat -> (forall k, Z.of_nat p <= k < Z.of_nat n -> f_byte m (off + k) = 0) ->
  value_at n m off = value_at p m off.
Proof.
  intros L. induction L as [|n L IH]; intros H; [reflexivity|]. cbn [value_at]. rewrite IH by (intros; apply H; lia).
  rewrite H by lia. rewrite Z.shiftl_0_l. apply Z.lor_0_r.
Qed.

Lemma nth_firstn_lt {A} k (d : A) : forall j l, (k < j)%nat -> nth k (firstn j l) d = nth k l d.
Proof.
  induction k as [|k IH]; intros [|j] [|x l] H; try reflexivity; try lia. cbn. apply IH. lia.
Qed.
Lemma fixed_raws qs : Forall (fun p => make_polygon (verts p) = Ok p) qs -> mapM make_polygon (map verts qs) = Ok qs.
Proof. induction 1 as [|p qs H _ IH]; [reflexivity|]. cbn [map mapM]. rewrite H. cbn [bind]. rewrite IH. reflexivity. Qed.
Lemma verts_zlen qs p : In p qs -> zlen (verts p) <= zlen (polygon_vertices qs).
Proof.
  unfold polygon_vertices. induction qs as [|q qs IH]; intros Hp; [contradiction|]. cbn [map concat].
  rewrite zlen_app. pose proof (zlen_nonneg (verts q)). pose proof (zlen_nonneg (concat (map verts qs))).
  destruct Hp as [->|Hp]; [lia|]. specialize (IH Hp). lia.
Qed.

Section Round.
Variables (ps : list polygon) (h : list gop) (g : graph) (limit : Z).
Hypothesis G : grun (make_graph ps) h = Ok g.
Hypothesis U : Forall undirected h.
Hypothesis Fix : Forall (fun p => make_polygon (verts p) = Ok p) ps.
Hypothesis R : Forall (fun p => Forall coord_i32 (verts p)) ps.
Hypothesis Small : num_bytes g (crossing_pairs g) < 1152921504606846976.
Hypothesis Lim : num_bytes g (crossing_pairs g) <= limit.

Let vs := polygon_vertices ps.
Let n := length vs.
Let raws := map verts ps.
Let back := head_len raws + row_offset 0 n.

Lemma raws_ok : mapM make_polygon raws = Ok ps.
Proof. apply fixed_raws, Fix. Qed.
Lemma head_eq : head_len raws = 8 + zlen (enc_polys ps).
Proof. unfold head_len, raws. rewrite enc_polys_raws. reflexivity. Qed.
Lemma sizes : 0 <= head_len raws /\ 0 <= row_offset 0 n /\ 0 <= zlen (entries g) <= crossing_pairs g /\
  back + 8 + 8 * crossing_pairs g + ceil_div (Z.of_nat n) 8 = num_bytes g (crossing_pairs g) /\
  zlen (encode g) = back + 8 + 8 * zlen (entries g) /\ 0 <= ceil_div (Z.of_nat n) 8.
Proof.
  pose proof (used_le ps h g G) as A. pose proof (entries_le g) as B. pose proof (encode_zlen ps h g G) as C.
  pose proof (zlen_nonneg (enc_polys ps)). pose proof (row_offset_nonneg n). pose proof (zlen_nonneg (entries g)).
  pose proof (ceil_nonneg (Z.of_nat n) ltac:(lia)).
  unfold used in A, C. rewrite C. unfold back. rewrite head_eq.
  change (zlen (polygon_vertices ps)) with (Z.of_nat n) in A. change (length (polygon_vertices ps)) with n in A. change (length (polygon_vertices ps)) with n.
  repeat split; try lia.
Qed.
Lemma small_i32 : Forall (Forall coord_i32) raws.
Proof.
  apply Forall_forall. intros r Hr. apply in_map_iff in Hr. destruct Hr as (p & <- & Hp).
  rewrite Forall_forall in R. apply R, Hp.
Qed.
Lemma count_le : zlen raws <= limit /\ Forall (fun vs => zlen vs <= limit) raws.
Proof.
  pose proof sizes as (A & B & C & D & E & F). unfold back in D. rewrite head_eq, enc_polys_zlen in D.
  pose proof (zlen_nonneg ps). pose proof (zlen_nonneg (polygon_vertices ps)) as P.
  split; [unfold raws, zlen in *; rewrite map_length; lia|].
  apply Forall_forall. intros r Hr. unfold raws in Hr. apply in_map_iff in Hr. destruct Hr as (p & <- & Hp).
  pose proof (verts_zlen ps p Hp) as K.
  lia.
Qed.

Lemma gv' : get_vertices g = vs. Proof. apply (g_verts ps h g G). Qed.

Lemma encode_parts m : has m 0 (encode g) ->
  has m 0 (le 8 (zlen raws) ++ flat_map enc_poly raws) /\ has m (head_len raws) (enc_rows g) /\
  has m back (le 8 (crossing_pairs g)) /\ has m (back + 8) (flat_map (le 8) (entries g)).
Proof.
  intros H. unfold encode in H. rewrite (g_polygons ps h g G) in H. apply has_app in H. destruct H as [H1 H].
  unfold enc_head in H1, H. rewrite zlen_app, le_zlen in H. change (Z.of_nat 8) with 8 in H.
  replace (0 + (8 + zlen (enc_polys ps))) with (head_len raws) in H by (rewrite head_eq; lia).
  apply has_app in H. destruct H as [H2 H]. unfold enc_rows in H. rewrite rows_zlen, gv' in H. fold n in H. fold back in H.
  apply has_app in H. destruct H as [H3 H4]. rewrite le_zlen in H4. change (Z.of_nat 8) with 8 in H4.
  split; [|auto]. unfold raws. rewrite enc_polys_raws. unfold zlen at 1. rewrite map_length. exact H1.
Qed.

Section File.
Variable m : file.
Hypothesis ML : f_len m = num_bytes g (crossing_pairs g).
Hypothesis ME : has m 0 (encode g).

Lemma count_value : value_at 8 m back = crossing_pairs g.
Proof.
  destruct (encode_parts m ME) as (_ & _ & H & _). rewrite (value_at_has 8 m back _ H).
  pose proof sizes as (A & B & C & D & E & F). apply Z.mod_small. change (2 ^ (8 * Z.of_nat 8)) with 18446744073709551616.
  unfold back in *. lia.
Qed.

Let X := crossings_at m back.
Lemma X_entries x : In x (entries g) -> In x X.
Proof.
  intros H. destruct (In_nth_error _ _ H) as [t Ht]. destruct (encode_parts m ME) as (_ & _ & _ & HE).
  pose proof (has_block (le 8) 8 (entries g) m (le_zlen 8) (back + 8) t x HE Ht) as Hx.
  pose proof sizes as (A & B & C & D & E & F).
  assert (Lt : Z.of_nat t < zlen (entries g)) by (unfold zlen; assert (t < length (entries g))%nat by (apply nth_error_Some; congruence); lia).
  unfold X, crossings_at. apply in_map_iff. exists t. split.
  - replace (back + (Z.of_nat t + 1) * 8) with (back + 8 + 8 * Z.of_nat t) by lia. rewrite (value_at_has 8 m _ x Hx).
    apply (in_entries g n) in H; [|rewrite gv'; reflexivity]. destruct H as (i & k & L & _ & ->).
    apply Z.mod_small. change (2 ^ (8 * Z.of_nat 8)) with 18446744073709551616.
    pose proof (edge_number_pos i k ltac:(lia)). pose proof (edge_number_bound i k n L). unfold back in *. lia.
  - rewrite count_value. apply in_seq. lia.
Qed.
Lemma X_stale x : In x X -> In x (entries g) \/
  exists t, zlen (entries g) <= t < crossing_pairs g /\ x = value_at 8 m (back + 8 + 8 * t).
Proof.
  intros H. unfold X, crossings_at in H. rewrite count_value in H. apply in_map_iff in H. destruct H as (t & <- & Ht). apply in_seq in Ht.
  replace (back + (Z.of_nat t + 1) * 8) with (back + 8 + 8 * Z.of_nat t) by lia.
  destruct (Z.lt_ge_cases (Z.of_nat t) (zlen (entries g))) as [L|L].
  - left. destruct (nth_error (entries g) t) as [x|] eqn:E; [|apply nth_error_None in E; unfold zlen in L; lia].
    destruct (encode_parts m ME) as (_ & _ & _ & HE).
    pose proof (has_block (le 8) 8 (entries g) m (le_zlen 8) (back + 8) t x HE E) as Hx.
    rewrite (value_at_has 8 m _ x Hx). pose proof (nth_error_In _ _ E) as I. pose proof I as I'.
    apply (in_entries g n) in I'; [|rewrite gv'; reflexivity]. destruct I' as (i & k & Lk & _ & ->).
    rewrite Z.mod_small; [exact I|]. change (2 ^ (8 * Z.of_nat 8)) with 18446744073709551616.
    pose proof sizes as (A & B & C & D & _ & F).
    pose proof (edge_number_pos i k ltac:(lia)). pose proof (edge_number_bound i k n Lk). unfold back in *. lia.
  - right. exists (Z.of_nat t). split; [lia|reflexivity].
Qed.

Lemma in_X_cb i k : (k < i < n)%nat -> (In (edge_number i k) (entries g) <-> cb g (vnth vs i) (vnth vs k) = true).
Proof.
  intros L. rewrite (in_entries g n) by (rewrite gv'; reflexivity). unfold vert. rewrite gv'. split.
  - intros (i' & k' & L' & C & E). destruct (edge_number_inj i k i' k' ltac:(lia) ltac:(lia) E) as [<- <-]. exact C.
  - intros C. exists i, k. auto.
Qed.

Lemma load_saved : exists g', deserialize_from_file limit m = Ok g' /\
  get_polygons g' = ps /\ built g' /\
  (forall a b, has_edge g' a b = has_edge g a b) /\
  (forall v, get_neighbors g' v = get_neighbors g v) /\
  (forall a b, is_edge_meridian_crossing g a b = Ok true -> is_edge_meridian_crossing g' a b = Ok true) /\
  ((forall t, zlen (entries g) <= t < crossing_pairs g ->
      forall i k, (k < i < n)%nat -> cb g (vnth vs i) (vnth vs k) = false -> value_at 8 m (back + 8 + 8 * t) <> edge_number i k) ->
   forall a b, is_edge_meridian_crossing g' a b = is_edge_meridian_crossing g a b).
Proof.
  pose proof sizes as (A & B & C & D & E & F). destruct count_le as [L0 L1].
  destruct (encode_parts m ME) as (H1 & H2 & _ & _).
  destruct (load_general limit m raws ps) as (g' & E1 & E2); auto.
  - unfold small_file. rewrite ML. lia.
  - apply small_i32.
  - apply raws_ok.
  - fold vs. fold n. fold back. rewrite ML. lia.
  - fold vs. fold n. fold back. rewrite count_value, ML. lia.
  - fold vs in E2. fold n in E2. fold back in E2. fold X in E2.
    exists g'. split; [exact E1|]. split; [apply (g_polygons ps _ g' E2)|].
    split; [exists ps, (load_ops m vs X (head_len raws)); split; [apply adds_undirected, (load_ops_adds ps h g G m (head_len raws) X H2)|exact E2]|].
    split; [|split; [|split]].
    + apply (loaded_has_edge ps h g G U m (head_len raws) X H2 g' E2).
    + apply (loaded_neighbors ps h g G U m (head_len raws) X H2 g' E2).
    + apply (loaded_crossing_mono ps h g G U m (head_len raws) X H2 g' E2).
      intros i k L Hc. apply X_entries, in_X_cb; assumption.
    + intros St. apply (loaded_crossing ps h g G U m (head_len raws) X H2 g' E2).
      intros i k L. split.
      * intros Hx. apply X_stale in Hx. destruct Hx as [Hx|(t & Ht & Ex)]; [apply in_X_cb; assumption|].
        destruct (cb g (vnth vs i) (vnth vs k)) eqn:Ecb; [exact Ecb|]. exfalso. apply (St t Ht i k L Ecb). symmetry. exact Ex.
      * intros Hc. apply X_entries, in_X_cb; assumption.
Qed.
End File.

(** whatever was at the path before *)
Lemma save_load old : exists m g', serialize_to_file g old = Ok m /\ deserialize_from_file limit m = Ok g' /\
  get_polygons g' = ps /\ built g' /\
  (forall a b, has_edge g' a b = has_edge g a b) /\
  (forall v, get_neighbors g' v = get_neighbors g v) /\
  (forall a b, is_edge_meridian_crossing g a b = Ok true -> is_edge_meridian_crossing g' a b = Ok true) /\
  (((forall k, num_bytes g (crossing_pairs g) - 8 * crossing_pairs g - ceil_div (Z.of_nat n) 8 <= k ->
       f_byte (allocate_file old (num_bytes g (crossing_pairs g))) k = 0) \/
    (forall a b, is_edge_meridian_crossing g a b <> Ok true)) ->
   forall a b, is_edge_meridian_crossing g' a b = is_edge_meridian_crossing g a b).
Proof.
  destruct (save_file ps h g G old) as (m & E & L & Hh & F).
  destruct (load_saved m L Hh) as (g' & E1 & E2 & Bu & E3 & E4 & E5 & E6).
  exists m, g'. split; [exact E|]. split; [exact E1|]. split; [exact E2|]. split; [exact Bu|]. split; [exact E3|]. split; [exact E4|]. split; [exact E5|].
  pose proof sizes as (A & B & C & D & Ez & Fz).
  intros [Cl|No]; apply E6; intros t Ht i k Lk Hc Ev.
  - rewrite value_at_zero in Ev.
    + pose proof (edge_number_pos i k ltac:(lia)). lia.
    + intros q Hq. change (Z.of_nat 8) with 8 in Hq. rewrite F by (unfold back in *; lia). apply Cl. unfold back in *. lia.
  - exfalso. assert (Z0 : crossing_pairs g = 0); [|lia].
    unfold crossing_pairs. destruct (flat_map _ _) as [|x l] eqn:El; [reflexivity|].
    assert (I : In x (flat_map (fun a => filter (cb g a) (get_vertices g)) (get_vertices g))) by (rewrite El; left; reflexivity).
    apply in_flat_map in I. destruct I as (a & _ & I). apply filter_In in I. destruct I as [_ I]. unfold cb in I.
    destruct (is_edge_meridian_crossing g a x) as [[|]|e|u] eqn:Q; try discriminate I. exfalso. exact (No a x Q).
Qed.

(** ** Interrupted saves over a fresh path *)
Lemma crash_file j : exists m, crashed_save g None j = Ok m /\ f_len m = num_bytes g (crossing_pairs g) /\
  (forall q, 0 <= q -> f_byte m q = if (q <? Z.of_nat j) && (q <? zlen (encode g)) then nth (Z.to_nat q) (encode g) 0 else 0).
Proof.
  unfold crashed_save. rewrite (save_writes_ok ps h g G). cbn [bind]. rewrite seqw_firstn.
  pose proof sizes as (A & B & C & D & E & F).
  assert (Le : zlen (firstn j (encode g)) = Z.min (Z.of_nat j) (zlen (encode g))) by (unfold zlen; rewrite firstn_length; lia).
  destruct (store_seqw (firstn j (encode g)) 0 (allocate_file None (num_bytes g (crossing_pairs g)))) as (m & Es & L & Hh & Fr).
  - lia.
  - cbn [f_len allocate_file]. rewrite Le. unfold back in *. lia.
  - exists m. split; [exact Es|]. split; [exact L|]. intros q Hq.
    destruct ((q <? Z.of_nat j) && (q <? zlen (encode g))) eqn:T.
    + apply andb_prop in T. destruct T as [T1 T2]. apply Z.ltb_lt in T1. apply Z.ltb_lt in T2.
      destruct Hh as (_ & _ & Hh). specialize (Hh (Z.to_nat q)). rewrite Z.add_0_l, Z2Nat.id in Hh by lia.
      rewrite Hh by (unfold zlen in Le, T2; lia).
      apply nth_firstn_lt. lia.
    + rewrite Fr; [reflexivity|]. right. rewrite Le. apply andb_false_iff in T. rewrite !Z.ltb_ge in T. lia.
Qed.

Lemma crash_load j : zlen (enc_head ps) <= Z.of_nat j ->
  exists m g', crashed_save g None j = Ok m /\ deserialize_from_file limit m = Ok g' /\ get_polygons g' = ps /\
  forall a b, has_edge g' a b = Ok true -> has_edge g a b = Ok true.
Proof.
  intros Hj. destruct (crash_file j) as (m & E & ML & Hm). exists m.
  pose proof sizes as (A & B & C & D & Ez & F). destruct count_le as [L0 L1].
  destruct (save_file ps h g G None) as (mf & _ & MLf & Hf & _).
  destruct (encode_parts mf Hf) as (P1 & P2 & P3 & P4).
  assert (HL : zlen (enc_head ps) = head_len raws) by (unfold enc_head; rewrite zlen_app, le_zlen, head_eq; reflexivity).
  (* below the crash point the file agrees with the complete one *)
  assert (Ag : forall q, 0 <= q < Z.of_nat j -> q < zlen (encode g) -> f_byte m q = f_byte mf q).
  { intros q Hq Hq2. rewrite Hm by lia. rewrite (proj2 (Z.ltb_lt _ _) (proj2 Hq)), (proj2 (Z.ltb_lt _ _) Hq2). cbn [andb].
    destruct Hf as (_ & _ & Hf). specialize (Hf (Z.to_nat q)). rewrite Z.add_0_l, Z2Nat.id in Hf by lia. rewrite Hf; [reflexivity|].
    unfold zlen in Hq2. lia. }
  assert (Ze : forall q, Z.of_nat j <= q -> f_byte m q = 0).
  { intros q Hq. rewrite Hm by lia. rewrite (proj2 (Z.ltb_ge _ _) Hq). reflexivity. }
  assert (HH : forall off l, has mf off l -> off + zlen l <= Z.of_nat j -> off + zlen l <= zlen (encode g) -> has m off l).
  { intros off l (H1 & H2 & H3) Hl He. split; [exact H1|]. split; [rewrite ML, <- MLf; exact H2|].
    intros k Hk. rewrite <- H3 by exact Hk. unfold zlen in Hl, He. apply Ag; unfold zlen; lia. }
  assert (M1 : has m 0 (le 8 (zlen raws) ++ flat_map enc_poly raws)).
  { apply HH; [exact P1| |]; rewrite zlen_app, le_zlen; change (0 + (Z.of_nat 8 + zlen (flat_map enc_poly raws))) with (head_len raws).
    - lia.
    - unfold back in *. lia. }
  assert (CV : value_at 8 m back <= crossing_pairs g).
  { set (p := Nat.min 8 (Z.to_nat (Z.of_nat j - back))).
    rewrite (value_at_prefix 8 p m back) by (try (intros; apply Ze); lia).
    assert (V : has m back (le p (crossing_pairs g))).
    { assert (S8 : le 8 (crossing_pairs g) = le p (crossing_pairs g) ++ map (fun k => Z.land (Z.shiftr (crossing_pairs g) (8 * Z.of_nat k)) 255) (seq p (8 - p))).
      { unfold le. rewrite <- map_app. f_equal. replace 8%nat with (p + (8 - p))%nat at 1 by lia. apply seq_app. }
      rewrite S8 in P3. apply has_app in P3. destruct P3 as [P3 _].
      destruct (Nat.eq_dec p 0) as [Zp|Np].
      - rewrite Zp. split; [unfold back; lia|]. split; [unfold zlen; cbn; rewrite ML; lia|]. intros k Hk. cbn in Hk. lia.
      - apply HH; [exact P3| |]; rewrite le_zlen; lia. }
    rewrite (value_at_has p m back _ V). apply Z.mod_le; [lia|]. apply Z.pow_pos_nonneg; lia. }
  destruct (load_general limit m raws ps) as (g' & E1 & E2); auto.
  - unfold small_file. rewrite ML. lia.
  - apply small_i32.
  - apply raws_ok.
  - fold vs. fold n. fold back. rewrite ML. lia.
  - fold vs. fold n. fold back. rewrite ML. lia.
  - fold vs in E2. fold n in E2. fold back in E2. set (X := crossings_at m back) in E2.
    exists g'. split; [exact E|]. split; [exact E1|]. split; [apply (g_polygons ps _ g' E2)|].
    intros a b He. destruct (grun_queries ps h g G a b) as (Q1 & Q2 & Q3). destruct (grun_queries ps _ g' E2 a b) as (R1 & R2 & R3).
    destruct (coord_dec a b) as [Eab|N]; [rewrite (proj1 (R3 Eab)) in He; discriminate|].
    destruct (in_dec coord_dec a vs) as [Ia|Ia]; [destruct (in_dec coord_dec b vs) as [Ib|Ib]|].
    + rewrite (proj1 (R1 N Ia Ib)) in He. assert (He1 : spec_connected a b (load_ops m vs X (head_len raws)) = true) by congruence. clear He.
      assert (Sub : forall o, In o (load_ops m vs X (head_len raws)) -> exists x y f, o = GAdd x y f /\ eb g x y = true).
      { intros o Ho. unfold load_ops in Ho. apply in_flat_map in Ho. destruct Ho as (i & Hi & Ho). apply in_seq in Hi. fold n in Hi.
        apply in_flat_map in Ho. destruct Ho as (q & Hq & Ho). apply in_seq in Hq.
        apply in_flat_map in Ho. destruct Ho as (l & Hl & Ho). apply in_seq in Hl.
        destruct (Z.testbit _ _) eqn:T; [|contradiction]. destruct Ho as [<-|[]].
        pose proof (row_inside i q n ltac:(lia) ltac:(lia)) as RI. pose proof (row_offset_nonneg i) as Ri.
        assert (Sh : row_offset (head_len raws) i = head_len raws + row_offset 0 i) by apply row_offset_shift.
        destruct (Z.lt_ge_cases (row_offset (head_len raws) i + Z.of_nat q) (Z.of_nat j)) as [Lj|Lj].
        - rewrite Ag in T by (rewrite Sh in *; unfold back in *; lia).
          do 3 eexists. split; [reflexivity|].
          rewrite (row_at ps h g G mf (head_len raws) P2 i q) in T by (fold vs; fold n; lia).
          unfold row_byte, vert in T. rewrite bits_testbit, gv' in T. apply andb_prop in T. exact (proj2 T).
        - rewrite (Ze _ Lj), Z.testbit_0_l in T. discriminate. }
      assert (Ad : Forall is_add (load_ops m vs X (head_len raws))).
      { apply Forall_forall. intros o Ho. destruct (Sub o Ho) as (x & y & f & -> & _). exact I. }
      apply adds_connected in He1; [|exact Ad]. destruct He1 as (o & f & Ho & Ev).
      destruct (Sub o Ho) as (x & y & f' & -> & Eb). cbn [event_of] in Ev.
      destruct (same a b x y || same a b y x) eqn:S; [|discriminate]. apply orb_prop in S. rewrite !same_spec in S.
      rewrite (eb_ok ps h g G a b Ia Ib). f_equal. destruct S as [[-> ->]|[-> ->]]; [exact Eb|].
      rewrite (eb_sym ps h g G U). exact Eb.
    + rewrite (proj1 (R2 N (or_intror Ib))) in He. discriminate.
    + rewrite (proj1 (R2 N (or_introl Ia))) in He. discriminate.
Qed.
End Round.
