(** What loading a well-formed file gives; saving and loading. *)
From Coq Require Import ZArith Bool List Lia.
From Verif Require Import Base F64 Coordinate Segment Polygon Graph SpecGraph GraphFacts GraphMore
  CoordinateFacts SpecGeom PolygonFacts Serializer BytesFacts SaveFacts.
Import ListNotations.
Local Open Scope Z_scope.

Lemma has_block {A} (f : A -> list Z) d l m : (forall x, zlen (f x) = d) -> forall off j x,
  has m off (flat_map f l) -> nth_error l j = Some x -> has m (off + d * Z.of_nat j) (f x).
Proof.
  intros D. induction l as [|y l IH]; intros off j x H E; [destruct j; discriminate|].
  cbn [flat_map] in H. apply has_app in H. destruct H as [H1 H2]. destruct j as [|j].
  - inversion E; subst. replace (off + d * Z.of_nat 0) with off by lia. exact H1.
  - replace (off + d * Z.of_nat (S j)) with (off + zlen (f y) + d * Z.of_nat j) by (rewrite D; lia).
    apply IH; assumption.
Qed.

Lemma get_vertex_list_ok limit m off vs : small_file m -> has m off (flat_map enc_coord vs) ->
  Forall coord_i32 vs -> zlen vs <= limit -> get_vertex_list limit m (zlen vs) off = Ok vs.
Proof.
  intros S H R L. unfold get_vertex_list, alloc. destruct (Z.ltb_spec limit (zlen vs)) as [X|_]; [lia|]. cbn [bind].
  unfold zlen at 1. rewrite Nat2Z.id. rewrite (mapM_ok _ (vat vs)).
  - rewrite map_vat. reflexivity.
  - intros j Hj. apply in_seq in Hj. destruct (nth_error vs j) as [c|] eqn:E; [|apply nth_error_None in E; lia].
    pose proof (has_block enc_coord 8 vs m enc_coord_zlen off j c H E) as Hc. unfold enc_coord in Hc. apply has_app in Hc.
    destruct Hc as [Hx Hy]. rewrite le_i32_zlen in Hy.
    assert (B : off + 8 * Z.of_nat j + 8 <= f_len m /\ 0 <= off).
    { destruct Hy as (Y1 & Y2 & _). rewrite le_i32_zlen in Y2. destruct H as (X & _). lia. }
    unfold small_file in S. rewrite (u64_small (off + Z.of_nat j * 8)) by lia.
    rewrite (u64_small (off + Z.of_nat j * 8 + 4)) by lia.
    rewrite (Z.mul_comm (Z.of_nat j)).
    assert (C : coord_i32 c) by (rewrite Forall_forall in R; apply R; eapply nth_error_In; eauto).
    destruct C as [C1 C2].
    rewrite (get_i32_has m _ (lon c)) by (auto; exact S). cbn [bind].
    rewrite (get_i32_has m _ (lat c)) by (auto; exact S). cbn [bind]. f_equal.
    unfold vat. rewrite (nth_error_nth _ _ _ E). destruct c; reflexivity.
Qed.

Lemma get_polygons_ok limit m raws : small_file m -> forall ps off,
  has m off (flat_map enc_poly raws) -> Forall (Forall coord_i32) raws -> Forall (fun vs => zlen vs <= limit) raws ->
  mapM make_polygon raws = Ok ps ->
  get_polygons_from (length raws) limit m off = Ok (ps, off + zlen (flat_map enc_poly raws)).
Proof.
  intros S. induction raws as [|vs raws IH]; intros ps off H R L M.
  - simpl in M. inversion M. cbn. unfold zlen. cbn. rewrite Z.add_0_r. reflexivity.
  - cbn [flat_map] in H. apply has_app in H. destruct H as [H1 H2]. inversion R; subst. inversion L; subst.
    cbn [mapM] in M. apply bind_ok in M. destruct M as (p & Mp & M). apply bind_ok in M. destruct M as (ps' & Mps & M).
    inversion M; subst ps.
    cbn [length get_polygons_from].
    assert (B : 0 <= off /\ off + (8 + 8 * zlen vs) <= f_len m).
    { destruct H1 as (A & B & _). rewrite enc_poly_zlen in B. lia. }
    pose proof (zlen_nonneg vs) as ZV. pose proof S as S'. unfold small_file in S'.
    rewrite enc_poly_zlen in H2.
    unfold enc_poly in H1. apply has_app in H1. destruct H1 as [Hn Hc].
    unfold get_u64. rewrite (get_bytes_has 8 m off (zlen vs) S Hn) by (change (2 ^ (8 * Z.of_nat 8)) with 18446744073709551616; lia).
    cbn [bind]. cbv zeta. rewrite le_zlen in Hc. change (Z.of_nat 8) with 8 in Hc.
    rewrite (u64_small (off + 8)) by lia.
    rewrite get_vertex_list_ok by assumption. cbn [bind]. rewrite Mp. cbn [bind].
    rewrite (u64_small (off + 8 + zlen vs * 8)) by lia.
    replace (off + 8 + zlen vs * 8) with (off + (8 + 8 * zlen vs)) by lia.
    rewrite (IH ps' (off + (8 + 8 * zlen vs)) H2) by assumption. cbn [bind].
    cbn [flat_map]. rewrite zlen_app, enc_poly_zlen. f_equal. f_equal. lia.
Qed.

(** ** Adjacency *)
Lemma foldM_ext_inv {A S} (P : S -> Prop) (f h : S -> A -> res S) l :
  (forall s x s', P s -> In x l -> h s x = Ok s' -> P s') ->
  (forall s x, P s -> In x l -> f s x = h s x) -> forall s, P s -> foldM f l s = foldM h l s.
Proof.
  induction l as [|x l IH]; intros H1 H2 s Hs; [reflexivity|]. simpl.
  rewrite H2 by (auto; left; reflexivity). destruct (h s x) as [s'|e|u] eqn:E; simpl; auto.
  apply IH; [| |apply (H1 s x s'); auto; left; reflexivity].
  - intros. eapply H1; eauto. right; assumption.
  - intros. apply H2; auto. right; assumption.
Qed.
Lemma foldM_inv {A S} (P : S -> Prop) (f : S -> A -> res S) l :
  (forall s x s', P s -> In x l -> f s x = Ok s' -> P s') -> forall s s', P s -> foldM f l s = Ok s' -> P s'.
Proof.
  induction l as [|x l IH]; intros H s s' Hs E; simpl in E; [inversion E; subst; exact Hs|].
  apply bind_ok in E. destruct E as (s1 & E1 & E2). eapply IH; [| |exact E2].
  - intros. eapply H; eauto. right; assumption.
  - eapply H; eauto. left; reflexivity.
Qed.

Lemma add_directed_index g a b m g' : add_directed_edge g a b m = Ok g' -> g_index g' = g_index g.
Proof.
  unfold add_directed_edge. destruct (coord_eqb a b); [intros E; inversion E; reflexivity|].
  intros E. apply bind_ok in E. destruct E as (i & _ & E). apply bind_ok in E. destruct E as (j & _ & E).
  apply bind_ok in E. destruct E as (o & _ & E). unfold cell_set in E. destruct (_ <? _)%nat; [|discriminate].
  inversion E. reflexivity.
Qed.
Lemma add_edge_index g a b m g' : add_edge g a b m = Ok g' -> g_index g' = g_index g.
Proof.
  unfold add_edge. intros E. apply bind_ok in E. destruct E as (g1 & E1 & E2).
  apply add_directed_index in E1. apply add_directed_index in E2. congruence.
Qed.

(** the calls made by the loader *)
Definition bit_ops (m : file) (vs : list coord) (X : list Z) (off : Z) (i j : nat) : list gop :=
  flat_map (fun l =>
    if Z.testbit (f_byte m (row_offset off i + Z.of_nat j)) (Z.of_nat l)
    then [GAdd (vnth vs i) (vnth vs (j * 8 + l)) (existsb (Z.eqb (edge_number i (j * 8 + l))) X)] else [])
    (seq 0 (Nat.min 8 (length vs - j * 8))).
Definition row_ops m vs X off i : list gop :=
  flat_map (bit_ops m vs X off i) (seq 0 (Z.to_nat (ceil_div (Z.of_nat i) 8))).
Definition load_ops m vs X off : list gop := flat_map (row_ops m vs X off) (seq 0 (length vs)).

Definition crossings_at (m : file) (back : Z) : list Z :=
  map (fun i => value_at 8 m (back + (Z.of_nat i + 1) * 8)) (seq 0 (Z.to_nat (value_at 8 m back))).

Lemma get_crossings_ok m back : small_file m -> 0 <= back -> back + 8 <= f_len m ->
  back + 8 + 8 * value_at 8 m back <= f_len m -> get_crossings m back = Ok (crossings_at m back).
Proof.
  intros S B0 B1 B2. unfold get_crossings, get_u64. rewrite get_bytes_ok by (auto; simpl; lia). cbn [bind].
  unfold crossings_at. apply mapM_ok. intros i Hi. apply in_seq in Hi. unfold small_file in S.
  set (c := value_at 8 m back) in *. clearbody c.
  rewrite u64_small by lia. apply get_bytes_ok; [exact S|lia|change (Z.of_nat 8) with 8; lia].
Qed.

Lemma row_inside i j n : (i < n)%nat -> (j < Z.to_nat (ceil_div (Z.of_nat i) 8))%nat ->
  row_offset 0 i + Z.of_nat j < row_offset 0 n.
Proof.
  intros Hi Hj. assert (L : (S i <= n)%nat) by lia. apply row_offset_mono in L. cbn [row_offset] in L.
  pose proof (ceil_nonneg (Z.of_nat i) ltac:(lia)). lia.
Qed.
Lemma row_offset_nonneg n : 0 <= row_offset 0 n.
Proof. pose proof (row_offset_mono 0 n ltac:(lia)). exact H. Qed.

Lemma load_adjacency m ps off : small_file m -> 0 <= off ->
  let n := length (polygon_vertices ps) in
  let back := off + row_offset 0 n in
  back + 8 <= f_len m -> back + 8 + 8 * value_at 8 m back <= f_len m ->
  exists g, get_adjacency m (make_graph ps) off = Ok g /\
    grun (make_graph ps) (load_ops m (polygon_vertices ps) (crossings_at m back) off) = Ok g.
Proof.
  intros S O n back B1 B2. set (vs := polygon_vertices ps). set (X := crossings_at m back).
  assert (K : Forall (known ps) (load_ops m vs X off)).
  { apply Forall_forall. intros o Ho. unfold load_ops in Ho. apply in_flat_map in Ho. destruct Ho as (i & Hi & Ho).
    apply in_flat_map in Ho. destruct Ho as (j & Hj & Ho). apply in_flat_map in Ho. destruct Ho as (l & Hl & Ho).
    apply in_seq in Hi. apply in_seq in Hl.
    destruct (Z.testbit _ _); [|contradiction]. destruct Ho as [<-|[]]. right.
    split; apply nth_In; fold vs; lia. }
  destruct (foldM_gstep_known0 ps _ K) as (g & E1 & E2). exists g. split; [|exact E2].
  rewrite <- E1. unfold get_adjacency. change (length (get_vertices (make_graph ps))) with n.
  rewrite row_offset_shift. fold back. unfold small_file in S.
  pose proof (row_offset_nonneg n) as RN.
  rewrite (u64_small back) by (unfold back in *; lia).
  rewrite get_crossings_ok by (auto; unfold back in *; lia). cbn [bind]. fold X.
  unfold load_ops. fold n. rewrite foldM_flat_map.
  set (P := fun g : graph => g_index g = vs).
  assert (PP : forall ops s s', P s -> (forall o, In o ops -> is_add o) -> foldM gstep ops s = Ok s' -> P s').
  { intros ops s s' Ps Ha E. revert Ps E. apply (foldM_inv P). intros s0 x s1 P0 Hx E. specialize (Ha x Hx).
    destruct x; simpl in Ha; try contradiction. simpl in E. apply add_edge_index in E. unfold P in *. congruence. }
  assert (A3 : forall i j o, In o (bit_ops m vs X off i j) -> is_add o).
  { intros i j o Ho. apply in_flat_map in Ho. destruct Ho as (l & _ & Ho). destruct (Z.testbit _ _); [|contradiction].
    destruct Ho as [<-|[]]. exact I. }
  assert (A2 : forall i o, In o (row_ops m vs X off i) -> is_add o).
  { intros i o Ho. apply in_flat_map in Ho. destruct Ho as (j & _ & Ho). eapply A3; eauto. }
  apply (foldM_ext_inv P); [| |reflexivity].
  - intros s i s' Ps _ E. eapply PP; [exact Ps| |exact E]. apply A2.
  - intros s i Ps Hi. apply in_seq in Hi. unfold row_ops. rewrite foldM_flat_map. revert s Ps. apply (foldM_ext_inv P).
    + intros s j s' Ps _ E. eapply PP; [exact Ps| |exact E]. apply A3.
    + intros s j Ps Hj. apply in_seq in Hj. unfold load_byte.
      assert (Hin : (i < n)%nat) by (destruct Hi as [_ Hi]; exact Hi).
      pose proof (row_inside i j n Hin (proj2 Hj)) as RI.
      pose proof (row_offset_nonneg i) as Ri.
      assert (Sh : row_offset off i = off + row_offset 0 i) by apply row_offset_shift.
      rewrite u64_small by (rewrite Sh; unfold back in *; lia). unfold read_byte.
      replace ((0 <=? row_offset off i + Z.of_nat j) && (row_offset off i + Z.of_nat j <? f_len m)) with true
        by (symmetry; apply andb_true_intro; split; [apply Z.leb_le|apply Z.ltb_lt]; rewrite Sh; unfold back in *; lia).
      cbn [bind]. unfold get_vertices. rewrite Ps. unfold bit_ops. rewrite foldM_flat_map. revert s Ps.
      apply (foldM_ext_inv P).
      * intros s l s' Ps _ E. eapply PP; [exact Ps| |exact E]. intros o Ho. destruct (Z.testbit _ _); [|contradiction].
        destruct Ho as [<-|[]]. exact I.
      * intros s l Ps Hl. apply in_seq in Hl. destruct (Z.testbit _ _); [|reflexivity].
        unfold vertex_at, index_to_coordinate. rewrite Ps.
        rewrite (nth_error_nth' vs origin (n := i)) by exact Hin.
        rewrite (nth_error_nth' vs origin (n := (j * 8 + l)%nat)) by lia.
        cbn [bind foldM gstep]. fold (vnth vs i). fold (vnth vs (j * 8 + l)).
        destruct (add_edge _ _ _ _); reflexivity.
Qed.

(** ** Loading any file with readable polygons and enough room *)
Definition head_len (raws : list (list coord)) : Z := 8 + zlen (flat_map enc_poly raws).

Lemma load_general limit m raws ps : small_file m ->
  has m 0 (le 8 (zlen raws) ++ flat_map enc_poly raws) ->
  Forall (Forall coord_i32) raws -> Forall (fun vs => zlen vs <= limit) raws -> zlen raws <= limit ->
  mapM make_polygon raws = Ok ps ->
  let back := head_len raws + row_offset 0 (length (polygon_vertices ps)) in
  back + 8 <= f_len m -> back + 8 + 8 * value_at 8 m back <= f_len m ->
  exists g, deserialize_from_file limit m = Ok g /\
    grun (make_graph ps) (load_ops m (polygon_vertices ps) (crossings_at m back) (head_len raws)) = Ok g.
Proof.
  intros S H R L L0 M back B1 B2. unfold deserialize_from_file.
  apply has_app in H. destruct H as [H1 H2]. rewrite le_zlen in H2. change (0 + Z.of_nat 8) with 8 in H2.
  pose proof (zlen_nonneg raws) as ZR. pose proof (zlen_nonneg (flat_map enc_poly raws)) as ZF.
  assert (ZL : zlen raws <= zlen (flat_map enc_poly raws)).
  { clear. induction raws as [|r raws IH]; [unfold zlen; simpl; lia|]. cbn [flat_map]. rewrite zlen_app, zlen_cons, enc_poly_zlen.
    pose proof (zlen_nonneg r). lia. }
  assert (FL : 8 + zlen (flat_map enc_poly raws) <= f_len m) by (destruct H2 as (_ & X & _); lia).
  destruct (Z.leb_spec (f_len m) 0) as [X|_]; [lia|].
  pose proof S as S'. unfold small_file in S'.
  unfold get_u64. rewrite (get_bytes_has 8 m 0 (zlen raws) S H1) by (change (2 ^ (8 * Z.of_nat 8)) with 18446744073709551616; lia).
  cbn [bind]. unfold alloc. destruct (Z.ltb_spec limit (zlen raws)) as [X|_]; [lia|]. cbn [bind].
  unfold zlen at 1. rewrite Nat2Z.id.
  rewrite (get_polygons_ok limit m raws S ps 8 H2 R L M). cbn [bind].
  apply (load_adjacency m ps (head_len raws)); auto. unfold head_len. lia.
Qed.

(** ** Views of graphs built from additions only *)
Lemma adds_connected a b h : Forall is_add h ->
  spec_connected a b h = true <-> exists o f, In o h /\ event_of a b o = Some (Some f).
Proof.
  intros A. unfold spec_connected, spec_view.
  assert (K : forall f, In f (adds_since_removal a b (rev h)) <-> exists o, In o h /\ event_of a b o = Some (Some f)).
  { intros f. rewrite adds_of_adds by (apply Forall_rev; exact A).
    split; intros (o & Ho & E); exists o; (split; [|exact E]); [apply in_rev in Ho|apply -> in_rev]; exact Ho. }
  destruct (adds_since_removal a b (rev h)) as [|x l].
  - split; [discriminate|]. intros (o & f & Ho & E). destruct (proj2 (K f)). exists o; auto.
  - split; [|reflexivity]. intros _. destruct (proj1 (K x) (or_introl eq_refl)) as (o & Ho & E). exists o, x; auto.
Qed.
Lemma adds_crossing a b h : Forall is_add h ->
  spec_crossing a b h = true <-> spec_connected a b h = true /\
    forall o f, In o h -> event_of a b o = Some (Some f) -> f = true.
Proof.
  intros A. unfold spec_crossing, spec_connected, spec_view.
  assert (K : forall f, In f (adds_since_removal a b (rev h)) <-> exists o, In o h /\ event_of a b o = Some (Some f)).
  { intros f. rewrite adds_of_adds by (apply Forall_rev; exact A).
    split; intros (o & Ho & E); exists o; (split; [|exact E]); [apply in_rev in Ho|apply -> in_rev]; exact Ho. }
  destruct (adds_since_removal a b (rev h)) as [|x l] eqn:EL.
  - split; [discriminate|]. intros [H _]; discriminate H.
  - destruct (forallb (fun m => m) (x :: l)) eqn:F.
    + rewrite forallb_forall in F. split; [|reflexivity]. intros _. split; [reflexivity|].
      intros o f Ho E. apply F, K. exists o; auto.
    + split; [discriminate|]. intros [_ H]. rewrite <- F. apply forallb_forall. intros f Hf.
      apply K in Hf. destruct Hf as (o & Ho & E). eauto.
Qed.

Lemma same_edges_neighbors ps h1 h2 g1 g2 : grun (make_graph ps) h1 = Ok g1 -> grun (make_graph ps) h2 = Ok g2 ->
  (forall a b, has_edge g1 a b = has_edge g2 a b) -> forall v, get_neighbors g1 v = get_neighbors g2 v.
Proof.
  intros E1 E2 H v.
  destruct (grun_spec ps h1) as (F1 & g1' & E1' & R1 & _ & Q1). rewrite E1 in E1'. inversion E1'; subst g1'.
  destruct (grun_spec ps h2) as (F2 & g2' & E2' & R2 & _ & Q2). rewrite E2 in E2'. inversion E2'; subst g2'.
  rewrite (get_neighbors_repr ps F1 g1 v R1), (get_neighbors_repr ps F2 g2 v R2).
  destruct (idx ps v) as [j|]; [|reflexivity]. f_equal. unfold nbrs. f_equal. apply filter_ext. intros i. f_equal.
  assert (K : forall a b i j, a <> b -> idx ps a = Some i -> idx ps b = Some j -> (F1 i j =? 0)%Z = (F2 i j =? 0)%Z).
  { intros a b i0 j0 N A B. specialize (H a b). rewrite (has_edge_repr ps F1 g1 a b R1), (has_edge_repr ps F2 g2 a b R2) in H.
    rewrite (proj2 (coord_eqb_neq a b) N), A, B in H. inversion H as [H1].
    revert H1. destruct (F1 i0 j0 =? 0), (F2 i0 j0 =? 0); intros H1; try reflexivity; discriminate H1. }
  destruct (Z.eq_dec (F1 i j) 0) as [Z1|Z1].
  - destruct (Z.eq_dec (F2 i j) 0) as [Z2|Z2]; [rewrite Z1, Z2; reflexivity|].
    destruct (Q2 _ _ Z2) as (a & b & N & A & B). apply (K a b); assumption.
  - destruct (Q1 _ _ Z1) as (a & b & N & A & B). apply (K a b); assumption.
Qed.

Lemma bits_nonneg f n : 0 <= bits f n.
Proof.
  induction n as [|n IH]; [cbn; lia|]. cbn [bits]. apply Z.lor_nonneg. split; [exact IH|]. apply Z.shiftl_nonneg.
  destruct (f n); lia.
Qed.
Lemma bits_testbit f n k : Z.testbit (bits f n) (Z.of_nat k) = (k <? n)%nat && f k.
Proof.
  induction n as [|n IH]; [apply Z.testbit_0_l|]. cbn [bits]. rewrite Z.lor_spec, IH, Z.shiftl_spec by lia.
  destruct (Nat.ltb_spec k (S n)) as [L|L].
  - destruct (Nat.eq_dec k n) as [->|N].
    + rewrite Nat.ltb_irrefl, Z.sub_diag. cbn [andb orb]. destruct (f n); reflexivity.
    + rewrite (proj2 (Nat.ltb_lt k n)) by lia. rewrite (Z.testbit_neg_r _ (Z.of_nat k - Z.of_nat n)) by lia.
      rewrite orb_false_r. reflexivity.
  - rewrite (proj2 (Nat.ltb_ge k n)) by lia. cbn [andb orb]. destruct (f n); [|apply Z.testbit_0_l].
    change 1 with (2 ^ 0). rewrite Z.pow2_bits_eqb by lia. apply Z.eqb_neq. lia.
Qed.

Section Loaded.
Variables (ps : list polygon) (h : list gop) (g : graph).
Hypothesis G : grun (make_graph ps) h = Ok g.
Hypothesis U : Forall undirected h.
Variables (m : file) (off : Z) (X : list Z).
Hypothesis HR : has m off (enc_rows g).

Let vs := polygon_vertices ps.
Let n := length vs.

Lemma gv : get_vertices g = vs. Proof. apply (g_verts ps h g G). Qed.

Lemma row_at i j : (i < n)%nat -> (j < Z.to_nat (ceil_div (Z.of_nat i) 8))%nat ->
  f_byte m (row_offset off i + Z.of_nat j) = row_byte g i j.
Proof.
  intros Hi Hj. pose proof HR as H. unfold enc_rows in H. rewrite gv in H. fold n in H.
  replace n with (i + (n - i))%nat in H by lia. rewrite seq_app, flat_map_app in H. apply has_app in H. destruct H as [_ H].
  replace (n - i)%nat with (S (n - i - 1)) in H by lia. cbn [seq flat_map] in H. apply has_app in H. destruct H as [H _].
  rewrite rows_zlen, <- row_offset_shift in H. rewrite Nat.add_0_l in H. destruct H as (_ & _ & H).
  rewrite H by (unfold row; rewrite map_length, seq_length; exact Hj).
  unfold row. rewrite nth_indep with (d' := row_byte g i 0) by (rewrite map_length, seq_length; exact Hj).
  rewrite map_nth, seq_nth by exact Hj. reflexivity.
Qed.

Lemma eb_self a : eb g a a = false.
Proof. unfold eb. destruct (grun_queries ps h g G a a) as (_ & _ & Q). destruct (Q eq_refl) as [-> _]. reflexivity. Qed.

Lemma load_ops_iff o : In o (load_ops m vs X off) <->
  exists i k, (k < i < n)%nat /\ eb g (vnth vs i) (vnth vs k) = true /\
    o = GAdd (vnth vs i) (vnth vs k) (existsb (Z.eqb (edge_number i k)) X).
Proof.
  assert (B : forall i j l, (i < n)%nat -> (j < Z.to_nat (ceil_div (Z.of_nat i) 8))%nat -> (l < 8)%nat ->
    Z.testbit (f_byte m (row_offset off i + Z.of_nat j)) (Z.of_nat l) =
    (j * 8 + l <=? i)%nat && eb g (vnth vs i) (vnth vs (j * 8 + l))).
  { intros i j l Hi Hj Hl. rewrite row_at by assumption. unfold row_byte, vert. rewrite bits_testbit, gv. f_equal.
    apply eq_true_iff_eq. rewrite Nat.ltb_lt, Nat.leb_le. lia. }
  unfold load_ops. split.
  - intros H. apply in_flat_map in H. destruct H as (i & Hi & H). apply in_seq in Hi. fold n in Hi.
    apply in_flat_map in H. destruct H as (j & Hj & H). apply in_seq in Hj.
    apply in_flat_map in H. destruct H as (l & Hl & H). apply in_seq in Hl.
    destruct (Z.testbit _ _) eqn:T; [|contradiction]. destruct H as [<-|[]].
    rewrite B in T by lia. apply andb_prop in T. destruct T as [T1 T2]. apply Nat.leb_le in T1.
    exists i, (j * 8 + l)%nat. split; [|auto].
    assert (j * 8 + l <> i)%nat by (intros E; rewrite E, eb_self in T2; discriminate). lia.
  - intros (i & k & H & E & ->). apply in_flat_map. exists i. split; [apply in_seq; fold n; lia|].
    assert (D : k = (k / 8 * 8 + k mod 8)%nat) by (pose proof (Nat.div_mod k 8 ltac:(lia)); lia).
    pose proof (Nat.mod_upper_bound k 8 ltac:(lia)) as Dm.
    assert (Hj : (k / 8 < Z.to_nat (ceil_div (Z.of_nat i) 8))%nat).
    { pose proof (ceil_spec (Z.of_nat i) ltac:(lia)). lia. }
    apply in_flat_map. exists (k / 8)%nat. split; [apply in_seq; lia|].
    apply in_flat_map. exists (k mod 8)%nat. split.
    + apply in_seq. fold n. lia.
    + rewrite B by lia. rewrite <- D, (proj2 (Nat.leb_le k i)) by lia. rewrite E. left. reflexivity.
Qed.

Lemma load_ops_adds : Forall is_add (load_ops m vs X off).
Proof. apply Forall_forall. intros o H. apply load_ops_iff in H. destruct H as (i & k & _ & _ & ->). exact I. Qed.

Lemma eb_sym a b : eb g a b = eb g b a.
Proof.
  unfold eb. destruct (grun_queries ps h g G a b) as (Q1 & Q2 & Q3). destruct (grun_queries ps h g G b a) as (R1 & R2 & R3).
  destruct (coord_dec a b) as [->|N]; [reflexivity|].
  destruct (in_dec coord_dec a vs) as [A|A]; [destruct (in_dec coord_dec b vs) as [B|B]|].
  - rewrite (proj1 (Q1 N A B)), (proj1 (R1 (not_eq_sym N) B A)). unfold spec_connected. rewrite (spec_view_sym a b h U). reflexivity.
  - rewrite (proj1 (Q2 N (or_intror B))), (proj1 (R2 (not_eq_sym N) (or_introl B))). reflexivity.
  - rewrite (proj1 (Q2 N (or_introl A))), (proj1 (R2 (not_eq_sym N) (or_intror A))). reflexivity.
Qed.
Lemma cb_sym a b : cb g a b = cb g b a.
Proof.
  unfold cb. destruct (grun_queries ps h g G a b) as (Q1 & Q2 & Q3). destruct (grun_queries ps h g G b a) as (R1 & R2 & R3).
  destruct (coord_dec a b) as [->|N]; [reflexivity|].
  destruct (in_dec coord_dec a vs) as [A|A]; [destruct (in_dec coord_dec b vs) as [B|B]|].
  - rewrite (proj2 (Q1 N A B)), (proj2 (R1 (not_eq_sym N) B A)). unfold spec_crossing. rewrite (spec_view_sym a b h U). reflexivity.
  - rewrite (proj2 (Q2 N (or_intror B))), (proj2 (R2 (not_eq_sym N) (or_introl B))). reflexivity.
  - rewrite (proj2 (Q2 N (or_introl A))), (proj2 (R2 (not_eq_sym N) (or_intror A))). reflexivity.
Qed.
Lemma cb_eb a b : cb g a b = true -> eb g a b = true.
Proof.
  unfold eb, cb. destruct (grun_queries ps h g G a b) as (Q1 & Q2 & Q3).
  destruct (coord_dec a b) as [E|N]; [destruct (Q3 E) as [-> ->]; discriminate|].
  destruct (in_dec coord_dec a vs) as [A|A]; [destruct (in_dec coord_dec b vs) as [B|B]|].
  - rewrite (proj1 (Q1 N A B)), (proj2 (Q1 N A B)). unfold spec_connected, spec_crossing. destruct (spec_view a b h); auto.
  - rewrite (proj2 (Q2 N (or_intror B))). discriminate.
  - rewrite (proj2 (Q2 N (or_introl A))). discriminate.
Qed.

Lemma index_of a : In a vs -> exists i, (i < n)%nat /\ vnth vs i = a.
Proof. intros H. apply (In_nth vs a origin) in H. destruct H as (i & L & E). exists i. split; [exact L|exact E]. Qed.

Lemma ops_event a b : a <> b -> In a vs -> In b vs ->
  forall f, (exists o, In o (load_ops m vs X off) /\ event_of a b o = Some (Some f)) <->
    exists i k, (k < i < n)%nat /\ ((vnth vs i = a /\ vnth vs k = b) \/ (vnth vs i = b /\ vnth vs k = a)) /\
       eb g a b = true /\ f = existsb (Z.eqb (edge_number i k)) X.
Proof.
  intros N A B f. split.
  - intros (o & Ho & E). apply load_ops_iff in Ho. destruct Ho as (i & k & L & Ee & ->). cbn [event_of] in E.
    destruct (same a b (vnth vs i) (vnth vs k) || same a b (vnth vs k) (vnth vs i)) eqn:S; [|discriminate].
    inversion E; subst f. exists i, k. split; [exact L|]. apply orb_prop in S. rewrite !same_spec in S.
    destruct S as [[-> ->]|[-> ->]]; [auto|]. split; [auto|]. rewrite eb_sym. auto.
  - intros (i & k & L & C & Ee & ->). exists (GAdd (vnth vs i) (vnth vs k) (existsb (Z.eqb (edge_number i k)) X)). split.
    + apply load_ops_iff. exists i, k. split; [exact L|]. split; [|reflexivity].
      destruct C as [[-> ->]|[-> ->]]; [exact Ee|rewrite eb_sym; exact Ee].
    + cbn [event_of]. replace (same a b (vnth vs i) (vnth vs k) || same a b (vnth vs k) (vnth vs i)) with true; [reflexivity|].
      symmetry. apply orb_true_intro. rewrite !same_spec. destruct C as [[-> ->]|[-> ->]]; auto.
Qed.

Lemma ops_connected a b : a <> b -> In a vs -> In b vs -> spec_connected a b (load_ops m vs X off) = eb g a b.
Proof.
  intros N A B. apply eq_true_iff_eq. rewrite (adds_connected a b _ load_ops_adds). split.
  - intros (o & f & Ho & E). destruct (proj1 (ops_event a b N A B f)) as (_ & _ & _ & _ & Ee & _); eauto.
  - intros Ee. destruct (index_of a A) as (i & Li & Ei). destruct (index_of b B) as (k & Lk & Ek).
    destruct (Nat.lt_trichotomy i k) as [L|[L|L]]; [|congruence|].
    + destruct (proj2 (ops_event a b N A B (existsb (Z.eqb (edge_number k i)) X))) as (o & Ho & Eo); [exists k, i; split; [split; assumption|]; split; [right; split; assumption|]; split; [assumption|reflexivity]|eauto].
    + destruct (proj2 (ops_event a b N A B (existsb (Z.eqb (edge_number i k)) X))) as (o & Ho & Eo); [exists i, k; split; [split; assumption|]; split; [left; split; assumption|]; split; [assumption|reflexivity]|eauto].
Qed.

Variable g' : graph.
Hypothesis G' : grun (make_graph ps) (load_ops m vs X off) = Ok g'.

Lemma loaded_has_edge a b : has_edge g' a b = has_edge g a b.
Proof.
  destruct (grun_queries ps h g G a b) as (Q1 & Q2 & Q3). destruct (grun_queries ps _ g' G' a b) as (R1 & R2 & R3).
  destruct (coord_dec a b) as [E|N]; [rewrite (proj1 (Q3 E)), (proj1 (R3 E)); reflexivity|].
  destruct (in_dec coord_dec a vs) as [A|A]; [destruct (in_dec coord_dec b vs) as [B|B]|].
  - rewrite (proj1 (R1 N A B)), ops_connected by assumption. unfold eb. rewrite (proj1 (Q1 N A B)). reflexivity.
  - rewrite (proj1 (Q2 N (or_intror B))), (proj1 (R2 N (or_intror B))). reflexivity.
  - rewrite (proj1 (Q2 N (or_introl A))), (proj1 (R2 N (or_introl A))). reflexivity.
Qed.

Lemma loaded_neighbors v : get_neighbors g' v = get_neighbors g v.
Proof. apply (same_edges_neighbors ps _ h g' g G' G loaded_has_edge). Qed.

Lemma loaded_crossing_mono : (forall i k, (k < i < n)%nat -> cb g (vnth vs i) (vnth vs k) = true -> In (edge_number i k) X) ->
  forall a b, is_edge_meridian_crossing g a b = Ok true -> is_edge_meridian_crossing g' a b = Ok true.
Proof.
  intros HX a b C. destruct (grun_queries ps h g G a b) as (Q1 & Q2 & Q3). destruct (grun_queries ps _ g' G' a b) as (R1 & R2 & R3).
  destruct (coord_dec a b) as [E|N]; [rewrite (proj2 (Q3 E)) in C; discriminate|].
  destruct (in_dec coord_dec a vs) as [A|A]; [destruct (in_dec coord_dec b vs) as [B|B]|].
  - rewrite (proj2 (R1 N A B)). f_equal. apply adds_crossing; [apply load_ops_adds|].
    assert (Cb : cb g a b = true) by (unfold cb; rewrite C; reflexivity).
    split; [rewrite ops_connected by assumption; apply cb_eb; exact Cb|].
    intros o f Ho Eo. destruct (proj1 (ops_event a b N A B f)) as (i & k & L & Hc & _ & ->); [eauto|].
    apply existsb_exists. exists (edge_number i k). split; [|apply Z.eqb_refl]. apply HX; [exact L|].
    destruct Hc as [[-> ->]|[-> ->]]; [exact Cb|rewrite cb_sym; exact Cb].
  - rewrite (proj2 (Q2 N (or_intror B))) in C. discriminate.
  - rewrite (proj2 (Q2 N (or_introl A))) in C. discriminate.
Qed.

Lemma loaded_crossing : (forall i k, (k < i < n)%nat -> (In (edge_number i k) X <-> cb g (vnth vs i) (vnth vs k) = true)) ->
  forall a b, is_edge_meridian_crossing g' a b = is_edge_meridian_crossing g a b.
Proof.
  intros HX a b. destruct (grun_queries ps h g G a b) as (Q1 & Q2 & Q3). destruct (grun_queries ps _ g' G' a b) as (R1 & R2 & R3).
  destruct (coord_dec a b) as [E|N]; [rewrite (proj2 (Q3 E)), (proj2 (R3 E)); reflexivity|].
  destruct (in_dec coord_dec a vs) as [A|A]; [destruct (in_dec coord_dec b vs) as [B|B]|].
  - destruct (spec_crossing a b h) eqn:C.
    + rewrite (proj2 (Q1 N A B)). apply loaded_crossing_mono; [intros i k L Hc; apply HX; assumption|].
      rewrite (proj2 (Q1 N A B)). reflexivity.
    + rewrite (proj2 (Q1 N A B)), (proj2 (R1 N A B)). f_equal. apply not_true_is_false. intros T.
      apply adds_crossing in T; [|apply load_ops_adds]. destruct T as [T1 T2].
      apply adds_connected in T1; [|apply load_ops_adds]. destruct T1 as (o & f & Ho & Eo). pose proof (T2 o f Ho Eo). subst f.
      destruct (proj1 (ops_event a b N A B true)) as (i & k & L & Hc & _ & Ex); [eauto|].
      symmetry in Ex. apply existsb_exists in Ex. destruct Ex as (x & Hx & Ex). apply Z.eqb_eq in Ex. subst x.
      apply HX in Hx; [|exact L].
      assert (Cb : cb g a b = true) by (destruct Hc as [[<- <-]|[<- <-]]; [exact Hx|rewrite cb_sym; exact Hx]).
      unfold cb in Cb. rewrite (proj2 (Q1 N A B)) in Cb. discriminate.
  - rewrite (proj2 (Q2 N (or_intror B))), (proj2 (R2 N (or_intror B))). reflexivity.
  - rewrite (proj2 (Q2 N (or_introl A))), (proj2 (R2 N (or_introl A))). reflexivity.
Qed.
End Loaded.

(** ** Edge numbers *)
Lemma tri_step i : (Z.of_nat (S i) * Z.of_nat (S i) + Z.of_nat (S i)) / 2 = (Z.of_nat i * Z.of_nat i + Z.of_nat i) / 2 + Z.of_nat (S i).
Proof.
  replace (Z.of_nat (S i) * Z.of_nat (S i) + Z.of_nat (S i)) with (Z.of_nat i * Z.of_nat i + Z.of_nat i + Z.of_nat (S i) * 2) by lia.
  apply Z.div_add. lia.
Qed.
Lemma tri_mono i j : (i <= j)%nat -> (Z.of_nat i * Z.of_nat i + Z.of_nat i) / 2 <= (Z.of_nat j * Z.of_nat j + Z.of_nat j) / 2.
Proof. intros L. apply Z.div_le_mono; [lia|nia]. Qed.
Lemma edge_number_inj i k i' k' : (k < i)%nat -> (k' < i')%nat -> edge_number i k = edge_number i' k' -> i = i' /\ k = k'.
Proof.
  intros L L' E. unfold edge_number in E.
  destruct (Nat.lt_trichotomy i i') as [H|[H|H]].
  - pose proof (tri_mono (S i) i' H) as M. rewrite tri_step in M. lia.
  - subst. lia.
  - pose proof (tri_mono (S i') i H) as M. rewrite tri_step in M. lia.
Qed.
Lemma edge_number_pos i k : (k < i)%nat -> 0 < edge_number i k.
Proof. intros L. unfold edge_number. pose proof (tri_mono 1 i ltac:(lia)) as M. change ((Z.of_nat 1 * Z.of_nat 1 + Z.of_nat 1) / 2) with 1 in M. lia. Qed.
Lemma row_offset_quadratic n : Z.of_nat n * (Z.of_nat n - 1) <= 16 * row_offset 0 n.
Proof.
  induction n as [|n IH]; [cbn; lia|]. cbn [row_offset]. pose proof (ceil_spec (Z.of_nat n) ltac:(lia)). nia.
Qed.
Lemma edge_number_bound i k n : (k < i < n)%nat -> edge_number i k <= 16 * row_offset 0 n.
Proof.
  intros L. pose proof (row_offset_quadratic n) as Q. unfold edge_number.
  assert (H : (Z.of_nat i * Z.of_nat i + Z.of_nat i) / 2 <= (Z.of_nat n * (Z.of_nat n - 1)) / 2) by (apply Z.div_le_mono; [lia|nia]).
  pose proof (Z.div_mod (Z.of_nat n * (Z.of_nat n - 1)) 2 ltac:(lia)) as D.
  pose proof (Z.mod_pos_bound (Z.of_nat n * (Z.of_nat n - 1)) 2 ltac:(lia)) as Dm.
  set (N := Z.of_nat n * (Z.of_nat n - 1)) in *.
  assert (2 * Z.of_nat k + 2 <= N) by (unfold N; nia). lia.
Qed.
