(** Facts about the boundary segments of polygons and their periodic copies. *)
From Coq Require Import ZArith Bool List Lia Permutation.
From Verif Require Import Base F64 Coordinate Segment Polygon Periodicity PeriodicityFacts CoordinateFacts SpecGeom
  Graph GraphFacts PolygonFacts PolygonMore Sweep SweepFacts SweepMaps SweepGeo.
Import ListNotations.
Local Open Scope Z_scope.

Lemma NoDup_app_remove_r {A} (l l' : list A) : NoDup (l ++ l') -> NoDup l.
Proof.
  induction l as [|x l IH]; intros N; [constructor|]. cbn [app] in N. inversion N; subst. constructor; [|auto].
  intros X. apply H1, in_or_app. auto.
Qed.
Lemma NoDup_app_remove_l {A} (l l' : list A) : NoDup (l ++ l') -> NoDup l'.
Proof. induction l as [|x l IH]; intros N; [exact N|]. cbn [app] in N. inversion N; auto. Qed.

(** ** The segments of one polygon *)
Lemma segments_length p : length (get_line_segments p) = length (verts p).
Proof. unfold get_line_segments. cbv zeta. rewrite map_length, seq_length. reflexivity. Qed.

Lemma segment_at p i : (i < length (verts p))%nat ->
  nth_error (get_line_segments p) i = Some (mkS (vat (verts p) i) (ring_next (verts p) i)).
Proof.
  intros I. unfold get_line_segments. cbv zeta. rewrite nth_error_map.
  rewrite (nth_error_nth' _ 0%nat) by (rewrite seq_length; exact I).
  rewrite seq_nth by exact I. reflexivity.
Qed.

Lemma segments_edge p s : In s (get_line_segments p) <-> edge_of p s.
Proof.
  unfold get_line_segments, edge_of. cbv zeta. rewrite in_map_iff. split.
  - intros (i & <- & I). apply in_seq in I. exists i. split; [lia|reflexivity].
  - intros (i & I & ->). exists i. split; [reflexivity|]. apply in_seq. lia.
Qed.

Definition zsum (l : list Z) : Z := fold_right Z.add 0 l.
Lemma path_sum (g : nat -> coord) n : forall s,
  path_area (map g (seq s (S n))) = zsum (map (fun i => lon (g i) * lat (g (S i)) - lat (g i) * lon (g (S i))) (seq s n)).
Proof.
  induction n as [|n IH]; intros s; [reflexivity|].
  change (seq s (S (S n))) with (s :: S s :: seq (S (S s)) n). change (seq s (S n)) with (s :: seq (S s) n).
  cbn [map path_area zsum fold_right]. f_equal. exact (IH (S s)).
Qed.

Lemma segments_area p :
  zsum (map (fun s => lon (e1 s) * lat (e2 s) - lat (e1 s) * lon (e2 s)) (get_line_segments p)) = ring_area (verts p).
Proof.
  unfold get_line_segments. cbv zeta. rewrite map_map. cbn [e1 e2]. destruct p as [vs]. cbn [verts].
  destruct vs as [|h t]; [reflexivity|]. change (ring_area (h :: t)) with (path_area ((h :: t) ++ [h])).
  set (vs := h :: t) in *. set (g := fun i => vat vs (i mod length vs)).
  replace (vs ++ [h]) with (map g (seq 0 (S (length vs)))).
  - rewrite path_sum. f_equal. apply map_ext_in. intros i I. apply in_seq in I. unfold g.
    rewrite (Nat.mod_small i) by lia. replace (S i) with (i + 1)%nat by lia. reflexivity.
  - rewrite seq_S, map_app. cbn [map]. f_equal.
    + rewrite <- (map_vat vs) at 2. apply map_ext_in. intros i I. apply in_seq in I. unfold g. rewrite Nat.mod_small by lia. reflexivity.
    + unfold g. rewrite Nat.mod_same by (unfold vs; cbn [length]; lia). reflexivity.
Qed.

Lemma built_segments vs p s : Forall pgeo vs -> no_repeats vs -> make_polygon vs = Ok p -> In s (get_line_segments p) -> e1 s <> e2 s.
Proof.
  intros F N E I. destruct (construction_no_straight vs p F N E) as (A & _ & _).
  apply segments_edge in I. destruct I as (i & I & ->). cbn [e1 e2]. intros Q. apply (A i I).
  exists 1, 1. cbn [e1 e2]. rewrite Q. lia.
Qed.

(** ** The map of the sweep *)
Lemma put_fresh m c ss : ~ In c (map fst m) -> vm_put m c ss = m ++ [(c, ss)].
Proof.
  induction m as [|[c' ss'] m IH]; intros H; [reflexivity|]. cbn [vm_put app map fst In] in *.
  destruct (coord_eqb c' c) eqn:E; [apply coord_eqb_spec in E; tauto|]. rewrite IH by tauto. reflexivity.
Qed.

Lemma add_entries (es : list (coord * list segment)) : forall m, NoDup (map fst m ++ map fst es) ->
  fold_left (fun m e => vm_put m (fst e) (snd e)) es m = m ++ es.
Proof.
  induction es as [|[c ss] es IH]; intros m N; cbn [fold_left map fst snd] in *; [rewrite app_nil_r; reflexivity|].
  rewrite put_fresh.
  - rewrite IH; [rewrite <- app_assoc; reflexivity|]. rewrite map_app, <- app_assoc. exact N.
  - intros X. apply NoDup_remove_2 in N. apply N, in_or_app. left. exact X.
Qed.

Definition corners (p : polygon) : vmap := map (incident (verts p)) (seq 0 (length (verts p))).
Lemma corners_keys p : map fst (corners p) = verts p.
Proof. unfold corners. rewrite map_map. transitivity (map (vat (verts p)) (seq 0 (length (verts p)))); [|apply map_vat]. apply map_ext. reflexivity. Qed.

Lemma incident_map_corners ps : NoDup (polygon_vertices ps) -> incident_map ps = flat_map corners ps.
Proof.
  intros N. unfold polygon_vertices in N. rewrite <- flat_map_concat_map in N.
  assert (K : forall l m, NoDup (map fst m ++ flat_map verts l) -> fold_left add_polygon l m = m ++ flat_map corners l).
  { induction l as [|p l IH]; intros m D; cbn [fold_left flat_map] in *; [rewrite app_nil_r; reflexivity|].
    assert (A : add_polygon m p = m ++ corners p).
    { unfold add_polygon.
      assert (G : forall ks m, fold_left (fun m i => let e := incident (verts p) i in vm_put m (fst e) (snd e)) ks m =
                 fold_left (fun m e => vm_put m (fst e) (snd e)) (map (incident (verts p)) ks) m).
      { induction ks as [|k ks IHk]; intros m'; [reflexivity|]. apply IHk. }
      rewrite G. apply add_entries. fold (corners p). rewrite corners_keys.
      rewrite app_assoc in D. apply NoDup_app_remove_r in D. exact D. }
    rewrite A, IH; [rewrite <- app_assoc; reflexivity|]. rewrite map_app, corners_keys, <- app_assoc. exact D. }
  apply (K ps []). exact N.
Qed.

Lemma pairs_perm {A B} (f g : A -> B) l : Permutation (flat_map (fun x => [f x; g x]) l) (map f l ++ map g l).
Proof.
  induction l as [|x l IH]; [constructor|]. cbn [flat_map map app]. constructor.
  apply Permutation_cons_app, IH.
Qed.

Lemma corner_segments p : Permutation (flat_map snd (corners p)) (get_line_segments p ++ get_line_segments p).
Proof.
  unfold corners. rewrite flat_map_concat_map, map_map, <- flat_map_concat_map.
  set (n := length (verts p)). set (g := fun i => mkS (vat (verts p) i) (ring_next (verts p) i)).
  set (f := fun i => mkS (ring_prev (verts p) i) (vat (verts p) i)).
  change (fun x => snd (incident (verts p) x)) with (fun i => [f i; g i]).
  rewrite (pairs_perm f g).
  change (get_line_segments p) with (map g (seq 0 n)). apply Permutation_app_tail.
  assert (F : forall i, (i < n)%nat -> f i = g ((i + n - 1) mod n)%nat).
  { intros i I. unfold f, g. f_equal. fold n. unfold ring_next. f_equal. destruct i as [|i].
    - rewrite (Nat.mod_small (0 + n - 1)) by lia. fold n. replace (0 + n - 1 + 1)%nat with n by lia. rewrite Nat.mod_same by lia. reflexivity.
    - replace (S i + n - 1)%nat with (i + 1 * n)%nat by lia. rewrite Nat.mod_add by lia. fold n. rewrite (Nat.mod_small i), Nat.mod_small by lia. lia. }
  destruct n as [|k] eqn:En; [constructor|].
  rewrite (seq_S k 0) at 2. rewrite map_app. cbn [map]. rewrite Permutation_app_comm. cbn [app].
  change (seq 0 (S k)) with (0%nat :: seq 1 k). cbn [map].
  rewrite F by lia. replace ((0 + S k - 1) mod S k)%nat with k by (rewrite Nat.mod_small; lia). cbn [Nat.add]. constructor.
  rewrite <- seq_shift, map_map.
  rewrite (map_ext_in (fun x => f (S x)) g); [reflexivity|].
  intros i I. apply in_seq in I. rewrite F by lia. f_equal.
  replace (S i + S k - 1)%nat with (i + 1 * S k)%nat by lia. rewrite Nat.mod_add by lia. apply Nat.mod_small. lia.
Qed.

Lemma sweep_segments ps : NoDup (polygon_vertices ps) ->
  Permutation (flat_map snd (incident_map ps)) (flat_map get_line_segments ps ++ flat_map get_line_segments ps).
Proof.
  intros N. rewrite incident_map_corners by exact N. clear N.
  induction ps as [|p ps IH]; [constructor|]. cbn [flat_map]. rewrite flat_map_app, IH, corner_segments.
  rewrite <- !app_assoc. apply Permutation_app_head. rewrite !app_assoc. apply Permutation_app_tail. apply Permutation_app_comm.
Qed.

Lemma polygon_edge_segments ps s : polygon_edge ps s <-> In s (flat_map get_line_segments ps).
Proof.
  rewrite in_flat_map. split.
  - intros (p & i & P & I & ->). exists p. split; [exact P|]. apply segments_edge. exists i. auto.
  - intros (p & P & I). apply segments_edge in I. destruct I as (i & I & ->). exists p, i. auto.
Qed.

Lemma vertices_NoDup_in ps p : NoDup (polygon_vertices ps) -> In p ps -> NoDup (verts p).
Proof.
  unfold polygon_vertices. rewrite <- flat_map_concat_map. induction ps as [|q ps IH]; intros N []; cbn [flat_map] in N.
  - subst. apply NoDup_app_remove_r in N. exact N.
  - apply IH; [|assumption]. apply NoDup_app_remove_l in N. exact N.
Qed.

Lemma vertex_home ps p q c : NoDup (polygon_vertices ps) -> In p ps -> In q ps -> In c (verts p) -> In c (verts q) -> p = q.
Proof.
  unfold polygon_vertices. rewrite <- flat_map_concat_map. induction ps as [|r ps IH]; intros N [] [] C D; cbn [flat_map] in N; try congruence.
  - subst. exfalso. assert (X : In c (flat_map verts ps)) by (apply in_flat_map; eauto).
    clear - N C X. induction (verts p) as [|y l IHl]; [destruct C|]. cbn [app] in N. inversion N; subst. destruct C as [->|C]; [apply H1, in_or_app; auto|auto].
  - subst. exfalso. assert (X : In c (flat_map verts ps)) by (apply in_flat_map; eauto).
    clear - N D X. induction (verts q) as [|y l IHl]; [destruct D|]. cbn [app] in N. inversion N; subst. destruct D as [->|D]; [apply H1, in_or_app; auto|auto].
  - apply NoDup_app_remove_l in N. apply IH; assumption.
Qed.

Lemma map_entries ps c ss : NoDup (polygon_vertices ps) -> vm_find (incident_map ps) c = Some ss ->
  forall s, In s ss <-> In s (flat_map get_line_segments ps) /\ (e1 s = c \/ e2 s = c).
Proof.
  intros N F. destruct (incident_map_good ps) as [[_ H] _]. destruct (H c ss F) as (pr & nx & C & ->).
  destruct (corner_edges ps pr c nx C) as [H1 H2]. intros s. rewrite <- polygon_edge_segments. split.
  - intros [<-|[<-|[]]]; split; auto.
  - intros (Q & T). destruct C as (P & i & HP & I & -> & EC & ->).
    destruct Q as (R & j & HR & J & ->). cbn [e1 e2] in T.
    assert (INj : In (vat (verts R) j) (verts R)) by (apply nth_In, J).
    assert (INn : In (ring_next (verts R) j) (verts R)) by (apply nth_In, Nat.mod_upper_bound; lia).
    assert (INc : In c (verts P)) by (rewrite EC; apply nth_In, I).
    assert (E : R = P) by (apply (vertex_home ps R P c N HR HP); [destruct T as [<-|<-]; assumption|exact INc]).
    subst R. pose proof (vertices_NoDup_in ps P N HP) as ND.
    destruct T as [T|T].
    + assert (j = i) by (apply (ring_edge_inj P); auto; congruence). subst j. right. left. rewrite EC. reflexivity.
    + left. destruct (ring_prev_edge (verts P) i I) as (k & K & A & B).
      assert (X : mkS (vat (verts P) k) (ring_next (verts P) k) = mkS (vat (verts P) j) (ring_next (verts P) j)).
      { apply (edge_second P); [exact ND|exists k; auto|exists j; auto|]. cbn [e2]. congruence. }
      rewrite <- X, A, B, EC. reflexivity.
Qed.

(** ** Periodic copies of coordinates and segments *)
Definition copies (c : coord) : list coord := [c; shift PolygonMore.east c; shift west c].
Definition shift_seg (d : coord) (s : segment) : segment := mkS (shift d (e1 s)) (shift d (e2 s)).
Definition seg_copies (s : segment) : list segment := [s; shift_seg PolygonMore.east s; shift_seg west s].

(** the longitudes whose copies fit 32 bits *)
Definition copyable (c : coord) : Prop := INT32_MIN + 360000001 <= lon c <= INT32_MAX - 360000001.

Lemma periodic_copies c : copyable c -> periodic_coordinates c = Ok (copies c).
Proof.
  intros H. unfold periodic_coordinates, copyable in *. rewrite !i32_ok by (consts; lia). unfold bind, copies, shift, PolygonMore.east, west. consts.
  cbn [lon lat]. rewrite !Z.add_0_r. reflexivity.
Qed.
Lemma periodic_fails c : ~ copyable c -> periodic_coordinates c = UB SignedOverflow.
Proof.
  intros H. unfold periodic_coordinates, copyable, i32, in_i32 in *. consts.
  destruct (_ && _) eqn:A; cbn [bind]; [|reflexivity]. destruct (_ && _) eqn:B in |- *; cbn [bind]; [|reflexivity].
  exfalso. apply H. apply andb_prop in A, B. destruct A as [A1 A2], B as [B1 B2]. apply Z.leb_le in A1, A2, B1, B2. lia.
Qed.
Lemma copyable_dec c : {copyable c} + {~ copyable c}.
Proof. unfold copyable. destruct (Z_le_dec (INT32_MIN + 360000001) (lon c)), (Z_le_dec (lon c) (INT32_MAX - 360000001)); [left; lia|right; lia..]. Qed.

Lemma coordinates_periodic cs : Forall copyable cs -> make_coordinates_periodic cs = Ok (flat_map copies cs).
Proof.
  intros F. unfold make_coordinates_periodic. rewrite (mapM_map_ok periodic_coordinates copies).
  - rewrite flat_map_concat_map. reflexivity.
  - intros c C. apply periodic_copies. rewrite Forall_forall in F. apply F, C.
Qed.

Lemma mapM_fails {A B} (f : A -> res B) u l : (forall x, In x l -> (exists y, f x = Ok y) \/ f x = UB u) ->
  (exists x, In x l /\ f x = UB u) -> mapM f l = UB u.
Proof.
  induction l as [|x l IH]; intros H (y & Y & E); [destruct Y|]. cbn [mapM].
  destruct (H x (or_introl eq_refl)) as [(z & Z)|Z]; rewrite Z; [|reflexivity]. cbn [bind].
  rewrite IH; [reflexivity|intros w W; apply H; right; exact W|]. destruct Y as [<-|Y]; [congruence|eauto].
Qed.

Lemma coordinates_fail cs c : In c cs -> ~ copyable c -> make_coordinates_periodic cs = UB SignedOverflow.
Proof.
  intros I N. unfold make_coordinates_periodic. rewrite (mapM_fails periodic_coordinates SignedOverflow); [reflexivity| |].
  - intros x _. destruct (copyable_dec x); [left; eexists; apply periodic_copies; assumption|right; apply periodic_fails; assumption].
  - exists c. split; [exact I|]. apply periodic_fails, N.
Qed.

Definition one_seg (s : segment) : res (list segment) :=
  p1 <- periodic_coordinates (e1 s) ;; p2 <- periodic_coordinates (e2 s) ;;
  Ok (map (fun i => mkS (nth i p1 origin) (nth i p2 origin)) (seq 0 3)).
Lemma one_seg_ok s : copyable (e1 s) -> copyable (e2 s) -> one_seg s = Ok (seg_copies s).
Proof. intros A B. unfold one_seg. rewrite !periodic_copies by assumption. destruct s. reflexivity. Qed.

Lemma segments_periodic ss : Forall (fun s => copyable (e1 s) /\ copyable (e2 s)) ss -> make_segments_periodic ss = Ok (flat_map seg_copies ss).
Proof.
  intros F. unfold make_segments_periodic. rewrite (mapM_map_ok _ seg_copies).
  - rewrite flat_map_concat_map. reflexivity.
  - intros s S. rewrite Forall_forall in F. destruct (F s S). apply one_seg_ok; assumption.
Qed.

Lemma segments_fail ss s : In s ss -> ~ (copyable (e1 s) /\ copyable (e2 s)) -> make_segments_periodic ss = UB SignedOverflow.
Proof.
  intros I N. unfold make_segments_periodic.
  change (mapM _ ss) with (mapM one_seg ss).
  assert (K : forall x, ~ (copyable (e1 x) /\ copyable (e2 x)) -> one_seg x = UB SignedOverflow).
  { intros x X. unfold one_seg. destruct (copyable_dec (e1 x)); [rewrite periodic_copies by assumption|rewrite periodic_fails by assumption; reflexivity].
    cbn [bind]. rewrite periodic_fails by tauto. reflexivity. }
  rewrite (mapM_fails one_seg SignedOverflow); [reflexivity| |].
  - intros x _. destruct (copyable_dec (e1 x)), (copyable_dec (e2 x)); [left; eexists; apply one_seg_ok; assumption|right; apply K; tauto..].
  - exists s. split; [exact I|]. apply K, N.
Qed.

Lemma shifted_segments d p : get_line_segments (mkP (map (shift d) (verts p))) = map (shift_seg d) (get_line_segments p).
Proof.
  unfold get_line_segments. cbv zeta. cbn [verts]. rewrite map_length, map_map. apply map_ext_in. intros i I. apply in_seq in I.
  assert (K : forall j, (j < length (verts p))%nat -> vnth (map (shift d) (verts p)) j = shift d (vnth (verts p) j)).
  { intros j J. unfold vnth. rewrite nth_indep with (d' := shift d origin) by (rewrite map_length; exact J). apply map_nth. }
  unfold shift_seg. cbn [e1 e2]. rewrite !K; [reflexivity| |lia]. apply Nat.mod_upper_bound. lia.
Qed.

Lemma triple_perm {A B} (f g h : A -> B) l : Permutation (flat_map (fun x => [f x; g x; h x]) l) (map f l ++ map g l ++ map h l).
Proof.
  induction l as [|x l IH]; [constructor|]. cbn [flat_map map app]. constructor.
  rewrite IH. rewrite <- Permutation_middle. constructor. rewrite !app_assoc. apply Permutation_middle.
Qed.

Lemma ngeo_copyable c : ngeo c -> copyable c.
Proof. unfold ngeo, copyable. consts. lia. Qed.

Lemma boundary_of_copies ps : Forall clear_polygon ps ->
  exists pps ss, make_polygons_periodic ps = Ok pps /\ make_segments_periodic (flat_map get_line_segments ps) = Ok ss /\
    Permutation ss (flat_map get_line_segments pps).
Proof.
  intros F. exists (concat (map translates ps)), (flat_map seg_copies (flat_map get_line_segments ps)).
  split; [apply periodic_polygons_ok, F|]. split.
  - apply segments_periodic, Forall_forall. intros s S. apply in_flat_map in S. destruct S as (p & P & S). rewrite Forall_forall in F.
    destruct (clear_polygon_facts p (F p P)) as (G & _). rewrite Forall_forall in G. apply segments_edge, edge_verts in S. destruct S as [S1 S2].
    split; apply ngeo_copyable, G; assumption.
  - clear F. induction ps as [|p ps IH]; [constructor|]. cbn [flat_map map concat]. rewrite !flat_map_app, IH. apply Permutation_app_tail.
    unfold translates. cbn [flat_map]. rewrite app_nil_r, !shifted_segments. rewrite <- (map_id (get_line_segments p)) at 2.
    apply (triple_perm (fun s => s) (shift_seg PolygonMore.east) (shift_seg west)).
Qed.
