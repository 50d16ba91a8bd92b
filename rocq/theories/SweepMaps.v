(** The vertex map of a polygon list and the sweeps over it. *)
From Coq Require Import ZArith Reals Bool List Lia Permutation.
From Verif Require Import Base F64 Coordinate Segment Polyline Polygon Periodicity Graph Visgraph SpecGeom SpecGraph F64Facts
  CoordinateFacts SegmentFacts PeriodicityFacts PolygonFacts PolygonMore PolylineFacts GraphFacts VisgraphFacts Sweep SweepFacts.
Import ListNotations.
Local Open Scope Z_scope.

Lemma find_put m c ss c' : vm_find (vm_put m c ss) c' = if coord_eqb c c' then Some ss else vm_find m c'.
Proof.
  induction m as [|[k v] m IH]; cbn [vm_put vm_find]; [reflexivity|].
  destruct (coord_eqb k c) eqn:E; cbn [vm_find].
  - apply coord_eqb_spec in E. subst k. destruct (coord_eqb c c'); reflexivity.
  - destruct (coord_eqb k c') eqn:E'; [|exact IH]. destruct (coord_eqb c c') eqn:F; [|reflexivity].
    apply coord_eqb_spec in E', F. subst. rewrite coord_eqb_refl in E. discriminate E.
Qed.
Lemma find_keys m c : vm_find m c <> None <-> In c (map fst m).
Proof.
  induction m as [|[k v] m IH]; cbn [vm_find map fst In]; [tauto|].
  destruct (coord_eqb k c) eqn:E.
  - apply coord_eqb_spec in E. subst. split; [auto|discriminate].
  - rewrite IH. apply coord_eqb_neq in E. tauto.
Qed.
Lemma put_keys m c ss : In c (map fst m) /\ map fst (vm_put m c ss) = map fst m \/
  ~ In c (map fst m) /\ map fst (vm_put m c ss) = map fst m ++ [c].
Proof.
  induction m as [|[k v] m IH]; cbn [vm_put map fst In app]; [right; auto|].
  destruct (coord_eqb k c) eqn:E.
  - apply coord_eqb_spec in E. subst. left. auto.
  - apply coord_eqb_neq in E. cbn [map fst]. destruct IH as [[I ->]|[I ->]]; [left; auto|right].
    split; [intros [X|X]; auto|reflexivity].
Qed.
Lemma put_nodup m c ss : NoDup (map fst m) -> NoDup (map fst (vm_put m c ss)).
Proof.
  intros H. destruct (put_keys m c ss) as [[_ ->]|[N ->]]; [exact H|].
  apply (Permutation_NoDup (Permutation_cons_append (map fst m) c)). constructor; assumption.
Qed.
Lemma find_in m c ss : vm_find m c = Some ss -> In (c, ss) m.
Proof.
  induction m as [|[k v] m IH]; cbn [vm_find In]; [discriminate|]. destruct (coord_eqb k c) eqn:E; [|auto].
  apply coord_eqb_spec in E. intros X. inversion X. subst. auto.
Qed.
Lemma in_find m c ss : NoDup (map fst m) -> In (c, ss) m -> vm_find m c = Some ss.
Proof.
  induction m as [|[k v] m IH]; cbn [vm_find In map fst]; [tauto|]. intros N I. inversion N as [|? ? Nk Nm]; subst.
  destruct I as [I|I].
  - inversion I; subst. rewrite coord_eqb_refl. reflexivity.
  - destruct (coord_eqb k c) eqn:E; [|auto]. apply coord_eqb_spec in E. subst. exfalso. apply Nk. apply in_map_iff. exists (c, ss). auto.
Qed.

Definition incident_entry (ps : list polygon) (c : coord) (ss : list segment) : Prop :=
  exists p n, corner_of ps p c n /\ ss = [mkS p c; mkS c n].

Lemma incident_facts p ps i : In p ps -> (i < length (verts p))%nat ->
  incident_entry ps (fst (incident (verts p) i)) (snd (incident (verts p) i)).
Proof.
  intros P I. exists (ring_prev (verts p) i), (ring_next (verts p) i). split; [|reflexivity].
  exists p, i. repeat (split; [assumption|]). auto.
Qed.

Definition good_map (ps : list polygon) (m : vmap) : Prop :=
  NoDup (map fst m) /\ forall c ss, vm_find m c = Some ss -> incident_entry ps c ss.

Lemma add_polygon_good ps p m : In p ps -> good_map ps m ->
  good_map ps (add_polygon m p) /\ (forall c, In c (map fst (add_polygon m p)) <-> In c (map fst m) \/ In c (verts p)).
Proof.
  intros P. unfold add_polygon.
  assert (K : forall l m, (forall i, In i l -> (i < length (verts p))%nat) -> good_map ps m ->
    good_map ps (fold_left (fun m i => let e := incident (verts p) i in vm_put m (fst e) (snd e)) l m) /\
    (forall c, In c (map fst (fold_left (fun m i => let e := incident (verts p) i in vm_put m (fst e) (snd e)) l m)) <->
       In c (map fst m) \/ In c (map (vat (verts p)) l))).
  { induction l as [|i l IH]; intros m0 L G; cbn [fold_left map]; [split; [exact G|intros c; cbn [In]; tauto]|].
    cbv zeta in *. set (e := incident (verts p) i) in *.
    assert (G' : good_map ps (vm_put m0 (fst e) (snd e))).
    { destruct G as [N F]. split; [apply put_nodup, N|]. intros c ss. rewrite find_put.
      destruct (coord_eqb (fst e) c) eqn:E; [|apply F]. apply coord_eqb_spec in E. intros X. inversion X; subst.
      apply incident_facts; [exact P|apply L; left; reflexivity]. }
    destruct (IH _ (fun j J => L j (or_intror J)) G') as [H1 H2]. split; [exact H1|].
    intros c. rewrite H2. change (fst e) with (vat (verts p) i). cbn [In].
    destruct (put_keys m0 (vat (verts p) i) (snd e)) as [[I ->]|[I ->]].
    - intuition (subst; auto).
    - rewrite in_app_iff. cbn [In]. tauto. }
  intros G. destruct (K (seq 0 (length (verts p))) m) as [H1 H2]; [intros i I; apply in_seq in I; lia|exact G|].
  split; [exact H1|]. intros c. rewrite H2.
  enough (E : In c (map (vat (verts p)) (seq 0 (length (verts p)))) <-> In c (verts p)) by tauto. unfold vat.
  split.
  - intros X. apply in_map_iff in X. destruct X as (i & <- & I). apply in_seq in I. apply nth_In. lia.
  - intros X. apply (In_nth _ _ (mkC 0 0)) in X. destruct X as (i & I & E). apply in_map_iff. exists i. split; [exact E|]. apply in_seq. lia.
Qed.

Lemma incident_map_good ps : good_map ps (incident_map ps) /\
  (forall c, In c (map fst (incident_map ps)) <-> In c (polygon_vertices ps)).
Proof.
  unfold incident_map, polygon_vertices. rewrite <- flat_map_concat_map.
  assert (K : forall l m, incl l ps -> good_map ps m ->
    good_map ps (fold_left add_polygon l m) /\
    (forall c, In c (map fst (fold_left add_polygon l m)) <-> In c (map fst m) \/ In c (flat_map verts l))).
  { induction l as [|p l IH]; intros m L G; cbn [fold_left flat_map]; [split; [exact G|intros c; cbn [In]; tauto]|].
    destruct (add_polygon_good ps p m (L p (or_introl eq_refl)) G) as [G1 G2].
    destruct (IH _ (fun q Q => L q (or_intror Q)) G1) as [H1 H2]. split; [exact H1|].
    intros c. rewrite H2, G2, in_app_iff. tauto. }
  destruct (K ps [] (fun x X => X)) as [H1 H2]; [split; [constructor|discriminate]|].
  split; [exact H1|]. intros c. rewrite H2. cbn [map In]. tauto.
Qed.

Lemma ring_prev_edge vs i : (i < length vs)%nat ->
  exists j, (j < length vs)%nat /\ vat vs j = ring_prev vs i /\ ring_next vs j = vat vs i.
Proof.
  intros I. exists ((i + length vs - 1) mod length vs)%nat. split; [apply Nat.mod_upper_bound; lia|]. split; [reflexivity|].
  unfold ring_next. f_equal. destruct i as [|i].
  - rewrite (Nat.mod_small (0 + length vs - 1)) by lia. replace (0 + length vs - 1 + 1)%nat with (length vs) by lia. apply Nat.mod_same. lia.
  - replace (S i + length vs - 1)%nat with (i + 1 * length vs)%nat by lia. rewrite Nat.mod_add by lia.
    rewrite (Nat.mod_small i) by lia. rewrite Nat.mod_small by lia. lia.
Qed.

Lemma corner_edges ps p o n : corner_of ps p o n -> polygon_edge ps (mkS p o) /\ polygon_edge ps (mkS o n).
Proof.
  intros (P & i & H & I & -> & -> & ->). split; [|exists P, i; auto].
  destruct (ring_prev_edge (verts P) i I) as (j & J & A & B). exists P, j. rewrite A, B. auto.
Qed.

Lemma edge_pgeo ps s : (forall c, In c (polygon_vertices ps) -> pgeo c) -> polygon_edge ps s -> pgeo_seg s.
Proof.
  intros G (p & i & P & I & ->). assert (K : forall j, (j < length (verts p))%nat -> pgeo (vat (verts p) j)).
  { intros j J. apply G. unfold polygon_vertices. rewrite <- flat_map_concat_map. apply in_flat_map. exists p. split; [exact P|]. apply nth_In, J. }
  split; cbn [e1 e2]; apply K; [exact I|]. apply Nat.mod_upper_bound. lia.
Qed.

Lemma corner_vertex ps p o n : corner_of ps p o n -> In o (polygon_vertices ps).
Proof.
  intros (P & i & H & I & _ & -> & _). unfold polygon_vertices. rewrite <- flat_map_concat_map. apply in_flat_map. exists P. split; [exact H|]. apply nth_In, I.
Qed.

Lemma map_ok_polygons ps o : (forall c, In c (polygon_vertices ps) -> pgeo c) -> map_ok (polygon_edge ps) o (incident_map ps).
Proof.
  intros G c ss F. destruct (incident_map_good ps) as [[_ H] _]. destruct (H c ss F) as (p & n & C & ->).
  split; [apply G; eapply corner_vertex; eassumption|]. split; [intros _; cbn [length]; lia|].
  destruct (corner_edges ps p c n C) as [H1 H2].
  constructor; [split; [exact H1|right; reflexivity]|]. constructor; [split; [exact H2|left; reflexivity]|constructor].
Qed.

Lemma segments_edges ps : Forall (polygon_edge ps) (flat_map snd (incident_map ps)).
Proof.
  apply Forall_forall. intros s S. apply in_flat_map in S. destruct S as ([c ss] & I & S). cbn [snd] in S.
  destruct (incident_map_good ps) as [[N H] _]. apply (in_find _ _ _ N) in I. destruct (H c ss I) as (p & n & C & ->).
  destruct (corner_edges ps p c n C). destruct S as [<-|[<-|[]]]; assumption.
Qed.

(** ** The sorter is total *)
Lemma dot_md_total a b : coord_i32 a -> coord_i32 b -> (Z.abs (lat a) <= 180000000) -> Z.abs (lat b) <= 180000000 ->
  exists z, dot_md a b = Ok z /\ z = dot a b.
Proof.
  intros A B La Lb. unfold dot_md, dot. destruct A as [A1 A2], B as [B1 B2].
  assert (P1 : - (2147483648 * 2147483648) <= lon a * lon b <= 2147483648 * 2147483648).
  { apply SegmentFacts.mul_bound; unfold INT32_MIN, INT32_MAX in *; lia. }
  assert (P2 : - (180000000 * 180000000) <= lat a * lat b <= 180000000 * 180000000) by (apply SegmentFacts.mul_bound; lia).
  rewrite !i64_ok by (unfold INT64_MIN, INT64_MAX; lia). cbn [bind]. rewrite i64_ok by (unfold INT64_MIN, INT64_MAX; lia). eauto.
Qed.

Lemma angle_less_total atan2 o a b : pgeo o -> pgeo a -> pgeo b -> exists r, angle_less atan2 o a b = Ok r.
Proof.
  intros O A B. unfold angle_less. destruct (coord_eqb a o); [eauto|]. destruct (coord_eqb b o); [eauto|].
  rewrite !sub_pgeo by assumption. cbn [bind].
  destruct (dot_md_total (mkC (lon a - lon o) (lat a - lat o)) (mkC (lon b - lon o) (lat b - lat o))) as (z & -> & _);
    [apply diff_i32; assumption..|cbn [lat]; destruct A, O; lia|cbn [lat]; destruct B, O; lia|]. cbn [bind].
  rewrite vector_orientation_ok by (apply diff_i32; assumption). cbn [bind].
  destruct (_ || _); eauto.
Qed.

Lemma mapM_total {A B} (f : A -> res B) l : (forall x, In x l -> exists y, f x = Ok y) -> exists r, mapM f l = Ok r.
Proof.
  induction l as [|x l IH]; intros H; [eexists; reflexivity|]. cbn [mapM]. destruct (H x (or_introl eq_refl)) as (y & ->). cbn [bind].
  destruct IH as (r & ->); [intros; apply H; right; assumption|]. cbn [bind]. eauto.
Qed.

Lemma sort_total atan2 srt o vs : pgeo o -> (forall v, In v vs -> pgeo v) -> sort_ccw atan2 srt o vs = Ok (srt (less_b atan2 o) vs).
Proof.
  intros O V. unfold sort_ccw. destruct (mapM_total (fun a => mapM (fun b => angle_less atan2 o a b) vs) vs) as (r & ->); [|reflexivity].
  intros a A. apply mapM_total. intros b B. apply angle_less_total; auto.
Qed.

(** ** What the standard library promises *)
Definition swo_on (less : coord -> coord -> bool) (l : list coord) : Prop :=
  (forall a b, In a l -> In b l -> a <> b -> less a b = true -> less b a = false) /\
  (forall a b c, In a l -> In b l -> In c l -> less a b = true -> less b c = true -> less a c = true) /\
  (forall a b c, In a l -> In b l -> In c l -> a <> b -> b <> c -> a <> c ->
     less a b = false -> less b a = false -> less b c = false -> less c b = false -> less a c = false).
(** no element may come before an earlier one *)
Definition sorted_by (less : coord -> coord -> bool) (l : list coord) : Prop :=
  forall l1 a l2 b l3, l = l1 ++ a :: l2 ++ b :: l3 -> less b a = false.
(** hash iteration orders are permutations; [std::sort] permutes, and sorts distinct
    elements when the comparison is a strict weak order on them *)
Definition library_orders (ord : orders) : Prop :=
  (forall l, Permutation (o_vertices ord l) l) /\ (forall l, Permutation (o_segments ord l) l) /\
  (forall less l, Permutation (o_sort ord less l) l) /\
  (forall less l, NoDup l -> swo_on less l -> sorted_by less (o_sort ord less l)).

(** ** The whole sweep over a polygon list *)
Definition init_vec (o : coord) : coord := mkC (540000001 - lon o) 0.
Lemma init_ok o : pgeo o -> get_tangent_vector (initial_scanline o) = Ok (init_vec o) /\ coord_i32 (init_vec o).
Proof.
  intros O. unfold get_tangent_vector, initial_scanline, init_vec. cbn [e1 e2].
  change MAX_PERIODIC_LONGITUDE with 540000001. rewrite sub_pgeo; [|destruct O; split; cbn [lon lat]; lia|exact O]. cbn [lon lat].
  rewrite Z.sub_diag. split; [reflexivity|]. destruct O. unfold coord_i32, INT32_MIN, INT32_MAX. cbn [lon lat]. lia.
Qed.

(** the order in which the sweep visits the vertices *)
Definition visit_order (atan2 : Z -> Z -> f64) (ord : orders) (ps : list polygon) (o : coord) : list coord :=
  o_sort ord (less_b atan2 o) (o_vertices ord (map fst (incident_map ps))).

Definition blocked_vertex (ps : list polygon) (o v : coord) : Prop :=
  (exists p n, corner_of ps p o n /\ point_visible (mkPL p o n) v = Ok false) \/
  (exists e, polygon_edge ps e /\ ~ touches e o /\ meets_before e o v).

Lemma visit_perm atan2 ord ps o : library_orders ord -> Permutation (visit_order atan2 ord ps o) (map fst (incident_map ps)).
Proof. intros (A & _ & B & _). eapply perm_trans; [apply B|apply A]. Qed.

Theorem get_visible_ok atan2 ord ps o half : library_orders ord -> pgeo o -> (forall c, In c (polygon_vertices ps) -> pgeo c) ->
  exists res seen, get_visible_vertices atan2 ord (vistree_of_polygons ps) o half = Ok res /\
    NoDup (visit_order atan2 ord ps o) /\ (forall c, In c (visit_order atan2 ord ps o) <-> In c (polygon_vertices ps)) /\
    subseq seen (scanned (init_vec o) o half (visit_order atan2 ord ps o)) /\ ~ In o seen /\
    Forall2 reports_as seen res /\
    (forall v, In v (scanned (init_vec o) o half (visit_order atan2 ord ps o)) -> v <> o -> In v seen \/ blocked_vertex ps o v).
Proof.
  intros LO O G. destruct (incident_map_good ps) as [[N H] Kv].
  pose proof (visit_perm atan2 ord ps o LO) as P.
  assert (Nd : NoDup (visit_order atan2 ord ps o)) by (eapply Permutation_NoDup; [apply Permutation_sym, P|exact N]).
  assert (Ik : forall c, In c (visit_order atan2 ord ps o) <-> In c (polygon_vertices ps)).
  { intros c. rewrite <- Kv. split; apply Permutation_in; [exact P|apply Permutation_sym, P]. }
  unfold get_visible_vertices, visible_from, vistree_of_polygons. cbn [vt_map vt_segments].
  destruct (incident_map ps) as [|kv m'] eqn:Em.
  { exists [], []. assert (V0 : visit_order atan2 ord ps o = []).
    { unfold visit_order in *. rewrite Em in *. cbn [map] in *. apply Permutation_nil, Permutation_sym, P. }
    rewrite V0 in *. cbn [scanned]. split; [reflexivity|]. split; [exact Nd|]. split; [exact Ik|]. split; [constructor|]. split; [intros []|]. split; [constructor|intros ? []]. }
  rewrite <- Em in *. clear Em kv m'. fold (visit_order atan2 ord ps o).
  rewrite sort_total; [|exact O|].
  2:{ intros v V. apply G, Kv. apply (Permutation_in _ (proj1 LO _)) in V. exact V. }
  cbn [bind]. fold (visit_order atan2 ord ps o). destruct (init_ok o O) as [-> Ii]. cbn [bind].
  destruct (initial_ok (polygon_edge ps) o (fun s => edge_pgeo ps s G) O (o_segments ord (flat_map snd (incident_map ps)))) as (oe & -> & En).
  { apply Forall_forall. intros s S. apply (Permutation_in _ (proj1 (proj2 LO) _)) in S.
    pose proof (segments_edges ps) as F. rewrite Forall_forall in F. auto. }
  cbn [bind].
  destruct (sweep_ok (polygon_edge ps) (incident_map ps) (init_vec o) o (fun s => edge_pgeo ps s G) (map_ok_polygons ps o G) O Ii
     half (visit_order atan2 ord ps o)) with (oe := oe) as (res & seen & R & S & No & F & Hd).
  { intros v V. apply find_keys, Kv, Ik, V. } { exact En. }
  exists res, seen. split; [exact R|]. split; [exact Nd|]. split; [exact Ik|]. split; [exact S|]. split; [exact No|]. split; [exact F|].
  intros v V Nv. destruct (Hd v V Nv) as [X|[X|X]]; [left; exact X|right; left|right; right].
  - destruct X as (ss & b & Fd & B & Pv). destruct (H _ _ Fd) as (p & n & C & ->). exists p, n. split; [exact C|].
    cbn [barrier barrier_from app e1 e2] in B. inversion B; subst b. exact Pv.
  - destruct X as (e & [E T] & M). exists e. auto.
Qed.
