(** The sweep over a map built from segments, and with candidate segments. *)
From Coq Require Import ZArith Reals Bool List Lia Permutation.
From Verif Require Import Base F64 Coordinate Segment Polyline Polygon Periodicity Graph Visgraph SpecGeom SpecGraph F64Facts
  CoordinateFacts SegmentFacts PeriodicityFacts PolygonFacts PolygonMore PolylineFacts GraphFacts VisgraphFacts Sweep SweepFacts SweepMaps.
Import ListNotations.
Local Open Scope Z_scope.

(** ** The map *)
Definition at_end (c : coord) (s : segment) : list segment :=
  (if coord_eqb (e1 s) c then [s] else []) ++ (if coord_eqb (e2 s) c then [s] else []).
Definition some_list {A} (l : list A) : option (list A) := match l with [] => None | _ => Some l end.

Lemma find_push m c s x : vm_find (vm_push m c s) x =
  if coord_eqb c x then Some (match vm_find m c with Some ss => ss ++ [s] | None => [s] end) else vm_find m x.
Proof. unfold vm_push. destruct (vm_find m c) eqn:E; rewrite find_put; destruct (coord_eqb c x); reflexivity. Qed.

Lemma find_segments ss c : vm_find (segment_map ss) c = some_list (flat_map (at_end c) ss).
Proof.
  unfold segment_map.
  assert (K : forall ss m l, vm_find m c = some_list l -> vm_find (fold_left add_segment ss m) c = some_list (l ++ flat_map (at_end c) ss)).
  { clear ss. induction ss as [|s ss IH]; intros m l E; cbn [fold_left flat_map]; [rewrite app_nil_r; exact E|].
    rewrite app_assoc. apply IH. unfold add_segment. rewrite find_push. unfold at_end.
    destruct (coord_eqb (e2 s) c) eqn:E2.
    - apply coord_eqb_spec in E2. rewrite E2. rewrite find_push. destruct (coord_eqb (e1 s) c) eqn:E1.
      + apply coord_eqb_spec in E1. rewrite E1, E. destruct l; [reflexivity|]. cbn [some_list app]. rewrite <- app_assoc. reflexivity.
      + rewrite E. cbn [app]. destruct l; reflexivity.
    - rewrite find_push. destruct (coord_eqb (e1 s) c) eqn:E1.
      + apply coord_eqb_spec in E1. rewrite E1, E. cbn [app]. destruct l; reflexivity.
      + rewrite E. cbn [app]. rewrite app_nil_r. reflexivity. }
  apply (K ss [] []). reflexivity.
Qed.

Lemma push_nodup m c s : NoDup (map fst m) -> NoDup (map fst (vm_push m c s)).
Proof. intros N. unfold vm_push. destruct (vm_find m c); apply put_nodup, N. Qed.
Lemma segment_map_nodup ss : NoDup (map fst (segment_map ss)).
Proof.
  unfold segment_map. assert (K : forall ss m, NoDup (map fst m) -> NoDup (map fst (fold_left add_segment ss m))).
  { clear ss. induction ss as [|s ss IH]; intros m N; [exact N|]. apply IH. unfold add_segment. apply push_nodup, push_nodup, N. }
  apply K. constructor.
Qed.
Lemma at_end_in c s x : In x (at_end c s) <-> x = s /\ touches s c.
Proof.
  unfold at_end, touches. rewrite in_app_iff.
  assert (K : forall a, In x (if coord_eqb a c then [s] else []) <-> x = s /\ a = c).
  { intros a. destruct (coord_eqb a c) eqn:A; cbn [In]; [apply coord_eqb_spec in A|apply coord_eqb_neq in A]; intuition congruence. }
  rewrite !K. tauto.
Qed.
Definition ends (ss : list segment) : list coord := flat_map (fun s => [e1 s; e2 s]) ss.
Lemma ends_in ss c : In c (ends ss) <-> exists s, In s ss /\ touches s c.
Proof.
  unfold ends, touches. rewrite in_flat_map. split.
  - intros (s & S & [<-|[<-|[]]]); exists s; auto.
  - intros (s & S & [<-|<-]); exists s; cbn [In]; auto.
Qed.
Lemma found_ends ss c : vm_find (segment_map ss) c <> None <-> In c (ends ss).
Proof.
  rewrite find_segments, ends_in. split.
  - intros N. destruct (flat_map (at_end c) ss) as [|x l] eqn:E; [cbn in N; congruence|].
    assert (I : In x (flat_map (at_end c) ss)) by (rewrite E; left; reflexivity).
    apply in_flat_map in I. destruct I as (s & S & X). apply at_end_in in X. exists s. tauto.
  - intros (s & S & T). assert (I : In s (flat_map (at_end c) ss)) by (apply in_flat_map; exists s; split; [exact S|apply at_end_in; auto]).
    destruct (flat_map (at_end c) ss); [destruct I|discriminate].
Qed.

(** how many ends of the segments lie at [c] *)
Definition ends_at (c : coord) (ss : list segment) : nat :=
  length (filter (fun s => coord_eqb (e1 s) c) ss) + length (filter (fun s => coord_eqb (e2 s) c) ss).
Lemma ends_at_length c ss : length (flat_map (at_end c) ss) = ends_at c ss.
Proof.
  unfold ends_at. induction ss as [|s ss IH]; [reflexivity|]. cbn [flat_map filter]. rewrite app_length, IH. unfold at_end. rewrite app_length.
  destruct (coord_eqb (e1 s) c), (coord_eqb (e2 s) c); cbn [length]; lia.
Qed.

Lemma map_ok_segments (edge : segment -> Prop) ss o : (forall s, In s ss -> edge s) -> (forall s, edge s -> pgeo_seg s) -> ends_at o ss <> 1%nat ->
  map_ok edge o (segment_map ss).
Proof.
  intros E G N c l F. rewrite find_segments in F.
  assert (L : flat_map (at_end c) ss = l /\ l <> []) by (destruct (flat_map (at_end c) ss); inversion F; split; [reflexivity|discriminate]).
  destruct L as [L NE]. assert (A : forall s, In s l -> In s ss /\ touches s c).
  { intros s S. rewrite <- L in S. apply in_flat_map in S. destruct S as (t & T & S). apply at_end_in in S. destruct S as [-> S]. auto. }
  split; [|split].
  - destruct l as [|s l]; [congruence|]. destruct (A s (or_introl eq_refl)) as [S [T|T]]; rewrite <- T; apply G, E, S.
  - intros ->. rewrite <- ends_at_length, L in N. destruct l as [|? [|? ?]]; cbn [length] in *; [congruence|lia..].
  - apply Forall_forall. intros s S. destruct (A s S). auto.
Qed.

(** ** Any list of vertices and segments over a map *)
Section Any.
Variables (edge : segment -> Prop) (m : vmap) (o : coord).
Hypothesis Edge : forall s, edge s -> pgeo_seg s.
Hypothesis Map : map_ok edge o m.
Hypothesis Obs : pgeo o.

Lemma missing_vertex init vs : coord_i32 init -> (forall v, In v vs -> pgeo v) -> forall oe, entries (fit edge o) oe ->
  (exists v, In v vs /\ v <> o /\ vm_find m v = None) -> sweep m init o false vs oe = Throw MapOutOfRange.
Proof.
  intros Ii. induction vs as [|v vs IH]; intros V oe En (w & W & Nw & Fw); [destruct W|]. cbn [sweep].
  specialize (IH (fun x X => V x (or_intror X))).
  destruct (coord_eqb o v) eqn:Eo.
  - apply coord_eqb_spec in Eo. apply IH; [exact En|]. exists w. destruct W as [<-|W]; [congruence|auto].
  - assert (N : v <> o) by (intros ->; rewrite coord_eqb_refl in Eo; discriminate Eo).
    unfold past_half. cbn [bind]. unfold vm_at. destruct (vm_find m v) as [inc|] eqn:Fd; [|reflexivity]. cbn [bind].
    destruct (Map _ _ Fd) as (Gv & _ & Fi).
    destruct (orientation_segments_ok edge o Edge Obs v CLOCKWISE inc Gv Fi) as (cw & -> & _). cbn [bind].
    destruct (orientation_segments_ok edge o Edge Obs v COUNTER_CLOCKWISE inc Gv Fi) as (ccw & -> & Fc). cbn [bind]. cbv zeta.
    pose proof (entries_erase (fit edge o) cw oe En) as En1.
    destruct (visible_total edge m o Edge Map Obs (erase_segments cw oe) v Gv N En1) as (b & -> & _). cbn [bind].
    assert (Nm : exists n, (if b then normalize_coord v else Ok v) = Ok n).
    { destruct b; [|eauto]. destruct (normalize_coord_ok v) as (x & X & _); [destruct Gv; unfold INT32_MIN, INT32_MAX; lia|eauto]. }
    destruct Nm as (n & ->). cbn [bind].
    destruct (add_segments_ok edge o Edge Obs v ccw Gv N Fc _ En1) as (oe2 & -> & En2). cbn [bind].
    rewrite IH; [reflexivity|exact En2|]. exists w. destruct W as [<-|W]; [congruence|auto].
Qed.

Lemma visible_from_ok atan2 ord vertices segs half : library_orders ord -> (forall v, In v vertices -> pgeo v) -> NoDup vertices ->
  Forall edge segs -> m <> [] ->
  ((forall v, In v vertices -> vm_find m v <> None) ->
     exists res seen, visible_from atan2 ord m o vertices segs half = Ok res /\ NoDup seen /\
       Forall2 reports_as seen res /\ (forall v, In v seen -> In v vertices /\ v <> o)) /\
  ((exists v, In v vertices /\ v <> o /\ vm_find m v = None) -> visible_from atan2 ord m o vertices segs false = Throw MapOutOfRange).
Proof.
  intros LO V N F Ne. destruct LO as (_ & _ & LS & _). specialize (LS (less_b atan2 o) vertices).
  assert (Q : forall h, visible_from atan2 ord m o vertices segs h =
    bind (initial_edges o segs) (fun oe => sweep m (init_vec o) o h (o_sort ord (less_b atan2 o) vertices) oe)).
  { intros h. unfold visible_from. destruct m as [|kv m'] eqn:Em; [congruence|]. rewrite <- Em in *.
    rewrite sort_total by assumption. cbn [bind]. destruct (init_ok o Obs) as [-> _]. reflexivity. }
  destruct (initial_ok edge o Edge Obs segs F) as (oe & I & En). rewrite !Q, I. cbn [bind].
  destruct (init_ok o Obs) as [_ Ii]. split.
  - intros K. destruct (sweep_ok edge m (init_vec o) o Edge Map Obs Ii half (o_sort ord (less_b atan2 o) vertices)) with (oe := oe) as (res & seen & R & S & No & Fr & _).
    { intros v X. apply K. apply (Permutation_in _ LS), X. } { exact En. }
    exists res, seen. split; [exact R|].
    assert (SC : forall h vs, subseq (scanned (init_vec o) o h vs) vs).
    { intros h. induction vs as [|v vs IHv]; cbn [scanned]; [constructor|]. destruct (ahead _ _ _ _); [apply subseq_take, IHv|].
      clear. generalize (v :: vs). induction l; [constructor|apply subseq_drop, IHl]. }
    assert (SI : forall (a b : list coord), subseq a b -> (forall x, In x a -> In x b) /\ (NoDup b -> NoDup a)).
    { induction 1 as [|x a b X [I1 I2]|x a b X [I1 I2]]; [split; auto|..].
      - split; [intros y [<-|Y]; [left; reflexivity|right; auto]|]. intros D. inversion D; subst. constructor; [intros Y; apply I1 in Y; contradiction|auto].
      - split; [intros y Y; right; auto|]. intros D. inversion D; auto. }
    destruct (SI _ _ S) as [S1 S2]. destruct (SI _ _ (SC half (o_sort ord (less_b atan2 o) vertices))) as [T1 T2].
    split; [|split; [exact Fr|]].
    + apply S2, T2. eapply Permutation_NoDup; [apply Permutation_sym, LS|exact N].
    + intros v X. split; [apply (Permutation_in _ LS), T1, S1, X|]. intros ->. contradiction.
  - intros (v & X & Nv & Fv). apply missing_vertex; [exact Ii| |exact En|].
    + intros w W. apply V. apply (Permutation_in _ LS), W.
    + exists v. split; [apply (Permutation_in _ (Permutation_sym LS)), X|auto].
Qed.
End Any.

(** ** Generators built from segments *)
Lemma segment_vertices_in cs c : In c (segment_vertices cs) <-> In c (ends cs).
Proof. unfold segment_vertices, ends. apply nodup_In. Qed.
Lemma map_nonempty ss : segment_map ss <> [] <-> ss <> [].
Proof.
  split; [intros N ->; apply N; reflexivity|]. destruct ss as [|s ss]; [congruence|]. intros _ E.
  assert (H : vm_find (segment_map (s :: ss)) (e1 s) <> None).
  { apply found_ends, ends_in. exists s. split; [left; reflexivity|left; reflexivity]. }
  rewrite E in H. apply H. reflexivity.
Qed.

Section Segments.
Variables (atan2 : Z -> Z -> f64) (ord : orders) (ss : list segment) (o : coord).
Hypothesis LO : library_orders ord.
Hypothesis Obs : pgeo o.
Hypothesis Geo : forall s, In s ss -> pgeo_seg s.

Lemma candidates_ok cs half : (forall s, In s cs -> pgeo_seg s) -> ends_at o ss <> 1%nat -> ss <> [] ->
  ((forall c, In c (ends cs) -> In c (ends ss)) ->
     exists res seen, get_visible_from_candidates atan2 ord (vistree_of_segments ss) o cs half = Ok res /\ NoDup seen /\
       Forall2 reports_as seen res /\ (forall v, In v seen -> In v (ends cs) /\ v <> o)) /\
  ((exists c, In c (ends cs) /\ c <> o /\ ~ In c (ends ss)) ->
     get_visible_from_candidates atan2 ord (vistree_of_segments ss) o cs false = Throw MapOutOfRange).
Proof.
  intros Gc N Ne. set (edge := fun s => In s ss \/ In s cs).
  assert (Eg : forall s, edge s -> pgeo_seg s) by (intros s [S|S]; auto).
  assert (Mo : map_ok edge o (segment_map ss)) by (apply map_ok_segments; [left; assumption|exact Eg|exact N]).
  assert (P : Permutation (o_vertices ord (segment_vertices cs)) (segment_vertices cs)) by apply LO.
  assert (Pi : forall v, In v (o_vertices ord (segment_vertices cs)) <-> In v (ends cs)).
  { intros v. rewrite <- segment_vertices_in. split; apply Permutation_in; [exact P|apply Permutation_sym, P]. }
  unfold get_visible_from_candidates. cbn [vistree_of_segments vt_map].
  assert (Gv : forall v, In v (o_vertices ord (segment_vertices cs)) -> pgeo v).
  { intros v V. apply Pi, ends_in in V. destruct V as (s & S & [<-|<-]); apply (Gc s S). }
  assert (Nv : NoDup (o_vertices ord (segment_vertices cs))).
  { eapply Permutation_NoDup; [apply Permutation_sym, P|]. unfold segment_vertices. apply NoDup_nodup. }
  assert (Fc : Forall edge cs) by (apply Forall_forall; right; assumption).
  pose proof (visible_from_ok edge (segment_map ss) o Eg Mo Obs atan2 ord _ cs half LO Gv Nv Fc (proj2 (map_nonempty ss) Ne)) as [A B].
  split.
  - intros K. destruct A as (res & seen & R & D & Fr & S); [intros v V; apply found_ends, K, Pi, V|]. exists res, seen.
    split; [exact R|]. split; [exact D|]. split; [exact Fr|]. intros v V. rewrite <- Pi. apply S, V.
  - intros (c & C & Nc & Nf). apply B. exists c. split; [apply Pi, C|]. split; [exact Nc|].
    destruct (vm_find (segment_map ss) c) eqn:E; [|reflexivity]. exfalso. apply Nf, found_ends. rewrite E. discriminate.
Qed.

Lemma all_ok half : ends_at o ss <> 1%nat ->
  exists res seen, get_visible_vertices atan2 ord (vistree_of_segments ss) o half = Ok res /\ NoDup seen /\
    Forall2 reports_as seen res /\ (forall v, In v seen -> In v (ends ss) /\ v <> o).
Proof.
  intros N. destruct (list_eq_dec (fun a b : segment => ltac:(decide equality; decide equality; apply Z.eq_dec)) ss []) as [->|Ne].
  { exists [], []. split; [reflexivity|]. split; [constructor|]. split; [constructor|intros ? []]. }
  set (edge := fun s => In s ss).
  assert (Mo : map_ok edge o (segment_map ss)) by (apply map_ok_segments; [auto|exact Geo|exact N]).
  assert (P : Permutation (o_vertices ord (map fst (segment_map ss))) (map fst (segment_map ss))) by apply LO.
  assert (Pi : forall v, In v (o_vertices ord (map fst (segment_map ss))) <-> In v (ends ss)).
  { intros v. rewrite <- found_ends, find_keys. split; apply Permutation_in; [exact P|apply Permutation_sym, P]. }
  unfold get_visible_vertices. cbn [vistree_of_segments vt_map vt_segments].
  destruct (visible_from_ok edge (segment_map ss) o Geo Mo Obs atan2 ord (o_vertices ord (map fst (segment_map ss))) (o_segments ord ss) half LO) as [A _].
  - intros v V. apply Pi, ends_in in V. destruct V as (s & S & [<-|<-]); apply (Geo s S).
  - eapply Permutation_NoDup; [apply Permutation_sym, P|apply segment_map_nodup].
  - apply Forall_forall. intros s S. apply (Permutation_in _ (proj1 (proj2 LO) _)) in S. exact S.
  - apply map_nonempty, Ne.
  - destruct A as (res & seen & R & D & Fr & S); [intros v V; apply found_ends, Pi, V|]. exists res, seen.
    split; [exact R|]. split; [exact D|]. split; [exact Fr|]. intros v V. rewrite <- Pi. apply S, V.
Qed.

(** an observer at the end of one segment only *)
Lemma lone_sweep (m : vmap) s init vs : vm_find m o = Some [s] ->
  (forall c l, vm_find m c = Some l -> pgeo c /\ Forall (fun t => In t ss /\ touches t c) l) ->
  (forall v, In v vs -> vm_find m v <> None) -> (exists v, In v vs /\ v <> o) ->
  forall oe, sweep m init o false vs oe = UB OutOfBounds.
Proof.
  intros Fo Mo. induction vs as [|v vs IH]; intros K (w & W & Nw) oe; [destruct W|]. cbn [sweep].
  destruct (coord_eqb o v) eqn:Eo.
  - apply coord_eqb_spec in Eo. apply IH; [intros x X; apply K; right; exact X|]. exists w. destruct W as [<-|W]; [congruence|auto].
  - assert (N : v <> o) by (intros ->; rewrite coord_eqb_refl in Eo; discriminate Eo).
    unfold past_half. cbn [bind]. unfold vm_at. destruct (vm_find m v) as [inc|] eqn:Fd; [|exfalso; apply (K v (or_introl eq_refl) Fd)]. cbn [bind].
    destruct (Mo _ _ Fd) as (Gv & Fi).
    destruct (orientation_segments_ok (fun t => In t ss) o Geo Obs v CLOCKWISE inc Gv Fi) as (cw & -> & _). cbn [bind].
    destruct (orientation_segments_ok (fun t => In t ss) o Geo Obs v COUNTER_CLOCKWISE inc Gv Fi) as (ccw & -> & Fc). cbn [bind]. cbv zeta.
    unfold is_vertex_visible. rewrite (proj2 (coord_eqb_neq v o) N), Fo. reflexivity.
Qed.

Lemma all_fails : ends_at o ss = 1%nat -> get_visible_vertices atan2 ord (vistree_of_segments ss) o false = UB OutOfBounds.
Proof.
  intros N. pose proof (ends_at_length o ss) as L. rewrite N in L.
  destruct (flat_map (at_end o) ss) as [|s [|? ?]] eqn:E; cbn [length] in L; try lia.
  assert (Fo : vm_find (segment_map ss) o = Some [s]) by (rewrite find_segments, E; reflexivity).
  assert (Is : In s ss /\ touches s o).
  { assert (I : In s (flat_map (at_end o) ss)) by (rewrite E; left; reflexivity). apply in_flat_map in I. destruct I as (t & T & I).
    apply at_end_in in I. destruct I as [-> I]. auto. }
  destruct Is as [Is Ts].
  assert (D : e1 s <> e2 s).
  { intros Q. apply in_split in Is. destruct Is as (l1 & l2 & ->). rewrite flat_map_app in E. cbn [flat_map] in E. unfold at_end at 2 in E.
    assert (e1 s = o) by (destruct Ts as [T|T]; congruence). rewrite <- Q, H, coord_eqb_refl in E. apply (f_equal (@length segment)) in E.
    rewrite !app_length in E. cbn [length app] in E. lia. }
  assert (P : Permutation (o_vertices ord (map fst (segment_map ss))) (map fst (segment_map ss))) by apply LO.
  assert (Pi : forall v, In v (o_vertices ord (map fst (segment_map ss))) <-> In v (ends ss)).
  { intros v. rewrite <- found_ends, find_keys. split; apply Permutation_in; [exact P|apply Permutation_sym, P]. }
  assert (Ne : segment_map ss <> []) by (intros Q; rewrite Q in Fo; discriminate Fo).
  unfold get_visible_vertices. cbn [vistree_of_segments vt_map vt_segments]. unfold visible_from.
  set (vs := o_vertices ord (map fst (segment_map ss))) in *.
  assert (LS : Permutation (o_sort ord (less_b atan2 o) vs) vs) by apply LO.
  rewrite sort_total; [|exact Obs|intros v V; apply Pi, ends_in in V; destruct V as (t & T & [<-|<-]); apply (Geo t T)].
  cbn [bind]. destruct (init_ok o Obs) as [-> _]. cbn [bind].
  destruct (initial_ok (fun t => In t ss) o Geo Obs (o_segments ord ss)) as (oe & I & _).
  { apply Forall_forall. intros t T. apply (Permutation_in _ (proj1 (proj2 LO) _)) in T. exact T. }
  rewrite I. cbn [bind]. destruct (segment_map ss) as [|kv m'] eqn:Em; [congruence|]. rewrite <- Em in *.
  apply (lone_sweep (segment_map ss) s); [exact Fo| | |].
  - intros c l F. rewrite find_segments in F. assert (L' : flat_map (at_end c) ss = l /\ l <> []) by (destruct (flat_map (at_end c) ss); inversion F; split; [reflexivity|discriminate]).
    destruct L' as [L' NE]. assert (A : forall t, In t l -> In t ss /\ touches t c).
    { intros t T. rewrite <- L' in T. apply in_flat_map in T. destruct T as (u & U & T). apply at_end_in in T. destruct T as [-> T]. auto. }
    split; [|apply Forall_forall; exact A]. destruct l as [|t l]; [congruence|]. destruct (A t (or_introl eq_refl)) as [T [Q|Q]]; rewrite <- Q; apply (Geo t T).
  - intros v V. apply found_ends, Pi. apply (Permutation_in _ LS), V.
  - assert (W : exists w, touches s w /\ w <> o) by (destruct Ts as [T|T]; [exists (e2 s)|exists (e1 s)]; unfold touches; split; auto; congruence).
    destruct W as (w & Tw & Nw). exists w. split; [|exact Nw]. apply (Permutation_in _ (Permutation_sym LS)), Pi, ends_in. exists s. auto.
Qed.
End Segments.
