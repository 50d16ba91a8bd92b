(** Maps moved or mirrored: the graph and the paths move with them.  No code is modelled here. *)
From Coq Require Import ZArith Reals Bool List Lia Lra Psatz Permutation.
From Flocq Require Import Core BinarySingleNaN.
From Verif Require Import Jordan.
From Verif Require Import Base F64 Coordinate Segment Polyline Polygon Periodicity Graph Visgraph SpecGeom SpecGraph F64Facts CoordinateFacts PolylineFacts
  PolygonMore GraphFacts GraphMore Sweep SweepFacts SweepMaps SweepGen AngleFacts AngleSort SweepGeo SweepGraph ShortestPath DistFacts SearchFacts SearchSpec SearchGraph SearchQuery PathFacts PathMore FreePaths OpenWater SweepFronts SeaLines Coasts CoastExact PipelineOpen PipelineSea CoastRun Ways WayRun Around.
Import ListNotations.
Local Open Scope Z_scope.

(** ** Vocabulary *)
(** mirror east and west, mirror north and south, then move *)
Record motion := mkM { m_ew : bool; m_ns : bool; m_lon : Z; m_lat : Z }.
Definition sign (b : bool) : Z := if b then -1 else 1.
Definition moved (m : motion) (c : coord) : coord := mkC (sign (m_ew m) * lon c + m_lon m) (sign (m_ns m) * lat c + m_lat m).
(** a mirrored ring runs the other way around, and is turned back *)
Definition turned (m : motion) : bool := xorb (m_ew m) (m_ns m).
Definition image (m : motion) (P : polygon) : polygon := mkP (let l := map (moved m) (verts P) in if turned m then rev l else l).
Definition back (m : motion) : motion := mkM (m_ew m) (m_ns m) (- (sign (m_ew m) * m_lon m)) (- (sign (m_ns m) * m_lat m)).

(** ** Points *)
Lemma sign_sq b : sign b * sign b = 1. Proof. destruct b; reflexivity. Qed.
Lemma sign_back b x d : sign b * (sign b * x + d) + - (sign b * d) = x. Proof. destruct b; cbn [sign]; lia. Qed.
Lemma moved_back m c : moved (back m) (moved m c) = c.
Proof. unfold moved, back. cbn [lon lat m_ew m_ns m_lon m_lat]. rewrite !sign_back. destruct c; reflexivity. Qed.
Lemma moved_inj m a b : moved m a = moved m b -> a = b.
Proof. intros E. apply (f_equal (moved (back m))) in E. rewrite !moved_back in E. exact E. Qed.
Lemma moved_turn m a b c : turn (moved m a) (moved m b) (moved m c) = sign (turned m) * turn a b c.
Proof. unfold turn, moved, turned. cbn [lon lat]. destruct (m_ew m), (m_ns m); cbn [sign xorb]; ring. Qed.
Lemma moved_wrap m k c : moved m (wrap k c) = wrap (sign (m_ew m) * k) (moved m c).
Proof. unfold moved, wrap. cbn [lon lat]. destruct (m_ew m); cbn [sign]; apply coord_ext; cbn [lon lat]; lia. Qed.
Lemma moved_apart m a b : DistFacts.apart (moved m a) (moved m b) = DistFacts.apart a b.
Proof.
  unfold DistFacts.apart, moved. cbn [lon lat]. f_equal. rewrite !plus_IZR, !mult_IZR. unfold Rsqr. destruct (m_ew m), (m_ns m); cbn [sign]; ring.
Qed.

(** ** Rings *)
Lemma image_back m P : image (back m) (image m P) = P.
Proof.
  destruct P as [l]. unfold image. cbn [verts]. change (turned (back m)) with (turned m).
  assert (E : forall k, map (moved (back m)) (map (moved m) k) = k) by (intros k; rewrite map_map; rewrite <- (map_id k) at 2; apply map_ext, moved_back).
  f_equal. destruct (turned m); [rewrite map_rev, rev_involutive|]; apply E.
Qed.
Lemma images_back m ps : map (image (back m)) (map (image m) ps) = ps.
Proof. rewrite map_map. rewrite <- (map_id ps) at 2. apply map_ext, image_back. Qed.
Lemma back_back m c : moved (back (back m)) c = moved m c.
Proof. unfold moved, back. cbn [m_ew m_ns m_lon m_lat]. apply coord_ext; cbn [lon lat]; [destruct (m_ew m)|destruct (m_ns m)]; cbn [sign]; lia. Qed.
Lemma image_verts m P c : In c (verts (image m P)) <-> exists b, In b (verts P) /\ c = moved m b.
Proof.
  unfold image. cbn [verts]. assert (E : In c (map (moved m) (verts P)) <-> exists b, In b (verts P) /\ c = moved m b) by (rewrite in_map_iff; split; intros (b & A & B); exists b; auto).
  destruct (turned m); [rewrite <- in_rev|]; exact E.
Qed.
Lemma image_vertices m ps c : In c (polygon_vertices (map (image m) ps)) <-> exists b, In b (polygon_vertices ps) /\ c = moved m b.
Proof.
  rewrite in_polygon_vertices. split.
  - intros (Q & HQ & I). apply in_map_iff in HQ. destruct HQ as (P & <- & HP). apply image_verts in I. destruct I as (b & B & ->). exists b. split; [apply in_polygon_vertices; eauto|reflexivity].
  - intros (b & B & ->). apply in_polygon_vertices in B. destruct B as (P & HP & B). exists (image m P). split; [apply in_map, HP|apply image_verts; eauto].
Qed.
Lemma image_vertex m ps c : In (moved m c) (polygon_vertices (map (image m) ps)) <-> In c (polygon_vertices ps).
Proof. rewrite image_vertices. split; [intros (b & B & E); apply moved_inj in E; subst b; exact B|eauto]. Qed.
Lemma vat_map m l i : (i < length l)%nat -> vat (map (moved m) l) i = moved m (vat l i).
Proof. intros I. unfold vat. rewrite (nth_indep _ _ (moved m (mkC 0 0))) by (rewrite map_length; exact I). apply map_nth. Qed.
Lemma vat_rev l i : (i < length l)%nat -> vat (rev l) i = vat l (length l - 1 - i).
Proof. intros I. unfold vat. rewrite rev_nth by exact I. f_equal. lia. Qed.
Lemma next_rev l i : (i < length l)%nat -> ring_next (rev l) i = ring_prev l (length l - 1 - i).
Proof.
  intros I. unfold ring_next, ring_prev. rewrite rev_length. set (n := length l) in *. rewrite vat_rev by (apply Nat.mod_upper_bound; lia). fold n. f_equal.
  destruct (Nat.eq_dec (i + 1) n) as [E|E].
  - rewrite E, Nat.mod_same by lia. replace (n - 1 - i + n - 1)%nat with (n - 1)%nat by lia. rewrite Nat.mod_small; lia.
  - rewrite (Nat.mod_small (i + 1)) by lia. replace (n - 1 - i + n - 1)%nat with ((n - 1 - (i + 1)) + 1 * n)%nat by lia. rewrite Nat.mod_add by lia. rewrite Nat.mod_small; lia.
Qed.
Lemma prev_rev l i : (i < length l)%nat -> ring_prev (rev l) i = ring_next l (length l - 1 - i).
Proof.
  intros I. unfold ring_next, ring_prev. rewrite rev_length. set (n := length l) in *. rewrite vat_rev by (apply Nat.mod_upper_bound; lia). fold n. f_equal.
  destruct (Nat.eq_dec i 0) as [E|E].
  - subst i. replace (0 + n - 1)%nat with (n - 1)%nat by lia. rewrite (Nat.mod_small (n - 1)) by lia. replace (n - 1 - 0 + 1)%nat with n by lia. rewrite Nat.mod_same by lia. lia.
  - replace (i + n - 1)%nat with ((i - 1) + 1 * n)%nat by lia. rewrite Nat.mod_add by lia. rewrite (Nat.mod_small (i - 1)) by lia. rewrite Nat.mod_small; lia.
Qed.
Lemma next_map m l i : (i < length l)%nat -> ring_next (map (moved m) l) i = moved m (ring_next l i).
Proof. intros I. unfold ring_next. rewrite map_length. apply vat_map, Nat.mod_upper_bound. lia. Qed.
Lemma prev_map m l i : (i < length l)%nat -> ring_prev (map (moved m) l) i = moved m (ring_prev l i).
Proof. intros I. unfold ring_prev. rewrite map_length. apply vat_map, Nat.mod_upper_bound. lia. Qed.
(** the corners of an image *)
Lemma image_corner m ps p o n : corner_of (map (image m) ps) p o n ->
  exists p' o' n', corner_of ps p' o' n' /\ o = moved m o' /\ (if turned m then p = moved m n' /\ n = moved m p' else p = moved m p' /\ n = moved m n').
Proof.
  intros (Q & i & HQ & I & -> & -> & ->). apply in_map_iff in HQ. destruct HQ as (P & <- & HP). unfold image in *. cbn [verts] in *. set (l := verts P) in *.
  destruct (turned m).
  - rewrite rev_length, map_length in I. assert (J : (length l - 1 - i < length l)%nat) by lia.
    exists (ring_prev l (length l - 1 - i)), (vat l (length l - 1 - i)), (ring_next l (length l - 1 - i)). split; [exists P, (length l - 1 - i)%nat; auto|].
    rewrite vat_rev, next_rev, prev_rev by (rewrite map_length; exact I). rewrite map_length. rewrite vat_map, next_map, prev_map by exact J. auto.
  - rewrite map_length in I. exists (ring_prev l i), (vat l i), (ring_next l i). split; [exists P, i; auto|]. rewrite vat_map, next_map, prev_map by exact I. auto.
Qed.
(** and its edges *)
Lemma image_edge m ps e : polygon_edge (map (image m) ps) e ->
  exists s, polygon_edge ps s /\ e = (if turned m then mkS (moved m (e2 s)) (moved m (e1 s)) else mkS (moved m (e1 s)) (moved m (e2 s))).
Proof.
  intros (Q & i & HQ & I & ->). destruct (image_corner m ps (ring_prev (verts Q) i) (vat (verts Q) i) (ring_next (verts Q) i)) as (p & o & n & C & Eo & H); [exists Q, i; auto|].
  destruct (corner_edges ps p o n C) as [E1 E2]. rewrite Eo. destruct (turned m); destruct H as [_ ->].
  - exists (mkS p o). auto.
  - exists (mkS o n). auto.
Qed.

(** ** Lines *)
Lemma image_solid m p o n v : into_solid p o n v <-> (if turned m then into_solid (moved m n) (moved m o) (moved m p) (moved m v) else into_solid (moved m p) (moved m o) (moved m n) (moved m v)).
Proof.
  unfold into_solid. destruct (turned m) eqn:E; rewrite !moved_turn, E; cbn [sign].
  - assert (S : forall a b c, turn c b a = - turn a b c) by (intros; unfold turn; ring). assert (S' : forall a b c, turn b a c = - turn a b c) by (intros; unfold turn; ring).
    rewrite (S p o n), (S' p o v), (S' o n v). lia.
  - lia.
Qed.
Lemma image_here m ps a b : open_here ps a b -> open_here (map (image m) ps) (moved m a) (moved m b).
Proof.
  intros (H1 & H2 & H3). assert (T : forall s c, touches s c -> touches (mkS (moved m (e1 s)) (moved m (e2 s))) (moved m c) /\ touches (mkS (moved m (e2 s)) (moved m (e1 s))) (moved m c))
    by (intros s c [<-|<-]; split; ((left; reflexivity) || (right; reflexivity))).
  split; [|split].
  - intros e q t u E Q Ht Hu X Y. apply image_edge in E. destruct E as (s & Es & ->). unfold moved in X, Y. destruct (turned m) eqn:Tm; cbn [e1 e2 lon lat] in X, Y.
    + destruct (H1 s q (q - t) u Es Q ltac:(lia) Hu) as [[U Z]|[[U Z]|[Z Z']]].
      * destruct (m_ew m); cbn [sign] in X; lia.
      * destruct (m_ns m); cbn [sign] in Y; lia.
      * left. split; [exact U|apply T, Z].
      * right; left. split; [exact U|apply T, Z].
      * right; right. split; apply T; assumption.
    + destruct (H1 s q t u Es Q Ht Hu) as [[U Z]|[[U Z]|[Z Z']]].
      * destruct (m_ew m); cbn [sign] in X; lia.
      * destruct (m_ns m); cbn [sign] in Y; lia.
      * left. split; [exact U|apply T, Z].
      * right; left. split; [exact U|apply T, Z].
      * right; right. split; apply T; assumption.
  - intros p n C Is. apply image_corner in C. destruct C as (p' & o' & n' & C & E & H). apply moved_inj in E. subst o'. apply (H2 p' n' C). apply (image_solid m).
    destruct (turned m); destruct H as [-> ->]; exact Is.
  - intros p n C Is. apply image_corner in C. destruct C as (p' & o' & n' & C & E & H). apply moved_inj in E. subst o'. apply (H3 p' n' C). apply (image_solid m).
    destruct (turned m); destruct H as [-> ->]; exact Is.
Qed.
Lemma image_line_to m ps a b : open_line ps a b -> open_line (map (image m) ps) (moved m a) (moved m b).
Proof.
  intros H j. pose proof (image_here m ps _ _ (H (sign (m_ew m) * j))) as K. rewrite !moved_wrap in K.
  replace (sign (m_ew m) * (sign (m_ew m) * j)) with j in K by (destruct (m_ew m); cbn [sign]; lia). exact K.
Qed.
Lemma image_line m ps a b : open_line (map (image m) ps) (moved m a) (moved m b) <-> open_line ps a b.
Proof.
  split; [|apply image_line_to]. intros H. apply (image_line_to (back m)) in H. rewrite images_back, !moved_back in H. exact H.
Qed.
Lemma image_linked m ps a b f : linked_by (map (image m) ps) (moved m a) (moved m b) f <-> linked_by ps a b f.
Proof.
  assert (W : forall k, open_line (map (image m) ps) (moved m a) (wrap k (moved m b)) <-> open_line ps a (wrap (sign (m_ew m) * k) b)).
  { intros k. rewrite <- (image_line m ps a (wrap (sign (m_ew m) * k) b)), moved_wrap. replace (sign (m_ew m) * (sign (m_ew m) * k)) with k by (destruct (m_ew m); cbn [sign]; lia). reflexivity. }
  unfold linked_by. destruct f; [|apply image_line]. rewrite image_line. split; intros (N & k & K & O); (split; [exact N|]); exists (sign (m_ew m) * k); (split; [destruct (m_ew m); cbn [sign]; lia|]).
  - apply W, O.
  - apply W. replace (sign (m_ew m) * (sign (m_ew m) * k)) with k by (destruct (m_ew m); cbn [sign]; lia). exact O.
Qed.
(** ** Graphs *)
Theorem image_answers m ps g g' : true_graph ps g -> true_graph (map (image m) ps) g' -> forall a b, answer g' (moved m a) (moved m b) = answer g a b.
Proof.
  intros (_ & _ & _ & _ & H) (_ & _ & _ & _ & H') a b.
  assert (E : forall f, answer g' (moved m a) (moved m b) = Some f <-> answer g a b = Some f).
  { intros f. rewrite H, H', !image_vertex, image_linked. assert (moved m a <> moved m b <-> a <> b) by (split; [intros N ->; apply N; reflexivity|intros N X; apply N, (moved_inj m), X]). tauto. }
  destruct (answer g a b) as [f|] eqn:A; [apply E; reflexivity|]. destruct (answer g' (moved m a) (moved m b)) as [f|] eqn:B; [|reflexivity]. discriminate (proj1 (E f) eq_refl).
Qed.

(** ** Routes *)
Lemma image_sailed m ps s d u l t r : sailed ps s d u l t r -> sailed (map (image m) ps) (moved m s) (moved m d) (moved m u) (map (moved m) l) (moved m t) r.
Proof.
  assert (I : forall c, In c (polygon_vertices ps) -> In (moved m c) (polygon_vertices (map (image m) ps))) by (intros c; apply image_vertex).
  assert (D : forall c, In c (polygon_vertices ps) \/ c = s \/ c = d -> In (moved m c) (polygon_vertices (map (image m) ps)) \/ moved m c = moved m s \/ moved m c = moved m d).
  { intros c [C|[ -> | -> ]]; auto. }
  induction 1 as [u|u v l t r O N A B C S IH|u v k l t r K O Ns N A B S IH]; cbn [map].
  - constructor.
  - rewrite <- (moved_apart m u v). apply sailed_straight; [apply image_line, O|intros X; apply N, (moved_inj m), X|auto|auto|destruct C; auto|exact IH].
  - assert (E : Rmin (DistFacts.apart u (wrap 1 v)) (DistFacts.apart u (wrap (-1) v)) = Rmin (DistFacts.apart (moved m u) (wrap 1 (moved m v))) (DistFacts.apart (moved m u) (wrap (-1) (moved m v)))).
    { rewrite <- (moved_apart m u (wrap 1 v)), <- (moved_apart m u (wrap (-1) v)), !moved_wrap. destruct (m_ew m); cbn [sign]; [rewrite Rmin_comm|]; reflexivity. }
    rewrite E. apply (sailed_around _ _ _ (moved m u) (moved m v) (sign (m_ew m) * k)); [destruct (m_ew m); cbn [sign]; lia| |rewrite image_line; exact Ns|intros X; apply N, (moved_inj m), X|auto|auto|exact IH].
    rewrite <- moved_wrap. apply image_line, O.
Qed.
Lemma sailed_image m ps s d u l t r : sailed (map (image m) ps) (moved m s) (moved m d) (moved m u) l (moved m t) r ->
  sailed ps s d u (map (moved (back m)) l) t r.
Proof. intros S. apply (image_sailed (back m)) in S. rewrite images_back, !moved_back in S. exact S. Qed.

(** ** Queries *)
Section Query.
Variables (m : motion) (atan2 atan2' : Z -> Z -> f64) (o1 o2 o1' o2' : coord -> orders) (ps : list polygon) (g g' : graph) (en en' : env)
  (source destination source' destination' ns nd : coord) (radius : f64) (rho : R) (flag : bool).
Hypotheses (Su : surveyed atan2 o1 ps g) (Dr : drawn ps) (Cq : coast_query atan2 o2 ps g en source destination ns nd)
  (Su' : surveyed atan2' o1' (map (image m) ps) g') (Dr' : drawn (map (image m) ps)) (Cq' : coast_query atan2' o2' (map (image m) ps) g' en' source' destination' (moved m ns) (moved m nd))
  (Re : reaches radius rho) (Nr : forall v, In v (polygon_vertices ps) \/ v = ns \/ v = nd -> (DistFacts.apart ns v <= rho)%R).
Lemma near_route l r : sailed ps ns nd ns l nd r -> Forall (within ns radius) l.
Proof.
  intros S. apply Forall_forall. intros v I. pose proof (sailed_places _ _ _ _ _ _ _ S v I) as P. assert (F : Forall clear_polygon ps) by apply Su. destruct Cq as (_ & (Gs & _) & (Gd & _)).
  apply (reaches_within radius rho); [exact Re|exact Gs| |apply Nr, P]. destruct P as [P|[ -> | -> ]]; [apply (clear_ngeo ps v F P)|exact Gs|exact Gd].
Qed.
Lemma near_image l r : sailed (map (image m) ps) (moved m ns) (moved m nd) (moved m ns) l (moved m nd) r -> Forall (within (moved m ns) radius) l.
Proof.
  intros S. apply Forall_forall. intros v I. pose proof (sailed_places _ _ _ _ _ _ _ S v I) as P. assert (F : Forall clear_polygon (map (image m) ps)) by apply Su'. destruct Cq' as (_ & (Gs & _) & (Gd & _)).
  assert (Q : exists c, v = moved m c /\ (In c (polygon_vertices ps) \/ c = ns \/ c = nd)) by (destruct P as [P|[ -> | -> ]]; [apply image_vertices in P; destruct P as (c & C & ->); eauto|eauto|eauto]).
  apply (reaches_within radius rho); [exact Re|exact Gs|destruct P as [P|[ -> | -> ]]; [apply (clear_ngeo _ v F P)|exact Gs|exact Gd]|]. destruct Q as (c & -> & C). rewrite moved_apart. apply Nr, C.
Qed.
Theorem image_found : exists n, forall fuel fuel', (n <= fuel)%nat -> (n <= fuel')%nat ->
  ((exists path, shortest_path fuel en g source destination radius flag = Some (Ok path)) <-> exists path', shortest_path fuel' en' g' source' destination' radius flag = Some (Ok path')).
Proof.
  destruct (route_found atan2 o2 ps g en source destination ns nd (proj1 Su) (surveyed_true _ _ _ _ Su Dr) Dr Cq radius flag) as (n & H).
  destruct (route_found atan2' o2' _ g' en' source' destination' _ _ (proj1 Su') (surveyed_true _ _ _ _ Su' Dr') Dr' Cq' radius flag) as (n' & H').
  exists (Nat.max n n'). intros fuel fuel' F F'. rewrite (proj1 (H fuel ltac:(lia))), (proj1 (H' fuel' ltac:(lia))). split; intros (l & r & S & _).
  - apply (image_sailed m) in S. eexists _, r. split; [exact S|exact (near_image _ _ S)].
  - apply sailed_image in S. eexists _, r. split; [exact S|exact (near_route _ _ S)].
Qed.
Theorem image_paths fuel fuel' path path' w w' :
  shortest_path fuel en g source destination radius flag = Some (Ok path) -> Z.of_nat (List.length path) <= 1000000 ->
  shortest_path fuel' en' g' source' destination' radius flag = Some (Ok path') -> Z.of_nat (List.length path') <= 1000000 ->
  minimal w (en_pick en) -> is_finite w = true -> (Rabs (V w) <= bpow radix2 900)%R ->
  minimal w' (en_pick en') -> is_finite w' = true -> (Rabs (V w') <= bpow radix2 900)%R ->
  exists l r l' r', path = ns :: l /\ sailed ps ns nd ns l nd r /\
    path' = moved m ns :: l' /\ sailed (map (image m) ps) (moved m ns) (moved m nd) (moved m ns) l' (moved m nd) r' /\
    (r <= Rmax 1 (V w) * r' * (1 + / 2000000000))%R /\ (r' <= Rmax 1 (V w') * r * (1 + / 2000000000))%R.
Proof.
  intros E N E' N' M1 M2 M3 M1' M2' M3'.
  destruct (best_route atan2 o2 ps g en source destination ns nd (proj1 Su) (surveyed_true _ _ _ _ Su Dr) Dr Cq radius flag fuel path w E N M1 M2 M3) as (l & r & -> & S & B).
  destruct (best_route atan2' o2' _ g' en' source' destination' _ _ (proj1 Su') (surveyed_true _ _ _ _ Su' Dr') Dr' Cq' radius flag fuel' path' w' E' N' M1' M2' M3') as (l' & r' & -> & S' & B').
  exists l, r, l', r'. cbn [List.length] in N, N'. split; [reflexivity|]. split; [exact S|]. split; [reflexivity|]. split; [exact S'|]. split.
  - pose proof (sailed_image _ _ _ _ _ _ _ _ S') as T. apply (B _ _ T (near_route _ _ T)). rewrite map_length. lia.
  - pose proof (image_sailed m _ _ _ _ _ _ _ S) as T. apply (B' _ _ T (near_image _ _ T)). rewrite map_length. lia.
Qed.
End Query.
