(** Exactness of the generated graph where every vertex has a clear view. *)
From Coq Require Import ZArith Reals Bool List Lia Lra Psatz Sorted Permutation.
From Verif Require Import Base F64 Coordinate Segment Polyline Polygon Periodicity Graph Visgraph VisgraphFacts SpecGeom CoordinateFacts SegmentFacts PolylineFacts PolygonMore GraphFacts GraphMore Sweep SweepFacts SweepMaps SweepGen SweepForced SweepCases AngleFacts AngleSort SweepOrder SweepGeo SweepSound SweepLayers SweepExact.
Import ListNotations.
Local Open Scope Z_scope.

(** ** Vocabulary *)
(** the copy [k] turns to the east *)
Definition wrap (k : Z) (c : coord) : coord := mkC (lon c + k * 360000001) (lat c).
Definition wrap_polygon (k : Z) (P : polygon) : polygon := mkP (map (wrap k) (verts P)).
(** the line from [a] to [c] misses the interior of every copy of every polygon *)
Definition free_line (ps : list polygon) (a c : coord) : Prop :=
  forall P j, In P ps -> ~ through_interior a c (wrap_polygon j P).
(** strictly convex polygons in layers about [o], seen from outside, in general position *)
Definition clear_view (o : coord) (qs : list polygon) : Prop :=
  all_separated o (polygon_vertices qs) /\ (forall P, In P qs -> own_ok o P) /\ off_edges o qs /\ layered o qs /\
  distinct_directions o qs /\ (forall P, In P qs -> ~ in_interior P 1 (lon o) (lat o)) /\
  (forall p n, corner_of qs p o n -> clear_corner p o n).
(** a map and its two copies *)
Definition map_copies (ps : list polygon) : list polygon := flat_map (fun P => [P; wrap_polygon 1 P; wrap_polygon (-1) P]) ps.

(** ** Copies *)
Lemma wrap_0 c : wrap 0 c = c. Proof. apply coord_ext; cbn [wrap lon lat]; lia. Qed.
Lemma wrap_polygon_0 P : wrap_polygon 0 P = P.
Proof. destruct P as [l]. unfold wrap_polygon. cbn [verts]. f_equal. rewrite <- (map_id l) at 2. apply map_ext, wrap_0. Qed.
Lemma wrap_wrap j k c : wrap j (wrap k c) = wrap (j + k) c. Proof. apply coord_ext; cbn [wrap lon lat]; lia. Qed.
Lemma vat_wrap k l i : (i < length l)%nat -> vat (map (wrap k) l) i = wrap k (vat l i).
Proof. intros I. unfold vat. rewrite nth_indep with (d' := wrap k (mkC 0 0)) by (rewrite map_length; exact I). apply map_nth. Qed.
Lemma edge_wrap k P s : edge_of (wrap_polygon k P) s <-> exists t, edge_of P t /\ s = mkS (wrap k (e1 t)) (wrap k (e2 t)).
Proof.
  unfold edge_of, wrap_polygon, ring_next. cbn [verts]. rewrite map_length. split.
  - intros (i & I & ->). exists (mkS (vat (verts P) i) (vat (verts P) ((i + 1) mod length (verts P)))). split; [exists i; auto|].
    cbn [e1 e2]. rewrite !vat_wrap; [reflexivity|apply Nat.mod_upper_bound; lia|exact I].
  - intros (t & (i & I & ->) & ->). exists i. split; [exact I|]. cbn [e1 e2]. rewrite !vat_wrap; [reflexivity|apply Nat.mod_upper_bound; lia|exact I].
Qed.
Lemma through_wrap k j a c P : through_interior (wrap k a) (wrap k c) (wrap_polygon (k + j) P) <-> through_interior a c (wrap_polygon j P).
Proof.
  unfold through_interior. split; intros (q & u & U & H); exists q, u; (split; [exact U|]); rewrite interior_left in *; intros s S.
  - apply edge_wrap in S. destruct S as (t & T & ->). specialize (H (mkS (wrap (k + j) (e1 t)) (wrap (k + j) (e2 t))) (proj2 (edge_wrap _ _ _) (ex_intro _ t (conj T eq_refl)))).
    unfold left_of, turn, wrap in *. cbn [e1 e2 lon lat] in *. lia.
  - apply edge_wrap in S. destruct S as (t & T & ->). specialize (H (mkS (wrap j (e1 t)) (wrap j (e2 t))) (proj2 (edge_wrap _ _ _) (ex_intro _ t (conj T eq_refl)))).
    unfold left_of, turn, wrap in *. cbn [e1 e2 lon lat] in *. lia.
Qed.
Lemma through_sym a c P : through_interior a c P -> through_interior c a P.
Proof.
  intros (q & u & U & H). exists q, (q - u). split; [lia|]. rewrite interior_left in *. intros s S. specialize (H s S). lia.
Qed.
Lemma free_sym ps a b k : free_line ps a (wrap k b) -> free_line ps b (wrap (- k) a).
Proof.
  intros F P j HP T. apply (F P (k + j) HP). apply (through_wrap k j) in T. rewrite wrap_wrap, Z.add_opp_diag_r, wrap_0 in T. apply through_sym, T.
Qed.
Lemma wrap_inj k a b : wrap k a = wrap k b -> a = b.
Proof. intros E. injection E as E1 E2. apply coord_ext; lia. Qed.
Lemma convex_wrap k P : convex 1 P -> convex 1 (wrap_polygon k P).
Proof.
  intros (_ & L & C). split; [auto|]. split; [unfold wrap_polygon; cbn [verts]; rewrite map_length; exact L|].
  intros s c S I T. apply edge_wrap in S. destruct S as (t & E & ->). unfold wrap_polygon in I. cbn [verts] in I. apply in_map_iff in I. destruct I as (d & <- & I).
  specialize (C t d E I). cbn [e1 e2]. assert (X : ~ touches t d) by (intros [<- | <-]; apply T; [left|right]; reflexivity). specialize (C X).
  unfold turn, wrap in *. cbn [lon lat]. lia.
Qed.

(** ** An inner point lies between the vertices *)
Lemma extreme (f : coord -> Z) (l : list coord) : l <> [] -> exists c, In c l /\ forall d, In d l -> f c <= f d.
Proof.
  induction l as [|a l IH]; intros N; [congruence|]. destruct l as [|b l]; [exists a; split; [left; reflexivity|intros d [<-|[]]; lia]|].
  destruct IH as (c & C & M); [discriminate|]. destruct (Z.le_gt_cases (f a) (f c)) as [H|H].
  - exists a. split; [left; reflexivity|]. intros d [<-|D]; [lia|specialize (M d D); lia].
  - exists c. split; [right; exact C|]. intros d [<-|D]; [lia|apply M, D].
Qed.
Lemma interior_between P q x y : convex 1 P -> NoDup (verts P) -> 0 < q -> in_interior P q x y ->
  (exists c, In c (verts P) /\ q * lon c <= x) /\ (exists c, In c (verts P) /\ x <= q * lon c).
Proof.
  intros C N Q H. pose proof C as (_ & L & _). assert (Ne : verts P <> []) by (destruct (verts P); [cbn [length] in L; lia|discriminate]).
  assert (K : forall sg, sg = 1 \/ sg = -1 -> forall c, In c (verts P) -> (forall d, In d (verts P) -> sg * lon c <= sg * lon d) -> sg * (q * lon c) <= sg * x).
  { intros sg Sg c I M. destruct (corner_at P c N L I) as (p & n & Kc). destruct (corner_facts P p c n Kc) as (Ip & _ & In_).
    pose proof (H _ (c_in _ _ _ _ Kc)) as H1. pose proof (H _ (c_out _ _ _ _ Kc)) as H2. cbn [e1 e2] in H1, H2.
    assert (D : 0 < turn p c n).
    { destruct (corner_left 1 P p c n n C Kc In_) as (_ & _ & X & _); [intros X; apply (c_vn _ _ _ _ Kc); auto|].
      specialize (X (fun E => c_pn _ _ _ _ Kc (eq_sym E))). lia. }
    set (g := (lon c - lon p) * (y - q * lat p) - (lat c - lat p) * (x - q * lon p)) in *.
    set (h := (lon n - lon c) * (y - q * lat c) - (lat n - lat c) * (x - q * lon c)) in *.
    assert (E : turn p c n * (x - q * lon c) = g * (lon n - lon c) + h * (lon p - lon c)) by (subst g h; unfold turn; ring).
    pose proof (M n In_) as Mn. pose proof (M p Ip) as Mp. clearbody g h. set (w := turn p c n) in *. clearbody w.
    assert (0 <= w * (sg * (x - q * lon c))).
    { replace (w * (sg * (x - q * lon c))) with (sg * (w * (x - q * lon c))) by ring. rewrite E.
      replace (sg * (g * (lon n - lon c) + h * (lon p - lon c))) with (g * (sg * lon n - sg * lon c) + h * (sg * lon p - sg * lon c)) by ring. clear - H1 H2 Mn Mp. nia. }
    assert (0 <= sg * (x - q * lon c)) by (clear - H0 D; nia). lia. }
  split.
  - destruct (extreme (fun c => 1 * lon c) (verts P) Ne) as (c & I & M). exists c. split; [exact I|]. specialize (K 1 ltac:(auto) c I M). lia.
  - destruct (extreme (fun c => -1 * lon c) (verts P) Ne) as (c & I & M). exists c. split; [exact I|]. specialize (K (-1) ltac:(auto) c I M). lia.
Qed.
Lemma nodup_wrap k P : NoDup (verts P) -> NoDup (verts (wrap_polygon k P)).
Proof. intros N. unfold wrap_polygon. cbn [verts]. apply FinFun.Injective_map_NoDup; [intros a b; apply wrap_inj|exact N]. Qed.
(** copies too far away to matter *)
Lemma far_copy P a b k j : convex 1 P -> NoDup (verts P) -> (forall c, In c (verts P) -> ngeo c) -> ngeo a -> ngeo b -> -1 <= k <= 1 -> j < -1 \/ 1 < j ->
  ~ through_interior a (wrap k b) (wrap_polygon j P).
Proof.
  intros C N G [A _] [B _] K J (q & u & U & H).
  destruct (interior_between _ q _ _ (convex_wrap j P C) (nodup_wrap j P N) ltac:(lia) H) as [(c & Ic & Hc) (d & Id & Hd)].
  unfold wrap_polygon in Ic, Id. cbn [verts] in Ic, Id. apply in_map_iff in Ic. apply in_map_iff in Id.
  destruct Ic as (c' & <- & Ic). destruct Id as (d' & <- & Id). destruct (G c' Ic) as [Gc _]. destruct (G d' Id) as [Gd _]. unfold wrap in *. cbn [lon lat] in *.
  destruct J as [J|J].
  - assert (lon d' + j * 360000001 < lon a /\ lon d' + j * 360000001 < lon b + k * 360000001) by lia. nia.
  - assert (lon a < lon c' + j * 360000001 /\ lon b + k * 360000001 < lon c' + j * 360000001) by lia. nia.
Qed.

Lemma copies_in ps Q : In Q (map_copies ps) <-> exists P j, In P ps /\ -1 <= j <= 1 /\ Q = wrap_polygon j P.
Proof.
  unfold map_copies. rewrite in_flat_map. split.
  - intros (P & HP & [<-|[<-|[<-|[]]]]); [exists P, 0; rewrite wrap_polygon_0|exists P, 1|exists P, (-1)]; (split; [exact HP|split; [lia|reflexivity]]).
  - intros (P & j & HP & J & ->). exists P. split; [exact HP|]. assert (Z : j = 0 \/ j = 1 \/ j = -1) by lia. cbn [In].
    destruct Z as [->|[->| ->]]; [left; symmetry; apply wrap_polygon_0|right; left; reflexivity|right; right; left; reflexivity].
Qed.
Lemma copies_vertices ps c : In c (polygon_vertices (map_copies ps)) <-> exists v k, In v (polygon_vertices ps) /\ -1 <= k <= 1 /\ c = wrap k v.
Proof.
  rewrite in_polygon_vertices. split.
  - intros (Q & HQ & I). apply copies_in in HQ. destruct HQ as (P & j & HP & J & ->). unfold wrap_polygon in I. cbn [verts] in I. apply in_map_iff in I.
    destruct I as (v & <- & I). exists v, j. split; [apply in_polygon_vertices; eauto|auto].
  - intros (v & k & V & K & ->). apply in_polygon_vertices in V. destruct V as (P & HP & I). exists (wrap_polygon k P). split; [apply copies_in; eauto|].
    unfold wrap_polygon. cbn [verts]. apply in_map, I.
Qed.
Lemma copies_translates ps : concat (map translates ps) = map_copies ps.
Proof.
  unfold map_copies. rewrite flat_map_concat_map. f_equal. apply map_ext. intros P. unfold translates, wrap_polygon. f_equal. f_equal; [|f_equal]; f_equal; apply map_ext; intros c; apply coord_ext; cbv [shift wrap PolygonMore.east PolygonMore.west]; cbn [lon lat]; lia.
Qed.

Lemma nodup_join {A} (l l' : list A) : NoDup l -> NoDup l' -> (forall x, In x l -> ~ In x l') -> NoDup (l ++ l').
Proof.
  induction 1 as [|x l X N IH]; intros N' D; [exact N'|]. cbn [app]. constructor.
  - rewrite in_app_iff. intros [H|H]; [contradiction|]. apply (D x (or_introl eq_refl) H).
  - apply IH; [exact N'|]. intros y Y. apply D. right. exact Y.
Qed.
Lemma wrap_home a b j k : ngeo a -> ngeo b -> wrap j a = wrap k b -> j = k /\ a = b.
Proof.
  intros [A _] [B _] E. injection E as E1 E2. assert (j = k) by lia. split; [assumption|]. subst k. apply coord_ext; lia.
Qed.
Lemma copies_nodup ps : (forall c, In c (polygon_vertices ps) -> ngeo c) -> NoDup (polygon_vertices ps) -> NoDup (polygon_vertices (map_copies ps)).
Proof.
  induction ps as [|P ps IH]; intros G N; [constructor|].
  assert (G1 : forall c, In c (verts P) -> ngeo c) by (intros c C; apply G, in_polygon_vertices; exists P; split; [left; reflexivity|exact C]).
  assert (G2 : forall c, In c (polygon_vertices ps) -> ngeo c).
  { intros c C. apply in_polygon_vertices in C. destruct C as (Q & HQ & C). apply G, in_polygon_vertices. exists Q. split; [right; exact HQ|exact C]. }
  change (polygon_vertices (P :: ps)) with (verts P ++ polygon_vertices ps) in N.
  pose proof (nodup_l _ _ N) as N1. pose proof (nodup_r _ _ N) as N2. specialize (IH G2 N2).
  assert (D : forall c, In c (verts P) -> ~ In c (polygon_vertices ps)).
  { clear - N. induction (verts P) as [|x l IH]; intros c C H; [destruct C|]; inversion N as [|? ? X Y]; subst; destruct C as [->|C]; [apply X, in_or_app; right; exact H|apply (IH Y c); assumption]. }
  change (polygon_vertices (map_copies (P :: ps))) with (verts P ++ verts (wrap_polygon 1 P) ++ verts (wrap_polygon (-1) P) ++ polygon_vertices (map_copies ps)).
  assert (X : forall j c, -1 <= j <= 1 -> In c (map (wrap j) (verts P)) -> ~ In c (polygon_vertices (map_copies ps))).
  { intros j c J C H. apply in_map_iff in C. destruct C as (d & <- & C). apply copies_vertices in H. destruct H as (v & k & V & _ & E).
    destruct (wrap_home _ _ _ _ (G1 d C) (G2 v V) E) as [_ ->]. apply (D v C V). }
  assert (Y : forall j k c, j <> k -> In c (map (wrap j) (verts P)) -> ~ In c (map (wrap k) (verts P))).
  { intros j k c J C H. apply in_map_iff in C. apply in_map_iff in H. destruct C as (d & <- & C). destruct H as (e & E & H).
    destruct (wrap_home _ _ _ _ (G1 e H) (G1 d C) E) as [F _]. congruence. }
  assert (Z0 : verts P = map (wrap 0) (verts P)) by (rewrite <- (map_id (verts P)) at 1; apply map_ext; intros c; symmetry; apply wrap_0).
  repeat apply nodup_join; try exact IH; try exact N1; try (apply nodup_wrap, N1).
  - intros c C. apply (X (-1)); [lia|exact C].
  - intros c C. change (verts (wrap_polygon 1 P)) with (map (wrap 1) (verts P)) in C. rewrite in_app_iff. intros [H|H]; [revert H; apply (Y 1 (-1)); [lia|exact C]|revert H; apply (X 1); [lia|exact C]].
  - intros c C. rewrite Z0 in C. rewrite !in_app_iff. intros [H|[H|H]]; [revert H; apply (Y 0 1); [lia|exact C]|revert H; apply (Y 0 (-1)); [lia|exact C]|revert H; apply (X 0); [lia|exact C]].
Qed.

(** ** One observer *)
Lemma Forall2_at {A B} (R : A -> B -> Prop) l l' x : Forall2 R l l' -> In x l -> exists y, In y l' /\ R x y.
Proof. induction 1 as [|a b l l' H F IH]; intros []; [subst; exists b; split; [left; reflexivity|exact H]|destruct IH as (y & Y & Z); [assumption|exists y; split; [right; exact Y|exact Z]]]. Qed.

Lemma copy_meridian v k : ngeo v -> over_meridian (wrap k v) = negb (k =? 0).
Proof. intros [V _]. unfold over_meridian, MIN_LONGITUDE, MAX_LONGITUDE, wrap. cbn [lon]. lia. Qed.
Lemma copy_of_wrap v k : -1 <= k <= 1 -> copy_of v (wrap k v).
Proof. intros K. exists (k * 360000001). split; [lia|reflexivity]. Qed.
Lemma reported_exact atan2 ord ps a b f : accurate_atan2 atan2 -> library_orders ord -> Forall clear_polygon ps -> NoDup (polygon_vertices ps) ->
  clear_view a (map_copies ps) -> In a (polygon_vertices ps) -> In b (polygon_vertices ps) -> a <> b ->
  (exists xs x, vis_periodic atan2 ord ps a = Ok xs /\ In x xs /\ v_coord x = b /\ v_across x = f) <->
  lat a <= lat b /\ exists k, -1 <= k <= 1 /\ f = negb (k =? 0) /\ free_line ps a (wrap k b).
Proof.
  intros T L F N (S1 & S2 & S3 & S4 & S5 & S6 & S7) A B D.
  assert (Gv : forall c, In c (polygon_vertices ps) -> ngeo c).
  { intros c C. apply in_polygon_vertices in C. destruct C as (P & HP & C). rewrite Forall_forall in F. destruct (clear_polygon_facts P (F P HP)) as (X & _).
    rewrite Forall_forall in X. apply X, C. }
  assert (Gp : forall c, In c (polygon_vertices (map_copies ps)) -> pgeo c).
  { intros c C. apply copies_vertices in C. destruct C as (v & k & V & K & ->). apply (copy_facts v _ (Gv v V) (copy_of_wrap v k K)). }
  assert (Ga := Gv a A). assert (Gb := Gv b B).
  destruct (sweep_exact atan2 ord (map_copies ps) a true T L (ngeo_pgeo a Ga)) as (res & seen & R & Fr & Ex); try assumption; [destruct Ga; lia|apply copies_nodup; assumption|].
  assert (V : vis_periodic atan2 ord ps a = Ok res).
  { unfold vis_periodic. rewrite (periodic_polygons_ok ps F). cbn [bind]. rewrite copies_translates. exact R. }
  rewrite V.
  assert (Free : forall k, -1 <= k <= 1 -> (free_line ps a (wrap k b) <-> forall Q, In Q (map_copies ps) -> ~ through_interior a (wrap k b) Q)).
  { intros k K. split.
    - intros H Q HQ. apply copies_in in HQ. destruct HQ as (P & j & HP & _ & ->). apply H, HP.
    - intros H P j HP. destruct (Z_le_dec (-1) j) as [J1|J1]; [destruct (Z_le_dec j 1) as [J2|J2]|].
      + apply H, copies_in. exists P, j. auto.
      + apply far_copy; try assumption; try lia; [|apply (nodup_parts ps), HP; exact N|intros c C; apply Gv, in_polygon_vertices; eauto].
        apply (S2 P), copies_in. exists P, 0. rewrite wrap_polygon_0. repeat split; try lia. exact HP.
      + apply far_copy; try assumption; try lia; [|apply (nodup_parts ps), HP; exact N|intros c C; apply Gv, in_polygon_vertices; eauto].
        apply (S2 P), copies_in. exists P, 0. rewrite wrap_polygon_0. repeat split; try lia. exact HP. }
  split.
  - intros (xs & x & E & X & Xb & Xf). inversion E; subst xs. destruct (Forall2_in_r _ _ _ _ Fr X) as (c & Ic & Nc & Ac).
    apply Ex in Ic. destruct Ic as (Ic & _ & Lc & H). apply copies_vertices in Ic. destruct Ic as (v & k & Vv & K & ->).
    destruct (copy_facts v _ (Gv v Vv) (copy_of_wrap v k K)) as (_ & Nv & _). rewrite Nv in Nc. assert (v = b) by congruence. subst v.
    split; [apply (Lc eq_refl)|]. exists k. split; [exact K|]. split; [rewrite <- (copy_meridian b k Gb); congruence|]. apply Free; assumption.
  - intros (La & k & K & -> & H). assert (Ic : In (wrap k b) seen).
    { apply Ex. split; [apply copies_vertices; exists b, k; auto|]. split; [intros E; rewrite <- (wrap_0 a) in E; destruct (wrap_home _ _ _ _ Gb Ga E); congruence|].
      split; [intros _; exact La|]. apply Free; assumption. }
    destruct (Forall2_at _ _ _ _ Fr Ic) as (x & X & Nc & Ac). exists res, x. split; [reflexivity|]. split; [exact X|].
    destruct (copy_facts b _ Gb (copy_of_wrap b k K)) as (_ & Nv & _). split; [congruence|]. rewrite Ac. apply copy_meridian, Gb.
Qed.

(** ** The graph *)
Lemma reported_dec ps vis u v f : reports ps vis -> In u (polygon_vertices ps) -> reported vis u v f \/ ~ reported vis u v f.
Proof.
  intros R U. destruct (R u U) as (xs & E & _). destruct (existsb (fun x => coord_eqb (v_coord x) v && Bool.eqb (v_across x) f) xs) eqn:Ex.
  - left. apply existsb_exists in Ex. destruct Ex as (x & X & H). apply andb_true_iff in H. rewrite coord_eqb_spec, eqb_true_iff in H. exists xs, x. tauto.
  - right. intros (xs' & x & E' & X & V & F). rewrite E in E'. inversion E'; subst xs'. assert (K : existsb (fun x => coord_eqb (v_coord x) v && Bool.eqb (v_across x) f) xs = true).
    { apply existsb_exists. exists x. split; [exact X|]. rewrite V, F, (proj2 (coord_eqb_spec v v) eq_refl), eqb_reflx. reflexivity. }
    congruence.
Qed.
Theorem graph_exact atan2 ords ps : accurate_atan2 atan2 -> (forall v, library_orders (ords v)) -> Forall clear_polygon ps -> NoDup (polygon_vertices ps) ->
  (forall o, In o (polygon_vertices ps) -> clear_view o (map_copies ps)) ->
  exists g, generate (fun v => vis_periodic atan2 (ords v) ps v) ps = Ok g /\
    forall a b, In a (polygon_vertices ps) -> In b (polygon_vertices ps) -> a <> b ->
      (has_edge g a b = Ok true <-> exists k, -1 <= k <= 1 /\ free_line ps a (wrap k b)) /\
      (is_edge_meridian_crossing g a b = Ok true <-> has_edge g a b = Ok true /\ ~ free_line ps a b) /\
      (is_edge_meridian_crossing g a b = Ok false -> has_edge g a b = Ok true -> free_line ps a b).
Proof.
  intros T L F N C.
  assert (Gv : forall c, In c (polygon_vertices ps) -> ngeo c).
  { intros c I. apply in_polygon_vertices in I. destruct I as (P & HP & I). rewrite Forall_forall in F. destruct (clear_polygon_facts P (F P HP)) as (X & _).
    rewrite Forall_forall in X. apply X, I. }
  pose proof (periodic_reports atan2 ords ps L Gv) as R. set (vis := fun v => vis_periodic atan2 (ords v) ps v) in *.
  destruct (generate_ok ps vis R) as (g & E & _). exists g. split; [exact E|]. intros a b A B D.
  destruct (generate_edges ps vis g a b R E A B D) as [H1 H2].
  assert (Rep : forall u v f, In u (polygon_vertices ps) -> In v (polygon_vertices ps) -> u <> v ->
    (reported vis u v f <-> lat u <= lat v /\ exists k, -1 <= k <= 1 /\ f = negb (k =? 0) /\ free_line ps u (wrap k v))).
  { intros u v f U V W. apply reported_exact; try assumption; [apply L|apply C, U]. }
  assert (Ed : forall f, reported vis a b f \/ reported vis b a f <-> exists k, -1 <= k <= 1 /\ f = negb (k =? 0) /\ free_line ps a (wrap k b)).
  { intros f. rewrite (Rep a b f A B D), (Rep b a f B A (fun e => D (eq_sym e))). split.
    - intros [(_ & H)|(_ & k & K & Ef & H)]; [exact H|]. exists (- k). split; [lia|]. split; [rewrite Ef; lia|]. apply free_sym, H.
    - intros (k & K & Ef & H). destruct (Z.le_ge_cases (lat a) (lat b)) as [M|M]; [left; eauto 6|right]. split; [exact M|]. exists (- k). split; [lia|].
      split; [rewrite Ef; lia|]. apply free_sym, H. }
  assert (Pl : (reported vis a b false \/ reported vis b a false) <-> free_line ps a b).
  { rewrite (Ed false). split.
    - intros (k & K & Ek & X). destruct (Z.eqb_spec k 0) as [->|]; [rewrite wrap_0 in X; exact X|discriminate Ek].
    - intros X. exists 0. rewrite wrap_0. repeat split; try lia. exact X. }
  split; [|split].
  - rewrite H1. split.
    + intros (f & H). apply Ed in H. destruct H as (k & K & _ & H). eauto.
    + intros (k & K & H). exists (negb (k =? 0)). apply Ed. eauto.
  - rewrite H2. split; intros [H0 H]; (split; [exact H0|]).
    + intros X. apply Pl in X. specialize (H false X). discriminate H.
    + intros f Hf. destruct f; [reflexivity|]. apply Pl in Hf. contradiction.
  - intros Cr He. apply Pl. destruct (reported_dec ps vis a b false R A) as [X|X]; [left; exact X|].
    destruct (reported_dec ps vis b a false R B) as [Y|Y]; [right; exact Y|]. exfalso.
    assert (Z : is_edge_meridian_crossing g a b = Ok true); [|congruence]. apply H2. split; [exact He|]. intros f [Hf|Hf]; destruct f; try reflexivity; contradiction.
Qed.
