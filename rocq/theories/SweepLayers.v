(** Decision procedures for the hypotheses of [sweep_sound], and a map that meets them. *)
From Coq Require Import ZArith Reals Bool List Lia Psatz Sorted Permutation.
From Verif Require Import Base F64 Coordinate Segment Polygon Graph Visgraph SpecGeom CoordinateFacts SegmentFacts PolylineFacts GraphFacts Sweep SweepFacts SweepMaps AngleFacts AngleSort SweepForced SweepCases SweepOrder SweepGeo SweepSound.
Import ListNotations.
Local Open Scope Z_scope.

Definition edges_list (P : polygon) : list segment := map (fun i => mkS (vat (verts P) i) (ring_next (verts P) i)) (seq 0 (length (verts P))).
Lemma edges_list_ok P s : edge_of P s <-> In s (edges_list P).
Proof.
  unfold edges_list. rewrite in_map_iff. split.
  - intros (i & I & ->). exists i. split; [reflexivity|]. apply in_seq. lia.
  - intros (i & E & I). apply in_seq in I. exists i. split; [lia|auto].
Qed.
Definition touches_b (s : segment) (c : coord) : bool := coord_eqb (e1 s) c || coord_eqb (e2 s) c.
Lemma touches_b_ok s c : touches_b s c = true <-> touches s c.
Proof. unfold touches_b, touches. rewrite orb_true_iff, !coord_eqb_spec. tauto. Qed.
Definition convex_b (sg : Z) (P : polygon) : bool :=
  ((sg =? 1) || (sg =? -1)) && (3 <=? length (verts P))%nat &&
  forallb (fun s => forallb (fun c => touches_b s c || (0 <? sg * turn (e1 s) (e2 s) c)) (verts P)) (edges_list P).
Lemma convex_b_ok sg P : convex_b sg P = true -> convex sg P.
Proof.
  unfold convex_b. rewrite !andb_true_iff, orb_true_iff, !Z.eqb_eq, Nat.leb_le, forallb_forall. intros [[A B] C]. split; [exact A|]. split; [exact B|].
  intros s c E I T. apply edges_list_ok in E. specialize (C s E). rewrite forallb_forall in C. specialize (C c I). apply orb_true_iff in C.
  destruct C as [C|C]; [apply touches_b_ok in C; contradiction|apply Z.ltb_lt, C].
Qed.
(** far from every edge's line *)
Definition thick_b (P : polygon) : bool :=
  forallb (fun s => forallb (fun c => touches_b s c || ((dist2 (e1 s) (e2 s) <=? turn (e1 s) (e2 s) c * turn (e1 s) (e2 s) c) && (0 <? dist2 (e1 s) (e2 s)))) (verts P)) (edges_list P).
Lemma thick_b_ok P : thick_b P = true -> thick P.
Proof.
  unfold thick_b. rewrite forallb_forall. intros C c e q t I E T Q Ht. apply edges_list_ok in E. specialize (C e E). rewrite forallb_forall in C. specialize (C c I).
  apply orb_true_iff in C. destruct C as [C|C]; [apply touches_b_ok in C; contradiction|]. apply andb_true_iff in C. destruct C as [C D]. apply Z.leb_le in C. apply Z.ltb_lt in D.
  assert (X : q * turn (e1 e) (e2 e) c = (lat (e2 e) - lat (e1 e)) * px c e q t - (lon (e2 e) - lon (e1 e)) * py c e q t) by (unfold turn, px, py; ring).
  unfold dist2 in C, D. set (a := lon (e2 e) - lon (e1 e)) in *. set (b := lat (e2 e) - lat (e1 e)) in *. set (x := px c e q t) in *. set (y := py c e q t) in *. set (k := turn (e1 e) (e2 e) c) in *.
  clearbody a b x y k. clear - C D X Q.
  assert (S : (q * k) * (q * k) <= (a * a + b * b) * (x * x + y * y)) by (rewrite X; pose proof (Z.square_nonneg (b * y + a * x)); nia).
  assert (q * q * (a * a + b * b) <= (a * a + b * b) * (x * x + y * y)) by (assert (0 <= q * q) by nia; nia). nia.
Qed.
Definition off_b (o : coord) (ps : list polygon) : bool := forallb (fun P => forallb (fun s => touches_b s o || negb (turn o (e1 s) (e2 s) =? 0)) (edges_list P)) ps.
Lemma off_b_ok o ps : off_b o ps = true -> off_edges o ps.
Proof.
  unfold off_b. rewrite forallb_forall. intros C s (P & i & HP & I & E) (q & t & Q & _ & X & Y). specialize (C P HP). rewrite forallb_forall in C.
  specialize (C s). rewrite <- edges_list_ok in C. specialize (C (ex_intro _ i (conj I E))). apply orb_true_iff in C. destruct C as [C|C]; [apply touches_b_ok, C|exfalso].
  apply negb_true_iff, Z.eqb_neq in C. apply C.
  assert (X' : q * (lon (e1 s) - lon o) = t * (lon (e1 s) - lon (e2 s))) by lia. assert (Y' : q * (lat (e1 s) - lat o) = t * (lat (e1 s) - lat (e2 s))) by lia.
  assert (Z0 : q * turn o (e1 s) (e2 s) = 0).
  { replace (q * turn o (e1 s) (e2 s)) with ((q * (lon (e1 s) - lon o)) * (lat (e2 s) - lat (e1 s)) - (q * (lat (e1 s) - lat o)) * (lon (e2 s) - lon (e1 s))) by (unfold turn; ring).
    rewrite X', Y'. ring. }
  nia.
Qed.
(** candidates for the keys of an edge *)
Definition initially_b (o : coord) (s : segment) : bool := negb (turn o (e1 s) (e2 s) =? 0) && (lat (first o s) <? lat o) && (lat o <? lat (final o s)).
Lemma initially_b_ok o s : initially_b o s = true <-> initially o s.
Proof. unfold initially_b, initially, swept. rewrite !andb_true_iff, negb_true_iff, Z.eqb_neq, !Z.ltb_lt. tauto. Qed.
Definition keys_of (o : coord) (s : segment) : list Z :=
  if initially_b o s then let k := turn o (first o s) (final o s) / (lat (final o s) - lat (first o s)) in [k; k + 1] else [].
Lemma keys_of_ok o s k : initially o s -> crossing_key o s k -> In k (keys_of o s).
Proof.
  intros I K. pose proof (crossing_first o s k I K) as C. unfold keys_of. rewrite (proj2 (initially_b_ok o s) I). destruct I as [_ [A B]]. cbv zeta.
  set (h := lat (final o s) - lat (first o s)) in *. set (w := turn o (first o s) (final o s)) in *. assert (H : 0 < h) by (subst h; lia). clearbody h w.
  pose proof (Z.div_mod w h ltac:(lia)) as D. pose proof (Z.mod_pos_bound w h H) as M. set (f := w / h) in *. set (r := w mod h) in *. clearbody f r.
  cbn [In]. assert (k = f \/ k = f + 1); [|intuition]. clear - C D M H. assert (f - 1 < k) by nia. assert (k < f + 2) by nia. lia.
Qed.
Definition distinct_b (o : coord) (P : polygon) : bool :=
  forallb (fun a => forallb (fun b => coord_eqb a b || negb (dist2 o a =? dist2 o b)) (verts P)) (verts P) &&
  forallb (fun s => forallb (fun k => forallb (fun c => negb (k * k =? dist2 o c)) (verts P)) (keys_of o s)) (edges_list P) &&
  forallb (fun s => forallb (fun t => (coord_eqb (e1 s) (e1 t) && coord_eqb (e2 s) (e2 t)) ||
     forallb (fun k => forallb (fun l => negb (k * k =? l * l)) (keys_of o t)) (keys_of o s)) (edges_list P)) (edges_list P).
Lemma distinct_b_ok o P : distinct_b o P = true -> distinct_keys o P.
Proof.
  unfold distinct_b. rewrite !andb_true_iff, !forallb_forall. intros [[A B] C]. split; [|split].
  - intros a b Ia Ib N. specialize (A a Ia). rewrite forallb_forall in A. specialize (A b Ib). apply orb_true_iff in A. rewrite coord_eqb_spec, negb_true_iff, Z.eqb_neq in A. tauto.
  - intros s k c E I K Ic. apply edges_list_ok in E. specialize (B s E). rewrite forallb_forall in B. specialize (B k (keys_of_ok o s k I K)). rewrite forallb_forall in B.
    specialize (B c Ic). rewrite negb_true_iff, Z.eqb_neq in B. exact B.
  - intros s t k l E F N I J K L. apply edges_list_ok in E. apply edges_list_ok in F. specialize (C s E). rewrite forallb_forall in C. specialize (C t F).
    apply orb_true_iff in C. destruct C as [C|C].
    + exfalso. apply andb_true_iff in C. rewrite !coord_eqb_spec in C. apply N. destruct s as [a b], t as [c d]. cbn [e1 e2] in C. destruct C; congruence.
    + rewrite forallb_forall in C. specialize (C k (keys_of_ok o s k I K)). rewrite forallb_forall in C. specialize (C l (keys_of_ok o t l J L)). rewrite negb_true_iff, Z.eqb_neq in C. exact C.
Qed.
(** a polygon beyond a vertical or horizontal line *)
Definition outside_b (o : coord) (r : Z) (P : polygon) : bool :=
  (0 <=? r) && (forallb (fun c => r <=? lon c - lon o) (verts P) || forallb (fun c => r <=? lat c - lat o) (verts P) ||
   forallb (fun c => r <=? lon o - lon c) (verts P) || forallb (fun c => r <=? lat o - lat c) (verts P)).
Lemma outside_b_ok o r P : outside_b o r P = true -> outside o r P.
Proof.
  unfold outside_b. rewrite andb_true_iff, !orb_true_iff, !forallb_forall, Z.leb_le. intros [R H] e q t E Q T. destruct (edge_verts P e E) as [I1 I2].
  assert (K : forall f : coord -> Z, (forall c, In c (verts P) -> (r <=? f c) = true) -> (q * r) * (q * r) <= ((q - t) * f (e1 e) + t * f (e2 e)) * ((q - t) * f (e1 e) + t * f (e2 e))).
  { intros f F. pose proof (F _ I1) as A. pose proof (F _ I2) as B. apply Z.leb_le in A. apply Z.leb_le in B.
    assert (q * r <= (q - t) * f (e1 e) + t * f (e2 e)) by nia. assert (0 <= q * r) by nia. nia. }
  set (x := (q - t) * (lon (e1 e) - lon o) + t * (lon (e2 e) - lon o)). set (y := (q - t) * (lat (e1 e) - lat o) + t * (lat (e2 e) - lat o)).
  pose proof (Z.square_nonneg x). pose proof (Z.square_nonneg y).
  destruct H as [[[H|H]|H]|H]; apply K in H; cbv beta in H.
  - subst x. lia.
  - subst y. lia.
  - replace ((q - t) * (lon o - lon (e1 e)) + t * (lon o - lon (e2 e))) with (- x) in H by (subst x; ring). rewrite Z.mul_opp_opp in H. lia.
  - replace ((q - t) * (lat o - lat (e1 e)) + t * (lat o - lat (e2 e))) with (- y) in H by (subst y; ring). rewrite Z.mul_opp_opp in H. lia.
Qed.
Definition inside_b (o : coord) (r : Z) (P : polygon) : bool := forallb (fun c => dist2 o c <=? r * r) (verts P).
Lemma inside_b_ok o r P : inside_b o r P = true -> inside o r P.
Proof. unfold inside_b. rewrite forallb_forall. intros H c I. apply Z.leb_le, H, I. Qed.
(** each polygon, with its radius, inside all the later ones *)
Fixpoint stacked_b (o : coord) (l : list (Z * polygon)) : bool :=
  match l with
  | [] => true
  | (r, P) :: l' => (0 <=? r) && inside_b o r P && forallb (fun x => outside_b o (r + 1) (snd x)) l' && stacked_b o l'
  end.
Lemma stacked_b_ok o l : stacked_b o l = true -> layered o (map snd l).
Proof.
  induction l as [|[r P] l IH]; intros H; [intros A B []|]. cbn [stacked_b] in H. rewrite !andb_true_iff, forallb_forall, Z.leb_le in H. destruct H as [[[R I] F] S].
  apply inside_b_ok in I. specialize (IH S). assert (F' : forall Q, In Q (map snd l) -> outside o (r + 1) Q).
  { intros Q HQ. apply in_map_iff in HQ. destruct HQ as (x & <- & X). apply outside_b_ok, F, X. }
  intros A B HA HB N Sh. cbn [map snd] in HA, HB. destruct HA as [<-|HA], HB as [<-|HB]; [congruence| | |apply IH; assumption].
  - exists r. split; [exact R|]. left. auto.
  - exists r. split; [exact R|]. right. auto.
Qed.
Definition nodup_b (l : list coord) : bool := (length (nodup coord_dec l) =? length l)%nat.
Lemma nodup_b_ok l : nodup_b l = true -> NoDup l.
Proof.
  intros H. apply Nat.eqb_eq in H. pose proof (NoDup_nodup coord_dec l) as N.
  eapply NoDup_incl_NoDup; [exact N|lia|]. intros x X. apply nodup_In in X. exact X.
Qed.
Definition meets_before_b (e : segment) (o v : coord) (q t u : Z) : bool :=
  (0 <? q) && (0 <=? t) && (t <=? q) && (0 <=? u) && (u <? q) &&
  ((q - t) * lon (e1 e) + t * lon (e2 e) =? (q - u) * lon o + u * lon v) && ((q - t) * lat (e1 e) + t * lat (e2 e) =? (q - u) * lat o + u * lat v).
Lemma meets_before_b_ok e o v q t u : meets_before_b e o v q t u = true -> meets_before e o v.
Proof. unfold meets_before_b. rewrite !andb_true_iff, !Z.ltb_lt, !Z.leb_le, !Z.eqb_eq. intros H. exists q, t, u. lia. Qed.

(** ** A map in three layers around (0, 0) *)
Definition near_quad : polygon := mkP [mkC 2000000 (-1000000); mkC 3000000 (-700000); mkC 2900000 1100000; mkC 2100000 900000].
Definition far_quad : polygon := mkP [mkC 5000000 (-1500000); mkC 6500000 (-300000); mkC 6000000 600000; mkC 4700000 2400000].
Definition north_triangle : polygon := mkP [mkC 1500000 7000000; mkC (-2500000) 9000000; mkC (-3000000) 7500000].
Definition layered_map : list polygon := [near_quad; far_quad; north_triangle].
Definition layer_radii : list (Z * polygon) := [(3200000, near_quad); (6600000, far_quad); (9400000, north_triangle)].
Definition layered_checks : bool :=
  nodup_b (polygon_vertices layered_map) && off_b (mkC 0 0) layered_map && stacked_b (mkC 0 0) layer_radii &&
  forallb (convex_b 1) layered_map && forallb thick_b layered_map && forallb (distinct_b (mkC 0 0)) layered_map &&
  forallb (fun c => (Z.abs (lon c) <=? 540000001) && (Z.abs (lat c) <=? 90000000) && (dot (from (mkC 0 0) c) (from (mkC 0 0) c) <=? 2 ^ 47)) (polygon_vertices layered_map).
Definition cut_b (o v : coord) (P : polygon) : bool :=
  existsb (fun e => negb (touches_b e o) &&
    let q := Z.abs (turn o v (e2 e) - turn o v (e1 e)) in
    meets_before_b e o v q (Z.abs (turn o v (e1 e))) (Z.abs (turn o (e1 e) (e2 e)))) (edges_list P) &&
  existsb (fun a => turn o v a <? 0) (verts P) && existsb (fun a => 0 <? turn o v a) (verts P).
Lemma cut_b_ok o v P : cut_b o v P = true -> cuts o v P.
Proof.
  unfold cut_b. rewrite !andb_true_iff, !existsb_exists. intros [[(e & E & H) (a & A1 & A2)] (b & B1 & B2)]. split.
  - apply andb_true_iff in H. destruct H as [T M]. cbv zeta in M. exists e. split; [apply edges_list_ok, E|]. split; [|eapply meets_before_b_ok, M].
    intros X. apply touches_b_ok in X. rewrite X in T. discriminate T.
  - exists a, b. apply Z.ltb_lt in A2. apply Z.ltb_lt in B2. auto.
Qed.
(** behind the near quadrilateral, and on the far side of its own *)
Definition layered_hidden : coord := mkC 6500000 (-300000).
Lemma layered_hypotheses : let o := mkC 0 0 in
  pgeo o /\ lon o < 540000001 /\ (forall c, In c (polygon_vertices layered_map) -> pgeo c) /\ NoDup (polygon_vertices layered_map) /\
  (forall c, In c (polygon_vertices layered_map) -> dot (from o c) (from o c) <= 2 ^ 47) /\
  (forall P, In P layered_map -> exists sg, convex sg P) /\ off_edges o layered_map /\ layered o layered_map /\
  (forall P, In P layered_map -> own_ok o P) /\ cuts o layered_hidden near_quad /\ cuts o layered_hidden far_quad.
Proof.
  cbv zeta. assert (C : layered_checks = true) by (vm_compute; reflexivity). unfold layered_checks in C. rewrite !andb_true_iff, !forallb_forall in C.
  destruct C as ((((((C1 & C2) & C3) & C4) & C5) & C6) & C7).
  split; [split; cbn [lon lat]; lia|]. split; [cbn [lon]; lia|].
  assert (C8 : forall c, In c (polygon_vertices layered_map) -> pgeo c /\ dot (from (mkC 0 0) c) (from (mkC 0 0) c) <= 2 ^ 47).
  { intros c I. specialize (C7 c I). rewrite !andb_true_iff, !Z.leb_le in C7. destruct C7 as [[A B] D]. split; [split; assumption|exact D]. }
  split; [intros c I; apply C8, I|]. split; [apply nodup_b_ok, C1|]. split; [intros c I; apply C8, I|].
  split; [intros P HP; exists 1; apply convex_b_ok, C4, HP|]. split; [apply off_b_ok, C2|]. split; [exact (stacked_b_ok _ _ C3)|].
  split; [intros P HP; split; [apply convex_b_ok, C4, HP|split; [apply thick_b_ok, C5, HP|apply distinct_b_ok, C6, HP]]|].
  split; apply cut_b_ok; vm_compute; reflexivity.
Qed.

(** ** Two vertices of one polygon at the same distance
    (4, 3) and (3, 4) are both five degrees from (0, 0). *)
Definition pentagon : polygon := mkP [mkC 3100000 1000000; mkC 4000000 3000000; mkC 4000000 5600000; mkC 3200000 5000000; mkC 3000000 4000000].
Definition pentagon_far : coord := mkC 4000000 5600000.
Lemma pentagon_shape : convex 1 pentagon /\ thick pentagon /\ off_edges (mkC 0 0) [pentagon] /\ layered (mkC 0 0) [pentagon] /\ cuts (mkC 0 0) pentagon_far pentagon.
Proof.
  split; [apply convex_b_ok; vm_compute; reflexivity|]. split; [apply thick_b_ok; vm_compute; reflexivity|]. split; [apply off_b_ok; vm_compute; reflexivity|].
  split; [exact (stacked_b_ok (mkC 0 0) [(7000000, pentagon)] ltac:(vm_compute; reflexivity))|]. apply cut_b_ok; vm_compute; reflexivity.
Qed.
Lemma pentagon_reported atan2 ord : accurate_atan2 atan2 -> library_orders ord ->
  exists res, get_visible_vertices atan2 ord (vistree_of_polygons [pentagon]) (mkC 0 0) false = Ok res /\ In (mkV pentagon_far false) res.
Proof.
  intros T L. rewrite (forced [pentagon] (mkC 0 0) (order_around [pentagon] (mkC 0 0)) false atan2 ord); [|vm_compute; reflexivity|vm_compute; congruence|exact T|exact L].
  eexists. split; [vm_compute; reflexivity|]. vm_compute. tauto.
Qed.
