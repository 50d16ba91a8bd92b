(** Decision procedures for an ordered view. *)
From Coq Require Import ZArith Reals Bool List Lia Psatz Sorted Permutation.
From Verif Require Import Base F64 Coordinate Segment Polyline Polygon Periodicity Graph Visgraph SpecGeom CoordinateFacts SegmentFacts PolylineFacts PolygonMore GraphFacts GraphMore Sweep SweepFacts SweepMaps SweepForced SweepGen SweepCases AngleFacts AngleSort SweepOpen SweepOrder SweepGeo SweepSound SweepLayers SweepExact SweepGraph SweepWorld OpenWater SweepFronts SeaLines.
Import ListNotations.
Local Open Scope Z_scope.

(** ** The edges on a half line *)
Lemma ray_cone o v s q u : swept o s -> at_ray o v s q u -> 0 <= turn o (first o s) v /\ 0 <= turn o v (final o s).
Proof.
  intros W (t & Q & T & U & X & Y).
  assert (A : u * turn o (e1 s) v = t * turn o (e1 s) (e2 s)).
  { replace (u * turn o (e1 s) v) with ((lon (e1 s) - lon o) * (u * (lat v - lat o)) - (lat (e1 s) - lat o) * (u * (lon v - lon o))) by (unfold turn; ring).
    rewrite <- X, <- Y. unfold px, py, turn. ring. }
  assert (B : u * turn o v (e2 s) = (q - t) * turn o (e1 s) (e2 s)).
  { replace (u * turn o v (e2 s)) with ((u * (lon v - lon o)) * (lat (e2 s) - lat o) - (u * (lat v - lat o)) * (lon (e2 s) - lon o)) by (unfold turn; ring).
    rewrite <- X, <- Y. unfold px, py, turn. ring. }
  pose proof (turn_swap o (e1 s) v) as S1. pose proof (turn_swap o v (e2 s)) as S2.
  destruct (ends_of o s) as [(-> & -> & H)|(-> & -> & H)].
  - clear - A B U T H. split; nia.
  - clear - A B S1 S2 U T H. split; nia.
Qed.
Lemma ray_at o v s q u : swept o s -> v <> o -> at_ray o v s q u -> 0 < ray_q o v s /\ u * ray_q o v s = ray_u o s * q.
Proof.
  intros W N R. destruct (ray_cone o v s q u W R) as [A B]. destruct (cone_point o v s W N A B) as (Q & U & t & T & X & Y).
  assert (R' : at_ray o v s (ray_q o v s) (ray_u o s)) by (exists t; auto). split; [exact Q|]. exact (ray_unique o v s _ _ _ _ W R R').
Qed.
Definition touches_b (s : segment) (v : coord) : bool := coord_eqb (e1 s) v || coord_eqb (e2 s) v.
(** swept edges on the half line from [o] through [v] that do not end in [v] *)
Definition on_way (o v : coord) (s : segment) : bool :=
  let z := turn o (e1 s) (e2 s) in let up := 0 <? z in
  if 0 <=? turn o (if up then e1 s else e2 s) v then if 0 <=? turn o v (if up then e2 s else e1 s) then negb (z =? 0) && negb (touches_b s v) else false else false.
Lemma on_way_spec o v s : on_way o v s = negb (turn o (e1 s) (e2 s) =? 0) && negb (touches_b s v) && (0 <=? turn o (first o s) v) && (0 <=? turn o v (final o s)).
Proof.
  unfold on_way. cbv zeta. fold (first o s) (final o s). destruct (0 <=? turn o (first o s) v), (0 <=? turn o v (final o s)); rewrite ?andb_true_r, ?andb_false_r; reflexivity.
Qed.
Lemma on_way_ok o v s q u : swept o s -> ~ touches s v -> at_ray o v s q u -> on_way o v s = true.
Proof.
  intros W N R. destruct (ray_cone o v s q u W R) as [A B]. rewrite on_way_spec. rewrite !andb_true_iff, !negb_true_iff, Z.eqb_neq, !Z.leb_le. split; [split; [split; [exact W|]|exact A]|exact B].
  unfold touches_b. destruct (coord_eqb (e1 s) v) eqn:E1; [apply coord_eqb_spec in E1; exfalso; apply N; left; exact E1|].
  destruct (coord_eqb (e2 s) v) eqn:E2; [apply coord_eqb_spec in E2; exfalso; apply N; right; exact E2|reflexivity].
Qed.
(** the ranks an edge may have there *)
Definition ranks (o v : coord) (s : segment) : list Z :=
  (if before_z o v (first o s) then [] else [dist2 o (first o s)]) ++ (if before_z o (first o s) v then [] else map (fun k => k * k) (keys_of o s)).
Lemma ranks_ok o v s d : swept o s -> v <> o -> ranked o v d s -> In d (ranks o v s).
Proof.
  intros W N R. destruct (swept_ends o s W) as (Nf & _). unfold ranks. apply in_or_app. destruct R as [(B & ->)|(B & I & k & -> & K)].
  - left. destruct (before_z o v (first o s)) eqn:E; [|left; reflexivity]. apply before_z_ok in E; [|assumption..]. exfalso. exact (before_asym o _ _ B E).
  - right. destruct (before_z o (first o s) v) eqn:E; [apply before_z_ok in E; [|assumption..]; exfalso; exact (before_asym o _ _ B E)|].
    apply in_map_iff. exists k. split; [reflexivity|apply keys_of_ok; assumption].
Qed.
(** the line from [o] to [v] enters land across [s], and not through its first end *)
Definition entering_b (o v : coord) (s : segment) : bool := (turn o (e1 s) (e2 s) <? 0) && (ray_u o s <? ray_q o v s) && (0 <? turn o v (final o s)).
Lemma near_ends o s : turn o (e1 s) (e2 s) < 0 -> first o s = e2 s /\ final o s = e1 s.
Proof. intros N. unfold first, final. destruct (Z.ltb_spec 0 (turn o (e1 s) (e2 s))); [lia|auto]. Qed.
Lemma entering_ok o v s : v <> o -> on_way o v s = true -> entering_b o v s = true -> enters o v s.
Proof.
  intros N W E. rewrite on_way_spec in W. unfold entering_b in E. rewrite !andb_true_iff in W, E. rewrite !Z.ltb_lt in E. destruct W as [[_ A] B]. apply Z.leb_le in A. apply Z.leb_le in B.
  destruct E as [[T L] F]. assert (Sw : swept o s) by (unfold swept; lia). destruct (cone_point o v s Sw N A B) as (Q & U & t & Ht & X & Y).
  destruct (near_ends o s T) as [E1 E2]. rewrite E2 in F. split; [exact T|]. exists (ray_q o v s), t, (ray_u o s). split; [exact Q|].
  assert (K : ray_u o s * turn o v (e1 s) = t * - turn o (e1 s) (e2 s)).
  { replace (ray_u o s * turn o v (e1 s)) with ((ray_u o s * (lon v - lon o)) * (lat (e1 s) - lat o) - (ray_u o s * (lat v - lat o)) * (lon (e1 s) - lon o)) by (unfold turn; ring).
    rewrite <- X, <- Y. unfold px, py, turn. ring. }
  set (u := ray_u o s) in *. set (q := ray_q o v s) in *. clearbody u q. unfold px in X. unfold py in Y.
  split; [clear - K F U T Ht; split; [nia|lia]|]. split; [lia|]. split; lia.
Qed.
Lemma enters_way o v s : v <> o -> enters o v s -> swept o s /\ ~ touches s v /\ in_front o v s.
Proof.
  intros N [T (q & t & u & Q & Ht & Hu & X & Y)]. assert (Sw : swept o s) by (unfold swept; lia). split; [exact Sw|].
  assert (X' : px o s q t = u * (lon v - lon o)) by (unfold px; lia). assert (Y' : py o s q t = u * (lat v - lat o)) by (unfold py; lia).
  assert (K : u * turn o v (e1 s) = t * - turn o (e1 s) (e2 s)).
  { replace (u * turn o v (e1 s)) with ((u * (lon v - lon o)) * (lat (e1 s) - lat o) - (u * (lat v - lat o)) * (lon (e1 s) - lon o)) by (unfold turn; ring).
    rewrite <- X', <- Y'. unfold px, py, turn. ring. }
  assert (K2 : u * turn o v (e2 s) = (q - t) * turn o (e1 s) (e2 s)).
  { replace (u * turn o v (e2 s)) with ((u * (lon v - lon o)) * (lat (e2 s) - lat o) - (u * (lat v - lat o)) * (lon (e2 s) - lon o)) by (unfold turn; ring).
    rewrite <- X', <- Y'. unfold px, py, turn. ring. }
  assert (U : 0 < u) by (clear - K Ht Hu T; destruct (Z.eq_dec u 0) as [->|]; [exfalso; rewrite Z.mul_0_l in K; nia|lia]).
  split; [|exists q, u; split; [exists t; repeat split; try assumption; lia|lia]].
  intros [E|E]; rewrite E in *.
  - rewrite turn_self in K. clear - K Ht T. nia.
  - rewrite turn_self in K2. assert (q = t) by (clear - K2 T; nia). subst t. unfold px in X'. unfold py in Y'. rewrite E in X', Y'. apply N.
    apply coord_ext; clear - X' Y' Hu; [assert (Z0 : (q - u) * (lon v - lon o) = 0) by lia|assert (Z0 : (q - u) * (lat v - lat o) = 0) by lia]; apply Z.mul_eq_0 in Z0; lia.
Qed.
Definition order_at (half : bool) (o v : coord) (es : list segment) : bool :=
  let l := filter (on_way o v) es in
  let fs := filter (fun s => (turn o (e1 s) (e2 s) <? 0) && (ray_u o s <? ray_q o v s)) l in
  ((half && (lat v <? lat o)) || match fs with [] => true | _ :: _ =>
    existsb (fun s => entering_b o v s && forallb (fun t => (ray_u o t <? ray_q o v t) || forallb (fun d => forallb (fun d' => d <=? d') (ranks o v t)) (ranks o v s)) l) fs end) &&
  forallb (fun t => forallb (fun d => negb (d =? dist2 o v)) (ranks o v t)) l.
Fixpoint apart_keys (l : list (list Z)) : bool :=
  match l with [] => true | ks :: l' => forallb (fun ls => forallb (fun k => forallb (fun m => negb (k * k =? m * m)) ls) ks) l' && apart_keys l' end.
Definition all_edges (ps : list polygon) : list segment := flat_map edges_list ps.
Lemma all_edges_ok ps s : polygon_edge ps s <-> In s (all_edges ps).
Proof.
  unfold all_edges. rewrite in_flat_map. split.
  - intros E. destruct (poly_edge ps s E) as (P & HP & H). exists P. split; [exact HP|apply edges_list_ok, H].
  - intros (P & HP & H). apply (edge_poly ps P s HP), edges_list_ok, H.
Qed.
Definition order_b (half : bool) (o : coord) (ps : list polygon) : bool :=
  let es := all_edges ps in
  forallb (fun v => coord_eqb v o || order_at half o v es) (polygon_vertices ps) && apart_keys (map (keys_of o) (filter (initially_b o) es)).
Lemma apart_keys_ok (f : segment -> list Z) l s t k m : apart_keys (map f l) = true -> In s l -> In t l -> s <> t -> In k (f s) -> In m (f t) -> k * k <> m * m.
Proof.
  induction l as [|x l IH]; intros H S T N K M; [destruct S|]. cbn [map apart_keys] in H. rewrite andb_true_iff, forallb_forall in H. destruct H as [H1 H2].
  assert (Q : forall y k m, In y l -> In k (f x) -> In m (f y) -> k * k <> m * m).
  { intros y a b Y A B. specialize (H1 (f y) (in_map f l y Y)). rewrite forallb_forall in H1. specialize (H1 a A). rewrite forallb_forall in H1. specialize (H1 b B).
    apply negb_true_iff, Z.eqb_neq in H1. exact H1. }
  destruct S as [<-|S], T as [<-|T]; [congruence|eapply Q; eassumption| |apply IH; assumption].
  intros E. apply (Q s m k S M K). auto.
Qed.
Lemma order_b_ok half o ps : order_b half o ps = true -> in_order half o ps.
Proof.
  unfold order_b. cbv zeta. rewrite andb_true_iff, forallb_forall. intros [H1 H2].
  assert (At : forall v, In v (polygon_vertices ps) -> v <> o -> order_at half o v (all_edges ps) = true).
  { intros v V N. specialize (H1 v V). apply orb_true_iff in H1. destruct H1 as [H1|H1]; [apply coord_eqb_spec in H1; contradiction|exact H1]. }
  assert (In_l : forall v s q u, polygon_edge ps s -> swept o s -> ~ touches s v -> at_ray o v s q u -> In s (filter (on_way o v) (all_edges ps))).
  { intros v s q u E W N R. apply filter_In. split; [apply all_edges_ok, E|eapply on_way_ok; eassumption]. }
  split; [|split].
  - intros v r V N Up Er En. specialize (At v V N). unfold order_at in At. cbv zeta in At. rewrite andb_true_iff in At. destruct At as [At _].
    destruct (enters_way o v r N En) as (Wr & Nr & q & u & R & Lt). pose proof (In_l v r q u Er Wr Nr R) as Ir.
    set (l := filter (on_way o v) (all_edges ps)) in *. set (fs := filter _ l) in At.
    assert (If : In r fs).
    { apply filter_In. split; [exact Ir|]. rewrite andb_true_iff, !Z.ltb_lt. split; [apply En|]. destruct (ray_at o v r q u Wr N R) as [Q E]. destruct R as (x & Q0 & _).
      set (a := ray_q o v r) in *. set (b := ray_u o r) in *. clearbody a b. clear - E Q Q0 Lt. assert (u * a < q * a) by (apply Z.mul_lt_mono_pos_r; assumption).
      destruct (Z.lt_ge_cases b a) as [?|C]; [assumption|]. assert (a * q <= b * q) by (apply Z.mul_le_mono_nonneg_r; lia). lia. }
    apply orb_true_iff in At. destruct At as [At|At].
    { exfalso. rewrite andb_true_iff, Z.ltb_lt in At. destruct At as [-> At]. specialize (Up eq_refl). lia. }
    assert (Ex : existsb (fun s => entering_b o v s && forallb (fun t => (ray_u o t <? ray_q o v t) || forallb (fun d => forallb (fun d' => d <=? d') (ranks o v t)) (ranks o v s)) l) fs = true)
      by (destruct fs; [destruct If|exact At]).
    apply existsb_exists in Ex. destruct Ex as (s & Is & Hs). apply andb_true_iff in Hs. destruct Hs as [Hs Hl]. apply filter_In in Is. destruct Is as [Is _].
    subst l. apply filter_In in Is. destruct Is as [Is Ws]. pose proof (entering_ok o v s N Ws Hs) as Es. exists s. split; [apply all_edges_ok, Is|]. split; [exact Es|].
    intros t d d' Et Wt Nt (q' & u' & R' & Le) Rs Rt. rewrite forallb_forall in Hl. specialize (Hl t (In_l v t q' u' Et Wt Nt R')). destruct (ray_at o v t q' u' Wt N R') as [Q' E'].
    destruct (enters_way o v s N Es) as (Sw & _). apply orb_true_iff in Hl. destruct Hl as [Hl|Hl].
    + exfalso. apply Z.ltb_lt in Hl. destruct R' as (x & Q0 & _). set (a := ray_q o v t) in *. set (b := ray_u o t) in *. clearbody a b. clear - Hl E' Q' Q0 Le.
      assert (b * q' < a * q') by (apply Z.mul_lt_mono_pos_r; assumption). assert (q' * a <= u' * a) by (apply Z.mul_le_mono_nonneg_r; lia). lia.
    + rewrite forallb_forall in Hl. specialize (Hl d (ranks_ok o v s d Sw N Rs)). rewrite forallb_forall in Hl. apply Z.leb_le, Hl, ranks_ok; assumption.
  - intros v t d V N Et Wt Nt (q & x & u & Q & T & U & X & Y) Rt. specialize (At v V N). unfold order_at in At. cbv zeta in At. rewrite andb_true_iff, !forallb_forall in At. destruct At as [_ At].
    assert (R : at_ray o v t q u) by (exists x; auto). specialize (At t (In_l v t q u Et Wt Nt R)). rewrite forallb_forall in At. specialize (At d (ranks_ok o v t d Wt N Rt)).
    apply negb_true_iff, Z.eqb_neq in At. exact At.
  - intros s t k l Es Et N Is It Ks Kt. apply (apart_keys_ok (keys_of o) (filter (initially_b o) (all_edges ps)) s t k l H2); try assumption;
      try (apply filter_In; split; [apply all_edges_ok; assumption|apply initially_b_ok; assumption]); apply keys_of_ok; assumption.
Qed.

(** ** Corners and edges apart *)
Definition room_b (c : coord) (e : segment) : bool :=
  touches_b e c || (inner (e1 e) (e2 e) c <=? 0) || (inner (e2 e) (e1 e) c <=? 0) || (dist2 (e1 e) (e2 e) <=? turn (e1 e) (e2 e) c * turn (e1 e) (e2 e) c).
Lemma sum_sq x y : 0 <= x * x + y * y.
Proof. pose proof (Z.square_nonneg x). pose proof (Z.square_nonneg y). lia. Qed.
(** away from the end the segment starts from *)
Lemma away a b x y q t : 0 < q -> 0 <= t -> a <> 0 \/ b <> 0 -> 0 <= a * x + b * y -> q * q <= (q * a + t * x) * (q * a + t * x) + (q * b + t * y) * (q * b + t * y).
Proof.
  intros Q T N H. replace ((q * a + t * x) * (q * a + t * x) + (q * b + t * y) * (q * b + t * y)) with
    (q * q * (a * a + b * b) + 2 * (q * t) * (a * x + b * y) + t * t * (x * x + y * y)) by ring.
  assert (1 <= a * a + b * b) by (pose proof (Z.square_nonneg a); pose proof (Z.square_nonneg b); destruct N; nia).
  pose proof (sum_sq x y). assert (q * q * 1 <= q * q * (a * a + b * b)) by (apply Z.mul_le_mono_nonneg_l; [apply Z.square_nonneg|assumption]).
  assert (0 <= 2 * (q * t) * (a * x + b * y)) by (apply Z.mul_nonneg_nonneg; [assert (0 <= q * t) by (apply Z.mul_nonneg_nonneg; lia); lia|exact H]).
  assert (0 <= t * t * (x * x + y * y)) by (apply Z.mul_nonneg_nonneg; [apply Z.square_nonneg|assumption]). lia.
Qed.
Lemma room_b_ok c e q t : room_b c e = true -> ~ touches e c -> 0 < q -> 0 <= t <= q -> q * q <= px c e q t * px c e q t + py c e q t * py c e q t.
Proof.
  unfold room_b, px, py. rewrite !orb_true_iff, !Z.leb_le. intros H N Q T.
  assert (N1 : lon (e1 e) - lon c <> 0 \/ lat (e1 e) - lat c <> 0).
  { destruct (Z.eq_dec (lon (e1 e) - lon c) 0) as [E|E]; [right|left; exact E]. intros E'. apply N. left. apply coord_ext; lia. }
  assert (N2 : lon (e2 e) - lon c <> 0 \/ lat (e2 e) - lat c <> 0).
  { destruct (Z.eq_dec (lon (e2 e) - lon c) 0) as [E|E]; [right|left; exact E]. intros E'. apply N. right. apply coord_ext; lia. }
  set (a := lon (e1 e) - lon c) in *. set (b := lat (e1 e) - lat c) in *. set (a' := lon (e2 e) - lon c) in *. set (b' := lat (e2 e) - lat c) in *.
  destruct H as [[[H|H]|H]|H].
  - exfalso. apply N. unfold touches_b in H. rewrite orb_true_iff, !coord_eqb_spec in H. exact H.
  - replace ((q - t) * a + t * a') with (q * a + t * (a' - a)) by ring. replace ((q - t) * b + t * b') with (q * b + t * (b' - b)) by ring.
    apply away; try lia; try assumption. unfold inner in H. subst a b a' b'. lia.
  - replace ((q - t) * a + t * a') with (q * a' + (q - t) * (a - a')) by ring. replace ((q - t) * b + t * b') with (q * b' + (q - t) * (b - b')) by ring.
    apply away; try lia; try assumption. unfold inner in H. subst a b a' b'. lia.
  - set (X := (q - t) * a + t * a'). set (Y := (q - t) * b + t * b'). set (x := a' - a). set (y := b' - b).
    assert (E1 : dist2 (e1 e) (e2 e) = x * x + y * y) by (unfold dist2; subst x y a b a' b'; ring).
    assert (E2 : turn (e1 e) (e2 e) c = a * y - b * x) by (unfold turn; subst x y a b a' b'; ring). rewrite E1, E2 in H.
    assert (E3 : X * y - Y * x = q * (a * y - b * x)) by (subst X Y x y; ring).
    assert (E4 : (X * X + Y * Y) * (x * x + y * y) = (X * y - Y * x) * (X * y - Y * x) + (X * x + Y * y) * (X * x + Y * y)) by ring.
    rewrite E3 in E4. pose proof (Z.square_nonneg (X * x + Y * y)) as S. set (L := x * x + y * y) in *. set (D := a * y - b * x) in *. set (M := X * X + Y * Y) in *.
    assert (L0 : 0 <= L) by apply sum_sq.
    assert (q * q * L <= M * L). { replace (M * L) with (q * q * (D * D) + (X * x + Y * y) * (X * x + Y * y)) by (rewrite E4; ring). assert (q * q * L <= q * q * (D * D)) by (apply Z.mul_le_mono_nonneg_l; [apply Z.square_nonneg|exact H]). lia. }
    destruct (Z.eq_dec L 0) as [Z0|Z0].
    + assert (x = 0 /\ y = 0) by (subst L; clear - Z0; split; nia). destruct H1 as [Zx Zy]. subst M.
      replace X with (q * a + t * x) by (subst X x; ring). replace Y with (q * b + t * y) by (subst Y y; ring). apply away; try lia; try assumption.
    + apply (Z.mul_le_mono_pos_r _ _ L); [lia|exact H0].
Qed.
Definition roomy_b (ps : list polygon) : bool := let es := all_edges ps in forallb (fun c => forallb (room_b c) es) (polygon_vertices ps).
Lemma roomy_b_ok ps : roomy_b ps = true -> roomy ps.
Proof.
  unfold roomy_b. cbv zeta. rewrite forallb_forall. intros H c e q t C E N Q T. specialize (H c C). rewrite forallb_forall in H. apply room_b_ok; try assumption. apply H, all_edges_ok, E.
Qed.

(** ** Vertices in line *)
Definition crosses_in_b (o v : coord) (e : segment) : bool :=
  let s1 := turn o v (e1 e) in let s2 := turn o v (e2 e) in let u := turn o (e1 e) (e2 e) in
  (0 <? s1) && (s2 <? 0) && (u <? 0) && (0 <? turn v (e1 e) (e2 e)).
Lemma crosses_in_b_ok o v e : crosses_in_b o v e = true -> crosses_in o v e.
Proof.
  unfold crosses_in_b. cbv zeta. rewrite !andb_true_iff, !Z.ltb_lt. intros (((A & B) & C) & D). split; [exact C|].
  exists (turn o v (e1 e) - turn o v (e2 e)), (turn o v (e1 e)), (- turn o (e1 e) (e2 e)). split; [lia|].
  assert (E : turn o v (e1 e) - turn o v (e2 e) + turn o (e1 e) (e2 e) = turn v (e1 e) (e2 e)) by (unfold turn; ring). split; [lia|]. unfold turn. split; ring.
Qed.
Definition between_b (o v w : coord) : bool := if turn o v w =? 0 then (0 <? inner o v w) && (inner o v w <? dist2 o v) else false.
Lemma between_b_ok o v w : v <> o -> strictly_between o v w -> between_b o v w = true.
Proof.
  intros N (q & u & U & X & Y). unfold between_b, turn, inner, dist2.
  assert (X' : q * (lon w - lon o) = u * (lon v - lon o)) by lia. assert (Y' : q * (lat w - lat o) = u * (lat v - lat o)) by lia.
  assert (D : 0 < (lon v - lon o) * (lon v - lon o) + (lat v - lat o) * (lat v - lat o)).
  { pose proof (Z.square_nonneg (lon v - lon o)). pose proof (Z.square_nonneg (lat v - lat o)). destruct (Z.eq_dec (lon v - lon o) 0) as [Zc|]; [|nia]. destruct (Z.eq_dec (lat v - lat o) 0) as [Zd|]; [|nia]. exfalso. apply N, coord_ext; lia. }
  set (a := lon v - lon o) in *. set (b := lat v - lat o) in *. set (c := lon w - lon o) in *. set (d := lat w - lat o) in *.
  assert (T : q * (a * d - b * c) = 0) by (transitivity (a * (q * d) - b * (q * c)); [ring|rewrite X', Y'; ring]). apply Z.mul_eq_0 in T. destruct T as [T|T]; [lia|].
  rewrite (proj2 (Z.eqb_eq _ 0) T).
  assert (I : q * (a * c + b * d) = u * (a * a + b * b)) by (transitivity (a * (q * c) + b * (q * d)); [ring|rewrite X', Y'; ring]).
  rewrite andb_true_iff, !Z.ltb_lt.
  set (i := a * c + b * d) in *. set (n := a * a + b * b) in *. split; [clear - I D U; nia|]. clear - I D U. assert (q * i < q * n) by (rewrite I; apply Z.mul_lt_mono_pos_r; lia). nia.
Qed.
Definition corners (P : polygon) : list (coord * coord * coord) := map (fun i => (ring_prev (verts P) i, vat (verts P) i, ring_next (verts P) i)) (seq 0 (length (verts P))).
Lemma corners_ok ps p c n : In (p, c, n) (flat_map corners ps) -> corner_of ps p c n.
Proof.
  rewrite in_flat_map. intros (P & HP & I). apply in_map_iff in I. destruct I as (i & E & I). apply in_seq in I. injection E as <- <- <-. exists P, i. repeat split; [exact HP|lia].
Qed.
Lemma between_b_at o v w : v <> o -> between_b o v w = true -> strictly_between o v w.
Proof.
  intros N. unfold between_b. destruct (Z.eqb_spec (turn o v w) 0) as [T|]; [|discriminate]. rewrite andb_true_iff, !Z.ltb_lt. intros [A B]. exists (dist2 o v), (inner o v w). split; [lia|].
  unfold turn, inner, dist2 in *. set (a := lon v - lon o) in *. set (b := lat v - lat o) in *. set (c := lon w - lon o) in *. set (d := lat w - lat o) in *.
  assert (X : (a * a + b * b) * c = (a * c + b * d) * a) by (transitivity (a * a * c + b * (b * c)); [ring|replace (b * c) with (a * d) by lia; ring]).
  assert (Y : (a * a + b * b) * d = (a * c + b * d) * b) by (transitivity (a * (a * d) + b * b * d); [ring|replace (a * d) with (b * c) by lia; ring]).
  set (i := a * c + b * d) in *. set (m := a * a + b * b) in *. subst a b c d. lia.
Qed.
Definition into_land_b (o v : coord) (k : coord * coord * coord) : bool :=
  let '(p, w, n) := k in if coord_eqb w o then into_solid_b p o n v else if between_b o v w then into_solid_b p w n v && (0 <? turn p w v) else false.
Definition behind_land_b (o v : coord) (qs : list polygon) : bool :=
  existsb (crosses_in_b o v) (all_edges qs) || existsb (into_land_b o v) (flat_map corners qs).
Lemma behind_land_b_ok o v qs : v <> o -> behind_land_b o v qs = true -> behind_land o v qs.
Proof.
  intros N. unfold behind_land_b. rewrite orb_true_iff, !existsb_exists. intros [(e & I & H)|(((p & w) & n) & I & H)].
  - left. exists e. split; [apply all_edges_ok, I|apply crosses_in_b_ok, H].
  - right. apply corners_ok in I. assert (Is : forall a b c d, into_solid_b a b c d = true -> into_solid a b c d).
    { intros a b c d. unfold into_solid_b, into_solid. rewrite orb_true_iff, !andb_true_iff, orb_true_iff, !Z.ltb_lt. tauto. }
    unfold into_land_b in H. destruct (coord_eqb w o) eqn:E; [apply coord_eqb_spec in E; subst w; left; exists p, n; auto|].
    destruct (between_b o v w) eqn:B; [|discriminate]. rewrite andb_true_iff, Z.ltb_lt in H. right. exists p, w, n. split; [exact I|]. split; [apply between_b_at; assumption|]. split; [apply Is|]; apply H.
Qed.
Definition shaded_b (o : coord) (qs : list polygon) : bool :=
  let vs := polygon_vertices qs in forallb (fun v => if coord_eqb v o then true else if existsb (between_b o v) vs then behind_land_b o v qs else true) vs.
Lemma shaded_b_ok o qs : shaded_b o qs = true -> shaded o qs.
Proof.
  unfold shaded_b. cbv zeta. rewrite forallb_forall. intros H v w V W N B. specialize (H v V). destruct (coord_eqb v o) eqn:E; [apply coord_eqb_spec in E; contradiction|].
  assert (X : existsb (between_b o v) (polygon_vertices qs) = true) by (apply existsb_exists; exists w; split; [exact W|apply between_b_ok; assumption]).
  rewrite X in H. apply behind_land_b_ok; assumption.
Qed.

(** ** An ordered view *)
Definition ordered_view_b (half : bool) (o : coord) (qs : list polygon) : bool :=
  let vs := polygon_vertices qs in
  forallb (fun a => forallb (fun b => separated_b (from o a) (from o b)) vs) vs && off_b o qs &&
  shaded_b o qs && order_b half o qs &&
  forallb (fun P => forallb (fun i => negb (coord_eqb (vat (verts P) i) o) || corner_b (ring_prev (verts P) i) o (ring_next (verts P) i)) (seq 0 (length (verts P)))) qs.
Lemma ordered_view_b_ok half o qs : roomy_b qs = true -> ordered_view_b half o qs = true -> ordered_view half o qs.
Proof.
  intros R. unfold ordered_view_b. cbv zeta. rewrite !andb_true_iff. intros ((((H1 & H3) & H5) & H4) & H7). rewrite !forallb_forall in H1, H7.
  split; [|split; [|split; [|split; [|split]]]].
  - intros a b A B. specialize (H1 a A). rewrite forallb_forall in H1. apply separated_b_ok, (H1 b B).
  - apply off_b_ok, H3.
  - apply roomy_b_ok, R.
  - apply shaded_b_ok, H5.
  - apply order_b_ok, H4.
  - intros p n (P & i & HP & I & -> & E & ->). specialize (H7 P HP). rewrite forallb_forall in H7. specialize (H7 i). rewrite in_seq in H7. specialize (H7 ltac:(lia)).
    rewrite <- E in H7. rewrite (proj2 (coord_eqb_spec o o) eq_refl) in H7. cbn [negb orb] in H7. unfold corner_b in H7.
    rewrite andb_true_iff, negb_true_iff, Z.eqb_neq, Z.leb_le in H7. exact H7.
Qed.

(** ** Lines that enter land *)
Definition lands_b (a b : coord) (s : segment) : bool :=
  let dx := lon b - lon a in let dy := lat b - lat a in let ex := lon (e2 s) - lon (e1 s) in let ey := lat (e2 s) - lat (e1 s) in
  let q := ex * dy - ey * dx in let u := - turn a (e1 s) (e2 s) in let t := (lat (e1 s) - lat a) * dx - (lon (e1 s) - lon a) * dy in
  (0 <? q) && (0 <? t) && (t <=? q) && (0 <? u) && (u <? q).
Lemma lands_b_ok a b s : lands_b a b s = true -> enters a b s.
Proof.
  unfold lands_b. cbv zeta. rewrite !andb_true_iff, !Z.ltb_lt, Z.leb_le. intros ((((Q & T1) & T2) & U1) & U2). split; [lia|].
  exists ((lon (e2 s) - lon (e1 s)) * (lat b - lat a) - (lat (e2 s) - lat (e1 s)) * (lon b - lon a)), ((lat (e1 s) - lat a) * (lon b - lon a) - (lon (e1 s) - lon a) * (lat b - lat a)), (- turn a (e1 s) (e2 s)).
  split; [exact Q|]. split; [split; assumption|]. split; [lia|]. unfold turn. split; ring.
Qed.
Definition landfall_b (ps : list polygon) (a b : coord) : bool :=
  existsb (fun j => existsb (lands_b (wrap j a) (wrap j b)) (all_edges ps) ||
    existsb (fun P => existsb (fun i => coord_eqb (vat (verts P) i) (wrap j a) && into_solid_b (ring_prev (verts P) i) (wrap j a) (ring_next (verts P) i) (wrap j b)) (seq 0 (length (verts P)))) ps) [0; 1; -1].
Lemma landfall_b_ok ps a b : landfall_b ps a b = true -> ~ sea_line ps a b.
Proof.
  unfold landfall_b. rewrite existsb_exists. intros (j & _ & H) S. destruct (S j) as (H1 & _ & H3). apply orb_true_iff in H. destruct H as [H|H].
  - apply existsb_exists in H. destruct H as (s & Is & H). apply (H1 s); [apply all_edges_ok, Is|apply lands_b_ok, H].
  - apply existsb_exists in H. destruct H as (P & HP & H). apply existsb_exists in H. destruct H as (i & I & H). rewrite andb_true_iff, coord_eqb_spec in H. destruct H as [E H].
    apply in_seq in I. apply (H3 (ring_prev (verts P) i) (ring_next (verts P) i)); [exists P, i; repeat split; [exact HP|lia|auto]|].
    unfold into_solid_b in H. unfold into_solid. rewrite orb_true_iff, !andb_true_iff, orb_true_iff, !Z.ltb_lt in H. tauto.
Qed.
(** from both ends, and around the world *)
Definition no_way_b (ps : list polygon) (a b : coord) : bool := landfall_b ps a b && landfall_b ps b a.
Lemma no_way_b_ok ps a b : no_way_b ps a b = true -> ~ sea_way ps a b.
Proof. unfold no_way_b. rewrite andb_true_iff. intros [A B] [H|H]; [exact (landfall_b_ok _ _ _ A H)|exact (landfall_b_ok _ _ _ B H)]. Qed.
Definition cut_off_b (ps : list polygon) (a b : coord) : bool := forallb (fun k => no_way_b ps a (wrap k b)) [-1; 0; 1].
Lemma cut_off_b_ok ps a b k : cut_off_b ps a b = true -> -1 <= k <= 1 -> ~ sea_way ps a (wrap k b).
Proof.
  unfold cut_off_b. rewrite forallb_forall. intros H K. apply no_way_b_ok, H. cbn [In]. lia.
Qed.

(** a bay, open to the north, and another island to the north west of it; no two of its vertices are in line with a third *)
Definition cove : list polygon :=
  [mkP [mkC 0 0; mkC 20000000 500000; mkC 20300000 21000000; mkC 15000000 19000000; mkC 15100000 5200000; mkC 5000000 5700000; mkC 4700000 20200000; mkC (-200000) 19900000];
   mkP [mkC (-9000000) 24000000; mkC (-5000000) 25100000; mkC (-8000000) 31000000; mkC (-7100000) 26000000]].
Lemma cove_views : Forall clear_polygon cove /\ NoDup (polygon_vertices cove) /\ (forall o, In o (polygon_vertices cove) -> ordered_view true o (map_copies cove)) /\
  ordered_view false (mkC 10000000 15000000) cove /\ ordered_view false (mkC 10000000 (-10000000)) cove.
Proof.
  assert (C1 : nodup_b (polygon_vertices cove) = true) by (vm_compute; reflexivity).
  assert (C2 : forallb fair_b cove = true) by (vm_compute; reflexivity).
  assert (C3 : roomy_b (map_copies cove) = true) by (vm_compute; reflexivity).
  assert (C4 : forallb (fun o => ordered_view_b true o (map_copies cove)) (polygon_vertices cove) = true) by (vm_compute; reflexivity).
  assert (C5 : roomy_b cove = true) by (vm_compute; reflexivity).
  pose proof (proj1 (forallb_forall fair_b cove) C2) as C2'. pose proof (proj1 (forallb_forall (fun o => ordered_view_b true o (map_copies cove)) (polygon_vertices cove)) C4) as C4'.
  clear C2 C4. split; [|split; [apply nodup_b_ok, C1|split; [intros o O; apply ordered_view_b_ok; [exact C3|exact (C4' o O)]|]]].
  - apply Forall_forall. intros P HP. apply fair_b_ok; [exact (C2' P HP)|]. destruct HP as [<-|[<-|[]]]; vm_compute; reflexivity.
  - split; (apply ordered_view_b_ok; [exact C5|vm_compute; reflexivity]).
Qed.
