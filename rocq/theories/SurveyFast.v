(** The decision procedures of [SurveyCheck], with the differences to the observer taken once.  No code is modelled here. *)
From Coq Require Import ZArith Reals Bool List Lia Psatz Permutation.
From Verif Require Import Base F64 Coordinate Segment Polyline Polygon Periodicity Graph Visgraph SpecGeom CoordinateFacts SegmentFacts PolylineFacts PolygonMore GraphFacts GraphMore Sweep SweepFacts SweepMaps SweepForced SweepGen SweepCases AngleFacts AngleSort SweepOpen SweepOrder SweepGeo SweepSound SweepLayers SweepExact SweepGraph SweepWorld OpenWater SweepFronts SeaLines SurveyCheck.
Import ListNotations.
Local Open Scope Z_scope.

(** ** Turns *)
Definition rel (o c : coord) : Z * Z := (lon c - lon o, lat c - lat o).
(** the sign of [turn] is that of the signs of its products, unless they agree *)
Definition ge0 (u v : Z * Z) : bool :=
  let (a, b) := u in let (c, d) := v in
  match Z.sgn a * Z.sgn d - Z.sgn b * Z.sgn c with Z0 => b * c <=? a * d | Zpos _ => true | Zneg _ => false end.
Definition eq0 (u v : Z * Z) : bool :=
  let (a, b) := u in let (c, d) := v in
  match Z.sgn a * Z.sgn d - Z.sgn b * Z.sgn c with Z0 => b * c =? a * d | _ => false end.
Lemma signs a b c d : (0 < Z.sgn a * Z.sgn d - Z.sgn b * Z.sgn c -> b * c < a * d) /\ (Z.sgn a * Z.sgn d - Z.sgn b * Z.sgn c < 0 -> a * d < b * c).
Proof.
  rewrite <- !Z.sgn_mul. destruct (Z.sgn_spec (a * d)) as [(A & ->)|[(A & ->)|(A & ->)]], (Z.sgn_spec (b * c)) as [(B & ->)|[(B & ->)|(B & ->)]]; lia.
Qed.
Lemma ge0_ok o a v : ge0 (rel o a) (rel o v) = (0 <=? turn o a v).
Proof.
  unfold ge0, rel, turn. set (x := lon a - lon o). set (y := lat a - lat o). set (z := lon v - lon o). set (w := lat v - lat o).
  destruct (signs x y z w) as [S1 S2]. destruct (Z.sgn x * Z.sgn w - Z.sgn y * Z.sgn z) eqn:E.
  - destruct (Z.leb_spec (y * z) (x * w)), (Z.leb_spec 0 (x * w - y * z)); (reflexivity || lia).
  - specialize (S1 eq_refl). symmetry. apply Z.leb_le. lia.
  - specialize (S2 eq_refl). symmetry. apply Z.leb_gt. lia.
Qed.
Lemma eq0_ok o a v : eq0 (rel o a) (rel o v) = (turn o a v =? 0).
Proof.
  unfold eq0, rel, turn. set (x := lon a - lon o). set (y := lat a - lat o). set (z := lon v - lon o). set (w := lat v - lat o).
  destruct (signs x y z w) as [S1 S2]. destruct (Z.sgn x * Z.sgn w - Z.sgn y * Z.sgn z) eqn:E.
  - destruct (Z.eqb_spec (y * z) (x * w)), (Z.eqb_spec (x * w - y * z) 0); (reflexivity || lia).
  - specialize (S1 eq_refl). symmetry. apply Z.eqb_neq. lia.
  - specialize (S2 eq_refl). symmetry. apply Z.eqb_neq. lia.
Qed.

(** ** The edges on a half line *)
Definition swung (o : coord) (es : list segment) : list (Z * Z * (Z * Z) * segment) :=
  flat_map (fun s => let z := turn o (e1 s) (e2 s) in if z =? 0 then [] else if 0 <? z then [(rel o (e1 s), rel o (e2 s), s)] else [(rel o (e2 s), rel o (e1 s), s)]) es.
Definition ways (r : Z * Z) (v : coord) (sw : list (Z * Z * (Z * Z) * segment)) : list segment :=
  map snd (filter (fun t => if ge0 (fst (fst t)) r then if ge0 r (snd (fst t)) then negb (touches_b (snd t) v) else false else false) sw).
Lemma ways_ok o v es : ways (rel o v) v (swung o es) = filter (on_way o v) es.
Proof.
  unfold ways, swung. induction es as [|s es IH]; [reflexivity|]. cbn [flat_map filter]. rewrite filter_app, map_app, IH. clear IH. cbv zeta. rewrite on_way_spec. unfold first, final.
  destruct (turn o (e1 s) (e2 s) =? 0); [reflexivity|]. destruct (0 <? turn o (e1 s) (e2 s)); cbn [filter fst snd]; rewrite !ge0_ok.
  - destruct (0 <=? turn o (e1 s) v), (0 <=? turn o v (e2 s)), (touches_b s v); reflexivity.
  - destruct (0 <=? turn o (e2 s) v), (0 <=? turn o v (e1 s)), (touches_b s v); reflexivity.
Qed.
Definition order_on (half : bool) (o v : coord) (l : list segment) : bool :=
  let k := map (fun t => (ray_u o t <? ray_q o v t, ranks o v t, t)) l in
  if forallb (fun t => forallb (fun d => negb (d =? dist2 o v)) (snd (fst t))) k then
    if half && (lat v <? lat o) then true else
    match filter (fun s : bool * list Z * segment => if fst (fst s) then turn o (e1 (snd s)) (e2 (snd s)) <? 0 else false) k with [] => true | fs =>
      existsb (fun s : bool * list Z * segment => if entering_b o v (snd s) then forallb (fun t : bool * list Z * segment => if fst (fst t) then true else forallb (fun d => forallb (fun d' => d <=? d') (snd (fst t))) (snd (fst s))) k else false) fs end
  else false.
Lemma existsb_same {A} (f g : A -> bool) l : (forall x, In x l -> f x = g x) -> existsb f l = existsb g l.
Proof. induction l as [|x l IH]; intros H; [reflexivity|]. cbn [existsb]. rewrite (H x (or_introl eq_refl)), IH; [reflexivity|intros y Y; apply H; right; exact Y]. Qed.
Lemma forallb_same {A} (f g : A -> bool) l : (forall x, In x l -> f x = g x) -> forallb f l = forallb g l.
Proof. induction l as [|x l IH]; intros H; [reflexivity|]. cbn [forallb]. rewrite (H x (or_introl eq_refl)), IH; [reflexivity|intros y Y; apply H; right; exact Y]. Qed.
Lemma existsb_map {A B} (f : B -> bool) (g : A -> B) l : existsb f (map g l) = existsb (fun x => f (g x)) l.
Proof. induction l as [|x l IH]; [reflexivity|]. cbn [map existsb]. rewrite IH. reflexivity. Qed.
Lemma forallb_map {A B} (f : B -> bool) (g : A -> B) l : forallb f (map g l) = forallb (fun x => f (g x)) l.
Proof. induction l as [|x l IH]; [reflexivity|]. cbn [map forallb]. rewrite IH. reflexivity. Qed.
Lemma filter_map {A B} (f : B -> bool) (g : A -> B) l : filter f (map g l) = map g (filter (fun x => f (g x)) l).
Proof. induction l as [|x l IH]; [reflexivity|]. cbn [map filter]. rewrite IH. destruct (f (g x)); reflexivity. Qed.
Lemma order_on_ok half o v es : order_on half o v (filter (on_way o v) es) = order_at half o v es.
Proof.
  unfold order_on, order_at. cbv zeta. set (l := filter (on_way o v) es). set (h := fun t => (ray_u o t <? ray_q o v t, ranks o v t, t)). rewrite forallb_map. cbn [h fst snd].
  assert (Fe : forall s, existsb (fun s : bool * list Z * segment => if entering_b o v (snd s) then forallb (fun t : bool * list Z * segment => if fst (fst t) then true else forallb (fun d => forallb (fun d' => d <=? d') (snd (fst t))) (snd (fst s))) (map h l) else false) (map h s) =
    existsb (fun s => entering_b o v s && forallb (fun t => (ray_u o t <? ray_q o v t) || forallb (fun d => forallb (fun d' => d <=? d') (ranks o v t)) (ranks o v s)) l) s).
  { intros s. rewrite existsb_map. apply existsb_same. intros x _. cbn [h fst snd]. destruct (entering_b o v x); [|reflexivity]. cbn [andb]. rewrite forallb_map. apply forallb_same. intros t _. cbn [h fst snd]. reflexivity. }
  destruct (forallb _ l); [rewrite andb_true_r|rewrite andb_false_r; reflexivity]. destruct (half && (lat v <? lat o)); [reflexivity|]. cbn [orb].
  rewrite filter_map. rewrite (filter_ext _ (fun s => (turn o (e1 s) (e2 s) <? 0) && (ray_u o s <? ray_q o v s))) by (intros s; cbn [h fst snd]; rewrite andb_comm; reflexivity).
  set (fs := filter _ l). rewrite <- Fe. destruct fs; reflexivity.
Qed.
Definition order_f (half : bool) (o : coord) (ps : list polygon) : bool :=
  let es := all_edges ps in let sw := swung o es in
  forallb (fun v => if coord_eqb v o then true else order_on half o v (ways (rel o v) v sw)) (polygon_vertices ps) && apart_keys (map (keys_of o) (filter (initially_b o) es)).
Lemma order_f_ok half o ps : order_f half o ps = order_b half o ps.
Proof.
  unfold order_f, order_b. cbv zeta. f_equal. apply forallb_same. intros v _. destruct (coord_eqb v o); [reflexivity|]. rewrite ways_ok. apply order_on_ok.
Qed.

(** ** Vertices in line *)
Definition shaded_f (o : coord) (qs : list polygon) : bool :=
  let vs := map (fun v => (rel o v, v)) (polygon_vertices qs) in
  forallb (fun v => if coord_eqb (snd v) o then true else
    if existsb (fun w => if eq0 (fst v) (fst w) then between_b o (snd v) (snd w) else false) vs then behind_land_b o (snd v) qs else true) vs.
Lemma shaded_f_ok o qs : shaded_f o qs = true -> shaded_b o qs = true.
Proof.
  unfold shaded_f, shaded_b. cbv zeta. rewrite !forallb_forall. intros H v V. specialize (H (rel o v, v) (in_map _ _ _ V)). cbn [fst snd] in H.
  destruct (coord_eqb v o); [reflexivity|]. rewrite existsb_map in H. rewrite (existsb_same _ (between_b o v)) in H; [exact H|].
  intros w _. cbn [fst snd]. rewrite eq0_ok. unfold between_b. destruct (turn o v w =? 0); reflexivity.
Qed.

(** ** Directions *)
Fixpoint pairs (l : list coord) : bool :=
  match l with [] => true | u :: l' => forallb (fun v => let d := det u v in if d =? 0 then true else if 65536 <=? Z.abs d then true else dot u u * dot v v <=? d * d * 2 ^ 94) l' && pairs l' end.
Definition separated_f (l : list coord) : bool := forallb near_b l && pairs l.
Lemma separated_f_ok l : separated_f l = true -> forall u v, In u l -> In v l -> separated_b u v = true.
Proof.
  unfold separated_f. rewrite andb_true_iff, forallb_forall. intros [N P].
  assert (Sym : forall u v, separated_b u v = separated_b v u).
  { intros u v. unfold separated_b. cbv zeta. assert (E : det v u = - det u v) by (unfold det; ring). rewrite E, Z.abs_opp. assert (Q : (- det u v =? 0) = (det u v =? 0)) by (destruct (Z.eqb_spec (- det u v) 0), (Z.eqb_spec (det u v) 0); (reflexivity || lia)).
    rewrite Q. replace (- det u v * - det u v) with (det u v * det u v) by ring. rewrite (Z.mul_comm (dot v v)). destruct (near_b u), (near_b v), (65536 <=? Z.abs (det u v)); reflexivity. }
  assert (Refl : forall u, separated_b u u = true) by (intros u; unfold separated_b; replace (det u u) with 0 by (unfold det; ring); reflexivity).
  assert (C : forall u v l', (forall x, In x (u :: l') -> near_b x = true) -> pairs (u :: l') = true -> In v l' -> separated_b u v = true).
  { intros u v l' Nr H I. cbn [pairs] in H. rewrite andb_true_iff, forallb_forall in H. destruct H as [H _]. specialize (H v I). cbv zeta in H. unfold separated_b. cbv zeta.
    destruct (det u v =? 0); [reflexivity|]. rewrite (Nr u (or_introl eq_refl)), (Nr v (or_intror I)), !andb_true_r. exact H. }
  revert N P. induction l as [|x l IH]; intros N P u v U V; [destruct U|]. pose proof P as P'. cbn [pairs] in P'. rewrite andb_true_iff in P'. destruct P' as [_ P'].
  destruct U as [<-|U], V as [<-|V]; [apply Refl|apply (C x v l N P V)|rewrite Sym; apply (C x u l N P U)|].
  apply IH; [intros y Y; apply N; right; exact Y|exact P'|exact U|exact V].
Qed.

(** ** An ordered view *)
Definition ordered_view_f (half : bool) (o : coord) (qs : list polygon) : bool :=
  if separated_f (map (from o) (polygon_vertices qs)) then if off_b o qs then if shaded_f o qs then if order_f half o qs then
  forallb (fun P => forallb (fun i => negb (coord_eqb (vat (verts P) i) o) || corner_b (ring_prev (verts P) i) o (ring_next (verts P) i)) (seq 0 (length (verts P)))) qs
  else false else false else false else false.
Lemma ordered_view_f_ok half o qs : roomy_b qs = true -> ordered_view_f half o qs = true -> ordered_view half o qs.
Proof.
  intros R H. apply ordered_view_b_ok; [exact R|]. unfold ordered_view_f in H. unfold ordered_view_b. cbv zeta.
  destruct (separated_f _) eqn:E1; [|discriminate]. destruct (off_b o qs); [|discriminate]. destruct (shaded_f o qs) eqn:E3; [|discriminate]. destruct (order_f half o qs) eqn:E4; [|discriminate].
  rewrite order_f_ok in E4. rewrite E4, (shaded_f_ok _ _ E3), H, !andb_true_r. apply forallb_forall. intros a A. apply forallb_forall. intros b B. exact (separated_f_ok _ E1 _ _ (in_map _ _ _ A) (in_map _ _ _ B)).
Qed.
