(** Maps on which neither the arctangent nor the library leaves the sweep a choice. *)
From Coq Require Import ZArith Reals Bool List Lia Lra Permutation.
From Flocq Require Import Core.
From Flocq Require Import BinarySingleNaN.
From Verif Require Import Base F64 Coordinate Segment Polygon SpecGeom F64Facts CoordinateFacts PolygonFloat PolylineFacts GraphFacts Graph Visgraph Sweep SweepFacts SweepMaps SweepGen AngleFacts AngleSort.
Import ListNotations.

(** ** Deciding [before] *)
Local Open Scope Z_scope.
Definition before_z (o a b : coord) : bool :=
  let u := from o a in let v := from o b in
  match (0 <=? lat u), (0 <=? lat v) with
  | true, false => true
  | false, true => false
  | _, _ => (0 <? det u v) || ((det u v =? 0) && (if 0 <? dot u v then dot u u <? dot v v else (0 <? lon u)))
  end.

Lemma before_z_ok o a b : a <> o -> b <> o -> before_z o a b = true -> before o a b.
Proof.
  intros Na Nb H. pose proof (from_nonzero o a Na) as Za. pose proof (from_nonzero o b Nb) as Zb. unfold before_z, before in *. cbv zeta in H.
  set (u := from o a) in *. set (v := from o b) in *. pose proof pi_bounds as P.
  assert (Pos : (0 < det u v)%Z -> (- PI <= angle v - angle u <= PI)%R -> (angle u < angle v)%R).
  { intros D R. apply Rnot_le_lt. intros L. pose proof (sin_diff u v Za Zb) as S.
    assert (0 < sin (angle v - angle u))%R.
    { rewrite S. apply Rdiv_lt_0_compat; [apply IZR_lt, D|]. pose proof (len_pos u Za). pose proof (len_pos v Zb). nra. }
    destruct (Req_dec (angle v - angle u) (- PI)) as [E|E]; [rewrite E, sin_neg, sin_PI in H0; lra|].
    destruct (Req_dec (angle v - angle u) 0) as [E0|E0]; [rewrite E0, sin_0 in H0; lra|].
    pose proof (sin_lt_0_var (angle v - angle u)). lra. }
  assert (Zero : det u v = 0 -> (if 0 <? dot u v then dot u u <? dot v v else 0 <? lon u) = true ->
     (0 <= lat u /\ 0 <= lat v \/ lat u < 0 /\ lat v < 0) -> (angle u < angle v)%R \/ angle u = angle v /\ (len u < len v)%R).
  { intros D B Q. destruct (Z.ltb_spec 0 (dot u v)) as [D2|D2].
    - right. split; [apply same_direction; assumption|]. apply len_dot, Z.ltb_lt, B.
    - left. apply Z.ltb_lt in B. pose proof (dot_nonzero u v Za Zb D) as D3. unfold det, dot in *.
      assert (L0 : lat u = 0 /\ lat v = 0 /\ lon v < 0) by (destruct Q as [Q|Q]; nia). destruct L0 as (L1 & L2 & L3).
      assert (U0 : angle u = 0%R).
      { unfold angle. rewrite L1. cbn [Z.leb Z.compare]. pose proof (len_pos u Za) as Lp. pose proof (len_sq u) as Ls. rewrite L1 in Ls.
        apply IZR_lt in B. assert (E : len u = IZR (lon u)) by (apply Rsqr_inj; unfold Rsqr; lra).
        replace (IZR (lon u) / len u)%R with 1%R by (rewrite E; field; lra). apply acos_1. }
      assert (V0 : angle v = PI).
      { unfold angle. rewrite L2. cbn [Z.leb Z.compare]. pose proof (len_pos v Zb) as Lp. pose proof (len_sq v) as Ls. rewrite L2 in Ls.
        apply IZR_lt in L3. assert (E : len v = (- IZR (lon v))%R) by (apply Rsqr_inj; unfold Rsqr; lra).
        replace (IZR (lon v) / len v)%R with (- (1))%R by (rewrite E; field; lra). rewrite acos_opp, acos_1. ring. }
      lra. }
  destruct (Z.leb_spec 0 (lat u)) as [U|U], (Z.leb_spec 0 (lat v)) as [W|W]; try discriminate H.
  - apply orb_true_iff in H. pose proof (angle_upper u U). pose proof (angle_upper v W). destruct H as [H|H].
    + left. apply Z.ltb_lt in H. apply Pos; [exact H|lra].
    + apply andb_true_iff in H. destruct H as [K1 K2]. apply Z.eqb_eq in K1. apply Zero; auto.
  - left. pose proof (angle_upper u U). pose proof (angle_lower v Zb W). lra.
  - apply orb_true_iff in H. pose proof (angle_lower u Za U). pose proof (angle_lower v Zb W). destruct H as [H|H].
    + left. apply Z.ltb_lt in H. apply Pos; [exact H|lra].
    + apply andb_true_iff in H. destruct H as [K1 K2]. apply Z.eqb_eq in K1. apply Zero; auto.
Qed.

(** ** A checklist *)
Definition wide_b (c : coord) : bool := (Z.abs (lon c) <=? 1000000000) && (Z.abs (lat c) <=? 90000000).
Definition near_b (u : coord) : bool := (Z.abs (lon u) <=? 2147483648) && (Z.abs (lat u) <=? 2147483648).
Definition separated_b (u v : coord) : bool :=
  let d := det u v in if d =? 0 then true else if (65536 <=? Z.abs d) && near_b u && near_b v then true else dot u u * dot v v <=? d * d * 2 ^ 94.
Lemma near_dot u : near_b u = true -> 0 <= dot u u <= 9223372036854775808.
Proof.
  unfold near_b, dot. rewrite andb_true_iff, !Z.leb_le. intros [A B]. pose proof (Z.square_nonneg (lon u)). pose proof (Z.square_nonneg (lat u)).
  assert (Q : forall x, Z.abs x <= 2147483648 -> x * x <= 2147483648 * 2147483648) by (intros x X; rewrite <- Z.abs_square; apply Z.square_le_mono_nonneg; lia).
  apply Q in A. apply Q in B. lia.
Qed.
Lemma separated_b_ok u v : separated_b u v = true -> separated u v.
Proof.
  unfold separated_b, separated. cbv zeta. destruct (Z.eqb_spec (det u v) 0) as [E|N]; [intros _ X; contradiction|].
  destruct ((65536 <=? Z.abs (det u v)) && near_b u && near_b v) eqn:K; [intros _ _|intros H _; apply Z.leb_le, H].
  rewrite !andb_true_iff, Z.leb_le in K. destruct K as [[K1 K2] K3]. apply near_dot in K2. apply near_dot in K3.
  assert (D : 65536 * 65536 <= det u v * det u v) by (rewrite <- (Z.abs_square (det u v)); apply Z.square_le_mono_nonneg; lia).
  transitivity (9223372036854775808 * 9223372036854775808); [apply Z.mul_le_mono_nonneg; lia|]. change (9223372036854775808 * 9223372036854775808) with (65536 * 65536 * 2 ^ 94). apply Z.mul_le_mono_nonneg_r; [discriminate|exact D].
Qed.
Fixpoint ordered_b (o : coord) (l : list coord) : bool :=
  match l with
  | [] => true
  | a :: l' => forallb (fun b => negb (coord_eqb b o) && negb (coord_eqb b a) && (coord_eqb a o || before_z o a b)) l' && ordered_b o l'
  end.
Definition same_keys_b (l want : list coord) : bool :=
  forallb (fun a => existsb (coord_eqb a) want) l && forallb (fun a => existsb (coord_eqb a) l) want.
Definition skipped_b (o : coord) (s : segment) : bool :=
  match initial_edges o [s] with Ok (mkOE [] []) => true | _ => false end.
Definition forced_keys_b (ks : list coord) (o : coord) (want : list coord) : bool :=
  wide_b o && forallb wide_b want && forallb (fun a => forallb (fun b => separated_b (from o a) (from o b)) want) want &&
  ordered_b o want && same_keys_b ks want.
Definition forced_order_b (ps : list polygon) (o : coord) (want : list coord) : bool := forced_keys_b (map fst (incident_map ps)) o want.
Definition forced_b (ps : list polygon) (o : coord) (want : list coord) : bool :=
  forced_order_b ps o want && forallb (skipped_b o) (flat_map snd (incident_map ps)).

Lemma initial_skip o segs : (forall s, In s segs -> initial_edges o [s] = Ok no_edges) -> initial_edges o segs = Ok no_edges.
Proof.
  unfold initial_edges. cbv zeta. set (body := fun oe s => _). induction segs as [|s segs IH]; intros H; [reflexivity|].
  cbn [foldM]. pose proof (H s (or_introl eq_refl)) as E. cbn [foldM] in E. 
  destruct (body no_edges s) as [oe| |]; cbn [bind] in *; try discriminate E. inversion E; subst. apply IH. intros s' S. apply H. right. exact S.
Qed.

Lemma nonempty_match {A B} (m : list A) (x y : B) : m <> [] -> match m with [] => x | _ :: _ => y end = y.
Proof. destruct m; [congruence|reflexivity]. Qed.
Lemma exists_eqb a l : existsb (coord_eqb a) l = true <-> In a l.
Proof.
  rewrite existsb_exists. split.
  - intros (x & X & E). apply coord_eqb_spec in E. subst. exact X.
  - intros H. exists a. split; [exact H|apply coord_eqb_refl].
Qed.

(** two strictly sorted lists with the same elements are equal *)
Definition earlier (o a b : coord) : Prop := b <> o /\ (a = o \/ before o a b).
Definition strict (o : coord) (l : list coord) : Prop := forall l1 a l2 b l3, l = l1 ++ a :: l2 ++ b :: l3 -> earlier o a b.
Lemma earlier_asym o a b : earlier o a b -> earlier o b a -> False.
Proof. intros [N [H|H]] [M [K|K]]; try congruence. exact (before_irrefl o a (before_trans _ _ _ _ H K)). Qed.
Lemma strict_unique o : forall l l', strict o l -> strict o l' -> (forall x, In x l <-> In x l') -> NoDup l -> NoDup l' -> l = l'.
Proof.
  induction l as [|a l IH]; intros l' S S' E N N'.
  - destruct l' as [|b l']; [reflexivity|]. exfalso. apply (E b). left. reflexivity.
  - destruct l' as [|b l']; [exfalso; apply (E a); left; reflexivity|].
    assert (H : a = b).
    { destruct (coord_eq_dec a b) as [H|H]; [exact H|exfalso].
      assert (Ia : In a l') by (destruct (proj1 (E a) (or_introl eq_refl)) as [X|X]; [congruence|exact X]).
      assert (Ib : In b l) by (destruct (proj2 (E b) (or_introl eq_refl)) as [X|X]; [congruence|exact X]).
      apply in_split in Ia. destruct Ia as (p & q & ->). apply in_split in Ib. destruct Ib as (r & t & ->).
      exact (earlier_asym o a b (S [] a r b t eq_refl) (S' [] b p a q eq_refl)). }
    subst b. f_equal. inversion N; inversion N'; subst. apply IH; try assumption.
    + intros l1 x l2 y l3 ->. exact (S (a :: l1) x l2 y l3 eq_refl).
    + intros l1 x l2 y l3 ->. exact (S' (a :: l1) x l2 y l3 eq_refl).
    + intros x. split; intros X.
      * destruct (proj1 (E x) (or_intror X)) as [Y|Y]; [subst; contradiction|exact Y].
      * destruct (proj2 (E x) (or_intror X)) as [Y|Y]; [subst; contradiction|exact Y].
Qed.

Lemma ordered_ok o : forall l, ordered_b o l = true -> strict o l /\ NoDup l.
Proof.
  induction l as [|a l IH]; intros H; [split; [|constructor]; intros [|? ?] ? ? ? ? E; discriminate E|].
  cbn [ordered_b] in H. apply andb_true_iff in H. destruct H as [H1 H2]. destruct (IH H2) as [S N]. rewrite forallb_forall in H1.
  assert (F : forall b, In b l -> b <> o /\ b <> a /\ (a = o \/ before o a b)).
  { intros b B. specialize (H1 b B). apply andb_true_iff in H1. destruct H1 as [H1 H3]. apply andb_true_iff in H1. destruct H1 as [H0 H1].
    apply negb_true_iff, coord_eqb_neq in H0. apply negb_true_iff, coord_eqb_neq in H1. split; [exact H0|]. split; [exact H1|].
    destruct (coord_eq_dec a o) as [E|E]; [left; exact E|right]. rewrite (proj2 (coord_eqb_neq a o) E) in H3. cbn [orb] in H3.
    apply before_z_ok; assumption. }
  split.
  - intros [|c l1] x l2 y l3 E; cbn [app] in E; inversion E; subst.
    + destruct (F y) as (Q1 & _ & Q2); [apply in_or_app; right; left; reflexivity|]. split; assumption.
    + exact (S l1 x l2 y l3 eq_refl).
  - constructor; [|exact N]. intros X. apply F in X. destruct X as (_ & X & _). congruence.
Qed.

(** the vertices are visited in the order [want] *)
Theorem forced_tree t o want half atan2 ord : forced_keys_b (map fst (vt_map t)) o want = true -> vt_map t <> [] -> NoDup (map fst (vt_map t)) ->
  accurate_atan2 atan2 -> library_orders ord ->
  get_visible_vertices atan2 ord t o half =
  bind (get_tangent_vector (initial_scanline o)) (fun init =>
    bind (initial_edges o (o_segments ord (vt_segments t))) (fun oe => sweep (vt_map t) init o half want oe)).
Proof.
  intros B Ne Nk T L. unfold forced_keys_b in B. do 4 (apply andb_true_iff in B; destruct B as [B ?]).
  rename H into Sm, H0 into Or, H1 into Se, H2 into Wi. rename B into Wo.
  assert (W : forall c, wide_b c = true -> wide c).
  { intros c C. unfold wide_b in C. apply andb_true_iff in C. destruct C as [C1 C2]. apply Z.leb_le in C1. apply Z.leb_le in C2. split; assumption. }
  rewrite forallb_forall in Wi, Se. destruct (ordered_ok o want Or) as [St Nd].
  set (ks := map fst (vt_map t)) in *.
  assert (Ik : forall x, In x ks <-> In x want).
  { unfold same_keys_b in Sm. apply andb_true_iff in Sm. destruct Sm as [A1 A2]. rewrite forallb_forall in A1, A2.
    intros x. split; intros X; apply exists_eqb; auto. }
  assert (Sep : forall a b, In a want -> In b want -> separated (from o a) (from o b)).
  { intros a b A B. specialize (Se a A). rewrite forallb_forall in Se. apply separated_b_ok, (Se b B). }
  unfold get_visible_vertices, visible_from.
  rewrite nonempty_match by exact Ne. fold ks.
  set (vs := o_vertices ord ks). assert (Iv : forall x, In x vs <-> In x want).
  { intros x. rewrite <- Ik. split; apply Permutation_in; [|apply Permutation_sym]; apply (proj1 L). }
  destruct (sort_separated atan2 o vs T (W o Wo)) with (ord := ord) as (out & -> & P & S).
  { intros v V. apply W, Wi, Iv, V. }
  { intros a b A B. apply Sep; apply Iv; assumption. }
  { exact L. }
  { eapply Permutation_NoDup; [apply Permutation_sym, (proj1 L)|exact Nk]. }
  assert (Nv : NoDup vs) by (eapply Permutation_NoDup; [apply Permutation_sym, (proj1 L)|exact Nk]).
  assert (E : out = want).
  { apply (strict_unique o); [exact S|exact St| |eapply Permutation_NoDup; [apply Permutation_sym, P|exact Nv]|exact Nd].
    intros x. rewrite <- Iv. split; apply Permutation_in; [exact P|apply Permutation_sym, P]. }
  subst out. reflexivity.
Qed.
Theorem forced_open ps o want half atan2 ord : forced_order_b ps o want = true -> incident_map ps <> [] ->
  accurate_atan2 atan2 -> library_orders ord ->
  get_visible_vertices atan2 ord (vistree_of_polygons ps) o half =
  bind (get_tangent_vector (initial_scanline o)) (fun init =>
    bind (initial_edges o (o_segments ord (flat_map snd (incident_map ps)))) (fun oe => sweep (incident_map ps) init o half want oe)).
Proof.
  intros B Ne T L. apply (forced_tree (vistree_of_polygons ps)); try assumption. apply (proj1 (proj1 (incident_map_good ps))).
Qed.
Theorem forced ps o want half atan2 ord : forced_b ps o want = true -> incident_map ps <> [] ->
  accurate_atan2 atan2 -> library_orders ord ->
  get_visible_vertices atan2 ord (vistree_of_polygons ps) o half =
  bind (get_tangent_vector (initial_scanline o)) (fun init => sweep (incident_map ps) init o half want no_edges).
Proof.
  intros B Ne T L. unfold forced_b in B. apply andb_true_iff in B. destruct B as [B Sk]. rewrite forallb_forall in Sk.
  rewrite (forced_open ps o want half atan2 ord B Ne T L). destruct (get_tangent_vector _) as [init| |]; cbn [bind]; [|reflexivity..].
  rewrite initial_skip; [reflexivity|]. intros s Hs. apply (Permutation_in _ (proj1 (proj2 L) _)) in Hs.
  specialize (Sk s Hs). unfold skipped_b in Sk. destruct (initial_edges o [s]) as [[[|] [|]]| |]; try discriminate Sk. reflexivity.
Qed.
