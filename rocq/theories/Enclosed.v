(** What a ring encloses, and what of it is left when a polygon is made of it.  No code is modelled here. *)
From Verif Require Import Jordan Green.
From Coq Require Import ZArith Reals Bool List Lia Lra Psatz.
From Verif Require Import Base F64 Coordinate Segment Polygon SpecGeom SegmentFacts PolygonFacts PolygonFloat PolygonMore PolylineFacts GraphMore Graph Visgraph SweepFacts SweepGraph SweepFronts OpenWater SeaLines Coasts.
Import ListNotations.
Local Open Scope Z_scope.

(** ** Vocabulary *)
(** how often the ring winds around the point [z] of the plane *)
Definition goes_round (vs : list coord) (z : pt) : Z := total (length vs) (fun i => turns (rp (vat vs i)) (rp (ring_next vs i)) z).
(** on one of its edges *)
Definition on_ring (vs : list coord) (z : pt) : Prop := exists i s, (i < length vs)%nat /\ (0 <= s <= 1)%R /\ mix (rp (vat vs i)) (rp (ring_next vs i)) s = z.

(** ** Sums along a ring *)
Section Sums.
Variable phi : coord -> coord -> Z.
Fixpoint along (l : list coord) : Z := match l with a :: ((b :: _) as t) => phi a b + along t | _ => 0 end.
Definition round (vs : list coord) : Z := match vs with [] => 0 | h :: _ => along (vs ++ [h]) end.
Lemma along_cons a b l : along (a :: b :: l) = phi a b + along (b :: l). Proof. reflexivity. Qed.
Lemma along_app A : forall k B, along (A ++ k :: B) = along (A ++ [k]) + along (k :: B).
Proof.
  induction A as [|a A IH]; intros k B; [cbn [app along]; lia|]. cbn [app]. assert (E : exists n l l', A ++ k :: B = n :: l /\ A ++ [k] = n :: l') by (destruct A as [|x A]; cbn [app]; eauto).
  destruct E as (n & l & l' & E1 & E2). specialize (IH k B). rewrite E1, E2 in *. rewrite !along_cons. lia.
Qed.
Lemma round_rotate A B : round (A ++ B) = round (B ++ A).
Proof.
  destruct A as [|a A]; [rewrite app_nil_r; reflexivity|]. destruct B as [|b B]; [rewrite app_nil_r; reflexivity|].
  change (round ((a :: A) ++ b :: B)) with (along (((a :: A) ++ b :: B) ++ [a])). change (round ((b :: B) ++ a :: A)) with (along (((b :: B) ++ a :: A) ++ [b])). rewrite <- !app_assoc.
  change ((b :: B) ++ [a]) with (b :: (B ++ [a])). change ((a :: A) ++ [b]) with (a :: (A ++ [b])). rewrite (along_app (a :: A)), (along_app (b :: B)). cbn [app]. lia.
Qed.
Lemma along_index (g : nat -> coord) m : forall i, along (map g (seq i (S m))) = total m (fun j => phi (g (i + j)%nat) (g (S (i + j)))).
Proof.
  induction m as [|m IH]; intros i; [reflexivity|]. rewrite seq_S, map_app. cbn [map]. rewrite seq_S, map_app. cbn [map]. rewrite <- app_assoc. cbn [app]. rewrite along_app. cbn [along total].
  replace (map g (seq i m) ++ [g (i + m)%nat]) with (map g (seq i (S m))) by (rewrite seq_S, map_app; reflexivity). rewrite IH. replace (i + S m)%nat with (S (i + m)) by lia. lia.
Qed.
Lemma round_total vs : round vs = total (length vs) (fun i => phi (vat vs i) (ring_next vs i)).
Proof.
  destruct vs as [|h t]; [reflexivity|]. unfold round. rewrite <- unrolled. set (vs := h :: t). rewrite along_index. apply total_ext. intros j J. change (1 + j)%nat with (S j). rewrite ring_at_S by exact J. f_equal.
  unfold ring_next, ring_at. replace (S (S j) + length vs - 1)%nat with ((j + 1) + 1 * length vs)%nat by lia. rewrite Nat.mod_add by (unfold vs; cbn [length]; lia). reflexivity.
Qed.
Variable sg : Z.
Hypothesis Flip : forall a b, phi b a = sg * phi a b.
Lemma along_rev l : along (rev l) = sg * along l.
Proof.
  induction l as [|a l IH]; [cbn [rev along]; lia|]. cbn [rev]. destruct l as [|b l]; [cbn [rev app along]; lia|]. rewrite along_cons. cbn [rev] in *. rewrite <- app_assoc. cbn [app]. rewrite along_app, IH. cbn [along]. rewrite (Flip a b). lia.
Qed.
Lemma round_rev vs : round (rev vs) = sg * round vs.
Proof.
  destruct vs as [|h t]; [cbn [rev round]; lia|]. cbn [rev]. rewrite round_rotate. cbn [app]. unfold round. cbn [app]. rewrite <- along_rev. f_equal. cbn [rev]. rewrite rev_app_distr. reflexivity.
Qed.
Hypothesis Same : forall a, phi a a = 0.
Hypothesis Straight : forall a b c, codir (vsub b a) (vsub c b) -> phi a c = phi a b + phi b c.
Lemma along_flt l : forall a p c, adj_ne (p :: c :: l) -> anchored a p c -> along (a :: flt p (c :: l) ++ [last (c :: l) c]) = phi a p + along (p :: c :: l).
Proof.
  assert (Via : forall a p c, anchored a p c -> phi a c = phi a p + phi p c) by (intros a p c [->|H]; [rewrite Same; lia|apply Straight, H]).
  induction l as [|n l IH]; intros a p c N A.
  - cbn [flt app last along]. rewrite (Via a p c A). lia.
  - destruct N as [N1 N]. assert (N2 : c <> n) by apply N. rewrite flt_cons. assert (LL : forall d d', last (n :: l) d = last (n :: l) d') by (intros; apply last_default; congruence).
    replace (last (c :: n :: l) c) with (last (n :: l) n) by (rewrite (LL n c); reflexivity). rewrite (along_cons p c). destruct (keepb p c n) eqn:K.
    + cbn [app]. rewrite along_cons. rewrite (IH c c n N (or_introl eq_refl)), Same, (Via a p c A). lia.
    + pose proof (keepb_false_codir p c n N1 N2 K) as CD. rewrite (IH a c n N); [rewrite (Via a p c A); lia|]. right. destruct A as [->|A]; [exact CD|].
      assert (DC : codir (vsub c a) (vsub c p)) by (apply anchored_dir; [exact N1|right; exact A]). eapply codir_trans; [exact DC|exact CD].
Qed.
Lemma round_cyc vs : ring_ne vs -> round (cyc vs) = round vs.
Proof.
  intros N. destruct vs as [|h t]; [reflexivity|]. destruct (kept_rotation h t N) as (A & k & B & E & NE & K). rewrite E in *.
  assert (N2 : ring_ne (k :: B ++ A)) by (apply (ring_ne_rotate A (k :: B)); exact N). destruct (cyc_anchored k (B ++ A) NE N2 K) as (C1 & _).
  destruct (cyc_rotate A (k :: B)) as (C & D & E1 & E2 & _). cbn [app] in E2. rewrite C1 in E2. rewrite E1, round_rotate, <- E2. rewrite (round_rotate A (k :: B)). cbn [app].
  set (W := B ++ A) in *. destruct W as [|s W]; [congruence|]. unfold round. cbn [app]. unfold ring_ne in N2. cbn [app] in N2.
  pose proof (along_flt (W ++ [k]) k k s N2 (or_introl eq_refl)) as G. assert (L : last (s :: W ++ [k]) s = k) by (change (s :: W ++ [k]) with ((s :: W) ++ [k]); apply last_app_cons).
  rewrite L in G. rewrite G, Same. lia.
Qed.
End Sums.

(** ** The winding number of a polygon made of a ring *)
Lemma round_goes vs z : round (fun a b => turns (rp a) (rp b) z) vs = goes_round vs z.
Proof. apply round_total. Qed.
Lemma turns_part a c s z : (0 < s < 1)%R -> turns a c z = turns a (mix a c s) z + turns (mix a c s) c z.
Proof.
  intros S. set (b := mix a c s). set (k := cross (minus c a) (minus z a)).
  assert (E1 : cross (minus b a) (minus z a) = (s * k)%R) by (unfold k, b, cross, minus, mix; cbn [X Y]; ring). assert (E2 : cross (minus c b) (minus z b) = ((1 - s) * k)%R) by (unfold k, b, cross, minus, mix; cbn [X Y]; ring).
  assert (Xb : X b = ((1 - s) * X a + s * X c)%R) by reflexivity. unfold turns. rewrite E1, E2. fold k. clearbody k b. clear E1 E2.
  assert (P1 : (0 < s * k <-> 0 < k)%R) by (split; intros; nra). assert (P2 : (0 < (1 - s) * k <-> 0 < k)%R) by (split; intros; nra).
  assert (P3 : (s * k < 0 <-> k < 0)%R) by (split; intros; nra). assert (P4 : ((1 - s) * k < 0 <-> k < 0)%R) by (split; intros; nra).
  destruct (Rlt_dec (X z) (X a)) as [A|A], (Rlt_dec (X z) (X b)) as [B|B], (Rlt_dec (X z) (X c)) as [C|C]; try (exfalso; nra); try reflexivity;
    repeat (match goal with |- context [Rlt_dec ?x ?y] => destruct (Rlt_dec x y) end); try reflexivity; exfalso; tauto.
Qed.
Lemma codir_between a b c : codir (vsub b a) (vsub c b) -> exists s, (0 < s < 1)%R /\ rp b = mix (rp a) (rp c) s.
Proof.
  intros [H1 H2]. unfold CoordinateFacts.det, CoordinateFacts.dot, vsub in H1, H2. cbn [lon lat] in H1, H2. set (ux := lon b - lon a) in *. set (uy := lat b - lat a) in *. set (wx := lon c - lon b) in *. set (wy := lat c - lat b) in *.
  assert (Sq : forall x y, x <> 0 \/ y <> 0 -> 0 < x * x + y * y) by (clear; intros x y [H|H]; nia).
  assert (U : 0 < ux * ux + uy * uy) by (apply Sq; destruct (Z.eq_dec ux 0) as [A|A]; [right|left; exact A]; intros B; rewrite A, B in H2; lia). set (uu := ux * ux + uy * uy) in *. set (uw := ux * wx + uy * wy) in *.
  assert (Kx : ux * (uu + uw) = uu * (lon c - lon a)) by (unfold uu, uw; replace (lon c - lon a) with (ux + wx) by (unfold ux, wx; lia); clearbody ux uy wx wy; clear - H1; enough (uy * (ux * wy - wx * uy) = 0) by lia; rewrite H1; lia).
  assert (Ky : uy * (uu + uw) = uu * (lat c - lat a)) by (unfold uu, uw; replace (lat c - lat a) with (uy + wy) by (unfold uy, wy; lia); clearbody ux uy wx wy; clear - H1; enough (ux * (ux * wy - wx * uy) = 0) by lia; rewrite H1; lia).
  pose proof (IZR_lt 0 uu U) as Ru. pose proof (IZR_lt 0 uw H2) as Rw. exists (IZR uu / (IZR uu + IZR uw))%R. set (s := (IZR uu / (IZR uu + IZR uw))%R).
  assert (Es : (s * (IZR uu + IZR uw) = IZR uu)%R) by (unfold s; field; lra). split.
  - split; [apply Rdiv_lt_0_compat; lra|]. apply Rmult_lt_reg_r with (IZR uu + IZR uw)%R; [lra|]. rewrite Es. lra.
  - apply (f_equal IZR) in Kx, Ky. unfold ux in Kx. unfold uy in Ky. rewrite !mult_IZR, plus_IZR, !minus_IZR in Kx, Ky.
    assert (G : forall a c, (((1 - s) * a + s * c) * (IZR uu + IZR uw) = a * (IZR uu + IZR uw) + IZR uu * (c - a))%R) by (intros a' c'; rewrite <- Es at 3; ring).
    apply pt_eq; unfold rp, mix; cbn [X Y]; apply (Rmult_eq_reg_r (IZR uu + IZR uw)%R); try lra; rewrite G; lra.
Qed.
Lemma turns_straight a b c z : codir (vsub b a) (vsub c b) -> turns (rp a) (rp c) z = turns (rp a) (rp b) z + turns (rp b) (rp c) z.
Proof. intros H. destruct (codir_between a b c H) as (s & S & ->). apply turns_part, S. Qed.
Lemma goes_cyc vs z : no_repeats vs -> goes_round (cyc vs) z = goes_round vs z.
Proof.
  intros N. rewrite <- !round_goes. apply round_cyc; [intros a; pose proof (turns_flip (rp a) (rp a) z); lia|intros; apply turns_straight; assumption|apply no_repeats_ring, N].
Qed.
Lemma goes_rev vs z : goes_round (rev vs) z = - goes_round vs z.
Proof. rewrite <- !round_goes. rewrite (round_rev _ (-1)) by (intros; rewrite turns_flip; lia). lia. Qed.
(** every polygon made of a ring without repeats winds as often, in one direction or the other *)
Theorem made_round vs p : Forall pgeo vs -> no_repeats vs -> make_polygon vs = Ok p ->
  (forall z, goes_round (verts p) z = goes_round vs z) \/ (forall z, goes_round (verts p) z = - goes_round vs z).
Proof.
  intros F N E. rewrite make_polygon_pure in E by exact F. inversion E as [E']. cbn [verts]. unfold normalize_orientation.
  assert (K : forall r, r = cyc vs \/ r = rev (cyc vs) -> (forall z, goes_round r z = goes_round vs z) \/ (forall z, goes_round r z = - goes_round vs z)).
  { intros r [-> | ->]; [left|right]; intros z; [apply goes_cyc, N|rewrite goes_rev, goes_cyc by exact N; reflexivity]. }
  apply K. destruct (_ <=? _)%nat; [left; reflexivity|]. destruct (get_orientation_of_vertices _); auto.
Qed.
(** in the direction of the area, if that is clear *)
Theorem made_clear vs p : Forall pgeo vs -> no_repeats vs -> clear_area vs -> make_polygon vs = Ok p -> forall z, goes_round (verts p) z = Z.sgn (ring_area vs) * goes_round vs z.
Proof.
  intros F N C E z. rewrite make_polygon_clear in E by assumption. inversion E as [E']. cbn [verts]. destruct (clear_cyc vs N C) as (_ & A & _). unfold ccw. rewrite A.
  destruct (Z.ltb_spec 0 (ring_area vs)) as [L|L]; [rewrite Z.sgn_pos by exact L; rewrite goes_cyc by exact N; lia|].
  assert (ring_area vs <> 0). { destruct C as (_ & W & H & Ex & C). intros Z0. rewrite Z0 in C. destruct vs as [|v vs]; [cbn [length] in C; lia|]. destruct Ex as [E1 E2]. destruct (E2 v v (or_introl eq_refl) (or_introl eq_refl)) as [_ H0].
    assert (0 <= Z.of_nat (length (v :: vs)) * Z.of_nat (length (v :: vs)) * (W + H)) by (apply Z.mul_nonneg_nonneg; lia). lia. }
  rewrite Z.sgn_neg by lia. rewrite goes_rev, goes_cyc by exact N. lia.
Qed.

(** ** A ring with its inside on the left has positive area *)
Definition shoe (a b : coord) : Z := lon a * lat b - lat a * lon b.
Lemma area_round vs : ring_area vs = round shoe vs.
Proof.
  assert (K : forall l, path_area l = along shoe l). { induction l as [|a l IH]; [reflexivity|]. destruct l as [|b l]; [reflexivity|]. rewrite along_cons, <- IH. reflexivity. }
  destruct vs as [|h t]; [reflexivity|]. apply K.
Qed.
Section Ring.
Variable P : polygon.
Notation n := (length (verts P)).
Notation V := (ring P).
Lemma area_area2 : IZR (ring_area (verts P)) = area2 n V.
Proof.
  rewrite area_round, round_total, rsum_total. unfold area2. apply rsum_ext. intros i I. unfold shoe, cross, ring, rp, ring_next. cbn [X Y]. rewrite (Nat.mod_small i) by exact I. replace (i + 1)%nat with (S i) by lia. rewrite minus_IZR, !mult_IZR. reflexivity.
Qed.
Lemma goes_winding z : goes_round (verts P) z = winding n V z.
Proof. unfold goes_round, winding. apply total_ext. intros i I. unfold ring, ring_next. rewrite (Nat.mod_small i) by exact I. replace (i + 1)%nat with (S i) by lia. reflexivity. Qed.
Lemma on_ring_misses z : ~ on_ring (verts P) z <-> misses n V z z.
Proof.
  assert (E : forall i, (i < n)%nat -> V i = rp (vat (verts P) i) /\ V (S i) = rp (ring_next (verts P) i)) by (intros i I; unfold ring, ring_next; rewrite (Nat.mod_small i) by exact I; replace (i + 1)%nat with (S i) by lia; auto).
  split.
  - intros H i I (s & t & Hs & Ht & Em). apply H. exists i, t. split; [exact I|]. split; [exact Ht|]. destruct (E i I) as [<- <-]. rewrite <- Em. apply pt_eq; unfold mix; cbn [X Y]; ring.
  - intros H (i & s & I & Hs & Em). apply (H i I). destruct (E i I) as [-> ->]. exists 0%R, s. split; [lra|]. split; [exact Hs|]. rewrite Em. apply mix_0.
Qed.
Hypothesis Nd : NoDup (verts P).
Hypothesis N3 : (3 <= n)%nat.
Hypothesis Si : simple_map [P].
Lemma ring_rep j : exists i, (i < n)%nat /\ V j = V i.
Proof. exists (j mod n)%nat. assert (L : (j mod n < n)%nat) by (apply Nat.mod_upper_bound; lia). split; [exact L|]. unfold ring. rewrite (Nat.mod_small (j mod n)) by exact L. reflexivity. Qed.
Lemma ring_closed : V n = V 0%nat. Proof. unfold ring. rewrite Nat.mod_same, Nat.mod_0_l by lia. reflexivity. Qed.
Lemma ring_per i : V (i + n)%nat = V i. Proof. apply r_per; assumption. Qed.
Lemma free_01 z : leftward P -> free_spot n V z -> winding n V z = 0 \/ winding n V z = 1.
Proof.
  intros L F. destruct (r_sides [P] P (or_introl eq_refl) Nd N3 Si z L) as [S1 S2]. destruct (look_up n V N3 ring_per z F) as [E|[H|H]]; [left; exact E|right; apply S1, H|left; apply S2, H].
Qed.
(** around every point not on the ring it winds once or not at all *)
Theorem once_or_not z : leftward P -> ~ on_ring (verts P) z -> goes_round (verts P) z = 0 \/ goes_round (verts P) z = 1.
Proof.
  intros L O. rewrite goes_winding. apply on_ring_misses in O. set (east := P2 1 0). set (none := P2 0 0).
  assert (Z0 : forall e, Jordan.shift z e none = z) by (intros e; apply pt_eq; unfold Jordan.shift, none; cbn [X Y]; ring).
  assert (A : soon (fun e => forall j, (j < n)%nat -> (~ meet z (Jordan.shift z e east) (V j) (V (S j))) /\ (X z + e <> X (V j))%R)).
  { apply soon_all. intros j J. apply soon_and.
    - eapply soon_mono; [|apply (perturb z z (V j) (V (S j)) none east)]; [intros e _ H; cbv beta in H; rewrite Z0 in H; exact H|right; apply (r_dist P Nd N3)|apply O, J].
    - destruct (Rle_lt_dec (X (V j)) (X z)) as [H|H]; [apply soon_now; intros e He; lra|]. exists ((X (V j) - X z) / 2)%R. split; [lra|]. intros e He. lra. }
  destruct A as (h & Hh & A). specialize (A h ltac:(lra)). rewrite (moving n V z (Jordan.shift z h east) ring_closed) by (intros j J; apply (A j J)). apply free_01; [exact L|]. split.
  - intros j. destruct (ring_rep j) as (i & I & ->). destruct (A i I) as [_ H]. unfold Jordan.shift, east. cbn [X Y]. rewrite Rmult_1_r. exact H.
  - intros j J M. apply (proj1 (A j J)). destruct M as (s & t & Hs & Ht & Em). exists 1%R, t. split; [lra|]. split; [exact Ht|]. rewrite <- Em. apply pt_eq; unfold mix; cbn [X Y]; ring.
Qed.
Theorem left_area : leftward P -> 0 <= ring_area (verts P).
Proof.
  intros L. apply le_IZR. rewrite area_area2. apply (area_pos n V ring_closed ring_rep). intros z F. destruct (free_01 z L F) as [-> | ->]; lia.
Qed.
End Ring.

(** ** And the other way around, by a mirror *)
Definition mirror (c : coord) : coord := mkC (lon c) (- lat c).
Definition mirrored (P : polygon) : polygon := mkP (map mirror (verts P)).
Lemma vat_mirror vs i : vat (map mirror vs) i = mirror (vat vs i).
Proof. unfold vat. change (mkC 0 0) with (mirror (mkC 0 0)) at 1. apply map_nth. Qed.
Lemma next_mirror vs i : ring_next (map mirror vs) i = mirror (ring_next vs i). Proof. unfold ring_next. rewrite map_length. apply vat_mirror. Qed.
Lemma prev_mirror vs i : ring_prev (map mirror vs) i = mirror (ring_prev vs i). Proof. unfold ring_prev. rewrite map_length. apply vat_mirror. Qed.
Lemma turn_mirror a b c : turn (mirror a) (mirror b) (mirror c) = - turn a b c. Proof. unfold turn, mirror. cbn [lon lat]. ring. Qed.
Lemma mirror_inj a b : mirror a = mirror b -> a = b.
Proof. intros E. destruct a as [x y], b as [x' y']. unfold mirror in E. cbn [lon lat] in E. inversion E. f_equal. lia. Qed.
Lemma nodup_mirror P : NoDup (verts P) -> NoDup (verts (mirrored P)).
Proof. cbn [verts mirrored]. apply FinFun.Injective_map_NoDup. intros a b. apply mirror_inj. Qed.
Lemma area_mirror P : ring_area (verts (mirrored P)) = - ring_area (verts P).
Proof.
  cbn [verts mirrored]. rewrite (area_round (verts P)), area_round, !round_total, map_length. rewrite (total_ext _ _ (fun i => 0 - shoe (vat (verts P) i) (ring_next (verts P) i))).
  - rewrite <- (total_minus (length (verts P)) (fun _ => 0) (fun i => shoe (vat (verts P) i) (ring_next (verts P) i))). rewrite (total_zero _ (fun _ => 0)) by reflexivity. lia.
  - intros i _. rewrite vat_mirror, next_mirror. unfold shoe, mirror. cbn [lon lat]. ring.
Qed.
Definition flip (z : pt) : pt := P2 (X z) (- Y z).
Lemma rp_mirror c : rp (mirror c) = flip (rp c). Proof. unfold rp, mirror, flip. cbn [X Y lon lat]. rewrite opp_IZR. reflexivity. Qed.
Lemma mix_flip_y a b s : mix (flip a) (flip b) s = flip (mix a b s). Proof. apply pt_eq; unfold mix, flip; cbn [X Y]; ring. Qed.
Lemma flip_inj a b : flip a = flip b -> a = b.
Proof. intros E. apply pt_eq; [exact (f_equal X E)|]. apply (f_equal Y) in E. unfold flip in E. cbn [X Y] in E. lra. Qed.
Definition mirror_seg (e : segment) : segment := mkS (mirror (e1 e)) (mirror (e2 e)).
Lemma edge_mirror P e : polygon_edge [mirrored P] e -> exists f, polygon_edge [P] f /\ e = mirror_seg f.
Proof.
  intros (Q & i & [<-|[]] & I & ->). cbn [verts mirrored] in *. rewrite map_length in I. exists (mkS (vat (verts P) i) (ring_next (verts P) i)). split.
  - exists P, i. split; [left; reflexivity|]. split; [exact I|reflexivity].
  - unfold mirror_seg. cbn [e1 e2]. rewrite vat_mirror, next_mirror. reflexivity.
Qed.
Lemma simple_mirror P : simple_map [P] -> simple_map [mirrored P].
Proof.
  intros H e f s t He Hf N Hs Ht E. destruct (edge_mirror P e He) as (e' & He' & ->). destruct (edge_mirror P f Hf) as (f' & Hf' & ->). apply (H e' f' s t He' Hf'); [congruence|exact Hs|exact Ht|].
  unfold mirror_seg in E. cbn [e1 e2] in E. rewrite !rp_mirror, !mix_flip_y in E. apply flip_inj, E.
Qed.
Lemma west_first (l : list coord) : l <> [] -> exists i, (i < length l)%nat /\ forall c, In c l -> lon (vat l i) < lon c \/ lon (vat l i) = lon c /\ lat (vat l i) <= lat c.
Proof.
  induction l as [|a l IH]; [congruence|]. intros _. destruct l as [|b l].
  - exists 0%nat. split; [cbn [length]; lia|]. intros c [<-|[]]. right. split; [reflexivity|cbn; lia].
  - destruct IH as (i & I & M); [congruence|]. set (m := vat (b :: l) i) in *. assert (D : (lon a < lon m \/ lon a = lon m /\ lat a <= lat m) \/ (lon m < lon a \/ lon m = lon a /\ lat m <= lat a)) by lia.
    destruct D as [D|D]; [exists 0%nat|exists (S i)]; (split; [cbn [length] in *; lia|]).
    + change (vat (a :: b :: l) 0) with a. intros c [<-|Hc]; [lia|]. specialize (M c Hc). lia.
    + change (vat (a :: b :: l) (S i)) with m. intros c [<-|Hc]; [lia|]. exact (M c Hc).
Qed.
Lemma west_turn P : NoDup (verts P) -> (3 <= length (verts P))%nat -> simple_map [P] ->
  exists i, (i < length (verts P))%nat /\ (forall c, In c (verts P) -> lon (vat (verts P) i) <= lon c) /\ turn (ring_prev (verts P) i) (vat (verts P) i) (ring_next (verts P) i) <> 0.
Proof.
  intros Nd N3 Si. destruct (west_first (verts P)) as (i & I & M); [intros E; rewrite E in N3; cbn in N3; lia|]. exists i. split; [exact I|]. split; [intros c Hc; specialize (M c Hc); lia|]. intros T.
  destruct (r_corner P N3 i I) as (A & B & C). set (k := (i + length (verts P) - 1)%nat) in *. set (p := ring_prev (verts P) i) in *. set (v := vat (verts P) i) in *. set (q := ring_next (verts P) i) in *.
  pose proof (straight_on (ring P) (r_dist P Nd N3) (r_next [P] P (or_introl eq_refl) Nd N3 Si) k) as So. rewrite A, B, C, cross_turn_on, T in So. specialize (So eq_refl).
  assert (Ip : In p (verts P)) by (unfold p, ring_prev; apply nth_In, Nat.mod_upper_bound; lia). assert (Iq : In q (verts P)) by (unfold q, ring_next; apply nth_In, Nat.mod_upper_bound; lia).
  pose proof (M p Ip) as Mp. pose proof (M q Iq) as Mq. unfold Jordan.dot, minus, rp in So. cbn [X Y] in So. rewrite <- !minus_IZR, <- !mult_IZR, <- plus_IZR in So. apply (lt_IZR 0) in So.
  unfold turn in T. clearbody p v q. clear - So Mp Mq T. set (a1 := lon p - lon v). set (a2 := lat p - lat v). set (b1 := lon q - lon v). set (b2 := lat q - lat v).
  assert (H1 : 0 < a1 \/ a1 = 0 /\ 0 <= a2) by (unfold a1, a2; lia). assert (H2 : 0 < b1 \/ b1 = 0 /\ 0 <= b2) by (unfold b1, b2; lia). assert (H3 : a1 * b1 + a2 * b2 < 0) by (unfold a1, a2, b1, b2; lia).
  assert (H4 : a1 * b2 = a2 * b1) by (unfold a1, a2, b1, b2; lia). clearbody a1 a2 b1 b2. clear - H1 H2 H3 H4.
  destruct H1 as [H1|[-> H1]].
  2:{ destruct H2 as [H2|[-> H2]]; [assert (a2 = 0) by (symmetry in H4; apply Z.mul_eq_0 in H4; lia); subst a2; lia|]. assert (0 <= a2 * b2) by (apply Z.mul_nonneg_nonneg; assumption). lia. }
  destruct H2 as [H2|[-> H2]].
  2:{ assert (b2 = 0) by (rewrite Z.mul_0_r in H4; apply Z.mul_eq_0 in H4; lia). subst b2. lia. }
  assert (b1 * (a1 * b1 + a2 * b2) = a1 * (b1 * b1 + b2 * b2)) by (transitivity (a1 * b1 * b1 + (a2 * b1) * b2); [ring|]; rewrite <- H4; ring).
  assert (b1 * (a1 * b1 + a2 * b2) < 0) by (apply Z.mul_pos_neg; assumption). assert (0 <= a1 * (b1 * b1 + b2 * b2)) by (apply Z.mul_nonneg_nonneg; [lia|nia]). lia.
Qed.
(** a simple ring with positive area has its inside on the left *)
Theorem positive_left P : NoDup (verts P) -> (3 <= length (verts P))%nat -> simple_map [P] -> 0 < ring_area (verts P) -> leftward P.
Proof.
  intros Nd N3 Si A. destruct (west_turn P Nd N3 Si) as (i & I & M & T). destruct (Z_lt_le_dec 0 (turn (ring_prev (verts P) i) (vat (verts P) i) (ring_next (verts P) i))) as [L|L]; [exists i; auto|exfalso].
  enough (0 <= ring_area (verts (mirrored P))) by (rewrite area_mirror in *; lia). apply left_area; [apply nodup_mirror, Nd|cbn [verts mirrored]; rewrite map_length; exact N3|apply simple_mirror, Si|].
  exists i. cbn [verts mirrored]. rewrite map_length. split; [exact I|]. split.
  - intros c Hc. apply in_map_iff in Hc. destruct Hc as (d & <- & Hd). rewrite vat_mirror. cbn [mirror lon]. apply M, Hd.
  - rewrite vat_mirror, next_mirror, prev_mirror, turn_mirror. lia.
Qed.

(** ** Maps *)
Lemma simple_one ps P : simple_map ps -> In P ps -> simple_map [P].
Proof.
  intros H I e f s t He Hf. apply H.
  - destruct He as (Q & i & [<-|[]] & Hi & E). exists P, i. auto.
  - destruct Hf as (Q & i & [<-|[]] & Hi & E). exists P, i. auto.
Qed.
Lemma sketched_simple ps : simple_map ps -> (forall P, In P ps -> NoDup (verts P) /\ (3 <= length (verts P))%nat /\ 0 < ring_area (verts P)) -> sketched ps.
Proof. intros H A. split; [exact H|]. intros P I. destruct (A P I) as (Nd & N3 & Pa). split; [exact N3|]. apply positive_left; [exact Nd|exact N3|exact (simple_one ps P H I)|exact Pa]. Qed.
(** the side of an edge *)
Lemma beside_edge P i s z : NoDup (verts P) -> (3 <= length (verts P))%nat -> simple_map [P] -> leftward P -> (i < length (verts P))%nat -> (0 < s < 1)%R ->
  let a := rp (vat (verts P) i) in let b := rp (ring_next (verts P) i) in
  (forall e, (0 < e <= 1)%R -> ~ on_ring (verts P) (mix (mix a b s) z e)) ->
  ((0 < cross (minus b a) (minus z a))%R -> goes_round (verts P) z = 1) /\ ((cross (minus b a) (minus z a) < 0)%R -> goes_round (verts P) z = 0).
Proof.
  intros Nd N3 Si L I Hs a b O. destruct (r_sides [P] P (or_introl eq_refl) Nd N3 Si z L) as [S1 S2]. rewrite goes_winding. set (n := length (verts P)) in *. set (V := ring P) in *. set (k := (i + n - 1)%nat).
  assert (Ea : V (S k) = a) by (unfold k, V; replace (S (i + n - 1)) with (i + n)%nat by lia; rewrite (ring_per P N3); unfold ring; fold n; rewrite Nat.mod_small by exact I; reflexivity).
  assert (Eb : V (S (S k)) = b) by (unfold k, V; replace (S (S (i + n - 1))) with (S i + n)%nat by lia; rewrite (ring_per P N3); unfold b, ring, ring_next; fold n; replace (i + 1)%nat with (S i) by lia; reflexivity).
  set (w := mix a b s) in *. assert (Is : in_sight n V z w).
  { intros e He. intros j J (x & y & Hx & Hy & Em). assert (E : mix (Jordan.shift w e (minus z w)) z x = mix w z (e + x * (1 - e))) by (apply pt_eq; unfold mix, Jordan.shift, minus; cbn [X Y]; ring).
    rewrite E in Em. assert (F : (0 < e + x * (1 - e) <= 1)%R) by nra. apply (proj1 (on_ring_misses P _) (O _ F) j J). exists 0%R, y. split; [lra|]. split; [exact Hy|]. rewrite mix_0. exact Em. }
  assert (Ec : cross (minus b a) (minus z w) = cross (minus b a) (minus z a)) by (unfold w, cross, minus, mix; cbn [X Y]; ring).
  assert (See : forall h, (0 < h * cross (minus b a) (minus z a))%R -> sees n V h z).
  { intros h H. left. exists k, s. split; [lra|]. cbv zeta. rewrite Ea, Eb. fold w. split; [exact Is|]. rewrite Ec. split; [exact H|lra]. }
  split; intros H; [apply S1|apply S2]; apply See; lra.
Qed.
