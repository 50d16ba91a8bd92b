(** Deciding whether a map is drawn with simple rings, none in another.  No code is modelled here. *)
From Coq Require Import ZArith Reals Bool List Lia Lra Psatz.
From Verif Require Import Jordan.
From Verif Require Import Base Coordinate Segment Polygon SpecGeom CoordinateFacts GraphMore GraphFacts Graph SweepFacts SweepGeo SweepSound SweepGraph SweepLayers SurveyCheck Coasts CoastExact.
Import ListNotations.
Local Open Scope Z_scope.

(** both ends of [f] strictly on one side of the line of [e] *)
Definition aside_b (e f : segment) : bool :=
  let x := turn (e1 e) (e2 e) (e1 f) in let y := turn (e1 e) (e2 e) (e2 f) in (0 <? x) && (0 <? y) || (x <? 0) && (y <? 0).
(** [f] starts where [e] ends, in another direction *)
Definition bent_b (e f : segment) : bool := coord_eqb (e2 e) (e1 f) && negb (turn (e1 e) (e2 e) (e2 f) =? 0).
Definition same_b (e f : segment) : bool := coord_eqb (e1 e) (e1 f) && coord_eqb (e2 e) (e2 f).
Definition pair_b (e f : segment) : bool := same_b e f || aside_b e f || aside_b f e || bent_b e f || bent_b f e.
Definition simple_b (ps : list polygon) : bool := let l := all_edges ps in forallb (fun e => forallb (pair_b e) l) l.
Definition leftward_b (P : polygon) : bool :=
  existsb (fun i => forallb (fun c => lon (vat (verts P) i) <=? lon c) (verts P) && (0 <? turn (ring_prev (verts P) i) (vat (verts P) i) (ring_next (verts P) i))) (seq 0 (length (verts P))).
Definition sketched_b (ps : list polygon) : bool := simple_b ps && forallb (fun P => (3 <=? length (verts P))%nat && leftward_b P) ps.
Definition off_land_b (o : coord) (ps : list polygon) : bool := forallb (fun P => existsb (coord_eqb o) (verts P) || (wind P o =? 0)) ps.
Definition drawn_b (ps : list polygon) : bool :=
  let qs := map_copies ps in sketched_b qs && forallb (fun o => off_land_b o qs) (polygon_vertices ps).

Lemma aside_b_ok e f : aside_b e f = true -> ~ meet (rp (e1 f)) (rp (e2 f)) (rp (e1 e)) (rp (e2 e)).
Proof.
  unfold aside_b. cbv zeta. rewrite orb_true_iff, !andb_true_iff, !Z.ltb_lt. set (d := minus (rp (e2 e)) (rp (e1 e))).
  assert (Z1 : turn (e1 e) (e2 e) (e1 e) = 0) by (unfold turn; ring). assert (Z2 : turn (e1 e) (e2 e) (e2 e) = 0) by (unfold turn; ring).
  intros [[A B]|[A B]];
    [apply (IZR_lt 0) in A, B; apply (parted 1 d (rp (e1 e)))|apply (IZR_lt _ 0) in A, B; apply (parted (-1) d (rp (e1 e)))]; unfold d;
    rewrite ?cross_turn, ?Z1, ?Z2; lra.
Qed.
Lemma bent_b_ok e f s t : bent_b e f = true -> mix (rp (e1 e)) (rp (e2 e)) s = mix (rp (e1 f)) (rp (e2 f)) t -> s = 1%R /\ t = 0%R.
Proof.
  unfold bent_b. rewrite andb_true_iff, negb_true_iff, Z.eqb_neq, coord_eqb_spec. intros [E N] M. rewrite <- E in M.
  set (a := e1 e) in *. set (b := e2 e) in *. set (c := e2 f) in *. assert (T : (IZR (turn a b c) <> 0)%R) by (apply not_0_IZR, N).
  assert (A : (t * IZR (turn a b c) = 0)%R).
  { rewrite <- cross_turn_on. transitivity (cross (minus (rp b) (rp a)) (minus (mix (rp b) (rp c) t) (rp b))); [unfold cross, minus, mix; cbn [X Y]; ring|].
    rewrite <- M. unfold cross, minus, mix. cbn [X Y]. ring. }
  assert (t = 0%R) by (destruct (Rmult_integral _ _ A); [assumption|contradiction]). subst t. split; [|reflexivity]. rewrite mix_0 in M.
  assert (B : ((1 - s) * IZR (turn a b c) = 0)%R).
  { rewrite <- cross_turn_on. transitivity (cross (minus (rp b) (mix (rp a) (rp b) s)) (minus (rp c) (rp b))); [unfold cross, minus, mix; cbn [X Y]; ring|].
    rewrite M. unfold cross, minus. cbn [X Y]. ring. }
  destruct (Rmult_integral _ _ B); [lra|contradiction].
Qed.
Lemma simple_b_ok ps : simple_b ps = true -> simple_map ps.
Proof.
  unfold simple_b. cbv zeta. rewrite forallb_forall. intros H e f s t E F N Hs Ht M. specialize (H e (proj1 (all_edges_ok ps e) E)). rewrite forallb_forall in H.
  specialize (H f (proj1 (all_edges_ok ps f) F)). unfold pair_b in H. rewrite !orb_true_iff in H. destruct H as [[[[H|H]|H]|H]|H].
  - exfalso. apply N. unfold same_b in H. rewrite andb_true_iff, !coord_eqb_spec in H. destruct H as [H1 H2], e as [a b], f as [c d]. cbn in H1, H2. congruence.
  - exfalso. apply (aside_b_ok e f H). exists t, s. auto.
  - exfalso. apply (aside_b_ok f e H). exists s, t. auto.
  - destruct (bent_b_ok e f s t H M) as [-> ->]. auto.
  - destruct (bent_b_ok f e t s H (eq_sym M)) as [-> ->]. auto.
Qed.
Lemma leftward_b_ok P : leftward_b P = true -> leftward P.
Proof.
  unfold leftward_b. rewrite existsb_exists. intros (i & I & H). apply in_seq in I. rewrite andb_true_iff, forallb_forall, Z.ltb_lt in H. destruct H as [A B].
  exists i. split; [lia|]. split; [|exact B]. intros c C. apply Z.leb_le, A, C.
Qed.
Lemma sketched_b_ok ps : sketched_b ps = true -> sketched ps.
Proof.
  unfold sketched_b. rewrite andb_true_iff, forallb_forall. intros [A B]. split; [apply simple_b_ok, A|]. intros P HP. specialize (B P HP). rewrite andb_true_iff, Nat.leb_le in B.
  split; [apply B|apply leftward_b_ok, B].
Qed.
Lemma off_land_b_ok o ps : off_land_b o ps = true -> off_land o ps.
Proof.
  unfold off_land_b. rewrite forallb_forall. intros H P HP. specialize (H P HP). rewrite orb_true_iff, Z.eqb_eq in H. destruct H as [H|H]; [left|right; exact H].
  apply existsb_exists in H. destruct H as (c & C & E). apply coord_eqb_spec in E. subst c. exact C.
Qed.
Lemma drawn_b_ok ps : drawn_b ps = true -> drawn ps.
Proof.
  unfold drawn_b. cbv zeta. rewrite andb_true_iff, forallb_forall. intros [A B]. split; [apply sketched_b_ok, A|]. intros o O. apply off_land_b_ok, B, O.
Qed.
Lemma cove_drawn : drawn cove /\ off_land (mkC 10000000 15000000) cove /\ off_land (mkC 10000000 (-10000000)) cove.
Proof. split; [apply drawn_b_ok; vm_compute; reflexivity|]. split; apply off_land_b_ok; vm_compute; reflexivity. Qed.
