(** C97: a stored polygon encloses what the given ring encloses, on the left of each edge.  No code is modelled here. *)
From Verif Require Import Jordan Green.
From Coq Require Import ZArith Reals Bool List Lia Lra.
From Verif Require Import Base F64 Coordinate Segment Polygon SpecGeom SegmentFacts CoordinateFacts PolygonFacts PolygonFloat PolygonMore GraphMore Graph Visgraph SweepFacts SweepGen SweepGeo SweepGraph SweepLayers Boundary
  SweepFronts OpenWater SeaLines SurveyCheck Coasts CoastExact CoastCheck Enclosed Covers PyLayer PyFacts Props_Polygon Props_EndToEnd.
Import ListNotations.
Local Open Scope Z_scope.

(** C97.  Missing: rings with a vertex given twice in a row, and rings so thin that their area drowns in rounding errors
    (false for both, below). *)
(** the stored ring winds around every point of the plane as often as the given one does, and in the positive direction *)
Theorem C97_region_partial : forall vs p, Forall pgeo vs -> no_repeats vs -> clear_area vs -> make_polygon vs = Ok p ->
  forall z, goes_round (verts p) z = Z.sgn (ring_area vs) * goes_round vs z.
Proof. exact made_clear. Qed.
Print Assumptions C97_region_partial.
(** of thin rings as often, in one direction or the other *)
Theorem C97_either_partial : forall vs p, Forall pgeo vs -> no_repeats vs -> make_polygon vs = Ok p ->
  (forall z, goes_round (verts p) z = goes_round vs z) \/ (forall z, goes_round (verts p) z = - goes_round vs z).
Proof. exact made_round. Qed.
Print Assumptions C97_either_partial.
(** the stored edges run over the same points as the given ones, and the stored ring touches itself only if the given one does *)
Theorem C97_line_partial : forall vs p, Forall pgeo vs -> no_repeats vs -> make_polygon vs = Ok p ->
  (forall z, on_ring (verts p) z <-> on_ring vs z) /\ (NoDup vs /\ simple_map [mkP vs] <-> NoDup (verts p) /\ simple_map [p]).
Proof. intros vs p F N M. split; [intros z; exact (on_made vs p z F N M)|exact (ring_simple vs p F N M)]. Qed.
Print Assumptions C97_line_partial.

Definition dented : list coord := [mkC 0 0; mkC 0 500000; mkC 0 1000000; mkC 400000 300000; mkC 1000000 1000000; mkC 1000000 0].
Definition dented_stored : list coord := [mkC 1000000 0; mkC 1000000 1000000; mkC 400000 300000; mkC 0 1000000; mkC 0 0].
(** given clockwise, with a vertex in the middle of a side: stored the other way round without it *)
Lemma dented_facts : Forall pgeo dented /\ no_repeats dented /\ clear_area dented /\ make_polygon dented = Ok (mkP dented_stored) /\ NoDup dented /\ simple_map [mkP dented].
Proof.
  assert (F : Forall pgeo dented) by in_range. assert (N : no_repeats dented) by no_reps. split; [exact F|]. split; [exact N|]. split.
  { split; [vm_compute; discriminate|]. exists 1000000, 1000000. split; [|vm_compute; reflexivity]. split; [lia|]. intros a b A B. cbn in A, B.
    repeat (destruct A as [A|A]; [subst a|]); try contradiction; repeat (destruct B as [B|B]; [subst b|]); try contradiction; vm_compute; split; discriminate. }
  assert (E : make_polygon dented = Ok (mkP dented_stored)) by (vm_compute; reflexivity). split; [exact E|].
  apply (C97_line_partial dented _ F N E). split; [apply nodup_b_ok; vm_compute; reflexivity|]. apply simple_b_ok. vm_compute. reflexivity.
Qed.
Example C97_region_example : goes_round dented (P2 300000 200000) = -1 /\ goes_round dented_stored (P2 300000 200000) = 1 /\ goes_round dented_stored (P2 500000 700000) = 0.
Proof.
  destruct dented_facts as (F & N & C & M & _). pose proof (C97_region_partial dented _ F N C M) as H. cbn [verts] in H.
  assert (A : ring_area dented < 0) by (vm_compute; reflexivity). rewrite !H, (Z.sgn_neg _ A).
  assert (E : forall z k, total 6 (fun i => turns (rp (vat dented i)) (rp (ring_next dented i)) z) = k -> goes_round dented z = k) by (intros z k <-; reflexivity).
  assert (E1 : goes_round dented (P2 300000 200000) = -1).
  { apply E. cbn -[turns]. unfold turns, cross, minus, rp. cbn. repeat (destruct (Rlt_dec _ _); try lra); reflexivity. }
  assert (E2 : goes_round dented (P2 500000 700000) = 0).
  { apply E. cbn -[turns]. unfold turns, cross, minus, rp. cbn. repeat (destruct (Rlt_dec _ _); try lra); reflexivity. }
  rewrite E1, E2. repeat split.
Qed.

(** a ring that does not touch itself has each point of the plane off it inside, once, or outside; inside is what
    the given ring winds around *)
Theorem C97_inside_partial : forall vs p, Forall pgeo vs -> no_repeats vs -> clear_area vs -> make_polygon vs = Ok p -> NoDup vs -> simple_map [mkP vs] ->
  forall z, ~ on_ring vs z ->
    (goes_round (verts p) z = 1 /\ goes_round vs z = Z.sgn (ring_area vs)) \/ (goes_round (verts p) z = 0 /\ goes_round vs z = 0).
Proof.
  intros vs p F N C M Nd0 Si0 z Z. destruct (proj1 (ring_simple vs p F N M) (conj Nd0 Si0)) as [Nd Si]. rewrite <- (on_made vs p z F N M) in Z. pose proof (made_clear vs p F N C M z) as E. pose proof M as M'. rewrite make_polygon_clear in M' by assumption. inversion M'; subst p; clear M'. cbn [verts] in *.
  destruct (built_ring vs F N C) as (_ & _ & N3 & _ & Pa). set (r := ccw (cyc vs)) in *. change r with (verts (mkP r)) in N3, Pa, Z, Nd, E |- *.
  pose proof (positive_left (mkP r) Nd N3 Si Pa) as L. assert (A : Z.abs (ring_area vs) <> 0) by (pose proof (C14_area_preserved_partial vs (mkP r) F N M); lia).
  destruct (once_or_not (mkP r) Nd N3 Si z L Z) as [O|O]; rewrite O in *; [right|left]; (split; [reflexivity|]); destruct (Z.sgn_spec (ring_area vs)) as [[? S]|[[? S]|[? S]]]; rewrite S in *; lia.
Qed.
Print Assumptions C97_inside_partial.
(** the land is on the left of each edge, the sea on its right: take a point of an edge other than its ends and a point
    [z] of the plane that can be seen from there; [z] is inside if it is to the left of the edge and outside if to the right *)
Theorem C97_left_partial : forall vs p, Forall pgeo vs -> no_repeats vs -> clear_area vs -> make_polygon vs = Ok p -> NoDup vs -> simple_map [mkP vs] ->
  forall i s z, (i < length (verts p))%nat -> (0 < s < 1)%R ->
  let a := rp (vat (verts p) i) in let b := rp (ring_next (verts p) i) in
  (forall e, (0 < e <= 1)%R -> ~ on_ring vs (mix (mix a b s) z e)) ->
  ((0 < cross (minus b a) (minus z a))%R -> goes_round vs z = Z.sgn (ring_area vs) /\ ring_area vs <> 0) /\
  ((cross (minus b a) (minus z a) < 0)%R -> goes_round vs z = 0).
Proof.
  intros vs p F N C M Nd0 Si0 i s z I Hs a b O0. destruct (proj1 (ring_simple vs p F N M) (conj Nd0 Si0)) as [Nd Si].
  assert (O : forall e, (0 < e <= 1)%R -> ~ on_ring (verts p) (mix (mix a b s) z e)) by (intros e He; rewrite (on_made vs p _ F N M); exact (O0 e He)). pose proof (made_clear vs p F N C M z) as E. pose proof M as M'. rewrite make_polygon_clear in M' by assumption. inversion M'; subst p; clear M'.
  destruct (built_ring vs F N C) as (_ & _ & N3 & _ & Pa). set (r := ccw (cyc vs)) in *. change r with (verts (mkP r)) in N3, Pa.
  pose proof (positive_left (mkP r) Nd N3 Si Pa) as L. assert (A : Z.abs (ring_area vs) <> 0) by (pose proof (C14_area_preserved_partial vs (mkP r) F N M); lia).
  destruct (beside_edge (mkP r) i s z Nd N3 Si L I Hs O) as [B1 B2].
  split; intros H; [specialize (B1 H)|specialize (B2 H)]; [rewrite B1 in E|rewrite B2 in E]; clear - A E; destruct (Z.sgn_spec (ring_area vs)) as [[? S1]|[[? S1]|[? S1]]]; rewrite S1 in *; lia.
Qed.
Print Assumptions C97_left_partial.
Example C97_left_example : Forall pgeo dented /\ no_repeats dented /\ clear_area dented /\ make_polygon dented = Ok (mkP dented_stored) /\ NoDup dented /\ simple_map [mkP dented].
Proof. exact dented_facts. Qed.

(** so the maps of C94, C95 and C96 are the maps of rings that do not touch, with no vertex inside a ring: which side of
    the edges the land is on is the code's doing.  Of the stored rings: *)
Theorem C97_drawn : forall ps, Forall clear_polygon ps -> NoDup (polygon_vertices ps) -> simple_map (map_copies ps) ->
  (forall o, In o (polygon_vertices ps) -> off_land o (map_copies ps)) -> drawn ps.
Proof. exact drawn_simple. Qed.
Print Assumptions C97_drawn.
Example C97_drawn_example : Forall clear_polygon cove /\ NoDup (polygon_vertices cove) /\ simple_map (map_copies cove) /\ (forall o, In o (polygon_vertices cove) -> off_land o (map_copies cove)).
Proof. destruct cove_views as (A & B & _). destruct cove_drawn as ([[C _] D] & _). auto. Qed.

(** and of the given ones: *)
Theorem C97_map_partial : forall raws ps, Forall2 made_of raws ps -> NoDup (concat raws) -> simple_map (map_copies (map mkP raws)) ->
  (forall o, In o (concat raws) -> off_land o (map_copies (map mkP raws))) ->
  Forall clear_polygon ps /\ NoDup (polygon_vertices ps) /\ drawn ps.
Proof. exact made_drawn. Qed.
Print Assumptions C97_map_partial.
(** the rings of a shape file in microdegrees *)
Definition file_rings (shapes : list shape) : res (list (list coord)) := read <- read_shapes shapes ;; mapM (mapM vis_coord) read.
Lemma rings_polygons shapes raws : file_rings shapes = Ok raws -> read_polygons_from_shapefile shapes = mapM make_polygon raws.
Proof.
  unfold file_rings, read_polygons_from_shapefile. destruct (read_shapes shapes) as [read|e|u]; cbn [bind]; try discriminate. revert raws. induction read as [|vs l IH]; intros raws H; cbn [mapM] in *; [injection H as <-; reflexivity|].
  destruct (mapM vis_coord vs) as [cs|e|u]; cbn [bind] in *; try discriminate. destruct (mapM (mapM vis_coord) l) as [rs|e|u] eqn:E; cbn [bind] in *; try discriminate. injection H as <-. cbn [mapM]. rewrite (IH rs eq_refl). reflexivity.
Qed.
Lemma rings_ngeo shapes raws : Forall (fun s => nth_error (sh_parts s) 0 = Some O) shapes -> Forall on_earth_shape shapes -> file_rings shapes = Ok raws -> Forall (Forall ngeo) raws.
Proof.
  intros W E H. unfold file_rings in H. rewrite (read_shapes_spec shapes W) in H. cbn [bind] in H. apply Forall_forall. intros vs Hv. destruct (mapM_in _ _ _ _ H Hv) as (cs & Hc & M). apply in_map_iff in Hc as (s & <- & Hs). apply filter_In in Hs as [Hs _].
  apply Forall_forall. intros c C. destruct (mapM_in _ _ _ _ M C) as (q & Hq & Mq). unfold open_ring in Hq. apply in_map_iff in Hq as (q' & <- & Hq). apply removelast_in, ring_in in Hq. rewrite Forall_forall in E. specialize (E s Hs). unfold on_earth_shape in E. rewrite Forall_forall in E.
  destruct (vis_coord_ok _ (E q' Hq)) as (v & Ev & (A & B & _)). rewrite Mq in Ev. injection Ev as ->. unfold ngeo. lia.
Qed.
(** from the shape file *)
Theorem C97_file_partial : forall shapes raws, Forall (fun s => nth_error (sh_parts s) 0 = Some O) shapes -> Forall on_earth_shape shapes -> file_rings shapes = Ok raws ->
  Forall no_repeats raws -> Forall clear_area raws -> NoDup (concat raws) -> simple_map (map_copies (map mkP raws)) -> (forall o, In o (concat raws) -> off_land o (map_copies (map mkP raws))) ->
  exists ps, read_polygons_from_shapefile shapes = Ok ps /\ Forall clear_polygon ps /\ NoDup (polygon_vertices ps) /\ drawn ps /\
    Forall2 (fun vs p => forall z, goes_round (verts p) z = Z.sgn (ring_area vs) * goes_round vs z) raws ps.
Proof.
  intros shapes raws W E R N C Nd Si Ol. pose proof (rings_ngeo shapes raws W E R) as G. rewrite (rings_polygons shapes raws R).
  assert (K : exists ps, mapM make_polygon raws = Ok ps /\ Forall2 made_of raws ps).
  { clear - G N C. induction raws as [|vs l IH]; [exists []; split; [reflexivity|constructor]|]. inversion G; inversion N; inversion C; subst. destruct IH as (ps & M & F); [assumption..|].
    assert (Fp : Forall pgeo vs) by (eapply Forall_impl; [|eassumption]; apply ngeo_pgeo). cbn [mapM]. rewrite make_polygon_clear by assumption. cbn [bind]. rewrite M. cbn [bind]. eexists. split; [reflexivity|]. constructor; [|exact F]. split; [assumption|]. split; [assumption|]. split; [assumption|]. apply make_polygon_clear; assumption. }
  destruct K as (ps & M & F). exists ps. destruct (made_drawn raws ps F Nd Si Ol) as (A & B & D). split; [exact M|]. split; [exact A|]. split; [exact B|]. split; [exact D|].
  clear - F. induction F as [|vs p rs qs (G & N & C & M) F IH]; constructor; [|exact IH]. apply made_clear; try assumption. eapply Forall_impl; [|exact G]; apply ngeo_pgeo.
Qed.
Print Assumptions C97_file_partial.
(** a file with a bay and a reef, its rings the other way round *)
Definition cove_rings : list (list coord) := map (fun p => rev (verts p)) cove.
Example C97_file_example : let shapes := map shape_of cove in
  Forall (fun s => nth_error (sh_parts s) 0 = Some O) shapes /\ Forall on_earth_shape shapes /\ file_rings shapes = Ok cove_rings /\
  Forall no_repeats cove_rings /\ Forall clear_area cove_rings /\ NoDup (concat cove_rings) /\ simple_map (map_copies (map mkP cove_rings)) /\
  (forall o, In o (concat cove_rings) -> off_land o (map_copies (map mkP cove_rings))) /\ Forall (fun vs => ring_area vs < 0) cove_rings.
Proof.
  cbv zeta. destruct (shapes_of_ok cove) as [W E]; [vm_compute; reflexivity|]. destruct cove_views as (Cl & _). split; [exact W|]. split; [exact E|]. split; [vm_compute; reflexivity|].
  split; [repeat constructor; no_reps|]. split; [|split; [apply nodup_b_ok; vm_compute; reflexivity|split; [apply simple_b_ok; vm_compute; reflexivity|split; [|repeat constructor; vm_compute; reflexivity]]]].
  - unfold cove_rings. apply Forall_map. eapply Forall_impl; [|exact Cl]. intros p Hp. destruct (clear_polygon_facts p Hp) as (_ & _ & _ & C & _). apply (clear_area_incl (verts p)); [intros c; apply in_rev|rewrite rev_length; lia|rewrite ring_area_rev; lia|exact C].
  - assert (B : forallb (fun o => off_land_b o (map_copies (map mkP cove_rings))) (concat cove_rings) = true) by (vm_compute; reflexivity). rewrite forallb_forall in B. intros o O. apply off_land_b_ok, B, O.
Qed.

(** missing from the full statement (finding): a vertex given twice in a row is dropped, and what the ring encloses changes *)
Theorem C97_region_refuted :
  ~ (forall vs p, Forall ngeo vs -> clear_area vs -> make_polygon vs = Ok p -> forall z, goes_round (verts p) z = Z.sgn (ring_area vs) * goes_round vs z).
Proof.
  intros H. specialize (H [mkC 0 0; mkC 1000000 0; mkC 1000000 0; mkC 1000000 1000000; mkC 0 1000000] (mkP [mkC 0 0; mkC 1000000 1000000; mkC 0 1000000])).
  assert (F : Forall ngeo [mkC 0 0; mkC 1000000 0; mkC 1000000 0; mkC 1000000 1000000; mkC 0 1000000]) by in_range. specialize (H F).
  assert (C : clear_area [mkC 0 0; mkC 1000000 0; mkC 1000000 0; mkC 1000000 1000000; mkC 0 1000000]).
  { split; [vm_compute; discriminate|]. exists 1000000, 1000000. split; [|vm_compute; reflexivity]. split; [lia|]. intros a b A B. cbn in A, B.
    repeat (destruct A as [A|A]; [subst a|]); try contradiction; repeat (destruct B as [B|B]; [subst b|]); try contradiction; vm_compute; split; discriminate. }
  specialize (H C). assert (M : make_polygon [mkC 0 0; mkC 1000000 0; mkC 1000000 0; mkC 1000000 1000000; mkC 0 1000000] = Ok (mkP [mkC 0 0; mkC 1000000 1000000; mkC 0 1000000])) by (vm_compute; reflexivity).
  specialize (H M (P2 700000 300000)). assert (A : 0 < ring_area [mkC 0 0; mkC 1000000 0; mkC 1000000 0; mkC 1000000 1000000; mkC 0 1000000]) by (vm_compute; reflexivity).
  rewrite (Z.sgn_pos _ A) in H. clear - H. unfold goes_round in H. cbn -[turns] in H. revert H. unfold turns, cross, minus, rp. cbn. repeat (destruct (Rlt_dec _ _); try lra); discriminate.
Qed.
Print Assumptions C97_region_refuted.
(** finding: a thin triangle whose sum of areas comes out with the wrong sign is stored with the land on the right *)
Theorem C97_left_refuted :
  ~ (forall vs p, Forall ngeo vs -> no_repeats vs -> ring_area vs <> 0 -> make_polygon vs = Ok p -> NoDup (verts p) -> simple_map [p] ->
       forall z, ~ on_ring (verts p) z -> goes_round (verts p) z = 0 \/ goes_round (verts p) z = 1).
Proof.
  intros H. specialize (H sliver_cw (mkP sliver_cw)). assert (F : Forall ngeo sliver_cw) by in_range. assert (N : no_repeats sliver_cw) by no_reps. assert (E : make_polygon sliver_cw = Ok (mkP sliver_cw)) by (vm_compute; reflexivity).
  assert (A : ring_area sliver_cw <> 0) by (vm_compute; discriminate). assert (Nd : NoDup sliver_cw) by (apply nodup_b_ok; vm_compute; reflexivity). assert (Si : simple_map [mkP sliver_cw]) by (apply simple_b_ok; vm_compute; reflexivity).
  specialize (H F N A E Nd Si). set (z := P2 (34232478 / 3) (-209869129 / 3)). specialize (H z).
  assert (O : ~ on_ring sliver_cw z).
  { intros (i & s & I & Hs & M). cbn in I. unfold rp, mix, z in M. do 3 (destruct i as [|i]; [cbn in M; injection M as M1 M2; lra|]). lia. }
  specialize (H O). revert H. unfold goes_round. cbn -[turns]. unfold turns, cross, minus, rp, z. cbn. repeat (destruct (Rlt_dec _ _); try lra); intros [H|H]; discriminate.
Qed.
Print Assumptions C97_left_refuted.
