(** Decision procedures for the hypotheses of [graph_exact], and a map that meets them. *)
From Coq Require Import ZArith Reals Bool List Lia Psatz Sorted Permutation.
From Verif Require Import Base F64 Coordinate Segment Polyline Polygon Periodicity Graph Visgraph SpecGeom CoordinateFacts SegmentFacts PolylineFacts PolygonMore GraphFacts GraphMore Sweep SweepFacts SweepMaps SweepForced SweepGen SweepCases AngleFacts AngleSort SweepOrder SweepGeo SweepSound SweepLayers SweepExact SweepGraph.
Import ListNotations.
Local Open Scope Z_scope.

(** ** Layers and opposite sides *)
Definition radius_of (o : coord) (P : polygon) : Z := Z.sqrt (fold_right Z.max 0 (map (dist2 o) (verts P))) + 1.
Definition apart_b (o : coord) (P Q : polygon) : bool :=
  let within P Q := let r := radius_of o P in (0 <=? r) && inside_b o r P && outside_b o (r + 1) Q in
  let beside P Q := forallb (fun c => lon c <? lon o) (verts P) && forallb (fun c => lon o <? lon c) (verts Q) in
  within P Q || within Q P || beside P Q || beside Q P.
Lemma side_ray o d e : meets_ray o d e ->
  (lon (e1 e) < lon o /\ lon (e2 e) < lon o -> lon d < lon o) /\ (lon o < lon (e1 e) /\ lon o < lon (e2 e) -> lon o < lon d).
Proof.
  intros (q & t & u & Q & T & U & X & _). set (x := lon (e1 e) - lon o) in *. set (y := lon (e2 e) - lon o) in *. set (z := lon d - lon o) in *.
  assert (A : x < 0 /\ y < 0 -> z < 0) by (intros [A B]; assert ((q - t) * x + t * y < 0) by nia; nia).
  assert (B : 0 < x /\ 0 < y -> 0 < z) by (intros [C D]; assert (0 < (q - t) * x + t * y) by nia; nia).
  subst x y z. split; intros H; [apply Z.lt_sub_0, A; lia|apply Z.lt_0_sub, B; lia].
Qed.
Lemma beside_apart o P Q : (forall c, In c (verts P) -> lon c < lon o) -> (forall c, In c (verts Q) -> lon o < lon c) -> ~ share_direction o P Q.
Proof.
  intros HP HQ (d & e & f & _ & E & F & R & S). destruct (edge_verts _ _ E) as [A B]. destruct (edge_verts _ _ F) as [C D].
  destruct (side_ray o d e R) as [X _]. destruct (side_ray o d f S) as [_ Y]. specialize (X (conj (HP _ A) (HP _ B))). specialize (Y (conj (HQ _ C) (HQ _ D))). lia.
Qed.
Fixpoint layers_b (o : coord) (l : list polygon) : bool :=
  match l with [] => true | P :: l' => forallb (apart_b o P) l' && layers_b o l' end.
Lemma apart_b_ok o P Q : apart_b o P Q = true -> share_direction o P Q ->
  exists r, 0 <= r /\ (inside o r P /\ outside o (r + 1) Q \/ inside o r Q /\ outside o (r + 1) P).
Proof.
  unfold apart_b. cbv zeta. rewrite !orb_true_iff, !andb_true_iff, !forallb_forall, !Z.leb_le. intros H S.
  destruct H as [[[H|H]|H]|H].
  - exists (radius_of o P). destruct H as [[H1 H2] H3]. split; [exact H1|]. left. split; [apply inside_b_ok, H2|apply outside_b_ok, H3].
  - exists (radius_of o Q). destruct H as [[H1 H2] H3]. split; [exact H1|]. right. split; [apply inside_b_ok, H2|apply outside_b_ok, H3].
  - exfalso. destruct H as [H1 H2]. apply (beside_apart o P Q); [intros c C; apply Z.ltb_lt, H1, C|intros c C; apply Z.ltb_lt, H2, C|exact S].
  - exfalso. destruct H as [H1 H2]. apply (beside_apart o Q P); [intros c C; apply Z.ltb_lt, H1, C|intros c C; apply Z.ltb_lt, H2, C|].
    destruct S as (d & e & f & D & E & F & R & T). exists d, f, e. auto.
Qed.
Lemma layers_b_ok o l : layers_b o l = true -> layered o l.
Proof.
  induction l as [|P l IH]; intros H; [intros A B []|]. cbn [layers_b] in H. rewrite andb_true_iff, forallb_forall in H. destruct H as [H1 H2].
  intros A B HA HB N Sh. destruct HA as [<-|HA], HB as [<-|HB]; [congruence| | |apply IH; assumption].
  - apply apart_b_ok; auto.
  - destruct (apart_b_ok o P A (H1 A HA)) as (r & R & H); [destruct Sh as (d & e & f & D & E & F & X & Y); exists d, f, e; auto|]. exists r. tauto.
Qed.

(** ** A clear view *)
Definition on_ray_b (o a b : coord) : bool := (turn o a b =? 0) && (0 <? inner o a b).
Definition corner_b (v1 v2 v3 : coord) : bool :=
  negb (turn v1 v2 v3 =? 0) &&
  (Z.abs ((lon v2 - lon v1) * (lat v3 - lat v2)) + Z.abs ((lat v2 - lat v1) * (lon v3 - lon v2)) <=? 2000000000000000 * Z.abs (turn v1 v2 v3)).
Definition view_b (o : coord) (qs : list polygon) : bool :=
  let vs := polygon_vertices qs in
  forallb (fun a => forallb (fun b => separated_b (from o a) (from o b)) vs) vs &&
  forallb (fun P => convex_b 1 P && thick_b P && distinct_b o P) qs && off_b o qs && layers_b o qs &&
  forallb (fun a => forallb (fun b => coord_eqb a o || coord_eqb b o || coord_eqb a b || negb (on_ray_b o a b)) vs) vs &&
  forallb (fun P => existsb (fun s => left_of s o <=? 0) (edges_list P)) qs &&
  forallb (fun P => forallb (fun i => negb (coord_eqb (vat (verts P) i) o) || corner_b (ring_prev (verts P) i) o (ring_next (verts P) i)) (seq 0 (length (verts P)))) qs.
Lemma view_b_ok o qs : view_b o qs = true -> clear_view o qs.
Proof.
  unfold view_b. cbv zeta. rewrite !andb_true_iff. intros ((((((H1 & H2) & H3) & H4) & H5) & H6) & H7). rewrite !forallb_forall in H1, H2, H5, H6, H7.
  split; [|split; [|split; [|split; [|split; [|split]]]]].
  - intros a b A B. specialize (H1 a A). rewrite forallb_forall in H1. apply separated_b_ok, (H1 b B).
  - intros P HP. specialize (H2 P HP). rewrite !andb_true_iff in H2. destruct H2 as [[A B] C].
    split; [apply convex_b_ok, A|split; [apply thick_b_ok, B|apply distinct_b_ok, C]].
  - apply off_b_ok, H3.
  - apply layers_b_ok, H4.
  - intros a b A B Na Nb D [X Y]. specialize (H5 a A). rewrite forallb_forall in H5. specialize (H5 b B). rewrite !orb_true_iff, !coord_eqb_spec in H5.
    destruct H5 as [[[H5|H5]|H5]|H5]; try contradiction. unfold on_ray_b in H5. rewrite X in H5. apply Z.ltb_lt in Y. rewrite Y in H5. discriminate H5.
  - intros P HP I. specialize (H6 P HP). apply existsb_exists in H6. destruct H6 as (s & S & L). apply edges_list_ok in S. specialize (I s S). apply Z.leb_le in L.
    unfold left_of, turn in L. lia.
  - intros p n (P & i & HP & I & -> & E & ->). specialize (H7 P HP). rewrite forallb_forall in H7. specialize (H7 i). rewrite in_seq in H7. specialize (H7 ltac:(lia)).
    rewrite <- E in H7. rewrite (proj2 (coord_eqb_spec o o) eq_refl) in H7. cbn [negb orb] in H7. unfold corner_b in H7.
    rewrite andb_true_iff, negb_true_iff, Z.eqb_neq, Z.leb_le in H7. exact H7.
Qed.
Definition fair_b (P : polygon) : bool :=
  forallb (fun c => (Z.abs (lon c) <=? 180000000) && (Z.abs (lat c) <=? 90000000)) (verts P) &&
  forallb (fun i => negb (coord_eqb (vat (verts P) i) (ring_next (verts P) i))) (seq 0 (length (verts P))) &&
  (Z.of_nat (length (verts P)) <=? 1048576) && (Z.of_nat (length (verts P)) * Z.of_nat (length (verts P)) * 540000000 <? 10000000 * Z.abs (ring_area (verts P))).
Lemma fair_b_ok P : fair_b P = true -> make_polygon (verts P) = Ok P -> clear_polygon P.
Proof.
  unfold fair_b. rewrite !andb_true_iff, !forallb_forall, Z.leb_le, Z.ltb_lt. intros [[[H1 H2] H3] H4] E.
  assert (G : forall c, In c (verts P) -> ngeo c) by (intros c C; specialize (H1 c C); rewrite andb_true_iff, !Z.leb_le in H1; exact H1).
  exists (verts P). split; [apply Forall_forall, G|]. split; [|split; [split; [exact H3|]|exact E]].
  - intros i I X. specialize (H2 i). rewrite in_seq in H2. specialize (H2 ltac:(lia)). apply (proj2 (coord_eqb_spec _ _)) in X. rewrite X in H2. discriminate H2.
  - exists 360000000, 180000000. split; [|exact H4]. split; [lia|]. intros a b A B. destruct (G a A) as [A1 A2]. destruct (G b B) as [B1 B2]. lia.
Qed.

(** ** Free and blocked lines *)
Definition past_b (a c : coord) (P : polygon) : bool := existsb (fun s => (left_of s a <=? 0) && (left_of s c <=? 0)) (edges_list P).
Lemma past_b_ok a c P : past_b a c P = true -> ~ through_interior a c P.
Proof.
  unfold past_b. rewrite existsb_exists. intros (s & S & H) (q & u & U & I). rewrite andb_true_iff, !Z.leb_le in H. rewrite interior_left in I.
  apply edges_list_ok in S. specialize (I s S). nia.
Qed.
Definition through_b (a c : coord) (P : polygon) (q u : Z) : bool :=
  (0 <? u) && (u <? q) && forallb (fun s => 0 <? (q - u) * left_of s a + u * left_of s c) (edges_list P).
Lemma through_b_ok a c P q u : through_b a c P q u = true -> through_interior a c P.
Proof.
  unfold through_b. rewrite !andb_true_iff, !Z.ltb_lt, forallb_forall. intros [[A B] C]. exists q, u. split; [lia|]. rewrite interior_left. intros s S.
  apply Z.ltb_lt, C, edges_list_ok, S.
Qed.
Lemma free_b_ok ps a b k : (forall P, In P ps -> clear_polygon P /\ convex 1 P /\ NoDup (verts P)) -> ngeo a -> ngeo b -> -1 <= k <= 1 ->
  forallb (past_b a (wrap k b)) (map_copies ps) = true -> free_line ps a (wrap k b).
Proof.
  intros F A B K H P j HP. rewrite forallb_forall in H. destruct (F P HP) as (C & V & N). destruct (Z_le_dec (-1) j) as [J1|J1]; [destruct (Z_le_dec j 1) as [J2|J2]|].
  - apply past_b_ok, H, copies_in. exists P, j. auto.
  - apply far_copy; try assumption; try lia. apply Forall_forall, clear_polygon_facts, C.
  - apply far_copy; try assumption; try lia. apply Forall_forall, clear_polygon_facts, C.
Qed.

(** ** Three islands: the middle one hides the western from the eastern, except around the world *)
Definition west_isle : polygon := mkP [mkC (-150000000) 10000000; mkC (-148000000) 10700000; mkC (-149300000) 12100000].
Definition middle_isle : polygon := mkP [mkC 1000000 (-40300000); mkC 9000000 (-3000000); mkC 2500000 41700000; mkC (-6000000) 5100000].
Definition east_isle : polygon := mkP [mkC 150000000 8800000; mkC 152100000 9300000; mkC 151000000 11300000; mkC 149400000 10500000].
Definition isles : list polygon := [west_isle; middle_isle; east_isle].
Lemma isles_hypotheses : Forall clear_polygon isles /\ NoDup (polygon_vertices isles) /\
  (forall o, In o (polygon_vertices isles) -> clear_view o (map_copies isles)).
Proof.
  assert (C1 : nodup_b (polygon_vertices isles) = true) by (vm_compute; reflexivity).
  assert (C2 : forallb fair_b isles = true) by (vm_compute; reflexivity).
  assert (C3 : forallb (fun o => view_b o (map_copies isles)) (polygon_vertices isles) = true) by (vm_compute; reflexivity).
  pose proof (proj1 (forallb_forall fair_b isles) C2) as C2'. pose proof (proj1 (forallb_forall (fun o => view_b o (map_copies isles)) (polygon_vertices isles)) C3) as C3'.
  clear C2 C3. split; [|split; [apply nodup_b_ok, C1|intros o O; apply view_b_ok; exact (C3' o O)]].
  apply Forall_forall. intros P HP. apply fair_b_ok; [exact (C2' P HP)|]. destruct HP as [<-|[<-|[<-|[]]]]; vm_compute; reflexivity.
Qed.
Lemma isles_facts P : In P isles -> clear_polygon P /\ convex 1 P /\ NoDup (verts P).
Proof.
  intros HP. destruct isles_hypotheses as (F & N & C). rewrite Forall_forall in F. split; [apply F, HP|]. split; [|apply (nodup_parts isles), HP; exact N].
  destruct (C (mkC (-150000000) 10000000)) as (_ & O & _); [left; reflexivity|]. apply (O P), copies_in. exists P, 0. rewrite wrap_polygon_0. repeat split; try lia. exact HP.
Qed.
(** around the world only, and not at all *)
Lemma isles_lines :
  ~ free_line isles (mkC (-150000000) 10000000) (mkC 150000000 8800000) /\
  free_line isles (mkC (-150000000) 10000000) (wrap (-1) (mkC 150000000 8800000)) /\
  (forall k, -1 <= k <= 1 -> ~ free_line isles (mkC (-148000000) 10700000) (wrap k (mkC 149400000 10500000))) /\
  free_line isles (mkC 9000000 (-3000000)) (mkC 149400000 10500000).
Proof.
  assert (B : forall P j a c q u, In P isles -> through_b a c (wrap_polygon j P) q u = true -> ~ free_line isles a c).
  { intros P j a c q u HP H X. apply (X P j HP). eapply through_b_ok, H. }
  split; [apply (B middle_isle 0 _ _ 2 1); [right; left; reflexivity|vm_compute; reflexivity]|].
  split; [apply free_b_ok; [exact isles_facts|split; cbn [lon lat]; lia|split; cbn [lon lat]; lia|lia|vm_compute; reflexivity]|].
  split.
  - intros k K. assert (D : k = -1 \/ k = 0 \/ k = 1) by lia. destruct D as [->|[->| ->]].
    + apply (B west_isle 0 _ _ 60 1); [left; reflexivity|vm_compute; reflexivity].
    + apply (B middle_isle 0 _ _ 2 1); [right; left; reflexivity|vm_compute; reflexivity].
    + apply (B middle_isle 0 _ _ 22 5); [right; left; reflexivity|vm_compute; reflexivity].
  - rewrite <- (wrap_0 (mkC 149400000 10500000)). apply free_b_ok; [exact isles_facts|split; cbn [lon lat]; lia|split; cbn [lon lat]; lia|lia|vm_compute; reflexivity].
Qed.

(** ** Two islands on either side of the meridian: their tops see each other both ways *)
Definition left_isle : polygon := mkP [mkC 178000000 0; mkC 179000000 400000; mkC 178400000 1100000].
Definition right_isle : polygon := mkP [mkC (-179000000) 200000; mkC (-178000000) (-300000); mkC (-178500000) 1300000].
Definition strait : list polygon := [left_isle; right_isle].
Lemma strait_hypotheses : Forall clear_polygon strait /\ NoDup (polygon_vertices strait) /\
  (forall o, In o (polygon_vertices strait) -> clear_view o (map_copies strait)).
Proof.
  assert (C1 : nodup_b (polygon_vertices strait) = true) by (vm_compute; reflexivity).
  assert (C2 : forallb fair_b strait = true) by (vm_compute; reflexivity).
  assert (C3 : forallb (fun o => view_b o (map_copies strait)) (polygon_vertices strait) = true) by (vm_compute; reflexivity).
  pose proof (proj1 (forallb_forall fair_b strait) C2) as C2'. pose proof (proj1 (forallb_forall (fun o => view_b o (map_copies strait)) (polygon_vertices strait)) C3) as C3'.
  clear C2 C3. split; [|split; [apply nodup_b_ok, C1|intros o O; apply view_b_ok; exact (C3' o O)]].
  apply Forall_forall. intros P HP. apply fair_b_ok; [exact (C2' P HP)|]. destruct HP as [<-|[<-|[]]]; vm_compute; reflexivity.
Qed.
Lemma strait_facts P : In P strait -> clear_polygon P /\ convex 1 P /\ NoDup (verts P).
Proof.
  intros HP. destruct strait_hypotheses as (F & N & C). rewrite Forall_forall in F. split; [apply F, HP|]. split; [|apply (nodup_parts strait), HP; exact N].
  destruct (C (mkC 178000000 0)) as (_ & O & _); [left; reflexivity|]. apply (O P), copies_in. exists P, 0. rewrite wrap_polygon_0. repeat split; try lia. exact HP.
Qed.
Lemma strait_lines : free_line strait (mkC 178400000 1100000) (wrap 0 (mkC (-178500000) 1300000)) /\
  free_line strait (mkC 178400000 1100000) (wrap 1 (mkC (-178500000) 1300000)).
Proof.
  split; (apply free_b_ok; [exact strait_facts|split; cbn [lon lat]; lia|split; cbn [lon lat]; lia|lia|vm_compute; reflexivity]).
Qed.
(** points at sea among the isles with a clear view *)
Lemma isles_points : clear_view (mkC (-100000000) 5000000) isles /\ clear_view (mkC 80000000 3000000) isles /\
  ~ free_line isles (mkC (-100000000) 5000000) (mkC 80000000 3000000) /\
  free_line isles (mkC (-100000000) 5000000) (wrap 0 (mkC 1000000 (-40300000))) /\
  free_line isles (mkC 1000000 (-40300000)) (wrap 0 (mkC 80000000 3000000)).
Proof.
  split; [apply view_b_ok; vm_compute; reflexivity|]. split; [apply view_b_ok; vm_compute; reflexivity|]. split.
  { intros X. apply (X middle_isle 0); [right; left; reflexivity|]. apply (through_b_ok _ _ _ 18 10). vm_compute. reflexivity. }
  split; (apply free_b_ok; [exact isles_facts|split; cbn [lon lat]; lia|split; cbn [lon lat]; lia|lia|vm_compute; reflexivity]).
Qed.
