(** C59-C62: the Python layer.  Beside each theorem an example meets its hypotheses. *)
From Coq Require Import ZArith Reals Bool List Lia Lra Psatz Permutation Sorted.
From Flocq Require Import Core.
From Flocq Require Import BinarySingleNaN.
From Verif Require Import Base F64 Coordinate Segment Polygon SpecGeom SpecGraph F64Facts CoordinateFacts
  Graph GraphMore ShortestPath SearchFacts SearchSpec SearchQuery PathFacts PathMore PyLayer PyFacts Props_Path.
Import ListNotations.
Local Open Scope R_scope.

(** ** C59: every ring of a shapefile becomes an obstacle *)
(** part offsets as the format prescribes *)
Definition well_formed (s : shape) : Prop :=
  nth_error (sh_parts s) 0 = Some O /\ StronglySorted lt (sh_parts s) /\ Forall (fun i => (i < length (sh_points s))%nat) (sh_parts s).

(** the full statement: one polygon, without the closing point, per ring with more than three points *)
Definition ring_polygons (s : shape) : list (list pcoord) :=
  if sh_polygon s then
    map open_ring (filter (fun r => (3 <? length r)%nat) (map (ring s) (seq 0 (length (sh_parts s)))))
  else [].

(** proved: first rings only; missing: the other rings, see the refutation below *)
Theorem C59_first_ring_partial : forall shapes, Forall well_formed shapes ->
  read_shapes shapes = Ok (map (fun s => open_ring (ring s 0)) (filter kept shapes)).
Proof.
  intros shapes F. apply read_shapes_spec. revert F. apply Forall_impl. intros s (A & _). exact A.
Qed.
Print Assumptions C59_first_ring_partial.

(** shapes with one part are read as stated *)
Theorem C59_single_part_partial : forall shapes, Forall well_formed shapes -> Forall (fun s => length (sh_parts s) = 1%nat) shapes ->
  read_shapes shapes = Ok (concat (map ring_polygons shapes)).
Proof.
  intros shapes F O. rewrite (C59_first_ring_partial shapes F). f_equal. clear F. induction O as [|s l H O IH]; [reflexivity|].
  cbn [filter map concat]. unfold ring_polygons at 1. unfold kept at 1. rewrite H. cbn [seq map filter].
  destruct (sh_polygon s); cbn [andb app]; [|exact IH]. destruct (3 <? length (ring s 0))%nat; cbn [map app]; [f_equal; exact IH|exact IH].
Qed.
Print Assumptions C59_single_part_partial.

(** whatever the file contains, reading does not fail and no polygon has fewer than three vertices *)
Theorem C59_at_least_three : forall shapes, exists polys, read_shapes shapes = Ok polys /\ Forall (fun p => (3 <= length p)%nat) polys.
Proof. exact read_shapes_big. Qed.
Print Assumptions C59_at_least_three.

(** the obstacles: each kept ring, every vertex moved by less than a microdegree and a bit, in order, goes through the polygon constructor *)
Theorem C59_obstacles_partial : forall shapes, Forall well_formed shapes -> Forall on_earth_shape shapes ->
  exists polys, read_polygons_from_shapefile shapes = Ok polys /\
    Forall2 (fun s p => exists vs, Forall2 (fun q v => close_by (flip q) v) (removelast (ring s 0)) vs /\ make_polygon vs = Ok p) (filter kept shapes) polys.
Proof.
  intros shapes F. apply obstacles_ok. revert F. apply Forall_impl. intros s (A & _). exact A.
Qed.
Print Assumptions C59_obstacles_partial.

Definition fz (z : Z) : f64 := f_of_Z z.
Definition square (x y : Z) : list (f64 * f64) := [(fz x, fz y); (fz (x + 1), fz y); (fz (x + 1), fz (y + 1)); (fz x, fz (y + 1)); (fz x, fz y)].
Definition one_part : shape := mkSh true (square 1 2) [0]%nat.
Definition two_parts : shape := mkSh true (square 1 2 ++ square 10 20) [0; 5]%nat.
Lemma shapes_well_formed : Forall well_formed [one_part; two_parts].
Proof.
  constructor; [|constructor; [|constructor]]; (split; [reflexivity|]; split; [|repeat constructor; cbn; lia]); repeat constructor; lia.
Qed.
Lemma fz_finite z : (Z.abs z <= 1000)%Z -> is_finite (fz z) = true /\ V (fz z) = IZR z.
Proof. intros H. destruct (f_of_Z_exact z) as [A B]; [lia|]. split; assumption. Qed.
Lemma fz_on_earth x y : (Z.abs x <= 180)%Z -> (Z.abs y <= 90)%Z -> on_earth (flip (fz x, fz y)).
Proof.
  intros X Y. destruct (fz_finite x) as [A B]; [lia|]. destruct (fz_finite y) as [C D]; [lia|]. unfold on_earth, flip. cbn [p_longitude p_latitude fst snd].
  rewrite B, D, <- !abs_IZR. repeat split; auto; apply IZR_le; assumption.
Qed.
Lemma square_on_earth x y : (Z.abs x <= 100)%Z -> (Z.abs y <= 50)%Z -> Forall (fun p => on_earth (flip p)) (square x y).
Proof. intros X Y. unfold square. repeat (apply Forall_cons; [apply fz_on_earth; lia|]). apply Forall_nil. Qed.
Example C59_ex : Forall well_formed [one_part; two_parts] /\ Forall on_earth_shape [one_part; two_parts] /\ length (sh_parts one_part) = 1%nat /\
  read_shapes [one_part; two_parts] = Ok [map flip (firstn 4 (square 1 2)); map flip (firstn 4 (square 1 2))] /\
  concat (map ring_polygons [one_part; two_parts]) = [map flip (firstn 4 (square 1 2)); map flip (firstn 4 (square 1 2)); map flip (firstn 4 (square 10 20))] /\
  read_polygons_from_shapefile [one_part] = Ok [mkP [mkC 1000000 2000000; mkC 2000000 2000000; mkC 2000000 3000000; mkC 1000000 3000000]].
Proof.
  split; [exact shapes_well_formed|]. split.
  { constructor; [|constructor; [|constructor]]; unfold on_earth_shape; cbn [sh_points one_part two_parts]; [|apply Forall_app; split]; apply square_on_earth; lia. }
  split; [reflexivity|]. split; [reflexivity|]. split; [reflexivity|]. vm_compute. reflexivity.
Qed.

(** false of the code (finding): the second ring of a shape is not read *)
Theorem C59_every_ring_refuted :
  ~ (forall shapes, Forall well_formed shapes -> read_shapes shapes = Ok (concat (map ring_polygons shapes))).
Proof.
  intros H. specialize (H [one_part; two_parts] shapes_well_formed). apply (f_equal (fun r => match r with Ok l => length l | _ => O end)) in H.
  vm_compute in H. discriminate H.
Qed.
Print Assumptions C59_every_ring_refuted.

(** ** C60: batch interpolation is aligned *)
(** for enough steps, whatever the order in which the threads finish *)
Theorem C60_aligned : forall ens g pairs limit correct,
  (forall i, (i < length pairs)%nat -> fit_for_queries (ens i) g) ->
  (forall a b, In (a, b) pairs -> on_earth a /\ on_earth b) ->
  exists n, forall fuel schedule, (n <= fuel)%nat -> Permutation schedule (seq 0 (length pairs)) ->
    exists l, batch_interpolate fuel ens g pairs limit correct schedule = Some (Ok l) /\ length l = length pairs /\
      forall i c1 c2, nth_error pairs i = Some (c1, c2) -> exists v1 v2 e,
        close_by c1 v1 /\ close_by c2 v2 /\ nth_error l i = Some e /\ answers (shortest_path fuel (ens i) g v1 v2 limit correct) e.
Proof. exact batch_interpolate_ok. Qed.
Print Assumptions C60_aligned.
(** doubles without the proofs inside them *)
Definition digits (c : pcoord) := (B2SF (p_latitude c), B2SF (p_longitude c)).
Definition map_ok {A B} (f : A -> B) (r : res A) : res B := match r with Ok x => Ok (f x) | Throw e => Throw e | UB u => UB u end.
Definition place (x y : Z) : pcoord := flip (fz x, fz y).
Definition pairs0 : list (pcoord * pcoord) := [(place 0 0, place 180 0); (place 0 0, place 1 1); (place 180 0, place 0 0)].
Example C60_ex : (forall i, (i < length pairs0)%nat -> fit_for_queries (en0 first_best f_1) g0) /\
  (forall a b, In (a, b) pairs0 -> on_earth a /\ on_earth b) /\
  Permutation [1; 2; 0]%nat (seq 0 (length pairs0)) /\
  option_map (map_ok (map (option_map (map digits)))) (batch_interpolate 10 (fun _ => en0 first_best f_1) g0 pairs0 f_max true [1; 2; 0]%nat) =
    Some (Ok (map (option_map (map digits)) [Some (convert [S0; P0; T0]); None; Some (convert [T0; P0; S0])])).
Proof.
  split; [intros; apply en0_fit|]. split.
  { intros a b H. cbn in H. destruct H as [H|[H|[H|[]]]]; injection H as <- <-; split; apply fz_on_earth; lia. }
  split; [|vm_compute; reflexivity]. cbn. apply Permutation_sym. exact (Permutation_cons_append [1; 2]%nat 0%nat).
Qed.

(** ** C61: the coordinate wrapping helper *)
(** proved: in range, and congruent up to rounding; missing: exactness, see below *)
Theorem C61_range_partial : forall latitude longitude, is_finite latitude = true -> is_finite longitude = true ->
  Rabs (V latitude) <= bpow radix2 900 -> Rabs (V longitude) <= bpow radix2 900 ->
  exists c, construct_coord_in_lat_lon_range latitude longitude = Ok c /\
    is_finite (p_latitude c) = true /\ is_finite (p_longitude c) = true /\
    -90 <= V (p_latitude c) <= 90 /\ -180 <= V (p_longitude c) <= 180 /\
    (exists k : Z, Rabs (V (p_latitude c) - (V latitude - IZR k * 180)) <= u53 * (Rabs (V latitude + 90) + 270)) /\
    (exists k : Z, Rabs (V (p_longitude c) - (V longitude - IZR k * 360)) <= u53 * (Rabs (V longitude + 180) + 540)).
Proof.
  intros a b Fa Fb Ba Bb. destruct (wrap_ok 90 ltac:(lia) a Fa Ba) as (r & Er & Fr & Rr & (k & Kr) & _).
  destruct (wrap_ok 180 ltac:(lia) b Fb Bb) as (t & Et & Ft & Rt & (j & Kt) & _).
  exists (mkPC r t). unfold construct_coord_in_lat_lon_range. rewrite Er. cbn [bind]. rewrite Et. cbn [bind p_latitude p_longitude].
  split; [reflexivity|]. split; [exact Fr|]. split; [exact Ft|]. split; [lra|]. split; [lra|]. split.
  - exists k. replace (2 * 90) with 180 in Kr by lra. lra.
  - exists j. replace (2 * 180) with 360 in Kt by lra. lra.
Qed.
Print Assumptions C61_range_partial.

(** exact for values on a grid of 2^-40 degrees, which then end up in the half-open ranges *)
Theorem C61_grid_partial : forall latitude longitude n m, is_finite latitude = true -> is_finite longitude = true ->
  V latitude = IZR n * bpow radix2 (-40) -> V longitude = IZR m * bpow radix2 (-40) -> (Z.abs n <= 2 ^ 52)%Z -> (Z.abs m <= 2 ^ 52)%Z ->
  exists c, construct_coord_in_lat_lon_range latitude longitude = Ok c /\
    -90 <= V (p_latitude c) < 90 /\ -180 <= V (p_longitude c) < 180 /\
    (exists k : Z, V (p_latitude c) = V latitude - IZR k * 180) /\ (exists k : Z, V (p_longitude c) = V longitude - IZR k * 360) /\
    (-90 <= V latitude < 90 -> V (p_latitude c) = V latitude) /\ (-180 <= V longitude < 180 -> V (p_longitude c) = V longitude).
Proof.
  intros a b n m Fa Fb Ea Eb Bn Bm.
  assert (G : forall x l, V x = IZR l * bpow radix2 (-40) -> (Z.abs l <= 2 ^ 52)%Z -> Rabs (V x) <= bpow radix2 900).
  { intros x l E B. rewrite E, Rabs_mult, <- abs_IZR, (Rabs_pos_eq (bpow radix2 (-40))) by apply bpow_ge_0.
    apply Rle_trans with (bpow radix2 52 * bpow radix2 (-40)); [|rewrite <- bpow_plus; apply bpow_le; lia].
    apply Rmult_le_compat_r; [apply bpow_ge_0|]. change (bpow radix2 52) with (IZR (2 ^ 52)). apply IZR_le. exact B. }
  destruct (wrap_ok 90 ltac:(lia) a Fa (G a n Ea Bn)) as (r & Er & _ & _ & _ & _ & Gr). destruct (Gr n Ea Bn) as (Rr & k & Kr).
  destruct (wrap_ok 180 ltac:(lia) b Fb (G b m Eb Bm)) as (t & Et & _ & _ & _ & _ & Gt). destruct (Gt m Eb Bm) as (Rt & j & Kt).
  exists (mkPC r t). unfold construct_coord_in_lat_lon_range. rewrite Er. cbn [bind]. rewrite Et. cbn [bind p_latitude p_longitude].
  clear G Gr Gt. replace (2 * 90) with 180 in Kr by lra. replace (2 * 180) with 360 in Kt by lra.
  split; [reflexivity|]. split; [lra|]. split; [lra|]. split; [exists k; exact Kr|]. split; [exists j; exact Kt|]. split; intros I.
  - assert (-1 < IZR k < 1) as [L U] by lra. apply lt_IZR in L. apply lt_IZR in U. assert (k = 0)%Z by lia. subst k. lra.
  - assert (-1 < IZR j < 1) as [L U] by lra. apply lt_IZR in L. apply lt_IZR in U. assert (j = 0)%Z by lia. subst j. lra.
Qed.
Print Assumptions C61_grid_partial.
Definition f_tenth : f64 := f_lit 7205759403792794 (-56).
Example C61_ex : map_ok digits (construct_coord_in_lat_lon_range (fz 100) (fz (-725))) = Ok (digits (mkPC (fz (-80)) (fz (-5)))) /\
  map_ok digits (construct_coord_in_lat_lon_range (f_lit 365 (-3)) (f_lit 1023 (-2))) = Ok (digits (mkPC (f_lit 365 (-3)) (f_lit (-417) (-2)))) /\
  V (fz 100) = IZR (100 * 2 ^ 40) * bpow radix2 (-40) /\ (Z.abs (100 * 2 ^ 40) <= 2 ^ 52)%Z /\ is_finite f_tenth = true /\ Rabs (V (fz 100)) <= bpow radix2 900.
Proof.
  split; [vm_compute; reflexivity|]. split; [vm_compute; reflexivity|]. destruct (fz_finite 100 ltac:(lia)) as [_ ->]. split.
  { rewrite mult_IZR, Rmult_assoc. change (IZR (2 ^ 40)) with (bpow radix2 40). rewrite <- bpow_plus. change (bpow radix2 (40 + -40)) with 1. lra. }
  split; [vm_compute; discriminate|]. split; [vm_compute; reflexivity|]. rewrite Rabs_pos_eq by lra.
  apply Rle_trans with (bpow radix2 10); [change (bpow radix2 10) with 1024; lra|apply bpow_le; lia].
Qed.

(** false of the code (findings): a tenth of a degree does not come back unchanged, and the north pole becomes the south pole *)
Theorem C61_unchanged_refuted :
  ~ (forall x y, is_finite x = true -> is_finite y = true -> -90 < V x < 90 -> -180 < V y < 180 ->
       exists c, construct_coord_in_lat_lon_range x y = Ok c /\ V (p_latitude c) = V x /\ V (p_longitude c) = V y).
Proof.
  intros H. assert (F : is_finite f_tenth = true) by (vm_compute; reflexivity).
  assert (B : 0 < V f_tenth < 1).
  { destruct V_f0 as [V0 F0]. destruct V_f1 as [V1 F1]. rewrite <- V0 at 1. rewrite <- V1. split; apply fltb_iff; auto; vm_compute; reflexivity. }
  destruct (H f_tenth f_tenth F F ltac:(lra) ltac:(lra)) as (c & E & Ec & _).
  assert (K : match construct_coord_in_lat_lon_range f_tenth f_tenth with Ok c => is_finite (p_latitude c) && negb (feqb (p_latitude c) f_tenth) | _ => false end = true) by (vm_compute; reflexivity).
  rewrite E in K. apply andb_prop in K. destruct K as [K1 K2]. apply negb_true_iff in K2.
  apply (feqb_iff _ _ K1 F) in Ec. congruence.
Qed.
Print Assumptions C61_unchanged_refuted.
Theorem C61_north_pole_refuted : exists c, construct_coord_in_lat_lon_range (fz 90) (fz 180) = Ok c /\ V (p_latitude c) = -90 /\ V (p_longitude c) = -180.
Proof.
  destruct (fz_finite 90 ltac:(lia)) as [A B]. destruct (fz_finite 180 ltac:(lia)) as [C D].
  assert (G : forall z, IZR z = IZR (z * 2 ^ 40) * bpow radix2 (-40)).
  { intros z. rewrite mult_IZR, Rmult_assoc. change (IZR (2 ^ 40)) with (bpow radix2 40). rewrite <- bpow_plus. change (bpow radix2 (40 + -40)) with 1. lra. }
  destruct (C61_grid_partial (fz 90) (fz 180) (90 * 2 ^ 40) (180 * 2 ^ 40) A C) as (c & E & R1 & R2 & (k & K1) & (j & K2) & _);
    [rewrite B; apply G|rewrite D; apply G|vm_compute; discriminate|vm_compute; discriminate|].
  exists c. split; [exact E|]. rewrite B in K1. rewrite D in K2. split.
  - assert (0 < IZR k < 2) as [L U] by lra. apply lt_IZR in L. apply lt_IZR in U. assert (k = 1)%Z by lia. subst k. lra.
  - assert (0 < IZR j < 2) as [L U] by lra. apply lt_IZR in L. apply lt_IZR in U. assert (j = 1)%Z by lia. subst j. lra.
Qed.
Print Assumptions C61_north_pole_refuted.

(** ** C62: interpolation from Python coordinates to Python coordinates *)
Theorem C62_total : forall en g c1 c2 limit correct, fit_for_queries en g -> on_earth c1 -> on_earth c2 ->
  exists v1 v2 n, close_by c1 v1 /\ close_by c2 v2 /\ forall fuel, (n <= fuel)%nat ->
    (exists path l, shortest_path fuel en g v1 v2 limit correct = Some (Ok path) /\ interpolate fuel en g c1 c2 limit correct = Some (Ok l) /\
       Forall2 shows path l /\ Forall on_earth l) \/
    (exists e, shortest_path fuel en g v1 v2 limit correct = Some (Throw e) /\ interpolate fuel en g c1 c2 limit correct = Some (Throw e)).
Proof. exact interpolate_ok. Qed.
Print Assumptions C62_total.

Theorem C62_ends : forall en g c1 c2 limit correct fuel l, fit_for_queries en g -> on_earth c1 -> on_earth c2 ->
  at_sea (en_index en) c1 -> at_sea (en_index en) c2 -> interpolate fuel en g c1 c2 limit correct = Some (Ok l) ->
  exists p q, hd_error l = Some p /\ last l p = q /\ near c1 p /\ near c2 q.
Proof. exact interpolate_ends. Qed.
Print Assumptions C62_ends.
Example C62_ex : fit_for_queries (en0 first_best f_1) g0 /\ on_earth (place 0 0) /\ on_earth (place 180 0) /\
  at_sea (en_index (en0 first_best f_1)) (place 0 0) /\ at_sea (en_index (en0 first_best f_1)) (place 180 0) /\
  option_map (map_ok (map digits)) (interpolate 10 (en0 first_best f_1) g0 (place 0 0) (place 180 0) f_max true) = Some (Ok (map digits (convert [S0; P0; T0]))).
Proof.
  split; [apply en0_fit|]. split; [apply fz_on_earth; lia|]. split; [apply fz_on_earth; lia|].
  split; [intros v _; reflexivity|]. split; [intros v _; reflexivity|]. vm_compute. reflexivity.
Qed.
