(** Swapped queries, batches, the distance estimate, and endpoints near the meridian. *)
From Coq Require Import ZArith Reals Bool List Lia Lra Psatz Permutation Arith.
From Flocq Require Import Core.
From Flocq Require Import BinarySingleNaN.
From Verif Require Import Base F64 Coordinate Segment Polygon SpecGeom SpecGraph F64Facts CoordinateFacts SegmentFacts Periodicity PeriodicityFacts
  Graph GraphFacts GraphMore Overlay OverlayFacts Visgraph Sweep SweepFacts SweepMaps SweepGen SweepCases
  ShortestPath DistFacts SearchFacts SearchSpec SearchGraph SearchQuery PathFacts.
Import ListNotations.
Local Open Scope R_scope.

(** ** C57 *)
(** nothing on the globe is farther away *)
Definition unlimited (radius : f64) : Prop := forall a b h, ngeo a -> ngeo b -> heuristic_distance a b = Ok h -> fltb radius h = false.
Lemma unlimited_finite radius : is_finite radius = true -> 1024 <= V radius -> unlimited radius.
Proof.
  intros F B a b h Ga Gb E. destruct (heuristic_ok a b Ga Gb) as (h' & E' & Fh & Bh & _). rewrite E in E'. inversion E'; subst h'.
  destruct (fltb radius h) eqn:L; [|reflexivity]. apply (fltb_iff _ _ F Fh) in L. lra.
Qed.
Lemma unlimited_infinity : unlimited (B754_infinity false).
Proof.
  intros a b h Ga Gb E. destruct (heuristic_ok a b Ga Gb) as (h' & E' & Fh & _). rewrite E in E'. inversion E'; subst h'.
  destruct h as [s|s| |s m e B]; try discriminate Fh; [destruct s; reflexivity|destruct s; reflexivity].
Qed.

Definition swap (lc : correction) : correction := mkLC (lc_dest lc) (lc_source lc) (lc_dest_edge lc) (lc_source_edge lc).
Lemma swap_correction en en' s d lc : en_index en = en_index en' -> correction_of en s d lc -> correction_of en' d s (swap lc).
Proof. intros E (ns & nd & A & B & C & D). exists nd, ns. cbn [swap lc_source lc_dest lc_source_edge lc_dest_edge]. rewrite <- E. auto. Qed.
Definition crosses_either_way (ix : index) : Prop := forall s d x, In x (ix_crossing ix (mkS s d)) -> In x (ix_crossing ix (mkS d s)).
Lemma swap_searched en en' lc : en_index en = en_index en' -> crosses_either_way (en_index en) -> searched en lc -> searched en' (swap lc).
Proof.
  intros E Sy H. apply searched_iff in H. apply searched_iff. destruct H as (x & I & K). exists x. cbn [swap lc_source lc_dest lc_source_edge lc_dest_edge].
  rewrite <- E. split; [apply Sy; exact I|]. intros shore T. apply K. tauto.
Qed.
Lemma swap_swap lc : swap (swap lc) = lc.
Proof. destruct lc; reflexivity. Qed.
Lemma road_swap g vis lc u v f : road g vis (swap lc) u v f -> road g vis lc u v f.
Proof.
  intros [A|(F & [(H & K)|(H & K)])]; [left; exact A|right; split; [exact F|left; split; [exact H|]]|right; split; [exact F|right; split; [exact H|]]];
    cbn [swap lc_source lc_dest lc_source_edge lc_dest_edge] in K; tauto.
Qed.
Lemma road_sym g vis lc u v f : built g -> road g vis lc u v f -> road g vis lc v u f.
Proof. intros B [A|(F & K)]; [left; rewrite (answer_sym g v u B); exact A|right; split; [exact F|tauto]]. Qed.

Lemma journey_app roads u l v r l' t r' : journey roads u l v r -> journey roads v l' t r' -> journey roads u (l ++ l') t (r + r').
Proof.
  intros J J'. induction J as [u|u x f l v r R J IH]; [rewrite Rplus_0_l; exact J'|]. rewrite Rplus_assoc. cbn [app]. constructor; auto.
Qed.
Lemma journey_rev (roads : coord -> coord -> bool -> Prop) u l t r : (forall a b f, roads a b f -> roads b a f) -> journey roads u l t r ->
  exists l', journey roads t l' u r /\ length l' = length l.
Proof.
  intros Sy J. induction J as [u|u v f l t r R J (l' & J' & L)]; [exists []; split; [constructor|reflexivity]|].
  exists (l' ++ [u]). split; [|rewrite app_length; cbn; lia]. rewrite Rplus_comm. apply (journey_app _ _ _ v); [exact J'|].
  rewrite edge_length_sym. rewrite <- (Rplus_0_r (edge_length f v u)). constructor; [apply Sy; exact R|constructor].
Qed.
Lemma journey_ext (roads roads' : coord -> coord -> bool -> Prop) u l t r : (forall a b f, roads a b f -> roads' a b f) -> journey roads u l t r -> journey roads' u l t r.
Proof. intros E J. induction J; constructor; auto. Qed.

Lemma all_within en g s d lc radius l t r : fit_for_queries en g -> in_the_map s -> in_the_map d -> correction_of en s d lc -> unlimited radius ->
  journey (road g (en_vis en) lc) (lc_source lc) l t r -> Forall (within (lc_source lc) radius) l.
Proof.
  intros Fit Ms Md Co Un J. destruct (search_graph_ok en g s d lc Fit Ms Md Co) as (Gs & Gd & sg & dom & _ & U & Is & R).
  destruct (journey_linked sg _ R _ _ _ _ J) as [L _]. destruct (linked_dom sg dom U _ _ _ Is L) as [_ D]. apply Forall_forall. intros v Iv.
  destruct (U v (D v Iv)) as [Gv _]. destruct (heuristic_ok _ v Gs Gv) as (h & E & _). exists h. split; [exact E|]. exact (Un _ _ _ Gs Gv E).
Qed.

Section Swap.
Variables (en en' : env) (g : graph) (source destination : coord) (radius : f64) (flag : bool).
Hypotheses (Fit : fit_for_queries en g) (Fit' : fit_for_queries en' g) (Ms : in_the_map source) (Md : in_the_map destination).
Hypotheses (Ei : en_index en = en_index en') (Ev : en_vis en = en_vis en').
Hypothesis Ex : crosses_either_way (en_index en).

Lemma swap_path fuel fuel' path path' w : unlimited radius ->
  minimal w (en_pick en) -> minimal w (en_pick en') -> is_finite w = true -> Rabs (V w) <= bpow radix2 900 ->
  shortest_path fuel en g source destination radius flag = Some (Ok path) ->
  shortest_path fuel' en' g destination source radius flag = Some (Ok path') ->
  exists lc, correction_of en source destination lc /\
    ((~ searched en lc /\ path' = rev path) \/
     exists l r l' r', path = lc_source lc :: l /\ journey (road g (en_vis en) lc) (lc_source lc) l (lc_dest lc) r /\
       path' = lc_dest lc :: l' /\ journey (road g (en_vis en) lc) (lc_dest lc) l' (lc_source lc) r' /\
       r * ((1 - u5) * (1 - uu) ^ length l) <= Rmax 1 (V w) * r' * ((1 + u5) * (1 + uu) ^ (length l' + 2)) /\
       r' * ((1 - u5) * (1 - uu) ^ length l') <= Rmax 1 (V w) * r * ((1 + u5) * (1 + uu) ^ (length l + 2))).
Proof.
  intros Un Mn Mn' Fw Bw E E'. destruct (query_path en g source destination radius flag Fit Ms Md fuel path E) as (lc & Co & K).
  exists lc. split; [exact Co|]. pose proof (swap_correction en en' _ _ lc Ei Co) as Co'.
  destruct (query_path en' g destination source radius flag Fit' Md Ms fuel' path' E') as (lc' & Co2 & K').
  assert (lc' = swap lc) as -> by exact (correction_unique _ _ _ _ _ Co2 Co').
  assert (B : built g) by apply Fit.
  assert (Sw : forall a b f, road g (en_vis en) lc a b f -> road g (en_vis en') (swap lc) b a f).
  { intros a b f R. rewrite <- Ev. apply road_sym; [exact B|]. apply road_swap. rewrite swap_swap. exact R. }
  assert (Sw' : forall a b f, road g (en_vis en') (swap lc) a b f -> road g (en_vis en) lc b a f).
  { intros a b f R. rewrite Ev. apply road_sym; [exact B|]. apply road_swap. exact R. }
  assert (Rs : forall a b f, road g (en_vis en) lc a b f -> road g (en_vis en) lc b a f) by (intros a b f; apply road_sym; exact B).
  assert (Ex' : crosses_either_way (en_index en')) by (rewrite <- Ei; exact Ex).
  destruct K as [[Ns ->]|(Se & K)].
  - left. split; [exact Ns|]. destruct K' as [[_ ->]|(Se' & _)]; [reflexivity|].
    elim Ns. rewrite <- (swap_swap lc). apply (swap_searched en' en); auto.
  - right. pose proof (swap_searched en en' lc Ei Ex Se) as Se'.
    destruct (query_optimal en g source destination radius flag Fit Ms Md fuel path lc w E Co Se Mn Fw Bw) as (l & r & Pl & J & O).
    destruct (query_optimal en' g destination source radius flag Fit' Md Ms fuel' path' (swap lc) w E' Co' Se' Mn' Fw Bw) as (l' & r' & Pl' & J' & O').
    cbn [swap lc_source lc_dest lc_source_edge lc_dest_edge] in *.
    exists l, r, l', r'. split; [exact Pl|]. split; [exact J|]. split; [exact Pl'|]. split.
    { apply (journey_ext (road g (en_vis en') (swap lc))); [|exact J']. intros a b f R. apply Rs, Sw'. exact R. }
    destruct (journey_rev _ _ _ _ _ Rs J) as (lb & Jb & Lb).
    assert (Jb' : journey (road g (en_vis en') (swap lc)) (lc_dest lc) lb (lc_source lc) r).
    { apply (journey_ext (road g (en_vis en) lc)); [|exact Jb]. intros a b f R. apply Sw, Rs. exact R. }
    assert (Jc : journey (road g (en_vis en) lc) (lc_dest lc) l' (lc_source lc) r').
    { apply (journey_ext (road g (en_vis en') (swap lc))); [|exact J']. intros a b f R. apply Rs, Sw'. exact R. }
    destruct (journey_rev _ _ _ _ _ Rs Jc) as (la & Ja & La).
    split.
    + rewrite <- La. apply O; [exact Ja|]. exact (all_within en g source destination lc radius _ _ _ Fit Ms Md Co Un Ja).
    + rewrite <- Lb. apply O'; [exact Jb'|].
      exact (all_within en' g destination source (swap lc) radius _ _ _ Fit' Md Ms Co' Un Jb').
Qed.

(** a query fails exactly if the swapped query does *)
Lemma swap_failure fuel fuel' e r' : unlimited radius ->
  shortest_path fuel en g source destination radius flag = Some (Throw e) ->
  shortest_path fuel' en' g destination source radius flag = Some r' -> r' = Throw e.
Proof.
  intros Un E E'.
  destruct (query_cases en g source destination radius flag Fit Ms Md) as (ns & nd & En & Ed & _ & _ & K).
  destruct (query_cases en' g destination source radius flag Fit' Md Ms) as (nd' & ns' & En' & Ed' & _ & _ & K').
  rewrite En in Ed'. rewrite Ed in En'. inversion Ed'; inversion En'; subst ns' nd'. clear En' Ed'.
  destruct (handle_land_collisions (en_index en) ns nd flag) as [lc|e1|u] eqn:Hl; [| |destruct K].
  - assert (Fl : flag = true \/ (ix_contains (en_index en) ns = false /\ ix_contains (en_index en) nd = false)).
    { unfold handle_land_collisions in Hl. destruct flag; [left; reflexivity|right]. cbn [negb andb] in Hl.
      destruct (ix_contains (en_index en) ns); [discriminate Hl|]. destruct (ix_contains (en_index en) nd); [discriminate Hl|]. auto. }
    destruct K as [Co K]. pose proof (swap_correction en en' _ _ lc Ei Co) as Co'.
    destruct (handle_land_collisions (en_index en') nd ns flag) as [lc'|e1|u] eqn:Hl'; [| |destruct K'].
    2:{ destruct K' as (_ & Ff & L & _). rewrite <- Ei in L. destruct Fl as [Fl|[A B]]; [congruence|rewrite A, B in L; discriminate L]. }
    destruct K' as [Co2 _]. assert (lc' = swap lc) as -> by exact (correction_unique _ _ _ _ _ Co2 Co').
    destruct K as [[Oc Q]|(Oc & _)]; [rewrite Q in E; discriminate E|].
    assert (Se : searched en lc) by exact (proj2 (searched_other en lc) Oc). pose proof (swap_searched en en' lc Ei Ex Se) as Se'.
    assert (B : built g) by apply Fit.
    destruct (query_failure en g source destination radius flag Fit Ms Md fuel lc _ E Co Se) as [(p & X)|(X & N)]; [|discriminate X|].
    { destruct Fl as [Fl|[A C]]; [left; exact Fl|right; exists ns, nd; auto]. }
    inversion X; subst e.
    destruct (query_failure en' g destination source radius flag Fit' Md Ms fuel' (swap lc) _ E' Co' Se') as [(p & ->)|(-> & _)]; [| |reflexivity].
    { destruct Fl as [Fl|[A C]]; [left; exact Fl|right; exists nd, ns; rewrite <- Ei; auto]. }
    exfalso. destruct (query_success en' g destination source radius flag Fit' Md Ms fuel' (swap lc) p E' Co' Se') as (l & r & _ & J & _).
    cbn [swap lc_source lc_dest] in J.
    assert (J1 : journey (road g (en_vis en) lc) (lc_dest lc) l (lc_source lc) r).
    { apply (journey_ext (road g (en_vis en') (swap lc))); [|exact J]. intros a b f R. rewrite Ev. apply road_swap. exact R. }
    destruct (journey_rev _ _ _ _ _ (fun a b f => road_sym g (en_vis en) lc a b f B) J1) as (l' & J' & _).
    apply N. exists l', r. split; [exact J'|]. exact (all_within en g source destination lc radius _ _ _ Fit Ms Md Co Un J').
  - destruct K as (-> & Ff & L & Q). rewrite Q in E. inversion E; subst e.
    unfold handle_land_collisions in K' at 1. rewrite Ff, <- Ei in K'. rewrite Ff in E'. cbn [negb andb] in K'. rewrite orb_comm in L. rewrite L in K'.
    destruct K' as (_ & _ & _ & Q'). rewrite Q' in E'. inversion E'. reflexivity.
Qed.
End Swap.

(** ** C54 *)
Section Batch.
Variable query : nat -> option (res (list coord)).
(** result [b] reports what query [i] did: its path, or its exception *)
Definition tells (q : option (res (list coord))) (b : batch_result) : Prop :=
  (exists p, q = Some (Ok p) /\ b = mkBR (Some p) None) \/ (exists e, q = Some (Throw e) /\ b = mkBR None (Some e)).

Lemma batch_cell_tells q b : batch_cell q = Some (Ok b) -> tells q b.
Proof.
  destruct q as [[p|e|u]|]; cbn [batch_cell]; intros E; try discriminate E; inversion E; [left|right]; eauto.
Qed.
Lemma batch_ok schedule : forall paths rs, NoDup schedule -> batch query schedule paths = Some (Ok rs) ->
  length rs = length paths /\
  (forall i, In i schedule -> exists b, nth_error rs i = Some b /\ tells (query i) b) /\
  (forall i, ~ In i schedule -> nth_error rs i = nth_error paths i).
Proof.
  induction schedule as [|i rest IH]; intros paths rs N E; cbn [batch] in E.
  - inversion E; subst. split; [reflexivity|]. split; [intros i []|reflexivity].
  - destruct (batch_cell (query i)) as [[b|e|u]|] eqn:C; try discriminate E. destruct (i <? length paths)%nat eqn:L; [|discriminate E].
    apply NoDup_cons_iff in N. destruct N as [Ni N]. destruct (IH _ _ N E) as (Len & A & B). split; [rewrite Len; apply upd_length|]. split.
    + intros j [<-|I]; [|apply A; exact I]. exists b. split; [|apply batch_cell_tells; exact C]. rewrite (B i Ni), nth_error_upd, Nat.eqb_refl, L. reflexivity.
    + intros j Nj. rewrite B by (intros I; apply Nj; right; exact I). rewrite nth_error_upd. destruct (Nat.eqb_spec j i) as [->|_]; [|reflexivity].
      elim Nj. left. reflexivity.
Qed.
Lemma batch_runs schedule : forall paths, (forall i, In i schedule -> (i < length paths)%nat /\ query i <> None /\ forall u, query i <> Some (UB u)) ->
  exists rs, batch query schedule paths = Some (Ok rs).
Proof.
  induction schedule as [|i rest IH]; intros paths H; cbn [batch]; [eauto|]. destruct (H i (or_introl eq_refl)) as (L & N & U).
  assert (C : exists b, batch_cell (query i) = Some (Ok b)).
  { destruct (query i) as [[p|e|u]|]; cbn [batch_cell]; eauto; [elim (U u); reflexivity|elim N; reflexivity]. }
  destruct C as (b & ->). apply Nat.ltb_lt in L. rewrite L. apply IH. intros j I. rewrite upd_length. apply H. right. exact I.
Qed.
End Batch.

Lemma repeat_nth_error {A} (x : A) n i : (i < n)%nat -> nth_error (repeat x n) i = Some x.
Proof. revert i. induction n as [|n IH]; intros i L; [lia|]. destruct i; [reflexivity|]. cbn. apply IH. lia. Qed.

Lemma batch_results fuel ens g pairs radius flag schedule rs :
  Permutation schedule (seq 0 (length pairs)) -> shortest_paths fuel ens g pairs radius flag schedule = Some (Ok rs) ->
  length rs = length pairs /\
  forall i a b, nth_error pairs i = Some (a, b) -> exists r, nth_error rs i = Some r /\ tells (shortest_path fuel (ens i) g a b radius flag) r.
Proof.
  intros P E. unfold shortest_paths in E.
  assert (N : NoDup schedule) by (apply (Permutation_NoDup (Permutation_sym P)), seq_NoDup).
  destruct (batch_ok _ _ _ _ N E) as (L & A & _). rewrite repeat_length in L. split; [exact L|]. intros i a b H.
  assert (Li : (i < length pairs)%nat) by (apply nth_error_Some; congruence).
  destruct (A i) as (r & R & T). { apply (Permutation_in _ (Permutation_sym P)), in_seq. lia. }
  exists r. split; [exact R|]. rewrite (nth_error_nth pairs i (origin, origin) H) in T. exact T.
Qed.

Lemma batch_total ens g pairs radius flag : (forall i, (i < length pairs)%nat -> fit_for_queries (ens i) g) ->
  (forall a b, In (a, b) pairs -> in_the_map a /\ in_the_map b) ->
  exists n, forall fuel schedule, (n <= fuel)%nat -> Permutation schedule (seq 0 (length pairs)) ->
    exists rs, shortest_paths fuel ens g pairs radius flag schedule = Some (Ok rs).
Proof.
  intros F M. set (q := fun fuel i => let p := nth i pairs (origin, origin) in shortest_path fuel (ens i) g (fst p) (snd p) radius flag).
  assert (K : forall m, (m <= length pairs)%nat -> exists n, forall fuel, (n <= fuel)%nat -> forall i, (i < m)%nat -> q fuel i <> None /\ forall u, q fuel i <> Some (UB u)).
  { induction m as [|m IH]; intros Lm; [exists O; intros fuel _ i L; lia|]. destruct IH as (n & Hn); [lia|].
    destruct (nth_error pairs m) as [[a b]|] eqn:E; [|apply nth_error_None in E; lia]. pose proof (nth_error_nth pairs m (origin, origin) E) as En.
    apply nth_error_In in E. destruct (M a b E) as [Ma Mb].
    destruct (query_terminates (ens m) g a b radius flag (F m Lm) Ma Mb) as (n' & Hn').
    exists (n + n')%nat. intros fuel L i Li. destruct (Nat.eq_dec i m) as [->|Ni]; [|apply Hn; lia].
    unfold q. rewrite En. cbn [fst snd]. apply Hn'. lia. }
  destruct (K (length pairs) (le_n _)) as (n & Hn). exists n. intros fuel schedule L P.
  apply batch_runs. intros i I. rewrite repeat_length. apply (Permutation_in _ P), in_seq in I. split; [lia|]. apply Hn; [exact L|lia].
Qed.

(** ** C56 *)
Lemma degrees_ok z : (Z.abs z <= 2147483648)%Z ->
  is_finite (microdegrees_to_degrees z) = true /\ V (microdegrees_to_degrees z) = rnd (micro * IZR z) /\ Rabs (V (microdegrees_to_degrees z)) <= 4096.
Proof.
  intros H. destruct (f_of_Z_exact z) as [E F]; [lia|]. unfold microdegrees_to_degrees. destruct micro_val as [Em Fm]. pose proof micro_bounds as M.
  assert (S : Rabs (micro * IZR z) <= 4096).
  { rewrite Rabs_mult, <- abs_IZR, Rabs_pos_eq by lra. apply IZR_le in H. pose proof (IZR_le 0 (Z.abs z) ltac:(lia)). nra. }
  destruct (fmul_correct f_1em6 (f_of_Z z) Fm F) as [A B].
  { rewrite E, Em. apply small_le_big. eapply Rle_trans; [exact S|]. lra. }
  rewrite E, Em in A. split; [exact B|]. split; [exact A|]. rewrite A. apply Rabs_le_inv in S.
  assert (T : rnd 4096 = 4096).
  { change 4096 with (bpow radix2 12). apply rnd_format, generic_format_bpow. vm_compute. congruence. }
  apply Rabs_le. split.
  - rewrite <- T, <- rnd_opp. apply rnd_mono. lra.
  - rewrite <- T. apply rnd_mono. lra.
Qed.

Lemma magnitude_opp v w : (Z.abs (lon v) <= 2147483648)%Z -> (Z.abs (lat v) <= 2147483648)%Z -> lon w = (- lon v)%Z -> lat w = (- lat v)%Z ->
  V (magnitude w) = V (magnitude v).
Proof.
  intros X Y Ex Ey. unfold magnitude. rewrite !fsqrt_correct. do 2 f_equal. unfold magnitude_squared, get_longitude, get_latitude. rewrite Ex, Ey.
  destruct (degrees_ok (lon v) X) as (Fx & Vx & Bx). destruct (degrees_ok (lat v) Y) as (Fy & Vy & By).
  destruct (degrees_ok (- lon v)) as (Fx' & Vx' & Bx'); [lia|]. destruct (degrees_ok (- lat v)) as (Fy' & Vy' & By'); [lia|].
  assert (Ox : V (microdegrees_to_degrees (- lon v)) = - V (microdegrees_to_degrees (lon v))).
  { rewrite Vx', Vx, opp_IZR, <- rnd_opp. f_equal. ring. }
  assert (Oy : V (microdegrees_to_degrees (- lat v)) = - V (microdegrees_to_degrees (lat v))).
  { rewrite Vy', Vy, opp_IZR, <- rnd_opp. f_equal. ring. }
  assert (Sq : forall x, is_finite x = true -> Rabs (V x) <= 4096 -> is_finite (fmul x x) = true /\ V (fmul x x) = rnd (V x * V x) /\ Rabs (V (fmul x x)) <= 16777216).
  { clear. intros x F B. assert (S : Rabs (V x * V x) <= 16777216) by (rewrite Rabs_mult; pose proof (Rabs_pos (V x)); nra).
    destruct (fmul_correct x x F F) as [A C]; [apply small_le_big; lra|]. split; [exact C|]. split; [exact A|]. rewrite A. apply Rabs_le_inv in S.
    assert (T : rnd 16777216 = 16777216).
    { change 16777216 with (bpow radix2 24). apply rnd_format, generic_format_bpow. vm_compute. congruence. }
    apply Rabs_le. split; [rewrite <- T, <- rnd_opp|rewrite <- T]; apply rnd_mono; lra. }
  destruct (Sq _ Fx Bx) as (Gx & Wx & Cx). destruct (Sq _ Fy By) as (Gy & Wy & Cy).
  destruct (Sq _ Fx' Bx') as (Gx' & Wx' & Cx'). destruct (Sq _ Fy' By') as (Gy' & Wy' & Cy').
  assert (Ad : forall x y, is_finite x = true -> is_finite y = true -> Rabs (V x) <= 16777216 -> Rabs (V y) <= 16777216 -> V (fadd x y) = rnd (V x + V y)).
  { clear. intros x y Fx Fy Bx By. apply fadd_correct; [assumption..|]. apply small_le_big. eapply Rle_trans; [apply Rabs_triang|]. lra. }
  rewrite !Ad by assumption. rewrite Wx', Wy', Wx, Wy, Ox, Oy. f_equal. f_equal; f_equal; ring.
Qed.

Lemma sub_sym a b : pgeo a -> pgeo b -> exists d d', coord_sub a b = Ok d /\ coord_sub b a = Ok d' /\ V (magnitude d) = V (magnitude d').
Proof.
  intros A B. unfold pgeo in *. rewrite !coord_sub_ok by (unfold INT32_MIN, INT32_MAX; lia). do 2 eexists. split; [reflexivity|]. split; [reflexivity|].
  apply magnitude_opp; cbn [lon lat]; lia.
Qed.

Lemma distance_sym f a b da db : ngeo a -> ngeo b -> distance_measurement a b f = Ok da -> distance_measurement b a f = Ok db -> V da = V db.
Proof.
  intros A B. unfold distance_measurement. destruct f; cbn [negb].
  - unfold ngeo in *. rewrite !periodic_coordinates_ok by lia. cbn [bind nth].
    rewrite !coord_sub_ok by (unfold INT32_MIN, INT32_MAX; cbn [lon lat]; lia). cbn [bind lon lat]. intros Ea Eb. inversion Ea; inversion Eb. clear Ea Eb.
    assert (F : forall v, (Z.abs (lon v) <= 720000001)%Z -> (Z.abs (lat v) <= 180000000)%Z -> is_finite (magnitude v) = true) by (intros v X Y; apply magnitude_ok; assumption).
    assert (Fm : forall x y, is_finite x = true -> is_finite y = true -> V (fmin x y) = Rmin (V x) (V y)) by (intros x y X Y; apply fmin_ok; assumption).
    rewrite !Fm by (apply F; cbn [lon lat]; lia). rewrite Rmin_comm. f_equal; apply magnitude_opp; cbn [lon lat]; lia.
  - assert (pgeo a /\ pgeo b) as [Pa Pb] by (unfold ngeo, pgeo in *; lia). destruct (sub_sym a b Pa Pb) as (x & y & -> & -> & E).
    cbn [bind]. intros Ea Eb. inversion Ea; inversion Eb; subst. exact E.
Qed.

Lemma heuristic_metric a b : ngeo a -> ngeo b -> exists d, heuristic_distance a b = Ok d /\ is_finite d = true /\ 0 <= V d /\
  (V d = 0 <-> a = b) /\ (forall f e, distance_measurement a b f = Ok e -> V d <= V e) /\
  (forall d', heuristic_distance b a = Ok d' -> V d' = V d).
Proof.
  intros A B. destruct (heuristic_ok a b A B) as (d & E & M). exists d. split; [exact E|]. destruct (measures_bounds _ _ M) as [Lo Hi]. destruct M as (F & Rg & _).
  split; [exact F|]. split; [apply Rg|]. pose proof micro_pos as Mp. pose proof u5_val as U. pose proof (cylinder_pos a b) as Cp. split.
  { rewrite <- (cylinder_zero a b A B). split; intros Z.
    - rewrite Z in Lo. destruct (Rle_lt_or_eq_dec _ _ Cp) as [P|P]; [|congruence]. exfalso.
      assert (0 < micro * cylinder a b) by (apply Rmult_lt_0_compat; assumption). rewrite U in Lo. nra.
    - rewrite Z in Hi. apply Rle_antisym; [|apply Rg]. lra. }
  unfold heuristic_distance in *.
  destruct (distance_ok false a b A B) as (x & Ex & X). destruct (distance_ok true a b A B) as (y & Ey & Y).
  rewrite Ex, Ey in E. cbn [bind] in E. inversion E; subst d. destruct X as (Fx & _), Y as (Fy & _). destruct (fmin_ok x y Fx Fy) as [_ Vm]. split.
  - intros f e Ee. rewrite Vm. destruct f; [rewrite Ey in Ee|rewrite Ex in Ee]; inversion Ee; subst; [apply Rmin_r|apply Rmin_l].
  - intros d' E'. destruct (distance_ok false b a B A) as (x' & Ex' & X'). destruct (distance_ok true b a B A) as (y' & Ey' & Y').
    rewrite Ex', Ey' in E'. cbn [bind] in E'. inversion E'; subst d'. destruct X' as (Fx' & _), Y' as (Fy' & _). rewrite (proj2 (fmin_ok x' y' Fx' Fy')), Vm.
    f_equal; [exact (distance_sym false b a _ _ B A Ex' Ex)|exact (distance_sym true b a _ _ B A Ey' Ey)].
Qed.
Lemma heuristic_triangle a b c x y z : ngeo a -> ngeo b -> ngeo c ->
  heuristic_distance a b = Ok x -> heuristic_distance b c = Ok y -> heuristic_distance a c = Ok z ->
  V z * (1 - u5) <= (V x + V y) * (1 + u5).
Proof.
  intros A B C Ex Ey Ez.
  destruct (heuristic_ok a b A B) as (x' & E & X). rewrite Ex in E. inversion E; subst x'. clear E.
  destruct (heuristic_ok b c B C) as (y' & E & Y). rewrite Ey in E. inversion E; subst y'. clear E.
  destruct (heuristic_ok a c A C) as (z' & E & Z). rewrite Ez in E. inversion E; subst z'. clear E.
  pose proof (cylinder_triangle a b c A B C) as T. pose proof micro_pos as Mp. pose proof u5_val as U.
  pose proof (cylinder_pos a b). pose proof (cylinder_pos b c). pose proof (cylinder_pos a c).
  destruct (measures_bounds _ _ X) as [Lx _]. destruct (measures_bounds _ _ Y) as [Ly _]. destruct (measures_bounds _ _ Z) as [_ Hz].
  set (p := micro * cylinder a b) in *. set (q := micro * cylinder b c) in *. set (r := micro * cylinder a c) in *.
  assert (Q : r <= p + q) by (unfold p, q, r; nra). clearbody p q r. rewrite U in *. nra.
Qed.

Lemma triangle_fails : ~ (forall a b c x y z, ngeo a -> ngeo b -> ngeo c ->
  heuristic_distance a b = Ok x -> heuristic_distance b c = Ok y -> heuristic_distance a c = Ok z -> V z <= V x + V y).
Proof.
  intros H. set (a := mkC 0 0). set (b := mkC 4 0). set (c := mkC 9 0).
  assert (A : ngeo a) by (split; vm_compute; congruence). assert (B : ngeo b) by (split; vm_compute; congruence). assert (C : ngeo c) by (split; vm_compute; congruence).
  destruct (heuristic_ok a b A B) as (x & Ex & Fx & Bx & _). destruct (heuristic_ok b c B C) as (y & Ey & Fy & By & _). destruct (heuristic_ok a c A C) as (z & Ez & Fz & Bz & _).
  specialize (H a b c x y z A B C Ex Ey Ez).
  assert (L : match heuristic_distance a b, heuristic_distance b c, heuristic_distance a c with Ok x, Ok y, Ok z => fltb (fadd x y) z | _, _, _ => false end = true) by (vm_compute; reflexivity).
  rewrite Ex, Ey, Ez in L. destruct (fadd_correct x y Fx Fy) as [S Fs]; [apply small_le_big; rewrite Rabs_pos_eq; lra|].
  apply (fltb_iff _ _ Fs Fz) in L. rewrite S in L. apply rnd_mono in H. rewrite rnd_V in H. lra.
Qed.

(** ** C55 *)
Lemma last_linked sg t l : forall u u0, linked sg u l t -> last (u :: l) u0 = t.
Proof.
  induction l as [|v l IH]; intros u u0 L; [exact L|]. destruct L as [_ L]. change (last (u :: v :: l) u0) with (last (v :: l) u0). apply IH. exact L.
Qed.
Lemma query_land en g source destination radius flag : fit_for_queries en g -> in_the_map source -> in_the_map destination ->
  exists ns nd, normalize_coord source = Ok ns /\ normalize_coord destination = Ok nd /\
  (flag = false -> ix_contains (en_index en) ns || ix_contains (en_index en) nd = true ->
     forall fuel, shortest_path fuel en g source destination radius flag = Some (Throw OnLand)) /\
  (flag = true \/ (ix_contains (en_index en) ns = false /\ ix_contains (en_index en) nd = false) ->
     exists s' d' es ed, moved (en_index en) ns s' es /\ moved (en_index en) nd d' ed /\
       handle_land_collisions (en_index en) ns nd flag = Ok (mkLC s' d' es ed) /\
       forall fuel, shortest_path fuel en g source destination radius flag <> Some (Throw OnLand) /\
         forall path, shortest_path fuel en g source destination radius flag = Some (Ok path) -> hd_error path = Some s' /\ last path s' = d').
Proof.
  intros Fit Ms Md. destruct (query_cases en g source destination radius flag Fit Ms Md) as (ns & nd & En & Ed & Gs & Gd & K).
  exists ns, nd. split; [exact En|]. split; [exact Ed|]. assert (Ix : index_in_range (en_index en)) by apply Fit.
  destruct (land_ok (en_index en) ns nd flag Ix Gs Gd) as [A B]. split.
  - intros Ff L. rewrite (A Ff L) in K. apply K.
  - intros O. destruct (B O) as (lc & El & M1 & M2). rewrite El in K. destruct K as [Co K].
    exists (lc_source lc), (lc_dest lc), (lc_source_edge lc), (lc_dest_edge lc). split; [exact M1|]. split; [exact M2|]. split; [destruct lc; exact El|].
    intros fuel. destruct K as [[Oc Q]|(Oc & sg & dom & U & Is & Gt & R & Q)]; rewrite Q.
    + split; [intros X; discriminate X|]. intros path X. inversion X; subst. split; reflexivity.
    + split.
      * intros X. destruct (search_result sg (lc_source lc) (lc_dest lc) radius dom U Is Gt _ _ _ X) as [[Y _]|(l & d & st & x & k & Y & _)]; discriminate Y.
      * intros path X. destruct (search_result sg (lc_source lc) (lc_dest lc) radius dom U Is Gt _ _ _ X) as [[Y _]|(l & d & st & x & k & Y & L & _)]; [discriminate Y|].
        inversion Y; subst path. split; [reflexivity|]. exact (last_linked sg _ l _ _ L).
Qed.

(** ** C58 *)
Lemma never_across g vis lc u v : built g -> has_vertex g u = false -> ~ road g vis lc u v true.
Proof.
  intros B N [A|[F _]]; [|discriminate F]. destruct (answer_some_in g u v true B A) as (_ & I & _). destruct B as (ps & h & Un & G).
  rewrite (built_vertices _ _ _ G) in I. apply (built_has_vertex _ _ _ _ G) in I. congruence.
Qed.

(** the vertices an endpoint is not joined to are behind its shore, or an edge is in the way *)
Lemma endpoint_joined atan2 ords g lc v : built g -> (forall c, In c (get_vertices g) -> ngeo c) -> (forall c, library_orders (ords c)) ->
  ngeo (lc_source lc) -> (forall seg, lc_source_edge lc = Some seg -> pgeo_seg seg) ->
  has_vertex g (lc_source lc) = false -> In v (get_vertices g) ->
  road g (endpoint_vis atan2 ords g) lc (lc_source lc) v false \/
  (exists shore, lc_source_edge lc = Some shore /\ orientation_of_point_to_segment shore v = Ok COUNTER_CLOCKWISE) \/
  (exists e, polygon_edge (get_polygons g) e /\ ~ touches e (lc_source lc) /\ meets_before e (lc_source lc) v).
Proof.
  intros B Gv Lo Gs Sh N Iv. pose proof B as (ps & h & Un & G). rewrite (built_polys _ _ _ G). pose proof (Gv v Iv) as Gvv. rewrite (built_vertices _ _ _ G) in Gv, Iv.
  assert (Nv : v <> lc_source lc) by (intros ->; apply (built_has_vertex _ _ _ _ G) in Iv; congruence).
  set (c := lc_source lc) in *.
  destruct (get_visible_ok atan2 (ords c) ps c false (Lo c)) as (res & seen & R & _ & Ivs & _ & _ & F & H).
  { unfold ngeo in Gs. unfold pgeo. lia. }
  { intros x Ix. specialize (Gv x Ix). unfold ngeo in Gv. unfold pgeo. lia. }
  rewrite scanned_full in H. destruct (H v (proj2 (Ivs v) Iv) Nv) as [S|[(p & n & (P & i & IP & Li & _ & Ec & _) & _)|X]]; [|exfalso|right; right; exact X].
  - assert (K : exists x, In x res /\ reports_as v x).
    { clear - F S. induction F as [|a x seen res Ra F IH]; [destruct S|]. destruct S as [<-|S]; [exists x; split; [left; reflexivity|exact Ra]|].
      destruct (IH S) as (y & Iy & Ry). exists y. split; [right; exact Iy|exact Ry]. }
    destruct K as (x & Ix & Nx & _).
    assert (Vx : v_coord x = v).
    { destruct (normalize_coord_ok v) as (z & Ez & Bz & k & Kz); [unfold ngeo in Gvv; unfold INT32_MIN, INT32_MAX; lia|]. rewrite Nx in Ez. inversion Ez as [Ev].
      unfold ngeo in Gvv. assert (z = lon v) by lia. destruct v as [vx vy]. cbn [lon lat] in *. congruence. }
    assert (Sees : (forall shore, lc_source_edge lc = Some shore -> exists o, orientation_of_point_to_segment shore v = Ok o /\ o <> COUNTER_CLOCKWISE) ->
      road g (endpoint_vis atan2 ords g) lc c v false).
    { intros K. right. split; [reflexivity|]. left. split; [exact N|]. left. split; [reflexivity|]. exists res, x. split; [|auto].
      unfold endpoint_vis. rewrite (built_polys _ _ _ G). exact R. }
    destruct (lc_source_edge lc) as [shore|] eqn:Es; [|left; apply Sees; intros shore X; discriminate X].
    assert (Pv : pgeo v) by (unfold ngeo in Gvv; unfold pgeo; lia).
    pose proof (orientation_pt_ok shore v (Sh shore eq_refl) Pv) as O.
    match type of O with _ = Ok ?o => assert (D : {o = COUNTER_CLOCKWISE} + {o <> COUNTER_CLOCKWISE}) by decide equality; destruct D as [D|D] end.
    + right. left. exists shore. rewrite D in O. auto.
    + left. apply Sees. intros sh' X. inversion X; subst sh'. eexists. split; [exact O|exact D].
  - assert (Ic : In c (polygon_vertices ps)).
    { apply in_polygon_vertices. exists P. split; [exact IP|]. rewrite Ec. unfold vat. apply nth_In. exact Li. }
    apply (built_has_vertex _ _ _ _ G) in Ic. congruence.
Qed.

(** an endpoint of the query and the shore it was moved to *)
Definition query_end (lc : correction) (e : coord) (shore : option segment) : Prop :=
  (e = lc_source lc /\ shore = lc_source_edge lc) \/ (e = lc_dest lc /\ shore = lc_dest_edge lc).
Lemma road_ends g vis lc u v f : road g vis (mkLC (lc_dest lc) (lc_source lc) (lc_dest_edge lc) (lc_source_edge lc)) u v f -> road g vis lc u v f.
Proof. unfold road, endpoint_edge. cbn [lc_source lc_dest lc_source_edge lc_dest_edge]. tauto. Qed.
Lemma end_joined atan2 ords rows g lc e shore v : built g -> (forall c, In c (get_vertices g) -> ngeo c) -> (forall c, library_orders (ords c)) -> row_orders rows ->
  ngeo (lc_source lc) -> ngeo (lc_dest lc) -> (forall seg, lc_source_edge lc = Some seg -> pgeo_seg seg) -> (forall seg, lc_dest_edge lc = Some seg -> pgeo_seg seg) ->
  query_end lc e shore -> has_vertex g e = false -> In v (get_vertices g) ->
  exists sg, create_modified_graph (endpoint_vis atan2 ords g) rows g lc = Ok sg /\
    (forall w, ~ (joined sg e w /\ sg_crossing sg e w = Ok true)) /\
    ((exists ns, sg_neighbors sg e = Ok ns /\ In v ns /\ sg_crossing sg e v = Ok false) \/
     (exists s, shore = Some s /\ orientation_of_point_to_segment s v = Ok COUNTER_CLOCKWISE) \/
     (exists s, polygon_edge (get_polygons g) s /\ ~ touches s e /\ meets_before s e v)).
Proof.
  intros B Gv Lo Rw Gs Gd Ss Sd Q N Iv.
  destruct (create_ok (endpoint_vis atan2 ords g) rows g lc B Gv Rw (endpoint_vis_answers atan2 ords g B Gv Lo) Gs Gd Ss Sd) as (sg & dom & C & _ & _ & R).
  exists sg. split; [exact C|]. split; [intros w W; apply R in W; exact (never_across g _ lc e w B N W)|].
  assert (K : road g (endpoint_vis atan2 ords g) lc e v false \/
     (exists s, shore = Some s /\ orientation_of_point_to_segment s v = Ok COUNTER_CLOCKWISE) \/
     (exists s, polygon_edge (get_polygons g) s /\ ~ touches s e /\ meets_before s e v)).
  { destruct Q as [[-> ->]|[-> ->]]; [apply endpoint_joined; assumption|].
    destruct (endpoint_joined atan2 ords g (mkLC (lc_dest lc) (lc_source lc) (lc_dest_edge lc) (lc_source_edge lc)) v) as [H|H]; try assumption; [left; apply road_ends, H|right; exact H]. }
  destruct K as [K|K]; [|right; exact K]. left. apply R in K. destruct K as [(ns & E & I) K]. exists ns. auto.
Qed.

