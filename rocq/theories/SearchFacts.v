(** The search loop of shortest_path: invariants, for every choice of the queue. *)
From Coq Require Import ZArith Reals Bool List Lia Lra Psatz Permutation.
From Flocq Require Import Core.
From Flocq Require Import BinarySingleNaN.
From Verif Require Import Base F64 Coordinate Segment SpecGeom F64Facts CoordinateFacts Graph GraphFacts Overlay OverlayFacts
  ShortestPath DistFacts.
Import ListNotations.
Local Open Scope R_scope.

(** ** Vocabulary *)
(** [v] is listed as a neighbour of [u] *)
Definition joined (sg : sgraph) (u v : coord) : Prop := exists ns, sg_neighbors sg u = Ok ns /\ In v ns.
(** what the search adds for the edge from [u] to [v] *)
Definition steps (sg : sgraph) (u v : coord) (e : f64) : Prop :=
  exists f, sg_crossing sg u v = Ok f /\ distance_measurement v u f = Ok e.
(** [v] is not farther from [s] than the radius, as the code decides it *)
Definition within (s : coord) (radius : f64) (v : coord) : Prop :=
  exists d, heuristic_distance s v = Ok d /\ fltb radius d = false.
(** the graph answers every question about the vertices in [dom] and does not leave [dom] *)
Definition usable (sg : sgraph) (dom : list coord) : Prop := forall u, In u dom ->
  ngeo u /\ exists ns, sg_neighbors sg u = Ok ns /\ forall v, In v ns -> In v dom /\ exists f, sg_crossing sg u v = Ok f.

(** ** Path lengths as doubles *)
Definition amount (d : f64) : Prop := is_finite d = true /\ 0 <= V d <= 18446744073709551616.
Definition stride (e : f64) : Prop := is_finite e = true /\ 0 <= V e <= 1024.

Lemma rnd_saturates : rnd 18446744073709552640 = 18446744073709551616.
Proof.
  destruct (f_of_Z_correct 18446744073709552640) as [A _]; [apply IZR_big; vm_compute; congruence|].
  destruct (f_of_Z_correct 18446744073709551616) as [B _]; [apply small_big; vm_compute; congruence|].
  assert (E : f_of_Z 18446744073709552640 = f_of_Z 18446744073709551616).
  { assert (E : B2SF (f_of_Z 18446744073709552640) = B2SF (f_of_Z 18446744073709551616)) by (vm_compute; reflexivity).
    apply B2SF_inj in E. exact E. }
  rewrite E, B in A. rewrite <- A. apply rnd_format. change 18446744073709551616 with (bpow radix2 64).
  apply generic_format_bpow. vm_compute. congruence.
Qed.

Lemma fadd_amount d e : amount d -> stride e ->
  amount (fadd d e) /\ V (fadd d e) = rnd (V d + V e) /\ V d <= V (fadd d e).
Proof.
  intros [Fd Bd] [Fe Be]. destruct (fadd_correct d e Fd Fe) as [E F]; [apply small_le_big; rewrite Rabs_pos_eq by lra; lra|].
  assert (L : V d <= V (fadd d e)) by (rewrite E, <- (rnd_V d) at 1; apply rnd_mono; lra).
  split; [|split; assumption]. split; [exact F|]. split; [lra|]. rewrite E, <- rnd_saturates. apply rnd_mono. lra.
Qed.

Lemma fadd_mono d d' e : amount d -> amount d' -> stride e -> V d <= V d' -> V (fadd d e) <= V (fadd d' e).
Proof.
  intros D D' E H. destruct (fadd_amount d e D E) as (_ & -> & _). destruct (fadd_amount d' e D' E) as (_ & -> & _). apply rnd_mono. lra.
Qed.

Lemma zero_amount : amount f_0 /\ V f_0 = 0.
Proof.
  destruct (f_of_Z_exact 0) as [A B]; [vm_compute; congruence|]. unfold amount, f_0. rewrite A, B. split; [split; [reflexivity|lra]|reflexivity].
Qed.

Lemma measures_stride d r : measures d r -> stride d.
Proof. intros (A & B & _). split; assumption. Qed.

Definition rank (d : f64) : nat := Z.to_nat (Ztrunc (V d * bpow radix2 1074)).
Lemma scaled_integer x : is_finite x = true -> exists m, V x * bpow radix2 1074 = IZR m.
Proof.
  intros F. destruct x as [b| | |b m e H]; try discriminate F; unfold V; cbn [B2R].
  - exists 0%Z. lra.
  - assert (E : (-1074 <= e)%Z).
    { pose proof (proj1 (andb_prop _ _ H)) as K. unfold SpecFloat.canonical_mantissa in K.
      apply Zeq_bool_eq in K. unfold SpecFloat.fexp, SpecFloat.emin in K. lia. }
    exists (cond_Zopp b (Zpos m) * 2 ^ (e + 1074))%Z. unfold F2R. cbn [Fnum Fexp].
    rewrite Rmult_assoc, <- bpow_plus, mult_IZR. f_equal. rewrite <- (IZR_Zpower radix2) by lia. reflexivity.
Qed.
Lemma rank_lt d d' : is_finite d = true -> is_finite d' = true -> 0 <= V d' -> V d' < V d -> (rank d' < rank d)%nat.
Proof.
  intros F F' P L. destruct (scaled_integer d F) as [m M]. destruct (scaled_integer d' F') as [m' M'].
  unfold rank. rewrite M, M', !Ztrunc_IZR. pose proof (bpow_gt_0 radix2 1074) as B.
  assert (X : (0 <= m')%Z) by (apply le_IZR; rewrite <- M'; nra).
  assert (Y : (m' < m)%Z) by (apply lt_IZR; rewrite <- M, <- M'; nra). lia.
Qed.
Lemma Z_to_nat_le a b : (a <= b)%Z -> (Z.to_nat a <= Z.to_nat b)%nat.
Proof. lia. Qed.
Definition top_rank : nat := S (Z.to_nat (18446744073709551616 * 2 ^ 1074)).
Lemma rank_top d : amount d -> (rank d < top_rank)%nat.
Proof.
  intros [F B]. destruct (scaled_integer d F) as [m M]. unfold rank, top_rank. rewrite M, Ztrunc_IZR.
  assert (K : (m <= 18446744073709551616 * 2 ^ 1074)%Z).
  { apply le_IZR. rewrite <- M, mult_IZR. change (2 ^ 1074)%Z with (radix2 ^ 1074)%Z. rewrite (IZR_Zpower radix2 1074) by lia.
    pose proof (bpow_gt_0 radix2 1074). nra. }
  apply le_n_S, Z_to_nat_le, K.
Qed.

(** ** The invariant of the loop *)
Lemma remove_nth_in {A} i : forall (l : list A) d y, (i < length l)%nat -> In y l -> y = nth i l d \/ In y (remove_nth i l).
Proof.
  induction i as [|i IH]; intros l d y L I; destruct l as [|x l]; cbn [length nth remove_nth] in *; [lia| |lia|]; destruct I as [<-|I]; auto.
  - right. left. reflexivity.
  - destruct (IH l d y ltac:(lia) I) as [K|K]; [left; exact K|right; right; exact K].
Qed.
Lemma remove_nth_incl {A} i : forall (l : list A) y, In y (remove_nth i l) -> In y l.
Proof.
  induction i as [|i IH]; intros l y I; destruct l as [|x l]; cbn [remove_nth] in *; auto; [right; exact I|].
  destruct I as [<-|I]; [left; reflexivity|right; auto].
Qed.
Lemma remove_nth_length {A} i : forall (l : list A), (i < length l)%nat -> S (length (remove_nth i l)) = length l.
Proof. induction i as [|i IH]; intros l L; destruct l as [|x l]; cbn [length remove_nth] in *; try lia. rewrite IH; lia. Qed.

Definition rk (dist : list (coord * f64)) (v : coord) : nat := match assoc v dist with Some d => rank d | None => top_rank end.
Definition total_on (dist : list (coord * f64)) (l : list coord) : nat := fold_right (fun v n => rk dist v + n)%nat O l.
Lemma total_le dist dist' l : (forall v, In v l -> (rk dist' v <= rk dist v)%nat) -> (total_on dist' l <= total_on dist l)%nat.
Proof.
  unfold total_on. induction l as [|v l IH]; intros H; [reflexivity|]. cbn [fold_right].
  specialize (IH (fun u I => H u (or_intror I))). specialize (H v (or_introl eq_refl)). lia.
Qed.
Lemma total_lt dist dist' v l : In v l -> (rk dist' v < rk dist v)%nat -> (forall v, In v l -> (rk dist' v <= rk dist v)%nat) ->
  (total_on dist' l < total_on dist l)%nat.
Proof.
  induction l as [|w l IH]; intros I L H; [destruct I|]. pose proof (total_le dist dist' l (fun u I => H u (or_intror I))) as K.
  unfold total_on in *. cbn [fold_right]. pose proof (H w (or_introl eq_refl)) as Hw. destruct I as [<-|I]; [lia|].
  specialize (IH I L (fun u I => H u (or_intror I))). lia.
Qed.

Section Loop.
Variables (sg : sgraph) (s t : coord) (radius : f64) (dom : list coord).
Hypotheses (U : usable sg dom) (Is : In s dom) (Gt : ngeo t).

(** the vertices from the source to [v] along [prev] *)
Inductive back (prev : list (coord * coord)) : coord -> list coord -> Prop :=
| back_here : back prev s [s]
| back_step v u l : v <> s -> assoc v prev = Some u -> back prev u l -> back prev v (l ++ [v]).

(** the distance recorded for [v]; the source has distance 0 whatever is recorded *)
Definition cur (dist : list (coord * f64)) (v : coord) (d : f64) : Prop :=
  (v = s /\ d = f_0) \/ (v <> s /\ assoc v dist = Some d).

Record core (st : sstate) : Prop := mkCore {
  c_keys : NoDup (map fst (ss_prev st));
  c_dist : forall v d, assoc v (ss_dist st) = Some d ->
    amount d /\ In v dom /\ within s radius v /\ exists u, assoc v (ss_prev st) = Some u;
  c_prev : forall v u, assoc v (ss_prev st) = Some u -> In u dom /\ joined sg u v /\
    exists du e dv, cur (ss_dist st) u du /\ steps sg u v e /\ assoc v (ss_dist st) = Some dv /\ V (fadd du e) <= V dv;
  c_heap : forall x, In x (ss_heap st) -> In (h_node x) dom /\ amount (h_dist x) /\
    heuristic_distance (h_node x) t = Ok (h_heur x) /\ exists d, cur (ss_dist st) (h_node x) d /\ V d <= V (h_dist x);
  c_root : forall v u, assoc v (ss_prev st) = Some u -> exists l, back (ss_prev st) v l
}.

Definition in_heap (st : sstate) (u : coord) (du : f64) : Prop :=
  exists x, In x (ss_heap st) /\ h_node x = u /\ V (h_dist x) = V du.
Definition finished (st : sstate) (u : coord) (du : f64) : Prop := u <> t /\
  forall v e, joined sg u v -> steps sg u v e -> within s radius v -> v <> s ->
    exists dv, assoc v (ss_dist st) = Some dv /\ V dv <= V (fadd du e).
Definition front (st : sstate) (x : option helem) : Prop := forall u du, cur (ss_dist st) u du ->
  in_heap st u du \/ finished st u du \/ match x with Some x => u = h_node x /\ V du = V (h_dist x) | None => False end.
Definition better (st st' : sstate) : Prop :=
  (forall v d, assoc v (ss_dist st) = Some d -> exists d', assoc v (ss_dist st') = Some d' /\ V d' <= V d) /\
  (forall x, In x (ss_heap st) -> In x (ss_heap st')).

Definition total (dist : list (coord * f64)) : nat := total_on dist dom.
Definition measure (st : sstate) : nat := (2 * total (ss_dist st) + length (ss_heap st))%nat.

Lemma better_refl st : better st st.
Proof. split; [intros v d H; exists d; split; [exact H|lra]|auto]. Qed.
Lemma better_trans a b c : better a b -> better b c -> better a c.
Proof.
  intros [A A'] [B B']. split; [|auto]. intros v d H. destruct (A v d H) as (d1 & H1 & L1). destruct (B v d1 H1) as (d2 & H2 & L2).
  exists d2. split; [exact H2|lra].
Qed.
Lemma cur_better st st' u du : better st st' -> cur (ss_dist st) u du -> exists du', cur (ss_dist st') u du' /\ V du' <= V du.
Proof.
  intros [B _] [[E ->]|[N A]]; [exists f_0; split; [left; auto|lra]|]. destruct (B u du A) as (d' & A' & L). exists d'. split; [right; auto|exact L].
Qed.
Lemma finished_better st st' u du : better st st' -> finished st u du -> finished st' u du.
Proof.
  intros [B _] [N F]. split; [exact N|]. intros v e J S W Nv. destruct (F v e J S W Nv) as (dv & A & L). destruct (B v dv A) as (d' & A' & L').
  exists d'. split; [exact A'|lra].
Qed.
Lemma cur_amount st u du : core st -> cur (ss_dist st) u du -> amount du.
Proof. intros C [[_ ->]|[_ A]]; [apply zero_amount|]. destruct (c_dist st C u du A). assumption. Qed.
Lemma cur_unique dist u d d' : cur dist u d -> cur dist u d' -> d = d'.
Proof. intros [[A ->]|[A B]] [[C ->]|[C D]]; congruence. Qed.

Lemma steps_stride u v e : ngeo u -> ngeo v -> steps sg u v e -> stride e /\ exists f, sg_crossing sg u v = Ok f /\ measures e (edge_length f v u).
Proof.
  intros Gu Gv (f & C & D). destruct (distance_ok f v u Gv Gu) as (d & E & M). rewrite E in D. inversion D; subst d.
  split; [exact (measures_stride _ _ M)|exists f; auto].
Qed.
Lemma joined_dom u v : In u dom -> joined sg u v -> In v dom /\ ngeo v /\ exists e, steps sg u v e.
Proof.
  intros I (ns & N & J). destruct (U u I) as (Gu & ns' & N' & H). rewrite N in N'. inversion N'; subst ns'.
  destruct (H v J) as (Iv & f & C). split; [exact Iv|]. destruct (U v Iv) as [Gv _]. split; [exact Gv|].
  destruct (distance_ok f v u Gv Gu) as (e & E & _). exists e, f. auto.
Qed.

Lemma back_mono prev v w u l : back prev u l -> ~ In v l \/ v = s -> back (put v w prev) u l.
Proof.
  induction 1 as [|y u l N A B IH]; intros H; [constructor|].
  apply back_step with u; [exact N| |].
  - rewrite assoc_put. destruct (coord_eqb v y) eqn:E; [|exact A]. apply coord_eqb_spec in E. subst y.
    destruct H as [H|H]; [|contradiction]. exfalso. apply H, in_or_app. right. left. reflexivity.
  - apply IH. destruct H as [H|H]; [left|right; exact H]. intros I. apply H, in_or_app. left. exact I.
Qed.
Lemma back_reroute prev v w lw : back (put v w prev) w lw -> forall x l, back prev x l -> exists l', back (put v w prev) x l'.
Proof.
  intros W. induction 1 as [|y u l N A B [l' IH]]; [exists [s]; constructor|].
  destruct (coord_dec v y) as [E|E].
  - subst y. exists (lw ++ [v]). apply back_step with w; [exact N| |exact W]. rewrite assoc_put, coord_eqb_refl. reflexivity.
  - exists (l' ++ [y]). apply back_step with u; [exact N| |exact IH]. rewrite assoc_put.
    destruct (coord_eqb v y) eqn:E'; [apply coord_eqb_spec in E'; contradiction|exact A].
Qed.
Lemma back_dist st u l : core st -> back (ss_prev st) u l -> forall y, In y l -> y <> s ->
  exists dy, assoc y (ss_dist st) = Some dy /\ forall du, cur (ss_dist st) u du -> V dy <= V du.
Proof.
  intros C. induction 1 as [|v u l N A B IH]; intros y I Ny; [destruct I as [<-|[]]; contradiction|].
  destruct (c_prev st C v u A) as (Iu & J & du & e & dv & Cu & S & Av & L). apply in_app_or in I. destruct I as [I|[<-|[]]].
  - destruct (IH y I Ny) as (dy & Ay & K). exists dy. split; [exact Ay|]. intros d Cd.
    assert (d = dv) by (destruct Cd as [[E _]|[_ E]]; congruence). subst d. specialize (K du Cu).
    destruct (joined_dom u v Iu J) as (_ & Gv & _). destruct (U u Iu) as [Gu _]. destruct (steps_stride u v e Gu Gv S) as [Se _].
    destruct (fadd_amount du e (cur_amount st u du C Cu) Se) as (_ & _ & L'). lra.
  - exists dv. split; [exact Av|]. intros d Cd. assert (d = dv) by (destruct Cd as [[E _]|[_ E]]; congruence). subst d. lra.
Qed.

(** the element being expanded *)
Definition topped (st : sstate) (x : helem) : Prop :=
  In (h_node x) dom /\ amount (h_dist x) /\ exists d, cur (ss_dist st) (h_node x) d /\ V d <= V (h_dist x).
Definition settled (st : sstate) (x : helem) (v : coord) : Prop :=
  forall e, steps sg (h_node x) v e -> within s radius v -> v <> s ->
    exists dv, assoc v (ss_dist st) = Some dv /\ V dv <= V (fadd (h_dist x) e).

Lemma relax_ok st x v : core st -> front st (Some x) -> topped st x -> joined sg (h_node x) v ->
  exists st', relax sg s t radius x st v = Ok st' /\ core st' /\ front st' (Some x) /\ better st st' /\ topped st' x /\
    settled st' x v /\ (measure st' <= measure st)%nat.
Proof.
  intros C F (Ix & Ax & dx & Cx & Lx) J. destruct (joined_dom _ _ Ix J) as (Iv & Gv & _). destruct (U _ Ix) as [Gx (ns & N & H)].
  destruct J as (ns' & N' & J). rewrite N in N'. inversion N'; subst ns'. destruct (H v J) as (_ & f & Cf).
  unfold relax. rewrite Cf. cbn [bind]. destruct (distance_ok f v (h_node x) Gv Gx) as (e & Ee & Me). rewrite Ee. cbn [bind].
  destruct (U s Is) as [Gs _]. destruct (heuristic_ok s v Gs Gv) as (dd & Ed & _). rewrite Ed. cbn [bind].
  assert (Se : steps sg (h_node x) v e) by (exists f; auto).
  assert (Ue : forall e', steps sg (h_node x) v e' -> e' = e) by (intros e' (f' & Cf' & E'); rewrite Cf in Cf'; inversion Cf'; subst f'; congruence).
  pose proof (measures_stride _ _ Me) as Te. destruct (fadd_amount (h_dist x) e Ax Te) as (An & _ & Ln). set (nd := fadd (h_dist x) e) in *.
  assert (Skip : settled st x v -> exists st', Ok st = Ok st' /\ core st' /\ front st' (Some x) /\ better st st' /\ topped st' x /\
    settled st' x v /\ (measure st' <= measure st)%nat).
  { intros S. exists st. split; [reflexivity|]. split; [exact C|]. split; [exact F|]. split; [apply better_refl|].
    split; [split; [exact Ix|split; [exact Ax|exists dx; auto]]|]. split; [exact S|lia]. }
  destruct (fltb radius dd) eqn:R; cbn [orb].
  { apply Skip. intros e' _ (d & Hd & W). rewrite Ed in Hd. inversion Hd; subst. congruence. }
  assert (Old : match assoc v (ss_dist st) with Some d => fleb d nd | None => false end = true \/
    (match assoc v (ss_dist st) with Some d => fleb d nd | None => false end = false /\ forall d, assoc v (ss_dist st) = Some d -> V nd < V d)).
  { destruct (assoc v (ss_dist st)) as [d|] eqn:A; [|right; split; [reflexivity|intros d Hd; discriminate Hd]].
    destruct (c_dist st C v d A) as ([Fd _] & _). destruct An as [Fn _]. pose proof (fleb_iff d nd Fd Fn) as K.
    destruct (fleb d nd); [left; reflexivity|right]. split; [reflexivity|]. intros d' Hd. inversion Hd; subst d'.
    apply Rnot_le_lt. intros L. apply K in L. discriminate L. }
  destruct Old as [Old|[Old New]]; rewrite Old.
  { apply Skip. intros e' S' _ _. rewrite (Ue e' S'). fold nd. destruct (assoc v (ss_dist st)) as [d|] eqn:A; [|discriminate Old].
    exists d. split; [reflexivity|]. destruct (c_dist st C v d A) as ([Fd _] & _). apply (fleb_iff d nd Fd (proj1 An)) in Old. exact Old. }
  destruct (heuristic_ok v t Gv Gt) as (hd & Eh & _). rewrite Eh. cbn [bind]. clear Skip Old.
  set (st' := mkSS _ _ _).
  assert (Dist' : ss_dist st' = put v nd (ss_dist st)) by reflexivity.
  assert (Prev' : ss_prev st' = put v (h_node x) (ss_prev st)) by reflexivity.
  assert (Heap' : ss_heap st' = ss_heap st ++ [mkH v nd hd]) by reflexivity. clearbody st'. assert (B : better st st').
  { split; [|intros y I; rewrite Heap'; apply in_or_app; left; exact I]. intros w d A. rewrite ?Dist', ?Prev', ?Heap'. rewrite assoc_put. destruct (coord_eqb v w) eqn:E.
    - apply coord_eqb_spec in E. subst w. exists nd. split; [reflexivity|]. apply Rlt_le, New, A.
    - exists d. split; [exact A|lra]. }
  assert (Wv : within s radius v) by (exists dd; auto).
  (* the source of the edge is not the vertex being updated *)
  assert (Self : h_node x <> v \/ h_node x = s).
  { destruct (coord_dec (h_node x) s) as [E|E]; [right; exact E|left]. intros E'. destruct Cx as [[K _]|[_ A]]; [contradiction|].
    rewrite E' in A. specialize (New dx A). lra. }
  assert (Cx' : cur (ss_dist st') (h_node x) dx).
  { destruct Cx as [K|[K A]]; [left; exact K|right]. split; [exact K|]. rewrite ?Dist', ?Prev', ?Heap'. rewrite assoc_put. destruct (coord_eqb v (h_node x)) eqn:E; [|exact A].
    apply coord_eqb_spec in E. destruct Self as [Self|Self]; congruence. }
  assert (Bx : exists lx, back (ss_prev st') (h_node x) lx).
  { destruct (coord_dec (h_node x) s) as [E|E]; [exists [s]; rewrite E; constructor|].
    assert (Ax' : assoc (h_node x) (ss_dist st) = Some dx) by (destruct Cx as [[K _]|[_ K]]; [contradiction|exact K]).
    destruct (c_dist st C _ _ Ax') as (_ & _ & _ & u & Pu). destruct (c_root st C _ _ Pu) as [l Bl]. exists l.
    rewrite ?Dist', ?Prev', ?Heap'. apply back_mono; [exact Bl|]. destruct (coord_dec v s) as [Ev|Ev]; [right; exact Ev|left]. intros I.
    destruct (back_dist st _ _ C Bl v I Ev) as (dy & Ay & K). specialize (K dx Cx). specialize (New dy Ay). lra. }
  destruct Bx as [lx Bx]. rewrite Prev' in Bx.
  exists st'. split; [reflexivity|]. split; [|split; [|split; [exact B|split; [|split]]]].
  - constructor.
    + rewrite ?Dist', ?Prev', ?Heap'. apply put_NoDup, (c_keys st C).
    + intros w d A. rewrite Dist', assoc_put in A. rewrite Prev'. destruct (coord_eqb v w) eqn:E.
      * apply coord_eqb_spec in E. subst w. inversion A; subst d. split; [exact An|]. split; [exact Iv|]. split; [exact Wv|].
        exists (h_node x). rewrite assoc_put, coord_eqb_refl. reflexivity.
      * destruct (c_dist st C w d A) as (K1 & K2 & K3 & u & K4). split; [exact K1|]. split; [exact K2|]. split; [exact K3|].
        exists u. rewrite assoc_put, E. exact K4.
    + intros w u A. rewrite ?Dist', ?Prev', ?Heap' in A. rewrite assoc_put in A. destruct (coord_eqb v w) eqn:E.
      * apply coord_eqb_spec in E. subst w. inversion A; subst u. split; [exact Ix|]. split; [exists ns; auto|].
        exists dx, e, nd. split; [exact Cx'|]. split; [exact Se|]. split; [rewrite ?Dist', ?Prev', ?Heap'; rewrite assoc_put, coord_eqb_refl; reflexivity|].
        apply fadd_mono; [exact (cur_amount st _ _ C Cx)|exact Ax|exact Te|exact Lx].
      * destruct (c_prev st C w u A) as (Iu & Ju & du & e' & dw & Cu & Su & Aw & L). split; [exact Iu|]. split; [exact Ju|].
        destruct (cur_better st st' u du B Cu) as (du' & Cu' & L').
        exists du', e', dw. split; [exact Cu'|]. split; [exact Su|]. split; [rewrite ?Dist', ?Prev', ?Heap'; rewrite assoc_put, E; exact Aw|].
        eapply Rle_trans; [|exact L]. destruct (joined_dom u w Iu Ju) as (_ & Gw & _). destruct (U u Iu) as [Gu _].
        destruct (steps_stride u w e' Gu Gw Su) as [Te' _].
        apply fadd_mono; [|exact (cur_amount st u du C Cu)|exact Te'|exact L'].
        destruct Cu' as [[_ ->]|[Nu Au']]; [apply zero_amount|]. rewrite ?Dist', ?Prev', ?Heap' in Au'. rewrite assoc_put in Au'.
        destruct (coord_eqb v u); [inversion Au'; subst; exact An|destruct (c_dist st C u du' Au'); assumption].
    + intros y I. rewrite ?Dist', ?Prev', ?Heap' in I. apply in_app_or in I. destruct I as [I|[<-|[]]].
      * destruct (c_heap st C y I) as (Iy & Ay & Hy & d & Cd & Ld). split; [exact Iy|]. split; [exact Ay|]. split; [exact Hy|].
        destruct (cur_better st st' _ d B Cd) as (d' & Cd' & L'). exists d'. split; [exact Cd'|lra].
      * cbn [h_node h_dist h_heur]. split; [exact Iv|]. split; [exact An|]. split; [exact Eh|].
        destruct (coord_dec v s) as [E|E]; [exists f_0; split; [left; auto|rewrite (proj2 zero_amount); apply An]|].
        exists nd. split; [right; split; [exact E|]|lra]. rewrite ?Dist', ?Prev', ?Heap'. rewrite assoc_put, coord_eqb_refl. reflexivity.
    + intros w u A. rewrite ?Dist', ?Prev', ?Heap' in A |- *. rewrite assoc_put in A. destruct (coord_eqb v w) eqn:E.
      * apply coord_eqb_spec in E. subst w. destruct (coord_dec v s) as [E|E]; [exists [s]; rewrite E; constructor|].
        exists (lx ++ [v]). apply back_step with (h_node x); [exact E|rewrite assoc_put, coord_eqb_refl; reflexivity|exact Bx].
      * destruct (c_root st C w u A) as [l Bl]. exact (back_reroute _ _ _ _ Bx w l Bl).
  - intros u du Cu. destruct (coord_dec u v) as [E|E].
    + destruct (coord_dec v s) as [Es|Es].
      * assert (Cu0 : cur (ss_dist st) u du) by (destruct Cu as [K|[K _]]; [left; exact K|congruence]).
        destruct (F u du Cu0) as [(y & Iy & Ny & Ly)|[K|K]]; [left; exists y; split; [apply B; exact Iy|auto]|right; left; exact (finished_better st st' u du B K)|right; right; exact K].
      * left. exists (mkH v nd hd). split; [rewrite ?Dist', ?Prev', ?Heap'; apply in_or_app; right; left; reflexivity|]. split; [symmetry; exact E|].
        destruct Cu as [[K _]|[_ K]]; [congruence|]. rewrite ?Dist', ?Prev', ?Heap' in K. rewrite assoc_put, E, coord_eqb_refl in K. inversion K. reflexivity.
    + assert (Cu0 : cur (ss_dist st) u du).
      { destruct Cu as [K|[K A]]; [left; exact K|right]. split; [exact K|]. rewrite ?Dist', ?Prev', ?Heap' in A. rewrite assoc_put in A.
        destruct (coord_eqb v u) eqn:E'; [apply coord_eqb_spec in E'; congruence|exact A]. }
      destruct (F u du Cu0) as [(y & Iy & Ny & Ly)|[K|K]]; [left; exists y; split; [apply B; exact Iy|auto]|right; left; exact (finished_better st st' u du B K)|right; right; exact K].
  - split; [exact Ix|]. split; [exact Ax|]. exists dx. auto.
  - intros e' S' _ _. rewrite (Ue e' S'). exists nd. split; [rewrite ?Dist', ?Prev', ?Heap'; rewrite assoc_put, coord_eqb_refl; reflexivity|apply Rle_refl].
  - assert (T : (total (ss_dist st') < total (ss_dist st))%nat).
    { assert (K : (rk (ss_dist st') v < rk (ss_dist st) v)%nat).
      { unfold rk. rewrite ?Dist', ?Prev', ?Heap'. rewrite assoc_put, coord_eqb_refl. destruct (assoc v (ss_dist st)) as [d|] eqn:A; [|apply rank_top, An].
        apply rank_lt; [apply (c_dist st C v d A)|apply An|apply An|exact (New d eq_refl)]. }
      apply total_lt with v; [exact Iv|exact K|]. intros w _. destruct (coord_dec v w) as [<-|E]; [lia|].
      unfold rk. rewrite ?Dist', ?Prev', ?Heap'. rewrite assoc_put. destruct (coord_eqb v w) eqn:E'; [apply coord_eqb_spec in E'; contradiction|lia]. }
    unfold measure. rewrite Heap', app_length. cbn [length]. clear - T. lia.
Qed.

Lemma settled_better st st' x v : better st st' -> settled st x v -> settled st' x v.
Proof.
  intros [B _] S e Se W N. destruct (S e Se W N) as (dv & A & L). destruct (B v dv A) as (d' & A' & L'). exists d'. split; [exact A'|lra].
Qed.
Lemma relax_all x ns : forall st, core st -> front st (Some x) -> topped st x -> (forall v, In v ns -> joined sg (h_node x) v) ->
  exists st', foldM (relax sg s t radius x) ns st = Ok st' /\ core st' /\ front st' (Some x) /\ better st st' /\
    (forall v, In v ns -> settled st' x v) /\ (measure st' <= measure st)%nat.
Proof.
  induction ns as [|v ns IH]; intros st C F T J.
  - exists st. split; [reflexivity|]. split; [exact C|]. split; [exact F|]. split; [apply better_refl|]. split; [intros v []|lia].
  - destruct (relax_ok st x v C F T (J v (or_introl eq_refl))) as (st1 & E1 & C1 & F1 & B1 & T1 & S1 & M1).
    destruct (IH st1 C1 F1 T1 (fun w I => J w (or_intror I))) as (st2 & E2 & C2 & F2 & B2 & S2 & M2).
    exists st2. cbn [foldM]. rewrite E1. cbn [bind]. split; [exact E2|]. split; [exact C2|]. split; [exact F2|].
    split; [exact (better_trans _ _ _ B1 B2)|]. split; [|lia]. intros w [<-|I]; [exact (settled_better _ _ _ _ B2 S1)|auto].
Qed.

Lemma expand_ok st x : core st -> front st (Some x) -> topped st x -> h_node x <> t ->
  exists st', expand sg s t radius x st = Ok st' /\ core st' /\ front st' None /\ (measure st' <= measure st)%nat.
Proof.
  intros C F T N. destruct T as (Ix & Ax & T). destruct (U _ Ix) as (Gx & ns & En & H).
  destruct (relax_all x ns st C F (conj Ix (conj Ax T))) as (st' & E & C' & F' & B & S & M).
  { intros v I. exists ns. auto. }
  exists st'. unfold expand. rewrite En. cbn [bind]. split; [exact E|]. split; [exact C'|]. split; [|exact M].
  intros u du Cu. destruct (F' u du Cu) as [K|[K|[-> L]]]; [left; exact K|right; left; exact K|right; left].
  split; [exact N|]. intros v e J Se W Ns. destruct J as (ns' & En' & I). rewrite En in En'. inversion En'; subst ns'.
  destruct (S v I e Se W Ns) as (dv & A & Lv). exists dv. split; [exact A|].
  destruct (H v I) as (Iv & _). destruct (U v Iv) as [Gv _]. destruct (steps_stride _ _ _ Gx Gv Se) as [Te _].
  destruct (fadd_amount du e (cur_amount st' _ _ C' Cu) Te) as (_ & -> & _). destruct (fadd_amount _ e Ax Te) as (_ & E1 & _).
  rewrite E1 in Lv. rewrite L. exact Lv.
Qed.

(** the state in which the destination reached the top of the queue *)
Definition stopped (pick : nat -> list helem -> nat) (st : sstate) (k : nat) (x : helem) : Prop :=
  core st /\ front st None /\ (exists x0, In x0 (ss_heap st) /\ x = nth (pick k (ss_heap st) mod length (ss_heap st)) (ss_heap st) x0) /\
  In x (ss_heap st) /\ h_node x = t.

Lemma search_ok pick : forall fuel k st, core st -> front st None ->
  ((measure st < fuel)%nat -> search fuel k pick sg s t radius st <> None) /\
  forall r, search fuel k pick sg s t radius st = Some r -> exists st', r = Ok st' /\
    ((core st' /\ front st' None /\ ss_heap st' = []) \/
     exists st0 k0 x, stopped pick st0 k0 x /\ ss_prev st' = ss_prev st0 /\ ss_dist st' = ss_dist st0).
Proof.
  induction fuel as [|fuel IH]; intros k st C F; [split; [lia|intros r H; discriminate H]|]. cbn [search].
  destruct (ss_heap st) as [|x0 h] eqn:Eh.
  - split; [intros _ H; discriminate H|]. intros r H. inversion H; subst r. exists st. split; [reflexivity|]. left. auto.
  - rewrite <- Eh. set (i := (pick k (ss_heap st) mod length (ss_heap st))%nat).
    assert (Li : (i < length (ss_heap st))%nat) by (apply Nat.mod_upper_bound; rewrite Eh; discriminate).
    set (x := nth i (ss_heap st) x0). assert (Ix : In x (ss_heap st)) by (apply nth_In, Li).
    destruct (coord_eqb (h_node x) t) eqn:Et.
    + apply coord_eqb_spec in Et. split; [intros _ H; discriminate H|]. intros r H. inversion H; subst r. eexists. split; [reflexivity|].
      right. exists st, k, x. split; [|split; reflexivity]. split; [exact C|]. split; [exact F|].
      split; [exists x0; split; [rewrite Eh; left; reflexivity|reflexivity]|]. split; [exact Ix|exact Et].
    + apply coord_eqb_neq in Et. set (st1 := mkSS (remove_nth i (ss_heap st)) (ss_prev st) (ss_dist st)).
      assert (C1 : core st1).
      { destruct C as [c1 c2 c3 c4 c5]. constructor; [exact c1|exact c2|exact c3| |exact c5]. intros y Iy. apply c4. exact (remove_nth_incl _ _ _ Iy). }
      assert (F1 : front st1 (Some x)).
      { intros u du Cu. destruct (F u du Cu) as [(y & Iy & Ny & Ly)|[K|[]]]; [|right; left; exact K].
        destruct (remove_nth_in i (ss_heap st) x0 y Li Iy) as [E|I]; [|left; exists y; auto].
        right. right. fold x in E. subst y. split; [symmetry; exact Ny|symmetry; exact Ly]. }
      assert (T1 : topped st1 x) by (destruct (c_heap st C x Ix) as (X1 & X2 & _ & X3); exact (conj X1 (conj X2 X3))).
      destruct (expand_ok st1 x C1 F1 T1 Et) as (st2 & E2 & C2 & F2 & M2). rewrite E2.
      assert (M1 : (S (measure st1) = measure st)%nat) by (unfold measure, st1; cbn [ss_heap ss_dist]; pose proof (remove_nth_length i (ss_heap st) Li); lia).
      destruct (IH (S k) st2 C2 F2) as [A B]. split; [intros L; apply A; lia|exact B].
Qed.

(** ** Reconstruction *)
Lemma back_unique prev u l : back prev u l -> forall l', back prev u l' -> l = l'.
Proof.
  induction 1 as [|v u l N A B IH]; intros l' B'; inversion B'; subst; try congruence.
  f_equal. apply IH. replace u with u0 by congruence. assumption.
Qed.
Lemma back_prefix prev u l : back prev u l -> forall y, In y l -> exists l', back prev y l' /\ (length l' <= length l)%nat.
Proof.
  induction 1 as [|v u l N A B IH]; intros y I.
  - destruct I as [<-|[]]. exists [s]. split; [constructor|reflexivity].
  - apply in_app_or in I. destruct I as [I|[<-|[]]].
    + destruct (IH y I) as (l' & B' & L). exists l'. split; [exact B'|]. rewrite app_length. lia.
    + exists (l ++ [v]). split; [exact (back_step prev v u l N A B)|reflexivity].
Qed.
Lemma back_nodup prev u l : back prev u l -> NoDup l.
Proof.
  induction 1 as [|v u l N A B IH]; [repeat constructor; intros []|].
  apply NoDup_rev in IH. rewrite <- (rev_involutive l) in *. rewrite rev_involutive in IH. apply (Permutation_NoDup (l := v :: rev (rev l))).
  - apply Permutation_cons_append.
  - rewrite rev_involutive in *. constructor; [|apply NoDup_rev in IH; rewrite rev_involutive in IH; exact IH].
    intros I. destruct (back_prefix prev u l B v I) as (l' & B' & L).
    pose proof (back_unique prev v _ (back_step prev v u l N A B) l' B') as E. subst l'. rewrite app_length in L. cbn [length] in L. lia.
Qed.
Lemma back_head prev u l : back prev u l -> exists l', l = s :: l' /\ forall y, In y l' -> In y (map fst prev).
Proof.
  induction 1 as [|v u l N A B (l' & -> & IH)]; [exists []; split; [reflexivity|intros y []]|].
  exists (l' ++ [v]). split; [reflexivity|]. intros y I. apply in_app_or in I. destruct I as [I|[<-|[]]]; [auto|].
  destruct (in_dec coord_dec v (map fst prev)) as [K|K]; [exact K|]. apply assoc_none in K. congruence.
Qed.
Lemma walk_back_ok prev u l : back prev u l -> forall fuel acc, (length l <= fuel)%nat -> walk_back fuel prev s u acc = Some (Ok (l ++ acc)).
Proof.
  induction 1 as [|v u l N A B IH]; intros fuel acc L; (destruct fuel as [|fuel]; [try (rewrite app_length in L); cbn [length] in L; lia|]); cbn [walk_back].
  - rewrite coord_eqb_refl. reflexivity.
  - rewrite (proj2 (coord_eqb_neq v s) N), A. rewrite IH by (rewrite app_length in L; cbn [length] in L; lia). rewrite <- app_assoc. reflexivity.
Qed.
Lemma walk_back_enough prev u l acc : back prev u l -> NoDup (map fst prev) ->
  walk_back (S (length prev)) prev s u acc = Some (Ok (l ++ acc)).
Proof.
  intros B N. apply walk_back_ok; [exact B|]. destruct (back_head _ _ _ B) as (l' & -> & H). cbn [length]. apply le_n_S.
  rewrite <- (map_length fst prev). apply NoDup_incl_length; [|exact H]. pose proof (back_nodup _ _ _ B) as K. inversion K; assumption.
Qed.
Lemma walk_back_none prev u fuel acc : u <> s -> assoc u prev = None -> walk_back (S fuel) prev s u acc = Some (Throw NoPath).
Proof. intros N A. cbn [walk_back]. rewrite (proj2 (coord_eqb_neq u s) N), A. reflexivity. Qed.
End Loop.
