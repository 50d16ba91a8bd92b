(** More edges and a larger radius. *)
From Coq Require Import ZArith Reals Bool List Lia Lra Psatz Permutation.
From Flocq Require Import Core.
From Flocq Require Import BinarySingleNaN.
From Verif Require Import Base F64 Coordinate Segment Polygon SpecGeom SpecGraph F64Facts CoordinateFacts Periodicity PeriodicityFacts
  Graph GraphFacts GraphMore Overlay OverlayFacts Visgraph Sweep
  ShortestPath DistFacts SearchFacts SearchSpec SearchGraph SearchQuery PathFacts PathMore.
Import ListNotations.
Local Open Scope R_scope.

(** [g'] has the vertices of [g] and at least its edges *)
Definition extends (g g' : graph) : Prop := (forall c, has_vertex g' c = has_vertex g c) /\
  forall u v f, has_edge g u v = Ok true -> is_edge_meridian_crossing g u v = Ok f ->
    has_edge g' u v = Ok true /\ is_edge_meridian_crossing g' u v = Ok f.

(** [radius'] allows what [radius] allows *)
Definition farther (radius radius' : f64) : Prop := forall d, is_finite d = true -> fltb radius d = false -> fltb radius' d = false.
Lemma farther_finite r r' : is_finite r = true -> is_finite r' = true -> V r <= V r' -> farther r r'.
Proof.
  intros F F' L d Fd H. destruct (fltb r' d) eqn:B; [|reflexivity]. apply (fltb_iff _ _ F' Fd) in B.
  assert (T : fltb r d = true) by (apply (fltb_iff _ _ F Fd); lra). congruence.
Qed.

Lemma extends_refl g : extends g g.
Proof. split; auto. Qed.
Lemma extends_answer g g' u v f : extends g g' -> answer g u v = Some f -> answer g' u v = Some f.
Proof.
  intros [_ E] A. unfold answer in *. destruct (has_edge g u v) as [[|]|e|k] eqn:H; try discriminate A.
  destruct (is_edge_meridian_crossing g u v) as [c|e|k] eqn:C; try discriminate A. injection A as ->.
  destruct (E u v f H C) as [-> ->]. reflexivity.
Qed.
Lemma extends_road g g' vis lc u v f : extends g g' -> road g vis lc u v f -> road g' vis lc u v f.
Proof.
  intros E [A|[F A]]; [left; exact (extends_answer g g' u v f E A)|right; split; [exact F|]].
  unfold endpoint_edge in *. rewrite !(proj1 E). exact A.
Qed.

Section Monotone.
Variables (en en' : env) (g g' : graph) (source destination : coord) (radius radius' : f64) (flag : bool).
Hypotheses (Fit : fit_for_queries en g) (Fit' : fit_for_queries en' g') (Ms : in_the_map source) (Md : in_the_map destination)
  (Ei : en_index en = en_index en') (Ev : en_vis en = en_vis en') (Ex : extends g g') (Fr : farther radius radius').

Lemma within_mono s l : ngeo s -> Forall (within s radius) l -> Forall ngeo l -> Forall (within s radius') l.
Proof.
  intros Gs F G. rewrite Forall_forall in *. intros v I. destruct (F v I) as (d & E & L). exists d. split; [exact E|].
  destruct (heuristic_ok s v Gs (G v I)) as (d' & E' & Fd & _). rewrite E in E'. injection E' as <-. apply Fr; assumption.
Qed.

Lemma more_roads fuel fuel' path r' :
  shortest_path fuel en g source destination radius flag = Some (Ok path) ->
  shortest_path fuel' en' g' source destination radius' flag = Some r' ->
  exists path' lc, r' = Ok path' /\ correction_of en source destination lc /\
    ((~ searched en lc /\ path' = path) \/
     exists l r l' r', path = lc_source lc :: l /\ journey (road g (en_vis en) lc) (lc_source lc) l (lc_dest lc) r /\
       path' = lc_source lc :: l' /\ journey (road g' (en_vis en) lc) (lc_source lc) l' (lc_dest lc) r' /\
       forall w, minimal w (en_pick en') -> is_finite w = true -> Rabs (V w) <= bpow radix2 900 ->
         r' * ((1 - u5) * (1 - uu) ^ length l') <= Rmax 1 (V w) * r * ((1 + u5) * (1 + uu) ^ (length l + 2))).
Proof.
  intros E E'.
  destruct (query_cases en g source destination radius flag Fit Ms Md) as (ns & nd & En & Ed & Gs & Gd & K).
  destruct (query_cases en' g' source destination radius' flag Fit' Ms Md) as (ns' & nd' & En' & Ed' & _ & _ & K').
  rewrite En in En'. rewrite Ed in Ed'. inversion En'; inversion Ed'; subst ns' nd'. clear En' Ed'. rewrite <- Ei in K'.
  destruct (handle_land_collisions (en_index en) ns nd flag) as [lc|e1|u] eqn:Hl; [|destruct K as (_ & _ & _ & Q); rewrite Q in E; discriminate E|destruct K].
  assert (Fl : flag = true \/ (ix_contains (en_index en) ns = false /\ ix_contains (en_index en) nd = false)).
  { unfold handle_land_collisions in Hl. destruct flag; [left; reflexivity|right]. cbn [negb andb] in Hl.
    destruct (ix_contains (en_index en) ns); [discriminate Hl|]. destruct (ix_contains (en_index en) nd); [discriminate Hl|]. auto. }
  destruct K as [Co K]. destruct K' as [Co' K'].
  destruct K as [[Oc Q]|(Oc & _)].
  - destruct K' as [[_ Q']|(Oc' & _)]; [|elim (Oc' Oc)]. rewrite Q in E. rewrite Q' in E'. injection E as <-. injection E' as <-.
    exists [lc_source lc; lc_dest lc], lc. split; [reflexivity|]. split; [exact Co|]. left. split; [intros S; exact (proj1 (searched_other _ _) S Oc)|reflexivity].
  - assert (Se : searched en lc) by exact (proj2 (searched_other en lc) Oc). assert (Se' : searched en' lc) by (apply searched_other; rewrite <- Ei; exact Oc).
    destruct (query_success en g source destination radius flag Fit Ms Md fuel lc path E Co Se) as (l & r & Ep & J & W).
    assert (G : Forall ngeo l /\ ngeo (lc_source lc)).
    { destruct (search_graph_ok en g source destination lc Fit Ms Md Co) as (Gs' & _ & sg & dom & _ & U & Is & R). split; [|exact Gs'].
      destruct (journey_linked sg _ R _ _ _ _ J) as [L _]. clear - U Is L. revert Is L. generalize (lc_source lc) as u.
      induction l as [|v l IH]; intros u Is L; constructor; destruct L as [Jn L];
        destruct (joined_dom sg dom U u v Is Jn) as (Iv & _); [apply (U v Iv)|exact (IH v Iv L)]. }
    assert (J' : journey (road g' (en_vis en') lc) (lc_source lc) l (lc_dest lc) r).
    { apply (journey_ext (road g (en_vis en) lc)); [|exact J]. intros a b f R. rewrite <- Ev. exact (extends_road g g' _ lc a b f Ex R). }
    pose proof (within_mono _ l (proj2 G) W (proj1 G)) as W'.
    destruct (query_failure en' g' source destination radius' flag Fit' Ms Md fuel' lc _ E' Co' Se') as [(path' & ->)|(-> & N)].
    { destruct Fl as [Fl|[A C]]; [left; exact Fl|right; exists ns, nd; rewrite <- Ei; auto]. }
    + destruct (query_success en' g' source destination radius' flag Fit' Ms Md fuel' lc path' E' Co' Se') as (l' & r' & Ep' & J2 & _).
      exists path', lc. split; [reflexivity|]. split; [exact Co|]. right. exists l, r, l', r'. split; [exact Ep|]. split; [exact J|].
      split; [exact Ep'|]. split; [rewrite Ev; exact J2|]. intros w Mw Fw Bw.
      destruct (query_optimal en' g' source destination radius' flag Fit' Ms Md fuel' path' lc w E' Co' Se' Mw Fw Bw) as (l2 & r2 & Ep2 & J3 & O).
      rewrite Ep2 in Ep'. injection Ep' as ->.
      assert (r2 = r') as ->.
      { destruct (search_graph_ok en' g' source destination lc Fit' Ms Md Co') as (_ & _ & sg & dom & _ & U & Is & R).
        destruct (journey_linked sg _ R _ _ _ _ J3) as [_ ->]. destruct (journey_linked sg _ R _ _ _ _ J2) as [_ ->]. reflexivity. }
      apply O; assumption.
    + elim N. exists l, r. split; assumption.
Qed.
End Monotone.
