(** The open-edge structure under histories of additions and removals. *)
From Coq Require Import ZArith Bool List Lia Sorted.
From Verif Require Import Base F64 Coordinate Segment SpecGeom SegmentFacts GraphFacts Sweep.
Import ListNotations.
Local Open Scope Z_scope.

Inductive edge_op := OAdd (d : Z) (s : segment) | ORem (s : segment).
Definition ostep (o : open_edges) (op : edge_op) : open_edges :=
  match op with OAdd d s => oe_add o d s | ORem s => oe_remove o s end.
Definition orun (h : list edge_op) : open_edges := fold_left ostep h no_edges.

(** ** What ought to be open after a history: newest first *)
Definition same_edge (a b : segment) : Prop := b = a \/ b = flip a.
Definition other_edge (s : segment) (x : Z * segment) : bool := negb (segment_eqb s (snd x)).
Fixpoint open_after (h : list edge_op) (l : list (Z * segment)) : list (Z * segment) :=
  match h with
  | [] => l
  | OAdd d s :: h' => open_after h' ((d, s) :: l)
  | ORem s :: h' => open_after h' (filter (other_edge s) l)
  end.
(** no two edges open at once have the same distance or are the same edge, and an edge is
    removed in the direction in which it was added *)
Fixpoint tidy (h : list edge_op) (l : list (Z * segment)) : Prop :=
  match h with
  | [] => True
  | OAdd d s :: h' => (forall d' s', In (d', s') l -> d' <> d /\ ~ same_edge s s') /\ tidy h' ((d, s) :: l)
  | ORem s :: h' => (forall d' s', In (d', s') l -> same_edge s s' -> s' = s) /\ tidy h' (filter (other_edge s) l)
  end.

Lemma eqb_same a b : segment_eqb a b = true <-> same_edge a b.
Proof. apply segment_eqb_iff. Qed.
Lemma flip_flip s : flip (flip s) = s. Proof. destruct s. reflexivity. Qed.
Lemma same_sym a b : same_edge a b -> same_edge b a.
Proof. unfold same_edge. intros [-> | ->]; [auto|]. rewrite flip_flip. auto. Qed.
Lemma same_trans a b c : same_edge a b -> same_edge b c -> same_edge a c.
Proof. unfold same_edge. intros [-> | ->] [-> | ->]; rewrite ?flip_flip; auto. Qed.
Lemma key_same a b : seg_key a b = true -> same_edge a b.
Proof. unfold seg_key. intros H. apply andb_prop in H. apply eqb_same, H. Qed.
Lemma key_refl a : seg_key a a = true.
Proof. unfold seg_key. rewrite Z.eqb_refl. apply eqb_same. left. reflexivity. Qed.

Definition apart (l : list (Z * segment)) : Prop :=
  NoDup l /\ forall x y, In x l -> In y l -> fst x = fst y \/ same_edge (snd x) (snd y) -> x = y.
Definition key_lt (x y : Z * segment) : Prop := fst x < fst y.
Definition tracks (o : open_edges) (l : list (Z * segment)) : Prop :=
  apart l /\ StronglySorted key_lt (oe_sorted o) /\ (forall x, In x (oe_sorted o) <-> In x l) /\
  NoDup (oe_dist o) /\ (forall s d, In (s, d) (oe_dist o) <-> In (d, s) l).

Lemma emplace_sorted d s l : StronglySorted key_lt l -> StronglySorted key_lt (emplace d s l).
Proof.
  induction 1 as [|[d' s'] l S IH F]; cbn [emplace]; [repeat constructor|].
  destruct (Z.ltb_spec d d'); [|destruct (Z.eqb_spec d d')].
  - constructor; [constructor; assumption|]. constructor; [exact H|]. eapply Forall_impl; [|exact F]. unfold key_lt. cbn [fst]. intros [? ?]; cbn [fst]; lia.
  - constructor; assumption.
  - constructor; [exact IH|]. apply Forall_forall. intros x X.
    assert (X' : x = (d, s) \/ In x l).
    { clear - X. induction l as [|[d1 s1] l IH]; cbn [emplace] in X; [destruct X as [<-|[]]; auto|].
      destruct (d <? d1); [destruct X as [<-|X]; auto|]. destruct (d =? d1); [auto|].
      destruct X as [<-|X]; [right; left; reflexivity|]. destruct (IH X); auto. right; right; assumption. }
    rewrite Forall_forall in F. destruct X' as [->|X']; [unfold key_lt; cbn [fst]; lia|auto].
Qed.
Lemma emplace_fresh d s l : (forall x, In x l -> fst x <> d) -> forall x, In x (emplace d s l) <-> x = (d, s) \/ In x l.
Proof.
  induction l as [|[d' s'] l IH]; intros F x; cbn [emplace In]; [intuition|].
  destruct (d <? d'); [cbn [In]; intuition|]. destruct (Z.eqb_spec d d') as [E|_].
  - exfalso. apply (F (d', s')); [left; reflexivity|symmetry; exact E].
  - cbn [In]. rewrite IH by (intros y Y; apply F; right; exact Y). intuition.
Qed.
Lemma set_fresh s d l : (forall x, In x l -> seg_key s (fst x) = false) -> set_distance s d l = l ++ [(s, d)].
Proof.
  induction l as [|[s' d'] l IH]; intros F; [reflexivity|]. cbn [set_distance].
  pose proof (F (s', d') (or_introl eq_refl)) as K. cbn [fst] in K. rewrite K.
  cbn [app]. f_equal. apply IH. intros x X. apply F. right. exact X.
Qed.
Lemma get_dist_some s d l : (forall x y, In x l -> In y l -> same_edge (fst x) (fst y) -> x = y) -> In (s, d) l ->
  get_distance s l = Some d.
Proof.
  induction l as [|[s' d'] l IH]; intros U I; [destruct I|]. cbn [get_distance]. destruct (seg_key s s') eqn:K.
  - apply key_same in K. assert (E : (s, d) = (s', d')) by (apply U; [exact I|left; reflexivity|exact K]). congruence.
  - destruct I as [I|I]; [inversion I; subst; rewrite key_refl in K; discriminate K|]. apply IH; [|exact I].
    intros x y X Y. apply U; right; assumption.
Qed.
Lemma get_dist_none s l : (forall x, In x l -> seg_key s (fst x) = false) -> get_distance s l = None.
Proof.
  induction l as [|[s' d'] l IH]; intros F; [reflexivity|]. cbn [get_distance].
  pose proof (F (s', d') (or_introl eq_refl)) as K. cbn [fst] in K. rewrite K. apply IH. intros x X. apply F. right. exact X.
Qed.
Lemma erase_dist_in s d l : NoDup l -> (forall x y, In x l -> In y l -> same_edge (fst x) (fst y) -> x = y) -> In (s, d) l ->
  NoDup (erase_distance s l) /\ forall x, In x (erase_distance s l) <-> In x l /\ x <> (s, d).
Proof.
  induction l as [|[s' d'] l IH]; intros N U I; [destruct I|]. inversion N as [|? ? Nx Nl]; subst. cbn [erase_distance].
  destruct (seg_key s s') eqn:K.
  - apply key_same in K. assert (E : (s, d) = (s', d')) by (apply U; [exact I|left; reflexivity|exact K]).
    split; [exact Nl|]. intros x. cbn [In]. rewrite <- E in *. split; [intros X; split; [auto|congruence]|intros [[X|X] Y]; congruence].
  - destruct I as [I|I]; [inversion I; subst; rewrite key_refl in K; discriminate K|].
    destruct (IH Nl (fun x y X Y => U x y (or_intror X) (or_intror Y)) I) as [N' H]. split.
    + constructor; [rewrite H; tauto|exact N'].
    + intros x. cbn [In]. rewrite H. split; [intros [<-|[X Y]]; [split; [auto|]|auto]|intros [[X|X] Y]; auto].
      intros E. inversion E; subst. rewrite key_refl in K. discriminate K.
Qed.
Lemma erase_sorted_in d s l : StronglySorted key_lt l -> In (d, s) l ->
  StronglySorted key_lt (erase_sorted d s l) /\ forall x, In x (erase_sorted d s l) <-> In x l /\ x <> (d, s).
Proof.
  induction 1 as [|[d' s'] l S IH F]; intros I; [destruct I|]. cbn [erase_sorted]. rewrite Forall_forall in F.
  destruct ((d' =? d) && segment_eqb s' s) eqn:K.
  - apply andb_prop in K. destruct K as [K1 K2]. apply Z.eqb_eq in K1. subst d'.
    assert (E : (d, s') = (d, s)). { destruct I as [I|I]; [exact I|]. apply F in I. unfold key_lt in I. cbn [fst] in I. lia. }
    split; [exact S|]. intros x. cbn [In]. rewrite <- E in *. split; [intros X; split; [auto|]|intros [[X|X] Y]; congruence].
    intros ->. apply F in X. unfold key_lt in X. lia.
  - assert (I' : In (d, s) l). { destruct I as [I|I]; [|exact I]. inversion I; subst. rewrite Z.eqb_refl in K. cbn [andb] in K.
      rewrite (proj2 (eqb_same s s)) in K by (left; reflexivity). discriminate K. }
    destruct (IH I') as [S' H]. split.
    + constructor; [exact S'|]. apply Forall_forall. intros x X. apply H in X. apply F, X.
    + intros x. cbn [In]. rewrite H. split; [intros [<-|[X Y]]; [split; [auto|]|auto]|intros [[X|X] Y]; auto].
      intros E. inversion E; subst. rewrite Z.eqb_refl in K. cbn [andb] in K. rewrite (proj2 (eqb_same s s)) in K by (left; reflexivity). discriminate K.
Qed.

Lemma apart_filter f l : apart l -> apart (filter f l).
Proof.
  intros [N U]. split; [apply NoDup_filter, N|]. intros x y X Y. apply filter_In in X. apply filter_In in Y. apply U; tauto.
Qed.
Lemma tracks_dist o l : tracks o l -> forall x y, In x (oe_dist o) -> In y (oe_dist o) -> same_edge (fst x) (fst y) -> x = y.
Proof.
  intros ((_ & U) & _ & _ & _ & D) [s d] [s' d'] X Y E. apply D in X. apply D in Y.
  assert (Q : (d, s) = (d', s')) by (apply U; auto). congruence.
Qed.

Lemma tracks_add o l d s : tracks o l -> (forall d' s', In (d', s') l -> d' <> d /\ ~ same_edge s s') ->
  tracks (oe_add o d s) ((d, s) :: l).
Proof.
  intros T F. pose proof T as ((N & U) & S & I & Nd & D).
  assert (Fk : forall x, In x (oe_dist o) -> seg_key s (fst x) = false).
  { intros [s' d'] X. apply D in X. destruct (seg_key s (fst (s', d'))) eqn:K; [|reflexivity]. apply key_same in K. destruct (F _ _ X). contradiction. }
  split; [|split; [|split; [|split]]]; cbn [oe_add oe_sorted oe_dist].
  - split.
    + constructor; [|exact N]. intros X. destruct (F _ _ X). congruence.
    + intros x y [X|X] [Y|Y] E; [congruence| | |apply U; auto].
      * subst x. destruct y as [d' s']. destruct (F d' s' Y) as [A B]. cbn [fst snd] in E. destruct E; [congruence|contradiction].
      * subst y. destruct x as [d' s']. destruct (F d' s' X) as [A B]. cbn [fst snd] in E. destruct E as [E|E]; [congruence|]. apply same_sym in E. contradiction.
  - apply emplace_sorted, S.
  - intros x. rewrite emplace_fresh; [cbn [In]; rewrite I; intuition|].
    intros [d' s'] X. apply I in X. apply (F d' s' X).
  - rewrite set_fresh by exact Fk. apply NoDup_rev in Nd. apply NoDup_rev in Nd.
    rewrite <- (rev_involutive (oe_dist o ++ [(s, d)])). apply NoDup_rev. rewrite rev_app_distr. cbn [rev app].
    constructor; [|apply NoDup_rev; rewrite rev_involutive in Nd; exact Nd].
    intros X. apply in_rev in X. apply Fk in X. cbn [fst] in X. rewrite key_refl in X. discriminate X.
  - intros s' d'. rewrite set_fresh by exact Fk. rewrite in_app_iff. cbn [In]. rewrite D. split; intros [X|X]; auto.
    + destruct X as [X|[]]. left. congruence.
    + right. left. congruence.
Qed.

Lemma tracks_remove o l s : tracks o l -> (forall d' s', In (d', s') l -> same_edge s s' -> s' = s) ->
  tracks (oe_remove o s) (filter (other_edge s) l).
Proof.
  intros T F. pose proof (tracks_dist o l T) as Ud. pose proof T as ((N & U) & S & I & Nd & D).
  assert (Ow : forall x, other_edge s x = true <-> ~ same_edge s (snd x)).
  { intros x. unfold other_edge. rewrite negb_true_iff, <- not_true_iff_false, eqb_same. tauto. }
  assert (Dec : (exists d, In (d, s) l) \/ (forall x, In x l -> ~ same_edge s (snd x))).
  { clear - F. induction l as [|[d' s'] l IH]; [right; intros ? []|]. destruct (segment_eqb s s') eqn:E.
    - apply eqb_same in E. left. exists d'. left. f_equal. apply (F d' s'); [left; reflexivity|exact E].
    - destruct IH as [(d & X)|H]; [intros; eapply F; [right; eassumption|assumption]|left; exists d; right; exact X|].
      right. intros x [<-|X]; [|auto]. intros Y. apply eqb_same in Y. cbn [snd] in Y. congruence. }
  unfold oe_remove. destruct Dec as [(d & X)|H].
  - pose proof (proj2 (D s d) X) as Xd. rewrite (get_dist_some s d (oe_dist o) Ud Xd).
    destruct (erase_dist_in s d (oe_dist o) Nd Ud Xd) as [N1 H1].
    destruct (erase_sorted_in d s (oe_sorted o) S (proj2 (I _) X)) as [S1 H2].
    assert (Q : forall x, In x l -> (other_edge s x = true <-> x <> (d, s))).
    { intros x Hx. rewrite Ow. split.
      - intros A ->. apply A. left. reflexivity.
      - intros A B. apply A. apply U; [exact Hx|exact X|]. right. apply same_sym, B. }
    split; [apply apart_filter; split; assumption|]. split; [exact S1|]. cbn [oe_sorted oe_dist].
    split; [|split; [exact N1|]].
    + intros x. rewrite H2, filter_In, I. split; intros [A B]; (split; [exact A|]); apply (Q x A); exact B.
    + intros s' d'. rewrite H1, filter_In, D. split; intros [A B]; (split; [exact A|]).
      * apply (Q _ A). congruence.
      * apply (Q _ A) in B. congruence.
  - rewrite get_dist_none.
    + assert (E : filter (other_edge s) l = l).
      { clear - H Ow. induction l as [|x l IH]; [reflexivity|]. cbn [filter]. rewrite (proj2 (Ow x)) by (apply H; left; reflexivity).
        f_equal. apply IH. intros y Y. apply H. right. exact Y. }
      rewrite E. exact T.
    + intros [s' d'] X. apply D in X. apply H in X. cbn [snd fst] in *. destruct (seg_key s s') eqn:K; [|reflexivity]. apply key_same in K. contradiction.
Qed.

Lemma run_tracks h : forall o l, tracks o l -> tidy h l -> tracks (fold_left ostep h o) (open_after h l).
Proof.
  induction h as [|[d s|s] h IH]; intros o l T H; cbn [fold_left open_after tidy ostep] in *; [exact T| |]; destruct H as [H1 H2]; apply IH; try exact H2.
  - apply tracks_add; assumption.
  - apply tracks_remove; assumption.
Qed.

Theorem tidy_history h : tidy h [] ->
  (oe_empty (orun h) = true <-> open_after h [] = []) /\
  (open_after h [] <> [] -> exists d s, In (d, s) (open_after h []) /\ closest_edge (orun h) = Ok s /\
     forall d' s', In (d', s') (open_after h []) -> d <= d').
Proof.
  intros T. assert (K : tracks (orun h) (open_after h [])).
  { apply run_tracks; [|exact T]. split; [split; [constructor|intros ? ? []]|]. cbn [no_edges oe_sorted oe_dist].
    split; [constructor|]. split; [tauto|]. split; [constructor|]. intros; cbn [In]; tauto. }
  destruct K as (_ & S & I & _). unfold oe_empty, closest_edge. destruct (oe_sorted (orun h)) as [|[d s] l] eqn:E.
  - assert (Z : open_after h [] = []). { destruct (open_after h []) as [|x q]; [reflexivity|]. destruct (proj2 (I x) (or_introl eq_refl)). }
    rewrite Z. split; [tauto|congruence].
  - split; [split; [discriminate|]; intros Z; pose proof (proj1 (I (d, s)) (or_introl eq_refl)) as X; rewrite Z in X; destruct X|].
    intros _. exists d, s. split; [apply I; left; reflexivity|]. split; [reflexivity|]. intros d' s' X. apply I in X.
    destruct X as [X|X]; [inversion X; lia|]. inversion S; subst. rewrite Forall_forall in H2. apply H2 in X. unfold key_lt in X. cbn [fst] in X. lia.
Qed.
