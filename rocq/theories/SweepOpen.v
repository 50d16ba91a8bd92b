(** The open edges of a sweep when no two segments in play are reverses of each other:
    entries are exactly the segments added and not removed, less those that met an entry at
    the same distance. *)
From Coq Require Import ZArith Bool List Lia Sorted.
From Verif Require Import Base F64 Coordinate Segment SpecGeom SegmentFacts Sweep.
Import ListNotations.
Local Open Scope Z_scope.

Section Open.
Variable ok : segment -> Prop.
Hypothesis Same : forall s t, ok s -> ok t -> segment_eqb s t = true -> s = t.

Definition key_lt (x y : Z * segment) : Prop := fst x < fst y.
(** keys increase, and every entry's distance is on record *)
Record tidy (oe : open_edges) : Prop := mkTidy {
  t_sorted : StronglySorted key_lt (oe_sorted oe);
  t_ok : forall d s, In (d, s) (oe_sorted oe) -> ok s;
  t_rec_ok : forall s d, In (s, d) (oe_dist oe) -> ok s;
  t_dist : forall d s, In (d, s) (oe_sorted oe) -> get_distance s (oe_dist oe) = Some d
}.

Lemma tidy_none : tidy no_edges.
Proof. split; cbn [no_edges oe_sorted oe_dist In]; [constructor|tauto..]. Qed.

Lemma key_refl s : seg_key s s = true.
Proof. unfold seg_key. rewrite Z.eqb_refl. cbn [andb]. apply segment_eqb_iff. left. reflexivity. Qed.
Lemma key_same s t : ok s -> ok t -> seg_key s t = true -> s = t.
Proof. unfold seg_key. intros A B H. apply andb_true_iff in H. apply Same; tauto. Qed.

Lemma get_set s d l t : ok s -> ok t -> (forall u e, In (u, e) l -> ok u) -> 
  get_distance t (set_distance s d l) = if seg_key t s then Some d else get_distance t l.
Proof.
  intros Os Ot. induction l as [|[u e] l IH]; intros R; cbn [set_distance get_distance]; [reflexivity|].
  assert (Ou : ok u) by (eapply R; left; reflexivity).
  assert (R' : forall u e, In (u, e) l -> ok u) by (intros u' e' H; eapply R; right; exact H). specialize (IH R').
  destruct (seg_key s u) eqn:K; cbn [get_distance].
  - apply key_same in K; [|assumption..]. subst u. destruct (seg_key t s); reflexivity.
  - destruct (seg_key t u) eqn:K2.
    + apply key_same in K2; [|assumption..]. subst u. destruct (seg_key t s) eqn:K3; [|reflexivity].
      apply key_same in K3; [|assumption..]. subst t. rewrite key_refl in K. discriminate K.
    + exact IH.
Qed.
Lemma set_ok s d l : ok s -> (forall u e, In (u, e) l -> ok u) -> forall u e, In (u, e) (set_distance s d l) -> ok u.
Proof.
  intros Os. induction l as [|[u e] l IH]; intros R u' e'; cbn [set_distance].
  - intros [H|[]]. injection H as <- _. exact Os.
  - destruct (seg_key s u); cbn [In].
    + intros [H|H]; [injection H as <- _; eapply R; left; reflexivity|eapply R; right; exact H].
    + intros [H|H]; [injection H as <- _; eapply R; left; reflexivity|]. eapply IH; [|exact H]. intros a b Hab. eapply R. right. exact Hab.
Qed.
Lemma get_erase s l t : ok s -> ok t -> t <> s -> (forall u e, In (u, e) l -> ok u) -> get_distance t (erase_distance s l) = get_distance t l.
Proof.
  intros Os Ot N. induction l as [|[u e] l IH]; intros R; cbn [erase_distance get_distance]; [reflexivity|].
  assert (Ou : ok u) by (eapply R; left; reflexivity).
  destruct (seg_key s u) eqn:K; cbn [get_distance].
  - apply key_same in K; [|assumption..]. subst u. destruct (seg_key t s) eqn:K2; [|reflexivity].
    apply key_same in K2; [|assumption..]. contradiction.
  - destruct (seg_key t u); [reflexivity|]. apply IH. intros a b H. eapply R. right. exact H.
Qed.
Lemma erase_ok s l : (forall u e, In (u, e) l -> ok u) -> forall u e, In (u, e) (erase_distance s l) -> ok u.
Proof.
  induction l as [|[u e] l IH]; intros R u' e'; cbn [erase_distance]; [intros []|].
  destruct (seg_key s u); [intros H; eapply R; right; exact H|]. intros [H|H]; [injection H as <- _; eapply R; left; reflexivity|].
  eapply IH; [|exact H]. intros a b Hab. eapply R. right. exact Hab.
Qed.

Lemma emplace_spec d s l : StronglySorted key_lt l ->
  StronglySorted key_lt (emplace d s l) /\
  forall x, In x (emplace d s l) <-> In x l \/ (x = (d, s) /\ forall y, In y l -> fst y <> d).
Proof.
  intros S. induction S as [|[d' s'] l S IH F]; cbn [emplace].
  - split; [repeat constructor|]. intros x. cbn [In]. intuition.
  - rewrite Forall_forall in F. destruct (Z.ltb_spec d d') as [L|L].
    + split.
      * constructor; [constructor; [exact S|rewrite Forall_forall; exact F]|]. constructor; [exact L|]. rewrite Forall_forall. intros y Y.
        specialize (F y Y). unfold key_lt in *. cbn [fst] in *. lia.
      * intros x. cbn [In]. split; [|intros [[H|H]|[H _]]; auto]. intros [H|H]; [|auto]. right. split; [auto|].
        intros y [<-|Y]; cbn [fst]; [lia|]. specialize (F y Y). unfold key_lt in F. cbn [fst] in F. lia.
    + destruct (Z.eqb_spec d d') as [E|E].
      * split; [constructor; [exact S|rewrite Forall_forall; exact F]|]. intros x. split; [auto|]. intros [H|[_ H]]; [exact H|].
        exfalso. apply (H (d', s')); [left; reflexivity|]. cbn [fst]. auto.
      * destruct IH as [I1 I2]. split.
        -- constructor; [exact I1|]. rewrite Forall_forall. intros y Y. apply I2 in Y. destruct Y as [Y|[-> _]]; [auto|]. unfold key_lt. cbn [fst]. lia.
        -- intros x. cbn [In]. rewrite I2. split.
           ++ intros [H|[H|[H1 H2]]]; auto. right. split; [exact H1|]. intros y [<-|Y]; cbn [fst]; [lia|auto].
           ++ intros [[H|H]|[H1 H2]]; [auto|auto|]. right. right. split; [exact H1|]. intros y Y. apply H2. right. exact Y.
Qed.

Lemma tidy_add oe d s : tidy oe -> ok s -> (forall e, In (e, s) (oe_sorted oe) -> e = d) ->
  tidy (oe_add oe d s) /\
  forall x, In x (oe_sorted (oe_add oe d s)) <-> In x (oe_sorted oe) \/ (x = (d, s) /\ forall y, In y (oe_sorted oe) -> fst y <> d).
Proof.
  intros [S O R D] Os U. destruct (emplace_spec d s (oe_sorted oe) S) as [E1 E2]. cbn [oe_add oe_sorted oe_dist]. split; [|exact E2].
  assert (O' : forall e t, In (e, t) (emplace d s (oe_sorted oe)) -> ok t).
  { intros e t H. apply E2 in H. destruct H as [H|[H _]]; [eapply O; exact H|]. injection H as _ ->. exact Os. }
  split; cbn [oe_sorted oe_dist]; [exact E1|exact O'|apply set_ok; [exact Os|exact R]|].
  intros e t H. pose proof (O' e t H) as Ot. cbn [oe_add oe_sorted oe_dist] in *. rewrite (get_set s d (oe_dist oe) t Os Ot R). apply E2 in H.
  destruct (seg_key t s) eqn:K.
  - apply key_same in K; [|assumption..]. subst t. destruct H as [H|[H _]]; [rewrite (U e H); reflexivity|]. injection H as -> . reflexivity.
  - destruct H as [H|[H _]]; [apply D; exact H|]. injection H as -> ->. rewrite key_refl in K. discriminate K.
Qed.

Lemma erase_sorted_spec d s l : StronglySorted key_lt l -> ok s -> (forall e t, In (e, t) l -> ok t) -> (forall e, In (e, s) l -> e = d) ->
  StronglySorted key_lt (erase_sorted d s l) /\ forall x, In x (erase_sorted d s l) <-> In x l /\ snd x <> s.
Proof.
  intros S Os. induction S as [|[d' s'] l S IH F]; intros O U; cbn [erase_sorted].
  - split; [constructor|]. intros x. cbn [In]. tauto.
  - assert (O' : forall e t, In (e, t) l -> ok t) by (intros e t H; eapply O; right; exact H).
    assert (U' : forall e, In (e, s) l -> e = d) by (intros e H; apply U; right; exact H).
    specialize (IH O' U'). destruct IH as [I1 I2]. rewrite Forall_forall in F.
    destruct ((d' =? d) && segment_eqb s' s) eqn:B.
    + apply andb_true_iff in B. destruct B as [B1 B2]. apply Z.eqb_eq in B1. subst d'. apply Same in B2; [|eapply O; left; reflexivity|exact Os]. subst s'.
      split; [exact S|]. intros [e t]. cbn [In snd]. split.
      * intros H. split; [right; exact H|]. intros ->. specialize (F _ H). unfold key_lt in F. cbn [fst] in F. rewrite (U' e H) in F. lia.
      * intros [[H|H] N]; [|exact H]. injection H as _ <-. congruence.
    + split.
      * constructor; [exact I1|]. rewrite Forall_forall. intros y Y. apply F, I2, Y.
      * intros x. cbn [In]. rewrite I2. split.
        -- intros [H|[H N]]; [|auto]. split; [auto|]. subst x. cbn [snd]. intros ->. specialize (U d' (or_introl eq_refl)). subst d'.
           rewrite Z.eqb_refl in B. cbn [andb] in B. apply not_true_iff_false in B. apply B, segment_eqb_iff. left. reflexivity.
        -- intros [[H|H] N]; auto.
Qed.

Lemma tidy_remove oe s : tidy oe -> ok s ->
  tidy (oe_remove oe s) /\ forall x, In x (oe_sorted (oe_remove oe s)) <-> In x (oe_sorted oe) /\ snd x <> s.
Proof.
  intros T Os. pose proof T as [S O R D]. unfold oe_remove. destruct (get_distance s (oe_dist oe)) as [d|] eqn:G.
  - destruct (erase_sorted_spec d s (oe_sorted oe) S Os O) as [E1 E2].
    { intros e H. apply D in H. congruence. }
    cbn [oe_sorted]. split; [|exact E2]. split; cbn [oe_sorted oe_dist]; [exact E1| |apply erase_ok; exact R|].
    + intros e t H. apply E2 in H. eapply O, (proj1 H).
    + intros e t H. apply E2 in H. destruct H as [H N]. cbn [snd] in N. rewrite get_erase; [apply D, H|exact Os|eapply O, H|exact N|exact R].
  - split; [exact T|]. intros [e t]. split; [|tauto]. intros H. split; [exact H|]. cbn [snd]. intros ->. apply D in H. congruence.
Qed.
Lemma tidy_erase ss : forall oe, tidy oe -> Forall ok ss ->
  tidy (erase_segments ss oe) /\ forall x, In x (oe_sorted (erase_segments ss oe)) <-> In x (oe_sorted oe) /\ ~ In (snd x) ss.
Proof.
  induction ss as [|s ss IH]; intros oe T F; [split; [exact T|]; intros x; cbn [In]; tauto|].
  inversion F; subst. destruct (tidy_remove oe s T H1) as [T1 E1]. destruct (IH (oe_remove oe s) T1 H2) as [T2 E2].
  split; [exact T2|]. intros x. unfold erase_segments in *. cbn [fold_left]. rewrite E2, E1. cbn [In]. intuition.
Qed.

(** the head has the least key *)
Lemma tidy_head oe e : tidy oe -> closest_edge oe = Ok e ->
  exists d, In (d, e) (oe_sorted oe) /\ forall d' e', In (d', e') (oe_sorted oe) -> d <= d'.
Proof.
  intros [S _ _ _] C. unfold closest_edge in C. destruct (oe_sorted oe) as [|[d s] l]; [discriminate C|]. injection C as <-.
  exists d. split; [left; reflexivity|]. intros d' e' [H|H]; [injection H as <- _; lia|].
  inversion S as [|? ? ? F]; subst. rewrite Forall_forall in F. specialize (F _ H). unfold key_lt in F. cbn [fst] in F. lia.
Qed.
End Open.
