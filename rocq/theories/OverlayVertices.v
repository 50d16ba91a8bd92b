(** The vertex list of the overlay graph. *)
From Coq Require Import ZArith Bool List Lia Permutation.
From Verif Require Import Base F64 Coordinate Segment Polygon Graph SpecGraph GraphFacts GraphMore Overlay OverlayFacts.
Import ListNotations.

Definition keys_once (m : mgraph) : Prop := NoDup (map fst (m_nb m)).

Lemma once_touch m a : keys_once m -> keys_once (m_touch m a).
Proof. intros K. unfold m_touch. destruct (assoc a (m_nb m)); [exact K|]. unfold keys_once. cbn [m_nb]. apply put_NoDup, K. Qed.
Lemma once_set m a b i : keys_once m -> keys_once (m_set m a b i).
Proof. intros K. unfold m_set, keys_once. cbn [m_nb]. apply put_NoDup, K. Qed.
Lemma once_add m a b f : keys_once m -> keys_once (fst (m_add_directed_edge m a b f)).
Proof.
  intros K. unfold m_add_directed_edge. destruct (coord_eqb a b); [exact K|].
  destruct (m_entry (m_touch m a) a b); [apply once_set, once_touch, K|].
  match goal with |- context [match ?c with Ok _ => _ | Throw _ => _ | UB _ => _ end] => destruct c end; cbn [fst];
    [apply once_set, once_touch, K|apply once_touch, K..].
Qed.
Lemma once_step m o : keys_once m -> keys_once (fst (mstep m o)).
Proof.
  intros K. destruct o as [[a b f|a b f|a b|a b]|v]; cbn [mstep].
  - unfold m_add_edge, mthen. pose proof (once_add m a b f K) as K1. destruct (m_add_directed_edge m a b f) as [m1 [u|e|u]]; cbn [fst snd] in *; auto. apply once_add, K1.
  - apply once_add, K.
  - unfold m_remove_edge, mthen, m_remove_directed_edge. cbn [fst snd]. apply once_set, once_touch, once_set, once_touch, K.
  - unfold m_remove_directed_edge. cbn [fst]. apply once_set, once_touch, K.
  - unfold m_add_vertex. cbn [fst]. destruct (m_has_vertex m v); [exact K|]. unfold keys_once. cbn [m_nb]. apply put_NoDup, K.
Qed.
Lemma once_run g h : keys_once (mrun (make_mgraph g) h).
Proof.
  assert (K : forall h m, keys_once m -> keys_once (fold_left (fun m o => fst (mstep m o)) h m)).
  { clear h. induction h as [|o h IH]; intros m K; [exact K|]. apply IH, once_step, K. }
  apply K. constructor.
Qed.

Lemma NoDup_app_iff {A} (l l' : list A) : NoDup (l ++ l') <-> NoDup l /\ NoDup l' /\ (forall x, In x l -> ~ In x l').
Proof.
  induction l as [|x l IH]; cbn [app]; [split; [intros N; repeat split; [constructor|exact N|intros x []]|tauto]|].
  split.
  - intros N. inversion N; subst. apply IH in H2. destruct H2 as (A1 & A2 & A3). split; [constructor; [intros X; apply H1, in_or_app; auto|exact A1]|].
    split; [exact A2|]. intros y [<-|Y]; [intros X; apply H1, in_or_app; auto|apply A3, Y].
  - intros (A1 & A2 & A3). inversion A1; subst. constructor.
    + intros X. apply in_app_or in X. destruct X as [X|X]; [tauto|]. exact (A3 x (or_introl eq_refl) X).
    + apply IH. split; [assumption|]. split; [exact A2|]. intros y Y. apply A3. right. exact Y.
Qed.

Lemma overlay_vertices ps hb g h order : grun (make_graph ps) hb = Ok g ->
  let m := mrun (make_mgraph g) h in Permutation order (m_nb m) ->
  (forall v, In v (m_get_vertices m order) <-> m_has_vertex m v = true) /\
  (NoDup (m_get_vertices m order) <->
     NoDup (polygon_vertices ps) /\ forall v, In v (polygon_vertices ps) -> ~ In v (map fst (m_nb m))).
Proof.
  intros G m O. assert (B : m_base m = g) by (apply (after_run g h)).
  assert (V : get_vertices (m_base m) = polygon_vertices ps) by (rewrite B; apply (built_vertices ps hb), G).
  assert (P : Permutation (map fst order) (map fst (m_nb m))) by (apply Permutation_map, O).
  assert (PI : forall v, In v (map fst order) <-> In v (map fst (m_nb m))) by (intros v; split; apply Permutation_in; [exact P|symmetry; exact P]).
  unfold m_get_vertices. rewrite V. split.
  - intros v. rewrite in_app_iff, PI. unfold m_has_vertex. rewrite B, orb_true_iff, (hv ps hb g G).
    pose proof (assoc_none v (m_nb m)) as N. destruct (assoc v (m_nb m)).
    + assert (In v (map fst (m_nb m))). { destruct (in_dec coord_dec v (map fst (m_nb m))) as [I|I]; [exact I|]. apply N in I. discriminate I. } tauto.
    + assert (~ In v (map fst (m_nb m))) by (apply N; reflexivity). intuition discriminate.
  - rewrite NoDup_app_iff. split.
    + intros (A1 & _ & A3). split; [exact A1|]. intros v I X. apply (A3 v I). apply PI, X.
    + intros (A1 & A3). split; [exact A1|]. split; [eapply Permutation_NoDup; [symmetry; exact P|apply once_run]|].
      intros v I X. apply (A3 v I). apply PI, X.
Qed.

Lemma known_in m v : m_known m v = true <-> In v (map fst (m_nb m)).
Proof.
  unfold m_known. pose proof (assoc_none v (m_nb m)) as N. destruct (assoc v (m_nb m)).
  - split; [intros _|auto]. destruct (in_dec coord_dec v (map fst (m_nb m))) as [I|I]; [exact I|]. apply N in I. discriminate I.
  - split; [discriminate|]. intros I. exfalso. apply (proj1 N); auto.
Qed.
