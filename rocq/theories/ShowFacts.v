(** Printed forms identify what they print. *)
From Coq Require Import ZArith Bool List String Ascii Lia Permutation.
From Flocq Require Import Core BinarySingleNaN.
From Verif Require Import Base F64 F64Facts Coordinate CoordinateFacts SpecGeom SpecGraph Polygon Graph GraphFacts GraphMore Visgraph Sweep Show.
Import ListNotations.
Local Open Scope string_scope.

(** the characters of a decimal number *)
Definition number_char (c : ascii) : bool :=
  match c with "0" | "1" | "2" | "3" | "4" | "5" | "6" | "7" | "8" | "9" | "." | "-" | "+" | "e" => true | _ => false end%char.
Fixpoint number_text (s : string) : bool :=
  match s with EmptyString => true | String c s' => number_char c && number_text s' end.
(** what is known of the oracle: it writes numbers, and no two doubles alike *)
Definition writes_numbers (fmt : f64 -> string) : Prop :=
  (forall x, is_finite x = true -> number_text (fmt x) = true) /\
  forall x y, is_finite x = true -> is_finite y = true -> fmt x = fmt y -> x = y.

(** ** Strings *)
Lemma append_assoc a b c : (a ++ b) ++ c = a ++ b ++ c.
Proof. induction a as [|x a IH]; [reflexivity|]. cbn [append]. rewrite IH. reflexivity. Qed.
Lemma append_nil a : a ++ "" = a.
Proof. induction a as [|x a IH]; [reflexivity|]. cbn [append]. rewrite IH. reflexivity. Qed.
Lemma append_cancel s p q : s ++ p = s ++ q -> p = q.
Proof. induction s as [|c s IH]; intros H; [exact H|]. inversion H. auto. Qed.
Lemma number_split s t c d x y : number_text s = true -> number_text t = true -> number_char c = false -> number_char d = false ->
  s ++ String c x = t ++ String d y -> s = t /\ c = d /\ x = y.
Proof.
  revert t. induction s as [|a s IH]; intros [|b t] S T C D E; cbn [append number_text] in *.
  - inversion E. auto.
  - inversion E; subst. rewrite C in T. discriminate T.
  - inversion E; subst. rewrite D in S. discriminate S.
  - apply andb_true_iff in S. apply andb_true_iff in T. destruct S as [_ S]. destruct T as [_ T]. inversion E; subst.
    destruct (IH t S T C D H1) as (-> & -> & ->). auto.
Qed.

Section Show.
Variable fmt : f64 -> string.
Hypothesis Rt : writes_numbers fmt.

Lemma degrees_finite z : (INT32_MIN <= z <= INT32_MAX)%Z -> is_finite (microdegrees_to_degrees z) = true.
Proof. intros H. apply deg_val, i32_i31, H. Qed.
Lemma degrees_inj x y : (INT32_MIN <= x <= INT32_MAX)%Z -> (INT32_MIN <= y <= INT32_MAX)%Z -> fmt (microdegrees_to_degrees x) = fmt (microdegrees_to_degrees y) -> x = y.
Proof.
  intros X Y E. apply (proj2 Rt) in E; [|apply degrees_finite; assumption..].
  assert (I : forall z, (INT32_MIN <= z <= INT32_MAX)%Z -> coord_i32 (mkC z 0)) by (intros z Z; split; [exact Z|unfold INT32_MIN, INT32_MAX; cbn [lat]; lia]).
  destruct (degrees_strict (mkC x 0) (mkC y 0) (I x X) (I y Y)) as (_ & _ & H). unfold get_longitude, get_latitude in H. cbn [lon lat] in H.
  assert (Fq : forall u, is_finite u = true -> feqb u u = true) by (intros u U; apply feqb_iff; [exact U|exact U|reflexivity]).
  assert (K : mkC x 0 = mkC y 0) by (apply H; rewrite E; split; apply Fq; apply degrees_finite; [exact Y|unfold INT32_MIN, INT32_MAX; lia]).
  inversion K. reflexivity.
Qed.
Lemma degrees_text z : (INT32_MIN <= z <= INT32_MAX)%Z -> number_text (fmt (microdegrees_to_degrees z)) = true.
Proof. intros Z. apply (proj1 Rt), degrees_finite, Z. Qed.

(** two numbers, each with a character after it that is in no number *)
Lemma pair_split sep sep' a b x y u v : coord_i32 a -> coord_i32 b -> number_char sep = false -> number_char sep' = false ->
  fmt (get_longitude a) ++ String sep (u ++ fmt (get_latitude a) ++ String sep' x) = fmt (get_longitude b) ++ String sep (v ++ fmt (get_latitude b) ++ String sep' y) ->
  u = v -> a = b /\ x = y.
Proof.
  intros [A1 A2] [B1 B2] S S' E ->. unfold get_longitude, get_latitude in *.
  destruct (number_split _ _ _ _ _ _ (degrees_text _ A1) (degrees_text _ B1) S S E) as (E1 & _ & E2).
  apply append_cancel in E2.
  destruct (number_split _ _ _ _ _ _ (degrees_text _ A2) (degrees_text _ B2) S' S' E2) as (E3 & _ & E4).
  apply degrees_inj in E1; [|assumption..]. apply degrees_inj in E3; [|assumption..]. split; [destruct a as [a1 a2], b as [b1 b2]; cbn [lon lat] in *; congruence|exact E4].
Qed.

Lemma coord_split a b x y : coord_i32 a -> coord_i32 b -> coord_text fmt a ++ x = coord_text fmt b ++ y -> a = b /\ x = y.
Proof.
  intros A B E. unfold coord_text in E. cbn [append] in E. inversion E as [E1]. clear E.
  repeat (rewrite !append_assoc in E1; cbn [append] in E1). apply (pair_split "," ")" a b x y "" ""); try assumption; reflexivity.
Qed.
Lemma coord_text_inj a b : coord_i32 a -> coord_i32 b -> (coord_text fmt a = coord_text fmt b <-> a = b).
Proof. intros A B. split; [|intros ->; reflexivity]. intros E. apply (f_equal (fun s => s ++ "")) in E. apply (coord_split a b "" "" A B E). Qed.

Lemma vertices_split vs ws : Forall coord_i32 vs -> Forall coord_i32 ws -> vertices_text fmt vs ++ ")" = vertices_text fmt ws ++ ")" -> vs = ws.
Proof.
  revert ws. induction vs as [|v vs IH]; intros [|w ws] A B E.
  - reflexivity.
  - exfalso. cbn [vertices_text append] in E. destruct ws; cbn [vertices_text] in E; unfold coord_text in E; cbn [append] in E; discriminate E.
  - exfalso. cbn [vertices_text append] in E. destruct vs; cbn [vertices_text] in E; unfold coord_text in E; cbn [append] in E; discriminate E.
  - inversion A as [|? ? A1 A2]; subst. inversion B as [|? ? B1 B2]; subst.
    destruct vs as [|v' vs]; destruct ws as [|w' ws]; cbn [vertices_text] in E.
    + apply coord_split in E; [|assumption..]. destruct E as [-> _]. reflexivity.
    + rewrite !append_assoc in E. apply coord_split in E; [|assumption..]. destruct E as [_ E]. discriminate E.
    + rewrite !append_assoc in E. apply coord_split in E; [|assumption..]. destruct E as [_ E]. discriminate E.
    + rewrite !append_assoc in E. apply coord_split in E; [|assumption..]. destruct E as [-> E]. cbn [append] in E. inversion E as [E'].
      f_equal. apply IH; assumption.
Qed.
Lemma polygon_text_inj p q : Forall coord_i32 (verts p) -> Forall coord_i32 (verts q) -> (polygon_text fmt p = polygon_text fmt q <-> p = q).
Proof.
  intros A B. split; [|intros ->; reflexivity]. unfold polygon_text. intros E. cbn [append] in E. inversion E as [E']. clear E.
  destruct p as [vs], q as [ws]. cbn [verts] in *. f_equal. apply vertices_split; assumption.
Qed.
Lemma visible_text_inj v w : coord_i32 (v_coord v) -> coord_i32 (v_coord w) -> (visible_text fmt v = visible_text fmt w <-> v = w).
Proof.
  intros A B. split; [|intros ->; reflexivity]. unfold visible_text. intros E. apply append_cancel in E.
  apply coord_split in E; [|assumption..]. rename E into E'. destruct E' as [Ec E]. apply append_cancel in E.
  destruct v as [vc va], w as [wc wa]. cbn [v_coord v_across] in *. subst. f_equal. destruct va, wa; try reflexivity; discriminate E.
Qed.

Definition row_i32 (r : coord * list (coord * bool)) : Prop := coord_i32 (fst r) /\ Forall (fun n => coord_i32 (fst n)) (snd r).
Lemma row_split row row' x y : Forall (fun n => coord_i32 (fst n)) row -> Forall (fun n => coord_i32 (fst n)) row' ->
  row_text fmt row ++ "]" ++ x = row_text fmt row' ++ "]" ++ y -> row = row' /\ x = y.
Proof.
  revert row'. induction row as [|[n c] row IH]; intros [|[m d] row'] A B E; cbn [row_text] in E.
  - inversion E. auto.
  - discriminate E.
  - discriminate E.
  - inversion A as [|? ? A1 A2]; subst. inversion B as [|? ? B1 B2]; subst. cbn [fst] in A1, B1.
    cbn [append] in E. inversion E as [E1]. clear E. repeat (rewrite !append_assoc in E1; cbn [append] in E1).
    apply (pair_split "," "," n m _ _ " " " ") in E1; try assumption; try reflexivity. destruct E1 as [-> E1]. inversion E1 as [E2]. clear E1.
    destruct c, d; cbn [bool_text append] in E2; try discriminate E2; inversion E2 as [E3]; destruct (IH row' A2 B2 E3) as [-> ->]; auto.
Qed.
Lemma rows_split rows rows' : Forall row_i32 rows -> Forall row_i32 rows' -> rows_text fmt rows ++ ")" = rows_text fmt rows' ++ ")" -> rows = rows'.
Proof.
  revert rows'. induction rows as [|[v row] rows IH]; intros [|[w row'] rows'] A B E; cbn [rows_text] in E.
  - reflexivity.
  - discriminate E.
  - discriminate E.
  - inversion A as [|? ? [A1 A3] A2]; subst. inversion B as [|? ? [B1 B3] B2]; subst. cbn [fst snd] in *.
    unfold tab in E. cbn [append] in E. inversion E as [E1]. clear E. repeat (rewrite !append_assoc in E1; cbn [append] in E1).
    apply (pair_split "," ")" v w _ _ " " " ") in E1; try assumption; try reflexivity. destruct E1 as [-> E1]. inversion E1 as [E2]. clear E1.
    apply (row_split row row' (String "]" (newline ++ rows_text fmt rows ++ ")")) (String "]" (newline ++ rows_text fmt rows' ++ ")"))) in E2; [|assumption..].
    destruct E2 as [-> E2]. unfold newline in E2. cbn [append] in E2. inversion E2 as [E3]. f_equal. apply IH; assumption.
Qed.

Lemma repr_i32 srt g rows : hash_sort_spec srt -> built g -> Forall coord_i32 (get_vertices g) -> graph_repr srt g = Ok rows -> Forall row_i32 rows.
Proof.
  intros S B V E. rewrite graph_repr_ok in E by assumption. inversion E; subst rows. clear E. rewrite Forall_forall in V.
  apply Forall_forall. intros r R. apply in_map_iff in R. destruct R as (v & <- & Hv).
  assert (Hv' : In v (get_vertices g)) by (eapply Permutation_in; [symmetry; apply S|exact Hv]).
  split; cbn [fst snd]; [apply V, Hv'|]. apply Forall_forall. intros n Hn. apply in_map_iff in Hn. destruct Hn as (u & <- & Hu). cbn [fst].
  assert (Hu' : In u (nb g v)) by (eapply Permutation_in; [symmetry; apply S|exact Hu]).
  destruct (built_neighbors g v B Hv') as (l & El & _ & Hl). unfold nb in Hu'. rewrite El in Hu'. apply Hl in Hu'.
  apply V. destruct B as (ps & h & Un & G). rewrite (built_vertices _ _ _ G). destruct (answer g v u) as [f|] eqn:An; [|congruence].
  destruct (in_dec coord_dec u (polygon_vertices ps)) as [I|I]; [exact I|]. exfalso. rewrite (answer_unknown ps h g v u G) in An; [discriminate An|auto].
Qed.
(** the comparison of the texts is the comparison of the rows *)
Theorem text_comparison srt g h : hash_sort_spec srt -> built g -> built h -> Forall coord_i32 (get_vertices g) -> Forall coord_i32 (get_vertices h) ->
  graph_text_eqb fmt srt g h = graph_eqb srt g h.
Proof.
  intros S B1 B2 V1 V2. unfold graph_text_eqb, graph_text, graph_eqb.
  destruct (graph_repr srt g) as [a| |] eqn:Ea; [|reflexivity..]. destruct (graph_repr srt h) as [b| |] eqn:Eb; [|reflexivity..]. cbn [bind]. f_equal.
  pose proof (repr_i32 srt g a S B1 V1 Ea) as Ia. pose proof (repr_i32 srt h b S B2 V2 Eb) as Ib.
  destruct (list_eq_dec row_eq_dec a b) as [->|N]; [apply String.eqb_refl|]. apply String.eqb_neq. intros E. apply N.
  unfold newline in E. cbn [append] in E. inversion E as [E']. apply rows_split; assumption.
Qed.
End Show.

(** ** Equal graphs have the same vertices and answers, whatever the hashes *)
Theorem equal_same_answers srt g h : hash_sort_spec srt -> built g -> built h -> graph_eqb srt g h = Ok true ->
  Permutation (get_vertices g) (get_vertices h) /\ forall a b, answer g a b = answer h a b.
Proof.
  intros S B1 B2 E. unfold graph_eqb in E. rewrite !graph_repr_ok in E by assumption. cbn [bind] in E.
  destruct (list_eq_dec row_eq_dec _ _) as [Q|]; [|discriminate E]. clear E.
  pose proof (f_equal (map fst) Q) as Qv. rewrite !map_map in Qv. cbn [fst] in Qv. rewrite !map_id in Qv.
  assert (P : Permutation (get_vertices g) (get_vertices h)).
  { transitivity (srt (get_vertices g)); [apply S|]. rewrite Qv. symmetry. apply S. }
  split; [exact P|].
  assert (K : forall g, built g -> forall a b c, answer g a b = Some c -> In a (get_vertices g) /\ In (b, c) (map (fun n => (n, flag_of g a n)) (srt (nb g a)))).
  { clear - S. intros g B a b c An. assert (I : In a (get_vertices g)).
    { destruct B as (ps & h & Un & G). rewrite (built_vertices _ _ _ G). destruct (in_dec coord_dec a (polygon_vertices ps)) as [I|I]; [exact I|].
      exfalso. rewrite (answer_unknown ps h g a b G) in An; [discriminate An|auto]. }
    split; [exact I|]. apply in_map_iff. exists b. split; [unfold flag_of; rewrite An; reflexivity|].
    eapply Permutation_in; [apply S|]. destruct (built_neighbors g a B I) as (l & El & _ & Hl). unfold nb. rewrite El. apply Hl. congruence. }
  assert (R : forall g, built g -> forall a b c, In a (get_vertices g) -> In (b, c) (map (fun n => (n, flag_of g a n)) (srt (nb g a))) -> answer g a b = Some c).
  { clear - S. intros g B a b c I Hn. apply in_map_iff in Hn. destruct Hn as (n & En & Hn). inversion En; subst n c.
    assert (Hb : In b (nb g a)) by (eapply Permutation_in; [symmetry; apply S|exact Hn]).
    destruct (built_neighbors g a B I) as (l & El & _ & Hl). unfold nb in Hb. rewrite El in Hb. apply Hl in Hb. unfold flag_of. destruct (answer g a b); congruence. }
  assert (T : forall a, In a (get_vertices g) -> map (fun n => (n, flag_of g a n)) (srt (nb g a)) = map (fun n => (n, flag_of h a n)) (srt (nb h a))).
  { intros a I. assert (I' : In a (srt (get_vertices g))) by (eapply Permutation_in; [apply S|exact I]). rewrite <- Qv in Q. revert Q I'. generalize (srt (get_vertices g)). clear.
    induction l as [|v l IH]; intros Q I; [destruct I|]. cbn [map] in Q. inversion Q as [[Q1 Q2]]. destruct I as [->|I]; [exact Q1|apply IH; assumption]. }
  intros a b. destruct (answer g a b) as [c|] eqn:A.
  - destruct (K g B1 a b c A) as [I Hn]. rewrite (T a I) in Hn. symmetry. apply R; [exact B2| |exact Hn]. eapply Permutation_in; [exact P|exact I].
  - destruct (answer h a b) as [c|] eqn:A'; [|reflexivity]. destruct (K h B2 a b c A') as [I Hn]. assert (I' : In a (get_vertices g)) by (eapply Permutation_in; [symmetry; exact P|exact I]).
    rewrite <- (T a I') in Hn. rewrite (R g B1 a b c I' Hn) in A. discriminate A.
Qed.
