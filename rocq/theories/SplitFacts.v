(** Splits with arbitrary numbers and seeds. *)
From Coq Require Import ZArith Bool List Lia Permutation.
From Verif Require Import Base F64 Coordinate Segment Polygon Graph SpecGraph GraphFacts GraphMore LoadFacts
  Serializer SpecFile SerializerMore Visgraph VisgraphFacts RoundFacts.
Import ListNotations.
Local Open Scope Z_scope.

(** One call of [generate_for_vertex_range]: split number, number of splits, and what the seed makes
    of the vertices. *)
Record job := mkJ { j_cur : Z; j_num : Z; j_shuffled : list coord }.
Definition first_of (n : Z) (j : job) : Z := j_cur j * (n / j_num j).
Definition last_of (n : Z) (j : job) : Z := if Z_lt_dec (j_cur j) (j_num j - 1) then (j_cur j + 1) * (n / j_num j) else n.
Definition job_range (n : Z) (j : job) (i : nat) : Prop := first_of n j <= Z.of_nat i < last_of n j.
(** some job scans from [v] *)
Definition scans (n : Z) (js : list job) (v : coord) : Prop :=
  exists j i, In j js /\ job_range n j i /\ nth_error (j_shuffled j) i = Some v.

Definition run_job (vis : vis_oracle) (ps : list polygon) (j : job) : res graph :=
  generate_for_vertex_range vis ps (j_cur j) (j_num j) (j_shuffled j).

Section Jobs.
Variables (ps : list polygon) (vis : vis_oracle).
Hypothesis NE : ps <> [].
Hypothesis R : reports ps vis.
Let n : Z := Z.of_nat (length (polygon_vertices ps)).

Lemma bounds j : split_start n (j_cur j) (j_num j) = first_of n j /\ split_end n (j_cur j) (j_num j) = last_of n j.
Proof.
  unfold split_start, split_end, first_of, last_of. split; [lia|].
  destruct (Z.ltb_spec (j_cur j) (j_num j - 1)), (Z_lt_dec (j_cur j) (j_num j - 1)); lia.
Qed.

Let part (j : job) : list coord :=
  firstn (Z.to_nat (last_of n j) - Z.to_nat (first_of n j)) (skipn (Z.to_nat (first_of n j)) (j_shuffled j)).

Lemma nth_error_firstn {A} (l : list A) k i : nth_error (firstn k l) i = if (i <? k)%nat then nth_error l i else None.
Proof.
  revert k i. induction l as [|x l IH]; intros [|k] [|i]; cbn [firstn nth_error]; try reflexivity.
  - destruct (_ <? _)%nat; reflexivity.
  - rewrite IH. reflexivity.
Qed.
Lemma nth_error_skipn {A} (l : list A) k i : nth_error (skipn k l) i = nth_error l (k + i).
Proof. revert l. induction k as [|k IH]; intros [|x l]; cbn [skipn Nat.add nth_error]; try reflexivity; [destruct i; reflexivity|apply IH]. Qed.

Lemma part_in j v : 0 <= first_of n j -> (In v (part j) <-> exists i, job_range n j i /\ nth_error (j_shuffled j) i = Some v).
Proof.
  intros F. unfold part, job_range. split.
  - intros H. apply In_nth_error in H. destruct H as (i & H). rewrite nth_error_firstn in H.
    destruct (Nat.ltb_spec i (Z.to_nat (last_of n j) - Z.to_nat (first_of n j))) as [L|L]; [|discriminate H]. rewrite nth_error_skipn in H.
    exists (Z.to_nat (first_of n j) + i)%nat. split; [lia|exact H].
  - intros (i & L & H). apply nth_error_In with (n := (i - Z.to_nat (first_of n j))%nat). rewrite nth_error_firstn.
    rewrite (proj2 (Nat.ltb_lt _ _)) by lia. rewrite nth_error_skipn. rewrite <- H. f_equal. lia.
Qed.

Lemma run_job_cases j : Permutation (j_shuffled j) (polygon_vertices ps) ->
  (j_num j = 0 /\ run_job vis ps j = Throw PyZeroDivision) \/
  (j_num j <> 0 /\ (first_of n j < 0 \/ last_of n j < 0) /\ run_job vis ps j = Throw PyTypeError) \/
  (j_num j <> 0 /\ 0 <= first_of n j /\ 0 <= last_of n j /\ (n < last_of n j \/ last_of n j < first_of n j) /\ run_job vis ps j = Throw ImproperRange) \/
  (j_num j <> 0 /\ 0 <= first_of n j <= last_of n j /\ last_of n j <= n /\ exists g, run_job vis ps j = Ok g /\ grun (make_graph ps) (calls_of vis (part j)) = Ok g).
Proof.
  intros P. unfold run_job, generate_for_vertex_range. rewrite num_vertices by exact NE. cbn [bind].
  destruct (Z.eqb_spec (j_num j) 0) as [Z0|Z0]; [left; auto|right]. fold n. destruct (bounds j) as [-> ->]. unfold to_size_t.
  destruct (Z.ltb_spec (first_of n j) 0) as [F|F]; cbn [bind]; [left; auto|].
  destruct (Z.ltb_spec (last_of n j) 0) as [L|L]; cbn [bind]; [left; auto|]. right.
  assert (G : forall s e sh, generate_with_shuffled_range vis ps s e sh =
    if (length (polygon_vertices ps) <? e)%nat || (e <? s)%nat then Throw ImproperRange else in_parallel (foldM (connect_vertex vis) (firstn (e - s) (skipn s sh)) (make_graph ps))).
  { intros s e sh. unfold generate_with_shuffled_range. clear - NE. destruct ps; [congruence|reflexivity]. }
  rewrite G. clear G. assert (En : n = Z.of_nat (length (polygon_vertices ps))) by reflexivity.
  destruct (Nat.ltb_spec (length (polygon_vertices ps)) (Z.to_nat (last_of n j))) as [B|B]; cbn [orb].
  { left. split; [exact Z0|]. split; [exact F|]. split; [exact L|]. split; [left; lia|reflexivity]. }
  destruct (Nat.ltb_spec (Z.to_nat (last_of n j)) (Z.to_nat (first_of n j))) as [C|C].
  { left. split; [exact Z0|]. split; [exact F|]. split; [exact L|]. split; [right; lia|reflexivity]. }
  right. split; [exact Z0|]. split; [lia|]. split; [lia|]. fold (part j).
  destruct (connect_list ps vis (part j) R) as (g & E1 & E2 & _); [|exists g; rewrite E1; auto].
  intros v Hv. apply (Permutation_in v P). unfold part in Hv. apply In_nth_error in Hv. destruct Hv as (i & H). rewrite nth_error_firstn in H.
  destruct (_ <? _)%nat; [|discriminate H]. rewrite nth_error_skipn in H. eapply nth_error_In, H.
Qed.

Variables (js : list job) (gs : list graph).
Hypothesis J0 : js <> [].
Hypothesis P : forall j, In j js -> Permutation (j_shuffled j) (polygon_vertices ps).
Hypothesis Run : Forall2 (fun j g => run_job vis ps j = Ok g) js gs.

Lemma ran : Forall2 (fun h g => Forall is_add h /\ grun (make_graph ps) h = Ok g) (map (fun j => calls_of vis (part j)) js) gs /\
  forall j, In j js -> 0 <= first_of n j.
Proof.
  clear J0. induction Run as [|j g js' gs' Rj F IH]; [split; [constructor|intros j []]|].
  destruct IH as [IH1 IH2]; [intros; apply P; right; assumption|exact F|].
  destruct (run_job_cases j (P j (or_introl eq_refl))) as [(_ & E)|[(_ & _ & E)|[(_ & _ & _ & _ & E)|(_ & B & _ & g' & E & G)]]]; rewrite Rj in E; try discriminate E.
  inversion E; subst g'. split; [constructor; [split; [apply calls_adds|exact G]|exact IH1]|]. intros k [<-|K]; [lia|apply IH2, K].
Qed.

Lemma job_event a b f : a <> b ->
  (exists o, In o (concat (map (fun j => calls_of vis (part j)) js)) /\ event_of a b o = Some (Some f)) <->
  ((scans n js a /\ reported vis a b f) \/ (scans n js b /\ reported vis b a f)).
Proof.
  intros N. destruct ran as [_ F].
  assert (S : forall v, scans n js v <-> exists j, In j js /\ In v (part j)).
  { intros v. split.
    - intros (j & i & J & Ri & E). exists j. split; [exact J|]. apply part_in; [apply F, J|]. eauto.
    - intros (j & J & V). apply part_in in V; [|apply F, J]. destruct V as (i & Ri & E). exists j, i. auto. }
  split.
  - intros (o & Ho & E). apply in_concat in Ho. destruct Ho as (h & Hh & Ho). apply in_map_iff in Hh. destruct Hh as (j & <- & J).
    apply in_flat_map in Ho. destruct Ho as (v & Hv & Ho). apply calls_in in Ho. destruct Ho as (xs & x & Ex & Hx & ->). cbn [event_of] in E.
    assert (Sv : scans n js v) by (apply S; eauto).
    destruct (same a b v (v_coord x) || same a b (v_coord x) v) eqn:Sm; [|discriminate]. inversion E; subst f.
    apply orb_prop in Sm. rewrite !same_spec in Sm. destruct Sm as [[-> Hb]|[Ha ->]].
    + left. split; [exact Sv|]. exists xs, x. auto.
    + right. split; [exact Sv|]. exists xs, x. auto.
  - assert (K : forall u w, scans n js u -> reported vis u w f -> exists o, In o (concat (map (fun j => calls_of vis (part j)) js)) /\ o = GAdd u w f).
    { intros u w Su (xs & x & E & Hx & <- & <-). eexists. split; [|reflexivity]. apply S in Su. destruct Su as (j & J & U). apply in_concat.
      exists (calls_of vis (part j)). split; [apply in_map_iff; eauto|]. apply in_flat_map. exists u. split; [exact U|]. apply calls_in. exists xs, x. auto. }
    intros [[Su H]|[Su H]]; [destruct (K a b Su H) as (o & Ho & ->)|destruct (K b a Su H) as (o & Ho & ->)]; eexists; (split; [exact Ho|]); cbn [event_of].
    + replace (same a b a b) with true; [reflexivity|]. symmetry. apply same_spec. auto.
    + replace (same a b a b) with true by (symmetry; apply same_spec; auto). rewrite orb_true_r. reflexivity.
Qed.

(** what merging the results gives *)
Theorem jobs_merged gs2 polys : Permutation gs2 gs -> (forall p, In p polys <-> In p ps) ->
  exists m, merge_graphs polys gs2 = Ok m /\ get_polygons m = polys /\
    forall a b, In a (polygon_vertices ps) -> In b (polygon_vertices ps) -> a <> b ->
      (has_edge m a b = Ok true <-> exists f, (scans n js a /\ reported vis a b f) \/ (scans n js b /\ reported vis b a f)) /\
      (has_edge m a b = Ok true \/ has_edge m a b = Ok false) /\
      (is_edge_meridian_crossing m a b = Ok true <-> has_edge m a b = Ok true /\
         forall f, (scans n js a /\ reported vis a b f) \/ (scans n js b /\ reported vis b a f) -> f = true).
Proof.
  intros Pe Hp. destruct ran as [F _].
  assert (Bt : forall g, In g gs2 -> built g /\ get_polygons g = ps).
  { intros g Hg. apply (Permutation_in g Pe) in Hg. destruct (Forall2_in_r _ _ _ _ F Hg) as (h0 & _ & A0 & G0).
    split; [exists ps, h0; split; [apply adds_undirected, A0|exact G0]|apply (built_polys ps h0 g G0)]. }
  destruct (merge_any_order polys gs2 (flat_map merge_ops gs2)) as (m & M1 & M2 & M3 & M4).
  { apply Forall_forall. intros g Hg. apply Bt, Hg. }
  { intros g0 p Hg Hpp. rewrite (proj2 (Bt g0 Hg)) in Hpp. apply Hp, Hpp. }
  { tauto. }
  exists m. split; [rewrite merge_graphs_ops by (apply Forall_forall; intros g Hg; apply Bt, Hg); rewrite M1; reflexivity|]. split; [exact M3|].
  intros a b A B N. pose proof (polygons_same_vertices ps polys Hp) as V.
  set (h := concat (map (fun j => calls_of vis (part j)) js)).
  assert (Ad : Forall is_add h).
  { apply Forall_forall. intros o Ho. apply in_concat in Ho. destruct Ho as (l & Hl & Ho). apply in_map_iff in Hl. destruct Hl as (j & <- & _).
    pose proof (calls_adds vis (part j)) as Q. rewrite Forall_forall in Q. apply Q, Ho. }
  assert (An : answer m a b = spec_view a b h).
  { rewrite M4. rewrite (union_view_perm _ _ a b Pe). apply (union_of_adds ps _ gs _ a b F); auto. intros o. reflexivity. }
  destruct (grun_queries polys _ m M2 a b) as (Q & _). destruct (Q N (proj2 (V a) A) (proj2 (V b) B)) as [Q1 Q2].
  assert (E1 : has_edge m a b = Ok (spec_connected a b h) /\ is_edge_meridian_crossing m a b = Ok (spec_crossing a b h)).
  { rewrite (answer_spec polys _ m a b M2 N (proj2 (V a) A) (proj2 (V b) B)) in An. rewrite Q1, Q2. unfold spec_connected, spec_crossing. rewrite An. auto. }
  destruct E1 as [-> ->]. split; [|split].
  - transitivity (spec_connected a b h = true); [split; congruence|]. rewrite adds_connected by exact Ad. split.
    + intros (o & f & Ho & Ev). exists f. apply (job_event a b f N). eauto.
    + intros (f & H). apply (job_event a b f N) in H. destruct H as (o & Ho & Ev). eauto.
  - destruct (spec_connected a b h); auto.
  - transitivity (spec_crossing a b h = true); [split; congruence|]. rewrite adds_crossing by exact Ad. split.
    + intros [C K]. split; [congruence|]. intros f H. apply (job_event a b f N) in H. destruct H as (o & Ho & Ev). eauto.
    + intros [C K]. split; [congruence|]. intros o f Ho Ev. apply K. apply (job_event a b f N). eauto.
Qed.

Lemma merged_unknown gs2 polys m : Permutation gs2 gs -> (forall p, In p polys <-> In p ps) -> merge_graphs polys gs2 = Ok m ->
  exists h, grun (make_graph polys) h = Ok m.
Proof.
  intros Pe Hp E. destruct ran as [F _].
  assert (Bt : forall g, In g gs2 -> built g /\ get_polygons g = ps).
  { intros g Hg. apply (Permutation_in g Pe) in Hg. destruct (Forall2_in_r _ _ _ _ F Hg) as (h0 & _ & A0 & G0).
    split; [exists ps, h0; split; [apply adds_undirected, A0|exact G0]|apply (built_polys ps h0 g G0)]. }
  destruct (merge_any_order polys gs2 (flat_map merge_ops gs2)) as (m' & M1 & M2 & _).
  { apply Forall_forall. intros g Hg. apply Bt, Hg. }
  { intros g0 p Hg Hpp. rewrite (proj2 (Bt g0 Hg)) in Hpp. apply Hp, Hpp. }
  { tauto. }
  rewrite merge_graphs_ops in E by (apply Forall_forall; intros g Hg; apply Bt, Hg). rewrite M1 in E. cbn [in_parallel] in E. inversion E; subst m'. eauto.
Qed.

(** a part of the graph generated in one go, and all of it when every vertex is scanned *)
Theorem jobs_part gs2 polys : Permutation gs2 gs -> (forall p, In p polys <-> In p ps) ->
  exists m g, merge_graphs polys gs2 = Ok m /\ generate vis ps = Ok g /\
    (forall a b, has_edge m a b = Ok true -> has_edge g a b = Ok true /\ (is_edge_meridian_crossing g a b = Ok true -> is_edge_meridian_crossing m a b = Ok true)) /\
    ((forall v, In v (polygon_vertices ps) -> scans n js v) -> same_answers m g).
Proof.
  intros Pe Hp. destruct (jobs_merged gs2 polys Pe Hp) as (m & M & _ & H). destruct (generate_ok ps vis R) as (g & E & G).
  exists m, g. split; [exact M|]. split; [exact E|]. destruct (merged_unknown gs2 polys m Pe Hp M) as (h & Gm). pose proof (polygons_same_vertices ps polys Hp) as V.
  split.
  - intros a b He. destruct (grun_queries polys h m Gm a b) as (Q1 & Q2 & Q3).
    destruct (coord_dec a b) as [D|N]; [destruct (Q3 D); congruence|].
    destruct (in_dec coord_dec a (polygon_vertices polys)) as [A|A]; [|destruct (Q2 N (or_introl A)); congruence].
    destruct (in_dec coord_dec b (polygon_vertices polys)) as [B|B]; [|destruct (Q2 N (or_intror B)); congruence].
    apply V in A. apply V in B. destruct (H a b A B N) as (H1 & _ & H3). destruct (generate_edges ps vis g a b R E A B N) as [K1 K2].
    split.
    + apply K1. apply H1 in He. destruct He as (f & [[_ X]|[_ X]]); exists f; auto.
    + intros C. apply H3. split; [exact He|]. apply K2 in C. destruct C as [_ C]. intros f [[_ X]|[_ X]]; apply C; auto.
  - intros S. apply (answers_agree _ _ m _ _ g Gm G V). intros a b.
    destruct (coord_dec a b) as [->|N]; [rewrite (answer_self ps _ g b G), (answer_self polys _ m b Gm); reflexivity|].
    destruct (in_dec coord_dec a (polygon_vertices ps)) as [A|A]; [destruct (in_dec coord_dec b (polygon_vertices ps)) as [B|B]|].
    + destruct (H a b A B N) as (H1 & _ & H3). destruct (generate_edges ps vis g a b R E A B N) as [K1 K2].
      rewrite (answer_spec ps _ g a b G N A B), (answer_spec polys _ m a b Gm N (proj2 (V a) A) (proj2 (V b) B)).
      destruct (grun_queries polys h m Gm a b) as (Q & _). destruct (Q N (proj2 (V a) A) (proj2 (V b) B)) as [Q1 Q2].
      destruct (grun_queries ps _ g G a b) as (Q' & _). destruct (Q' N A B) as [Q1' Q2'].
      assert (X : has_edge m a b = Ok true <-> has_edge g a b = Ok true).
      { rewrite H1, K1. split; intros (f & X); exists f; [destruct X as [[_ X]|[_ X]]; auto|destruct X; [left|right]; auto]. }
      assert (Y : is_edge_meridian_crossing m a b = Ok true <-> is_edge_meridian_crossing g a b = Ok true).
      { rewrite H3, K2. split; intros [Z W]; (split; [apply X, Z|]); intros f [U|U]; apply W; [left|right| |]; auto; [left|right]; apply U. }
      rewrite Q1, Q1' in X. rewrite Q2, Q2' in Y. unfold spec_connected, spec_crossing in *.
      destruct (spec_view a b h) as [[|]|], (spec_view a b (calls_of vis (polygon_vertices ps))) as [[|]|]; try reflexivity; exfalso; destruct X as [X1 X2], Y as [Y1 Y2];
        first [discriminate (X1 eq_refl)|discriminate (X2 eq_refl)|discriminate (Y1 eq_refl)|discriminate (Y2 eq_refl)].
    + rewrite (answer_unknown ps _ g a b G (or_intror B)). apply (answer_unknown polys _ m a b Gm). right. rewrite V. exact B.
    + rewrite (answer_unknown ps _ g a b G (or_introl A)). apply (answer_unknown polys _ m a b Gm). left. rewrite V. exact A.
Qed.
End Jobs.
