(** Merging, order independence, rejection, growth and equality of graphs. *)
From Coq Require Import ZArith Bool List Lia Permutation Sorted.
From Verif Require Import Base F64 Coordinate Segment Polygon Graph SpecGraph GraphFacts.
Import ListNotations.
Local Open Scope nat_scope.

Lemma answer_spec ps h g a b : grun (make_graph ps) h = Ok g ->
  a <> b -> In a (polygon_vertices ps) -> In b (polygon_vertices ps) ->
  answer g a b = spec_view a b h.
Proof.
  intros E N A B. destruct (grun_queries ps h g E a b) as (Q & _ & _).
  destruct (Q N A B) as [Q1 Q2]. unfold answer. rewrite Q1, Q2.
  unfold spec_connected, spec_crossing. destruct (spec_view a b h) as [[|]|]; reflexivity.
Qed.

Lemma answer_self ps h g a : grun (make_graph ps) h = Ok g -> answer g a a = None.
Proof.
  intros E. destruct (grun_queries ps h g E a a) as (_ & _ & Q).
  destruct (Q eq_refl) as [Q1 Q2]. unfold answer. rewrite Q1. reflexivity.
Qed.

Lemma answer_unknown ps h g a b : grun (make_graph ps) h = Ok g ->
  (~ In a (polygon_vertices ps) \/ ~ In b (polygon_vertices ps)) -> answer g a b = None.
Proof.
  intros E U. destruct (coord_dec a b) as [->|N]; [eapply answer_self; eauto|].
  destruct (grun_queries ps h g E a b) as (_ & Q & _).
  destruct (Q N U) as [Q1 Q2]. unfold answer. rewrite Q1. reflexivity.
Qed.

Lemma answer_sym g a b : built g -> answer g a b = answer g b a.
Proof.
  intros (ps & h & U & E).
  destruct (coord_dec a b) as [->|N]; [reflexivity|].
  destruct (in_dec coord_dec a (polygon_vertices ps)) as [A|A];
    [destruct (in_dec coord_dec b (polygon_vertices ps)) as [B|B]|].
  - rewrite (answer_spec ps h g a b), (answer_spec ps h g b a) by auto.
    apply spec_view_sym, U.
  - rewrite (answer_unknown ps h g a b), (answer_unknown ps h g b a) by auto. reflexivity.
  - rewrite (answer_unknown ps h g a b), (answer_unknown ps h g b a) by auto. reflexivity.
Qed.

Lemma built_vertices ps h g : grun (make_graph ps) h = Ok g -> get_vertices g = polygon_vertices ps.
Proof.
  intros E. destruct (grun_spec ps h) as (F & g' & E' & R & _). rewrite E in E'. inversion E'; subst.
  apply (r_index _ _ _ R).
Qed.
Lemma built_polys ps h g : grun (make_graph ps) h = Ok g -> get_polygons g = ps.
Proof.
  intros E. destruct (grun_spec ps h) as (F & g' & E' & R & _). rewrite E in E'. inversion E'; subst.
  apply (r_polys _ _ _ R).
Qed.
Lemma built_has_vertex ps h g c : grun (make_graph ps) h = Ok g ->
  (has_vertex g c = true <-> In c (polygon_vertices ps)).
Proof.
  intros E. destruct (grun_spec ps h) as (F & g' & E' & R & _). rewrite E in E'. inversion E'; subst.
  eapply has_vertex_in; eauto.
Qed.

(** ** Merge as a history of additions *)
Definition merge_ops (g : graph) : list gop :=
  flat_map (fun v1 => flat_map (fun v2 =>
    match answer g v1 v2 with Some c => [GAdd v1 v2 c] | None => [] end) (get_vertices g)) (get_vertices g).

Lemma foldM_flat_map {A B S} (f : S -> B -> res S) (k : A -> list B) l : forall s,
  foldM f (flat_map k l) s = foldM (fun s x => foldM f (k x) s) l s.
Proof.
  induction l as [|x l IH]; intros s; simpl; [reflexivity|].
  rewrite foldM_app. destruct (foldM f (k x) s); simpl; auto.
Qed.

Lemma foldM_ext_in {A S} (f g : S -> A -> res S) l :
  (forall x s, In x l -> f s x = g s x) -> forall s, foldM f l s = foldM g l s.
Proof.
  induction l as [|x l IH]; intros H s; simpl; [reflexivity|].
  rewrite H by (left; reflexivity). destruct (g s x); simpl; auto.
  apply IH. intros; apply H; right; assumption.
Qed.

Lemma merge_into_ops g m : built g -> merge_into m g = foldM gstep (merge_ops g) m.
Proof.
  intros (ps & h & U & E). unfold merge_into, merge_ops.
  rewrite foldM_flat_map. apply foldM_ext_in. intros v1 s1 H1.
  rewrite foldM_flat_map. apply foldM_ext_in. intros v2 s2 H2.
  rewrite (built_vertices ps h g E) in H1, H2.
  destruct (grun_queries ps h g E v1 v2) as (Q & _ & Q').
  unfold answer.
  destruct (coord_dec v1 v2) as [->|N].
  - destruct (Q' eq_refl) as [Q1 Q2]. rewrite Q1. reflexivity.
  - destruct (Q N H1 H2) as [Q1 Q2]. rewrite Q1, Q2. simpl.
    destruct (spec_connected v1 v2 h); simpl; [|reflexivity].
    destruct (add_edge s2 v1 v2 (spec_crossing v1 v2 h)); reflexivity.
Qed.

Lemma merge_graphs_ops polys gs : Forall built gs ->
  merge_graphs polys gs = in_parallel (foldM gstep (flat_map merge_ops gs) (make_graph polys)).
Proof.
  intros B. unfold merge_graphs. f_equal. rewrite foldM_flat_map. apply foldM_ext_in.
  intros g s Hg. apply merge_into_ops. rewrite Forall_forall in B. auto.
Qed.

(** additions of known vertices never throw *)
Definition known (ps : list polygon) (o : gop) : Prop :=
  match o with
  | GAdd a b _ | GAddDir a b _ | GRem a b | GRemDir a b =>
      a = b \/ (In a (polygon_vertices ps) /\ In b (polygon_vertices ps))
  end.

Lemma gstep_known ps F g o : repr ps F g -> known ps o -> exists g', gstep g o = Ok g'.
Proof.
  intros R K.
  destruct o as [a b m|a b m|a b|a b]; simpl in *; (destruct K as [<-|[A B]];
    [unfold add_edge, remove_edge;
     repeat (rewrite ?add_directed_self, ?remove_directed_self; simpl); eauto|]).
  - destruct (coord_dec a b) as [->|N];
      [unfold add_edge; rewrite add_directed_self; simpl; rewrite add_directed_self; eauto|].
    destruct (idx_complete ps a A) as [ai Ia], (idx_complete ps b B) as [bi Ib].
    destruct (add_directed_ok ps F g a b m ai bi R N Ia Ib) as (g1 & E1 & R1).
    destruct (add_directed_ok ps _ g1 b a m bi ai R1 (not_eq_sym N) Ib Ia) as (g2 & E2 & R2).
    unfold add_edge. rewrite E1. simpl. eauto.
  - destruct (coord_dec a b) as [->|N]; [rewrite add_directed_self; eauto|].
    destruct (idx_complete ps a A) as [ai Ia], (idx_complete ps b B) as [bi Ib].
    destruct (add_directed_ok ps F g a b m ai bi R N Ia Ib) as (g1 & E1 & R1). eauto.
  - destruct (coord_dec a b) as [->|N];
      [unfold remove_edge; rewrite remove_directed_self; simpl; rewrite remove_directed_self; eauto|].
    destruct (idx_complete ps a A) as [ai Ia], (idx_complete ps b B) as [bi Ib].
    destruct (remove_directed_ok ps F g a b ai bi R N Ia Ib) as (g1 & E1 & R1).
    destruct (remove_directed_ok ps _ g1 b a bi ai R1 (not_eq_sym N) Ib Ia) as (g2 & E2 & R2).
    unfold remove_edge. rewrite E1. simpl. eauto.
  - destruct (coord_dec a b) as [->|N]; [rewrite remove_directed_self; eauto|].
    destruct (idx_complete ps a A) as [ai Ia], (idx_complete ps b B) as [bi Ib].
    destruct (remove_directed_ok ps F g a b ai bi R N Ia Ib) as (g1 & E1 & R1). eauto.
Qed.

Lemma foldM_gstep_known ps F h l : Forall (known ps) l -> forall g done,
  repr ps F g -> rep_hist ps (rev done) F -> grun (make_graph ps) done = Ok g -> h = done ->
  exists g', foldM gstep l g = Ok g' /\ grun (make_graph ps) (done ++ l) = Ok g'.
Proof.
  intros K. revert F h. induction K as [|o l Ko Kl IH]; intros F h g done R H G Hh; simpl.
  - rewrite app_nil_r. eauto.
  - destruct (gstep_known ps F g o R Ko) as [g1 E1]. rewrite E1. simpl.
    destruct (gstep_spec ps F g (rev done) o R H) as (F' & g' & E & R' & H' & _).
    assert (g' = g1) by (unfold gstep_catch in E; rewrite E1 in E; congruence). subst g'.
    destruct (IH F' (done ++ [o]) g1 (done ++ [o])) as (g2 & E2 & G2); auto.
    + rewrite rev_unit. exact H'.
    + unfold grun in *. rewrite foldM_app, G. simpl. rewrite E. reflexivity.
    + exists g2. split; [exact E2|]. rewrite <- app_assoc in G2. exact G2.
Qed.

Lemma foldM_gstep_known0 ps l : Forall (known ps) l ->
  exists g', foldM gstep l (make_graph ps) = Ok g' /\ grun (make_graph ps) l = Ok g'.
Proof.
  intros K. apply (foldM_gstep_known ps (fun _ _ => 0%Z) [] l K (make_graph ps) []);
    [apply repr_make|apply rep_hist_nil|reflexivity|reflexivity].
Qed.

Lemma merge_ops_in g o : In o (merge_ops g) ->
  exists a b c, o = GAdd a b c /\ In a (get_vertices g) /\ In b (get_vertices g) /\ answer g a b = Some c.
Proof.
  unfold merge_ops. intros H. apply in_flat_map in H. destruct H as (a & A & H).
  apply in_flat_map in H. destruct H as (b & B & H).
  destruct (answer g a b) as [c|] eqn:E; [|contradiction]. destruct H as [<-|[]].
  exists a, b, c. auto.
Qed.

Lemma merge_ops_adds g : Forall is_add (merge_ops g).
Proof.
  apply Forall_forall. intros o H. apply merge_ops_in in H.
  destruct H as (a & b & c & -> & _). exact I.
Qed.

Lemma answer_some_in g a b c : built g -> answer g a b = Some c ->
  a <> b /\ In a (get_vertices g) /\ In b (get_vertices g).
Proof.
  intros (ps & h & U & E) A. split.
  - intros ->. rewrite (answer_self ps h) in A by assumption. discriminate.
  - rewrite (built_vertices ps h g E).
    destruct (in_dec coord_dec a (polygon_vertices ps)) as [Ha|Ha];
    [destruct (in_dec coord_dec b (polygon_vertices ps)) as [Hb|Hb]|]; auto;
    rewrite (answer_unknown ps h) in A by auto; discriminate.
Qed.

Lemma merge_ops_event g a b f : built g -> a <> b ->
  (exists o, In o (merge_ops g) /\ event_of a b o = Some (Some f)) <-> answer g a b = Some f.
Proof.
  intros B N. split.
  - intros (o & Ho & Ev). apply merge_ops_in in Ho. destruct Ho as (x & y & c & -> & X & Y & An).
    simpl in Ev. destruct (same a b x y) eqn:S1.
    + apply same_spec in S1. destruct S1; subst. simpl in Ev. congruence.
    + destruct (same a b y x) eqn:S2; simpl in Ev; [|discriminate].
      apply same_spec in S2. destruct S2; subst. rewrite (answer_sym _ _ _ B). congruence.
  - intros An. destruct (answer_some_in g a b f B An) as (_ & A1 & B1).
    exists (GAdd a b f). split.
    + unfold merge_ops. apply in_flat_map. exists a. split; [exact A1|].
      apply in_flat_map. exists b. split; [exact B1|]. rewrite An. left. reflexivity.
    + simpl. rewrite (proj2 (same_spec a b a b)) by auto. reflexivity.
Qed.

Lemma flags_of_in gs a b f : In f (flags_of gs a b) <-> exists g, In g gs /\ answer g a b = Some f.
Proof.
  unfold flags_of. rewrite in_flat_map. split.
  - intros (g & Hg & Hf). destruct (answer g a b) eqn:E; [|contradiction].
    destruct Hf as [->|[]]. eauto.
  - intros (g & Hg & E). exists g. rewrite E. split; [exact Hg|left; reflexivity].
Qed.

Lemma spec_view_flags a b h fs : Forall is_add h ->
  (forall f, In f fs <-> exists o, In o h /\ event_of a b o = Some (Some f)) ->
  spec_view a b h = match fs with [] => None | _ => Some (forallb (fun m => m) fs) end.
Proof.
  intros A H. unfold spec_view.
  assert (G : forall f, In f (adds_since_removal a b (rev h)) <-> In f fs).
  { intros f. rewrite adds_of_adds by (apply Forall_rev; assumption). rewrite H.
    split; intros (o & Ho & Ev); exists o; (split; [|exact Ev]); [apply in_rev in Ho|apply -> in_rev]; exact Ho. }
  pose proof (forallb_ext_set _ _ G) as Hf.
  destruct (adds_since_removal a b (rev h)) as [|x l1] eqn:E1, fs as [|y l2]; try reflexivity.
  - exfalso. apply (proj2 (G y)). left; reflexivity.
  - exfalso. apply (proj1 (G x)). left; reflexivity.
  - rewrite Hf. reflexivity.
Qed.

Lemma in_polygon_vertices ps c : In c (polygon_vertices ps) <-> exists p, In p ps /\ In c (verts p).
Proof.
  unfold polygon_vertices. rewrite in_concat. split.
  - intros (l & Hl & Hc). apply in_map_iff in Hl. destruct Hl as (p & <- & Hp). eauto.
  - intros (p & Hp & Hc). exists (verts p). split; [apply in_map; exact Hp|exact Hc].
Qed.

(** any sequence of calls made of exactly the merge calls *)
Lemma merge_any_order polys gs h :
  Forall built gs ->
  (forall g p, In g gs -> In p (get_polygons g) -> In p polys) ->
  (forall o, In o h <-> In o (flat_map merge_ops gs)) ->
  exists m, foldM gstep h (make_graph polys) = Ok m /\ grun (make_graph polys) h = Ok m /\
    get_polygons m = polys /\ forall a b, answer m a b = union_view gs a b.
Proof.
  intros B Hp Hh.
  assert (A : Forall is_add h).
  { apply Forall_forall. intros o Ho. apply Hh in Ho. apply in_flat_map in Ho.
    destruct Ho as (g & _ & Ho). pose proof (merge_ops_adds g) as Ha. rewrite Forall_forall in Ha. auto. }
  assert (Hin : forall g c, In g gs -> In c (get_vertices g) -> In c (polygon_vertices polys)).
  { intros g c Hg Hc. rewrite Forall_forall in B. destruct (B g Hg) as (ps & h' & _ & E).
    rewrite (built_vertices _ _ _ E) in Hc. apply in_polygon_vertices in Hc.
    destruct Hc as (p & P1 & P2). apply in_polygon_vertices. exists p. split; [|exact P2].
    apply (Hp g); [exact Hg|]. rewrite (built_polys _ _ _ E). exact P1. }
  assert (K : Forall (known polys) h).
  { apply Forall_forall. intros o Ho. apply Hh in Ho. apply in_flat_map in Ho.
    destruct Ho as (g & Hg & Ho). apply merge_ops_in in Ho. destruct Ho as (a & b & c & -> & X & Y & _).
    simpl. right. split; eapply Hin; eauto. }
  destruct (foldM_gstep_known0 polys h K) as (m & E1 & E2).
  exists m. split; [exact E1|]. split; [exact E2|]. split; [apply (built_polys _ _ _ E2)|].
  intros a b.
  assert (Bg : forall g, In g gs -> built g) by (apply Forall_forall; exact B).
  assert (UN : (a = b \/ ~ In a (polygon_vertices polys) \/ ~ In b (polygon_vertices polys)) ->
                union_view gs a b = None).
  { intros H. unfold union_view. destruct (flags_of gs a b) as [|f fs] eqn:E; [reflexivity|].
    exfalso. assert (Hf : In f (flags_of gs a b)) by (rewrite E; left; reflexivity).
    apply flags_of_in in Hf. destruct Hf as (g & Hg & An).
    destruct (answer_some_in g a b f (Bg g Hg) An) as (N & X & Y).
    destruct H as [H|[H|H]]; [contradiction| |]; apply H; eapply Hin; eauto. }
  destruct (coord_dec a b) as [->|N].
  { rewrite (answer_self polys h m) by assumption. symmetry. apply UN. auto. }
  destruct (in_dec coord_dec a (polygon_vertices polys)) as [Ha|Ha];
    [destruct (in_dec coord_dec b (polygon_vertices polys)) as [Hb|Hb]|];
    [|rewrite (answer_unknown polys h m) by auto; symmetry; apply UN; auto ..].
  rewrite (answer_spec polys h m) by assumption.
  unfold union_view. rewrite (spec_view_flags a b h (flags_of gs a b) A).
  - destruct (flags_of gs a b); reflexivity.
  - intros f. rewrite flags_of_in. split.
    + intros (g & Hg & An). apply merge_ops_event in An; auto.
      destruct An as (o & Ho & Ev). exists o. split; [|exact Ev]. apply Hh, in_flat_map. eauto.
    + intros (o & Ho & Ev). apply Hh, in_flat_map in Ho. destruct Ho as (g & Hg & Ho).
      exists g. split; [exact Hg|]. apply merge_ops_event; auto. eauto.
Qed.

Lemma merge_graphs_union polys gs :
  Forall built gs ->
  (forall g p, In g gs -> In p (get_polygons g) -> In p polys) ->
  exists m, merge_graphs polys gs = Ok m /\
    get_polygons m = polys /\ forall a b, answer m a b = union_view gs a b.
Proof.
  intros B Hp.
  destruct (merge_any_order polys gs (flat_map merge_ops gs) B Hp) as (m & E & _ & P & Q); [tauto|].
  exists m. rewrite merge_graphs_ops by assumption. rewrite E. auto.
Qed.

Lemma union_view_perm gs1 gs2 a b : Permutation gs1 gs2 -> union_view gs1 a b = union_view gs2 a b.
Proof.
  intros P. unfold union_view.
  assert (G : forall f, In f (flags_of gs1 a b) <-> In f (flags_of gs2 a b)).
  { intros f. rewrite !flags_of_in. split; intros (g & Hg & E); exists g; split; auto.
    - eapply Permutation_in; eauto.
    - eapply Permutation_in; [symmetry|]; eauto. }
  pose proof (forallb_ext_set _ _ G) as Hf.
  destruct (flags_of gs1 a b) as [|x l1] eqn:E1, (flags_of gs2 a b) as [|y l2] eqn:E2; try reflexivity.
  - exfalso. apply (proj2 (G y)). left; reflexivity.
  - exfalso. apply (proj1 (G x)). left; reflexivity.
  - rewrite Hf. reflexivity.
Qed.

(** ** Rejection *)
Lemma step_after_history ps h g o : grun (make_graph ps) h = Ok g ->
  (known ps o -> exists g', gstep g o = Ok g') /\
  (~ known ps o -> gstep g o = Throw NotInGraph) /\
  (forall u, gstep g o <> UB u).
Proof.
  intros E. destruct (grun_spec ps h) as (F & g' & E' & R & H). rewrite E in E'. inversion E'; subst g'.
  split; [|split].
  - apply (gstep_known ps F g o R).
  - intros K.
    assert (forall a b, ~ (a = b \/ (In a (polygon_vertices ps) /\ In b (polygon_vertices ps))) ->
              a <> b /\ (idx ps a = None \/ idx ps b = None)) as D.
    { intros a b Hn. split; [tauto|].
      destruct (in_dec coord_dec a (polygon_vertices ps)); [|left; apply idx_none; assumption].
      right. apply idx_none. tauto. }
    destruct o as [a b m|a b m|a b|a b]; simpl in *; destruct (D a b K) as [N I].
    + unfold add_edge. rewrite (add_directed_throw ps F) by auto. reflexivity.
    + apply (add_directed_throw ps F); auto.
    + unfold remove_edge. rewrite (remove_directed_throw ps F) by auto. reflexivity.
    + apply (remove_directed_throw ps F); auto.
  - intros u E2. destruct (gstep_spec ps F g (rev h) o R H) as (F' & g2 & _ & _ & _ & [D|[D _]]); congruence.
Qed.

(** ** Equality *)
Definition hash_lt (a b : coord) : Prop := (hash_coord a < hash_coord b)%Z.
Definition hash_le (a b : coord) : Prop := (hash_coord a <= hash_coord b)%Z.

Lemma sorted_unique l1 : forall l2,
  (forall a b, In a l1 -> In b l1 -> hash_coord a = hash_coord b -> a = b) ->
  StronglySorted hash_le l1 -> StronglySorted hash_le l2 -> Permutation l1 l2 -> l1 = l2.
Proof.
  induction l1 as [|x l1 IH]; intros l2 Inj S1 S2 P.
  - apply Permutation_nil in P. congruence.
  - destruct l2 as [|y l2]; [symmetry in P; apply Permutation_nil in P; discriminate|].
    assert (x = y).
    { apply Inj; [left; reflexivity|eapply Permutation_in; [symmetry; exact P|left; reflexivity]|].
      apply StronglySorted_inv in S1. apply StronglySorted_inv in S2. destruct S1 as [_ F1], S2 as [_ F2].
      rewrite Forall_forall in F1, F2.
      assert (hash_coord x <= hash_coord y)%Z.
      { assert (In y (x :: l1)) as [->|Hy] by (eapply Permutation_in; [symmetry; exact P|left; reflexivity]); [lia|].
        apply F1 in Hy. exact Hy. }
      assert (hash_coord y <= hash_coord x)%Z.
      { assert (In x (y :: l2)) as [->|Hy] by (eapply Permutation_in; [exact P|left; reflexivity]); [lia|].
        apply F2 in Hy. exact Hy. }
      lia. }
    subst y. f_equal. apply IH.
    + intros a b A B. apply Inj; right; assumption.
    + apply StronglySorted_inv in S1; tauto.
    + apply StronglySorted_inv in S2; tauto.
    + eapply Permutation_cons_inv; eauto.
Qed.

Lemma mapM_ok {A B} (f : A -> res B) (k : A -> B) l :
  (forall x, In x l -> f x = Ok (k x)) -> mapM f l = Ok (map k l).
Proof.
  induction l as [|x l IH]; intros H; simpl; [reflexivity|].
  rewrite H by (left; reflexivity). simpl. rewrite IH by (intros; apply H; right; assumption). reflexivity.
Qed.

(** a sort as [std::sort] promises it *)
Definition hash_sort_spec (srt : list coord -> list coord) : Prop :=
  forall l, Permutation l (srt l) /\ StronglySorted hash_le (srt l).

Definition flag_of (g : graph) (v n : coord) : bool :=
  match answer g v n with Some c => c | None => false end.

Lemma built_neighbors g v : built g -> In v (get_vertices g) ->
  exists l, get_neighbors g v = Ok l /\ NoDup l /\ forall u, In u l <-> answer g v u <> None.
Proof.
  intros B Hv. pose proof B as (ps & h & U & E).
  rewrite (built_vertices _ _ _ E) in Hv.
  destruct (grun_neighbors ps h g v E) as [Hn _]. destruct (Hn Hv) as (l & E1 & ND & Hl).
  exists l. split; [exact E1|]. split; [exact ND|]. intros u. rewrite Hl. split.
  - intros (N & Hu & C). rewrite (answer_sym g v u B).
    rewrite (answer_spec ps h g u v E N Hu Hv). unfold spec_connected in C.
    destruct (spec_view u v h); congruence.
  - intros An. destruct (answer g v u) as [c|] eqn:EA; [|congruence].
    destruct (answer_some_in g v u c B EA) as (N & _ & Hu). rewrite (built_vertices _ _ _ E) in Hu.
    split; [congruence|]. split; [exact Hu|].
    rewrite (answer_sym g v u B) in EA. rewrite (answer_spec ps h g u v E (not_eq_sym N) Hu Hv) in EA.
    unfold spec_connected. rewrite EA. reflexivity.
Qed.

Lemma built_crossing g v u : built g -> answer g v u <> None ->
  is_edge_meridian_crossing g v u = Ok (flag_of g v u).
Proof.
  intros B. unfold flag_of, answer. destruct (has_edge g v u) as [[|]|e|e]; try congruence.
  destruct (is_edge_meridian_crossing g v u); congruence.
Qed.

Definition nb (g : graph) (v : coord) : list coord :=
  match get_neighbors g v with Ok l => l | _ => [] end.

Lemma graph_repr_ok srt g : hash_sort_spec srt -> built g ->
  graph_repr srt g = Ok (map (fun v => (v, map (fun n => (n, flag_of g v n)) (srt (nb g v))))
                             (srt (get_vertices g))).
Proof.
  intros S B. unfold graph_repr. apply mapM_ok. intros v Hv.
  assert (Hv' : In v (get_vertices g)).
  { eapply Permutation_in; [symmetry; apply S|exact Hv]. }
  destruct (built_neighbors g v B Hv') as (l & E & ND & Hl).
  unfold nb. rewrite E. simpl.
  rewrite (mapM_ok _ (fun n => (n, flag_of g v n))); [reflexivity|].
  intros n Hn. rewrite built_crossing; auto. apply Hl.
  eapply Permutation_in; [symmetry; apply S|exact Hn].
Qed.

Lemma sorted_eq srt1 srt2 l1 l2 : hash_sort_spec srt1 -> hash_sort_spec srt2 ->
  (forall a b, In a l1 -> In b l1 -> hash_coord a = hash_coord b -> a = b) ->
  Permutation l1 l2 -> srt1 l1 = srt2 l2.
Proof.
  intros S1 S2 Inj P. apply sorted_unique; try apply S1; try apply S2.
  - intros a b A B. apply Inj; (eapply Permutation_in; [symmetry; apply S1|]; assumption).
  - transitivity l1; [symmetry; apply S1|]. transitivity l2; [exact P|apply S2].
Qed.

Lemma map_inj_first {A B} (f1 f2 : A -> B) l1 l2 :
  map (fun v => (v, f1 v)) l1 = map (fun v => (v, f2 v)) l2 ->
  l1 = l2 /\ forall v, In v l1 -> f1 v = f2 v.
Proof.
  revert l2. induction l1 as [|x l1 IH]; destruct l2 as [|y l2]; simpl; intros H; try discriminate.
  - split; [reflexivity|contradiction].
  - inversion H; subst. apply IH in H3. destruct H3 as [-> H3]. split; [reflexivity|].
    intros v [->|Hv]; auto.
Qed.

(** equality is equality of vertices and answers when hashes do not collide *)
Lemma graph_repr_eq_iff srt1 srt2 g1 g2 :
  hash_sort_spec srt1 -> hash_sort_spec srt2 -> built g1 -> built g2 ->
  (forall a b, In a (get_vertices g1) -> In b (get_vertices g1) -> hash_coord a = hash_coord b -> a = b) ->
  Permutation (get_vertices g1) (get_vertices g2) ->
  (graph_repr srt1 g1 = graph_repr srt2 g2 <-> forall a b, answer g1 a b = answer g2 a b).
Proof.
  intros S1 S2 B1 B2 Inj P. rewrite !graph_repr_ok by assumption.
  rewrite <- (sorted_eq srt1 srt2 _ _ S1 S2 Inj P).
  assert (Vin : forall v, In v (srt1 (get_vertices g1)) <-> In v (get_vertices g1)).
  { intros v. split; apply Permutation_in; [symmetry|]; apply S1. }
  assert (Vin2 : forall v, In v (get_vertices g1) <-> In v (get_vertices g2)).
  { intros v. split; apply Permutation_in; [|symmetry]; exact P. }
  split.
  - intros H. inversion H as [H1]. clear H.
    apply map_inj_first in H1. destruct H1 as [_ H1].
    assert (G : forall a b, In a (get_vertices g1) -> answer g1 a b = answer g2 a b).
    { intros a b Ha. specialize (H1 a (proj2 (Vin a) Ha)).
      apply map_inj_first in H1. destruct H1 as [E1 E2].
      destruct (built_neighbors g1 a B1 Ha) as (l1 & L1 & _ & M1).
      destruct (built_neighbors g2 a B2 (proj1 (Vin2 a) Ha)) as (l2 & L2 & _ & M2).
      unfold nb in E1, E2. rewrite L1 in E1, E2. rewrite L2 in E1.
      assert (M : answer g1 a b <> None <-> answer g2 a b <> None).
      { rewrite <- M1, <- M2. split; intros Hb.
        - eapply Permutation_in; [symmetry; apply S2|]. rewrite <- E1.
          eapply Permutation_in; [apply S1|exact Hb].
        - eapply Permutation_in; [symmetry; apply S1|]. rewrite E1.
          eapply Permutation_in; [apply S2|exact Hb]. }
      destruct (answer g1 a b) as [c|] eqn:A1.
      - assert (In b l1) as Hb by (apply M1; congruence).
        assert (In b (srt1 l1)) as Hb' by (eapply Permutation_in; [apply S1|exact Hb]).
        specialize (E2 b Hb'). unfold flag_of in E2. rewrite A1 in E2.
        destruct (answer g2 a b) as [c'|]; [congruence|].
        exfalso. apply (proj1 M); [discriminate|reflexivity].
      - destruct (answer g2 a b) as [c'|]; [|reflexivity].
        exfalso. apply (proj2 M); [discriminate|reflexivity]. }
    intros a b.
    destruct (in_dec coord_dec a (get_vertices g1)) as [Ha|Ha]; [auto|].
    destruct (answer g1 a b) as [c|] eqn:A1.
    + apply answer_some_in in A1; [|assumption]. tauto.
    + destruct (answer g2 a b) as [c|] eqn:A2; [|reflexivity].
      apply answer_some_in in A2; [|assumption]. destruct A2 as (_ & X & _). apply Vin2 in X. contradiction.
  - intros H. f_equal. apply map_ext_in. intros v Hv. apply Vin in Hv. f_equal.
    destruct (built_neighbors g1 v B1 Hv) as (l1 & L1 & N1 & M1).
    destruct (built_neighbors g2 v B2 (proj1 (Vin2 v) Hv)) as (l2 & L2 & N2 & M2).
    unfold nb. rewrite L1, L2.
    rewrite (sorted_eq srt1 srt2 l1 l2 S1 S2).
    + apply map_ext. intros n. unfold flag_of. rewrite H. reflexivity.
    + intros a b Ha Hb. apply Inj.
      * apply M1 in Ha. destruct (answer g1 v a) eqn:EA; [|congruence].
        apply answer_some_in in EA; tauto.
      * apply M1 in Hb. destruct (answer g1 v b) eqn:EA; [|congruence].
        apply answer_some_in in EA; tauto.
    + apply NoDup_Permutation; auto. intros u. rewrite M1, M2, H. reflexivity.
Qed.

(** ** Growth *)
Lemma assoc_cons_other {A} c d (x : A) m : d <> c -> assoc c ((d, x) :: m) = assoc c m.
Proof. intros N. simpl. rewrite (proj2 (coord_eqb_neq d c) N). reflexivity. Qed.

Lemma add_vertex_edgeless ps g c :
  repr ps (fun _ _ => 0%Z) g -> ~ In c (polygon_vertices ps) ->
  let g' := add_vertex g c in
  get_vertices g' = get_vertices g ++ [c] /\
  (forall v, has_vertex g' v = true <-> v = c \/ has_vertex g v = true) /\
  (forall a b, has_vertex g' a = true -> has_vertex g' b = true ->
     has_edge g' a b = Ok false /\ is_edge_meridian_crossing g' a b = Ok false) /\
  (forall v, has_vertex g' v = true -> get_neighbors g' v = Ok []).
Proof.
  intros R Nc g'.
  assert (Z0 : forall k, k < length (g_cells g') -> cell_get g' k = Ok 0%Z).
  { intros k Hk. unfold cell_get. destruct (nth_error (g_cells g') k) as [x|] eqn:E;
      [|apply nth_error_None in E; lia].
    unfold g' in E. simpl in E. destruct (Nat.lt_ge_cases k (length (g_cells g))) as [L|L].
    - rewrite nth_error_app1 in E by exact L.
      rewrite (r_len _ _ _ R) in L.
      assert (Hn : 0 < g_num g) by nia.
      pose proof (Nat.div_mod k (g_num g) ltac:(lia)) as D.
      pose proof (Nat.mod_upper_bound k (g_num g) ltac:(lia)) as D2.
      assert (D3 : k / g_num g < g_num g) by (apply Nat.div_lt_upper_bound; lia).
      rewrite D, Nat.add_comm in E. rewrite (r_cells _ _ _ R) in E by assumption. congruence.
    - rewrite nth_error_app2 in E by exact L. apply nth_error_In, repeat_spec in E. congruence. }
  assert (Len : length (g_cells g') = S (g_num g) * S (g_num g)).
  { change (g_cells g') with
      (g_cells g ++ repeat 0%Z (S (g_num g) * S (g_num g) - length (g_cells g))).
    rewrite app_length, repeat_length, (r_len _ _ _ R).
    assert (H : g_num g * g_num g <= S (g_num g) * S (g_num g)) by nia.
    generalize dependent (S (g_num g) * S (g_num g)). intros; lia. }
  assert (Idx : forall v i, assoc v (g_map g') = Some i -> i < S (g_num g)).
  { intros v i. unfold g'. simpl g_map. simpl. destruct (coord_eqb c v) eqn:E.
    - intros H; inversion H; lia.
    - rewrite (r_map _ _ _ R). intros H. fold (idx ps v) in H. apply idx_sound in H.
      rewrite (r_num _ _ _ R). lia. }
  split; [reflexivity|]. split; [|split].
  - intros v. unfold has_vertex, g'. simpl g_map. simpl. destruct (coord_eqb c v) eqn:E.
    + apply coord_eqb_spec in E. subst. tauto.
    + apply coord_eqb_neq in E. split; [auto|]. intros [->|H]; [congruence|exact H].
  - intros a b Ha Hb. unfold has_edge, is_edge_meridian_crossing.
    destruct (coord_eqb a b); [auto|].
    unfold has_vertex in Ha, Hb. unfold coordinate_to_index.
    destruct (assoc a (g_map g')) as [ai|] eqn:Ia; [|discriminate].
    destruct (assoc b (g_map g')) as [bi|] eqn:Ib; [|discriminate].
    apply Idx in Ia. apply Idx in Ib. simpl bind.
    assert (K : cell_index g' ai bi < length (g_cells g')).
    { rewrite Len. unfold cell_index. change (g_num g') with (S (g_num g)). nia. }
    rewrite Z0 by exact K. auto.
  - intros v Hv. unfold has_vertex in Hv. unfold get_neighbors, coordinate_to_index.
    destruct (assoc v (g_map g')) as [i|] eqn:Iv; [|discriminate]. apply Idx in Iv. simpl bind.
    destruct (foldM_ok_ind_in
      (fun acc i_offset =>
           x <- cell_get g' (i_offset + i * g_num g')%nat ;;
           if (x =? 0)%Z then Ok acc
           else c <- index_to_coordinate g' i_offset ;; Ok (acc ++ [c]))
      (fun done s => s = []) [] (seq 0 (g_num g'))) as (s & E & ->); [reflexivity| |exact E].
    intros done s k Hk ->. apply in_seq in Hk. change (g_num g') with (S (g_num g)) in *.
    rewrite Z0; [|rewrite Len; nia]. exists []. auto.
Qed.

(** ** Same calls, same matrix *)
Lemma enc_set fs : enc fs =
  ((if existsb negb fs then 1 else 0) + (if existsb (fun m => m) fs then 2 else 0))%Z.
Proof.
  induction fs as [|m fs IH]; [reflexivity|]. simpl enc. rewrite IH. simpl existsb.
  destruct m; simpl; destruct (existsb negb fs), (existsb (fun m => m) fs); reflexivity.
Qed.

Lemma existsb_ext_set (p : bool -> bool) (l1 l2 : list bool) :
  (forall f, In f l1 <-> In f l2) -> existsb p l1 = existsb p l2.
Proof.
  intros H. apply eq_true_iff_eq. rewrite !existsb_exists. split; intros (x & Hx & P); exists x; split; auto; apply H; auto.
Qed.

Lemma enc_ext_set l1 l2 : (forall f, In f l1 <-> In f l2) -> enc l1 = enc l2.
Proof. intros H. rewrite !enc_set. rewrite !(existsb_ext_set _ l1 l2 H). reflexivity. Qed.

Lemma list_ext_nth_error {A} (l1 : list A) : forall l2,
  (forall k, nth_error l1 k = nth_error l2 k) -> l1 = l2.
Proof.
  induction l1 as [|x l1 IH]; intros [|y l2] H; auto.
  - specialize (H 0). discriminate.
  - specialize (H 0). discriminate.
  - pose proof (H 0) as H0. simpl in H0. inversion H0; subst. f_equal. apply IH.
    intros k. apply (H (S k)).
Qed.

Lemma repr_ext ps F1 F2 g1 g2 : repr ps F1 g1 -> repr ps F2 g2 ->
  (forall i j, i < length (polygon_vertices ps) -> j < length (polygon_vertices ps) -> F1 i j = F2 i j) ->
  g1 = g2.
Proof.
  intros [A1 A2 A3 A4 A5 A6] [B1 B2 B3 B4 B5 B6] H. destruct g1, g2; simpl in *; subst.
  f_equal. set (n := length (polygon_vertices ps)) in *. apply list_ext_nth_error. intros k.
  destruct (Nat.lt_ge_cases k (n * n)) as [L|L].
  - assert (Hn : n <> 0) by nia.
    pose proof (Nat.div_mod k n Hn) as D. pose proof (Nat.mod_upper_bound k n Hn) as D2.
    assert (D3 : k / n < n) by (apply Nat.div_lt_upper_bound; lia).
    rewrite D, Nat.add_comm. rewrite A6, B6 by assumption. rewrite H by assumption. reflexivity.
  - rewrite (proj2 (nth_error_None g_cells k)) by lia.
    rewrite (proj2 (nth_error_None g_cells0 k)) by lia. reflexivity.
Qed.

Lemma adds_same_graph ps h1 h2 : Forall is_add h1 -> Forall is_add h2 ->
  (forall o, In o h1 <-> In o h2) ->
  exists g, grun (make_graph ps) h1 = Ok g /\ grun (make_graph ps) h2 = Ok g.
Proof.
  intros A1 A2 H.
  destruct (grun_spec ps h1) as (F1 & g1 & E1 & R1 & H1).
  destruct (grun_spec ps h2) as (F2 & g2 & E2 & R2 & H2).
  exists g1. split; [exact E1|]. rewrite E2. f_equal. symmetry.
  assert (G : forall a b f, In f (adds_since_removal a b (rev h1)) <-> In f (adds_since_removal a b (rev h2))).
  { intros a b f. rewrite !adds_of_adds by (apply Forall_rev; assumption).
    split; intros (o & Ho & Ev); exists o; (split; [|exact Ev]);
      apply -> in_rev; apply in_rev in Ho; apply H; exact Ho. }
  apply (repr_ext ps F1 F2 g1 g2 R1 R2). intros i j Hi Hj.
  destruct H1 as [P1 Q1], H2 as [P2 Q2].
  destruct (Z.eq_dec (F1 i j) 0) as [Z1|Z1].
  - destruct (Z.eq_dec (F2 i j) 0) as [Z2|Z2]; [congruence|].
    destruct (Q2 _ _ Z2) as (a & b & N & Ia & Ib).
    rewrite (P1 a b i j N Ia Ib), (P2 a b i j N Ia Ib). apply enc_ext_set, G.
  - destruct (Q1 _ _ Z1) as (a & b & N & Ia & Ib).
    rewrite (P1 a b i j N Ia Ib), (P2 a b i j N Ia Ib). apply enc_ext_set, G.
Qed.

Lemma undirected_neighbors ps h g v : Forall undirected h -> grun (make_graph ps) h = Ok g ->
  In v (polygon_vertices ps) ->
  exists l, get_neighbors g v = Ok l /\ NoDup l /\
    (forall u, In u l <-> has_edge g v u = Ok true) /\
    (forall u, has_edge g v u = has_edge g u v) /\ has_edge g v v = Ok false.
Proof.
  intros U E Hv. destruct (grun_neighbors ps h g v E) as [Hn _]. destruct (Hn Hv) as (l & E1 & ND & Hl).
  assert (Sy : forall u, has_edge g v u = has_edge g u v).
  { intros u. destruct (grun_queries ps h g E v u) as (Q1 & Q2 & Q3).
    destruct (grun_queries ps h g E u v) as (R1 & R2 & R3).
    destruct (coord_dec v u) as [->|N]; [reflexivity|].
    destruct (in_dec coord_dec u (polygon_vertices ps)) as [Hu|Hu].
    - rewrite (proj1 (Q1 N Hv Hu)), (proj1 (R1 (not_eq_sym N) Hu Hv)).
      unfold spec_connected. rewrite (spec_view_sym v u h U). reflexivity.
    - rewrite (proj1 (Q2 N (or_intror Hu))), (proj1 (R2 (not_eq_sym N) (or_introl Hu))). reflexivity. }
  exists l. split; [exact E1|]. split; [exact ND|]. split; [|split; [exact Sy|]].
  - intros u. rewrite Hl, Sy. destruct (grun_queries ps h g E u v) as (R1 & R2 & R3). split.
    + intros (N & Hu & C). rewrite (proj1 (R1 N Hu Hv)), C. reflexivity.
    + intros He. destruct (coord_dec u v) as [->|N]; [rewrite (proj1 (R3 eq_refl)) in He; discriminate|].
      destruct (in_dec coord_dec u (polygon_vertices ps)) as [Hu|Hu].
      * rewrite (proj1 (R1 N Hu Hv)) in He. split; [exact N|]. split; [exact Hu|congruence].
      * rewrite (proj1 (R2 N (or_introl Hu))) in He. discriminate.
  - destruct (grun_queries ps h g E v v) as (_ & _ & Q). apply Q. reflexivity.
Qed.

(** neighbours read the column: the general statement for directed histories *)
Lemma neighbors_column ps h g v : grun (make_graph ps) h = Ok g -> In v (polygon_vertices ps) ->
  exists l, get_neighbors g v = Ok l /\ NoDup l /\ forall u, In u l <-> has_edge g u v = Ok true.
Proof.
  intros E Hv. destruct (grun_neighbors ps h g v E) as [Hn _]. destruct (Hn Hv) as (l & E1 & ND & Hl).
  exists l. split; [exact E1|]. split; [exact ND|]. intros u. rewrite Hl.
  destruct (grun_queries ps h g E u v) as (R1 & R2 & R3). split.
  - intros (N & Hu & C). rewrite (proj1 (R1 N Hu Hv)), C. reflexivity.
  - intros He. destruct (coord_dec u v) as [->|N]; [rewrite (proj1 (R3 eq_refl)) in He; discriminate|].
    destruct (in_dec coord_dec u (polygon_vertices ps)) as [Hu|Hu].
    + rewrite (proj1 (R1 N Hu Hv)) in He. split; [exact N|]. split; [exact Hu|congruence].
    + rewrite (proj1 (R2 N (or_introl Hu))) in He. discriminate.
Qed.

Lemma history_is_edge_map ps h : exists g, grun (make_graph ps) h = Ok g /\
  forall a b, In a (polygon_vertices ps) -> In b (polygon_vertices ps) -> a <> b ->
    has_edge g a b = Ok (spec_connected a b h) /\
    is_edge_meridian_crossing g a b = Ok (spec_crossing a b h).
Proof.
  destruct (grun_spec ps h) as (F & g & E & _). exists g. split; [exact E|].
  intros a b A B N. apply (grun_queries ps h g E a b); assumption.
Qed.

Lemma rejection ps h g o : grun (make_graph ps) h = Ok g ->
  (known ps o <-> exists g', gstep g o = Ok g') /\
  (~ known ps o <-> gstep g o = Throw NotInGraph) /\
  (forall u, gstep g o <> UB u) /\
  (forall v u, get_neighbors g v <> UB u) /\
  (forall a b u, has_edge g a b <> UB u /\ is_edge_meridian_crossing g a b <> UB u).
Proof.
  intros E. destruct (step_after_history ps h g o E) as (S1 & S2 & S3).
  assert (D : known ps o \/ ~ known ps o).
  { destruct o as [a b m|a b m|a b|a b]; simpl;
      destruct (coord_dec a b), (in_dec coord_dec a (polygon_vertices ps)),
               (in_dec coord_dec b (polygon_vertices ps)); tauto. }
  split; [|split; [|split; [exact S3|split]]].
  - split; [exact S1|]. intros (g' & Hg). destruct D as [D|D]; [exact D|]. apply S2 in D. congruence.
  - split; [exact S2|]. intros Hg K. apply S1 in K. destruct K. congruence.
  - intros v u. destruct (grun_neighbors ps h g v E) as [N1 N2].
    destruct (in_dec coord_dec v (polygon_vertices ps)) as [V|V].
    + destruct (N1 V) as (l & El & _). congruence.
    + rewrite (N2 V). discriminate.
  - intros a b u. destruct (grun_queries ps h g E a b) as (Q1 & Q2 & Q3).
    destruct (coord_dec a b) as [Eab|N]; [destruct (Q3 Eab); split; congruence|].
    destruct (in_dec coord_dec a (polygon_vertices ps)) as [A|A];
      [destruct (in_dec coord_dec b (polygon_vertices ps)) as [B|B]|].
    + destruct (Q1 N A B). split; congruence.
    + destruct (Q2 N (or_intror B)). split; congruence.
    + destruct (Q2 N (or_introl A)). split; congruence.
Qed.

(** insertion sort is a valid [std::sort] *)
Lemma hash_insert_perm x l : Permutation (x :: l) (hash_insert x l).
Proof.
  induction l as [|y l IH]; simpl; [reflexivity|].
  destruct (hash_coord x <? hash_coord y)%Z; [reflexivity|].
  rewrite perm_swap. constructor. exact IH.
Qed.
Lemma hash_insert_sorted x l : StronglySorted hash_le l -> StronglySorted hash_le (hash_insert x l).
Proof.
  induction 1 as [|y l S IH F]; simpl; [repeat constructor|].
  destruct (hash_coord x <? hash_coord y)%Z eqn:E.
  - constructor; [constructor; assumption|]. apply Z.ltb_lt in E. constructor; [unfold hash_le; lia|].
    rewrite Forall_forall in *. intros z Hz. specialize (F z Hz). unfold hash_le in *. lia.
  - constructor; [exact IH|]. apply Z.ltb_ge in E. rewrite Forall_forall in *. intros z Hz.
    apply (Permutation_in _ (Permutation_sym (hash_insert_perm x l))) in Hz. destruct Hz as [->|Hz]; auto.
Qed.
Lemma hash_sort_ok : hash_sort_spec hash_sort.
Proof.
  intros l. unfold hash_sort.
  enough (G : forall l acc, StronglySorted hash_le acc ->
     Permutation (l ++ acc) (fold_left (fun acc x => hash_insert x acc) l acc) /\
     StronglySorted hash_le (fold_left (fun acc x => hash_insert x acc) l acc)).
  { specialize (G l [] ltac:(constructor)). rewrite app_nil_r in G. exact G. }
  clear l. induction l as [|x l IH]; intros acc S; simpl; [auto|].
  destruct (IH (hash_insert x acc) (hash_insert_sorted x acc S)) as [P Q]. split; [|exact Q].
  rewrite <- P. rewrite <- hash_insert_perm. apply Permutation_middle.
Qed.

Lemma graph_eqb_iff g1 g2 srt :
  hash_sort_spec srt -> built g1 -> built g2 ->
  (forall a b, In a (get_vertices g1) -> In b (get_vertices g1) -> hash_coord a = hash_coord b -> a = b) ->
  Permutation (get_vertices g1) (get_vertices g2) ->
  exists r, graph_eqb srt g1 g2 = Ok r /\ (r = true <-> forall a b, answer g1 a b = answer g2 a b).
Proof.
  intros S B1 B2 Inj P. pose proof (graph_repr_eq_iff srt srt g1 g2 S S B1 B2 Inj P) as H.
  unfold graph_eqb. rewrite !graph_repr_ok in * by assumption. simpl.
  eexists. split; [reflexivity|]. rewrite <- H.
  destruct (list_eq_dec _ _ _) as [e|n]; split; intros; congruence.
Qed.

Lemma add_vertex_no_edges ps h g c : grun (make_graph ps) h = Ok g ->
  (forall a b, has_edge g a b <> Ok true) -> ~ In c (polygon_vertices ps) ->
  let g' := add_vertex g c in
  get_vertices g' = get_vertices g ++ [c] /\
  (forall v, has_vertex g' v = true <-> v = c \/ has_vertex g v = true) /\
  (forall a b, has_vertex g' a = true -> has_vertex g' b = true ->
     has_edge g' a b = Ok false /\ is_edge_meridian_crossing g' a b = Ok false) /\
  (forall v, has_vertex g' v = true -> get_neighbors g' v = Ok []).
Proof.
  intros E NE Nc. destruct (grun_spec ps h) as (F & g1 & E1 & R & H). rewrite E in E1. inversion E1; subst g1.
  assert (F0 : forall i j, F i j = 0%Z).
  { intros i j. destruct (Z.eq_dec (F i j) 0) as [Z|Z]; [exact Z|exfalso].
    destruct H as [_ H]. destruct (H _ _ Z) as (a & b & N & Ia & Ib).
    apply (NE a b). rewrite (has_edge_repr ps F) by assumption.
    rewrite (proj2 (coord_eqb_neq a b) N), Ia, Ib. rewrite (proj2 (Z.eqb_neq _ _) Z). reflexivity. }
  apply (add_vertex_edgeless ps); [|exact Nc].
  destruct R as [R1 R2 R3 R4 R5 R6]. constructor; auto.
  intros i j Hi Hj. rewrite R6, F0; auto.
Qed.

Lemma edgeless_answer ps a b : answer (make_graph ps) a b = None.
Proof.
  assert (E : grun (make_graph ps) [] = Ok (make_graph ps)) by reflexivity.
  destruct (coord_dec a b) as [->|N]; [eapply answer_self; eauto|].
  destruct (in_dec coord_dec a (polygon_vertices ps)) as [A|A];
    [destruct (in_dec coord_dec b (polygon_vertices ps)) as [B|B]|].
  - rewrite (answer_spec ps [] _ a b E N A B). reflexivity.
  - eapply answer_unknown; eauto.
  - eapply answer_unknown; eauto.
Qed.
Lemma edgeless_answers ps qs a b : answer (make_graph ps) a b = answer (make_graph qs) a b.
Proof. rewrite !edgeless_answer. reflexivity. Qed.
