(** Refinement of the adjacency matrix to the history specification. *)
From Coq Require Import ZArith Bool List Lia Permutation.
From Verif Require Import Base F64 Coordinate Segment Polygon Graph SpecGraph.
Import ListNotations.
Local Open Scope nat_scope.

(** ** Coordinates *)
Lemma coord_eqb_spec a b : coord_eqb a b = true <-> a = b.
Proof.
  unfold coord_eqb. rewrite andb_true_iff, !Z.eqb_eq. destruct a, b; simpl.
  split; [intros [-> ->]; reflexivity | intros E; inversion E; auto].
Qed.
Lemma coord_eqb_refl a : coord_eqb a a = true.
Proof. apply coord_eqb_spec; reflexivity. Qed.
Lemma coord_eqb_neq a b : coord_eqb a b = false <-> a <> b.
Proof.
  split; intros H.
  - intros E. apply coord_eqb_spec in E. congruence.
  - destruct (coord_eqb a b) eqn:E; [|reflexivity]. apply coord_eqb_spec in E. contradiction.
Qed.
Lemma coord_eqb_sym a b : coord_eqb a b = coord_eqb b a.
Proof.
  destruct (coord_eqb b a) eqn:E.
  - apply coord_eqb_spec in E. subst. apply coord_eqb_refl.
  - apply coord_eqb_neq in E. apply coord_eqb_neq. congruence.
Qed.

(** ** Lists *)
Lemma upd_length {A} (l : list A) k x : length (upd l k x) = length l.
Proof. revert k. induction l; destruct k; simpl; auto. Qed.

Lemma nth_error_upd {A} (l : list A) k x j :
  nth_error (upd l k x) j = if (j =? k) && (k <? length l) then Some x else nth_error l j.
Proof.
  revert k j. induction l as [|y l IH]; intros k j.
  - simpl. replace (k <? 0) with false by (symmetry; apply Nat.ltb_ge; lia).
    rewrite andb_false_r. destruct k; reflexivity.
  - destruct k, j; simpl; try reflexivity.
    rewrite IH. reflexivity.
Qed.

(** ** The index map *)
Definition idx (ps : list polygon) (c : coord) : option nat :=
  assoc c (index_map 0 (polygon_vertices ps) []).

Lemma assoc_index_map c cs : forall i m k,
  assoc c (index_map i cs m) = Some k ->
  (i <= k < i + length cs /\ nth_error cs (k - i) = Some c) \/ assoc c m = Some k.
Proof.
  induction cs as [|x cs IH]; intros i m k H; simpl in *.
  - right. exact H.
  - apply IH in H. destruct H as [[H1 H2]|H].
    + left. split; [lia|]. replace (k - i) with (S (k - S i)) by lia. exact H2.
    + simpl in H. destruct (coord_eqb x c) eqn:E.
      * apply coord_eqb_spec in E. subst x. inversion H; subst.
        left. split; [lia|]. rewrite Nat.sub_diag. reflexivity.
      * right. exact H.
Qed.

Lemma assoc_index_map_mono c cs : forall i m,
  assoc c m <> None -> assoc c (index_map i cs m) <> None.
Proof.
  induction cs as [|x cs IH]; intros i m H; simpl; [exact H|].
  apply IH. simpl. destruct (coord_eqb x c); [discriminate|exact H].
Qed.

Lemma assoc_index_map_in c cs : forall i m,
  In c cs -> assoc c (index_map i cs m) <> None.
Proof.
  induction cs as [|x cs IH]; intros i m H; simpl in *; [contradiction|].
  destruct H as [->|H].
  - apply assoc_index_map_mono. simpl. rewrite coord_eqb_refl. discriminate.
  - apply IH, H.
Qed.

Lemma idx_sound ps c k : idx ps c = Some k ->
  k < length (polygon_vertices ps) /\ nth_error (polygon_vertices ps) k = Some c.
Proof.
  unfold idx. intros H. apply assoc_index_map in H. destruct H as [[H1 H2]|H].
  - rewrite Nat.sub_0_r in H2. split; [lia|exact H2].
  - discriminate.
Qed.

Lemma idx_complete ps c : In c (polygon_vertices ps) -> exists k, idx ps c = Some k.
Proof.
  intros H. unfold idx. destruct (assoc c (index_map 0 (polygon_vertices ps) [])) eqn:E; eauto.
  exfalso. revert E. apply assoc_index_map_in, H.
Qed.

Lemma idx_in ps c k : idx ps c = Some k -> In c (polygon_vertices ps).
Proof. intros H. apply idx_sound in H. destruct H as [_ H]. eapply nth_error_In; eauto. Qed.

Lemma idx_inj ps a b k : idx ps a = Some k -> idx ps b = Some k -> a = b.
Proof.
  intros H1 H2. apply idx_sound in H1. apply idx_sound in H2.
  destruct H1 as [_ H1], H2 as [_ H2]. congruence.
Qed.

Lemma idx_none ps c : ~ In c (polygon_vertices ps) -> idx ps c = None.
Proof.
  intros H. destruct (idx ps c) eqn:E; [|reflexivity]. exfalso. apply H. eapply idx_in; eauto.
Qed.

(** ** Representation *)
Record repr (ps : list polygon) (F : nat -> nat -> Z) (g : graph) : Prop := {
  r_polys : g_polys g = ps;
  r_num : g_num g = length (polygon_vertices ps);
  r_index : g_index g = polygon_vertices ps;
  r_map : g_map g = index_map 0 (polygon_vertices ps) [];
  r_len : length (g_cells g) = g_num g * g_num g;
  r_cells : forall i j, i < g_num g -> j < g_num g ->
            nth_error (g_cells g) (i + g_num g * j) = Some (F i j)
}.

Lemma repr_make ps : repr ps (fun _ _ => 0%Z) (make_graph ps).
Proof.
  constructor; simpl; try reflexivity.
  - apply repeat_length.
  - intros i j Hi Hj. set (n := length (polygon_vertices ps)) in *.
    assert (H : i + n * j < length (repeat 0%Z (n * n))).
    { rewrite repeat_length. nia. }
    destruct (nth_error (repeat 0%Z (n * n)) (i + n * j)) eqn:E.
    + apply nth_error_In in E. apply repeat_spec in E. subst. reflexivity.
    + apply nth_error_None in E. lia.
Qed.

Lemma c2i_ok ps F g c : repr ps F g ->
  coordinate_to_index g c = match idx ps c with Some i => Ok i | None => Throw NotInGraph end.
Proof. intros R. unfold coordinate_to_index. rewrite (r_map _ _ _ R). reflexivity. Qed.

Lemma cell_get_ok ps F g i j : repr ps F g -> i < g_num g -> j < g_num g ->
  cell_get g (i + g_num g * j) = Ok (F i j).
Proof. intros R Hi Hj. unfold cell_get. rewrite (r_cells _ _ _ R) by assumption. reflexivity. Qed.

Definition F_upd (F : nat -> nat -> Z) (a b : nat) (x : Z) : nat -> nat -> Z :=
  fun i j => if (i =? a) && (j =? b) then x else F i j.

Lemma cell_inj n i j a b : i < n -> a < n -> i + n * j = a + n * b -> i = a /\ j = b.
Proof. intros. assert (j = b) by nia. subst. lia. Qed.

Lemma cell_set_ok ps F g a b x : repr ps F g -> a < g_num g -> b < g_num g ->
  exists g', cell_set g (cell_index g a b) x = Ok g' /\ repr ps (F_upd F a b x) g'.
Proof.
  intros R Ha Hb. unfold cell_set, cell_index.
  assert (L : a + g_num g * b < length (g_cells g)) by (rewrite (r_len _ _ _ R); nia).
  rewrite (proj2 (Nat.ltb_lt _ _) L). eexists. split; [reflexivity|].
  destruct R as [R1 R2 R3 R4 R5 R6]. constructor; simpl; auto.
  - rewrite upd_length. exact R5.
  - intros i j Hi Hj. rewrite nth_error_upd.
    rewrite (proj2 (Nat.ltb_lt _ _) L), andb_true_r. unfold F_upd.
    destruct (i + g_num g * j =? a + g_num g * b) eqn:E.
    + apply Nat.eqb_eq in E. apply cell_inj in E; auto. destruct E; subst.
      rewrite !Nat.eqb_refl. reflexivity.
    + rewrite R6 by assumption. destruct ((i =? a) && (j =? b)) eqn:E2; [|reflexivity].
      apply andb_prop in E2. destruct E2 as [E3 E4].
      apply Nat.eqb_eq in E3. apply Nat.eqb_eq in E4. subst.
      rewrite Nat.eqb_refl in E. discriminate.
Qed.

(** ** The directed operations *)
Definition bit (m : bool) : Z := if m then CONNECTED_OVER_MERIDIAN else CONNECTED.

Lemma add_directed_ok ps F g a b m ai bi : repr ps F g -> a <> b ->
  idx ps a = Some ai -> idx ps b = Some bi ->
  exists g', add_directed_edge g a b m = Ok g' /\ repr ps (F_upd F ai bi (Z.lor (F ai bi) (bit m))) g'.
Proof.
  intros R N Ia Ib. unfold add_directed_edge.
  rewrite (proj2 (coord_eqb_neq a b) N).
  rewrite !(c2i_ok ps F g) by assumption. rewrite Ia, Ib. simpl.
  apply idx_sound in Ia. apply idx_sound in Ib. rewrite <- (r_num _ _ _ R) in *.
  unfold cell_index at 1. rewrite (cell_get_ok ps F) by tauto. simpl.
  apply cell_set_ok; tauto.
Qed.

Lemma remove_directed_ok ps F g a b ai bi : repr ps F g -> a <> b ->
  idx ps a = Some ai -> idx ps b = Some bi ->
  exists g', remove_directed_edge g a b = Ok g' /\ repr ps (F_upd F ai bi 0%Z) g'.
Proof.
  intros R N Ia Ib. unfold remove_directed_edge.
  rewrite (proj2 (coord_eqb_neq a b) N).
  rewrite !(c2i_ok ps F g) by assumption. rewrite Ia, Ib. simpl.
  apply idx_sound in Ia. apply idx_sound in Ib. rewrite <- (r_num _ _ _ R) in *.
  apply cell_set_ok; tauto.
Qed.

Lemma add_directed_self g a m : add_directed_edge g a a m = Ok g.
Proof. unfold add_directed_edge. rewrite coord_eqb_refl. reflexivity. Qed.
Lemma remove_directed_self g a : remove_directed_edge g a a = Ok g.
Proof. unfold remove_directed_edge. rewrite coord_eqb_refl. reflexivity. Qed.

Lemma add_directed_throw ps F g a b m : repr ps F g -> a <> b ->
  (idx ps a = None \/ idx ps b = None) -> add_directed_edge g a b m = Throw NotInGraph.
Proof.
  intros R N H. unfold add_directed_edge. rewrite (proj2 (coord_eqb_neq a b) N).
  rewrite !(c2i_ok ps F g) by assumption.
  destruct (idx ps a); simpl; [|reflexivity].
  destruct (idx ps b); simpl; [|reflexivity]. destruct H; discriminate.
Qed.

Lemma remove_directed_throw ps F g a b : repr ps F g -> a <> b ->
  (idx ps a = None \/ idx ps b = None) -> remove_directed_edge g a b = Throw NotInGraph.
Proof.
  intros R N H. unfold remove_directed_edge. rewrite (proj2 (coord_eqb_neq a b) N).
  rewrite !(c2i_ok ps F g) by assumption.
  destruct (idx ps a); simpl; [|reflexivity].
  destruct (idx ps b); simpl; [|reflexivity]. destruct H; discriminate.
Qed.

(** ** Queries on a represented graph *)
Lemma has_edge_repr ps F g a b : repr ps F g ->
  has_edge g a b =
    if coord_eqb a b then Ok false else
    match idx ps a, idx ps b with
    | Some ai, Some bi => Ok (negb (F ai bi =? 0)%Z)
    | _, _ => Throw NotInGraph
    end.
Proof.
  intros R. unfold has_edge. destruct (coord_eqb a b); [reflexivity|].
  rewrite !(c2i_ok ps F g) by assumption.
  destruct (idx ps a) eqn:Ia; simpl; [|reflexivity].
  destruct (idx ps b) eqn:Ib; simpl; [|reflexivity].
  apply idx_sound in Ia. apply idx_sound in Ib. rewrite <- (r_num _ _ _ R) in *.
  unfold cell_index. rewrite (cell_get_ok ps F) by tauto. reflexivity.
Qed.

Lemma crossing_repr ps F g a b : repr ps F g ->
  is_edge_meridian_crossing g a b =
    if coord_eqb a b then Ok false else
    match idx ps a, idx ps b with
    | Some ai, Some bi => Ok (F ai bi =? 2)%Z
    | _, _ => Throw NotInGraph
    end.
Proof.
  intros R. unfold is_edge_meridian_crossing. destruct (coord_eqb a b); [reflexivity|].
  rewrite !(c2i_ok ps F g) by assumption.
  destruct (idx ps a) eqn:Ia; simpl; [|reflexivity].
  destruct (idx ps b) eqn:Ib; simpl; [|reflexivity].
  apply idx_sound in Ia. apply idx_sound in Ib. rewrite <- (r_num _ _ _ R) in *.
  unfold cell_index. rewrite (cell_get_ok ps F) by tauto. reflexivity.
Qed.

Lemma has_vertex_repr ps F g c : repr ps F g ->
  has_vertex g c = match idx ps c with Some _ => true | None => false end.
Proof. intros R. unfold has_vertex. rewrite (r_map _ _ _ R). reflexivity. Qed.

Lemma has_vertex_in ps F g c : repr ps F g ->
  (has_vertex g c = true <-> In c (polygon_vertices ps)).
Proof.
  intros R. rewrite (has_vertex_repr ps F) by assumption. split.
  - destruct (idx ps c) eqn:E; [|discriminate]. intros _. eapply idx_in; eauto.
  - intros H. apply idx_complete in H. destruct H as [k ->]. reflexivity.
Qed.

Lemma foldM_ok_ind {A S} (f : S -> A -> res S) (P : list A -> S -> Prop) s0 :
  P [] s0 ->
  (forall done s x, P done s -> exists s', f s x = Ok s' /\ P (done ++ [x]) s') ->
  forall l, exists s, foldM f l s0 = Ok s /\ P l s.
Proof.
  intros H0 Hs l.
  enough (G : forall l done s, P done s -> exists s', foldM f l s = Ok s' /\ P (done ++ l) s').
  { exact (G l [] s0 H0). }
  clear l. induction l as [|x l IH]; intros done s Hd; simpl.
  - rewrite app_nil_r. eauto.
  - destruct (Hs _ _ x Hd) as (s' & E & Hs'). rewrite E. simpl.
    destruct (IH _ _ Hs') as (s'' & E2 & H2). exists s''. split; [exact E2|].
    rewrite <- app_assoc in H2. exact H2.
Qed.

(** same, for a fold restricted to elements satisfying a predicate *)
Lemma foldM_ok_ind_in {A S} (f : S -> A -> res S) (P : list A -> S -> Prop) s0 l0 :
  P [] s0 ->
  (forall done s x, In x l0 -> P done s -> exists s', f s x = Ok s' /\ P (done ++ [x]) s') ->
  exists s, foldM f l0 s0 = Ok s /\ P l0 s.
Proof.
  intros H0 Hs.
  enough (G : forall l done s, incl l l0 -> P done s -> exists s', foldM f l s = Ok s' /\ P (done ++ l) s').
  { exact (G l0 [] s0 (incl_refl _) H0). }
  induction l as [|x l IH]; intros done s Hi Hd; simpl.
  - rewrite app_nil_r. eauto.
  - destruct (Hs _ _ x (Hi x (or_introl eq_refl)) Hd) as (s' & E & Hs'). rewrite E. simpl.
    destruct (IH _ _ (fun y Hy => Hi y (or_intror Hy)) Hs') as (s'' & E2 & H2). exists s''. split; [exact E2|].
    rewrite <- app_assoc in H2. exact H2.
Qed.

(** [get_neighbors] as a filter over the index list. *)
Definition nbrs (ps : list polygon) (F : nat -> nat -> Z) (j : nat) : list coord :=
  map (vnth (polygon_vertices ps))
      (filter (fun i => negb (F i j =? 0)%Z) (seq 0 (length (polygon_vertices ps)))).

Lemma get_neighbors_repr ps F g v : repr ps F g ->
  get_neighbors g v =
    match idx ps v with Some j => Ok (nbrs ps F j) | None => Throw NotInGraph end.
Proof.
  intros R. unfold get_neighbors. rewrite (c2i_ok ps F g) by assumption.
  destruct (idx ps v) as [j|] eqn:Iv; simpl; [|reflexivity].
  apply idx_sound in Iv. rewrite <- (r_num _ _ _ R) in Iv. destruct Iv as [Hj _].
  unfold nbrs. rewrite <- (r_num _ _ _ R).
  destruct (foldM_ok_ind_in
    (fun acc i_offset =>
           x <- cell_get g (i_offset + j * g_num g)%nat ;;
           if (x =? 0)%Z then Ok acc
           else c <- index_to_coordinate g i_offset ;; Ok (acc ++ [c]))
    (fun done s => s = map (vnth (polygon_vertices ps)) (filter (fun i => negb (F i j =? 0)%Z) done))
    [] (seq 0 (g_num g))) as (s & E & Hs).
  - reflexivity.
  - intros done s i Hi ->. apply in_seq in Hi.
    rewrite (Nat.mul_comm j). rewrite (cell_get_ok ps F) by (assumption || lia). simpl.
    rewrite filter_app, map_app. simpl.
    destruct (F i j =? 0)%Z; simpl.
    + rewrite app_nil_r. eauto.
    + unfold index_to_coordinate. rewrite (r_index _ _ _ R).
      assert (Hl : i < length (polygon_vertices ps)) by (rewrite <- (r_num _ _ _ R); lia).
      destruct (nth_error (polygon_vertices ps) i) eqn:E; [|apply nth_error_None in E; lia].
      simpl. eexists. split; [reflexivity|]. unfold vnth.
      rewrite (nth_error_nth _ _ _ E). reflexivity.
  - rewrite E, Hs. reflexivity.
Qed.

(** ** Histories *)
Fixpoint enc (fs : list bool) : Z :=
  match fs with [] => 0%Z | m :: fs' => Z.lor (enc fs') (bit m) end.

Lemma enc_cases fs :
  (fs = [] /\ enc fs = 0%Z) \/
  (fs <> [] /\ forallb (fun m => m) fs = true /\ enc fs = 2%Z) \/
  (fs <> [] /\ forallb (fun m => m) fs = false /\ (enc fs = 1%Z \/ enc fs = 3%Z)).
Proof.
  induction fs as [|m fs IH]; [left; auto|right].
  destruct IH as [[-> E]|[(N & A & E)|(N & A & E)]]; simpl.
  - destruct m; [left|right]; (repeat split; [discriminate|..]); auto.
  - rewrite E, A. destruct m; simpl; [left|right]; (repeat split; [discriminate|..]); auto.
  - rewrite A, andb_false_r. right. repeat split; [discriminate|].
    destruct E as [-> | ->]; destruct m; simpl; auto.
Qed.

Lemma enc_eq0 fs : (enc fs =? 0)%Z = match fs with [] => true | _ => false end.
Proof.
  destruct (enc_cases fs) as [[-> E]|[(N & A & E)|(N & A & [E|E])]]; try rewrite E; simpl; auto;
  destruct fs; congruence.
Qed.

Lemma enc_eq2 fs : (enc fs =? 2)%Z =
  match fs with [] => false | _ => forallb (fun m => m) fs end.
Proof.
  destruct (enc_cases fs) as [[-> E]|[(N & A & E)|(N & A & [E|E])]].
  - subst. reflexivity.
  - rewrite E. destruct fs; [congruence|]. rewrite A. reflexivity.
  - rewrite E. destruct fs; [congruence|]. rewrite A. reflexivity.
  - rewrite E. destruct fs; [congruence|]. rewrite A. reflexivity.
Qed.

(** The matrix content after a history given newest first. *)
Definition rep_hist (ps : list polygon) (h : list gop) (F : nat -> nat -> Z) : Prop :=
  (forall a b ai bi, a <> b -> idx ps a = Some ai -> idx ps b = Some bi ->
     F ai bi = enc (adds_since_removal a b h)) /\
  (forall i j, F i j <> 0%Z -> exists a b, a <> b /\ idx ps a = Some i /\ idx ps b = Some j).

Lemma rep_hist_nil ps : rep_hist ps [] (fun _ _ => 0%Z).
Proof. split; [reflexivity|]. intros i j H. congruence. Qed.

Lemma rep_hist_upd_other ps h o F :
  rep_hist ps h F ->
  (forall a b, a <> b -> idx ps a <> None -> idx ps b <> None -> event_of a b o = None) ->
  rep_hist ps (o :: h) F.
Proof.
  intros [H1 H2] He. split; [|exact H2].
  intros a b ai bi N Ia Ib. simpl. rewrite He by congruence. apply H1; auto.
Qed.

Lemma same_spec a b x y : same a b x y = true <-> a = x /\ b = y.
Proof. unfold same. rewrite andb_true_iff, !coord_eqb_spec. reflexivity. Qed.
Lemma same_false a b x y : same a b x y = false <-> ~ (a = x /\ b = y).
Proof.
  rewrite <- same_spec. destruct (same a b x y); split; intros; congruence.
Qed.

(** one directed write seen by all pairs *)
Lemma F_upd_hit F a b x : F_upd F a b x a b = x.
Proof. unfold F_upd. rewrite !Nat.eqb_refl. reflexivity. Qed.
Lemma F_upd_miss F a b x i j : (i, j) <> (a, b) -> F_upd F a b x i j = F i j.
Proof.
  unfold F_upd. intros H. destruct ((i =? a) && (j =? b)) eqn:E; [|reflexivity].
  apply andb_prop in E. destruct E as [E1 E2]. apply Nat.eqb_eq in E1. apply Nat.eqb_eq in E2.
  subst. congruence.
Qed.

Lemma idx_pair_inj ps a b x y ai bi xi yi :
  idx ps a = Some ai -> idx ps b = Some bi -> idx ps x = Some xi -> idx ps y = Some yi ->
  ~ (a = x /\ b = y) -> (ai, bi) <> (xi, yi).
Proof.
  intros A B X Y N E. inversion E; subst. apply N. split; eapply idx_inj; eauto.
Qed.

Section Steps.
Variable ps : list polygon.

Lemma rep_hist_add_dir h F x y m xi yi : rep_hist ps h F -> x <> y ->
  idx ps x = Some xi -> idx ps y = Some yi ->
  rep_hist ps (GAddDir x y m :: h) (F_upd F xi yi (Z.lor (F xi yi) (bit m))).
Proof.
  intros [H1 H2] N X Y. split.
  - intros a b ai bi Nab A B. simpl.
    destruct (same a b x y) eqn:E.
    + apply same_spec in E. destruct E; subst.
      replace ai with xi by congruence. replace bi with yi by congruence.
      rewrite F_upd_hit. simpl. erewrite H1; eauto.
    + apply same_false in E. rewrite F_upd_miss by (eapply idx_pair_inj; eauto). eauto.
  - intros i j H. destruct (Nat.eq_dec i xi), (Nat.eq_dec j yi); subst;
      try (rewrite F_upd_miss in H by congruence; auto).
    exists x, y. auto.
Qed.

Lemma rep_hist_rem_dir h F x y xi yi : rep_hist ps h F -> x <> y ->
  idx ps x = Some xi -> idx ps y = Some yi ->
  rep_hist ps (GRemDir x y :: h) (F_upd F xi yi 0%Z).
Proof.
  intros [H1 H2] N X Y. split.
  - intros a b ai bi Nab A B. simpl.
    destruct (same a b x y) eqn:E.
    + apply same_spec in E. destruct E; subst.
      replace ai with xi by congruence. replace bi with yi by congruence.
      rewrite F_upd_hit. reflexivity.
    + apply same_false in E. rewrite F_upd_miss by (eapply idx_pair_inj; eauto). eauto.
  - intros i j H. destruct (Nat.eq_dec i xi), (Nat.eq_dec j yi); subst;
      try (rewrite F_upd_miss in H by congruence; auto).
    exists x, y. auto.
Qed.

(** an undirected call is the two directed ones *)
Lemma adds_since_GAdd a b x y m h : x <> y ->
  adds_since_removal a b (GAdd x y m :: h) =
  adds_since_removal a b (GAddDir y x m :: GAddDir x y m :: h).
Proof.
  intros N. simpl. destruct (same a b x y) eqn:E1, (same a b y x) eqn:E2; simpl; try reflexivity.
  apply same_spec in E1. apply same_spec in E2. destruct E1, E2. congruence.
Qed.
Lemma adds_since_GRem a b x y h :
  adds_since_removal a b (GRem x y :: h) =
  adds_since_removal a b (GRemDir y x :: GRemDir x y :: h).
Proof.
  simpl. destruct (same a b x y) eqn:E1, (same a b y x) eqn:E2; simpl; reflexivity.
Qed.

Lemma same_self_event a b y : a <> b -> same a b y y = false.
Proof. intros N. apply same_false. intros [-> ->]. congruence. Qed.

Lemma gstep_spec F g h o : repr ps F g -> rep_hist ps h F ->
  exists F' g', gstep_catch g o = Ok g' /\ repr ps F' g' /\ rep_hist ps (o :: h) F' /\
    (gstep g o = Ok g' \/ (gstep g o = Throw NotInGraph /\ g' = g)).
Proof.
  intros R H. unfold gstep_catch.
  assert (Self : forall o, (forall a b, a <> b -> event_of a b o = None) -> rep_hist ps (o :: h) F).
  { intros o' He. apply rep_hist_upd_other; auto. }
  destruct o as [x y m|x y m|x y|x y]; simpl.
  - (* GAdd *)
    destruct (coord_dec x y) as [->|N].
    + unfold add_edge. rewrite add_directed_self. simpl. rewrite add_directed_self.
      exists F, g. split; [reflexivity|]. split; [exact R|]. split; [|auto].
      apply Self. intros a b Nab. simpl. rewrite same_self_event; auto.
    + destruct (idx ps x) as [xi|] eqn:X; [destruct (idx ps y) as [yi|] eqn:Y|].
      * destruct (add_directed_ok ps F g x y m xi yi R N X Y) as (g1 & E1 & R1).
        destruct (add_directed_ok ps _ g1 y x m yi xi R1 (not_eq_sym N) Y X) as (g2 & E2 & R2).
        unfold add_edge. rewrite E1. simpl. rewrite E2.
        eexists. exists g2. split; [reflexivity|]. split; [exact R2|]. split; [|auto].
        pose proof (rep_hist_add_dir _ _ y x m yi xi
             (rep_hist_add_dir h F x y m xi yi H N X Y) (not_eq_sym N) Y X) as [P1 P2].
        split; [|exact P2].
        intros a b ai bi Nab A B. rewrite adds_since_GAdd by assumption. apply P1; auto.
      * unfold add_edge. rewrite (add_directed_throw ps F) by auto. simpl.
        exists F, g. split; [reflexivity|]. split; [exact R|]. split; [|auto].
        eapply rep_hist_upd_other; eauto. intros a b _ Ia Ib. simpl.
        rewrite (proj2 (same_false a b x y)), (proj2 (same_false a b y x)); auto;
          intros [-> ->]; congruence.
      * unfold add_edge. rewrite (add_directed_throw ps F) by auto. simpl.
        exists F, g. split; [reflexivity|]. split; [exact R|]. split; [|auto].
        eapply rep_hist_upd_other; eauto. intros a b _ Ia Ib. simpl.
        rewrite (proj2 (same_false a b x y)), (proj2 (same_false a b y x)); auto;
          intros [-> ->]; congruence.
  - (* GAddDir *)
    destruct (coord_dec x y) as [->|N].
    + rewrite add_directed_self.
      exists F, g. split; [reflexivity|]. split; [exact R|]. split; [|auto].
      apply Self. intros a b Nab. simpl. rewrite same_self_event; auto.
    + destruct (idx ps x) as [xi|] eqn:X; [destruct (idx ps y) as [yi|] eqn:Y|].
      * destruct (add_directed_ok ps F g x y m xi yi R N X Y) as (g1 & E1 & R1).
        rewrite E1. eexists. exists g1. split; [reflexivity|]. split; [exact R1|].
        split; [apply rep_hist_add_dir; auto|auto].
      * rewrite (add_directed_throw ps F) by auto.
        exists F, g. split; [reflexivity|]. split; [exact R|]. split; [|auto].
        eapply rep_hist_upd_other; eauto. intros a b _ Ia Ib. simpl.
        rewrite (proj2 (same_false a b x y)); auto; intros [-> ->]; congruence.
      * rewrite (add_directed_throw ps F) by auto.
        exists F, g. split; [reflexivity|]. split; [exact R|]. split; [|auto].
        eapply rep_hist_upd_other; eauto. intros a b _ Ia Ib. simpl.
        rewrite (proj2 (same_false a b x y)); auto; intros [-> ->]; congruence.
  - (* GRem *)
    destruct (coord_dec x y) as [->|N].
    + unfold remove_edge. rewrite remove_directed_self. simpl. rewrite remove_directed_self.
      exists F, g. split; [reflexivity|]. split; [exact R|]. split; [|auto].
      apply Self. intros a b Nab. simpl. rewrite same_self_event; auto.
    + destruct (idx ps x) as [xi|] eqn:X; [destruct (idx ps y) as [yi|] eqn:Y|].
      * destruct (remove_directed_ok ps F g x y xi yi R N X Y) as (g1 & E1 & R1).
        destruct (remove_directed_ok ps _ g1 y x yi xi R1 (not_eq_sym N) Y X) as (g2 & E2 & R2).
        unfold remove_edge. rewrite E1. simpl. rewrite E2.
        eexists. exists g2. split; [reflexivity|]. split; [exact R2|]. split; [|auto].
        pose proof (rep_hist_rem_dir _ _ y x yi xi
             (rep_hist_rem_dir h F x y xi yi H N X Y) (not_eq_sym N) Y X) as [P1 P2].
        split; [|exact P2].
        intros a b ai bi Nab A B. rewrite adds_since_GRem by assumption. apply P1; auto.
      * unfold remove_edge. rewrite (remove_directed_throw ps F) by auto. simpl.
        exists F, g. split; [reflexivity|]. split; [exact R|]. split; [|auto].
        eapply rep_hist_upd_other; eauto. intros a b _ Ia Ib. simpl.
        rewrite (proj2 (same_false a b x y)), (proj2 (same_false a b y x)); auto;
          intros [-> ->]; congruence.
      * unfold remove_edge. rewrite (remove_directed_throw ps F) by auto. simpl.
        exists F, g. split; [reflexivity|]. split; [exact R|]. split; [|auto].
        eapply rep_hist_upd_other; eauto. intros a b _ Ia Ib. simpl.
        rewrite (proj2 (same_false a b x y)), (proj2 (same_false a b y x)); auto;
          intros [-> ->]; congruence.
  - (* GRemDir *)
    destruct (coord_dec x y) as [->|N].
    + rewrite remove_directed_self.
      exists F, g. split; [reflexivity|]. split; [exact R|]. split; [|auto].
      apply Self. intros a b Nab. simpl. rewrite same_self_event; auto.
    + destruct (idx ps x) as [xi|] eqn:X; [destruct (idx ps y) as [yi|] eqn:Y|].
      * destruct (remove_directed_ok ps F g x y xi yi R N X Y) as (g1 & E1 & R1).
        rewrite E1. eexists. exists g1. split; [reflexivity|]. split; [exact R1|].
        split; [apply rep_hist_rem_dir; auto|auto].
      * rewrite (remove_directed_throw ps F) by auto.
        exists F, g. split; [reflexivity|]. split; [exact R|]. split; [|auto].
        eapply rep_hist_upd_other; eauto. intros a b _ Ia Ib. simpl.
        rewrite (proj2 (same_false a b x y)); auto; intros [-> ->]; congruence.
      * rewrite (remove_directed_throw ps F) by auto.
        exists F, g. split; [reflexivity|]. split; [exact R|]. split; [|auto].
        eapply rep_hist_upd_other; eauto. intros a b _ Ia Ib. simpl.
        rewrite (proj2 (same_false a b x y)); auto; intros [-> ->]; congruence.
Qed.

Lemma grun_spec h : exists F g, grun (make_graph ps) h = Ok g /\ repr ps F g /\ rep_hist ps (rev h) F.
Proof.
  unfold grun.
  destruct (foldM_ok_ind gstep_catch
    (fun done g => exists F, repr ps F g /\ rep_hist ps (rev done) F) (make_graph ps)) with (l := h)
    as (g & E & F & R & H).
  - exists (fun _ _ => 0%Z). split; [apply repr_make|apply rep_hist_nil].
  - intros done g o (F & R & H).
    destruct (gstep_spec F g (rev done) o R H) as (F' & g' & E & R' & H' & _).
    exists g'. split; [exact E|]. exists F'. split; [exact R'|].
    rewrite rev_unit. exact H'.
  - eauto.
Qed.

(** The queries after a history. *)
Lemma grun_queries h g : grun (make_graph ps) h = Ok g ->
  forall a b,
    (a <> b -> In a (polygon_vertices ps) -> In b (polygon_vertices ps) ->
       has_edge g a b = Ok (spec_connected a b h) /\
       is_edge_meridian_crossing g a b = Ok (spec_crossing a b h)) /\
    (a <> b -> (~ In a (polygon_vertices ps) \/ ~ In b (polygon_vertices ps)) ->
       has_edge g a b = Throw NotInGraph /\ is_edge_meridian_crossing g a b = Throw NotInGraph) /\
    (a = b -> has_edge g a b = Ok false /\ is_edge_meridian_crossing g a b = Ok false).
Proof.
  intros E a b. destruct (grun_spec h) as (F & g' & E' & R & H).
  rewrite E in E'. inversion E'; subst g'. clear E'.
  rewrite (has_edge_repr ps F), (crossing_repr ps F) by assumption.
  repeat split.
  - intros. rewrite (proj2 (coord_eqb_neq a b)) by assumption.
    destruct (idx_complete ps a) as [ai Ia]; auto. destruct (idx_complete ps b) as [bi Ib]; auto.
    rewrite Ia, Ib. rewrite (proj1 H a b) by assumption. rewrite enc_eq0.
    unfold spec_connected, spec_view. destruct (adds_since_removal a b (rev h)); reflexivity.
  - rewrite (proj2 (coord_eqb_neq a b)) by assumption.
    destruct (idx_complete ps a) as [ai Ia]; auto. destruct (idx_complete ps b) as [bi Ib]; auto.
    rewrite Ia, Ib. rewrite (proj1 H a b) by assumption. rewrite enc_eq2.
    unfold spec_crossing, spec_view. destruct (adds_since_removal a b (rev h)); [reflexivity|].
    destruct (forallb _ _); reflexivity.
  - rewrite (proj2 (coord_eqb_neq a b)) by assumption.
    destruct H1 as [H1|H1]; apply idx_none in H1; rewrite H1; [reflexivity|].
    destruct (idx ps a); reflexivity.
  - rewrite (proj2 (coord_eqb_neq a b)) by assumption.
    destruct H1 as [H1|H1]; apply idx_none in H1; rewrite H1; [reflexivity|].
    destruct (idx ps a); reflexivity.
  - subst. rewrite coord_eqb_refl. reflexivity.
  - subst. rewrite coord_eqb_refl. reflexivity.
Qed.

Lemma nbrs_in F h j v u : rep_hist ps h F -> idx ps v = Some j ->
  (In u (nbrs ps F j) <->
   u <> v /\ In u (polygon_vertices ps) /\ adds_since_removal u v h <> []).
Proof.
  intros [H1 H2] Iv. unfold nbrs. rewrite in_map_iff. split.
  - intros (i & <- & Hi). apply filter_In in Hi. destruct Hi as [Hi Hn].
    apply negb_true_iff, Z.eqb_neq in Hn.
    destruct (H2 _ _ Hn) as (a & b & N & Ia & Ib).
    assert (b = v) by (eapply idx_inj; eauto). subst b.
    pose proof (idx_sound _ _ _ Ia) as [Hl Hnth].
    unfold vnth. rewrite (nth_error_nth _ _ _ Hnth). split; [exact N|].
    split; [eapply idx_in; eauto|].
    rewrite (H1 a v i j N Ia Iv) in Hn. intros E. rewrite E in Hn. simpl in Hn. congruence.
  - intros (N & Hu & Ha). destruct (idx_complete ps u Hu) as [i Ii].
    exists i. pose proof (idx_sound _ _ _ Ii) as [Hl Hnth]. split.
    + unfold vnth. apply nth_error_nth. exact Hnth.
    + apply filter_In. split; [apply in_seq; lia|].
      rewrite (H1 u v i j N Ii Iv). rewrite enc_eq0. destruct (adds_since_removal u v h); [congruence|reflexivity].
Qed.

Lemma NoDup_map_inj_in {A B} (f : A -> B) l :
  (forall x y, In x l -> In y l -> f x = f y -> x = y) -> NoDup l -> NoDup (map f l).
Proof.
  intros Hf Hn. induction Hn as [|x l Hx Hn IH]; simpl; constructor.
  - intros H. apply in_map_iff in H. destruct H as (y & E & Hy).
    apply Hx. replace x with y; auto. apply Hf; simpl; auto.
  - apply IH. intros; apply Hf; simpl; auto.
Qed.

Lemma nbrs_NoDup F h j : rep_hist ps h F -> NoDup (nbrs ps F j).
Proof.
  intros [H1 H2]. unfold nbrs. apply NoDup_map_inj_in.
  - intros x y Hx Hy E. apply filter_In in Hx. apply filter_In in Hy.
    destruct Hx as [_ Hx], Hy as [_ Hy].
    apply negb_true_iff, Z.eqb_neq in Hx. apply negb_true_iff, Z.eqb_neq in Hy.
    destruct (H2 _ _ Hx) as (a & b & _ & Ia & _). destruct (H2 _ _ Hy) as (c & d & _ & Ic & _).
    pose proof (idx_sound _ _ _ Ia) as [_ Na]. pose proof (idx_sound _ _ _ Ic) as [_ Nc].
    unfold vnth in E. rewrite (nth_error_nth _ _ _ Na), (nth_error_nth _ _ _ Nc) in E. subst. congruence.
  - apply NoDup_filter, seq_NoDup.
Qed.

Lemma grun_neighbors h g v : grun (make_graph ps) h = Ok g ->
  (In v (polygon_vertices ps) ->
     exists l, get_neighbors g v = Ok l /\ NoDup l /\
       forall u, In u l <-> u <> v /\ In u (polygon_vertices ps) /\ spec_connected u v h = true) /\
  (~ In v (polygon_vertices ps) -> get_neighbors g v = Throw NotInGraph).
Proof.
  intros E. destruct (grun_spec h) as (F & g' & E' & R & H).
  rewrite E in E'. inversion E'; subst g'. clear E'.
  rewrite (get_neighbors_repr ps F) by assumption. split.
  - intros Hv. destruct (idx_complete ps v Hv) as [j Ij]. rewrite Ij.
    eexists. split; [reflexivity|]. split; [eapply nbrs_NoDup; eauto|].
    intros u. rewrite nbrs_in by eauto. unfold spec_connected, spec_view.
    destruct (adds_since_removal u v (rev h)); intuition congruence.
  - intros Hv. rewrite idx_none by assumption. reflexivity.
Qed.

End Steps.

(** ** Consequences at the level of histories *)
Lemma event_of_sym a b o : undirected o -> event_of a b o = event_of b a o.
Proof.
  destruct o; simpl; intros H; try contradiction; unfold same;
    rewrite orb_comm, (andb_comm (coord_eqb a a0)), (andb_comm (coord_eqb a b0)); reflexivity.
Qed.

Lemma adds_sym a b h : Forall undirected h -> adds_since_removal a b h = adds_since_removal b a h.
Proof.
  induction 1 as [|o h Ho Hh IH]; simpl; [reflexivity|].
  rewrite (event_of_sym a b o Ho), IH. reflexivity.
Qed.

Lemma spec_view_sym a b h : Forall undirected h -> spec_view a b h = spec_view b a h.
Proof.
  intros H. unfold spec_view. rewrite (adds_sym a b); [reflexivity|].
  apply Forall_rev. exact H.
Qed.

(** For pure additions the view is order independent. *)
Lemma adds_of_adds a b h f : Forall is_add h ->
  (In f (adds_since_removal a b h) <-> exists o, In o h /\ event_of a b o = Some (Some f)).
Proof.
  induction 1 as [|o h Ho Hh IH]; simpl.
  - split; [contradiction|]. intros (o & [] & _).
  - destruct (event_of a b o) as [[m|]|] eqn:E.
    + simpl. rewrite IH. split.
      * intros [->|(o' & H & H')]; eauto.
      * intros (o' & [->|H] & H'); [left; congruence|right; eauto].
    + destruct o; simpl in *; try contradiction. destruct (same _ _ _ _ || _); discriminate.
    + rewrite IH. split.
      * intros (o' & H & H'); eauto.
      * intros (o' & [->|H] & H'); [congruence|eauto].
Qed.

Lemma forallb_ext_set (l1 l2 : list bool) :
  (forall f, In f l1 <-> In f l2) ->
  forallb (fun m => m) l1 = forallb (fun m => m) l2.
Proof.
  intros H. apply eq_true_iff_eq. rewrite !forallb_forall. split; intros G x Hx; apply G, H, Hx.
Qed.

Lemma spec_view_adds a b h1 h2 : Forall is_add h1 -> Forall is_add h2 ->
  (forall o, In o h1 <-> In o h2) -> spec_view a b h1 = spec_view a b h2.
Proof.
  intros A1 A2 H. unfold spec_view.
  assert (G : forall f, In f (adds_since_removal a b (rev h1)) <-> In f (adds_since_removal a b (rev h2))).
  { intros f. rewrite !adds_of_adds by (apply Forall_rev; assumption).
    split; intros (o & Ho & Ev); exists o; (split; [|exact Ev]);
      apply -> in_rev; apply in_rev in Ho; apply H; exact Ho. }
  pose proof (forallb_ext_set _ _ G) as Hf.
  destruct (adds_since_removal a b (rev h1)) as [|x l1] eqn:E1,
           (adds_since_removal a b (rev h2)) as [|y l2] eqn:E2; try reflexivity.
  - exfalso. apply (proj2 (G y)). left; reflexivity.
  - exfalso. apply (proj1 (G x)). left; reflexivity.
  - rewrite Hf. reflexivity.
Qed.
