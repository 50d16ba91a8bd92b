(** The overlay graph: what its entries say after a history of calls. *)
From Coq Require Import ZArith Bool List Lia Permutation.
From Verif Require Import Base F64 Coordinate Segment Polygon Graph SpecGraph GraphFacts GraphMore Overlay.
Import ListNotations.

(** ** Association lists *)
Lemma assoc_put {A} k (v : A) l x : assoc x (put k v l) = if coord_eqb k x then Some v else assoc x l.
Proof.
  induction l as [|[k' v'] l IH]; cbn [put assoc].
  - reflexivity.
  - destruct (coord_eqb k' k) eqn:E; cbn [assoc].
    + apply coord_eqb_spec in E. subst k'. destruct (coord_eqb k x); reflexivity.
    + rewrite IH. destruct (coord_eqb k' x) eqn:E2; [|reflexivity].
      apply coord_eqb_spec in E2. subst k'. rewrite coord_eqb_sym, E. reflexivity.
Qed.
Lemma put_keys {A} k (v : A) l : forall x, In x (map fst (put k v l)) <-> x = k \/ In x (map fst l).
Proof.
  intros x. induction l as [|[k' v'] l IH]; cbn [put map fst].
  - cbn. intuition.
  - destruct (coord_eqb k' k) eqn:E; cbn [map fst In].
    + apply coord_eqb_spec in E. subst. intuition.
    + rewrite IH. intuition.
Qed.
Lemma put_NoDup {A} k (v : A) l : NoDup (map fst l) -> NoDup (map fst (put k v l)).
Proof.
  induction l as [|[k' v'] l IH]; intros N; cbn [put].
  - repeat constructor; intros [].
  - cbn [map fst] in N. inversion N as [|? ? N1 N2]; subst. destruct (coord_eqb k' k) eqn:E; cbn [map fst].
    + constructor; assumption.
    + constructor; [|auto]. rewrite put_keys. intros [->|H]; [rewrite coord_eqb_refl in E; discriminate|auto].
Qed.
Lemma assoc_in {A} k (v : A) l : NoDup (map fst l) -> (assoc k l = Some v <-> In (k, v) l).
Proof.
  induction l as [|[k' v'] l IH]; intros N; cbn [assoc].
  - split; [discriminate|intros []].
  - cbn [map fst] in N. inversion N as [|? ? N1 N2]; subst. destruct (coord_eqb k' k) eqn:E.
    + apply coord_eqb_spec in E. subst k'. split.
      * intros H. inversion H. left. reflexivity.
      * intros [H|H]; [inversion H; reflexivity|]. exfalso. apply N1. apply in_map_iff. exists (k, v). auto.
    + rewrite IH by assumption. split; [intros H; right; exact H|].
      intros [H|H]; [inversion H; subst; rewrite coord_eqb_refl in E; discriminate|exact H].
Qed.
Lemma assoc_none {A} k (l : list (coord * A)) : assoc k l = None <-> ~ In k (map fst l).
Proof.
  induction l as [|[k' v'] l IH]; cbn [assoc map fst In]; [tauto|].
  destruct (coord_eqb k' k) eqn:E.
  - apply coord_eqb_spec in E. split; [discriminate|intros H; exfalso; apply H; left; exact E].
  - apply coord_eqb_neq in E. rewrite IH. tauto.
Qed.

(** ** The two primitive updates *)
Lemma base_touch m a : m_base (m_touch m a) = m_base m.
Proof. unfold m_touch. destruct (assoc a (m_nb m)); reflexivity. Qed.
Lemma entry_touch m x a b : m_entry (m_touch m x) a b = m_entry m a b.
Proof.
  unfold m_touch. destruct (assoc x (m_nb m)) eqn:E; [reflexivity|]. unfold m_entry. cbn [m_nb]. rewrite assoc_put.
  destruct (coord_eqb x a) eqn:C; [|reflexivity]. apply coord_eqb_spec in C. subst. rewrite E. reflexivity.
Qed.
Lemma entry_set m x y i a b : m_entry (m_set m x y i) a b = if same a b x y then Some i else m_entry m a b.
Proof.
  unfold m_entry, m_set, same. cbn [m_nb]. rewrite assoc_put, (coord_eqb_sym a x), (coord_eqb_sym b y).
  destruct (coord_eqb x a) eqn:C; cbn [andb]; [|reflexivity]. apply coord_eqb_spec in C. subst. rewrite assoc_put.
  destruct (coord_eqb y b); [reflexivity|]. destruct (assoc a (m_nb m)); reflexivity.
Qed.
Definition m_known (m : mgraph) (v : coord) : bool := match assoc v (m_nb m) with Some _ => true | None => false end.
Lemma known_touch m x v : m_known (m_touch m x) v = coord_eqb x v || m_known m v.
Proof.
  unfold m_touch, m_known. destruct (assoc x (m_nb m)) eqn:E.
  - destruct (coord_eqb x v) eqn:C; [|reflexivity]. apply coord_eqb_spec in C. subst. rewrite E. reflexivity.
  - cbn [m_nb]. rewrite assoc_put. destruct (coord_eqb x v); reflexivity.
Qed.
Lemma known_set m x y i v : m_known (m_set m x y i) v = coord_eqb x v || m_known m v.
Proof. unfold m_set, m_known. cbn [m_nb]. rewrite assoc_put. destruct (coord_eqb x v); reflexivity. Qed.

(** ** One directed call *)
Definition fresh_cross (g : graph) (a b : coord) (f : bool) : bool :=
  f && match answer g a b with None => true | Some c => c end.
Definition estep (g : graph) (a b : coord) (e : event) (s : option ninfo) : option ninfo :=
  match e with
  | None => s
  | Some None => Some (mkN false false)
  | Some (Some f) => match s with
                     | None => Some (mkN (fresh_cross g a b f) true)
                     | Some i => Some (mkN (f && n_cross i) true)
                     end
  end.

(** the base graph knows both ends (or the flag is not set) *)
Definition decided (g : graph) (a b : coord) (f : bool) : Prop :=
  f = true -> a = b \/ (has_vertex g a = true /\ has_vertex g b = true).

Section Base.
Variables (ps : list polygon) (hb : list gop) (g : graph).
Hypothesis G : grun (make_graph ps) hb = Ok g.

Lemma hv v : has_vertex g v = true <-> In v (polygon_vertices ps).
Proof. apply (built_has_vertex ps hb g v G). Qed.

Lemma base_cross a b f : a <> b -> decided g a b f ->
  (if f then e <- has_edge g a b ;; if e then is_edge_meridian_crossing g a b else Ok true else Ok false) = Ok (fresh_cross g a b f).
Proof.
  intros N D. destruct f; [|reflexivity]. destruct (D eq_refl) as [E|[A B]]; [contradiction|].
  apply hv in A. apply hv in B. destruct (grun_queries ps hb g G a b) as (Q & _). destruct (Q N A B) as [Q1 Q2].
  unfold fresh_cross, answer. rewrite Q1, Q2. cbn [bind]. destruct (spec_connected a b hb); reflexivity.
Qed.

Lemma add_directed_spec m x y f : m_base m = g -> decided g x y f ->
  exists m', m_add_directed_edge m x y f = (m', Ok tt) /\ m_base m' = g /\
    (forall a b, a <> b -> m_entry m' a b = if same a b x y then estep g a b (Some (Some f)) (m_entry m a b) else m_entry m a b) /\
    (forall v, m_entry m' v v = m_entry m v v) /\
    (forall v, m_known m' v = (negb (coord_eqb x y) && coord_eqb x v) || m_known m v).
Proof.
  intros Hb D. unfold m_add_directed_edge. destruct (coord_eqb x y) eqn:C.
  - apply coord_eqb_spec in C. subst y. exists m. split; [reflexivity|]. split; [exact Hb|]. split; [|split].
    + intros a b N. destruct (same a b x x) eqn:S; [|reflexivity]. apply same_spec in S. destruct S. congruence.
    + reflexivity.
    + reflexivity.
  - apply coord_eqb_neq in C. rewrite base_touch, Hb, entry_touch. rewrite (base_cross x y f C D).
    assert (K : forall i, exists m', (m_set (m_touch m x) x y i, Ok tt) = (m', @Ok unit tt) /\ m_base m' = g /\
      (forall a b, m_entry m' a b = if same a b x y then Some i else m_entry m a b) /\
      (forall v, m_known m' v = coord_eqb x v || m_known m v)).
    { intros i. eexists. split; [reflexivity|]. split; [cbn [m_set m_base]; rewrite base_touch; exact Hb|]. split.
      - intros a b. rewrite entry_set, entry_touch. reflexivity.
      - intros v. rewrite known_set, known_touch. destruct (coord_eqb x v); reflexivity. }
    destruct (m_entry m x y) as [i|] eqn:E.
    + destruct (K (mkN (f && n_cross i) true)) as (m' & E1 & E2 & E3 & E4). exists m'. split; [exact E1|]. split; [exact E2|].
      split; [|split].
      * intros a b N. rewrite E3. destruct (same a b x y) eqn:S; [|reflexivity]. apply same_spec in S. destruct S; subst.
        rewrite E. reflexivity.
      * intros v. rewrite E3. destruct (same v v x y) eqn:S; [|reflexivity]. apply same_spec in S. destruct S; subst. congruence.
      * intros v. rewrite E4. reflexivity.
    + destruct (K (mkN (fresh_cross g x y f) true)) as (m' & E1 & E2 & E3 & E4). exists m'. split; [exact E1|]. split; [exact E2|].
      split; [|split].
      * intros a b N. rewrite E3. destruct (same a b x y) eqn:S; [|reflexivity]. apply same_spec in S. destruct S; subst.
        rewrite E. reflexivity.
      * intros v. rewrite E3. destruct (same v v x y) eqn:S; [|reflexivity]. apply same_spec in S. destruct S; subst. congruence.
      * intros v. rewrite E4. reflexivity.
Qed.

Lemma remove_directed_spec m x y : m_base m = g ->
  exists m', m_remove_directed_edge m x y = (m', Ok tt) /\ m_base m' = g /\
    (forall a b, m_entry m' a b = if same a b x y then Some (mkN false false) else m_entry m a b) /\
    (forall v, m_known m' v = coord_eqb x v || m_known m v).
Proof.
  intros Hb. eexists. split; [reflexivity|]. split; [cbn [m_set m_base]; rewrite base_touch; exact Hb|]. split.
  - intros a b. rewrite entry_set, entry_touch. reflexivity.
  - intros v. rewrite known_set, known_touch. destruct (coord_eqb x v); reflexivity.
Qed.

(** ** Whole histories *)
Definition safe_op (o : mop) : Prop :=
  match o with
  | MEdge (GAdd a b f) | MEdge (GAddDir a b f) => decided g a b f
  | _ => True
  end.
Definition mevent (a b : coord) (o : mop) : event := match o with MEdge o => event_of a b o | MVertex _ => None end.
Definition touches (v : coord) (o : mop) : bool :=
  match o with
  | MEdge (GAdd a b _) => negb (coord_eqb a b) && (coord_eqb a v || coord_eqb b v)
  | MEdge (GAddDir a b _) => negb (coord_eqb a b) && coord_eqb a v
  | MEdge (GRem a b) => coord_eqb a v || coord_eqb b v
  | MEdge (GRemDir a b) => coord_eqb a v
  | MVertex c => coord_eqb c v
  end.

Lemma decided_sym a b f : decided g a b f -> decided g b a f.
Proof. intros D E. destruct (D E) as [->|[A B]]; auto. Qed.

Definition self_ok (m : mgraph) : Prop := forall v i, m_entry m v v = Some i -> i = mkN false false.

Lemma mstep_spec m o : m_base m = g -> safe_op o -> self_ok m ->
  exists m', mstep m o = (m', Ok tt) /\ m_base m' = g /\
    (forall a b, a <> b -> m_entry m' a b = estep g a b (mevent a b o) (m_entry m a b)) /\
    self_ok m' /\
    (forall v, has_vertex g v || m_known m' v = has_vertex g v || touches v o || m_known m v).
Proof.
  intros Hb S Sf. destruct o as [[x y f|x y f|x y|x y]|c]; cbn [mstep mevent event_of touches]; cbn [safe_op] in S.
  - destruct (add_directed_spec m x y f Hb S) as (m1 & A1 & B1 & E1 & D1 & K1).
    destruct (add_directed_spec m1 y x f B1 (decided_sym _ _ _ S)) as (m2 & A2 & B2 & E2 & D2 & K2).
    exists m2. unfold m_add_edge, mthen. rewrite A1. cbn [snd fst]. split; [exact A2|]. split; [exact B2|]. split; [|split].
    + intros a b N. rewrite E2, E1 by exact N. destruct (same a b x y) eqn:S1, (same a b y x) eqn:S2; try reflexivity.
      apply same_spec in S1, S2. destruct S1, S2. congruence.
    + intros v i H. apply (Sf v). rewrite D2, D1 in H. exact H.
    + intros v. rewrite K2, K1, (coord_eqb_sym y x). destruct (coord_eqb x y), (coord_eqb x v), (coord_eqb y v), (has_vertex g v), (m_known m v); reflexivity.
  - destruct (add_directed_spec m x y f Hb S) as (m1 & A1 & B1 & E1 & D1 & K1). exists m1.
    split; [exact A1|]. split; [exact B1|]. split; [|split].
    + intros a b N. rewrite E1 by exact N. destruct (same a b x y); reflexivity.
    + intros v i H. apply (Sf v). rewrite D1 in H. exact H.
    + intros v. rewrite K1, orb_assoc. reflexivity.
  - destruct (remove_directed_spec m x y Hb) as (m1 & A1 & B1 & E1 & K1).
    destruct (remove_directed_spec m1 y x B1) as (m2 & A2 & B2 & E2 & K2).
    exists m2. unfold m_remove_edge, mthen. rewrite A1. cbn [snd fst]. split; [exact A2|]. split; [exact B2|]. split; [|split].
    + intros a b N. rewrite E2, E1. destruct (same a b x y), (same a b y x); reflexivity.
    + intros v i. rewrite E2, E1. destruct (same v v y x); [intros H; inversion H; reflexivity|].
      destruct (same v v x y); [intros H; inversion H; reflexivity|]. apply Sf.
    + intros v. rewrite K2, K1. destruct (coord_eqb x v), (coord_eqb y v), (has_vertex g v), (m_known m v); reflexivity.
  - destruct (remove_directed_spec m x y Hb) as (m1 & A1 & B1 & E1 & K1). exists m1.
    split; [exact A1|]. split; [exact B1|]. split; [|split].
    + intros a b N. rewrite E1. destruct (same a b x y); reflexivity.
    + intros v i. rewrite E1. destruct (same v v x y); [intros H; inversion H; reflexivity|]. apply Sf.
    + intros v. rewrite K1, orb_assoc. reflexivity.
  - unfold m_add_vertex. eexists. split; [reflexivity|]. unfold m_has_vertex. rewrite Hb.
    change (match assoc c (m_nb m) with Some _ => true | None => false end) with (m_known m c).
    destruct (has_vertex g c) eqn:V; cbn [orb]; [|destruct (m_known m c) eqn:Kc].
    + split; [exact Hb|]. split; [reflexivity|]. split; [exact Sf|]. intros v.
      destruct (coord_eqb c v) eqn:C; [apply coord_eqb_spec in C; subst; rewrite V|rewrite orb_false_r]; reflexivity.
    + split; [exact Hb|]. split; [reflexivity|]. split; [exact Sf|]. intros v.
      destruct (coord_eqb c v) eqn:C; [apply coord_eqb_spec in C; subst; rewrite Kc, !orb_true_r; reflexivity|rewrite orb_false_r; reflexivity].
    + split; [reflexivity|]. rewrite <- Hb.
      assert (En : forall a b, m_entry (mkM (m_base m) (put c [] (m_nb m))) a b = m_entry m a b).
      { intros a b. unfold m_entry. cbn [m_nb]. rewrite assoc_put. destruct (coord_eqb c a) eqn:C; [|reflexivity].
        apply coord_eqb_spec in C. subst. unfold m_known in Kc. destruct (assoc a (m_nb m)); [discriminate|reflexivity]. }
      split; [intros a b _; apply En|]. split; [intros v i; rewrite En; apply Sf|].
      intros v. unfold m_known at 1. cbn [m_nb]. rewrite assoc_put. destruct (coord_eqb c v) eqn:C.
      * rewrite !orb_true_r. reflexivity.
      * rewrite orb_false_r. reflexivity.
Qed.

Definition efold (a b : coord) (h : list mop) : option ninfo :=
  fold_left (fun s o => estep g a b (mevent a b o) s) h None.

Lemma mrun_spec h : Forall safe_op h ->
  exists m, mrun_strict (make_mgraph g) h = (m, Ok tt) /\ mrun (make_mgraph g) h = m /\ m_base m = g /\
    (forall a b, a <> b -> m_entry m a b = efold a b h) /\ self_ok m /\
    (forall v, m_has_vertex m v = has_vertex g v || existsb (touches v) h).
Proof.
  intros F.
  assert (K : forall h0 m0, Forall safe_op h0 -> m_base m0 = g -> self_ok m0 ->
    exists m, mrun_strict m0 h0 = (m, Ok tt) /\ mrun m0 h0 = m /\ m_base m = g /\
      (forall a b, a <> b -> m_entry m a b = fold_left (fun s o => estep g a b (mevent a b o) s) h0 (m_entry m0 a b)) /\ self_ok m /\
      (forall v, has_vertex g v || m_known m v = (has_vertex g v || existsb (touches v) h0) || m_known m0 v)).
  { clear h F. induction h0 as [|o h IH]; intros m0 F Hb Sf.
    - exists m0. repeat (split; [first [reflexivity|exact Hb|exact Sf]|]). intros v. cbn [existsb]. rewrite orb_false_r. reflexivity.
    - inversion F as [|? ? F1 F2]; subst. destruct (mstep_spec m0 o Hb F1 Sf) as (m1 & A1 & B1 & E1 & S1 & K1).
      cbn [mrun_strict]. unfold mrun. cbn [fold_left]. rewrite A1. unfold mthen at 1. cbn [fst snd].
      destruct (IH m1 F2 B1 S1) as (m & A & R & B & E & S & K). exists m.
      split; [exact A|]. split; [exact R|]. split; [exact B|]. split; [|split; [exact S|]].
      + intros a b N. rewrite E, E1 by exact N. reflexivity.
      + intros v. rewrite K. cbn [existsb]. specialize (K1 v). 
        destruct (has_vertex g v), (touches v o), (existsb (touches v) h), (m_known m1 v), (m_known m0 v); cbn in *; congruence. }
  destruct (K h (make_mgraph g) F eq_refl) as (m & A & R & B & E & S & Kn).
  { intros v i H. discriminate H. }
  exists m. split; [exact A|]. split; [exact R|]. split; [exact B|]. split; [|split; [exact S|]].
  - intros a b N. rewrite E by exact N. reflexivity.
  - intros v. unfold m_has_vertex. rewrite B.
    change (match assoc v (m_nb m) with Some _ => true | None => false end) with (m_known m v). rewrite Kn.
    unfold m_known. cbn [make_mgraph m_nb assoc]. rewrite orb_false_r. reflexivity.
Qed.

(** ** Compared with the base graph after the same calls *)
Definition edges (h : list mop) : list gop := flat_map (fun o => match o with MEdge o => [o] | MVertex _ => [] end) h.
Lemma edges_snoc h o : edges (h ++ [o]) = edges h ++ match o with MEdge o => [o] | MVertex _ => [] end.
Proof. unfold edges. rewrite flat_map_app. cbn [flat_map]. rewrite app_nil_r. reflexivity. Qed.
Lemma efold_snoc a b h o : efold a b (h ++ [o]) = estep g a b (mevent a b o) (efold a b h).
Proof. unfold efold. rewrite fold_left_app. reflexivity. Qed.

(** no addition of the pair comes after a removal of it *)
Definition no_readd (a b : coord) (h : list mop) : Prop :=
  forall h1 o1 h2 o2 h3 f, h = h1 ++ o1 :: h2 ++ o2 :: h3 ->
    mevent a b o1 = Some None -> mevent a b o2 = Some (Some f) -> False.

Lemma adds_snoc a b h o : adds_since_removal a b (rev (h ++ match o with MEdge o => [o] | MVertex _ => [] end)) =
  match mevent a b o with
  | None => adds_since_removal a b (rev h)
  | Some None => []
  | Some (Some f) => f :: adds_since_removal a b (rev h)
  end.
Proof.
  destruct o as [o|v]; cbn [mevent]; [|rewrite app_nil_r; reflexivity].
  rewrite rev_app_distr. cbn [rev app adds_since_removal]. reflexivity.
Qed.

Definition all (fs : list bool) : bool := forallb (fun m => m) fs.
Definition fs_view (fs : list bool) : view := match fs with [] => None | _ => Some (all fs) end.

Lemma efold_known a b h : a <> b -> In a (polygon_vertices ps) -> In b (polygon_vertices ps) ->
  let fs := adds_since_removal a b (rev (hb ++ edges h)) in
  match efold a b h with
  | None => fs = adds_since_removal a b (rev hb)
  | Some i => (n_present i = true <-> fs <> []) /\ (n_cross i = true -> fs <> [] /\ all fs = true)
  end.
Proof.
  intros N A B. cbv zeta. induction h as [|o h IH] using rev_ind.
  - cbn [efold fold_left edges flat_map]. rewrite app_nil_r. reflexivity.
  - rewrite efold_snoc, edges_snoc, app_assoc, adds_snoc.
    set (fs := adds_since_removal a b (rev (hb ++ edges h))) in *.
    destruct (mevent a b o) as [[f|]|]; cbn [estep].
    + destruct (efold a b h) as [i|]; cbn [n_present n_cross].
      * split; [split; [discriminate|reflexivity]|]. intros C. apply andb_prop in C. destruct C as [-> C].
        destruct IH as [_ IH]. destruct (IH C) as [_ I2]. split; [discriminate|]. unfold all in *. cbn [forallb]. exact I2.
      * split; [split; [discriminate|reflexivity]|]. unfold fresh_cross. intros C. apply andb_prop in C. destruct C as [-> C].
        split; [discriminate|]. rewrite (answer_spec ps hb g a b G N A B) in C. unfold spec_view in C. rewrite IH.
        destruct (adds_since_removal a b (rev hb)); [reflexivity|]. unfold all. cbn [forallb]. exact C.
    + cbn [n_present n_cross]. split; [split; [discriminate|intros H; exfalso; apply H; reflexivity]|discriminate].
    + exact IH.
Qed.

Lemma no_readd_prefix a b h o : no_readd a b (h ++ [o]) -> no_readd a b h.
Proof.
  intros H h1 o1 h2 o2 h3 f E E1 E2. apply (H h1 o1 h2 o2 (h3 ++ [o]) f); auto. subst h.
  rewrite <- app_assoc. cbn [app]. rewrite <- app_assoc. reflexivity.
Qed.
Lemma no_readd_last a b h o f : no_readd a b (h ++ [o]) -> mevent a b o = Some (Some f) ->
  forall o', In o' h -> mevent a b o' <> Some None.
Proof.
  intros H E o' I E'. apply in_split in I. destruct I as (l1 & l2 & ->).
  apply (H l1 o' l2 o [] f); auto. rewrite <- app_assoc. reflexivity.
Qed.

Lemma efold_exact a b h : a <> b -> In a (polygon_vertices ps) -> In b (polygon_vertices ps) -> no_readd a b h ->
  let fs := adds_since_removal a b (rev (hb ++ edges h)) in
  match efold a b h with
  | None => fs = adds_since_removal a b (rev hb)
  | Some i => (n_present i = true -> n_cross i = all fs) /\
              ((forall o, In o h -> mevent a b o <> Some None) -> n_present i = true)
  end.
Proof.
  intros N A B. cbv zeta. induction h as [|o h IH] using rev_ind; intros R.
  - cbn [efold fold_left edges flat_map]. rewrite app_nil_r. reflexivity.
  - specialize (IH (no_readd_prefix _ _ _ _ R)). rewrite efold_snoc, edges_snoc, app_assoc, adds_snoc.
    set (fs := adds_since_removal a b (rev (hb ++ edges h))) in *.
    destruct (mevent a b o) as [[f|]|] eqn:Ev; cbn [estep].
    + destruct (efold a b h) as [i|]; cbn [n_present n_cross].
      * split; [|reflexivity]. intros _. destruct IH as [I1 I2]. rewrite I1; [reflexivity|].
        apply I2. apply (no_readd_last a b h o f R Ev).
      * split; [|reflexivity]. intros _. unfold fresh_cross. rewrite (answer_spec ps hb g a b G N A B).
        unfold spec_view. rewrite IH. destruct (adds_since_removal a b (rev hb)); reflexivity.
    + cbn [n_present]. split; [discriminate|]. intros H. exfalso. apply (H o); [apply in_or_app; right; left; reflexivity|exact Ev].
    + destruct (efold a b h) as [i|]; [|exact IH]. destruct IH as [I1 I2]. split; [exact I1|].
      intros H. apply I2. intros o' Ho'. apply H. apply in_or_app. left. exact Ho'.
Qed.

Lemma efold_new a b h : a <> b -> Forall (safe_op) h -> ~ In a (polygon_vertices ps) \/ ~ In b (polygon_vertices ps) ->
  match efold a b h with
  | None => forall o, In o h -> mevent a b o = None
  | Some i => i = mkN false (spec_connected a b (edges h)) /\ exists o, In o h /\ mevent a b o <> None
  end.
Proof.
  intros N F U. induction h as [|o h IH] using rev_ind.
  - cbn. intros o [].
  - apply Forall_app in F. destruct F as [F1 F2]. inversion F2 as [|? ? So _]; subst. specialize (IH F1).
    rewrite efold_snoc, edges_snoc. unfold spec_connected, spec_view. rewrite adds_snoc.
    destruct (mevent a b o) as [[f|]|] eqn:Ev; cbn [estep].
    + assert (f = false) as ->.
      { destruct f; [|reflexivity]. exfalso. destruct o as [[x y m|x y m|x y|x y]|v]; cbn [mevent event_of] in Ev; try discriminate.
        - destruct (same a b x y || same a b y x) eqn:S; [|discriminate]. inversion Ev; subst m. destruct (So eq_refl) as [->|[X Y]].
          + apply orb_prop in S. rewrite !same_spec in S. destruct S as [[]|[]]; congruence.
          + apply hv in X. apply hv in Y. apply orb_prop in S. rewrite !same_spec in S. destruct S as [[-> ->]|[-> ->]]; tauto.
        - destruct (same a b x y) eqn:S; [|discriminate]. inversion Ev; subst m. apply same_spec in S. destruct S; subst.
          destruct (So eq_refl) as [->|[X Y]]; [congruence|]. apply hv in X. apply hv in Y. tauto.
        - destruct (same a b x y || same a b y x); discriminate.
        - destruct (same a b x y); discriminate. }
      destruct (efold a b h) as [i|]; (split; [reflexivity|]); exists o; (split; [apply in_or_app; right; left; reflexivity|congruence]).
    + split; [reflexivity|]. exists o. split; [apply in_or_app; right; left; reflexivity|congruence].
    + destruct (efold a b h) as [i|].
      * destruct IH as [-> (o' & Ho' & E')]. split; [unfold spec_connected, spec_view; reflexivity|]. exists o'. split; [apply in_or_app; left; exact Ho'|exact E'].
      * intros o' Ho'. apply in_app_or in Ho'. destruct Ho' as [Ho'|[<-|[]]]; auto.
Qed.

Lemma overlay_spec h : Forall safe_op h ->
  exists m g', mrun_strict (make_mgraph g) h = (m, Ok tt) /\ mrun (make_mgraph g) h = m /\ m_base m = g /\
    grun (make_graph ps) (hb ++ edges h) = Ok g' /\
    (forall a b, In a (polygon_vertices ps) -> In b (polygon_vertices ps) ->
       m_has_edge m a b = has_edge g' a b /\
       (m_is_edge_meridian_crossing m a b = Ok true -> is_edge_meridian_crossing g' a b = Ok true) /\
       (no_readd a b h -> m_is_edge_meridian_crossing m a b = is_edge_meridian_crossing g' a b)) /\
    (forall a b, a <> b -> (~ In a (polygon_vertices ps) \/ ~ In b (polygon_vertices ps)) ->
       ((exists o, In o h /\ mevent a b o <> None) ->
          m_has_edge m a b = Ok (spec_connected a b (edges h)) /\ m_is_edge_meridian_crossing m a b = Ok false) /\
       ((forall o, In o h -> mevent a b o = None) ->
          m_has_edge m a b = Throw NotInGraph /\ m_is_edge_meridian_crossing m a b = Throw NotInGraph)) /\
    (forall v, m_has_vertex m v = has_vertex g v || existsb (touches v) h).
Proof.
  intros F. destruct (mrun_spec h F) as (m & A1 & A2 & Hb & E & S & V).
  destruct (grun_spec ps (hb ++ edges h)) as (Fn & g' & G' & _).
  exists m, g'. split; [exact A1|]. split; [exact A2|]. split; [exact Hb|]. split; [exact G'|]. split; [|split; [|exact V]].
  - intros a b A B. destruct (coord_dec a b) as [->|N].
    + destruct (grun_queries ps _ g G b b) as (_ & _ & Q). destruct (Q eq_refl) as [Q1 Q2].
      destruct (grun_queries ps _ g' G' b b) as (_ & _ & Q'). destruct (Q' eq_refl) as [-> ->].
      unfold m_has_edge, m_is_edge_meridian_crossing. rewrite Hb.
      destruct (m_entry m b b) as [i|] eqn:Ei; [rewrite (S b i Ei); cbn; auto|]. rewrite Q1, Q2. auto.
    + destruct (grun_queries ps _ g G a b) as (Q & _). destruct (Q N A B) as [Q1 Q2].
      destruct (grun_queries ps _ g' G' a b) as (Q' & _). destruct (Q' N A B) as [-> ->].
      unfold m_has_edge, m_is_edge_meridian_crossing. rewrite Hb, E by exact N.
      pose proof (efold_known a b h N A B) as K. pose proof (efold_exact a b h N A B) as X. cbv zeta in K, X.
      unfold spec_connected, spec_crossing, spec_view.
      set (fs := adds_since_removal a b (rev (hb ++ edges h))) in *.
      destruct (efold a b h) as [i|].
      * destruct K as [K1 K2]. split; [|split].
        -- f_equal. destruct fs, (n_present i); try reflexivity; [destruct (proj1 K1 eq_refl); reflexivity|].
           apply K1. discriminate.
        -- intros C. assert (C' : n_cross i = true) by congruence. destruct (K2 C') as [K3 K4].
           unfold all in K4. destruct fs; [congruence|]. cbv beta. rewrite K4. reflexivity.
        -- intros R. destruct (X R) as [X1 _]. f_equal. destruct (n_present i) eqn:P.
           ++ rewrite (X1 eq_refl). assert (fs <> []) as Nf by (apply K1; reflexivity). unfold all. destruct fs; [congruence|].
              match goal with |- ?x = _ => destruct x end; reflexivity.
           ++ assert (fs = []) as -> by (destruct fs; [reflexivity|]; exfalso; assert (false = true) by (apply K1; discriminate); discriminate).
              destruct (n_cross i) eqn:C; [|reflexivity]. destruct (K2 eq_refl) as [Z _]. congruence.
      * rewrite Q1, Q2. unfold spec_connected, spec_crossing, spec_view. rewrite <- K. auto.
  - intros a b N U. pose proof (efold_new a b h N F U) as K. unfold m_has_edge, m_is_edge_meridian_crossing. rewrite Hb, E by exact N.
    destruct (grun_queries ps _ g G a b) as (_ & Q & _). destruct (Q N U) as [Q1 Q2]. split.
    + intros (o & Ho & No). destruct (efold a b h) as [i|]; [|elim No; auto]. destruct K as [-> _]. auto.
    + intros H. destruct (efold a b h) as [i|]; [destruct K as [_ (o & Ho & No)]; elim No; auto|]. auto.
Qed.
End Base.

(** ** Neighbour lists, for every history *)
Definition rows_ok (m : mgraph) : Prop := forall a row, assoc a (m_nb m) = Some row -> NoDup (map fst row).
Lemma rows_touch m a : rows_ok m -> rows_ok (m_touch m a).
Proof.
  intros R. unfold m_touch. destruct (assoc a (m_nb m)); [exact R|]. intros x row. cbn [m_nb]. rewrite assoc_put.
  destruct (coord_eqb a x); [intros H; inversion H; constructor|apply R].
Qed.
Lemma rows_set m a b i : rows_ok m -> rows_ok (m_set m a b i).
Proof.
  intros R x row. unfold m_set. cbn [m_nb]. rewrite assoc_put. destruct (coord_eqb a x); [|apply R].
  intros H. inversion H. apply put_NoDup. destruct (assoc a (m_nb m)) as [r|] eqn:E; [eapply R; eauto|constructor].
Qed.

(** what holds of the overlay after any history, exceptions included *)
Definition after (g : graph) (h : list mop) (m : mgraph) : Prop :=
  m_base m = g /\ rows_ok m /\
  (forall v i, m_entry m v v = Some i -> n_present i = false) /\
  (forall a b i, m_entry m a b = Some i -> n_present i = true -> exists o f, In o h /\ mevent a b o = Some (Some f)).

Lemma after_mono g h h' m : (forall o, In o h -> In o h') -> after g h m -> after g h' m.
Proof.
  intros S (A & B & C & D). split; [exact A|]. split; [exact B|]. split; [exact C|]. intros a b i E P.
  destruct (D a b i E P) as (o & f & H1 & H2). exists o, f. auto.
Qed.
Lemma after_add_directed g h m x y f : (exists o, In o h /\ mevent x y o = Some (Some f)) ->
  after g h m -> after g h (fst (m_add_directed_edge m x y f)).
Proof.
  intros (o & Ho & Ev) (A & B & C & D). unfold m_add_directed_edge. destruct (coord_eqb x y) eqn:Exy.
  { cbn [fst]. split; auto. }
  apply coord_eqb_neq in Exy.
  assert (T : after g h (m_touch m x)).
  { split; [rewrite base_touch; exact A|]. split; [apply rows_touch, B|]. split; intros *; rewrite entry_touch; [apply C|apply D]. }
  assert (K : forall c, after g h (m_set (m_touch m x) x y (mkN c true))).
  { intros c. destruct T as (A' & B' & C' & D'). split; [exact A'|]. split; [apply rows_set, B'|]. split.
    - intros v i. rewrite entry_set. destruct (same v v x y) eqn:S; [|apply C']. apply same_spec in S. destruct S; congruence.
    - intros a b i. rewrite entry_set. destruct (same a b x y) eqn:S; [|apply D']. apply same_spec in S. destruct S; subst.
      intros _ _. exists o, f. auto. }
  destruct (m_entry (m_touch m x) x y) as [i|]; [apply K|].
  match goal with |- context [match ?c with Ok _ => _ | Throw _ => _ | UB _ => _ end] => destruct c end; cbn [fst]; auto.
Qed.
Lemma after_remove_directed g h m x y : after g h m -> after g h (fst (m_remove_directed_edge m x y)).
Proof.
  intros (A & B & C & D). unfold m_remove_directed_edge. cbn [fst]. split; [cbn [m_set m_base]; rewrite base_touch; exact A|].
  split; [apply rows_set, rows_touch, B|]. split; intros *; rewrite entry_set, entry_touch.
  - destruct (same v v x y); [intros H; inversion H; reflexivity|apply C].
  - destruct (same a b x y); [intros H; inversion H; discriminate|apply D].
Qed.
Lemma same_refl a b : same a b a b = true.
Proof. apply same_spec. auto. Qed.

Lemma after_run g h : after g h (mrun (make_mgraph g) h).
Proof.
  induction h as [|o h IH] using rev_ind.
  - split; [reflexivity|]. split; [intros a row H; discriminate H|]. split; intros *; intros H; discriminate H.
  - unfold mrun in *. rewrite fold_left_app. cbn [fold_left]. set (m := fold_left _ h _) in *.
    apply (after_mono g h (h ++ [o])) in IH; [|intros; apply in_or_app; auto].
    assert (Lo : In o (h ++ [o])) by (apply in_or_app; right; left; reflexivity).
    destruct o as [[x y f|x y f|x y|x y]|c]; cbn [mstep].
    + assert (E1 : exists o, In o (h ++ [MEdge (GAdd x y f)]) /\ mevent x y o = Some (Some f)).
      { eexists. split; [exact Lo|]. cbn [mevent event_of]. rewrite same_refl. reflexivity. }
      assert (E2 : exists o, In o (h ++ [MEdge (GAdd x y f)]) /\ mevent y x o = Some (Some f)).
      { eexists. split; [exact Lo|]. cbn [mevent event_of]. rewrite same_refl, orb_true_r. reflexivity. }
      unfold m_add_edge, mthen. pose proof (after_add_directed g _ m x y f E1 IH) as H1.
      destruct (m_add_directed_edge m x y f) as [m1 [u|e|u]]; cbn [fst snd] in *; auto. apply after_add_directed; auto.
    + apply after_add_directed; [|exact IH]. eexists. split; [exact Lo|]. cbn [mevent event_of]. rewrite same_refl. reflexivity.
    + unfold m_remove_edge, mthen. cbn [snd m_remove_directed_edge].
      apply (after_remove_directed g _ _ y x), (after_remove_directed g _ m x y IH).
    + apply after_remove_directed, IH.
    + unfold m_add_vertex. cbn [fst]. destruct (m_has_vertex m c) eqn:Hv; [exact IH|].
      unfold m_has_vertex in Hv. apply orb_false_elim in Hv. destruct Hv as [_ Hv].
      assert (En : forall a b, m_entry (mkM (m_base m) (put c [] (m_nb m))) a b = m_entry m a b).
      { intros a b. unfold m_entry. cbn [m_nb]. rewrite assoc_put. destruct (coord_eqb c a) eqn:C; [|reflexivity].
        apply coord_eqb_spec in C. subst. destruct (assoc a (m_nb m)); [discriminate|reflexivity]. }
      destruct IH as (A & B & C & D). split; [exact A|]. split; [|split; intros *; rewrite En; [apply C|apply D]].
      intros x row. cbn [m_nb]. rewrite assoc_put. destruct (coord_eqb c x); [intros H; inversion H; constructor|apply B].
Qed.

Lemma merge_in order : forall ns u, NoDup (map fst order) ->
  (In u (fold_left m_merge_neighbor order ns) <->
   (exists i, In (u, i) order /\ n_present i = true) \/ (In u ns /\ ~ exists i, In (u, i) order /\ n_present i = false)).
Proof.
  induction order as [|[k i] order IH]; intros ns u N; cbn [fold_left].
  - split; [intros H; right; split; [exact H|intros (i & [] & _)]|intros [(i & [] & _)|[H _]]; exact H].
  - cbn [map fst] in N. inversion N as [|? ? N1 N2]; subst. rewrite IH by exact N2.
    assert (Nk : forall i', ~ In (k, i') order) by (intros i' H; apply N1; apply in_map_iff; exists (k, i'); auto).
    unfold m_merge_neighbor. cbn [fst snd]. destruct (n_present i) eqn:P.
    + rewrite in_app_iff. cbn [In]. split.
      * intros [(i' & H1 & H2)|[[H|[->|[]]] K]].
        -- left. exists i'. split; [right; exact H1|exact H2].
        -- right. split; [exact H|]. intros (i' & [E|H1] & H2); [inversion E; congruence|]. apply K; exists i'; first [solve [auto]|split; [right; exact H1|exact H2]].
        -- left. exists i. split; [left; reflexivity|exact P].
      * intros [(i' & [E|H1] & H2)|[H K]].
        -- inversion E; subst. right. split; [tauto|]. intros (i'' & H3 & _). apply (Nk _ H3).
        -- left. exists i'. auto.
        -- right. split; [tauto|]. intros (i' & H1 & H2). apply K; exists i'; first [solve [auto]|split; [right; exact H1|exact H2]].
    + rewrite filter_In. split.
      * intros [(i' & H1 & H2)|[[H C] K]].
        -- left. exists i'. split; [right; exact H1|exact H2].
        -- right. split; [exact H|]. intros (i' & [E|H1] & H2).
           ++ inversion E; subst. rewrite coord_eqb_refl in C. discriminate.
           ++ apply K; exists i'; first [solve [auto]|split; [right; exact H1|exact H2]].
      * intros [(i' & [E|H1] & H2)|[H K]].
        -- inversion E; congruence.
        -- left. exists i'. auto.
        -- right. split; [split; [exact H|]|].
           ++ destruct (coord_eqb u k) eqn:C; [|reflexivity]. apply coord_eqb_spec in C. subst. exfalso. apply K. exists i. split; [left; reflexivity|exact P].
           ++ intros (i' & H1 & H2). apply K; exists i'; first [solve [auto]|split; [right; exact H1|exact H2]].
Qed.
Lemma merge_NoDup order : forall ns, NoDup (map fst order) -> NoDup ns ->
  (forall u i, In (u, i) order -> n_present i = true -> ~ In u ns) -> NoDup (fold_left m_merge_neighbor order ns).
Proof.
  induction order as [|[k i] order IH]; intros ns N Nn H; cbn [fold_left]; [exact Nn|].
  cbn [map fst] in N. inversion N as [|? ? N1 N2]; subst. apply IH; [exact N2| |].
  - unfold m_merge_neighbor. cbn [fst snd]. destruct (n_present i) eqn:P.
    + apply NoDup_rev in Nn. rewrite <- (rev_involutive (ns ++ [k])). apply NoDup_rev. rewrite rev_app_distr. cbn [rev app].
      constructor; [|exact Nn]. rewrite <- in_rev. apply (H k i); [left; reflexivity|exact P].
    + apply NoDup_filter, Nn.
  - intros u i' Hu Pu. unfold m_merge_neighbor. cbn [fst snd]. assert (u <> k).
    { intros ->. apply N1. apply in_map_iff. exists (k, i'). auto. }
    assert (~ In u ns) by (eapply H; [right; exact Hu|exact Pu]).
    destruct (n_present i).
    + rewrite in_app_iff. cbn [In]. intros [Q|[Q|[]]]; congruence.
    + rewrite filter_In. tauto.
Qed.

Lemma overlay_neighbors ps hb g h v order : Forall undirected hb -> grun (make_graph ps) hb = Ok g ->
  let m := mrun (make_mgraph g) h in
  (forall row, assoc v (m_nb m) = Some row -> Permutation order row) ->
  exists l, m_get_neighbors m order v = Ok l /\
    (forall u, In u l <-> m_has_edge m v u = Ok true) /\
    ((forall u o f, In o h -> mevent v u o = Some (Some f) -> has_edge g v u <> Ok true) -> NoDup l).
Proof.
  intros Un G m Hord. destruct (after_run g h) as (A & B & C & D). fold m in A, B, C, D.
  assert (Base : exists ns, (if has_vertex g v then get_neighbors g v else Ok []) = Ok ns /\ NoDup ns /\
    forall u, In u ns <-> has_edge g v u = Ok true).
  { destruct (grun_neighbors ps hb g v G) as [Q1 Q2]. pose proof (built_has_vertex ps hb g v G) as V.
    destruct (has_vertex g v).
    - assert (Hv : In v (polygon_vertices ps)) by (apply V; reflexivity). destruct (Q1 Hv) as (ns & E & N & I). exists ns.
      split; [exact E|]. split; [exact N|]. intros u. rewrite I. destruct (grun_queries ps hb g G v u) as (R1 & R2 & R3).
      destruct (coord_dec v u) as [->|Nu]; [destruct (R3 eq_refl) as [-> _]; split; [intros (X & _); congruence|discriminate]|].
      destruct (in_dec coord_dec u (polygon_vertices ps)) as [Hu|Hu].
      + destruct (R1 Nu Hv Hu) as [-> _]. unfold spec_connected. rewrite (spec_view_sym u v hb Un).
        destruct (spec_view v u hb); split; intros X; try congruence; try (destruct X as (_ & _ & X); discriminate). auto.
      + destruct (R2 Nu (or_intror Hu)) as [-> _]. split; [intros (_ & X & _); contradiction|discriminate].
    - exists []. split; [reflexivity|]. split; [constructor|]. intros u. cbn [In].
      assert (Hv : ~ In v (polygon_vertices ps)) by (intros X; apply V in X; discriminate).
      destruct (grun_queries ps hb g G v u) as (R1 & R2 & R3).
      destruct (coord_dec v u) as [->|Nu]; [destruct (R3 eq_refl) as [-> _]|destruct (R2 Nu (or_introl Hv)) as [-> _]]; split; (discriminate || contradiction). }
  destruct Base as (ns & Ens & Nns & Ins). unfold m_get_neighbors. rewrite A, Ens. cbn [bind].
  assert (Eh : forall u, m_has_edge m v u = match m_entry m v u with None => has_edge g v u | Some i => Ok (n_present i) end)
    by (intros; unfold m_has_edge; rewrite A; reflexivity).
  destruct (assoc v (m_nb m)) as [row|] eqn:Er.
  - specialize (Hord row eq_refl). pose proof (B v row Er) as Nr.
    assert (No : NoDup (map fst order)) by (eapply Permutation_NoDup; [apply Permutation_map; symmetry; exact Hord|exact Nr]).
    assert (Io : forall u i, In (u, i) order <-> m_entry m v u = Some i).
    { intros u i. unfold m_entry. rewrite Er. rewrite (assoc_in u i row Nr).
      split; apply Permutation_in; [exact Hord|symmetry; exact Hord]. }
    eexists. split; [reflexivity|]. split.
    + intros u. rewrite merge_in by exact No. rewrite Eh, Ins. destruct (m_entry m v u) as [i|] eqn:E.
      * apply Io in E. split.
        -- intros [(i' & H1 & H2)|[H1 K]].
           ++ apply Io in H1. apply Io in E. rewrite E in H1. inversion H1. congruence.
           ++ destruct (n_present i) eqn:P; [reflexivity|]. exfalso. apply K. eauto.
        -- intros P. left. exists i. split; [exact E|congruence].
      * split.
        -- intros [(i' & H1 & _)|[H1 _]]; [apply Io in H1; congruence|exact H1].
        -- intros H1. right. split; [exact H1|]. intros (i' & H2 & _). apply Io in H2. congruence.
    + intros K. apply merge_NoDup; [exact No|exact Nns|]. intros u i Hi Pi. apply Io in Hi.
      destruct (D v u i Hi Pi) as (o & f & Ho & Ev). rewrite Ins. apply (K u o f Ho Ev).
  - exists ns. split; [reflexivity|]. split; [|intros _; exact Nns].
    intros u. rewrite Eh. unfold m_entry. rewrite Er. apply Ins.
Qed.

(** ** New vertices *)
Lemma new_vertex_run ps hb g v : grun (make_graph ps) hb = Ok g -> ~ In v (polygon_vertices ps) ->
  mrun (make_mgraph g) [MVertex v] = mkM g [(v, [])].
Proof.
  intros G U. unfold mrun. cbn [fold_left mstep m_add_vertex fst]. unfold m_has_vertex. cbn [make_mgraph m_base m_nb assoc].
  destruct (has_vertex g v) eqn:V; [apply (built_has_vertex ps hb g v G) in V; contradiction|]. reflexivity.
Qed.
Lemma new_vertex_query ps hb g v b :
  grun (make_graph ps) hb = Ok g -> ~ In v (polygon_vertices ps) -> v <> b ->
  let m := mrun (make_mgraph g) [MVertex v] in
  m_has_vertex m v = true /\ m_has_edge m v b = Throw NotInGraph.
Proof.
  intros G U N m. unfold m. rewrite (new_vertex_run ps hb g v G U).
  destruct (grun_queries ps hb g G v b) as (_ & Q & _). destruct (Q N (or_introl U)) as [Q1 _].
  unfold m_has_vertex, m_has_edge, m_entry. cbn [m_base m_nb assoc]. rewrite coord_eqb_refl, orb_true_r. cbn [assoc]. auto.
Qed.
Lemma new_vertex_crossing ps hb g v b :
  grun (make_graph ps) hb = Ok g -> ~ In v (polygon_vertices ps) -> v <> b ->
  let m := mrun (make_mgraph g) [MVertex v] in
  snd (m_add_edge m v b true) = Throw NotInGraph /\ snd (m_add_edge m b v true) = Throw NotInGraph /\
  m_entry (fst (m_add_edge m v b true)) v b = None.
Proof.
  intros G U N m. unfold m. rewrite (new_vertex_run ps hb g v G U). clear m.
  destruct (grun_queries ps hb g G v b) as (_ & Q & _). destruct (Q N (or_introl U)) as [Q1 _].
  destruct (grun_queries ps hb g G b v) as (_ & Q' & _). destruct (Q' ltac:(congruence) (or_intror U)) as [Q2 _].
  pose proof (proj2 (coord_eqb_neq v b) N) as C1. assert (C2 : coord_eqb b v = false) by (rewrite coord_eqb_sym; exact C1).
  unfold m_add_edge, m_add_directed_edge. rewrite C1, C2.
  set (m := mkM g [(v, [])]).
  assert (T1 : m_entry (m_touch m v) v b = None) by (rewrite entry_touch; unfold m_entry, m; cbn [m_nb assoc]; rewrite coord_eqb_refl; reflexivity).
  assert (T2 : m_entry (m_touch m b) b v = None) by (rewrite entry_touch; unfold m_entry, m; cbn [m_nb assoc]; rewrite C1; reflexivity).
  rewrite T1, T2, !base_touch. cbn [m_base m]. change (m_base m) with g. rewrite Q1, Q2. cbn [bind mthen fst snd]. auto.
Qed.
Lemma new_vertex_plain ps hb g v b :
  grun (make_graph ps) hb = Ok g -> ~ In v (polygon_vertices ps) -> v <> b ->
  let m := mrun (make_mgraph g) [MVertex v] in
  snd (m_add_edge m v b false) = Ok tt /\
  m_has_edge (fst (m_add_edge m v b false)) v b = Ok true /\ m_has_edge (fst (m_add_edge m v b false)) b v = Ok true /\
  m_is_edge_meridian_crossing (fst (m_add_edge m v b false)) v b = Ok false.
Proof.
  intros G U N m.
  assert (S : Forall (safe_op g) [MVertex v; MEdge (GAdd v b false)]).
  { repeat (apply Forall_cons; [first [exact I|intros D; discriminate D]|]). apply Forall_nil. }
  destruct (overlay_spec ps hb g G _ S) as (m2 & g' & R1 & R2 & _ & _ & _ & K & _).
  assert (E : m_add_edge m v b false = (m2, Ok tt)).
  { change (mthen (m_add_edge m v b false) (fun m1 => (m1, Ok tt)) = (m2, Ok tt)) in R1.
    destruct (m_add_edge m v b false) as [m3 [[]|e|u]]; unfold mthen in R1; cbn [fst snd] in R1; [congruence|discriminate R1..]. }
  rewrite E. cbn [fst snd]. split; [reflexivity|].
  destruct (K v b N (or_introl U)) as [K1 _]. destruct (K b v ltac:(congruence) (or_intror U)) as [K2 _].
  destruct K1 as [K1 K1']. { eexists. split; [right; left; reflexivity|]. cbn [mevent event_of]. rewrite same_refl. discriminate. }
  destruct K2 as [K2 _]. { eexists. split; [right; left; reflexivity|]. cbn [mevent event_of]. rewrite same_refl, orb_true_r. discriminate. }
  rewrite K1, K1', K2. unfold spec_connected, spec_view. cbn [edges flat_map app rev adds_since_removal event_of].
  rewrite !same_refl, orb_true_r. auto.
Qed.
