(** Splitting, merging and scheduling of the generation. *)
From Coq Require Import ZArith Bool List Lia Permutation.
From Verif Require Import Base F64 Coordinate Segment Polygon Graph SpecGraph GraphFacts GraphMore
  Serializer SpecFile LoadFacts RoundFacts SerializerMore Visgraph.
Import ListNotations.
Local Open Scope Z_scope.

(** every vertex's visibility list is computed and names polygon vertices only *)
Definition reports (ps : list polygon) (vis : vis_oracle) : Prop :=
  forall v, In v (polygon_vertices ps) ->
    exists xs, vis v = Ok xs /\ forall x, In x xs -> In (v_coord x) (polygon_vertices ps).

(** ** Ranges *)
Lemma num_vertices ps : ps <> [] -> num_vertices_in_polygons ps = Ok (Z.of_nat (length (polygon_vertices ps))).
Proof.
  destruct ps as [|p ps]; [congruence|]. intros _. cbn [num_vertices_in_polygons]. f_equal.
  assert (K : forall qs a, fold_left Z.add (map (fun q => Z.of_nat (length (verts q))) qs) a = a + Z.of_nat (length (polygon_vertices qs))).
  { induction qs as [|q qs IH]; intros a; [cbn; lia|]. cbn [map fold_left]. rewrite IH.
    unfold polygon_vertices. cbn [map concat]. rewrite app_length. lia. }
  rewrite K. unfold polygon_vertices. cbn [map concat]. rewrite app_length. lia.
Qed.

Definition range (n cur num : Z) : list nat :=
  seq (Z.to_nat (split_start n cur num)) (Z.to_nat (split_end n cur num) - Z.to_nat (split_start n cur num)).

Lemma split_valid n cur num : 0 <= n -> 0 <= cur < num ->
  0 <= split_start n cur num <= split_end n cur num /\ split_end n cur num <= n.
Proof.
  intros N C. unfold split_start, split_end. pose proof (Z.div_mod n num ltac:(lia)) as D.
  pose proof (Z.mod_pos_bound n num ltac:(lia)) as M. pose proof (Z.div_pos n num N ltac:(lia)) as P.
  set (q := n / num) in *. destruct (Z.ltb_spec cur (num - 1)); nia.
Qed.

Lemma split_prefix n num k : 0 <= n -> (Z.of_nat k < num) ->
  flat_map (fun cur => range n (Z.of_nat cur) num) (seq 0 k) = seq 0 (Z.to_nat (n / num * Z.of_nat k)).
Proof.
  intros N K. pose proof (Z.div_pos n num N ltac:(lia)) as P. induction k as [|k IH].
  - cbn [seq flat_map]. rewrite Z.mul_0_r. reflexivity.
  - rewrite seq_S, flat_map_app, IH by lia. cbn [flat_map Nat.add]. rewrite app_nil_r. unfold range, split_start, split_end.
    destruct (Z.ltb_spec (Z.of_nat k) (num - 1)) as [L|L]; [|lia].
    set (q := n / num) in *. rewrite <- seq_app. f_equal. nia.
Qed.
Lemma split_partition n num : 0 <= n -> (1 <= num)%nat ->
  flat_map (fun cur => range n (Z.of_nat cur) (Z.of_nat num)) (seq 0 num) = seq 0 (Z.to_nat n).
Proof.
  intros N H. destruct num as [|m]; [lia|]. rewrite seq_S, flat_map_app, split_prefix by lia.
  cbn [flat_map Nat.add]. rewrite app_nil_r. unfold range.
  pose proof (split_valid n (Z.of_nat m) (Z.of_nat (S m)) N ltac:(lia)) as V.
  replace (split_end n (Z.of_nat m) (Z.of_nat (S m))) with n in *.
  2:{ unfold split_end. destruct (Z.ltb_spec (Z.of_nat m) (Z.of_nat (S m) - 1)); [lia|reflexivity]. }
  unfold split_start in *. rewrite <- seq_app. f_equal. lia.
Qed.
Lemma flat_map_ext_in {A B} (f g : A -> list B) l : (forall x, In x l -> f x = g x) -> flat_map f l = flat_map g l.
Proof.
  induction l as [|x l IH]; intros H; [reflexivity|]. cbn [flat_map]. rewrite H by (left; reflexivity).
  rewrite IH by (intros; apply H; right; assumption). reflexivity.
Qed.
Lemma map_flat_map_gen {A B C} (f : B -> C) (g : A -> list B) l : map f (flat_map g l) = flat_map (fun x => map f (g x)) l.
Proof. induction l as [|x l IH]; [reflexivity|]. cbn [flat_map]. rewrite map_app, IH. reflexivity. Qed.
Lemma split_flat_map {A} (l : list A) num : (1 <= num)%nat ->
  flat_map (fun cur => let n := Z.of_nat (length l) in
      firstn (Z.to_nat (split_end n (Z.of_nat cur) (Z.of_nat num)) - Z.to_nat (split_start n (Z.of_nat cur) (Z.of_nat num)))
             (skipn (Z.to_nat (split_start n (Z.of_nat cur) (Z.of_nat num))) l)) (seq 0 num) = l.
Proof.
  intros H. destruct l as [|d l0] eqn:El.
  { clear. cbv zeta. induction (seq 0 num) as [|c cs IH]; [reflexivity|]. cbn [flat_map]. rewrite IH.
    rewrite skipn_nil, firstn_nil. reflexivity. }
  rewrite <- El.
  assert (K : forall s e, (s + e <= length l)%nat -> firstn e (skipn s l) = map (fun i => nth i l d) (seq s e)).
  { intros s e. revert s. induction e as [|e IH]; intros s L; [reflexivity|].
    cbn [seq map]. rewrite <- IH by lia. destruct (skipn s l) as [|x r] eqn:E.
    - pose proof (skipn_length s l) as Q. rewrite E in Q. cbn in Q. lia.
    - cbn [firstn]. f_equal.
      + assert (N : nth 0 (skipn s l) d = x) by (rewrite E; reflexivity). rewrite <- N.
        rewrite <- (firstn_skipn s l) at 2. rewrite app_nth2 by (rewrite firstn_length; lia).
        rewrite firstn_length. f_equal. lia.
      + f_equal. replace (S s) with (1 + s)%nat by lia. change r with (skipn 1 (x :: r)). rewrite <- E.
        clear. revert s. induction l as [|y l IH]; intros s; [rewrite !skipn_nil; reflexivity|].
        destruct s as [|s]; [reflexivity|]. cbn [skipn Nat.add]. apply (IH s). }
  cbv zeta. set (n := Z.of_nat (length l)).
  transitivity (flat_map (fun cur => map (fun i => nth i l d) (range n (Z.of_nat cur) (Z.of_nat num))) (seq 0 num)).
  - apply flat_map_ext_in. intros cur Hc. apply in_seq in Hc.
    pose proof (split_valid n (Z.of_nat cur) (Z.of_nat num) ltac:(lia) ltac:(lia)) as V. unfold range. apply K. lia.
  - rewrite <- (map_flat_map_gen (fun i => nth i l d)). rewrite split_partition by lia.
    unfold n. rewrite Nat2Z.id. rewrite <- (K 0%nat (length l)) by lia. cbn [skipn]. apply firstn_all.
Qed.

(** ** Generation as a list of calls *)
Lemma connect_calls vis v xs g : vis v = Ok xs -> connect_vertex vis g v = foldM gstep (vertex_calls vis v) g.
Proof.
  intros E. unfold connect_vertex, vertex_calls. rewrite E. cbn [bind]. clear E. revert g.
  induction xs as [|x xs IH]; intros g; [reflexivity|]. cbn [map foldM gstep].
  destruct (add_edge g v (v_coord x) (v_across x)); cbn [bind]; auto.
Qed.

Lemma calls_in vis v o : In o (vertex_calls vis v) <->
  exists xs x, vis v = Ok xs /\ In x xs /\ o = GAdd v (v_coord x) (v_across x).
Proof.
  unfold vertex_calls. destruct (vis v) as [xs|e|u]; cbn; [|split; [tauto|intros (? & ? & D & _); discriminate D]..].
  rewrite in_map_iff. split.
  - intros (x & <- & Hx). exists xs, x. auto.
  - intros (xs' & x & E & Hx & ->). inversion E; subst. exists x. auto.
Qed.

Definition calls_of (vis : vis_oracle) (L : list coord) : list gop := flat_map (vertex_calls vis) L.
Lemma calls_adds vis L : Forall is_add (calls_of vis L).
Proof.
  apply Forall_forall. intros o H. apply in_flat_map in H. destruct H as (v & _ & H).
  apply calls_in in H. destruct H as (xs & x & _ & _ & ->). exact I.
Qed.
Lemma calls_known ps vis L : reports ps vis -> (forall v, In v L -> In v (polygon_vertices ps)) ->
  Forall (known ps) (calls_of vis L).
Proof.
  intros R H. apply Forall_forall. intros o Ho. apply in_flat_map in Ho. destruct Ho as (v & Hv & Ho).
  apply calls_in in Ho. destruct Ho as (xs & x & E & Hx & ->). specialize (H v Hv).
  destruct (R v H) as (xs' & E' & K). rewrite E in E'. inversion E'; subst xs'. right. split; [exact H|apply K, Hx].
Qed.

Lemma connect_list ps vis L : reports ps vis -> (forall v, In v L -> In v (polygon_vertices ps)) ->
  exists g, foldM (connect_vertex vis) L (make_graph ps) = Ok g /\ grun (make_graph ps) (calls_of vis L) = Ok g /\
    foldM gstep (calls_of vis L) (make_graph ps) = Ok g.
Proof.
  intros R H. destruct (foldM_gstep_known0 ps _ (calls_known ps vis L R H)) as (g & E1 & E2). exists g.
  split; [|auto]. rewrite <- E1. unfold calls_of. rewrite foldM_flat_map. apply foldM_ext_in.
  intros v s Hv. destruct (R v (H v Hv)) as (xs & E & _). eapply connect_calls; eauto.
Qed.

Lemma generate_ok ps vis : reports ps vis ->
  exists g, generate vis ps = Ok g /\ grun (make_graph ps) (calls_of vis (polygon_vertices ps)) = Ok g.
Proof. intros R. destruct (connect_list ps vis (polygon_vertices ps) R) as (g & E1 & E2 & _); [auto|]. exists g. unfold generate. rewrite E1. auto. Qed.

(** ** Any schedule *)
Lemma schedule_independent ps vis calls : reports ps vis ->
  Permutation calls (calls_of vis (polygon_vertices ps)) ->
  exists g, parallel_generate ps calls = Ok g /\ generate vis ps = Ok g.
Proof.
  intros R P. destruct (generate_ok ps vis R) as (g & E1 & E2). exists g. split; [|exact E1].
  assert (I : forall o, In o calls <-> In o (calls_of vis (polygon_vertices ps))).
  { intros o. split; apply Permutation_in; [exact P|symmetry; exact P]. }
  assert (A : Forall is_add calls).
  { pose proof (calls_adds vis (polygon_vertices ps)) as A. rewrite Forall_forall in *. intros o Ho. apply A, I, Ho. }
  assert (K : Forall (known ps) calls).
  { pose proof (calls_known ps vis (polygon_vertices ps) R (fun v H => H)) as A'. rewrite Forall_forall in *. intros o Ho. apply A', I, Ho. }
  destruct (foldM_gstep_known0 ps calls K) as (g2 & F1 & F2). unfold parallel_generate. rewrite F1. cbn [in_parallel]. f_equal.
  destruct (adds_same_graph ps calls (calls_of vis (polygon_vertices ps)) A (calls_adds _ _) I) as (g3 & H1 & H2). congruence.
Qed.

(** [u] reported [v], with the flag *)
Definition reported (vis : vis_oracle) (u v : coord) (f : bool) : Prop :=
  exists xs x, vis u = Ok xs /\ In x xs /\ v_coord x = v /\ v_across x = f.

Lemma call_event ps vis a b f : a <> b -> In a (polygon_vertices ps) -> In b (polygon_vertices ps) ->
  (exists o, In o (calls_of vis (polygon_vertices ps)) /\ event_of a b o = Some (Some f)) <->
  (reported vis a b f \/ reported vis b a f).
Proof.
  intros N A B. split.
  - intros (o & Ho & E). apply in_flat_map in Ho. destruct Ho as (v & Hv & Ho). apply calls_in in Ho.
    destruct Ho as (xs & x & Ex & Hx & ->). cbn [event_of] in E.
    destruct (same a b v (v_coord x) || same a b (v_coord x) v) eqn:S; [|discriminate]. inversion E; subst f.
    apply orb_prop in S. rewrite !same_spec in S. destruct S as [[-> Hb]|[Ha ->]].
    + left. exists xs, x. auto.
    + right. exists xs, x. auto.
  - assert (K : forall u w, In u (polygon_vertices ps) -> reported vis u w f ->
      exists o, In o (calls_of vis (polygon_vertices ps)) /\ o = GAdd u w f).
    { intros u w Hu (xs & x & E & Hx & <- & <-). eexists. split; [|reflexivity]. apply in_flat_map. exists u.
      split; [exact Hu|]. apply calls_in. exists xs, x. auto. }
    intros [H|H]; [destruct (K a b A H) as (o & Ho & ->)|destruct (K b a B H) as (o & Ho & ->)]; eexists; (split; [exact Ho|]); cbn [event_of].
    + replace (same a b a b) with true; [reflexivity|]. symmetry. apply same_spec. auto.
    + replace (same a b a b) with true by (symmetry; apply same_spec; auto). rewrite orb_true_r. reflexivity.
Qed.

Lemma generate_edges ps vis g a b : reports ps vis -> generate vis ps = Ok g ->
  In a (polygon_vertices ps) -> In b (polygon_vertices ps) -> a <> b ->
  (has_edge g a b = Ok true <-> exists f, reported vis a b f \/ reported vis b a f) /\
  (is_edge_meridian_crossing g a b = Ok true <->
     has_edge g a b = Ok true /\ forall f, reported vis a b f \/ reported vis b a f -> f = true).
Proof.
  intros R E A B N. destruct (generate_ok ps vis R) as (g' & E' & G). rewrite E in E'. inversion E'; subst g'.
  destruct (grun_queries ps _ g G a b) as (Q & _). destruct (Q N A B) as [Q1 Q2]. rewrite Q1, Q2.
  pose proof (calls_adds vis (polygon_vertices ps)) as Ad. split.
  - transitivity (spec_connected a b (calls_of vis (polygon_vertices ps)) = true); [split; congruence|].
    rewrite adds_connected by exact Ad. split.
    + intros (o & f & Ho & Ev). exists f. apply (call_event ps vis a b f N A B). eauto.
    + intros (f & H). apply (call_event ps vis a b f N A B) in H. destruct H as (o & Ho & Ev). eauto.
  - transitivity (spec_crossing a b (calls_of vis (polygon_vertices ps)) = true); [split; congruence|].
    rewrite adds_crossing by exact Ad. split.
    + intros [C K]. split; [congruence|]. intros f H. apply (call_event ps vis a b f N A B) in H.
      destruct H as (o & Ho & Ev). eauto.
    + intros [C K]. split; [congruence|]. intros o f Ho Ev. apply K. apply (call_event ps vis a b f N A B). eauto.
Qed.

(** ** Splits and merging *)
Lemma split_ok ps vis cur num shuffled : ps <> [] -> reports ps vis -> Permutation shuffled (polygon_vertices ps) ->
  (cur < num)%nat ->
  let n := Z.of_nat (length shuffled) in
  let s := Z.to_nat (split_start n (Z.of_nat cur) (Z.of_nat num)) in
  let e := Z.to_nat (split_end n (Z.of_nat cur) (Z.of_nat num)) in
  exists g, generate_for_vertex_range vis ps (Z.of_nat cur) (Z.of_nat num) shuffled = Ok g /\
    grun (make_graph ps) (calls_of vis (firstn (e - s) (skipn s shuffled))) = Ok g.
Proof.
  intros NE R P L n s e. unfold generate_for_vertex_range. rewrite num_vertices by exact NE. cbn [bind].
  rewrite <- (Permutation_length P). fold n.
  destruct (Z.eqb_spec (Z.of_nat num) 0); [lia|].
  pose proof (split_valid n (Z.of_nat cur) (Z.of_nat num) ltac:(lia) ltac:(lia)) as V.
  unfold to_size_t. destruct (Z.ltb_spec (split_start n (Z.of_nat cur) (Z.of_nat num)) 0); [lia|]. cbn [bind].
  destruct (Z.ltb_spec (split_end n (Z.of_nat cur) (Z.of_nat num)) 0); [lia|]. cbn [bind]. fold s. fold e.
  unfold generate_with_shuffled_range. destruct ps as [|p ps0]; [congruence|]. set (ps := p :: ps0) in *.
  rewrite <- (Permutation_length P).
  assert (Ls : (e <= length shuffled)%nat) by (unfold e; lia). assert (Le : (s <= e)%nat) by (unfold e, s; lia).
  rewrite (proj2 (Nat.ltb_ge (length shuffled) e)) by exact Ls. rewrite (proj2 (Nat.ltb_ge e s)) by exact Le. cbn [orb].
  destruct (connect_list ps vis (firstn (e - s) (skipn s shuffled)) R) as (g & E1 & E2 & _); [|exists g; rewrite E1; auto].
  intros v Hv. apply (Permutation_in v P).
  rewrite <- (firstn_skipn s shuffled). apply in_or_app. right.
  rewrite <- (firstn_skipn (e - s) (skipn s shuffled)). apply in_or_app. left. exact Hv.
Qed.

Lemma union_of_adds ps hs gs h a b :
  Forall2 (fun h g => Forall is_add h /\ grun (make_graph ps) h = Ok g) hs gs ->
  (forall o, In o h <-> In o (concat hs)) ->
  a <> b -> In a (polygon_vertices ps) -> In b (polygon_vertices ps) ->
  union_view gs a b = spec_view a b h.
Proof.
  intros F2 Hh N A B.
  set (F := fun h => adds_since_removal a b (rev h)).
  assert (KF : forall h, Forall is_add h -> forall f, In f (F h) <-> exists o, In o h /\ event_of a b o = Some (Some f)).
  { intros h0 A0 f. unfold F. rewrite adds_of_adds by (apply Forall_rev; exact A0).
    split; intros (o & Ho & E); exists o; (split; [|exact E]); [apply in_rev in Ho|apply -> in_rev]; exact Ho. }
  assert (Ah : Forall is_add h).
  { apply Forall_forall. intros o Ho. apply Hh in Ho. apply in_concat in Ho. destruct Ho as (h0 & H0 & Ho).
    clear - F2 H0 Ho. induction F2 as [|h1 g1 hs gs [A1 _] _ IH]; [contradiction|].
    destruct H0 as [->|H0]; [rewrite Forall_forall in A1; auto|auto]. }
  assert (Fl : forall f, In f (flags_of gs a b) <-> exists h0, In h0 hs /\ F h0 <> [] /\ f = forallb (fun m => m) (F h0)).
  { intros f. rewrite flags_of_in. clear Hh. induction F2 as [|h1 g1 hs gs [A1 G1] F2 IH].
    - split; [intros (g & [] & _)|intros (h0 & [] & _)].
    - assert (An : answer g1 a b = match F h1 with [] => None | fs => Some (forallb (fun m => m) fs) end)
        by (rewrite (answer_spec ps h1 g1 a b G1 N A B); reflexivity).
      split.
      + intros (g & [<-|Hg] & E).
        * exists h1. split; [left; reflexivity|]. rewrite An in E. destruct (F h1) as [|x l]; [discriminate|].
          inversion E. split; [discriminate|reflexivity].
        * destruct (proj1 IH) as (h0 & H0 & K); [eauto|]. exists h0. split; [right; exact H0|exact K].
      + intros (h0 & [<-|H0] & NE & ->).
        * exists g1. split; [left; reflexivity|]. rewrite An. destruct (F h1); [congruence|reflexivity].
        * destruct (proj2 IH) as (g & Hg & E); [exists h0; auto|]. exists g. split; [right; exact Hg|exact E]. }
  assert (Adds : forall h0, In h0 hs -> Forall is_add h0).
  { clear - F2. induction F2 as [|h1 g1 hs gs [A1 _] _ IH]; intros h0 H; [contradiction|]. destruct H as [<-|H]; auto. }
  assert (Un : forall f, In f (F h) <-> exists h0, In h0 hs /\ In f (F h0)).
  { intros f. rewrite (KF h Ah). split.
    - intros (o & Ho & E). apply Hh, in_concat in Ho. destruct Ho as (h0 & H0 & Ho). exists h0. split; [exact H0|].
      apply (KF h0 (Adds h0 H0)). eauto.
    - intros (h0 & H0 & Hf). apply (KF h0 (Adds h0 H0)) in Hf. destruct Hf as (o & Ho & E). exists o. split; [|exact E].
      apply Hh, in_concat. eauto. }
  unfold union_view, spec_view. fold (F h).
  assert (E0 : flags_of gs a b = [] <-> F h = []).
  { split; intros E.
    - destruct (F h) as [|x l] eqn:EF; [reflexivity|]. exfalso.
      destruct (proj1 (Un x) (or_introl eq_refl)) as (h0 & H0 & Hx).
      assert (I : In (forallb (fun m => m) (F h0)) (flags_of gs a b)).
      { apply Fl. exists h0. split; [exact H0|]. split; [|reflexivity]. intros Z. rewrite Z in Hx. exact Hx. }
      rewrite E in I. exact I.
    - destruct (flags_of gs a b) as [|x l] eqn:EF; [reflexivity|]. exfalso.
      destruct (proj1 (Fl x) (or_introl eq_refl)) as (h0 & H0 & NE & _). destruct (F h0) as [|y l0] eqn:E1; [congruence|].
      assert (I : In y (F h)) by (apply Un; exists h0; split; [exact H0|rewrite E1; left; reflexivity]).
      rewrite E in I. exact I. }
  assert (E1 : forallb (fun m => m) (flags_of gs a b) = forallb (fun m => m) (F h)).
  { apply eq_true_iff_eq. rewrite !forallb_forall. split; intros K x Hx.
    - apply Un in Hx. destruct Hx as (h0 & H0 & Hx).
      assert (T : forallb (fun m => m) (F h0) = true).
      { apply K, Fl. exists h0. split; [exact H0|]. split; [|reflexivity]. intros Z. rewrite Z in Hx. exact Hx. }
      rewrite forallb_forall in T. apply T, Hx.
    - apply Fl in Hx. destruct Hx as (h0 & H0 & _ & ->). apply forallb_forall. intros y Hy. apply K, Un. eauto. }
  destruct (flags_of gs a b) as [|x l], (F h) as [|y l0]; try reflexivity.
  - destruct E0 as [E0 _]. discriminate (E0 eq_refl).
  - destruct E0 as [_ E0]. discriminate (E0 eq_refl).
  - rewrite E1. reflexivity.
Qed.

Lemma mapM_Forall2 {A B} (f : A -> res B) (P : A -> B -> Prop) l :
  (forall x, In x l -> exists y, f x = Ok y /\ P x y) -> exists ys, mapM f l = Ok ys /\ Forall2 P l ys.
Proof.
  induction l as [|x l IH]; intros H; [exists []; split; [reflexivity|constructor]|].
  destruct (H x (or_introl eq_refl)) as (y & E & Py). destruct IH as (ys & E2 & F); [intros; apply H; right; assumption|].
  exists (y :: ys). cbn [mapM]. rewrite E. cbn [bind]. rewrite E2. split; [reflexivity|constructor; assumption].
Qed.

(** all edge queries agree *)
Definition same_answers (m g : graph) : Prop :=
  forall a b, has_edge m a b = has_edge g a b /\ is_edge_meridian_crossing m a b = is_edge_meridian_crossing g a b.

Lemma answers_agree ps h g ps' h' g' : grun (make_graph ps) h = Ok g -> grun (make_graph ps') h' = Ok g' ->
  (forall c, In c (polygon_vertices ps) <-> In c (polygon_vertices ps')) ->
  (forall a b, answer g a b = answer g' a b) -> same_answers g g'.
Proof.
  intros G G' V An a b. destruct (grun_queries ps h g G a b) as (Q1 & Q2 & Q3). destruct (grun_queries ps' h' g' G' a b) as (R1 & R2 & R3).
  destruct (coord_dec a b) as [E|N]; [destruct (Q3 E) as [-> ->]; destruct (R3 E) as [-> ->]; auto|].
  destruct (in_dec coord_dec a (polygon_vertices ps)) as [A|A]; [destruct (in_dec coord_dec b (polygon_vertices ps)) as [B|B]|].
  - pose proof (proj1 (V a) A) as A'. pose proof (proj1 (V b) B) as B'. specialize (An a b).
    rewrite (answer_spec ps h g a b G N A B), (answer_spec ps' h' g' a b G' N A' B') in An.
    destruct (Q1 N A B) as [-> ->]. destruct (R1 N A' B') as [-> ->]. unfold spec_connected, spec_crossing. rewrite An. auto.
  - assert (B' : ~ In b (polygon_vertices ps')) by (rewrite <- V; exact B).
    destruct (Q2 N (or_intror B)) as [-> ->]. destruct (R2 N (or_intror B')) as [-> ->]. auto.
  - assert (A' : ~ In a (polygon_vertices ps')) by (rewrite <- V; exact A).
    destruct (Q2 N (or_introl A)) as [-> ->]. destruct (R2 N (or_introl A')) as [-> ->]. auto.
Qed.

Lemma polygons_same_vertices ps polys : (forall p, In p polys <-> In p ps) ->
  forall c, In c (polygon_vertices polys) <-> In c (polygon_vertices ps).
Proof.
  intros H c. rewrite !in_polygon_vertices. split; intros (p & Hp & Hc); exists p; (split; [apply H, Hp|exact Hc]).
Qed.

Lemma calls_of_flat vis (l : list (list coord)) : concat (map (calls_of vis) l) = calls_of vis (concat l).
Proof. unfold calls_of. induction l as [|x l IH]; [reflexivity|]. cbn [map concat]. rewrite IH, flat_map_app. reflexivity. Qed.

Section Distributed.
Variables (ps : list polygon) (vis : vis_oracle) (shuffled : list coord) (num : nat).
Hypothesis NE : ps <> [].
Hypothesis R : reports ps vis.
Hypothesis P : Permutation shuffled (polygon_vertices ps).
Hypothesis N1 : (1 <= num)%nat.

Let part (cur : nat) : list coord := let n := Z.of_nat (length shuffled) in
      firstn (Z.to_nat (split_end n (Z.of_nat cur) (Z.of_nat num)) - Z.to_nat (split_start n (Z.of_nat cur) (Z.of_nat num)))
             (skipn (Z.to_nat (split_start n (Z.of_nat cur) (Z.of_nat num))) shuffled).

Lemma all_splits : exists gs, mapM (fun cur => generate_for_vertex_range vis ps (Z.of_nat cur) (Z.of_nat num) shuffled) (seq 0 num) = Ok gs /\
  Forall2 (fun h g => Forall is_add h /\ grun (make_graph ps) h = Ok g) (map (fun c => calls_of vis (part c)) (seq 0 num)) gs.
Proof.
  destruct (mapM_Forall2 (fun cur => generate_for_vertex_range vis ps (Z.of_nat cur) (Z.of_nat num) shuffled)
    (fun c g => Forall is_add (calls_of vis (part c)) /\ grun (make_graph ps) (calls_of vis (part c)) = Ok g) (seq 0 num)) as (gs & E & F).
  - intros cur Hc. apply in_seq in Hc. destruct (split_ok ps vis cur num shuffled NE R P) as (g & E1 & E2); [lia|].
    exists g. split; [exact E1|]. split; [apply calls_adds|exact E2].
  - exists gs. split; [exact E|]. clear E. induction F; cbn [map]; constructor; auto.
Qed.

Lemma all_calls o : In o (concat (map (fun c => calls_of vis (part c)) (seq 0 num))) <-> In o (calls_of vis (polygon_vertices ps)).
Proof.
  rewrite <- (map_map part (calls_of vis)), calls_of_flat. rewrite <- flat_map_concat_map. unfold part.
  rewrite split_flat_map by exact N1. unfold calls_of. rewrite !in_flat_map.
  split; intros (v & Hv & H); exists v; (split; [|exact H]); eapply Permutation_in; try exact Hv; [|symmetry]; exact P.
Qed.

Lemma merged_equals gs gs2 polys :
  Forall2 (fun h g => Forall is_add h /\ grun (make_graph ps) h = Ok g) (map (fun c => calls_of vis (part c)) (seq 0 num)) gs ->
  Forall built gs2 -> (forall g, In g gs2 -> get_polygons g = ps) ->
  (forall a b, union_view gs2 a b = union_view gs a b) ->
  (forall p, In p polys <-> In p ps) ->
  exists m g, generate vis ps = Ok g /\ merge_graphs polys gs2 = Ok m /\ get_polygons m = polys /\ same_answers m g.
Proof.
  intros F B Po Un Hp. destruct (generate_ok ps vis R) as (g & E & G).
  destruct (merge_any_order polys gs2 (flat_map merge_ops gs2) B) as (m & M1 & M2 & M3 & M4).
  { intros g0 p Hg Hpp. rewrite (Po g0 Hg) in Hpp. apply Hp, Hpp. }
  { tauto. }
  exists m, g. split; [exact E|]. split; [rewrite merge_graphs_ops by exact B; rewrite M1; reflexivity|]. split; [exact M3|].
  apply (answers_agree _ _ m _ _ g M2 G); [apply polygons_same_vertices, Hp|].
  intros a b. rewrite M4, Un.
  destruct (coord_dec a b) as [->|N].
  { rewrite (answer_self ps _ g b G). rewrite <- Un, <- M4. apply (answer_self polys _ m b M2). }
  destruct (in_dec coord_dec a (polygon_vertices ps)) as [A|A]; [destruct (in_dec coord_dec b (polygon_vertices ps)) as [Bb|Bb]|].
  - rewrite (answer_spec ps _ g a b G N A Bb). apply (union_of_adds ps _ gs _ a b F); auto.
    intros o. symmetry. apply all_calls.
  - rewrite (answer_unknown ps _ g a b G (or_intror Bb)). rewrite <- Un, <- M4.
    apply (answer_unknown polys _ m a b M2). right. rewrite (polygons_same_vertices ps polys Hp). exact Bb.
  - rewrite (answer_unknown ps _ g a b G (or_introl A)). rewrite <- Un, <- M4.
    apply (answer_unknown polys _ m a b M2). left. rewrite (polygons_same_vertices ps polys Hp). exact A.
Qed.

Lemma Forall2_in_r {A B} (Q : A -> B -> Prop) l r y : Forall2 Q l r -> In y r -> exists x, In x l /\ Q x y.
Proof. induction 1 as [|x0 y0 l r H _ IH]; intros []; subst; [exists x0; split; [left|]; auto|]. destruct IH as (x & Hx & Hq); auto. exists x. split; [right|]; auto. Qed.

Lemma distributed polys gs2 gs :
  mapM (fun cur => generate_for_vertex_range vis ps (Z.of_nat cur) (Z.of_nat num) shuffled) (seq 0 num) = Ok gs ->
  Permutation gs2 gs -> (forall p, In p polys <-> In p ps) ->
  exists m g, generate vis ps = Ok g /\ merge_graphs polys gs2 = Ok m /\ get_polygons m = polys /\ same_answers m g.
Proof.
  intros E Pe Hp. destruct all_splits as (gs' & E' & F). rewrite E in E'. inversion E'; subst gs'.
  assert (Bt : forall g, In g gs2 -> built g /\ get_polygons g = ps).
  { intros g Hg. apply (Permutation_in g Pe) in Hg. destruct (Forall2_in_r _ _ _ _ F Hg) as (h0 & _ & A0 & G0).
    split; [exists ps, h0; split; [apply adds_undirected, A0|exact G0]|apply (built_polys ps h0 g G0)]. }
  apply (merged_equals gs gs2 polys F); auto.
  - apply Forall_forall. intros g Hg. apply Bt, Hg.
  - intros g Hg. apply Bt, Hg.
  - intros a b. apply union_view_perm, Pe.
Qed.

(** through files: every split saved to a fresh path, loaded and merged *)
Lemma distributed_files limit polys gs2 gs :
  mapM (fun cur => generate_for_vertex_range vis ps (Z.of_nat cur) (Z.of_nat num) shuffled) (seq 0 num) = Ok gs ->
  fixed_map ps -> (forall g, In g gs -> file_size g < 2 ^ 60 /\ file_size g <= limit) ->
  Permutation gs2 gs -> (forall p, In p polys <-> In p ps) ->
  exists ls m g, mapM (fun g => f <- serialize_to_file g None ;; deserialize_from_file limit f) gs2 = Ok ls /\
    generate vis ps = Ok g /\ merge_graphs polys ls = Ok m /\ get_polygons m = polys /\ same_answers m g.
Proof.
  intros E Fx Sz Pe Hp. destruct all_splits as (gs' & E' & F). rewrite E in E'. inversion E'; subst gs'.
  assert (Bt : forall g, In g gs2 -> exists h0, Forall is_add h0 /\ grun (make_graph ps) h0 = Ok g).
  { intros g Hg. apply (Permutation_in g Pe) in Hg. destruct (Forall2_in_r _ _ _ _ F Hg) as (h0 & _ & A0 & G0). eauto. }
  destruct (mapM_Forall2 (fun g => f <- serialize_to_file g None ;; deserialize_from_file limit f)
    (fun g l => built l /\ get_polygons l = ps /\ forall a b, answer l a b = answer g a b) gs2) as (ls & El & Fl).
  { intros g Hg. destruct (Bt g Hg) as (h0 & A0 & G0). destruct (Sz g (Permutation_in g Pe Hg)) as [S1 S2].
    destruct (save_load_fresh ps h0 g limit Fx (adds_undirected _ A0) G0 S1 S2) as (f & l & L1 & L2 & L3 & L4 & L5 & L6 & _).
    exists l. rewrite L1. cbn [bind]. split; [exact L2|]. split; [exact L3|]. split; [rewrite L4; apply (built_polys ps h0 g G0)|].
    intros a b. unfold answer. rewrite L5, L6. reflexivity. }
  exists ls.
  assert (Fl' : forall a b, flags_of ls a b = flags_of gs2 a b).
  { intros a b. clear - Fl. induction Fl as [|g l gs2 ls (_ & _ & A) _ IH]; [reflexivity|].
    unfold flags_of in *. cbn [flat_map]. rewrite IH, A. reflexivity. }
  destruct (merged_equals gs ls polys F) as (m & g & G1 & G2 & G3 & G4); auto.
  - apply Forall_forall. intros l Hl. destruct (Forall2_in_r _ _ _ _ Fl Hl) as (g & _ & B & _). exact B.
  - intros l Hl. destruct (Forall2_in_r _ _ _ _ Fl Hl) as (g & _ & _ & B & _). exact B.
  - intros a b. transitivity (union_view gs2 a b); [unfold union_view; rewrite Fl'; reflexivity|apply union_view_perm, Pe].
  - exists m, g. auto.
Qed.
End Distributed.

(** ** The forms used by the property theorems *)
Lemma split_ranges (n : nat) (num : Z) : 1 <= num ->
  (forall cur, 0 <= cur < num -> 0 <= split_start (Z.of_nat n) cur num <= split_end (Z.of_nat n) cur num /\ split_end (Z.of_nat n) cur num <= Z.of_nat n) /\
  forall i, 0 <= i < Z.of_nat n -> exists! cur, 0 <= cur < num /\ split_start (Z.of_nat n) cur num <= i < split_end (Z.of_nat n) cur num.
Proof.
  intros N. split.
  - intros cur C. pose proof (split_valid (Z.of_nat n) cur num ltac:(lia) C). lia.
  - intros i Hi. unfold split_start, split_end. pose proof (Z.div_mod (Z.of_nat n) num ltac:(lia)) as D.
    pose proof (Z.mod_pos_bound (Z.of_nat n) num ltac:(lia)) as M. pose proof (Z.div_pos (Z.of_nat n) num ltac:(lia) ltac:(lia)) as P.
    set (q := Z.of_nat n / num) in *.
    destruct (Z_lt_ge_dec i (q * (num - 1))) as [L|L].
    + pose proof (Z.div_mod i q ltac:(nia)) as D2. pose proof (Z.mod_pos_bound i q ltac:(nia)) as M2.
      set (c := i / q) in *. assert (0 <= c < num - 1) by nia. exists c. split.
      * destruct (Z.ltb_spec c (num - 1)); nia.
      * intros d [Hd1 Hd2]. destruct (Z.ltb_spec d (num - 1)); nia.
    + exists (num - 1). split.
      * destruct (Z.ltb_spec (num - 1) (num - 1)); nia.
      * intros d [Hd1 Hd2]. destruct (Z.ltb_spec d (num - 1)); nia.
Qed.

Lemma distributed_total ps vis shuffled (num : nat) :
  ps <> [] -> reports ps vis -> Permutation shuffled (polygon_vertices ps) -> (1 <= num)%nat ->
  exists gs g,
    mapM (fun cur => generate_for_vertex_range vis ps (Z.of_nat cur) (Z.of_nat num) shuffled) (seq 0 num) = Ok gs /\
    generate vis ps = Ok g /\
    forall gs2 polys, Permutation gs2 gs -> (forall p, In p polys <-> In p ps) ->
    exists m, merge_graphs polys gs2 = Ok m /\ get_polygons m = polys /\ same_answers m g.
Proof.
  intros NE R P N. destruct (all_splits ps vis shuffled num NE R P N) as (gs & E & _).
  destruct (generate_ok ps vis R) as (g & G & _). exists gs, g. split; [exact E|]. split; [exact G|].
  intros gs2 polys Pe Hp. destruct (distributed ps vis shuffled num NE R P N polys gs2 gs E Pe Hp) as (m & g' & G' & M).
  rewrite G in G'. inversion G'; subst g'. exists m. exact M.
Qed.
Lemma distributed_files_total ps vis shuffled (num : nat) limit :
  ps <> [] -> reports ps vis -> Permutation shuffled (polygon_vertices ps) -> (1 <= num)%nat -> fixed_map ps ->
  exists gs g,
    mapM (fun cur => generate_for_vertex_range vis ps (Z.of_nat cur) (Z.of_nat num) shuffled) (seq 0 num) = Ok gs /\
    generate vis ps = Ok g /\
    ((forall h, In h gs -> file_size h < 2 ^ 60 /\ file_size h <= limit) ->
     forall gs2 polys, Permutation gs2 gs -> (forall p, In p polys <-> In p ps) ->
     exists ls m, mapM (fun h => f <- serialize_to_file h None ;; deserialize_from_file limit f) gs2 = Ok ls /\
       merge_graphs polys ls = Ok m /\ get_polygons m = polys /\ same_answers m g).
Proof.
  intros NE R P N Fx. destruct (all_splits ps vis shuffled num NE R P N) as (gs & E & _).
  destruct (generate_ok ps vis R) as (g & G & _). exists gs, g. split; [exact E|]. split; [exact G|].
  intros Sz gs2 polys Pe Hp.
  destruct (distributed_files ps vis shuffled num NE R P N limit polys gs2 gs E Fx Sz Pe Hp) as (ls & m & g' & L & G' & M).
  rewrite G in G'. inversion G'; subst g'. exists ls, m. split; [exact L|exact M].
Qed.
Lemma schedule_total ps vis : reports ps vis ->
  exists g, generate vis ps = Ok g /\
    (forall calls, Permutation calls (flat_map (vertex_calls vis) (polygon_vertices ps)) -> parallel_generate ps calls = Ok g) /\
    forall a b, In a (polygon_vertices ps) -> In b (polygon_vertices ps) -> a <> b ->
      (has_edge g a b = Ok true <-> exists f, reported vis a b f \/ reported vis b a f) /\
      (is_edge_meridian_crossing g a b = Ok true <->
         has_edge g a b = Ok true /\ forall f, reported vis a b f \/ reported vis b a f -> f = true).
Proof.
  intros R. destruct (generate_ok ps vis R) as (g & G & _). exists g. split; [exact G|]. split.
  - intros calls Pe. destruct (schedule_independent ps vis calls R Pe) as (g' & E & G'). congruence.
  - intros a b A B N. apply generate_edges with ps; auto.
Qed.
