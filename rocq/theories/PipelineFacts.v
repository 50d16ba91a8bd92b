(** Proofs about the commands of the Python layer. *)
From Coq Require Import ZArith Reals Bool List Lia Permutation Sorted String.
From Verif Require Import Base F64 Coordinate Periodicity Segment Polygon PolygonMore SpecGeom SpecGraph Graph GraphFacts GraphMore Visgraph VisgraphFacts
  Serializer SpecFile RoundFacts SerializerMore Sweep SweepMaps SweepGen ShortestPath SearchFacts SearchSpec SearchGraph SearchQuery PathFacts PathMore PyLayer PyFacts Pipeline.
Import ListNotations.
Local Open Scope Z_scope.

Lemma path_eqb_iff p q : path_eqb p q = true <-> p = q.
Proof. unfold path_eqb. destruct (list_eq_dec string_dec p q); split; congruence. Qed.
Lemma put_same p n s : put p n s p = Some n.
Proof. unfold put. rewrite (proj2 (path_eqb_iff p p) eq_refl). reflexivity. Qed.
Lemma put_other p n s q : q <> p -> put p n s q = s q.
Proof. unfold put. intros N. destruct (path_eqb q p) eqn:E; [apply path_eqb_iff in E; contradiction|reflexivity]. Qed.
Lemma default_parent out : removelast (default_graph_path out) = out.
Proof. apply removelast_last. Qed.
Lemma default_differs out : default_graph_path out <> out.
Proof. intros E. apply (f_equal (@List.length _)) in E. unfold default_graph_path in E. rewrite app_length in E. cbn in E. lia. Qed.
Lemma parent_differs (out : path) : out <> [] -> removelast out <> out.
Proof.
  intros N E. rewrite (app_removelast_last ""%string N) in E at 2. apply (f_equal (@List.length _)) in E. rewrite app_length in E. cbn in E. lia.
Qed.

(** ** what a command can change *)
Definition changes_only {A} (c : cmd A) (out : path) : Prop :=
  forall s q, q <> out -> q <> default_graph_path out -> fst (c s) q = s q.
Definition refuses {A} (c : cmd A) (out : path) : Prop :=
  forall s, s out <> None -> c s = (s, Throw PyFileExists).

Lemma mkdir_effect out s : 
  (exists n, s out = Some n /\ effect (mkdir out) s = (s, Throw PyFileExists)) \/
  (s out = None /\ effect (mkdir out) s = (s, Throw FileError) /\ s (removelast out) <> Some Dir) \/
  (s out = None /\ s (removelast out) = Some Dir /\ effect (mkdir out) s = (put out Dir s, Ok tt)).
Proof.
  unfold effect, mkdir. destruct (s out) as [n|]; [left; eauto|right].
  destruct (s (removelast out)) as [[|f]|]; cbn [is_dir]; [right; auto|left|left]; repeat split; congruence.
Qed.
Lemma save_effect g p s : 
  (exists f, effect (save_graph_to_file g p) s = (put p (Doc f) s, Ok tt)) \/ exists r, effect (save_graph_to_file g p) s = (s, r).
Proof.
  unfold effect, save_graph_to_file. destruct (is_dir (s (removelast p)) && negb (is_dir (s p))); [|right; eauto].
  destruct (serialize_to_file g (match s p with Some (Doc f) => Some f | _ => None end)) as [f|e|u]; cbn [bind]; [left|right|right]; eauto.
Qed.

(** the shape shared by the three commands *)
Definition staged {A} (out : path) (prepare : fs -> res A) (make : A -> res graph) : cmd unit :=
  andthen (effect (mkdir out)) (fun _ => andthen (lift prepare) (fun a => andthen (lift (fun _ => make a)) (fun g =>
    effect (save_graph_to_file g (default_graph_path out))))).

Lemma staged_cases {A} out (prepare : fs -> res A) make s :
  (s out <> None /\ staged out prepare make s = (s, Throw PyFileExists)) \/
  (s out = None /\ staged out prepare make s = (s, Throw FileError)) \/
  (s out = None /\ s (removelast out) = Some Dir /\
   ((exists r, staged out prepare make s = (put out Dir s, r)) \/
    exists f, staged out prepare make s = (put (default_graph_path out) (Doc f) (put out Dir s), Ok tt))).
Proof.
  unfold staged, andthen, lift. destruct (mkdir_effect out s) as [(n & N & ->)|[(N & -> & _)|(N & D & ->)]]; [left; split; [congruence|reflexivity]|right; left; auto|].
  right. right. split; [exact N|]. split; [exact D|]. destruct (prepare (put out Dir s)) as [a|e|u]; [|left; eexists; reflexivity..].
  destruct (make a) as [g|e|u]; [|left; eexists; reflexivity..].
  destruct (save_effect g (default_graph_path out) (put out Dir s)) as [(f & ->)|(r & ->)]; [right|left]; eexists; reflexivity.
Qed.

Lemma staged_changes {A} out (prepare : fs -> res A) make : changes_only (staged out prepare make) out.
Proof.
  intros s q N1 N2. destruct (staged_cases out prepare make s) as [[_ ->]|[[_ ->]|(_ & _ & [[r ->]|[f ->]])]]; cbn [fst]; try reflexivity;
    rewrite ?(put_other _ _ _ _ N2), ?(put_other _ _ _ _ N1); reflexivity.
Qed.
Lemma staged_refuses {A} out (prepare : fs -> res A) make : refuses (staged out prepare make) out.
Proof. intros s N. destruct (staged_cases out prepare make s) as [[_ ->]|[[E _]|(E & _)]]; [reflexivity|congruence..]. Qed.

(** a run that got past the creation of the directory cannot be repeated *)
Lemma staged_again {A B} out (prepare : fs -> res A) make (prepare' : fs -> res B) make' s s' r :
  s out = None -> s (removelast out) = Some Dir -> staged out prepare make s = (s', r) ->
  staged out prepare' make' s' = (s', Throw PyFileExists).
Proof.
  intros N D E. apply staged_refuses. destruct (staged_cases out prepare make s) as [[X _]|[[_ X]|(_ & _ & [[r' X]|[f X]])]]; [congruence| | |].
  - exfalso. unfold staged, andthen in X. destruct (mkdir_effect out s) as [(n & Q & _)|[(_ & _ & Q)|(_ & _ & Q)]]; [congruence..|]. rewrite Q in X. unfold lift in X.
    destruct (prepare (put out Dir s)) as [a|e|u]; [destruct (make a) as [g|e|u]; [destruct (save_effect g (default_graph_path out) (put out Dir s)) as [(f & Y)|(r' & Y)]; rewrite Y in X|..]|..];
      apply (f_equal fst) in X; cbn [fst] in X; apply (f_equal (fun t => t out)) in X; rewrite ?put_other in X by (intros W; symmetry in W; revert W; apply default_differs); rewrite put_same in X; congruence.
  - rewrite E in X. injection X as -> _. rewrite put_same. discriminate.
  - rewrite E in X. injection X as -> _. rewrite put_other by (intros W; symmetry in W; revert W; apply default_differs). rewrite put_same. discriminate.
Qed.

(** ** a successful run *)
Lemma staged_ok {A} out (prepare : fs -> res A) make s limit a g ps h :
  s out = None -> s (removelast out) = Some Dir -> s (default_graph_path out) = None ->
  prepare (put out Dir s) = Ok a -> make a = Ok g ->
  Forall undirected h -> grun (make_graph ps) h = Ok g -> fixed_map ps -> file_size g < 2 ^ 60 -> file_size g <= limit ->
  exists s' g', staged out prepare make s = (s', Ok tt) /\ s' out = Some Dir /\
    load_graph_from_file limit (default_graph_path out) s' = Ok g' /\ built g' /\ same_graph g' g.
Proof.
  intros N D N2 Ea Eg Un G Fx S1 S2. destruct (save_load_fresh ps h g limit Fx Un G S1 S2) as (f & g' & E1 & E2 & B & Sg).
  exists (put (default_graph_path out) (Doc f) (put out Dir s)), g'. split.
  { unfold staged, andthen, lift. unfold effect at 1. unfold mkdir. rewrite N, D. cbn [is_dir]. rewrite Ea, Eg. unfold effect, save_graph_to_file.
    rewrite default_parent, put_same, put_other, N2 by apply default_differs. cbn [is_dir negb andb]. rewrite E1. reflexivity. }
  split. { rewrite put_other by (intros W; symmetry in W; revert W; apply default_differs). apply put_same. }
  split; [|auto]. unfold load_graph_from_file. rewrite put_same. exact E2.
Qed.

(** ** from the shapes to the polygons *)
Lemma shapes_polygons shapes : Forall (fun s => nth_error (sh_parts s) 0 = Some O) shapes -> Forall on_earth_shape shapes ->
  exists ps, read_polygons_from_shapefile shapes = Ok ps /\ forall c, In c (polygon_vertices ps) -> ngeo c.
Proof.
  intros W E. destruct (obstacles_ok shapes W E) as (ps & Er & F). exists ps. split; [exact Er|].
  intros c Hc. apply in_polygon_vertices in Hc. destruct Hc as (p & Hp & Hc).
  assert (K : exists vs, Forall ngeo vs /\ make_polygon vs = Ok p).
  { clear - F Hp. induction F as [|sh q l ps (vs & C & M) F IH]; [destruct Hp|]. destruct Hp as [->|Hp]; [|exact (IH Hp)].
    exists vs. split; [|exact M]. clear - C. induction C as [|q v l k (A & B & _) C IH]; constructor; [|exact IH]. unfold ngeo. lia. }
  destruct K as (vs & Gv & M). assert (Pv : Forall pgeo vs) by (eapply Forall_impl; [|exact Gv]; apply ngeo_pgeo).
  destruct (construction_selects vs Pv) as (p' & idx & M' & _ & I & V). rewrite M in M'. injection M' as <-.
  assert (Hc' : In c (map (vat vs) idx)) by (destruct V as [V|V]; rewrite V in Hc; [exact Hc|apply in_rev; exact Hc]).
  apply in_map_iff in Hc'. destruct Hc' as (i & <- & Hi). apply I in Hi. destruct Hi as [Hi _].
  revert Gv. rewrite Forall_forall. intros Gv. apply Gv. unfold vat. apply nth_In. exact Hi.
Qed.

Lemma ngeo_i32 c : ngeo c -> coord_i32 c.
Proof. unfold ngeo, coord_i32, INT32_MIN, INT32_MAX. lia. Qed.
Lemma fixed_of ps : (forall c, In c (polygon_vertices ps) -> ngeo c) -> Forall (fun p => make_polygon (verts p) = Ok p) ps -> fixed_map ps.
Proof.
  intros G F. apply Forall_forall. intros p Hp. split; [revert p Hp; apply Forall_forall; exact F|].
  apply Forall_forall. intros c Hc. apply ngeo_i32, G, in_polygon_vertices. eauto.
Qed.

(** ** the exceptions of a query *)
Lemma query_exceptions en g source destination radius flag fuel e : fit_for_queries en g -> in_the_map source -> in_the_map destination ->
  shortest_path fuel en g source destination radius flag = Some (Throw e) -> e = OnLand \/ e = NoPath.
Proof.
  intros Fit Ms Md E. destruct (query_cases en g source destination radius flag Fit Ms Md) as (ns & nd & _ & _ & Gs & Gd & K).
  destruct (handle_land_collisions (en_index en) ns nd flag) as [lc|x|u]; [|left; destruct K as (_ & _ & _ & K); rewrite K in E; congruence|destruct K].
  destruct K as [Co [[Oc Q]|(Oc & sg & dom & U & Is & Gt & R & Q)]]; rewrite Q in E; [discriminate E|].
  destruct (search_result sg (lc_source lc) (lc_dest lc) radius dom U Is Gt _ _ _ E) as [[Y _]|(l & d & st & x & k & Y & _)]; [right; congruence|discriminate Y].
Qed.
Lemma path_nonempty en g source destination radius flag fuel p : fit_for_queries en g -> in_the_map source -> in_the_map destination ->
  shortest_path fuel en g source destination radius flag = Some (Ok p) -> p <> [].
Proof.
  intros Fit Ms Md E. destruct (query_path en g source destination radius flag Fit Ms Md fuel p E) as (lc & _ & [[_ ->]|(_ & l & r & -> & _)]); discriminate.
Qed.

(** what a query of the loaded graph depends on: the program's sweep over the graph's polygons,
    any hash order, any choice of the heap, any index that answers on the globe *)
Definition usual_env (en : env) (g : graph) : Prop :=
  (exists atan2 ords, (forall c, library_orders (ords c)) /\ en_vis en = endpoint_vis atan2 ords g) /\
  row_orders (en_rows en) /\ index_in_range (en_index en).
Lemma usual_fit en g : usual_env en g -> built g -> (forall c, In c (get_vertices g) -> ngeo c) -> fit_for_queries en g.
Proof.
  intros ((atan2 & ords & L & E) & R & I) B G. split; [exact B|]. split; [exact G|]. split; [exact R|]. split; [|exact I].
  rewrite E. apply endpoint_vis_answers; assumption.
Qed.

(** the outcome of a query *)
Definition proper_answer (r : option (res (list pcoord))) : Prop :=
  (exists l, r = Some (Ok l) /\ Forall on_earth l /\ l <> []) \/ r = Some (Throw OnLand) \/ r = Some (Throw NoPath).
Lemma interpolate_answers en g c1 c2 radius flag : fit_for_queries en g -> on_earth c1 -> on_earth c2 ->
  exists n, forall fuel, (n <= fuel)%nat -> proper_answer (interpolate fuel en g c1 c2 radius flag).
Proof.
  intros Fit O1 O2. destruct (interpolate_ok en g c1 c2 radius flag Fit O1 O2) as (v1 & v2 & n & C1 & C2 & H). exists n. intros fuel L.
  destruct (H fuel L) as [(p & l & E & -> & F & O)|(e & E & ->)].
  - left. exists l. split; [reflexivity|]. split; [exact O|]. pose proof (path_nonempty _ _ _ _ _ _ _ _ Fit (close_in_map _ _ C1) (close_in_map _ _ C2) E) as N.
    intros ->. inversion F. congruence.
  - right. destruct (query_exceptions _ _ _ _ _ _ _ _ Fit (close_in_map _ _ C1) (close_in_map _ _ C2) E) as [->| ->]; auto.
Qed.

Lemma same_graph_vertices g' g : built g' -> built g -> same_graph g' g -> get_vertices g' = get_vertices g.
Proof.
  intros (ps' & h' & _ & G') (ps & h & _ & G) (P & _). rewrite (built_vertices _ _ _ G'), (built_vertices _ _ _ G).
  rewrite (built_polys _ _ _ G'), (built_polys _ _ _ G) in P. congruence.
Qed.

(** ** a bound on the file size *)
Lemma packed_rows_bound n : packed_rows n <= Z.of_nat n * Z.of_nat n.
Proof.
  unfold packed_rows. induction n as [|n IH]; [vm_compute; discriminate|].
  rewrite (seq_S (S n)), map_app. assert (E : forall l k, fold_right Z.add 0 (l ++ [k]) = fold_right Z.add 0 l + k).
  { induction l as [|x l IHl]; intros k; cbn [app fold_right]; [lia|rewrite IHl; lia]. }
  cbn [map Nat.add]. rewrite E. assert (B : bytes_for_bits (S n) <= Z.of_nat (S n)); [|lia].
  unfold bytes_for_bits. apply Z.div_le_upper_bound; lia.
Qed.
Lemma filter_shorter {A} (f : A -> bool) l : (List.length (filter f l) <= List.length l)%nat.
Proof. induction l as [|x l IH]; cbn [filter List.length]; [lia|]. destruct (f x); cbn [List.length]; lia. Qed.
Definition room (ps : list polygon) : Z :=
  let n := Z.of_nat (List.length (polygon_vertices ps)) in 16 + 8 * Z.of_nat (List.length ps) + 8 * n + 9 * n * n.
Definition fits (ps : list polygon) (limit : Z) : Prop := room ps < 2 ^ 60 /\ room ps <= limit.
Lemma file_size_bound ps h g : grun (make_graph ps) h = Ok g -> file_size g <= room ps.
Proof.
  intros G. unfold file_size, room. rewrite (built_polys _ _ _ G), (built_vertices _ _ _ G). pose proof (packed_rows_bound (List.length (polygon_vertices ps))) as P.
  assert (C : crossing_pair_count g <= Z.of_nat (List.length (polygon_vertices ps)) * Z.of_nat (List.length (polygon_vertices ps))).
  { unfold crossing_pair_count. rewrite (built_vertices _ _ _ G). match goal with |- Z.of_nat (List.length (filter ?f ?l)) <= _ =>
      pose proof (filter_shorter f l) as L end. rewrite prod_length in L. lia. }
  lia.
Qed.
Lemma fits_file ps limit h g : fits ps limit -> grun (make_graph ps) h = Ok g -> file_size g < 2 ^ 60 /\ file_size g <= limit.
Proof. intros [A B] G. pose proof (file_size_bound ps h g G). lia. Qed.

Lemma room_subset polys ps : NoDup polys -> incl polys ps -> room polys <= room ps.
Proof.
  intros N I. assert (E : exists rest, Permutation ps (polys ++ rest)).
  { revert ps I. induction N as [|p polys Np N IH]; intros ps I; [exists ps; reflexivity|].
    destruct (in_split p ps) as (a & b & ->); [apply I; left; reflexivity|]. destruct (IH (a ++ b)) as (rest & P).
    { intros q Hq. assert (Hq' : In q (a ++ p :: b)) by (apply I; right; exact Hq). apply in_app_iff in Hq'. apply in_app_iff.
      destruct Hq' as [H|[->|H]]; auto. contradiction. }
    exists rest. rewrite <- Permutation_middle. cbn [app]. apply perm_skip. exact P. }
  destruct E as (rest & P). assert (L : (List.length polys <= List.length ps)%nat) by (rewrite P, app_length; lia).
  assert (V : (List.length (polygon_vertices polys) <= List.length (polygon_vertices ps))%nat).
  { unfold polygon_vertices. rewrite <- !flat_map_concat_map. rewrite P, flat_map_app, app_length. lia. }
  unfold room. nia.
Qed.

Lemma generate_pipeline atan2 ords shapes out s limit :
  (forall v, library_orders (ords v)) -> Forall (fun s => nth_error (sh_parts s) 0 = Some O) shapes -> Forall on_earth_shape shapes ->
  s out = None -> s (removelast out) = Some Dir -> s (default_graph_path out) = None ->
  let vis := fun ps v => vis_periodic atan2 (ords v) ps v in
  exists ps g, read_polygons_from_shapefile shapes = Ok ps /\ generate (vis ps) ps = Ok g /\
    (Forall (fun p => make_polygon (verts p) = Ok p) ps -> fits ps limit ->
     exists s' g', generate_cmd vis (Ok shapes) out s = (s', Ok tt) /\
       load_graph_from_file limit (default_graph_path out) s' = Ok g' /\ built g' /\ same_graph g' g /\
       forall en c1 c2 radius flag, usual_env (en g') g' -> on_earth c1 -> on_earth c2 ->
         exists n, forall fuel, (n <= fuel)%nat -> proper_answer (interpolate_cmd limit out en fuel c1 c2 radius flag s')).
Proof.
  intros Lo W E N D N2 vis. destruct (shapes_polygons shapes W E) as (ps & Er & G).
  destruct (generate_ok ps (vis ps) (periodic_reports atan2 ords ps Lo G)) as (g & Eg & Rg). exists ps, g. split; [exact Er|]. split; [exact Eg|].
  intros Fx Fi. destruct (fits_file _ _ _ _ Fi Rg) as [S1 S2]. pose proof (adds_undirected _ (calls_adds (vis ps) (polygon_vertices ps))) as Un.
  destruct (staged_ok out (fun _ => ss <- Ok shapes ;; read_polygons_from_shapefile ss) (fun ps => generate (vis ps) ps) s limit ps g ps _
    N D N2 Er Eg Un Rg (fixed_of ps G Fx) S1 S2) as (s' & g' & E1 & E2 & E3 & B & Sg).
  exists s', g'. split; [exact E1|]. split; [exact E3|]. split; [exact B|]. split; [exact Sg|]. intros en c1 c2 radius flag Us O1 O2.
  assert (Bg : built g) by (exists ps; eexists; split; [exact Un|exact Rg]).
  assert (Fit : fit_for_queries (en g') g').
  { apply usual_fit; [exact Us|exact B|]. rewrite (same_graph_vertices g' g B Bg Sg), (built_vertices _ _ _ Rg). exact G. }
  destruct (interpolate_answers (en g') g' c1 c2 radius flag Fit O1 O2) as (n & H). exists n. intros fuel L. unfold interpolate_cmd. rewrite E3. apply H, L.
Qed.

(** ** several runs *)
Definition fresh (s : fs) (out : path) : Prop := s out = None /\ s (removelast out) = Some Dir /\ s (default_graph_path out) = None.

Lemma fresh_apart s p q : fresh s p -> fresh s q -> p <> q ->
  q <> default_graph_path p /\ removelast q <> p /\ removelast q <> default_graph_path p /\ default_graph_path q <> p /\ default_graph_path q <> default_graph_path p.
Proof.
  intros (A1 & A2 & A3) (B1 & B2 & B3) N. repeat split; intros E.
  - rewrite E, default_parent in B2. congruence.
  - congruence.
  - congruence.
  - rewrite <- E, default_parent in A2. congruence.
  - apply (f_equal (@removelast _)) in E. rewrite !default_parent in E. congruence.
Qed.
Lemma fresh_after s p q (c : cmd unit) : changes_only c p -> fresh s p -> fresh s q -> p <> q -> fresh (fst (c s)) q.
Proof.
  intros C P Q N. destruct (fresh_apart s p q P Q N) as (D1 & D2 & D3 & D4 & D5). destruct Q as (B1 & B2 & B3).
  unfold fresh. rewrite !C by auto. auto.
Qed.

Section Runs.
Variables (limit : Z) (dir : nat -> path) (c : nat -> cmd unit) (want : nat -> graph -> Prop).
Lemma run_all l : forall s, NoDup (map dir l) -> (forall i, In i l -> fresh s (dir i)) -> (forall i, In i l -> changes_only (c i) (dir i)) ->
  (forall i s, In i l -> fresh s (dir i) -> exists s' g', c i s = (s', Ok tt) /\ load_graph_from_file limit (default_graph_path (dir i)) s' = Ok g' /\ want i g') ->
  exists s', sequence (map c l) s = (s', Ok tt) /\
    (forall i, In i l -> exists g', load_graph_from_file limit (default_graph_path (dir i)) s' = Ok g' /\ want i g') /\
    (forall q, (forall i, In i l -> q <> dir i /\ q <> default_graph_path (dir i)) -> s' q = s q).
Proof.
  induction l as [|i l IH]; intros s ND Fr Ch W; [exists s; split; [reflexivity|]; split; [intros i []|reflexivity]|].
  cbn [map] in *. inversion ND as [|? ? Ni ND']; subst.
  destruct (W i s (or_introl eq_refl) (Fr i (or_introl eq_refl))) as (s1 & g1 & E1 & L1 & W1).
  assert (Fr1 : forall j, In j l -> fresh s1 (dir j)).
  { intros j Hj. replace s1 with (fst (c i s)) by (rewrite E1; reflexivity). apply (fresh_after s (dir i)).
    - apply Ch. left. reflexivity.
    - apply Fr. left. reflexivity.
    - apply Fr. right. exact Hj.
    - intros E. apply Ni. rewrite E. apply in_map. exact Hj. }
  destruct (IH s1 ND' Fr1) as (s' & E' & L' & K'); [intros j Hj; apply Ch; right; exact Hj|intros j t Hj; apply W; right; exact Hj|].
  exists s'. split; [cbn [sequence]; unfold andthen; rewrite E1; exact E'|]. split.
  - intros j [<-|Hj]; [|exact (L' j Hj)]. exists g1. split; [|exact W1]. unfold load_graph_from_file in *. rewrite K'; [exact L1|].
    intros j Hj. assert (N : dir i <> dir j) by (intros E; apply Ni; rewrite E; apply in_map; exact Hj).
    destruct (fresh_apart s (dir j) (dir i)) as (D1 & D2 & D3 & D4 & D5); [apply Fr; right; exact Hj|apply Fr; left; reflexivity|congruence|]. auto.
  - intros q Hq. rewrite K' by (intros j Hj; apply Hq; right; exact Hj). replace s1 with (fst (c i s)) by (rewrite E1; reflexivity).
    destruct (Hq i (or_introl eq_refl)) as [A B]. apply Ch; [left; reflexivity|exact A|exact B].
Qed.
End Runs.

(** the iteration order of a set of polygons *)
Definition enumerates (enum : list polygon -> list polygon) : Prop := forall l, NoDup (enum l) /\ forall p, In p (enum l) <-> In p l.

Lemma mapM_map {A B C} (f : B -> res C) (k : A -> B) l : mapM f (map k l) = mapM (fun x => f (k x)) l.
Proof. induction l as [|x l IH]; [reflexivity|]. cbn [map mapM]. rewrite IH. reflexivity. Qed.

Lemma distributed_pipeline atan2 ords shuffle enum shapes (num : nat) dir inputs out s limit :
  (forall v, library_orders (ords v)) -> (forall l, Permutation (shuffle l) l) -> enumerates enum ->
  Forall (fun s => nth_error (sh_parts s) 0 = Some O) shapes -> Forall on_earth_shape shapes ->
  (1 <= num)%nat -> NoDup (map dir (seq 0 num)) -> (forall i, (i < num)%nat -> fresh s (dir i)) ->
  Permutation inputs (map dir (seq 0 num)) -> fresh s out -> ~ In out inputs ->
  let vis := fun ps v => vis_periodic atan2 (ords v) ps v in
  exists ps g, read_polygons_from_shapefile shapes = Ok ps /\ generate (vis ps) ps = Ok g /\
    (ps <> [] -> Forall (fun p => make_polygon (verts p) = Ok p) ps -> fits ps limit ->
     exists s1 s2 m, 
       sequence (map (fun cur => generate_range_cmd vis shuffle (Ok shapes) (dir cur) (Z.of_nat cur) (Z.of_nat num)) (seq 0 num)) s = (s1, Ok tt) /\
       merge_cmd limit enum inputs out s1 = (s2, Ok tt) /\
       load_graph_from_file limit (default_graph_path out) s2 = Ok m /\ built m /\
       NoDup (get_polygons m) /\ (forall p, In p (get_polygons m) <-> In p ps) /\ same_answers m g).
Proof.
  intros Lo Sh En W E N1 ND Fr Pin Fo No vis. destruct (shapes_polygons shapes W E) as (ps & Er & G).
  pose proof (periodic_reports atan2 ords ps Lo G) as R.
  destruct (generate_ok ps (vis ps) R) as (g & Eg & Rg). exists ps, g. split; [exact Er|]. split; [exact Eg|].
  intros NE Fx Fi. pose proof (fixed_of ps G Fx) as Fm. set (shuffled := shuffle (polygon_vertices ps)).
  pose proof (Sh (polygon_vertices ps) : Permutation shuffled (polygon_vertices ps)) as P.
  destruct (all_splits ps (vis ps) shuffled num NE R P N1) as (gs & Es & F).
  assert (Ei : forall i, (i < num)%nat -> exists gi h, nth_error gs i = Some gi /\ generate_for_vertex_range (vis ps) ps (Z.of_nat i) (Z.of_nat num) shuffled = Ok gi /\
    Forall is_add h /\ grun (make_graph ps) h = Ok gi).
  { intros i Hi. destruct (split_ok ps (vis ps) i num shuffled NE R P Hi) as (gi & X1 & X2). exists gi. eexists. split; [|split; [exact X1|split; [apply calls_adds|exact X2]]].
    clear - Es Hi X1. 
    assert (K : forall l gs, mapM (fun cur => generate_for_vertex_range (vis ps) ps (Z.of_nat cur) (Z.of_nat num) shuffled) l = Ok gs ->
      forall k j, nth_error l k = Some j -> exists y, nth_error gs k = Some y /\ generate_for_vertex_range (vis ps) ps (Z.of_nat j) (Z.of_nat num) shuffled = Ok y).
    { clear. induction l as [|x l IH]; intros gs E k j H; [destruct k; discriminate H|]. cbn [mapM] in E.
      destruct (generate_for_vertex_range (vis ps) ps (Z.of_nat x) (Z.of_nat num) shuffled) as [y|e|u] eqn:Ex; cbn [bind] in E; try discriminate E.
      destruct (mapM _ l) as [ys|e|u] eqn:El; cbn [bind] in E; try discriminate E. injection E as <-.
      destruct k as [|k]; cbn [nth_error] in *; [injection H as <-; eauto|]. eauto. }
    assert (Q : nth_error (seq 0 num) i = Some i) by (rewrite (nth_error_nth' _ 0%nat) by (rewrite seq_length; exact Hi); rewrite seq_nth by exact Hi; reflexivity).
    destruct (K _ _ Es _ _ Q) as (y & Y1 & Y2). congruence. }
  set (split := fun cur => generate_range_cmd vis shuffle (Ok shapes) (dir cur) (Z.of_nat cur) (Z.of_nat num)).
  set (want := fun (i : nat) (l : graph) => exists gi, nth_error gs i = Some gi /\ built l /\ get_polygons l = ps /\ forall a b, answer l a b = answer gi a b).
  destruct (run_all limit dir split want (seq 0 num) s ND) as (s1 & E1 & L1 & K1).
  { intros i Hi. apply in_seq in Hi. apply Fr. lia. }
  { intros i _. unfold split, generate_range_cmd. apply (staged_changes (dir i) (fun _ => ss <- Ok shapes ;; read_polygons_from_shapefile ss)
      (fun ps => generate_for_vertex_range (vis ps) ps (Z.of_nat i) (Z.of_nat num) (shuffle (polygon_vertices ps)))). }
  { intros i t Hi (T1 & T2 & T3). apply in_seq in Hi. destruct (Ei i) as (gi & h & X1 & X2 & X3 & X4); [lia|]. destruct (fits_file _ _ _ _ Fi X4) as [S1 S2].
    destruct (staged_ok (dir i) (fun _ => ss <- Ok shapes ;; read_polygons_from_shapefile ss)
      (fun ps => generate_for_vertex_range (vis ps) ps (Z.of_nat i) (Z.of_nat num) (shuffle (polygon_vertices ps))) t limit ps gi ps h
      T1 T2 T3 Er X2 (adds_undirected _ X3) X4 Fm S1 S2) as (t' & l & Y1 & Y2 & Y3 & Y4 & Y5 & Y6 & Y7 & _).
    exists t', l. split; [exact Y1|]. split; [exact Y3|]. exists gi. split; [exact X1|]. split; [exact Y4|].
    split; [rewrite Y5; apply (built_polys ps h gi X4)|]. intros a b. unfold answer. rewrite Y6, Y7. reflexivity. }
  assert (Fo1 : fresh s1 out).
  { assert (Ni : forall i, In i (seq 0 num) -> dir i <> out).
    { intros i Hi X. apply No. apply (Permutation_in out (Permutation_sym Pin)). rewrite <- X. apply in_map. exact Hi. }
    assert (D : forall i, In i (seq 0 num) -> fresh s (dir i)) by (intros i Hi; apply in_seq in Hi; apply Fr; lia).
    unfold fresh. rewrite !K1; [exact Fo|..]; intros i Hi; destruct (fresh_apart s (dir i) out (D i Hi) Fo (Ni i Hi)) as (D1 & D2 & D3 & D4 & D5); split; auto.
    intros X. apply (Ni i Hi). congruence. }
  (* the inputs, in their order *)
  apply Permutation_sym in Pin. destruct (Permutation_map_inv dir (seq 0 num) (Permutation_sym Pin)) as (idx & -> & Pi).
  assert (In_idx : forall i, In i idx -> (i < num)%nat) by (intros i Hi; apply (Permutation_in i (Permutation_sym Pi)) in Hi; apply in_seq in Hi; lia).
  destruct (mapM_Forall2 (fun i => load_graph_from_file limit (default_graph_path (dir i)) (put out Dir s1)) want idx) as (ls & El & Fl).
  { intros i Hi. destruct (L1 i) as (l & Ll & Wl); [apply in_seq; pose proof (In_idx i Hi); lia|].
    exists l. split; [|exact Wl]. unfold load_graph_from_file. rewrite put_other; [exact Ll|].
    intros X. destruct Fo1 as (_ & X2 & _). rewrite <- X, default_parent in X2. destruct (fresh_apart s out (dir i) Fo (Fr i (In_idx i Hi))) as (_ & _ & _ & D & _).
    - intros Y. apply No. rewrite Y. apply in_map. exact Hi.
    - exact (D X). }
  rewrite <- (mapM_map (fun p => load_graph_from_file limit (default_graph_path p) (put out Dir s1)) dir) in El.
  assert (Bl : forall l, In l ls -> built l /\ get_polygons l = ps).
  { intros l Hl. destruct (Forall2_in_r _ _ _ _ Fl Hl) as (i & _ & gi & _ & B & Po & _). auto. }
  assert (Fb : Forall built ls) by (apply Forall_forall; intros l Hl; apply (Bl l Hl)).
  assert (Ls : ls <> []).
  { intros ->. inversion Fl; subst. apply Permutation_sym, Permutation_nil in Pi. destruct num; [lia|discriminate Pi]. }
  set (polys := enum (flat_map get_polygons ls)).
  assert (Hp : forall p, In p polys <-> In p ps).
  { intros p. unfold polys. rewrite (proj2 (En _) p), in_flat_map. split.
    - intros (l & Hl & H). destruct (Bl l Hl) as [_ <-]. exact H.
    - intros H. destruct ls as [|l ls']; [congruence|]. exists l. split; [left; reflexivity|]. destruct (Bl l (or_introl eq_refl)) as [_ ->]. exact H. }
  (* the union of the loaded graphs is the union of the generated ones *)
  set (pick := fun i => nth i gs g). set (gsp := map pick idx).
  assert (Lgs : List.length gs = num).
  { pose proof (same_length _ _ _ F) as L. rewrite map_length, seq_length in L. lia. }
  assert (Pgs : Permutation gsp gs).
  { unfold gsp. assert (X : gs = map pick (seq 0 num)).
    { apply (nth_ext _ _ g g); [rewrite map_length, seq_length; exact Lgs|]. intros n Hn. rewrite (nth_indep (map pick (seq 0 num)) g (pick 0%nat)) by (rewrite map_length, seq_length; lia).
      rewrite map_nth, seq_nth by lia. reflexivity. }
    rewrite X. apply Permutation_map. symmetry. exact Pi. }
  assert (Fl' : forall a b, flags_of ls a b = flags_of gsp a b).
  { intros a b. unfold gsp. clear - Fl. induction Fl as [|i l idx ls (gi & X & _ & _ & A) _ IH]; [reflexivity|].
    unfold flags_of in *. cbn [map flat_map]. rewrite IH, A. unfold pick at 2. rewrite (nth_error_nth gs i g X). reflexivity. }
  destruct (merged_equals ps (vis ps) shuffled num R P N1 gs ls polys F Fb) as (m & g' & G1 & G2 & G3 & G4).
  { intros l Hl. apply (Bl l Hl). }
  { intros a b. transitivity (union_view gsp a b); [unfold union_view; rewrite Fl'; reflexivity|apply union_view_perm, Pgs]. }
  { exact Hp. }
  rewrite Eg in G1. injection G1 as <-.
  destruct (merge_any_order polys ls (flat_map merge_ops ls) Fb) as (m' & M1 & M2 & _); [|tauto|].
  { intros l p Hl H. apply Hp. destruct (Bl l Hl) as [_ <-]. exact H. }
  pose proof G2 as G2'. rewrite (merge_graphs_ops polys ls Fb), M1 in G2'. injection G2' as ->.
  assert (Um : Forall undirected (flat_map merge_ops ls)).
  { apply Forall_forall. intros o Ho. apply in_flat_map in Ho. destruct Ho as (l & _ & Ho). destruct (merge_ops_in l o Ho) as (a & b & x & -> & _). exact I. }
  assert (Fm' : fixed_map polys).
  { apply Forall_forall. intros p H. apply Hp in H. revert p H. apply Forall_forall. exact Fm. }
  assert (Fi' : fits polys limit).
  { pose proof (room_subset polys ps (proj1 (En _)) (fun p H => proj1 (Hp p) H)) as Rs. destruct Fi. split; lia. }
  destruct (fits_file _ _ _ _ Fi' M2) as [S1 S2]. destruct Fo1 as (T1 & T2 & T3).
  destruct (staged_ok out (fun s => mapM (fun p => load_graph_from_file limit (default_graph_path p) s) (map dir idx))
    (fun gs => merge_graphs (enum (flat_map get_polygons gs)) gs) s1 limit ls m polys _ T1 T2 T3 El G2 Um M2 Fm' S1 S2) as (s2 & m' & Y1 & Y2 & Y3 & Y4 & Y5 & Y6 & Y7 & _).
  exists s1, s2, m'. split; [exact E1|]. split; [exact Y1|]. split; [exact Y3|]. split; [exact Y4|]. split; [|split].
  - rewrite Y5, G3. apply (En _).
  - intros p. rewrite Y5, G3. apply Hp.
  - intros a b. rewrite Y6, Y7. apply G4.
Qed.
