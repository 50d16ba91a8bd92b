(** Failures inside the parallel loops of generation and merging. *)
From Coq Require Import ZArith Bool List Lia.
From Verif Require Import Base F64 Coordinate Segment Polygon Graph SpecGraph GraphFacts GraphMore Visgraph VisgraphFacts CoordinateFacts.
Import ListNotations.

Lemma in_parallel_throws {A} (m : res A) e : in_parallel m <> Throw e.
Proof. destruct m; discriminate. Qed.
Lemma in_parallel_inv {A} (m : res A) a : in_parallel m = Ok a -> m = Ok a.
Proof. destruct m; cbn [in_parallel]; congruence. Qed.

Lemma range_loop vis ps s e shuffled : ps <> [] -> (e <= length (polygon_vertices ps))%nat -> (s <= e)%nat ->
  generate_with_shuffled_range vis ps s e shuffled = in_parallel (foldM (connect_vertex vis) (firstn (e - s) (skipn s shuffled)) (make_graph ps)).
Proof.
  intros Ne Le Ls. unfold generate_with_shuffled_range. destruct ps as [|p ps']; [congruence|].
  rewrite (proj2 (Nat.ltb_ge _ _) Le), (proj2 (Nat.ltb_ge _ _) Ls). reflexivity.
Qed.
Section Generation.
Variables (ps : list polygon) (vis : vis_oracle).
(** [v] reports a place that is no vertex of the map *)
Definition strays (v : coord) : Prop := exists xs x, vis v = Ok xs /\ In x xs /\ ~ In (v_coord x) (polygon_vertices ps).
Let good (g : graph) : Prop := exists h, grun (make_graph ps) h = Ok g.

Lemma add_cases g a b f : good g -> In a (polygon_vertices ps) ->
  (In b (polygon_vertices ps) /\ exists g', add_edge g a b f = Ok g' /\ good g') \/
  (~ In b (polygon_vertices ps) /\ exists e, add_edge g a b f = Throw e).
Proof.
  intros (h & E) A. destruct (step_after_history ps h g (GAdd a b f) E) as (K1 & K2 & _). cbn [known gstep] in *.
  destruct (in_dec coord_dec b (polygon_vertices ps)) as [B|B]; [left|right]; (split; [exact B|]).
  - destruct (K1 (or_intror (conj A B))) as (g' & E'). exists g'. split; [exact E'|]. exists (h ++ [GAdd a b f]).
    unfold grun in *. rewrite foldM_app, E. cbn [bind foldM]. unfold gstep_catch. cbn [gstep]. rewrite E'. reflexivity.
  - exists NotInGraph. apply K2. intros [<-|[_ X]]; [exact (B A)|exact (B X)].
Qed.
Lemma connect_cases v : In v (polygon_vertices ps) -> forall xs g, good g ->
  (exists g', foldM (fun g x => add_edge g v (v_coord x) (v_across x)) xs g = Ok g' /\ good g' /\ forall x, In x xs -> In (v_coord x) (polygon_vertices ps)) \/
  (exists e x, foldM (fun g x => add_edge g v (v_coord x) (v_across x)) xs g = Throw e /\ In x xs /\ ~ In (v_coord x) (polygon_vertices ps)).
Proof.
  intros V. induction xs as [|x xs IH]; intros g G; [left; exists g; split; [reflexivity|split; [exact G|intros ? []]]|].
  cbn [foldM]. destruct (add_cases g v (v_coord x) (v_across x) G V) as [(B & g' & -> & G')|(B & e & ->)]; cbn [bind].
  - destruct (IH g' G') as [(g2 & E & G2 & K)|(e & y & E & Y & Ny)].
    + left. exists g2. split; [exact E|split; [exact G2|]]. intros y [<-|Y]; [exact B|apply K, Y].
    + right. exists e, y. split; [exact E|split; [right; exact Y|exact Ny]].
  - right. exists e, x. split; [reflexivity|split; [left; reflexivity|exact B]].
Qed.
Lemma loop_cases : (forall v, In v (polygon_vertices ps) -> exists xs, vis v = Ok xs) ->
  forall L g, (forall v, In v L -> In v (polygon_vertices ps)) -> good g ->
  (exists g', foldM (connect_vertex vis) L g = Ok g' /\ forall v, In v L -> ~ strays v) \/
  (exists e v, foldM (connect_vertex vis) L g = Throw e /\ In v L /\ strays v).
Proof.
  intros T. induction L as [|v L IH]; intros g I G; [left; exists g; split; [reflexivity|intros ? []]|].
  cbn [foldM]. unfold connect_vertex at 1 3. destruct (T v (I v (or_introl eq_refl))) as (xs & E). rewrite E. cbn [bind].
  destruct (connect_cases v (I v (or_introl eq_refl)) xs g G) as [(g' & -> & G' & K)|(e & x & -> & X & N)]; cbn [bind].
  - destruct (IH g' (fun w W => I w (or_intror W)) G') as [(g2 & E2 & K2)|(e & w & E2 & W & S)].
    + left. exists g2. split; [exact E2|]. intros w [<-|W]; [|exact (K2 w W)]. intros (ys & y & Ey & Y & Ny). rewrite E in Ey. injection Ey as <-. exact (Ny (K y Y)).
    + right. exists e, w. split; [exact E2|split; [right; exact W|exact S]].
  - right. exists e, v. split; [reflexivity|split; [left; reflexivity|]]. exists xs, x. auto.
Qed.
(** the generation ends in a graph or the program is terminated *)
Theorem generation_aborts shuffled s e : (forall v, In v (polygon_vertices ps) -> exists xs, vis v = Ok xs) ->
  ((exists g, generate vis ps = Ok g) \/ generate vis ps = UB EscapesParallel) /\
  (generate vis ps = UB EscapesParallel <-> exists v, In v (polygon_vertices ps) /\ strays v) /\
  ((forall v, In v shuffled -> In v (polygon_vertices ps)) -> (e <= length (polygon_vertices ps))%nat -> (s <= e)%nat -> ps <> [] ->
   (generate_with_shuffled_range vis ps s e shuffled = UB EscapesParallel <-> exists v, In v (firstn (e - s) (skipn s shuffled)) /\ strays v)).
Proof.
  intros T. assert (G0 : good (make_graph ps)) by (exists []; reflexivity).
  split; [|split].
  - unfold generate. destruct (loop_cases T (polygon_vertices ps) (make_graph ps) (fun v V => V) G0) as [(g & -> & _)|(x & v & -> & _)]; [left; exists g|right]; reflexivity.
  - unfold generate. destruct (loop_cases T (polygon_vertices ps) (make_graph ps) (fun v V => V) G0) as [(g & -> & K)|(x & v & -> & V & S)]; cbn [in_parallel].
    + split; [discriminate|]. intros (v & V & S). destruct (K v V S).
    + split; [intros _; exists v; auto|reflexivity].
  - intros Sh Le Ls Ne. rewrite (range_loop vis ps s e shuffled Ne Le Ls).
    assert (I : forall v, In v (firstn (e - s) (skipn s shuffled)) -> In v (polygon_vertices ps)).
    { intros v V. apply Sh. rewrite <- (firstn_skipn s shuffled). apply in_or_app. right. rewrite <- (firstn_skipn (e - s) (skipn s shuffled)). apply in_or_app. left. exact V. }
    destruct (loop_cases T _ (make_graph ps) I G0) as [(g & -> & K)|(x & v & -> & V & S)]; cbn [in_parallel].
    + split; [discriminate|]. intros (v & V & S). destruct (K v V S).
    + split; [intros _; exists v; auto|reflexivity].
Qed.
End Generation.

(** no exception of the loops is seen by the caller *)
Lemma range_throws vis ps s e shuffled x : generate_with_shuffled_range vis ps s e shuffled = Throw x -> x = ImproperRange.
Proof.
  unfold generate_with_shuffled_range. destruct ps as [|p ps']; [discriminate|]. destruct (_ || _); [congruence|].
  intros E. destruct (in_parallel_throws _ _ E).
Qed.
