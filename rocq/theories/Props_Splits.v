(** C86: generating splits with whatever numbers and seeds (graph_generator.py, visgraph_generator.cpp, graph.cpp). *)
From Coq Require Import ZArith Bool List Lia Permutation.
From Verif Require Import Base F64 Coordinate Segment Polygon Graph SpecGraph GraphFacts GraphMore Visgraph VisgraphFacts SplitFacts Props_Visgraph.
Import ListNotations.
Local Open Scope Z_scope.

(** C86, one call: the range of the split number decides, and a call that cannot run throws.
    [first_of] and [last_of] are the bounds, [cur * (n / num)] and [(cur + 1) * (n / num)], or [n]
    for the last split and every number after it. *)
Theorem C86_which_run : forall ps vis j, ps <> [] -> reports ps vis -> Permutation (j_shuffled j) (polygon_vertices ps) ->
  let n := Z.of_nat (length (polygon_vertices ps)) in
  ((exists g, run_job vis ps j = Ok g) <-> j_num j <> 0 /\ 0 <= first_of n j <= last_of n j /\ last_of n j <= n) /\
  ((exists g, run_job vis ps j = Ok g) \/ (exists e, run_job vis ps j = Throw e)).
Proof.
  intros ps vis j NE R P. cbv zeta. destruct (run_job_cases ps vis NE R j P) as [(A & E)|[(A & B & E)|[(A & B & C & D & E)|(A & B & C & g & E & _)]]]; rewrite E;
    (split; [split; [intros (g' & X); try discriminate X; auto|intros (X1 & X2 & X3); try lia; eauto]|eauto]).
Qed.
Print Assumptions C86_which_run.
(** for a positive number of splits: too many splits always run, otherwise the number must not be negative
    and its range must not start behind the vertices *)
Theorem C86_positive : forall ps vis j, ps <> [] -> reports ps vis -> Permutation (j_shuffled j) (polygon_vertices ps) -> 1 <= j_num j ->
  let n := Z.of_nat (length (polygon_vertices ps)) in
  (exists g, run_job vis ps j = Ok g) <-> n < j_num j \/ (0 <= j_cur j /\ j_cur j * (n / j_num j) <= n).
Proof.
  intros ps vis j NE R P Nu. cbv zeta. destruct (C86_which_run ps vis j NE R P) as [H _]. rewrite H. clear H. set (n := Z.of_nat (length (polygon_vertices ps))). unfold first_of, last_of.
  assert (0 <= n) by (unfold n; lia). clearbody n. destruct j as [cur num sh]. cbn [j_cur j_num] in *. clear - H Nu.
  pose proof (Z.div_mod n num ltac:(lia)) as D. pose proof (Z.mod_pos_bound n num ltac:(lia)) as M. set (q := n / num) in *.
  assert (0 <= q) by nia. destruct (Z.eq_dec q 0) as [Q|Q].
  - assert (n < num) by (subst q; nia). rewrite Q. destruct (Z_lt_dec cur (num - 1)); split; intros; try (left; lia); repeat split; lia.
  - assert (num <= n) by nia. destruct (Z_lt_dec cur (num - 1)) as [L|L]; split.
    + intros (_ & A & _). right. split; [nia|nia].
    + intros [B|[A B]]; [lia|]. split; [lia|]. split; [nia|]. nia.
    + intros (_ & A & _). right. split; [lia|lia].
    + intros [B|[A B]]; [lia|]. repeat split; lia.
Qed.
Print Assumptions C86_positive.

(** C86, merged: any number of calls that ran, with any split numbers, numbers of splits and seeds.
    Two vertices are joined if and only if one that some call scanned reported the other, and the
    edge crosses the meridian if and only if all these reports say so. *)
Theorem C86_merged : forall ps vis js gs gs2 polys, ps <> [] -> reports ps vis ->
  (forall j, In j js -> Permutation (j_shuffled j) (polygon_vertices ps)) -> Forall2 (fun j g => run_job vis ps j = Ok g) js gs ->
  Permutation gs2 gs -> (forall p, In p polys <-> In p ps) ->
  let n := Z.of_nat (length (polygon_vertices ps)) in
  exists m, merge_graphs polys gs2 = Ok m /\ get_polygons m = polys /\
    forall a b, In a (polygon_vertices ps) -> In b (polygon_vertices ps) -> a <> b ->
      (has_edge m a b = Ok true <-> exists f, (scans n js a /\ reported vis a b f) \/ (scans n js b /\ reported vis b a f)) /\
      (has_edge m a b = Ok true \/ has_edge m a b = Ok false) /\
      (is_edge_meridian_crossing m a b = Ok true <-> has_edge m a b = Ok true /\
         forall f, (scans n js a /\ reported vis a b f) \/ (scans n js b /\ reported vis b a f) -> f = true).
Proof. intros ps vis js gs gs2 polys NE R P F. exact (jobs_merged ps vis NE R js gs P F gs2 polys). Qed.
Print Assumptions C86_merged.
(** so the result is a part of the graph generated in one go, never more, and all of it when every vertex was scanned *)
Theorem C86_part : forall ps vis js gs gs2 polys, ps <> [] -> reports ps vis ->
  (forall j, In j js -> Permutation (j_shuffled j) (polygon_vertices ps)) -> Forall2 (fun j g => run_job vis ps j = Ok g) js gs ->
  Permutation gs2 gs -> (forall p, In p polys <-> In p ps) ->
  exists m g, merge_graphs polys gs2 = Ok m /\ generate vis ps = Ok g /\
    (forall a b, has_edge m a b = Ok true -> has_edge g a b = Ok true /\ (is_edge_meridian_crossing g a b = Ok true -> is_edge_meridian_crossing m a b = Ok true)) /\
    ((forall v, In v (polygon_vertices ps) -> scans (Z.of_nat (length (polygon_vertices ps))) js v) -> same_answers m g).
Proof. intros ps vis js gs gs2 polys NE R P F. exact (jobs_part ps vis NE R js gs P F gs2 polys). Qed.
Print Assumptions C86_part.

(** two splits with different seeds: four vertices are scanned and three are not, and an edge between two of these is lost *)
Definition other_seed : list coord := [mkC 0 0; mkC 100 0; mkC 100 10; mkC 110 0; mkC 0 10; mkC 120 20; mkC 10 0].
Definition two_seeds : list job := [mkJ 0 2 exv_shuffled; mkJ 1 2 other_seed].
Example C86_ex : exv_ps <> [] /\ reports exv_ps exv_vis /\ (forall j, In j two_seeds -> Permutation (j_shuffled j) (polygon_vertices exv_ps)) /\
  exists gs m g, Forall2 (fun j g => run_job exv_vis exv_ps j = Ok g) two_seeds gs /\ merge_graphs exv_ps gs = Ok m /\ generate exv_vis exv_ps = Ok g /\
    has_edge g (mkC 0 0) (mkC 100 10) = Ok true /\ has_edge m (mkC 0 0) (mkC 100 10) = Ok false /\ has_edge m (mkC 0 10) (mkC 100 10) = Ok true /\
    scans 7 two_seeds (mkC 0 10) /\ ~ scans 7 two_seeds (mkC 0 0).
Proof.
  split; [discriminate|]. split; [exact exv_reports|]. split.
  { intros j [<-|[<-|[]]]; cbn [j_shuffled]; [exact exv_perm|]. eapply perm_trans; [|exact exv_perm]. apply NoDup_Permutation.
    - unfold other_seed. repeat (constructor; [intros H; repeat (destruct H as [H|H]; [discriminate H|]); destruct H|]). constructor.
    - unfold exv_shuffled. repeat (constructor; [intros H; repeat (destruct H as [H|H]; [discriminate H|]); destruct H|]). constructor.
    - intros x. vm_compute. tauto. }
  eexists. eexists. eexists. split; [repeat constructor; vm_compute; reflexivity|]. split; [vm_compute; reflexivity|]. split; [vm_compute; reflexivity|].
  repeat (split; [vm_compute; reflexivity|]). split.
  - exists (mkJ 0 2 exv_shuffled), 1%nat. split; [left; reflexivity|]. split; [|reflexivity]. unfold job_range. split; vm_compute; congruence.
  - intros (j & i & [<-|[<-|[]]] & B & E).
    + assert (L : (i < 3)%nat) by (destruct B as [_ B]; change (last_of 7 (mkJ 0 2 exv_shuffled)) with 3 in B; lia).
      do 3 (destruct i as [|i]; [discriminate E|]). lia.
    + assert (L : (3 <= i)%nat) by (destruct B as [B _]; change (first_of 7 (mkJ 1 2 other_seed)) with 3 in B; lia).
      do 3 (destruct i as [|i]; [lia|]). do 4 (destruct i as [|i]; [discriminate E|]). destruct i; discriminate E.
Qed.
(** numbers out of range: 2 of 2 scans again some of what 1 of 2 did, 3 of 2 is refused, and so are a negative number and 0 splits *)
Example C86_ex_numbers : map (fun j => match run_job exv_vis exv_ps j with Ok _ => None | Throw e => Some e | UB _ => None end)
    [mkJ 2 2 exv_shuffled; mkJ 3 2 exv_shuffled; mkJ (-1) 2 exv_shuffled; mkJ 0 0 exv_shuffled; mkJ (-5) 8 exv_shuffled] =
  [None; Some ImproperRange; Some PyTypeError; Some PyZeroDivision; None].
Proof. vm_compute. reflexivity. Qed.
