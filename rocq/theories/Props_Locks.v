(** Properties of concurrent use of one graph (C25, C26, C27). *)
From Coq Require Import ZArith Bool List Arith Lia Permutation.
From Verif Require Import Base F64 Coordinate Segment Polygon Graph SpecGraph GraphFacts GraphMore Locks LocksFacts.
Import ListNotations.
Local Open Scope nat_scope.

(** Three vertices, two threads inserting the same edge from opposite ends with different
    flags, one of them also asking questions. *)
Definition lk_a := mkC 0 0.
Definition lk_b := mkC 1000 0.
Definition lk_c := mkC 0 1000.
Definition lk_ps : list polygon := [mkP [lk_a; lk_b; lk_c]].
Definition lk_calls : list (list gcall) :=
  [[COp (GAdd lk_a lk_b true); CHas lk_a lk_b]; [COp (GAdd lk_b lk_a false); CNeigh lk_a; COp (GAdd lk_c lk_c true)]].
Definition lk_pol : sys -> nat -> bool := fun _ _ => false.

(** C25.  Whatever the number of threads and the schedule, when all calls are done the graph
    is the one that results from making the insertions in any sequential order. *)
Theorem C25_concurrent_adds : forall ps pol calls s h,
  Forall no_removal (ops_in (concat calls)) ->
  steps (length (polygon_vertices ps)) pol (start (make_graph ps) calls) s -> finished s ->
  Permutation h (ops_in (concat calls)) ->
  grun (make_graph ps) h = Ok (set_cells (make_graph ps) (s_cells s)).
Proof. exact concurrent_adds. Qed.
Print Assumptions C25_concurrent_adds.

Example C25_concurrent_adds_ex : exists s,
  steps (length (polygon_vertices lk_ps)) lk_pol (start (make_graph lk_ps) lk_calls) s /\ finished s /\
  Forall no_removal (ops_in (concat lk_calls)) /\ s_cells s = [0; 3; 0; 3; 0; 0; 0; 0; 0]%Z.
Proof.
  destruct (runs_to_end lk_ps lk_pol lk_calls _ (steps_refl _ _ _)) as (s & R & F). exists s.
  split; [exact R|]. split; [exact F|].
  assert (N : Forall no_removal (ops_in (concat lk_calls))) by (cbn; repeat constructor). split; [exact N|].
  pose proof (concurrent_adds lk_ps lk_pol lk_calls s _ N R F (Permutation_refl _)) as E.
  assert (X : grun (make_graph lk_ps) (ops_in (concat lk_calls)) = Ok (set_cells (make_graph lk_ps) [0; 3; 0; 3; 0; 0; 0; 0; 0]%Z)) by (vm_compute; reflexivity).
  rewrite X in E. inversion E. reflexivity.
Qed.

(** C25, for every mix of calls, removals included: the calls take effect one after the other
    in some order that keeps every thread's own order, and every call reports what the
    sequential graph reports at its place in that order. *)
Theorem C25_linearizable : forall ps pol calls L s,
  logged (length (polygon_vertices ps)) pol (start (make_graph ps) calls) L s ->
  grun (make_graph ps) (history ps L) = Ok (set_cells (make_graph ps) (s_cells s)) /\
  (forall L1 i d r L2, L = L1 ++ (i, d, r) :: L2 ->
     exists g1, grun (make_graph ps) (history ps L1) = Ok g1 /\ observed g1 d r) /\
  (forall i cs, nth_error calls i = Some cs -> exists rest, calls_in i L ++ rest = flat_map (dcalls (make_graph ps)) cs /\ (finished s -> rest = [])) /\
  (forall e, In e L -> fst (fst e) < length calls) /\
  Forall (fun e => from_coords ps (snd (fst e))) L.
Proof. exact linearise. Qed.
Print Assumptions C25_linearizable.

(** every run has a log *)
Theorem C25_every_run_logged : forall n pol s s', steps n pol s s' <-> exists L, logged n pol s L s'.
Proof. exact steps_logged. Qed.
Print Assumptions C25_every_run_logged.

(** C26.  In every reachable state some thread can take a step, or all are done; whether
    readers may overtake waiting writers does not matter. *)
Theorem C26_progress : forall ps pol calls s,
  steps (length (polygon_vertices ps)) pol (start (make_graph ps) calls) s ->
  finished s \/ exists i s', step (length (polygon_vertices ps)) pol s i s'.
Proof. intros ps pol calls s H. destruct (reachable_inv ps pol calls s H) as [L I]. exact (progress _ pol _ _ _ _ I). Qed.
Print Assumptions C26_progress.

(** C26.  No run is longer than the number of steps of all calls together, so every run that
    goes on as long as it can ends with all calls done. *)
Theorem C26_bounded : forall n pol s k s', nsteps n pol s k s' -> k + total_work n s' <= total_work n s.
Proof. exact nsteps_bound. Qed.
Print Assumptions C26_bounded.

Theorem C26_runs_to_end : forall ps pol calls s,
  steps (length (polygon_vertices ps)) pol (start (make_graph ps) calls) s ->
  exists s', steps (length (polygon_vertices ps)) pol s s' /\ finished s'.
Proof. exact runs_to_end. Qed.
Print Assumptions C26_runs_to_end.

(** C27.  In no reachable state is one thread about to write a cell another is about to read
    or write. *)
Theorem C27_no_race : forall ps pol calls s i1 i2 t1 t2 k w,
  steps (length (polygon_vertices ps)) pol (start (make_graph ps) calls) s ->
  i1 <> i2 -> nth_error (s_threads s) i1 = Some t1 -> nth_error (s_threads s) i2 = Some t2 ->
  accesses t1 k true -> ~ accesses t2 k w.
Proof.
  intros ps pol calls s i1 i2 t1 t2 k w H. destruct (reachable_inv ps pol calls s H) as [L I].
  exact (no_race _ _ _ _ _ I i1 i2 t1 t2 k w).
Qed.
Print Assumptions C27_no_race.

(** A reachable state in which thread 0 is about to write while thread 1 waits for its lock. *)
Ltac walk j := eapply (steps_more _ _ _ j).
Ltac nobody := intros ? ? Hin; cbn in Hin; repeat destruct Hin as [<-|Hin]; try contradiction; cbn; intros HH; repeat destruct HH as [HH|HH]; try contradiction; discriminate HH.
Example C26_C27_ex : exists s t1 t2,
  steps (length (polygon_vertices lk_ps)) lk_pol (start (make_graph lk_ps) lk_calls) s /\
  nth_error (s_threads s) 0 = Some t1 /\ nth_error (s_threads s) 1 = Some t2 /\
  accesses t1 3 true /\ t_code t2 <> [] /\ ~ finished s /\ forall s', ~ step (length (polygon_vertices lk_ps)) lk_pol s 1 s'.
Proof.
  eexists. eexists. eexists. split; [|split; [|split; [|split]]].
  - walk 1; [walk 0; [walk 0; [walk 0; [walk 0; [apply steps_refl|]|]|]|]|].
    + eapply step_call; reflexivity.
    + eapply step_lock; [reflexivity|cbn; reflexivity|nobody].
    + eapply step_lock; [reflexivity|cbn; reflexivity|nobody].
    + eapply step_read; [reflexivity|cbn; reflexivity|cbn; reflexivity].
    + eapply step_call; reflexivity.
  - reflexivity.
  - reflexivity.
  - split; reflexivity.
  - split; [discriminate|]. split.
    + intros F. destruct (F _ (or_introl eq_refl)) as [D _]. discriminate D.
    + intros s' St. inversion St as [t d ds Ht Hc Hd|t l c Ht Hc Fr|t l c Ht Hc Fr Po|t x l c Ht Hc|t k c z Ht Hc Hz|t k m c Ht Hc Hk|t k c Ht Hc Hk];
        cbn in Ht; injection Ht as <-; cbn in Hc; try discriminate Hc.
      injection Hc as El Ec. subst l. apply (Fr _ true (or_introl eq_refl)). cbn. auto.
Qed.

(** a complete run of the example has a log with the three calls of thread 0 in order *)
Example C25_linearizable_ex : exists L s,
  logged (length (polygon_vertices lk_ps)) lk_pol (start (make_graph lk_ps) lk_calls) L s /\ finished s /\
  calls_in 0 L = [DAdd 0 1 true; DAdd 1 0 true; DHas 0 1] /\ calls_in 1 L = [DAdd 1 0 false; DAdd 0 1 false; DNeigh 0].
Proof.
  destruct (runs_to_end lk_ps lk_pol lk_calls _ (steps_refl _ _ _)) as (s & R & F).
  apply steps_logged in R. destruct R as [L Lg]. exists L, s. split; [exact Lg|]. split; [exact F|].
  destruct (linearise _ _ _ _ _ Lg) as (_ & _ & P & _).
  destruct (P 0 _ eq_refl) as (r0 & E0 & N0). destruct (P 1 _ eq_refl) as (r1 & E1 & N1).
  rewrite (N0 F), app_nil_r in E0. rewrite (N1 F), app_nil_r in E1. split; [exact E0|exact E1].
Qed.
